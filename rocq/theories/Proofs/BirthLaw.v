(** The neutrons that come of fissions, and how often: property C103. *)
From Coq Require Import Bool String List Reals ZArith NArith Lra Lia.
From Coquelicot Require Import Coquelicot.
From Verif Require Import Model.Num Model.Outcome Model.Rng Model.Xml Model.Std Model.Point
  Model.Surface Model.Types Model.Field Model.Particle Model.Multigroup Model.Thermal
  Model.Continuous Model.Material Model.World Model.Perturbation Model.Estimator Model.Transport
  Spec.Vec Spec.GeometrySpec Spec.DirectionSpec Spec.RngSpec Spec.SumSpec
  Spec.MultigroupSpec Spec.MaterialSpec Spec.TextExt Spec.TransportSpec Spec.ChanceSpec Spec.EndingSpec
  Spec.CollisionSpec Spec.BirthSpec
  Proofs.OutcomeLib Proofs.RealLib Proofs.RngProofs Proofs.GeometryProofs Proofs.CellProofs
  Proofs.StreamProofs Proofs.StepLib Proofs.DirectionProofs Proofs.MultigroupProofs
  Proofs.MultigroupReal Proofs.MaterialProofs Proofs.TransportProofs Proofs.WellPosed
  Proofs.CrossingProofs Proofs.SampleProblem Proofs.ChanceLib Proofs.FlightLaw Proofs.HistoryEnds
  Proofs.CollisionLaw.
Import ListNotations.
Local Open Scope R_scope.

Lemma chance_any n E x : (forall u, 0 < u < 1 -> chance n (fun l => E (u :: l)) x) -> chance (S n) E x.
Proof.
  intros H. replace x with (1 * x) by ring. apply chance_below; [lra|exact H|intros; lra].
Qed.
Lemma chance_never n (E : list R -> bool) : (forall l, E l = false) -> chance n E 0.
Proof. exact (chance_sure n E false). Qed.

(** Rounding up or down. *)
Lemma chance_rounded k E nu j x : 
  (forall u, 0 < u < 1 -> INR j <= nu + u < INR j + 1 -> chance k (fun l => E (u :: l)) x) ->
  (forall u, 0 < u < 1 -> ~ INR j <= nu + u < INR j + 1 -> chance k (fun l => E (u :: l)) 0) ->
  chance (S k) E (rounded nu j * x).
Proof.
  intros Yes No. unfold rounded, Rabs. destruct (Rcase_abs (nu - INR j)) as [Lo|Hi].
  - destruct (Rle_dec 0 (1 + (nu - INR j))) as [In1|Out].
    + rewrite Rmax_right by lra. replace (1 - - (nu - INR j)) with (1 - (INR j - nu)) by ring.
      apply chance_above; [lra| |]; intros u Hu; [apply No; lra|]. intros Hu'. apply Yes; lra.
    + rewrite Rmax_left by lra. rewrite Rmult_0_l. apply chance_any. intros u Hu. apply No; lra.
  - destruct (Rle_dec (nu - INR j) 1) as [In1|Out].
    + rewrite Rmax_right by lra. 
      apply chance_below; [lra| |]; intros u Hu; [apply Yes; lra|]. intros Hu'. apply No; lra.
    + rewrite Rmax_left by lra. rewrite Rmult_0_l. apply chance_any. intros u Hu. apply No; lra.
Qed.

Section Column.
  Context (X : Ext XRa) (n : node) (c : node) (g : N) (Nn : nonneg_numbers X c).
  (** The draw of a group tells the group. *)
  Lemma column_same v a b : In a (groups (written_groups X n)) -> In b (groups (written_groups X n)) ->
    column_below X n c a g <= v < column_below X n c a g + weight X n c a g ->
    column_below X n c b g <= v < column_below X n c b g + weight X n c b g -> a = b.
  Proof.
    assert (Cmp : forall a b, In b (groups (written_groups X n)) -> (a < b)%N -> In a (groups (written_groups X n)) ->
      column_below X n c a g + weight X n c a g <= column_below X n c b g).
    { intros a' b' Hb Hab Ha. apply in_groups in Ha.
      assert (Ha' : In a' (groups (b' - 1))) by (apply in_groups; lia).
      destruct (groups_split _ _ Ha') as (po & Eo). unfold column_below. rewrite Eo, map_app, Rsum_app.
      cbn [map Rsum]. enough (0 <= Rsum (map (fun h' => weight X n c h' g) po)) by lra.
      clear -Nn. induction po as [|y po IH]; cbn; [lra|].
      pose proof (proj2 (weight_fin X n c y g Nn)). lra. }
    intros Ha Hb Ia Ib.
    destruct (N.lt_trichotomy a b) as [L|[L|L]]; [|auto|].
    - pose proof (Cmp a b Hb L Ha). lra.
    - pose proof (Cmp b a Ha L Hb). lra.
  Qed.
End Column.

Section Births.
  Context (X : Ext XRa) (n : node) (mg : multigroup XRa) (g : N).
  Hypotheses (C : multigroup_create X n = Ok mg) (S : sensible_data X n)
    (Hg : In g (groups (written_groups X n)))
    (Nf : fission_node n <> None) (Hc : 0 < column_sum X n (chi_node n) g).
  Let B := multigroup_built X n mg C.
  Let V : valid_rng Given := open_valid _ given_open.
  Let chi := map Fin (map (share X n (chi_node n) g) (groups (written_groups X n))).

  Lemma chi_nonneg : nonneg_numbers X (chi_node n).
  Proof.
    destruct (sd_fission _ _ S Nf) as [_ Nc]. apply (sd_nonneg _ _ S); auto. do 4 right; now left.
  Qed.

  Definition births (ws : list wanted) (p : particle XRa Given) (q : particle XRa Given) : bool :=
    as_wanted ws (skipn (length (p_secondaries p)) (p_secondaries q)).

  (** One neutron. *)
  Lemma one_birth k (p : particle XRa Given) v : 0 < v < 1 -> exists h, In h (groups (written_groups X n))
    /\ column_below X n (chi_node n) h g <= v * column_sum X n (chi_node n) g
       < column_below X n (chi_node n) h g + weight X n (chi_node n) h g
    /\ forall u phi, 0 < u < 1 -> exists s : particle XRa Given,
       p_energy s = Group h /\ px (p_direction s) = Fin (2 * u - 1)
       /\ forall w l, mg_fission_loop (A := XRa) (Datatypes.S k) mg chi (set_rng p (v :: u :: phi :: w :: l))
          = mg_fission_loop (A := XRa) k mg chi (set_rng (set_secondaries p (p_secondaries p ++ [s])) l).
  Proof.
    intros Hv. pose proof (sd_groups _ _ S) as HG.
    destruct (pick_column X n (chi_node n) g v chi_nonneg HG ltac:(lra)) as (sel & Esel & Sel & _).
    destruct (Sel Hc) as (h & -> & Hh & Hw & Hb). exists h. split; [exact Hh|]. split; [exact Hb|].
    intros u phi Hu.
    exists (new_particle (G := Given) (p_position p) (fst (dir_isotropic Given [u; phi])) (Group h) neutron 1 (p_cell p)).
    split; [reflexivity|]. split.
    - destruct (C70_isotropic_direction_proof Given [u; phi] V) as (u' & v' & Eu & _ & _ & _ & Ed & _).
      cbn in Eu. rewrite inside_is in Eu by auto. injection Eu as <-.
      cbn zeta in Ed. cbn [p_direction new_particle]. rewrite Ed. reflexivity.
    - intros w l. cbn [mg_fission_loop]. unfold p_unif. cbn [p_rng set_rng runif Given hd tl].
      rewrite inside_is by auto.
      rewrite (bu_groups _ _ _ B). change (nofZ XRa 0) with (Fin 0). unfold chi at 1. rewrite Esel. cbn [bind].
      reflexivity.
  Qed.

  Lemma skipped {T} (a : list T) s l : skipn (length a) ((a ++ [s]) ++ l) = s :: skipn (length (a ++ [s])) ((a ++ [s]) ++ l).
  Proof.
    rewrite (skipn_app (length (a ++ [s]))), skipn_all, Nat.sub_diag. cbn [skipn app].
    rewrite <- app_assoc, skipn_app, skipn_all, Nat.sub_diag. reflexivity.
  Qed.

  Lemma chance_births k : forall (ws : list wanted) (p : particle XRa Given), List.Forall (fun w => In (fst w) (groups (written_groups X n)) /\ -1 <= snd w <= 1) ws ->
    chance (4 * length ws + k) (fun l => comes_to (mg_fission_loop (A := XRa) (length ws) mg chi (set_rng p l)) (births ws p))
      (all_emitted X g ws n).
  Proof.
    pose proof chi_nonneg as Nn. pose proof (sd_groups _ _ S) as HG.
    induction ws as [|[h x] ws IH]; intros p F.
    - cbn [length all_emitted]. apply (chance_sure _ _ true). intros l. cbn [mg_fission_loop comes_to]. unfold births.
      cbn [p_secondaries set_rng]. now rewrite skipn_all.
    - inversion F as [|? ? [Hh Hx] F']; subst. cbn [fst snd] in Hh, Hx.
      cbn [length]. replace (4 * Datatypes.S (length ws) + k)%nat with (Datatypes.S (3 + (4 * length ws + k))) by lia.
      match goal with |- chance _ _ ?a => replace a
        with (weight X n (chi_node n) h g * ((1 + x) / 2 * all_emitted X g ws n) / column_sum X n (chi_node n) g)
        by (cbn [all_emitted]; unfold emitted; field; lra) end.
      rewrite <- (Rsum_one (fun h' => weight X n (chi_node n) h' g) h ((1 + x) / 2 * all_emitted X g ws n) _ (groups_nodup _) Hh).
      apply (chance_shares (fun h' => weight X n (chi_node n) h' g)
               (fun h' => if N.eqb h' h then (1 + x) / 2 * all_emitted X g ws n else 0)); auto.
      + intros z Hz. apply (weight_fin X n (chi_node n) z g Nn).
      + intros v Hv. destruct (one_birth (length ws) p v Hv) as (h0 & H0 & I0 & One).
        destruct (groups_split _ _ H0) as (post & Ep).
        exists (groups (h0 - 1)), h0, post. split; [exact Ep|]. split; [exact I0|].
        (* what the first neutron decides *)
        assert (Step : forall u phi, 0 < u < 1 -> exists p' : particle XRa Given, forall w l,
          comes_to (mg_fission_loop (A := XRa) (Datatypes.S (length ws)) mg chi (set_rng p (v :: u :: phi :: w :: l))) (births ((h, x) :: ws) p)
          = (N.eqb h0 h && (if Rlt_dec (2 * u - 1) x then true else false))
            && comes_to (mg_fission_loop (A := XRa) (length ws) mg chi (set_rng p' l)) (births ws p')).
        { intros u phi Hu. destruct (One u phi Hu) as (s & En & Ed & E).
          exists (set_secondaries p (p_secondaries p ++ [s])). intros w l. rewrite E.
          destruct (fission_loop_real Given X n mg g (chi_node n) (length ws)
                      (set_rng (set_secondaries p (p_secondaries p ++ [s])) l) V B Nn HG)
            as (q & new & Eq & Es & _). fold chi in Eq. rewrite Eq. cbn [comes_to].
          cbn [p_secondaries set_rng set_secondaries] in Es. unfold births. rewrite Es.
          cbn [p_secondaries set_rng set_secondaries]. rewrite skipped. cbn [as_wanted].
          unfold in_group at 1, cosine_below at 1. rewrite En, Ed. reflexivity. }
        destruct (N.eqb_spec h0 h) as [_|Ne].
        * apply (chance_below (2 + (4 * length ws + k))); [lra| |].
          -- intros u Hu. cbn [Nat.add]. apply chance_any. intros phi Hphi. apply chance_any. intros w Hw.
             destruct (Step u phi ltac:(lra)) as (p' & E).
             eapply chance_ext; [|exact (IH p' F')]. intros l. cbv beta. rewrite E.
             destruct (Rlt_dec (2 * u - 1) x); [reflexivity|lra].
          -- intros u Hu Hu'. cbn [Nat.add]. apply chance_any. intros phi Hphi. apply chance_any. intros w Hw.
             destruct (Step u phi ltac:(lra)) as (p' & E).
             apply chance_never. intros l. rewrite E. destruct (Rlt_dec (2 * u - 1) x); [lra|reflexivity].
        * cbn [Nat.add]. do 3 (apply chance_any; intros ? ?).
          match goal with H : 0 < ?u < 1, H' : 0 < ?phi < 1, H'' : 0 < ?w < 1 |- chance _ (fun l => comes_to (_ _ _ _ _ (set_rng p (v :: ?u :: ?phi :: ?w :: l))) _) _ =>
            destruct (Step u phi H) as (p' & E); apply chance_never; intros l; rewrite E; reflexivity end.
  Qed.

  Lemma wanted_length {G : Rng XRa} : forall ws (l : list (particle XRa G)), as_wanted ws l = true -> length l = length ws.
  Proof.
    induction ws as [|[h x] ws IH]; intros [|q l] H; try discriminate; auto.
    cbn [as_wanted] in H. apply andb_prop in H as [_ H]. cbn. f_equal. auto.
  Qed.

  Lemma chi_built : chi_node n <> None ->
    mg_chi mg = Some (map (fun g' => normalize_column (A := XRa) (column (numbers X (chi_node n)) (written_groups X n) g')) (groups (written_groups X n))).
  Proof.
    clear -B. intros Nc. pose proof (bu_chi _ _ _ B) as Bc. destruct (chi_node n); [exact (proj1 Bc)|congruence].
  Qed.

  (** Fission. *)
  Lemma chance_wanted (p : particle XRa Given) k ws : p_energy p = Group g ->
    List.Forall (fun w => In (fst w) (groups (written_groups X n)) /\ -1 <= snd w <= 1) ws ->
    chance (1 + (4 * length ws + k)) (fun l => comes_to (mg_fission mg (set_rng p l))
        (fun q => event_eqb (p_event q) fission && births ws p q))
      (rounded (real_of (vector_entry X (nubar_node n) g)) (length ws) * all_emitted X g ws n).
  Proof.
    intros Eg F. pose proof chi_nonneg as Nn. pose proof (sd_groups _ _ S) as HG.
    set (nu := real_of (vector_entry X (nubar_node n) g)).
    assert (D : forall u, 0 < u < 1 -> exists i, INR i <= nu + u < INR i + 1 /\ forall l,
      mg_fission mg (set_rng p (u :: l)) = noexcept (mg_fission_loop (A := XRa) i mg chi (set_rng (set_event p fission) l))).
    { intros u Hu. destruct (sd_fission _ _ S Nf) as [Nu Nc].
      assert (Nnu : nonneg_numbers X (nubar_node n)).
      { apply (sd_nonneg _ _ S); auto. do 3 right; now left. }
      pose proof (proj1 (in_groups _ _) Hg) as Hg'.
      destruct (vector_fin X (nubar_node n) g Nnu) as [Ef Nf0].
      assert (Bn : mg_nubar mg = Some (numbers X (nubar_node n))
                   /\ N.of_nat (length (numbers X (nubar_node n))) = written_groups X n).
      { clear -B Nu. pose proof (bu_nubar _ _ _ B) as Bn. destruct (nubar_node n); [exact Bn|congruence]. }
      destruct Bn as [Bn Ln].
      pose proof (chi_built Nc) as Bc.
      assert (Hmax : nu < IZR (2 ^ 63)).
      { pose proof (sd_yield _ _ S) as Y. rewrite Forall_forall in Y. apply Y.
        unfold vector_entry. apply nth_In. lia. }
      fold nu in Ef, Nf0.
      destruct (to_yield_fin (nu + u)) as (y & Ey & Hy).
      { change (2 ^ 63)%Z with 9223372036854775808%Z in Hmax.
        change (2 ^ 64)%Z with 18446744073709551616%Z. lra. }
      exists (N.to_nat y). split; [exact Hy|]. intros l.
      unfold mg_fission. f_equal. cbn [p_energy set_event set_rng]. rewrite Eg. cbn [get_group bind].
      rewrite Bn, Bc. cbn [of_option bind].
      rewrite (group_at_nth _ _ (Fin 0)) by (try exact (proj1 Hg'); try lia;
        change (num XRa) with xr in *; cbn in Ln |- *; lia).
      cbn [bind].
      change (nth (N.to_nat (g - 1)) (numbers X (nubar_node n)) (Fin 0)) with (vector_entry X (nubar_node n) g).
      rewrite Ef. unfold p_unif. cbn [p_rng set_rng set_event runif Given hd tl]. rewrite inside_is by auto.
      change (nadd XRa (Fin nu) (Fin u)) with (Fin (nu + u)). rewrite Ey. cbn [bind].
      rewrite (group_at_nth _ _ []); try lia.
      2: { rewrite map_length, groups_length. lia. }
      rewrite (nth_groups _ _ _ _ Hg), (normalized_fin X n (chi_node n) g Nn). cbn [bind]. reflexivity. }
    assert (Dq : forall i l, exists q new, mg_fission_loop (A := XRa) i mg chi (set_rng (set_event p fission) l) = Ok q
      /\ p_event q = fission /\ p_secondaries q = (p_secondaries p ++ new)%list /\ length new = i).
    { intros i l. destruct (fission_loop_real Given X n mg g (chi_node n) i (set_rng (set_event p fission) l) V B Nn HG)
        as (q & new & E & H1 & H2 & _ & _ & _ & H10 & _). exists q, new. split; [exact E|]. split; [exact H10|]. split; [exact H1|]. auto. }
    apply chance_rounded; intros u Hu I.
    - destruct (D u Hu) as (i & Ii & E).
      assert (i = length ws).
      { assert (i < length ws + 1)%nat by (apply INR_lt; rewrite plus_INR; cbn [INR]; lra).
        assert (length ws < i + 1)%nat by (apply INR_lt; rewrite plus_INR; cbn [INR]; lra). lia. }
      subst i. eapply chance_ext; [|exact (chance_births k ws (set_event p fission) F)].
      intros l. cbv beta. rewrite E, comes_noexcept. destruct (Dq (length ws) l) as (q & new & Eq & Ev & _).
      refine (eq_trans (f_equal (fun o => comes_to o (births ws (set_event p fission))) Eq) _).
      rewrite Eq. cbn [comes_to]. rewrite Ev. reflexivity.
    - destruct (D u Hu) as (i & Ii & E). apply chance_never. intros l. rewrite E, comes_noexcept.
      destruct (Dq i l) as (q & new & Eq & Ev & Es & L). rewrite Eq. cbn [comes_to]. rewrite Ev. cbn [event_eqb andb].
      unfold births. rewrite Es, skipn_app, skipn_all, Nat.sub_diag. cbn [app skipn].
      destruct (as_wanted ws new) eqn:Ew; auto. apply wanted_length in Ew. exfalso. apply I.
      assert (Ei : i = length ws) by (rewrite <- L; exact Ew). subst i. rewrite Ei in Ii. exact Ii.
  Qed.
End Births.

(** The neutrons of fission come as often as the data say. *)
Lemma C103_births_proof :
  forall (X : Ext XRa) (Gs : list N) (doc : nuclide XRa -> node) (m : material XRa) (c : cell XRa)
    (p : particle XRa Given) (g : N) (fuel : nat) (t : tracking) (d : R) (ws : list wanted) (more : nat),
  mixture X Gs doc m -> group_neutron Gs p -> p_energy p = Group g ->
  p_cell p = Some c -> c_material c = Some m ->
  (forall nu a, In (nu, a) (m_afracs m) -> fission_node (doc nu) <> None ->
     0 < column_sum X (doc nu) (chi_node (doc nu)) g) ->
  List.Forall (fun w => In (fst w) Gs /\ -1 <= snd w <= 1) ws ->
  chance (3 + (4 * length ws + more))
    (fun l => comes_to (collide (A := XRa) fuel t (Fin d) (set_rng p l))
       (fun q => event_eqb (p_event q) fission
                 && as_wanted ws (skipn (length (p_secondaries p)) (p_secondaries q))))
    (mixed_sum doc m (fun n => multiplying X g (length ws) n * all_emitted X g ws n)
     / mixed_sum doc m (any_reaction X g)).
Proof.
  intros X Gs doc m c p g fuel t d ws more M N0 Eg Ec Em Hchi F.
  destruct (collide_is X Gs doc m c p M N0 Ec Em fuel t d) as (q & Nq & Qe & Qc & Qs & Cq).
  rewrite <- Qe in Eg. rewrite <- Qc in Ec.
  pose proof (mixture_group Gs g q Nq Eg) as Hg.
  eapply chance_ext; [intros l; rewrite Cq; reflexivity|].
  set (y := fun n r => match r with
    | Rfission => rounded (real_of (vector_entry X (nubar_node n) g)) (length ws) * all_emitted X g ws n | _ => 0 end).
  replace (mixed_sum doc m (fun n => multiplying X g (length ws) n * all_emitted X g ws n))
    with (mixed_sum doc m (fun n => sigma X n Rcapture g * y n Rcapture + sigma X n Rscatter g * y n Rscatter
            + sigma X n Rfission g * y n Rfission))
    by (apply mixed_ext; intros; unfold multiplying, y; ring).
  apply (chance_mixture X Gs doc m c g q M Nq Eg Ec Em fuel (1 + (4 * length ws + more)) _ y).
  intros nu a mg r Hin C S W P Wr Pr. pose proof Hg as Hg'. rewrite <- W in Hg', F.
  pose proof (present_node X (doc nu) g r Wr) as Pn.
  destruct r.
  1, 2: match goal with |- chance ?n _ (_ _ ?r) => apply (chance_never n); intros l;
          destruct (proceed_event X (doc nu) mg g q C S Hg' Eg r l Wr Pr) as (q' & E & Ev);
          unfold comes_to; rewrite E, Ev; reflexivity end.
  rewrite <- Qs. apply (chance_wanted X (doc nu) mg g C S Hg' Pn (Hchi nu a Hin Pn) q more ws Eg F).
Qed.

(** ** An example: fission by the second group, a neutron in each group *)
Definition slow_neutron : particle XRa Given := set_energy blend_neutron (Group 2).
Definition one_each : list wanted := [(1%N, 0); (2%N, 1)].
Lemma fuel_chi : column_sum slab_ext fuel_node (chi_node fuel_node) 2 = 2
  /\ weight slab_ext fuel_node (chi_node fuel_node) 1 2 = 1 /\ weight slab_ext fuel_node (chi_node fuel_node) 2 2 = 1
  /\ real_of (vector_entry slab_ext (nubar_node fuel_node) 2) = 2.
Proof. repeat split; blend_data. Qed.

Lemma C103_example :
  mixture slab_ext [1; 2]%N blend_doc blend /\ group_neutron [1; 2]%N slow_neutron
  /\ p_energy slow_neutron = Group 2 /\ p_cell slow_neutron = Some blend_cell
  /\ c_material blend_cell = Some blend
  /\ (forall nu a, In (nu, a) (m_afracs blend) -> fission_node (blend_doc nu) <> None ->
        0 < column_sum slab_ext (blend_doc nu) (chi_node (blend_doc nu)) 2)
  /\ List.Forall (fun w => In (fst w) [1; 2]%N /\ -1 <= snd w <= 1) one_each
  /\ mixed_sum blend_doc blend (any_reaction slab_ext 2) = 15 / 4
  /\ mixed_sum blend_doc blend
       (fun n => multiplying slab_ext 2 (length one_each) n * all_emitted slab_ext 2 one_each n) = 1 / 16.
Proof.
  destruct fuel_sigma as (F1 & F2 & F3 & F4 & F5 & F6 & F7 & F8 & F9).
  destruct moderator_sigma as (M1 & M2 & M3 & M4 & M5 & M6 & M7).
  destruct fuel_chi as (K1 & K2 & K3 & K4).
  destruct C102_example as (Mx & _).
  split; [exact Mx|]. split; [|split; [reflexivity|split; [reflexivity|split; [reflexivity|split; [|split]]]]].
  - constructor.
    + reflexivity.
    + exists 2%N. split; [reflexivity|right; now left].
    + eexists. reflexivity.
    + exists (V3 1 0 0). split; [reflexivity|apply unit_x].
  - intros nu a [H|[H|[]]]; injection H as <- <-.
    + change (blend_doc fuel_nuclide) with fuel_node. intros _. rewrite K1. lra.
    + intros N. exfalso. apply N. reflexivity.
  - repeat constructor; cbn; (lra || tauto).
  - assert (E : forall f, mixed_sum blend_doc blend f = 1 / 4 * f fuel_node + 3 / 4 * f moderator_node).
    { intros f. unfold mixed_sum, weighted. cbn [m_afracs blend map Rsum fst].
      change (blend_doc fuel_nuclide) with fuel_node. change (blend_doc moderator_nuclide) with moderator_node.
      unfold fraction. cbn [snd real_of]. ring. }
    rewrite !E. unfold any_reaction, multiplying. rewrite F4, F5, F6, M4, M5, M6, K4. split; [lra|].
    cbn [one_each all_emitted length]. unfold emitted. rewrite K1, K2, K3.
    replace (rounded 2 2) with 1; [lra|].
    unfold rounded. cbn [INR]. rewrite Rabs_pos_eq by lra. rewrite Rmax_right by lra. lra.
Qed.
