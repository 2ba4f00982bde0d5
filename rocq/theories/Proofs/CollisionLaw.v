(** What collisions come to, and how often: property C102. *)
From Coq Require Import Bool String List Reals ZArith NArith Lra Lia.
From Coquelicot Require Import Coquelicot.
From Verif Require Import Model.Num Model.Outcome Model.Rng Model.Xml Model.Std Model.Point
  Model.Surface Model.Types Model.Field Model.Particle Model.Multigroup Model.Thermal
  Model.Continuous Model.Material Model.World Model.Perturbation Model.Estimator Model.Transport
  Spec.Vec Spec.GeometrySpec Spec.DirectionSpec Spec.RngSpec Spec.SumSpec
  Spec.MultigroupSpec Spec.MaterialSpec Spec.TextExt Spec.TransportSpec Spec.ChanceSpec Spec.EndingSpec
  Spec.CollisionSpec
  Proofs.OutcomeLib Proofs.RealLib Proofs.RngProofs Proofs.GeometryProofs Proofs.CellProofs
  Proofs.StreamProofs Proofs.StepLib Proofs.DirectionProofs Proofs.MultigroupProofs
  Proofs.MultigroupReal Proofs.MaterialProofs Proofs.TransportProofs Proofs.WellPosed
  Proofs.CrossingProofs Proofs.SampleProblem Proofs.ChanceLib Proofs.FlightLaw Proofs.HistoryEnds.
Import ListNotations.
Local Open Scope R_scope.

(** ** Choices by shares *)
Section Shares.
  Context {Y : Type} (w x : Y -> R) (T : R).
  Hypothesis HT : 0 < T.

  Fixpoint chosen (L : list Y) (acc u : R) : R :=
    match L with
    | [] => 0
    | y :: L' => if Rlt_dec (u * T) (acc + w y) then x y else chosen L' (acc + w y) u
    end.

  Lemma chosen_is u y post : forall pre acc, (forall z, In z pre -> 0 <= w z) ->
    acc + Rsum (map w pre) <= u * T < acc + Rsum (map w pre) + w y ->
    chosen (pre ++ y :: post) acc u = x y.
  Proof.
    induction pre as [|z pre IH]; intros acc Nn H; cbn [app chosen map Rsum] in *.
    - destruct (Rlt_dec (u * T) (acc + w y)); [auto|lra].
    - assert (0 <= Rsum (map w pre)).
      { clear -Nn. induction pre as [|a pre IH]; cbn; [lra|].
        assert (0 <= w a) by (apply Nn; right; now left).
        enough (0 <= Rsum (map w pre)) by lra. apply IH. intros b [->|Hb]; apply Nn; [now left|right; now right]. }
      destruct (Rlt_dec (u * T) (acc + w z)); [lra|].
      apply IH; [intros b Hb; apply Nn; now right|lra].
  Qed.

  Lemma chosen_integral : forall L acc, (forall z, In z L -> 0 <= w z) ->
    integral (chosen L acc) (acc / T) ((acc + Rsum (map w L)) / T) (Rsum (map (fun y => w y * x y) L) / T).
  Proof.
    assert (Mono : forall a b, a <= b -> a / T <= b / T).
    { intros a b H. apply Rmult_le_compat_r; auto. left. now apply Rinv_0_lt_compat. }
    assert (Lt : forall u a, u < a / T -> u * T < a).
    { intros u a H. apply (Rmult_lt_compat_r T) in H; auto. unfold Rdiv in H. rewrite Rmult_assoc, Rinv_l in H; lra. }
    assert (Gt : forall u a, a / T < u -> a < u * T).
    { intros u a H. apply (Rmult_lt_compat_r T) in H; auto. unfold Rdiv in H. rewrite Rmult_assoc, Rinv_l in H; lra. }
    induction L as [|y L IH]; intros acc Nn; cbn [chosen map Rsum].
    - apply integral_is. unfold Rdiv. ring.
    - assert (0 <= w y) by (apply Nn; now left).
      assert (Nn' : forall z, In z L -> 0 <= w z) by (intros z Hz; apply Nn; now right).
      assert (0 <= Rsum (map w L)).
      { clear -Nn'. induction L as [|a L IH]; cbn; [lra|].
        assert (0 <= w a) by (apply Nn'; now left).
        enough (0 <= Rsum (map w L)) by lra. apply IH. intros b Hb. apply Nn'. now right. }
      replace ((w y * x y + Rsum (map (fun y0 => w y0 * x y0) L)) / T)
        with ((w y * x y) / T + Rsum (map (fun y0 => w y0 * x y0) L) / T) by (field; lra).
      apply integral_chasles with ((acc + w y) / T).
      + apply (integral_ext (fun _ => x y)); [apply Mono; lra| |apply integral_is; field; lra].
        intros u [_ Hu]. apply Lt in Hu. destruct (Rlt_dec (u * T) (acc + w y)); [auto|lra].
      + rewrite <- Rplus_assoc.
        apply (integral_ext (chosen L (acc + w y))); [apply Mono; lra| |now apply IH].
        intros u [Hu _]. apply Gt in Hu. destruct (Rlt_dec (u * T) (acc + w y)); [lra|auto].
  Qed.

  Lemma chance_shares n E L : (forall z, In z L -> 0 <= w z) -> Rsum (map w L) = T ->
    (forall u, 0 < u < 1 -> exists pre y post, L = (pre ++ y :: post)%list
       /\ Rsum (map w pre) <= u * T < Rsum (map w pre) + w y
       /\ chance n (fun l => E (u :: l)) (x y)) ->
    chance (S n) E (Rsum (map (fun y => w y * x y) L) / T).
  Proof.
    intros Nn ET H. exists (chosen L 0), []. split.
    - intros u Hu _. destruct (H u Hu) as (pre & y & post & -> & I & C).
      rewrite (chosen_is u y post pre 0); auto; [|lra]. intros z Hz. apply Nn, in_app_iff. now left.
    - pose proof (chosen_integral L 0 Nn) as I. rewrite ET in I.
      replace (0 / T) with 0 in I by (field; lra). replace ((0 + T) / T) with 1 in I by (field; lra). exact I.
  Qed.
End Shares.

Lemma chance_sure n (E : list R -> bool) b : (forall l, E l = b) -> chance n E (if b then 1 else 0).
Proof. intros H. eapply chance_ext; [intros l; symmetry; apply H|apply chance_const]. Qed.

(** A number below a bound. *)
Lemma chance_below n E a x : 0 <= a <= 1 ->
  (forall u, 0 < u < a -> chance n (fun l => E (u :: l)) x) ->
  (forall u, 0 < u < 1 -> a <= u -> chance n (fun l => E (u :: l)) 0) ->
  chance (S n) E (a * x).
Proof.
  intros Ha H1 H2.
  replace (a * x) with (Rsum (map (fun y : bool => (if y then a else 1 - a) * (if y then x else 0)) [true; false]) / 1)
    by (cbn; field).
  apply chance_shares; [lra| | |].
  - intros [] _; lra.
  - cbn. lra.
  - intros u Hu. destruct (Rlt_dec u a).
    + exists [], true, [false]. split; [reflexivity|]. split; [cbn; lra|]. now apply H1; lra.
    + exists [true], false, []. split; [reflexivity|]. split; [cbn; lra|]. apply H2; lra.
Qed.
Lemma chance_above n E a x : 0 <= a <= 1 ->
  (forall u, 0 < u < a -> chance n (fun l => E (u :: l)) 0) ->
  (forall u, 0 < u < 1 -> a <= u -> chance n (fun l => E (u :: l)) x) ->
  chance (S n) E ((1 - a) * x).
Proof.
  intros Ha H1 H2.
  replace ((1 - a) * x) with (Rsum (map (fun y : bool => (if y then a else 1 - a) * (if y then 0 else x)) [true; false]) / 1)
    by (cbn; field).
  apply chance_shares; [lra| | |].
  - intros [] _; lra.
  - cbn. lra.
  - intros u Hu. destruct (Rlt_dec u a).
    + exists [], true, [false]. split; [reflexivity|]. split; [cbn; lra|]. now apply H1; lra.
    + exists [true], false, []. split; [reflexivity|]. split; [cbn; lra|]. apply H2; lra.
Qed.

(** ** Groups *)
Lemma groups_split G h : In h (groups G) -> exists post, groups G = (groups (h - 1) ++ h :: post)%list.
Proof.
  intros H. apply in_groups in H. unfold groups.
  exists (map N.of_nat (seq (S (N.to_nat h)) (N.to_nat (G - h)))).
  replace (N.to_nat G) with (N.to_nat (h - 1) + S (N.to_nat (G - h)))%nat by lia.
  rewrite seq_app, map_app. f_equal. cbn [seq map]. f_equal; [lia|]. f_equal. f_equal. lia.
Qed.
Lemma groups_nodup G : NoDup (groups G).
Proof.
  unfold groups. apply FinFun.Injective_map_NoDup; [|apply seq_NoDup]. intros a b H. lia.
Qed.
Lemma Rsum_one (f : N -> R) h z L : NoDup L -> In h L ->
  Rsum (map (fun y => f y * (if N.eqb y h then z else 0)) L) = f h * z.
Proof.
  intros Nd. induction Nd as [|a L Na Nd IH]; intros Hin; [destruct Hin|]. cbn [map Rsum].
  destruct (N.eqb_spec a h) as [->|Ne].
  - assert (Z : Rsum (map (fun y => f y * (if N.eqb y h then z else 0)) L) = 0).
    { clear IH Hin Nd. induction L as [|b L IH]; cbn [map Rsum]; [reflexivity|]. rewrite IH.
      - destruct (N.eqb_spec b h) as [->|]; [exfalso; apply Na; now left|ring].
      - intros H. apply Na. now right. }
    rewrite Z. ring.
  - destruct Hin as [->|Hin]; [congruence|]. rewrite (IH Hin). ring.
Qed.
Lemma Rsum_part {Y} (f : Y -> R) L h : (forall y, In y L -> 0 <= f y) -> In h L -> f h <= Rsum (map f L).
Proof.
  induction L as [|a L IH]; intros Nn Hin; [destruct Hin|]. cbn [map Rsum].
  assert (0 <= f a) by (apply Nn; now left).
  assert (0 <= Rsum (map f L)).
  { clear -Nn. induction L as [|b L IH]; cbn; [lra|]. assert (0 <= f b) by (apply Nn; right; now left).
    enough (0 <= Rsum (map f L)) by lra. apply IH. intros y [->|Hy]; apply Nn; [now left|right; now right]. }
  destruct Hin as [->|Hin]; [lra|]. enough (f h <= Rsum (map f L)) by lra. apply IH; auto.
  intros y Hy. apply Nn. now right.
Qed.

(** ** One nuclide *)
Lemma comes_noexcept {G : Rng XRa} (o : outcome (particle XRa G)) test : comes_to (noexcept o) test = comes_to o test.
Proof. now destruct o. Qed.

Definition proceed (mg : multigroup XRa) (r : reaction) (p : particle XRa Given) : outcome (particle XRa Given) :=
  match r with Rcapture => Ok (mg_capture p) | Rscatter => mg_scatter mg p | Rfission => mg_fission mg p end.

Section Nuclide.
  Context (X : Ext XRa) (n : node) (mg : multigroup XRa) (g : N) (p : particle XRa Given).
  Hypotheses (C : multigroup_create X n = Ok mg) (S : sensible_data X n)
    (Hg : In g (groups (written_groups X n))) (Eg : p_energy p = Group g).
  Let B := multigroup_built X n mg C.
  Let V : valid_rng Given := open_valid _ given_open.
  Let tot := any_reaction X g n.
  Hypothesis Ht : 0 < tot.

  Lemma sigma_nonneg r : 0 <= sigma X n r g.
  Proof. exact (proj1 (sigma_written X n mg r g B S Hg)). Qed.

  Lemma chance_nuclide k test (y : reaction -> R) :
    (forall r, written_xs X n r g = Some (Fin (sigma X n r g)) -> 0 < sigma X n r g ->
       chance k (fun l => comes_to (proceed mg r (set_rng p l)) test) (y r)) ->
    chance (Datatypes.S k) (fun l => comes_to (mg_interact mg (set_rng p l)) test)
      ((sigma X n Rcapture g * y Rcapture + sigma X n Rscatter g * y Rscatter + sigma X n Rfission g * y Rfission) / tot).
  Proof.
    intros H.
    replace (sigma X n Rcapture g * y Rcapture + sigma X n Rscatter g * y Rscatter + sigma X n Rfission g * y Rfission)
      with (Rsum (map (fun r => sigma X n r g * y r) [Rcapture; Rscatter; Rfission])) by (cbn; ring).
    apply chance_shares; auto.
    - intros r _. apply sigma_nonneg.
    - cbn. unfold tot, any_reaction. ring.
    - intros u Hu.
      assert (Ex : exists r, written_xs X n r g = Some (Fin (sigma X n r g)) /\ 0 < sigma X n r g
        /\ (forall l, mg_interact mg (set_rng p (u :: l)) = noexcept (proceed mg r (set_rng p l)))
        /\ match r with
           | Rcapture => u * tot < sigma X n Rcapture g
           | Rscatter => sigma X n Rcapture g <= u * tot < sigma X n Rcapture g + sigma X n Rscatter g
           | Rfission => sigma X n Rcapture g + sigma X n Rscatter g <= u * tot
           end).
      { assert (R : forall l, exists r, written_xs X n r g = Some (Fin (sigma X n r g)) /\ 0 < sigma X n r g
        /\ mg_interact mg (set_rng p (u :: l)) = noexcept (proceed mg r (set_rng p l))
        /\ match r with
           | Rcapture => u * tot < sigma X n Rcapture g
           | Rscatter => sigma X n Rcapture g <= u * tot < sigma X n Rcapture g + sigma X n Rscatter g
           | Rfission => sigma X n Rcapture g + sigma X n Rscatter g <= u * tot
           end).
        { intros l. destruct (reaction_selected Given X n mg (set_rng p (u :: l)) g V C S Hg Eg Ht)
            as (u' & r & Eu & _ & Ei & Wr & Pr & I).
          cbn in Eu. rewrite inside_is in Eu by auto. injection Eu as <-.
          exists r. split; [exact Wr|]. split; [exact Pr|]. split; [|exact I].
          etransitivity; [exact Ei|]. destruct r; reflexivity. }
        destruct (R []) as (r & Wr & Pr & _ & I). exists r. split; [exact Wr|]. split; [exact Pr|]. split; [|exact I].
        intros l. destruct (R l) as (r' & _ & _ & E & I').
        pose proof (sigma_nonneg Rscatter). pose proof (sigma_nonneg Rcapture).
        replace r with r'; auto. destruct r, r'; auto; exfalso; lra. }
      destruct Ex as (r & Wr & Pr & E & I).
      assert (Ch : chance k (fun l => comes_to (mg_interact mg (set_rng p (u :: l))) test) (y r)).
      { eapply chance_ext; [|exact (H r Wr Pr)]. intros l. cbv beta. now rewrite E, comes_noexcept. }
      assert (0 <= u * tot < tot) by nra. unfold tot, any_reaction in *.
      destruct r.
      + exists [], Rcapture, [Rscatter; Rfission]. split; [reflexivity|]. split; [cbn; lra|exact Ch].
      + exists [Rcapture], Rscatter, [Rfission]. split; [reflexivity|]. split; [cbn; lra|exact Ch].
      + exists [Rcapture; Rscatter], Rfission, []. split; [reflexivity|]. split; [cbn; lra|exact Ch].
  Qed.

  Lemma present_node r : written_xs X n r g = Some (Fin (sigma X n r g)) ->
    match r with Rcapture => True | Rscatter => scatter_node n <> None | Rfission => fission_node n <> None end.
  Proof.
    intros W. destruct r; cbn [written_xs] in W; auto.
    - unfold present in W. fold (scatter_node n) in W.
      destruct (is_null (scatter_node n)) eqn:Z; [discriminate|]. now apply is_null_false.
    - unfold present in W. fold (fission_node n) in W.
      destruct (is_null (fission_node n)) eqn:Z; [discriminate|]. now apply is_null_false.
  Qed.
  Lemma scatter_column : scatter_node n <> None -> sigma X n Rscatter g = column_sum X n (scatter_node n) g.
  Proof. exact (proj2 (C21_total_reals_proof Given X n mg p g C S Hg Eg)). Qed.

  (** The event tells the reaction. *)
  Lemma proceed_event r l : written_xs X n r g = Some (Fin (sigma X n r g)) -> 0 < sigma X n r g ->
    exists q, proceed mg r (set_rng p l) = Ok q
      /\ p_event q = match r with Rcapture => capture | Rscatter => scatter | Rfission => fission end.
  Proof.
    intros W P. pose proof (present_node r W) as Pn. destruct r; cbn [proceed].
    - eexists. split; reflexivity.
    - rewrite (scatter_column Pn) in P.
      destruct (mg_scatter_real Given X n mg (set_rng p l) g V B S Pn Hg Eg P) as (v & h & q & _ & _ & Eq & Ev & _). eauto.
    - destruct (mg_fission_real Given X n mg (set_rng p l) g V B S Pn Hg Eg) as (v & q & new & _ & _ & Eq & Ev & _). eauto.
  Qed.

  Lemma scatter_drawn v u l : scatter_node n <> None -> 0 < column_sum X n (scatter_node n) g ->
    0 < v < 1 -> 0 < u < 1 ->
    exists h q, mg_scatter mg (set_rng p (v :: u :: l)) = Ok q /\ p_event q = scatter /\ p_energy q = Group h
      /\ In h (groups (written_groups X n))
      /\ column_below X n (scatter_node n) h g <= v * column_sum X n (scatter_node n) g
         < column_below X n (scatter_node n) h g + weight X n (scatter_node n) h g
      /\ px (p_direction q) = Fin (2 * u - 1).
  Proof.
    intros Ns Hs Hv Hu. pose proof (sd_groups _ _ S) as HG.
    assert (Nn : nonneg_numbers X (scatter_node n)).
    { apply (sd_nonneg _ _ S); auto. right; now left. }
    destruct (pick_column X n (scatter_node n) g v Nn HG ltac:(lra)) as (sel & Esel & Sel & _).
    destruct (Sel Hs) as (h & -> & Hh & Hw & Hb).
    exists h, (set_direction_isotropic (set_energy (set_rng (set_event p scatter) (u :: l)) (Group h))).
    split; [|split; [|split; [|split; [exact Hh|split; [exact Hb|]]]]].
    - unfold mg_scatter, p_unif. cbn [p_rng set_rng set_event runif Given hd tl].
      rewrite inside_is by auto.
      pose proof (bu_scatter _ _ _ B) as Bs.
      destruct (scatter_node n) as [c|] eqn:Ec; [|congruence]. rewrite <- Ec in *.
      destruct Bs as [Bs _]. rewrite Bs. cbn [of_option bind p_energy set_rng set_event].
      rewrite Eg. cbn [get_group bind].
      pose proof (proj1 (in_groups _ _) Hg) as Hg'.
      rewrite (group_at_nth _ _ []); try lia.
      2: { rewrite map_length, groups_length. lia. }
      rewrite (nth_groups _ _ _ _ Hg), (normalized_fin X n (scatter_node n) g Nn). cbn [bind].
      rewrite (bu_groups _ _ _ B). change (nofZ XRa 0) with (Fin 0). rewrite Esel.
      cbn [bind noexcept]. reflexivity.
    - unfold set_direction_isotropic. now destruct (dir_isotropic Given _).
    - unfold set_direction_isotropic. now destruct (dir_isotropic Given _).
    - destruct (C70_isotropic_direction_proof Given (u :: l) V) as (u' & v' & Eu & _ & _ & _ & Ed & _).
      cbn in Eu. rewrite inside_is in Eu by auto. injection Eu as <-.
      unfold set_direction_isotropic. cbn [p_rng set_energy set_rng].
      destruct (dir_isotropic Given (u :: l)) as [d s]. cbn [fst] in Ed. cbn zeta in Ed. subst d. reflexivity.
  Qed.

  Lemma chance_scatter k h c : In h (groups (written_groups X n)) -> -1 <= c <= 1 -> scatter_node n <> None ->
    0 < column_sum X n (scatter_node n) g ->
    chance (2 + k) (fun l => comes_to (mg_scatter mg (set_rng p l))
                               (fun q => event_eqb (p_event q) scatter && in_group h q && cosine_below c q))
      (weight X n (scatter_node n) h g * ((1 + c) / 2) / column_sum X n (scatter_node n) g).
  Proof.
    intros Hh Hc Ns Hs.
    rewrite <- (Rsum_one (fun h' => weight X n (scatter_node n) h' g) h ((1 + c) / 2) _ (groups_nodup _) Hh).
    assert (Nn : nonneg_numbers X (scatter_node n)).
    { apply (sd_nonneg _ _ S); auto. right; now left. }
    apply (chance_shares (fun h' => weight X n (scatter_node n) h' g)
             (fun h' => if N.eqb h' h then (1 + c) / 2 else 0)); auto.
    - intros z Hz. apply (weight_fin X n (scatter_node n) z g Nn).
    - intros v Hv.
      destruct (scatter_drawn v (/2) [] Ns Hs Hv ltac:(lra)) as (h0 & q0 & _ & _ & _ & H0 & I0 & _).
      destruct (groups_split _ _ H0) as (post & Ep).
      exists (groups (h0 - 1)), h0, post. split; [exact Ep|]. split; [exact I0|].
      assert (Same : forall u l, 0 < u < 1 -> exists q, mg_scatter mg (set_rng p (v :: u :: l)) = Ok q
        /\ p_event q = scatter /\ p_energy q = Group h0 /\ px (p_direction q) = Fin (2 * u - 1)).
      { intros u l Hu. destruct (scatter_drawn v u l Ns Hs Hv Hu) as (h1 & q & E & Ev & En & H1 & I1 & Ed).
        exists q. split; [exact E|]. split; [exact Ev|]. split; [|exact Ed]. rewrite En. f_equal.
        assert (Cmp : forall a b, In b (groups (written_groups X n)) -> (a < b)%N -> In a (groups (written_groups X n)) ->
          column_below X n (scatter_node n) a g + weight X n (scatter_node n) a g <= column_below X n (scatter_node n) b g).
        { intros a b Hb Hab Ha. apply in_groups in Ha.
          assert (Ha' : In a (groups (b - 1))) by (apply in_groups; lia).
          destruct (groups_split _ _ Ha') as (po & Eo). unfold column_below. rewrite Eo, map_app, Rsum_app.
          cbn [map Rsum]. enough (0 <= Rsum (map (fun h' => weight X n (scatter_node n) h' g) po)) by lra.
          clear -Nn. induction po as [|y po IH]; cbn; [lra|].
          pose proof (proj2 (weight_fin X n (scatter_node n) y g Nn)). lra. }
        destruct (N.lt_trichotomy h0 h1) as [L|[L|L]]; [|auto|].
        - pose proof (Cmp h0 h1 H1 L H0). lra.
        - pose proof (Cmp h1 h0 H0 L H1). lra. }
      destruct (N.eqb_spec h0 h) as [->|Ne].
      + replace ((1 + c) / 2) with ((1 + c) / 2 * 1) by ring.
        apply chance_below; [lra| |].
        * intros u Hu. apply (chance_sure k _ true). intros l. destruct (Same u l ltac:(lra)) as (q & E & Ev & En & Ed).
          unfold comes_to, in_group, cosine_below. rewrite E, Ev, En, Ed, N.eqb_refl.
          destruct (Rlt_dec (2 * u - 1) c); [reflexivity|lra].
        * intros u Hu Hu'. apply (chance_sure k _ false). intros l. destruct (Same u l ltac:(lra)) as (q & E & Ev & En & Ed).
          unfold comes_to, in_group, cosine_below. rewrite E, Ev, En, Ed, N.eqb_refl.
          destruct (Rlt_dec (2 * u - 1) c); [lra|reflexivity].
      + replace 0 with (1 * 0) by ring.
        apply (chance_below k _ 1 0); [lra| |intros u Hu Hu'; lra].
        intros u Hu. apply (chance_sure k _ false). intros l. destruct (Same u l Hu) as (q & E & Ev & En & Ed).
        unfold comes_to, in_group. rewrite E, En. destruct (N.eqb_spec h0 h); [congruence|].
        now rewrite andb_false_r.
  Qed.

  (** The yield of fission. *)
  Lemma chance_fission k j : fission_node n <> None -> 0 < column_sum X n (chi_node n) g ->
    chance (1 + k) (fun l => comes_to (mg_fission mg (set_rng p l))
        (fun q => event_eqb (p_event q) fission && Nat.eqb (length (p_secondaries q)) (length (p_secondaries p) + j)))
      (rounded (real_of (vector_entry X (nubar_node n) g)) j).
  Proof.
    intros Nf Hc. set (nu := real_of (vector_entry X (nubar_node n) g)).
    assert (D : forall u l, 0 < u < 1 -> exists q i, mg_fission mg (set_rng p (u :: l)) = Ok q
      /\ p_event q = fission /\ length (p_secondaries q) = (length (p_secondaries p) + i)%nat
      /\ INR i <= nu + u < INR i + 1).
    { intros u l Hu.
      destruct (mg_fission_real Given X n mg (set_rng p (u :: l)) g V B S Nf Hg Eg)
        as (u' & q & new & Eu & _ & Eq & Ev & _ & Es & Y & _).
      cbn in Eu. rewrite inside_is in Eu by auto. injection Eu as <-.
      exists q, (length new). split; [exact Eq|]. split; [exact Ev|]. split; [|now apply Y].
      rewrite Es, app_length. reflexivity. }
    assert (Yes : forall u l, 0 < u < 1 -> INR j <= nu + u < INR j + 1 ->
      comes_to (mg_fission mg (set_rng p (u :: l)))
        (fun q => event_eqb (p_event q) fission && Nat.eqb (length (p_secondaries q)) (length (p_secondaries p) + j)) = true).
    { intros u l Hu Hj. destruct (D u l Hu) as (q & i & E & Ev & L & I). unfold comes_to. rewrite E, Ev, L. cbn [event_eqb andb].
      apply Nat.eqb_eq. f_equal. 
      assert (i < j + 1)%nat by (apply INR_lt; rewrite plus_INR; cbn [INR]; lra).
      assert (j < i + 1)%nat by (apply INR_lt; rewrite plus_INR; cbn [INR]; lra). lia. }
    assert (No : forall u l, 0 < u < 1 -> ~ INR j <= nu + u < INR j + 1 ->
      comes_to (mg_fission mg (set_rng p (u :: l)))
        (fun q => event_eqb (p_event q) fission && Nat.eqb (length (p_secondaries q)) (length (p_secondaries p) + j)) = false).
    { intros u l Hu Hj. destruct (D u l Hu) as (q & i & E & Ev & L & I). unfold comes_to. rewrite E, Ev, L. cbn [event_eqb andb].
      apply Nat.eqb_neq. intros Q. assert (i = j) by lia. subst i. auto. }
    unfold rounded. unfold Rabs. destruct (Rcase_abs (nu - INR j)) as [Lo|Hi].
    - (* fewer on the average *)
      destruct (Rle_dec 0 (1 + (nu - INR j))) as [In1|Out].
      + rewrite Rmax_right by lra. replace (1 - - (nu - INR j)) with ((1 - (INR j - nu)) * 1) by ring.
        apply chance_above; [lra| |]; intros u Hu.
        * apply (chance_sure k _ false). intros l. apply No; lra.
        * intros Hu'. apply (chance_sure k _ true). intros l. apply Yes; lra.
      + rewrite Rmax_left by lra. replace 0 with (1 * 0) by ring. apply (chance_below k _ 1 0); [lra| |intros; lra].
        intros u Hu. apply (chance_sure k _ false). intros l. apply No; lra.
    - destruct (Rle_dec (nu - INR j) 1) as [In1|Out].
      + rewrite Rmax_right by lra. replace (1 - (nu - INR j)) with ((1 - (nu - INR j)) * 1) by ring.
        apply chance_below; [lra| |]; intros u Hu.
        * apply (chance_sure k _ true). intros l. apply Yes; lra.
        * intros Hu'. apply (chance_sure k _ false). intros l. apply No; lra.
      + rewrite Rmax_left by lra. replace 0 with (1 * 0) by ring. apply (chance_below k _ 1 0); [lra| |intros; lra].
        intros u Hu. apply (chance_sure k _ false). intros l. apply No; lra.
  Qed.
End Nuclide.

(** ** A mixture *)
Section Mixture.
  Context (X : Ext XRa) (Gs : list N) (doc : nuclide XRa -> node) (m : material XRa) (c : cell XRa)
    (g : N) (p : particle XRa Given).
  Hypotheses (M : mixture X Gs doc m) (N0 : group_neutron Gs p) (Eg : p_energy p = Group g)
    (Ec : p_cell p = Some c) (Em : c_material c = Some m).
  Let V : valid_rng Given := open_valid _ given_open.

  Lemma mixture_material : multigroup_material X Gs m.
  Proof.
    destruct M as (D & Ne & H). split; [exact D|]. split; [exact Ne|]. intros nu a Hin.
    destruct (H nu a Hin) as (F & mg & R). split; [exact F|]. now exists (doc nu), mg.
  Qed.
  Lemma mixture_group : In g Gs.
  Proof. destruct (gn_group _ _ N0) as (g' & E & Hg). rewrite Eg in E. now injection E as ->. Qed.

  Lemma chance_mixture fuel k test (y : node -> reaction -> R) :
    (forall nu a mg r, In (nu, a) (m_afracs m) -> multigroup_create X (doc nu) = Ok mg ->
       sensible_data X (doc nu) -> groups (written_groups X (doc nu)) = Gs -> 0 < any_reaction X g (doc nu) ->
       written_xs X (doc nu) r g = Some (Fin (sigma X (doc nu) r g)) -> 0 < sigma X (doc nu) r g ->
       chance k (fun l => comes_to (proceed mg r (set_rng p l)) test) (y (doc nu) r)) ->
    chance (2 + k) (fun l => comes_to (react fuel (set_rng p l)) test)
      (mixed_sum doc m (fun n => sigma X n Rcapture g * y n Rcapture + sigma X n Rscatter g * y n Rscatter
                                 + sigma X n Rfission g * y n Rfission)
       / mixed_sum doc m (any_reaction X g)).
  Proof.
    intros H. pose proof mixture_group as Hg. pose proof mixture_material as MM.
    destruct M as (_ & Ne & MH).
    set (z := fun n => sigma X n Rcapture g * y n Rcapture + sigma X n Rscatter g * y n Rscatter
                       + sigma X n Rfission g * y n Rfission).
    assert (Tot : forall l x, In x (m_afracs m) -> total_at (set_rng p l) x = any_reaction X g (doc (fst x))
                 /\ 0 < fraction x /\ 0 < any_reaction X g (doc (fst x))).
    { intros l [nu a] Hin. destruct (MH nu a Hin) as ((f & -> & Hf) & mg & Dn & C & S & W & P).
      pose proof Hg as Hg'. rewrite <- W in Hg'.
      destruct (C21_total_reals_proof Given X (doc nu) mg (set_rng p l) g C S Hg' Eg) as [Et _].
      assert (At : nu_at nu (set_rng p l) = Ok (IMultigroup mg)).
      { apply nu_multigroup. cbn [p_type set_rng]. rewrite (gn_type _ _ N0). exact Dn. }
      split; [|split; [exact Hf|exact (P g Hg)]].
      unfold total_at, nu_total. cbn [fst]. rewrite At. cbn [bind]. rewrite Et. reflexivity. }
    assert (Wt : forall l L, (forall x, In x L -> In x (m_afracs m)) ->
      weighted (total_at (set_rng p l)) L = Rsum (map (fun x => fraction x * any_reaction X g (doc (fst x))) L)).
    { intros l L HL. unfold weighted. f_equal. apply map_ext_in. intros x Hx. now rewrite (proj1 (Tot l x (HL x Hx))). }
    assert (N1 : forall l, group_neutron Gs (set_rng p l)) by (intros l; destruct N0; constructor; auto).
    assert (PT : 0 < mixed_sum doc m (any_reaction X g)).
    { destruct (material_total Given X Gs m (set_rng p []) MM (N1 _)) as (_ & T & HT & _ & _ & ET).
      rewrite Wt in ET by auto. unfold mixed_sum, weighted. lra. }
    replace (mixed_sum doc m z)
      with (Rsum (map (fun x => (fraction x * any_reaction X g (doc (fst x)))
                                * (z (doc (fst x)) / any_reaction X g (doc (fst x)))) (m_afracs m))).
    2: { unfold mixed_sum, weighted. f_equal. apply map_ext_in. intros x Hx.
         destruct (Tot [] x Hx) as (_ & _ & P). field. lra. }
    apply chance_shares.
    - exact PT.
    - intros x Hx. destruct (Tot [] x Hx) as (_ & P1 & P2). apply Rmult_le_pos; lra.
    - reflexivity.
    - intros v Hv.
      destruct (material_total Given X Gs m (set_rng p [v]) MM (N1 _)) as (Fo & T & HT & _ & _ & ET).
      destruct (sample_nuclide_fin Given (set_rng p [v]) c m V Ec Em Fo) as (v' & nu & pre & a & post & Ev & _ & Es & El & I).
      { rewrite ET. exact HT. }
      cbn in Ev. rewrite inside_is in Ev by auto. injection Ev as <-.
      pose proof (nuclide_given p nu _ v [] Hv Es) as Sn.
      assert (Hin : In (nu, a) (m_afracs m)) by (rewrite El; apply in_elt).
      exists pre, (nu, a), post. split; [exact El|]. split.
      + rewrite !Wt in I; auto.
        2: { intros x Hx. rewrite El. apply in_app_iff in Hx. apply in_app_iff. destruct Hx as [?|[<-|[]]]; [now left|right; now left]. }
        2: { intros x Hx. rewrite El. apply in_app_iff. now left. }
        rewrite map_app, Rsum_app in I. cbn [map Rsum] in I.
        rewrite Rmult_comm in I. unfold mixed_sum, weighted. lra.
      + destruct (MH nu a Hin) as (_ & mg & Dn & C & S & W & P).
        pose proof Hg as Hg'. rewrite <- W in Hg'.
        assert (At : forall l, nu_at nu (set_rng p l) = Ok (IMultigroup mg)).
        { intros l. apply nu_multigroup. cbn [p_type set_rng]. rewrite (gn_type _ _ N0). exact Dn. }
        eapply chance_ext; [|apply (chance_nuclide X (doc nu) mg g p C S Hg' Eg (P g Hg) k test (y (doc nu)))].
        * intros l. cbv beta. unfold react. rewrite Sn. cbn [bind]. unfold nu_interact. rewrite At. cbn [bind].
          now rewrite comes_noexcept.
        * intros r Wr Pr. apply (H nu a mg r); auto. exact (P g Hg).
  Qed.

  (** The flight before. *)
  Lemma collide_is fuel t d : exists q,
    group_neutron Gs q /\ p_energy q = p_energy p /\ p_cell q = p_cell p /\ p_secondaries q = p_secondaries p
    /\ forall l, collide (A := XRa) fuel t (Fin d) (set_rng p l) = react fuel (set_rng q l).
  Proof.
    destruct N0 as [Ty Gr (x & Ex) (u & Eu & Hu)].
    assert (N1 : group_neutron Gs p) by exact N0.
    destruct (material_total Given X Gs m p mixture_material N1) as (_ & T & _ & E1 & E2 & _).
    assert (Gm : get_material p = Ok m).
    { unfold get_material, get_cell. rewrite Ec. cbn [bind]. now rewrite Em. }
    assert (St : forall l, stream t (set_rng p l) (Fin d)
      = Ok (set_rng (set_position (set_indirect p (effects m T d p)) (pt (along x u d))) l)).
    { intros l. rewrite (stream_is t m T d x u 0 (set_rng p l)).
      - rewrite Rplus_0_l. reflexivity.
      - exact Gm.
      - unfold collision_density. change (get_material (set_rng p l)) with (get_material p).
        rewrite Gm. cbn [bind].
        destruct t; [rewrite (same_mat_total m p _ (same_set_rng p l)), E1|
                     rewrite (same_mat_majorant m p _ (same_set_rng p l)), E2]; reflexivity.
      - cbn [p_position set_rng]. rewrite Ex. f_equal. destruct x; unfold along, vadd, vscale; cbn; f_equal; ring.
      - exact Eu. }
    exists (set_position (set_indirect p (effects m T d p)) (pt (along x u d))).
    split; [constructor; cbn; eauto|]. do 3 (split; [reflexivity|]).
    intros l. unfold collide, react. change (num XRa) with xr in *. rewrite St. reflexivity.
  Qed.
End Mixture.

Lemma mixed_ext doc m f f' : (forall nu a, In (nu, a) (m_afracs m) -> f (doc nu) = f' (doc nu)) ->
  mixed_sum doc m f = mixed_sum doc m f'.
Proof.
  intros E. unfold mixed_sum, weighted. f_equal. apply map_ext_in. intros [nu a] H. cbn [fst]. now rewrite (E nu a).
Qed.
Lemma mixed_scale doc m f z : mixed_sum doc m (fun n => f n * z) = mixed_sum doc m f * z.
Proof.
  unfold mixed_sum, weighted. induction (m_afracs m) as [|x l IH]; cbn [map Rsum]; [ring|]. rewrite IH. ring.
Qed.

(** Collisions as often as the data say. *)
Lemma C102_collision_proof :
  forall (X : Ext XRa) (Gs : list N) (doc : nuclide XRa -> node) (m : material XRa) (c : cell XRa)
    (p : particle XRa Given) (g : N) (fuel : nat) (t : tracking) (d : R) (more : nat),
  mixture X Gs doc m -> group_neutron Gs p -> p_energy p = Group g ->
  p_cell p = Some c -> c_material c = Some m ->
  let all := mixed_sum doc m (any_reaction X g) in
  let collided l := collide (A := XRa) fuel t (Fin d) (set_rng p l) in
  (* capture *)
  chance (2 + more) (fun l => comes_to (collided l) (fun q => event_eqb (p_event q) capture))
    (mixed_sum doc m (fun n => sigma X n Rcapture g) / all)
  (* scattering into group [h], with a cosine to the x axis below [x] *)
  /\ (forall h x, In h Gs -> -1 <= x <= 1 ->
       chance (4 + more)
         (fun l => comes_to (collided l) (fun q => event_eqb (p_event q) scatter && in_group h q && cosine_below x q))
         (mixed_sum doc m (transfer X g h) / all * ((1 + x) / 2)))
  (* fission with [j] neutrons *)
  /\ (forall j, (forall nu a, In (nu, a) (m_afracs m) -> fission_node (doc nu) <> None ->
                   0 < column_sum X (doc nu) (chi_node (doc nu)) g) ->
       chance (3 + more)
         (fun l => comes_to (collided l)
            (fun q => event_eqb (p_event q) fission
                      && Nat.eqb (length (p_secondaries q)) (length (p_secondaries p) + j)))
         (mixed_sum doc m (multiplying X g j) / all)).
Proof.
  intros X Gs doc m c p g fuel t d more M N0 Eg Ec Em all collided.
  destruct (collide_is X Gs doc m c p M N0 Ec Em fuel t d) as (q & Nq & Qe & Qc & Qs & Cq).
  rewrite <- Qe in Eg. rewrite <- Qc in Ec.
  pose proof (mixture_group Gs g q Nq Eg) as Hg.
  assert (Cs : forall test l, comes_to (react fuel (set_rng q l)) test = comes_to (collided l) test).
  { intros test l. unfold collided. now rewrite Cq. }
  split; [|split].
  - eapply chance_ext; [intros l; apply Cs|].
    replace (mixed_sum doc m (fun n => sigma X n Rcapture g))
      with (mixed_sum doc m (fun n => sigma X n Rcapture g * 1 + sigma X n Rscatter g * 0 + sigma X n Rfission g * 0))
      by (apply mixed_ext; intros; ring).
    apply (chance_mixture X Gs doc m c g q M Nq Eg Ec Em fuel more _
             (fun _ r => match r with Rcapture => 1 | _ => 0 end)).
    intros nu a mg r Hin C S W P Wr Pr. rewrite <- W in Hg.
    assert (E : forall l, comes_to (proceed mg r (set_rng q l)) (fun q0 => event_eqb (p_event q0) capture)
                = match r with Rcapture => true | _ => false end).
    { intros l. destruct (proceed_event X (doc nu) mg g q C S Hg Eg r l Wr Pr) as (q' & E & Ev).
      unfold comes_to. rewrite E, Ev. now destruct r. }
    destruct r; exact (chance_sure more _ _ E).
  - intros h x Hh Hx. eapply chance_ext; [intros l; apply Cs|].
    set (y := fun n r => match r with
      | Rscatter => weight X n (scatter_node n) h g * ((1 + x) / 2) / column_sum X n (scatter_node n) g
      | _ => 0 end).
    replace (mixed_sum doc m (transfer X g h) / all * ((1 + x) / 2))
      with (mixed_sum doc m (fun n => sigma X n Rcapture g * y n Rcapture + sigma X n Rscatter g * y n Rscatter
              + sigma X n Rfission g * y n Rfission) / all).
    2: { unfold Rdiv. rewrite (Rmult_assoc (mixed_sum _ _ _)), (Rmult_comm (/ all)), <- Rmult_assoc. f_equal.
         fold ((1 + x) / 2). rewrite <- mixed_scale. apply mixed_ext. intros nu a Hin.
         destruct M as (_ & _ & MH). destruct (MH nu a Hin) as (_ & mg & Dn & C & S & W & P).
         rewrite <- W in Hg, Hh. cbn [y]. unfold transfer.
         destruct (scatter_node (doc nu)) as [e|] eqn:En.
         - rewrite <- En. assert (Ns : scatter_node (doc nu) <> None) by congruence.
           rewrite (scatter_column X (doc nu) mg g q C S Hg Eg Ns).
           assert (Nn : nonneg_numbers X (scatter_node (doc nu))).
           { apply (sd_nonneg _ _ S); auto. right; now left. }
           assert (Le : weight X (doc nu) (scatter_node (doc nu)) h g <= column_sum X (doc nu) (scatter_node (doc nu)) g).
           { apply (Rsum_part (fun h => weight X (doc nu) (scatter_node (doc nu)) h g)); auto.
             intros h' _. apply (weight_fin X (doc nu) (scatter_node (doc nu)) h' g Nn). }
           pose proof (proj2 (weight_fin X (doc nu) (scatter_node (doc nu)) h g Nn)).
           destruct (Req_dec (column_sum X (doc nu) (scatter_node (doc nu)) g) 0) as [Z|Z].
           + rewrite Z in *. assert (Hw : weight X (doc nu) (scatter_node (doc nu)) h g = 0) by lra. rewrite Hw. ring.
           + field. exact Z.
         - unfold sigma at 2. cbn [written_xs]. unfold present. fold (scatter_node (doc nu)). rewrite En. cbn. ring. }
    apply (chance_mixture X Gs doc m c g q M Nq Eg Ec Em fuel (2 + more) _ y).
    intros nu a mg r Hin C S W P Wr Pr. pose proof Hg as Hg'. rewrite <- W in Hg', Hh.
    pose proof (present_node X (doc nu) g r Wr) as Pn.
    destruct r.
    1, 3: match goal with |- chance ?n _ (_ _ ?r) => apply (chance_sure n _ false); intros l;
            destruct (proceed_event X (doc nu) mg g q C S Hg' Eg r l Wr Pr) as (q' & E & Ev);
            unfold comes_to; rewrite E, Ev; reflexivity end.
    rewrite (scatter_column X (doc nu) mg g q C S Hg' Eg Pn) in Pr.
    apply (chance_scatter X (doc nu) mg g q C S Hg' Eg more h x); auto.
  - intros j Hchi. eapply chance_ext; [intros l; apply Cs|].
    set (y := fun n r => match r with
      | Rfission => rounded (real_of (vector_entry X (nubar_node n) g)) j | _ => 0 end).
    replace (mixed_sum doc m (multiplying X g j))
      with (mixed_sum doc m (fun n => sigma X n Rcapture g * y n Rcapture + sigma X n Rscatter g * y n Rscatter
              + sigma X n Rfission g * y n Rfission))
      by (apply mixed_ext; intros; unfold multiplying, y; ring).
    apply (chance_mixture X Gs doc m c g q M Nq Eg Ec Em fuel (1 + more) _ y).
    intros nu a mg r Hin C S W P Wr Pr. pose proof Hg as Hg'. rewrite <- W in Hg'.
    pose proof (present_node X (doc nu) g r Wr) as Pn.
    destruct r.
    1, 2: match goal with |- chance ?n _ (_ _ ?r) => apply (chance_sure n _ false); intros l;
            destruct (proceed_event X (doc nu) mg g q C S Hg' Eg r l Wr Pr) as (q' & E & Ev);
            unfold comes_to; rewrite E, Ev; reflexivity end.
    rewrite <- Qs. apply (chance_fission X (doc nu) mg g q C S Hg' Eg more j); eauto.
Qed.

(** Rounding keeps the average. *)
Lemma C102_yield_proof :
  forall nu, 0 <= nu -> exists k : nat, INR k <= nu < INR k + 1
  /\ rounded nu k + rounded nu (S k) = 1
  /\ INR k * rounded nu k + INR (S k) * rounded nu (S k) = nu
  /\ forall j, j <> k -> j <> S k -> rounded nu j = 0.
Proof.
  intros nu Hn. destruct (base_Int_part nu) as [C1 C2].
  assert (Hz : (0 <= Int_part nu)%Z) by (apply Zlt_succ_le, lt_IZR; rewrite succ_IZR; lra).
  exists (Z.to_nat (Int_part nu)). set (k := Z.to_nat (Int_part nu)).
  assert (Ek : INR k = IZR (Int_part nu)) by (unfold k; rewrite INR_IZR_INZ, Z2Nat.id; auto).
  assert (I : INR k <= nu < INR k + 1) by lra. clearbody k. clear C1 C2 Hz Ek.
  assert (R1 : rounded nu k = 1 - (nu - INR k)).
  { unfold rounded. rewrite Rabs_pos_eq by lra. rewrite Rmax_right by lra. reflexivity. }
  assert (R2 : rounded nu (S k) = nu - INR k).
  { unfold rounded. rewrite S_INR, Rabs_left1 by lra. rewrite Rmax_right by lra. ring. }
  split; [exact I|]. rewrite R1, R2, S_INR. split; [ring|]. split; [ring|].
  intros j J1 J2. unfold rounded. apply Rmax_left.
  destruct (lt_dec j k) as [L|L].
  - assert (INR j + 1 <= INR k) by (rewrite <- S_INR; apply le_INR; lia).
    rewrite Rabs_pos_eq; lra.
  - assert (INR (S k) + 1 <= INR j) by (rewrite <- S_INR; apply le_INR; lia).
    rewrite S_INR in H. rewrite Rabs_left1; lra.
Qed.

(** ** An example: a quarter of fuel in a moderator, two groups *)
Definition blend_of (children : list xml) : node :=
  (n_child (n_child (n_child (n_child (document [Elem "nuclides" [] [Elem "multigroup" [("groups", "2")]
    [Elem "nuclide" [("name", "n")] [Elem "neutron" [] children ""] ""] ""] ""]) "nuclides")
    "multigroup") "nuclide") "neutron")%string.
Definition fuel_node : node :=
  blend_of [text_node "capture" "1 2"; text_node "scatter" "3 0 1 5";
    Elem "fission" [] [text_node "xs" "1 2"; text_node "nubar" "2.5 2"; text_node "chi" "1 1 0 1"] ""]%string.
Definition moderator_node : node := blend_of [text_node "scatter" "1 0 1 2"]%string.
Definition data_of (n : node) : multigroup XRa :=
  match multigroup_create slab_ext n with
  | Ok m => m
  | _ => mkMultigroup (A := XRa) None None None [] [] 0
  end.
Definition fuel_nuclide : nuclide XRa := mkNuclide 0 "fuel" [(neutron, IMultigroup (data_of fuel_node))].
Definition moderator_nuclide : nuclide XRa :=
  mkNuclide 1 "moderator" [(neutron, IMultigroup (data_of moderator_node))].
Definition blend_doc (nu : nuclide XRa) : node := if Nat.eqb (nu_id nu) 0 then fuel_node else moderator_node.
Definition blend : material XRa :=
  mkMaterial (A := XRa) "blend" [(fuel_nuclide, Fin (1 / 4)); (moderator_nuclide, Fin (3 / 4))] (Fin 1).

Lemma blend_groups : groups (written_groups slab_ext fuel_node) = [1; 2]%N
  /\ groups (written_groups slab_ext moderator_node) = [1; 2]%N.
Proof. split; reflexivity. Qed.
Ltac blend_data :=
  unfold sigma, column_sum, column_below, weight, written_xs;
  rewrite ?(proj1 blend_groups), ?(proj2 blend_groups); cbn; unfold Pos.to_nat; cbn; decs; try lra.
Lemma fuel_sigma : sigma slab_ext fuel_node Rcapture 1 = 1 /\ sigma slab_ext fuel_node Rscatter 1 = 4
  /\ sigma slab_ext fuel_node Rfission 1 = 1 /\ sigma slab_ext fuel_node Rcapture 2 = 2
  /\ sigma slab_ext fuel_node Rscatter 2 = 5 /\ sigma slab_ext fuel_node Rfission 2 = 2
  /\ weight slab_ext fuel_node (scatter_node fuel_node) 2 1 = 1
  /\ real_of (vector_entry slab_ext (nubar_node fuel_node) 1) = 5 / 2
  /\ column_sum slab_ext fuel_node (chi_node fuel_node) 1 = 1.
Proof. repeat split; blend_data. Qed.
Lemma moderator_sigma : sigma slab_ext moderator_node Rcapture 1 = 0 /\ sigma slab_ext moderator_node Rscatter 1 = 2
  /\ sigma slab_ext moderator_node Rfission 1 = 0 /\ sigma slab_ext moderator_node Rcapture 2 = 0
  /\ sigma slab_ext moderator_node Rscatter 2 = 2 /\ sigma slab_ext moderator_node Rfission 2 = 0
  /\ weight slab_ext moderator_node (scatter_node moderator_node) 2 1 = 1.
Proof. repeat split; blend_data. Qed.
Lemma blend_sensible : sensible_data slab_ext fuel_node /\ sensible_data slab_ext moderator_node.
Proof.
  split; constructor.
  - intros c Hc _. cbn in Hc.
    repeat (destruct Hc as [<-|Hc]; [cbn; repeat constructor; eexists; (split; [reflexivity|decs; lra])|]).
    destruct Hc.
  - intros _. split; discriminate.
  - cbn. repeat constructor; cbn; decs; lra.
  - reflexivity.
  - intros c Hc N. cbn in Hc.
    repeat (destruct Hc as [<-|Hc];
      [first [ exfalso; apply N; reflexivity
             | cbn; repeat constructor; eexists; (split; [reflexivity|decs; lra]) ]|]).
    destruct Hc.
  - intros N. exfalso. apply N. reflexivity.
  - cbn. repeat constructor; cbn; decs; lra.
  - reflexivity.
Qed.

Definition blend_cell : cell XRa := mkCell 0 "blend" [(edge, true)] (Some blend) warmth.
Definition blend_neutron : particle XRa Given :=
  new_particle (G := Given) (pt (V3 0 0 0)) (pt (V3 1 0 0)) (Group 1) neutron 1 (Some blend_cell).

Lemma C102_example :
  mixture slab_ext [1; 2]%N blend_doc blend /\ group_neutron [1; 2]%N blend_neutron
  /\ p_energy blend_neutron = Group 1 /\ p_cell blend_neutron = Some blend_cell
  /\ c_material blend_cell = Some blend
  /\ (forall nu a, In (nu, a) (m_afracs blend) -> fission_node (blend_doc nu) <> None ->
        0 < column_sum slab_ext (blend_doc nu) (chi_node (blend_doc nu)) 1)
  /\ mixed_sum blend_doc blend (any_reaction slab_ext 1) = 3
  /\ mixed_sum blend_doc blend (fun n => sigma slab_ext n Rcapture 1) = 1 / 4
  /\ mixed_sum blend_doc blend (transfer slab_ext 1 2) = 1
  /\ mixed_sum blend_doc blend (multiplying slab_ext 1 2) = 1 / 8.
Proof.
  destruct fuel_sigma as (F1 & F2 & F3 & F4 & F5 & F6 & F7 & F8 & F9).
  destruct moderator_sigma as (M1 & M2 & M3 & M4 & M5 & M6 & M7).
  split; [|split; [|split; [|split; [|split; [|split]]]]]; try reflexivity.
  - split; [exists 1; split; [reflexivity|lra]|]. split; [discriminate|].
    intros nu a [H|[H|[]]]; injection H as <- <-.
    + split; [exists (1 / 4); split; [reflexivity|lra]|]. exists (data_of fuel_node).
      change (blend_doc fuel_nuclide) with fuel_node.
      split; [reflexivity|]. split; [reflexivity|]. split; [apply blend_sensible|]. split; [apply blend_groups|].
      intros g [<-|[<-|[]]]; rewrite ?F1, ?F2, ?F3, ?F4, ?F5, ?F6; lra.
    + split; [exists (3 / 4); split; [reflexivity|lra]|]. exists (data_of moderator_node).
      change (blend_doc moderator_nuclide) with moderator_node.
      split; [reflexivity|]. split; [reflexivity|]. split; [apply blend_sensible|]. split; [apply blend_groups|].
      intros g [<-|[<-|[]]]; rewrite ?M1, ?M2, ?M3, ?M4, ?M5, ?M6; lra.
  - constructor.
    + reflexivity.
    + exists 1%N. split; [reflexivity|now left].
    + eexists. reflexivity.
    + exists (V3 1 0 0). split; [reflexivity|apply unit_x].
  - intros nu a [H|[H|[]]]; injection H as <- <-.
    + change (blend_doc fuel_nuclide) with fuel_node. intros _. rewrite F9. lra.
    + intros N. exfalso. apply N. reflexivity.
  - assert (E : forall f, mixed_sum blend_doc blend f = 1 / 4 * f fuel_node + 3 / 4 * f moderator_node).
    { intros f. unfold mixed_sum, weighted. cbn [m_afracs blend map Rsum fst].
      change (blend_doc fuel_nuclide) with fuel_node. change (blend_doc moderator_nuclide) with moderator_node.
      unfold fraction. cbn [snd real_of]. ring. }
    rewrite !E. unfold any_reaction, multiplying. rewrite F1, F2, F3, M1, M2, M3.
    change (transfer slab_ext 1 2 fuel_node) with (weight slab_ext fuel_node (scatter_node fuel_node) 2 1).
    change (transfer slab_ext 1 2 moderator_node) with (weight slab_ext moderator_node (scatter_node moderator_node) 2 1).
    rewrite F7, M7, F8. repeat split; try lra.
    replace (rounded (5 / 2) 2) with (1 / 2); [lra|].
    unfold rounded. cbn [INR]. rewrite Rabs_pos_eq by lra. rewrite Rmax_right by lra. lra.
Qed.
