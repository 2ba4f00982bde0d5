(** A beam through an absorber: C86. *)
From Coq Require Import Bool String List Reals ZArith NArith Lra Lia Permutation.
From Verif Require Import Model.Num Model.Outcome Model.Rng Model.Xml Model.Std Model.Point
  Model.Surface Model.Types Model.Bins Model.Field Model.Particle Model.Multigroup Model.Thermal
  Model.Continuous Model.Material Model.World Model.Perturbation Model.Estimator Model.Transport
  Model.Driver
  Spec.Vec Spec.GeometrySpec Spec.CellSpec Spec.DirectionSpec Spec.RngSpec Spec.SumSpec
  Spec.MultigroupSpec Spec.MaterialSpec Spec.TransportSpec Spec.HistorySpec Spec.EstimatorSpec
  Spec.SolverSpec Spec.FrequencySpec Spec.FreshSpec Spec.PerturbSpec Spec.BeamSpec
  Proofs.OutcomeLib Proofs.RealLib Proofs.BinsProofs Proofs.RngProofs Proofs.GeometryProofs
  Proofs.CellProofs Proofs.StreamProofs Proofs.StepLib
  Proofs.DirectionProofs Proofs.MultigroupProofs Proofs.MultigroupReal Proofs.MaterialProofs
  Proofs.TransportProofs Proofs.WellPosed Proofs.FlightProofs Proofs.HistoryProofs
  Proofs.EstimatorProofs Proofs.TallyProofs Proofs.SolverProofs Proofs.ResultProofs
  Proofs.PerturbProofs Proofs.FrequencyProofs Proofs.FreshProofs.
Import ListNotations.
Local Open Scope R_scope.

Section Beam.
  Context (G : Rng XRa) (V : valid_rng G) (X : Ext XRa) (Gs : list N) (dr : @driver XRa)
    (o v : vec) (g : N) (s : surf XRa) (L rate : R) (B : beam X Gs dr o v g s L rate).
  Notation particle := (particle XRa G).
  Implicit Types p q : particle.
  Local Notation w := (dr_world dr).
  Local Notation t := (dr_tracking dr).

  Lemma absorbed l x p : absorption X Gs g l x -> p_type p = neutron -> p_energy p = Group g ->
    weighted (total_at p) l = x.
  Proof.
    intros H T E. induction H as [|nu f n mg l x D C S W Z1 Z2 H IH]; [reflexivity|].
    rewrite weighted_cons, IH. f_equal. cbn [fraction snd]. f_equal.
    pose proof (bm_group _ _ _ _ _ _ _ _ _ B) as Hg. rewrite <- W in Hg.
    destruct (C21_total_reals_proof G X n mg p g C S Hg E) as [Et _].
    unfold total_at, nu_total. cbn [fst].
    rewrite (nu_multigroup nu p mg) by (rewrite T; exact D). cbn [bind]. rewrite Et, Z1, Z2.
    cbn. lra.
  Qed.

  Lemma captured l x nu a fuel p q : absorption X Gs g l x -> In (nu, a) l ->
    p_type p = neutron -> p_energy p = Group g -> 0 < total_at p (nu, a) ->
    nu_interact fuel nu p = Ok q ->
    p_event q = capture /\ p_secondaries q = p_secondaries p.
  Proof.
    intros H Hin T E P Eq. induction H as [|nu' f n mg l x D C S W Z1 Z2 H IH]; [destruct Hin|].
    destruct Hin as [[= -> <-]|Hin]; [|auto]. clear IH.
    pose proof (bm_group _ _ _ _ _ _ _ _ _ B) as Hg. rewrite <- W in Hg.
    pose proof (nu_multigroup nu p mg ltac:(rewrite T; exact D)) as At.
    destruct (C21_total_reals_proof G X n mg p g C S Hg E) as [Et _].
    unfold total_at, nu_total in P. cbn [fst] in P. rewrite At in P. cbn [bind] in P.
    rewrite Et, Z1, Z2 in P. cbn in P.
    assert (Sum : 0 < sigma X n Rcapture g + sigma X n Rscatter g + sigma X n Rfission g)
      by (rewrite Z1, Z2; lra).
    destruct (C24_reaction_choice_proof G X n mg p g V C S Hg E Sum)
      as (u & q' & _ & Hu & Ei & Hc & _).
    unfold nu_interact in Eq. rewrite At in Eq. cbn [bind] in Eq. rewrite Ei in Eq.
    apply -> @noexcept_ok in Eq. apply Ok_inj in Eq. subst q'.
    assert (Ev : p_event q = capture).
    { apply Hc. rewrite Z1, Z2. nra. }
    split; [exact Ev|]. exact (capture_secondaries G X n mg p q g V C S Hg E Sum Ei Ev).
  Qed.

  Record starting p : Prop := mkStarting {
    st_position : p_position p = pt o;
    st_direction : p_direction p = pt v;
    st_energy : p_energy p = Group g;
    st_type : p_type p = neutron;
    st_surface : p_surface p = None;
    st_secondaries : p_secondaries p = []
  }.
  Lemma starting_neutron p : starting p -> group_neutron Gs p.
  Proof.
    intros []. constructor; auto.
    - exists g. split; auto. apply B.
    - exists o. auto.
    - exists v. split; auto. apply B.
  Qed.

  (** Where a particle of the beam ends. *)
  Definition flew q : Prop := exists l, p_position q = pt (along o v l)
    /\ (p_event q = leak -> exists k, nudge (A := XRa) = Fin k /\ l = L + k).
  Lemma beam_step fuel p q c m : starting p -> first_cell w (pt o) c -> c_material c = Some m ->
    p_cell p = Some c -> transport_step t fuel w p = Ok q ->
    exists u, draw G 0 (p_rng p) = Fin u /\ 0 <= u < 1 /\ p_secondaries q = []
      /\ flew q
      /\ (transmitted t rate L u /\ p_event q = leak /\ p_surface q = Some (su_id s)
          /\ p_direction q = pt v /\ p_energy q = Group g
          \/ ~ transmitted t rate L u /\ p_event q = capture).
  Proof.
    intros St Fc Em Ec Eq. pose proof (starting_neutron p St) as Nt.
    destruct (bm_absorber _ _ _ _ _ _ _ _ _ B)
      as (c1 & m1 & D & x & Fc1 & Em1 & Ed & Ab & Er & Hs & Hd & HL & Far).
    rewrite (first_cell_fun _ _ _ _ Fc1 Fc) in *. rewrite Em in Em1. injection Em1 as <-.
    pose proof (bm_data _ _ _ _ _ _ _ _ _ B) as MW.
    pose proof (bm_geometry _ _ _ _ _ _ _ _ _ B) as PG.
    assert (Hc : In c (w_cells w)) by now apply first_cell_in in Fc.
    destruct (material_total G X Gs m p (MW c m Hc Em) Nt) as (Fo & T & HT & E1 & E2 & E3).
    rewrite (absorbed _ _ p Ab (st_type _ St) (st_energy _ St)) in E3. subst T.
    destruct (MW c m Hc Em) as ((D' & Ed' & HD) & _). rewrite Ed in Ed'. injection Ed' as <-.
    assert (Rt : 0 < rate) by (rewrite Er; nra).
    assert (Fr : flight_rate t m p (Fin rate : num XRa)).
    { exists (Fin x : num XRa). split; [now destruct t|]. rewrite Ed, Er. reflexivity. }
    (* the surface *)
    assert (Hn : nearest_surface c (p_position p) (p_direction p) = Ok (s, Fin L : num XRa)).
    { rewrite (st_position _ St), (st_direction _ St).
      destruct (C11_nearest_surface_proof c o v) as [K _].
      - intros s'. apply PG. exact Hc.
      - apply B.
      - destruct K as (s' & d & En & Hs' & Ed' & Le & _).
        { destruct Hs as [b Hs]. destruct (c_senses c); [destruct Hs|discriminate]. }
        rewrite En. specialize (Le s Hs). change (num XRa) with xr in *. rewrite Hd in Le.
        destruct (Far s' Hs') as [->|Ne].
        + rewrite Ed', Hd. reflexivity.
        + exfalso. rewrite <- Ed' in Ne.
          destruct d as [r| | |]; cbn in Ne, Le; try discriminate; try contradiction.
          destruct (Rleb_spec r L); [lra|discriminate]. }
    pose proof (step_flight _ _ _ _ _ _ _ _ _ _ Eq (conj Ec Em) Fr Hn) as K. cbv zeta in K.
    destruct (V (p_rng p)) as (u & Eu & Hu). exists u. split; [exact Eu|]. split; [exact Hu|].
    rewrite Eu in K.
    assert (El : ndiv XRa (nopp XRa (nlog XRa (nsub XRa (nofZ XRa 1) (Fin u)))) (Fin rate : num XRa)
      = Fin (- ln (1 - u) / rate)).
    { cbn. unfold xsub. cbn. rewrite Rltb_true by lra. cbn. rewrite Reqb_false by lra. reflexivity. }
    rewrite El in K. set (d := - ln (1 - u) / rate) in *.
    assert (Ex : forall y, y < d <-> 1 - exp (- (rate * y)) < u) by (intros; now apply flight_exceeds).
    assert (Ex' : d < L <-> u < 1 - exp (- (rate * L))).
    { assert (I : forall y, 1 - exp (- (rate * y)) <= u -> y <= d).
      { intros y H. destruct (Rle_or_lt y d) as [|H']; auto. exfalso.
        assert (Z : d < (d + y) / 2 < y) by lra. set (z := (d + y) / 2) in *.
        assert (~ z < d) by lra. apply H0. apply Ex.
        assert (exp (- (rate * y)) < exp (- (rate * z))) by (apply exp_increasing; nra). lra. }
      split; intros H.
      - destruct (Rlt_or_le u (1 - exp (- (rate * L)))) as [|H']; auto. apply I in H'. lra.
      - destruct (Rlt_or_le d L) as [|H']; auto. exfalso.
        destruct H' as [H'|H']; [apply Ex in H'; lra|].
        (* at the surface: the exponential is exact *)
        assert (exp (- (rate * d)) = 1 - u).
        { replace (- (rate * d)) with (ln (1 - u)) by (unfold d; field; lra). apply exp_ln. lra. }
        rewrite H' in H. lra. }
    (* the last step of the flight *)
    assert (Far' : (match t with
                  | SurfaceTracking => negb (nltb XRa (Fin d) (Fin L))
                  | CellDeltaTracking => nltb XRa (Fin L) (Fin d)
                  end = true /\ transmitted t rate L u)
                 \/ (match t with
                  | SurfaceTracking => negb (nltb XRa (Fin d) (Fin L))
                  | CellDeltaTracking => nltb XRa (Fin L) (Fin d)
                  end = false /\ ~ transmitted t rate L u)).
    { cbn [nltb XRa xltb]. unfold transmitted. specialize (Ex L). destruct t.
      - destruct (Rltb_spec d L) as [H|H]; [right|left]; (split; [reflexivity|]); [apply Ex' in H; lra|].
        destruct (Rlt_or_le u (1 - exp (- (rate * L)))) as [H1|H1]; [apply Ex' in H1; lra|exact H1].
      - destruct (Rltb_spec L d) as [H|H]; [left|right]; split; auto; tauto. }
    destruct Far' as [[Hr Tr]|[Hr Tr]]; rewrite Hr in K.
    - destruct K as (Kp & Ks & (Kd & Ke & Kt & Kc) & c' & Fc' & Ec' & Ev).
      split; [rewrite Kc; apply St|].
      destruct (bm_void _ _ _ _ _ _ _ _ _ B) as (k & cv & Ek & Fv & Mv).
      assert (Pq : p_position q = pt (along o v (L + k))).
      { rewrite Kp, (st_position _ St), (st_direction _ St). change (num XRa) with xr in *.
        rewrite Ek. cbn [nadd XRa xadd]. rewrite pscale_pt, padd_pt. reflexivity. }
      split; [exists (L + k); eauto|]. left. split; [exact Tr|].
      rewrite Pq in Fc'. rewrite (first_cell_fun _ _ _ _ Fc' Fv), Mv in Ev.
      rewrite Kd, Ke. repeat split; auto; apply St.
    - destruct K as (Kp & Ks & Kc).
      assert (Cap : p_event q = capture /\ p_secondaries q = p_secondaries p).
      { destruct (step_calls XRa G t fuel w p q Eq) as [(_ & _ & H)|[(Et & _ & _ & H)|H]].
        - exfalso. apply H. rewrite Ks. apply St.
        - exfalso. destruct H as (c2 & m2 & y & T & M & (Ec2 & Em2) & ET & EM & Hv).
          rewrite Ec in Ec2. injection Ec2 as <-. rewrite Em in Em2. injection Em2 as <-.
          destruct (material_total G X Gs m (set_rng p y) (MW c m Hc Em)) as (_ & T' & HT' & F1 & F2 & _).
          { destruct Nt. constructor; auto. }
          rewrite F1 in ET. rewrite F2 in EM. injection ET as <-. injection EM as <-.
          destruct (V y) as (z & Ez & Hz). rewrite Ez in Hv. cbn in Hv.
          rewrite Reqb_false in Hv by lra. cbn in Hv. unfold Rdiv in Hv. rewrite Rinv_r in Hv by lra.
          destruct (Rltb_spec z 1); [discriminate|lra].
        - destruct H as (c2 & m2 & nu & a & p1 & (Ec2 & Em2) & Hin & Ei & En & Ety & Ese & _).
          rewrite Ec in Ec2. injection Ec2 as <-. rewrite Em in Em2. injection Em2 as <-.
          rewrite <- Ese. apply (captured (m_afracs m) x nu a fuel p1 q); auto.
          + rewrite Ety. apply St.
          + rewrite En. apply St.
          + assert (Tot : total_at p1 (nu, a) = total_at p (nu, a)).
            { destruct (MW c m Hc Em) as (_ & _ & Hm). destruct (Hm nu a Hin) as (_ & n & mg & Dn & C & S & W & _).
              pose proof (bm_group _ _ _ _ _ _ _ _ _ B) as Hg. rewrite <- W in Hg.
              assert (Ep1 : p_energy p1 = Group g) by (rewrite En; apply St).
              destruct (C21_total_reals_proof G X n mg p1 g C S Hg Ep1) as [Et1 _].
              destruct (C21_total_reals_proof G X n mg p g C S Hg (st_energy _ St)) as [Et2 _].
              unfold total_at, nu_total. cbn [fst].
              rewrite (nu_multigroup nu p1 mg) by (rewrite Ety, (st_type _ St); exact Dn).
              rewrite (nu_multigroup nu p mg) by (rewrite (st_type _ St); exact Dn).
              cbn [bind]. now rewrite Et1, Et2. }
            rewrite Tot. apply (nuclide_total G X Gs m p nu a (MW c m Hc Em) Nt Hin). }
      destruct Cap as [C1 C2]. split; [rewrite C2; apply St|]. split; [|right; auto].
      exists d. rewrite C1. split; [|discriminate].
      rewrite Kp, (st_position _ St), (st_direction _ St). change (num XRa) with xr in *.
      rewrite pscale_pt, padd_pt. reflexivity.
  Qed.

  (** Histories of the beam. *)
  Lemma beam_start i c : starting (set_cell (set_perturbations (dr_perts dr) (history_start dr i)) c)
    /\ p_position (history_start (G := G) dr i) = pt o.
  Proof.
    unfold history_start. rewrite (bm_source _ _ _ _ _ _ _ _ _ B). unfold source_sample.
    cbn [sample_direction so_direction]. destruct (rraw G _) as [seed' s']. split; [constructor|]; reflexivity.
  Qed.
  Definition leaked q : Prop := p_event q = leak /\ p_surface q = Some (su_id s)
    /\ p_direction q = pt v /\ p_energy q = Group g.
  Lemma beam_history i evs : history (G := G) dr i evs ->
    exists u q, draw G 0 (p_rng (history_start (G := G) dr i)) = Fin u /\ evs = [q]
      /\ (exists fuel c, first_cell w (pt o) c /\ transport_step t fuel w
            (set_cell (set_perturbations (dr_perts dr) (history_start dr i)) c) = Ok q /\ flew q)
      /\ (transmitted t rate L u /\ leaked q
          \/ ~ transmitted t rate L u /\ p_event q = capture).
  Proof.
    intros (f & order & C & Ef & P & ->). destruct f as [p visited cs]. cbn in Ef. subst p.
    apply complete_inv in C as (c & q & Fc & W & Es & _).
    destruct (beam_start i c) as [St Ep]. rewrite Ep in Fc.
    destruct (bm_absorber _ _ _ _ _ _ _ _ _ B) as (c1 & m & D & x & Fc1 & Em & _).
    rewrite (first_cell_fun _ _ _ _ Fc1 Fc) in *. clear c1 Fc1.
    set (p0 := set_cell (set_perturbations (dr_perts dr) (history_start dr i)) c) in *.
    assert (N0 : ~ ended p0).
    { unfold p0, ended, history_start, source_sample.
      destruct (sample_direction _ _) as [d s1]. destruct (rraw G s1). cbn.
      intros [?|[?|?]]; discriminate. }
    assert (Ec0 : p_cell p0 = Some c) by reflexivity.
    change (p_rng (history_start dr i)) with (p_rng p0).
    assert (Ep0 : forall q fuel, transport_step t fuel w p0 = Ok q -> transport_step t fuel w
      (set_cell (set_perturbations (dr_perts dr) (history_start dr i)) c) = Ok q) by auto.
    clearbody p0. inversion W as [p1 En|fuel p1 p2 vis q1 En Eq W' E1 E2]; subst; [contradiction|].
    destruct (beam_step fuel p0 p2 c m St Fc Em Ec0 Eq) as (u & Eu & _ & Sq & Fl & Cases).
    assert (End : ended p2).
    { destruct Cases as [(_ & Ev & _)|(_ & Ev)]; unfold ended; auto. }
    inversion W' as [p3 _ E3 E4|fuel' p3 p4 vis' q' Ne]; subst; [|contradiction].
    rewrite Sq in Es. destruct cs; [|discriminate]. cbn [members flat_map] in P.
    apply Permutation_length_1_inv in P. subst order. exists u, q. split; [exact Eu|].
    split; [reflexivity|]. split; [exists fuel, c; auto|exact Cases].
  Qed.

  (** What a perturbation of the absorber gives. *)
  Lemma beam_effect i fuel c m q pert : In pert (dr_perts dr) -> NoDup (map pt_id (dr_perts dr)) ->
    first_cell w (pt o) c -> c_material c = Some m ->
    transport_step t fuel w (set_cell (set_perturbations (dr_perts dr) (history_start dr i)) c) = Ok q ->
    flew q ->
    exists y, entry (pt_id pert) (p_indirect q) = Some (pert, Fin y : num XRa)
      /\ (p_event q = leak -> exists x k, absorption X Gs g (m_afracs m) x /\ nudge (A := XRa) = Fin k
           /\ 0 < x
           /\ (contains_nuclide m (pt_nuclide pert) -> y = 1 / x - (L + k))
           /\ (~ contains_nuclide m (pt_nuclide pert) -> y = 0)).
  Proof.
    intros Hp Nd Fc Em Eq (l & Pq & Lk). destruct (beam_start i c) as [St _].
    set (p := set_cell (set_perturbations (dr_perts dr) (history_start dr i)) c) in *.
    pose proof (starting_neutron p St) as Nt.
    destruct (bm_absorber _ _ _ _ _ _ _ _ _ B) as (c1 & m1 & D & x & Fc1 & Em1 & Ed & Ab & _).
    rewrite (first_cell_fun _ _ _ _ Fc1 Fc) in *. rewrite Em in Em1. injection Em1 as <-.
    assert (Hc : In c (w_cells w)) by now apply first_cell_in in Fc.
    pose proof (bm_data _ _ _ _ _ _ _ _ _ B c m Hc Em) as MM.
    destruct (material_total G X Gs m p MM Nt) as (_ & T & HT & E1 & E2 & E3).
    rewrite (absorbed _ _ p Ab (st_type _ St) (st_energy _ St)) in E3. subst T.
    destruct MM as ((D' & Ed' & HD) & _). rewrite Ed in Ed'. injection Ed' as <-.
    set (f := mkFlight D x l (match p_event q with capture | scatter | fission => true | _ => false end)
      (existsb (fun y => Nat.eqb (nu_id (fst y)) (nu_id (pt_nuclide pert))) (m_afracs m))).
    assert (Fl : flown t (pt_nuclide pert) p q f).
    { constructor.
      - exists c, m. cbn [f fl_atoms fl_total fl_touched]. do 4 (split; [auto; reflexivity|]).
        split; [auto|]. apply existsb_contains.
      - cbn. auto.
      - exists o, v. split; [apply St|]. split; [apply St|]. split; [apply B|exact Pq].
      - cbn [f fl_collided]. destruct (p_event q); split; intros K; auto; try discriminate;
          destruct K as [?|[?|?]]; discriminate. }
    pose proof (step_effect G t fuel w p q pert 0 f Eq Fl (start_entry G _ pert _ c Hp Nd)) as En.
    eexists. split; [exact En|]. intros Ev. destruct (Lk Ev) as (k & Ek & ->).
    exists x, k. split; [exact Ab|]. split; [exact Ek|]. split; [exact HT|].
    unfold added_effect, f. cbn [fl_touched fl_total fl_length].
    rewrite <- existsb_contains. destruct (existsb _ _); split; intros K; try congruence; lra.
  Qed.

  (** What an estimator is given by a history. *)
  Definition reach (i : N) : bool :=
    match draw G 0 (p_rng (history_start (G := G) dr i)) with
    | Fin u => match t with
               | SurfaceTracking => Rleb (1 - exp (- (rate * L))) u
               | CellDeltaTracking => Rltb (1 - exp (- (rate * L))) u
               end
    | _ => false
    end.
  Lemma reach_true i : reach i = true <->
    exists u, draw G 0 (p_rng (history_start (G := G) dr i)) = Fin u /\ transmitted t rate L u.
  Proof.
    unfold reach, transmitted. destruct (V (p_rng (history_start (G := G) dr i))) as (u & Eu & _).
    change (fst (runif G (p_rng (history_start dr i))))
      with (draw G 0 (p_rng (history_start (G := G) dr i))) in Eu. rewrite Eu.
    split.
    - intros H. exists u. split; [reflexivity|]. destruct t.
      + destruct (Rleb_spec (1 - exp (- (rate * L))) u); [auto|discriminate].
      + destruct (Rltb_spec (1 - exp (- (rate * L))) u); [auto|discriminate].
    - intros (u' & [= <-] & H). destruct t; [now apply Rleb_true|now apply Rltb_true].
  Qed.
  Definition sees (e : estimator XRa) (i : nat) : bool :=
    Nat.eqb (es_surface e) (su_id s)
    && match pbins_index (sc_bins (es_scorable e)) (pt v) (Group g) with
       | Ok j => N.eqb j (N.of_nat i)
       | _ => false
       end.
  Lemma sees_true e i : sees e i = true <-> sees_beam v g s e i.
  Proof.
    unfold sees, sees_beam. rewrite andb_true_iff, Nat.eqb_eq.
    destruct (pbins_index _ _ _) as [j| | | |]; try (split; intros [? ?]; split; auto; discriminate).
    rewrite N.eqb_eq. split; intros [? E]; split; auto; [now rewrite E|now injection E].
  Qed.
  Lemma beam_score e i j evs : history (G := G) dr j evs ->
    INR (length (filter (fun p => in_bin (sc_bins (es_scorable e)) i p && crossed (es_surface e) p) evs))
    = if sees e i && reach j then 1 else 0.
  Proof.
    intros H. destruct (beam_history j evs H) as (u & q & Eu & -> & _ & Cases). cbn [filter].
    assert (R1 : transmitted t rate L u <-> reach j = true).
    { rewrite reach_true, Eu. split; [eauto|]. intros (u' & [= <-] & K). exact K. }
    destruct Cases as [(Tr & Ev & Su & Di & En)|(Tr & Ev)].
    - rewrite (proj1 R1 Tr), andb_true_r. unfold in_bin, crossed, sees. rewrite Ev, Su, Di, En.
      rewrite Nat.eqb_sym, andb_comm.
      destruct (Nat.eqb (es_surface e) (su_id s) && _); reflexivity.
    - destruct (reach j) eqn:Er; [exfalso; apply Tr, R1; reflexivity|]. rewrite andb_false_r.
      unfold crossed. rewrite Ev. destruct (p_surface q); rewrite andb_false_r; reflexivity.
  Qed.
End Beam.

(** Means and deviations of zeros and ones. *)
Lemma bits_sum {T : Type} (f : T -> bool) l :
  Rsum (map (fun x => if f x then 1 else 0) l) = INR (length (filter f l)).
Proof.
  induction l as [|x l IH]; [reflexivity|]. cbn [map Rsum filter]. rewrite IH.
  destruct (f x); [change (length (x :: filter f l)) with (S (length (filter f l))); rewrite S_INR|]; lra.
Qed.
Lemma bits_printed (xs : list R) (s : scorable XRa) weight i :
  (forall x, In x xs -> x = 0 \/ x = 1) -> xs <> [] -> printed s weight i xs ->
  nth_error (sc_means s weight) i = Some (Fin (mean xs))
  /\ nth_error (sc_stddevs s weight) i
     = Some (Fin (sqrt (mean xs * (1 - mean xs)) / sqrt (INR (length xs)))).
Proof.
  intros Hx Ne [P1 P2]. split; [exact P1|]. rewrite P2. do 4 f_equal. unfold variance.
  rewrite Rsum_sq_dev.
  assert (E : Rsum (map (fun x => x * x) xs) = Rsum xs).
  { clear - Hx. induction xs as [|x xs IH]; [reflexivity|]. cbn [map Rsum]. rewrite IH.
    - destruct (Hx x (or_introl eq_refl)) as [-> | ->]; lra.
    - intros; apply Hx; now right. }
  rewrite E. assert (INR (length xs) <> 0) by (apply not_0_INR; destruct xs; [congruence|discriminate]).
  unfold mean. field. exact H.
Qed.

Lemma C86_absorber_proof :
  forall (G : Rng XRa) (X : Ext XRa) Gs (dr : @driver XRa) o v g s (L rate : R) fuel schedule,
  valid_rng G -> beam X Gs dr o v g s L rate ->
  (dr_batchsize dr + dr_threads dr <= 2 ^ 64)%N -> (0 < dr_threads dr)%N -> (0 < dr_batchsize dr)%N ->
  blank_set (dr_init dr) -> unique_names (dr_init dr) ->
  ss_weight (dr_init dr) = Fin (IZR (Z.of_N (dr_batchsize dr))) ->
  let sv := run_schedule (G := G) dr fuel (solver_start dr 0) schedule in
  List.Forall succeeded (sv_workers sv) ->
  exists r, solver_result dr sv = Ok r
    /\ Forall2 (fun e e' : estimator XRa => forall i, (i < length (sc_scores (es_scorable e)))%nat ->
         (* the histories whose first random number takes them to the surface are counted *)
         exists n, counts (fun j : N => (j < dr_batchsize dr)%N /\ sees_beam v g s e i
             /\ exists u, draw G 0 (p_rng (history_start (G := G) dr j)) = Fin u
                          /\ transmitted (dr_tracking dr) rate L u) n
           /\ let x := IZR (Z.of_N n) / IZR (Z.of_N (dr_batchsize dr)) in
              nth_error (sc_means (es_scorable e') (ss_weight r)) i = Some (Fin x)
              /\ nth_error (sc_stddevs (es_scorable e') (ss_weight r)) i
                 = Some (Fin (sqrt (x * (1 - x)) / sqrt (IZR (Z.of_N (dr_batchsize dr))))))
       (ss_estimators (dr_init dr)) (ss_estimators r).
Proof.
  intros G X Gs dr o v g s L rate fuel schedule V B few T Nz Bl Un Ew sv Su.
  destruct (C57_result_proof G dr fuel schedule few T Bl Un Su) as (r & hs & Er & Fh & [W Fe]).
  exists r. split; [exact Er|].
  pose proof (Forall2_length _ _ _ Fh) as Lh. rewrite below_length in Lh.
  assert (Nh : hs <> []) by (intros ->; cbn in Lh; lia).
  assert (Iw : INR (length hs) = IZR (Z.of_N (dr_batchsize dr))).
  { rewrite <- Lh, INR_IZR_INZ. f_equal. lia. }
  rewrite W, Ew, <- Iw.
  clear - B V Bl Fe Fh Nh Iw. unfold blank_set in Bl.
  induction Fe as [|e e' l l' S F IH]; constructor; [|apply IH; intros; apply Bl; now right].
  clear IH F. destruct (Bl e (or_introl eq_refl)) as [Be _]. destruct S as [_ Sc _].
  intros i Hi.
  set (test := fun j => sees v g s e i && reach G dr L rate j).
  exists (N.of_nat (length (filter test (below (dr_batchsize dr))))). split.
  { apply (counts_iff (fun j => In j (below (dr_batchsize dr)) /\ test j = true)).
    - intros j. unfold test. rewrite in_below, andb_true_iff, sees_true, reach_true by exact V.
      reflexivity.
    - apply counts_filter, below_nodup. }
  set (xs := map (fun h => INR (length (filter (fun p => in_bin (sc_bins (es_scorable e)) i p
                                            && crossed (es_surface e) p) h))) hs).
  assert (Ex : xs = map (fun j => if test j then 1 else 0) (below (dr_batchsize dr))).
  { unfold xs. clear - Fh B V. induction Fh as [|j h l k H F IH]; [reflexivity|]. cbn [map].
    rewrite IH. f_equal. apply (beam_score G V X Gs dr o v g s L rate B e i j h H). }
  assert (Em : mean xs = IZR (Z.of_N (N.of_nat (length (filter test (below (dr_batchsize dr))))))
                         / INR (length hs)).
  { unfold mean. rewrite Ex, bits_sum at 1. unfold xs at 1. rewrite map_length.
    rewrite INR_IZR_INZ. do 3 f_equal. lia. }
  assert (Lx : length xs = length hs) by (unfold xs; now rewrite map_length).
  assert (Pr : printed (es_scorable e') (Fin (INR (length hs))) i xs).
  { apply (scored_printed _ _ _ _ i _ Sc); auto. unfold xs. rewrite map_map. apply map_ext.
    intros h. apply crossing_count. }
  apply bits_printed in Pr.
  - rewrite Em, Lx in Pr. exact Pr.
  - rewrite Ex. intros x Hx. apply in_map_iff in Hx as (j & <- & _). destruct (test j); auto.
  - intros E. apply (f_equal (@length _)) in E. rewrite Lx in E. destruct hs; [congruence|discriminate].
Qed.

Lemma beam_rate X Gs dr o v g s L rate : beam X Gs dr o v g s L rate -> 0 < rate /\ 0 < L.
Proof.
  intros B. destruct (bm_absorber _ _ _ _ _ _ _ _ _ B)
    as (c & m & D & x & Fc & Em & Ed & Ab & Er & _ & _ & HL & _). split; [|exact HL].
  assert (Hc : In c (w_cells (dr_world dr))) by now apply first_cell_in in Fc.
  pose proof (bm_data _ _ _ _ _ _ _ _ _ B c m Hc Em) as MM.
  set (p := new_particle (G := Minstd XRa) (pt o) (pt v) (Group g) neutron 1 (Some c)).
  assert (Nt : group_neutron Gs p).
  { constructor; [reflexivity| | |].
    - exists g. split; [reflexivity|apply B].
    - now exists o.
    - exists v. split; [reflexivity|apply B]. }
  destruct (material_total (Minstd XRa) X Gs m p MM Nt) as (_ & T & HT & _ & _ & E).
  rewrite (absorbed (Minstd XRa) X Gs dr o v g s L rate B _ _ p Ab eq_refl eq_refl) in E. subst T.
  destruct MM as ((D' & Ed' & HD) & _). rewrite Ed in Ed'. injection Ed' as <-. rewrite Er. nra.
Qed.

Lemma share_from k x : 0 <= x -> x <= 1 ->
  Rabs (IZR (Z.of_nat (length (filter (passing k (fun u => Rleb x u)) (states XRa))))
        - (1 - x) * IZR (Z.of_N cycle)) <= 1.
Proof.
  intros H1 H2. change (Z.of_N cycle) with 2147483646%Z.
  replace ((1 - x) * 2147483646) with (2147483646 - x * 2147483646) by ring.
  apply passing_above; try nra; intros u Hu.
  - intros H. rewrite Rleb_true by nra. reflexivity.
  - intros U. destruct (Rleb_spec x u); [|discriminate]. nra.
Qed.

Lemma beam_share (dr : @driver XRa) rate L : 0 < rate -> 0 < L ->
  (dr_seed dr + cycle <= 2 ^ 64)%N ->
  frequency (fun j : N => (j < cycle)%N
     /\ exists u, draw (Minstd XRa) 0 (p_rng (history_start (G := Minstd XRa) dr j)) = Fin u
                  /\ transmitted (dr_tracking dr) rate L u) (exp (- (rate * L))) 2.
Proof.
  intros H1 H2 S. replace 2 with (1 + 1) by lra.
  pose proof (exp_pos (- (rate * L))) as X0.
  assert (X1 : exp (- (rate * L)) <= 1).
  { rewrite <- exp_0. left. apply exp_increasing. nra. }
  unfold transmitted. set (x := 1 - exp (- (rate * L))). assert (Hx : 0 <= x <= 1) by (unfold x; lra).
  replace (exp (- (rate * L))) with (1 - x) by (unfold x; ring).
  destruct (dr_tracking dr).
  - eapply share_iff; [|apply share_of_histories with (test := passing 0 (fun u => Rleb x u));
      [exact S|apply share_from; lra]].
    cbv beta. intros j. rewrite passing_true. split; intros (Hj & u & E & H); (split; [exact Hj|]);
      exists u; (split; [exact E|]).
    + destruct (Rleb_spec x u); [assumption|discriminate].
    + now apply Rleb_true.
  - eapply share_iff; [|apply share_of_histories with (test := passing 0 (fun u => Rltb x u));
      [exact S|apply share_above; lra]].
    cbv beta. intros j. rewrite passing_true. split; intros (Hj & u & E & H); (split; [exact Hj|]);
      exists u; (split; [exact E|]).
    + destruct (Rltb_spec x u); [assumption|discriminate].
    + now apply Rltb_true.
Qed.

Lemma C86_attenuation_proof :
  forall (X : Ext XRa) Gs (dr : @driver XRa) o v g s (L rate : R) fuel schedule,
  beam X Gs dr o v g s L rate ->
  dr_batchsize dr = cycle -> (dr_seed dr + cycle <= 2 ^ 64)%N ->
  (dr_batchsize dr + dr_threads dr <= 2 ^ 64)%N -> (0 < dr_threads dr)%N ->
  blank_set (dr_init dr) -> unique_names (dr_init dr) ->
  ss_weight (dr_init dr) = Fin (IZR (Z.of_N (dr_batchsize dr))) ->
  let sv := run_schedule (G := Minstd XRa) dr fuel (solver_start dr 0) schedule in
  List.Forall succeeded (sv_workers sv) ->
  exists r, solver_result dr sv = Ok r
    /\ Forall2 (fun e e' : estimator XRa => forall i, (i < length (sc_scores (es_scorable e)))%nat ->
         exists x, nth_error (sc_means (es_scorable e') (ss_weight r)) i = Some (Fin x)
           (* the part exp(-rate*L) of the beam is counted, and nothing in other bins *)
           /\ (sees_beam v g s e i -> Rabs (x - exp (- (rate * L))) <= 2 / IZR (Z.of_N cycle))
           /\ (~ sees_beam v g s e i -> x = 0))
       (ss_estimators (dr_init dr)) (ss_estimators r).
Proof.
  intros X Gs dr o v g s L rate fuel schedule B Eb S few T Bl Un Ew sv Su.
  destruct (C86_absorber_proof (Minstd XRa) X Gs dr o v g s L rate fuel schedule minstd_valid B few T
    ltac:(rewrite Eb; reflexivity) Bl Un Ew Su) as (r & Er & F).
  exists r. split; [exact Er|]. destruct (beam_rate _ _ _ _ _ _ _ _ _ B) as [R1 R2].
  pose proof (beam_share dr rate L R1 R2 S) as (n0 & C0 & H0). rewrite Eb in F.
  assert (Pc : 0 < IZR (Z.of_N cycle)) by (apply IZR_lt; reflexivity).
  set (c := IZR (Z.of_N cycle)) in *.
  clear - F C0 H0 Pc. induction F as [|e e' l l' F Fs IH]; constructor; auto. clear IH Fs. intros i Hi.
  destruct (F i Hi) as (n & C & M & _). eexists. split; [exact M|]. split.
  - intros Se. assert (n = n0) as ->.
    { apply (counts_unique _ _ _ C). eapply counts_iff; [|exact C0]. cbv beta. intros j. tauto. }
    replace (IZR (Z.of_N n0) / c - exp (- (rate * L)))
      with ((IZR (Z.of_N n0) - exp (- (rate * L)) * c) / c) by (field; lra).
    unfold Rdiv. rewrite Rabs_mult, (Rabs_right (/ c)) by (left; now apply Rinv_0_lt_compat).
    apply Rmult_le_compat_r; [left; now apply Rinv_0_lt_compat|exact H0].
  - intros Se. assert (n = 0%N) as ->.
    { apply (counts_unique _ _ _ C). exists []. split; [constructor|]. split; [|reflexivity].
      intros j. split; [intros []|]. intros (_ & Se' & _). contradiction. }
    unfold Rdiv. cbn. lra.
Qed.

(** Runs of a beam do not fail. *)
Lemma score_commit (G : Rng XRa) (q : particle XRa G) : forall l : list (estimator XRa),
  (forall e, In e l -> exists px, est_proxy_score e (new_proxy e) q = Ok px
     /\ exists e', est_commit e px = Ok e') ->
  exists pxs, mapM (fun x => est_proxy_score (fst x) (snd x) q) (combine l (map new_proxy l)) = Ok pxs
    /\ exists es, mapM (fun x => est_commit (fst x) (snd x)) (combine l pxs) = Ok es.
Proof.
  induction l as [|e l IH]; intros H; [exists []; split; [reflexivity|exists []; reflexivity]|].
  destruct (H e (or_introl eq_refl)) as (px & E1 & e' & E2).
  destruct IH as (pxs & E3 & es & E4); [intros; apply H; now right|].
  exists (px :: pxs). cbn [map combine mapM fst snd]. rewrite E1. cbn [bind]. rewrite E3.
  split; [reflexivity|]. exists (e' :: es). rewrite E2. cbn [bind]. rewrite E4. reflexivity.
Qed.
Lemma add_at_total (x : num XRa) : forall l i, (i < length l)%nat -> exists r, add_at i x l = Ok r.
Proof.
  induction l as [|y l IH]; intros [|i] H; cbn in *; try lia; eauto.
  destruct (IH i ltac:(lia)) as (r & ->). cbn. eauto.
Qed.

Lemma commit_one (G : Rng XRa) v g s (e : estimator XRa) (sc : scorable XRa) (q : particle XRa G) y :
  sc_bins sc = sc_bins (es_scorable e) -> room v g s e sc ->
  y = 0 \/ es_surface e = su_id s /\ leaked G v g s q ->
  exists pd, proxy_score (sc_bins sc) (Fin y : num XRa) [] q = Ok pd
    /\ exists sc', sc_commit sc pd = Ok sc'.
Proof.
  intros Eb Rd Hy. unfold proxy_score. change (neqb XRa (Fin y) (nofZ XRa 0)) with (Reqb y 0).
  destruct (Req_dec y 0) as [E|E].
  - rewrite Reqb_true by exact E. eexists. split; [reflexivity|]. cbn. eauto.
  - destruct Hy as [?|(Es & _ & _ & Di & En)]; [contradiction|]. rewrite Reqb_false by exact E.
    destruct (Rd Es) as (i & [_ Ei] & H1 & H2). rewrite Eb, Di, En, Ei. cbn [bind].
    eexists. split; [reflexivity|]. unfold sc_commit, add_at_N.
    cbn [pending_add foldM fst snd bind].
    destruct (add_at_total (Fin y) _ i H1) as (r1 & E1).
    destruct (add_at_total (nmul XRa (Fin y) (Fin y)) _ i H2) as (r2 & E2).
    replace (N.of_nat i <? N.of_nat (length (sc_scores sc)))%N with true
      by (symmetry; apply N.ltb_lt; lia).
    replace (N.of_nat i <? N.of_nat (length (sc_squares sc)))%N with true
      by (symmetry; apply N.ltb_lt; lia).
    rewrite Nat2N.id. change (num XRa) with xr in *. rewrite E1. cbn [bind].
    rewrite E2. cbn. eauto.
Qed.

Lemma beam_scored (G : Rng XRa) perts v g s (e : estimator XRa) (q : particle XRa G) :
  ready perts v g s e -> leaked G v g s q \/ p_event q = capture ->
  (forall pert, In pert perts -> exists y, entry (pt_id pert) (p_indirect q) = Some (pert, Fin y : num XRa)) ->
  exists px, est_proxy_score e (new_proxy e) q = Ok px /\ exists e', est_commit e px = Ok e'.
Proof.
  intros [Rd Sn] H Ef. unfold est_proxy_score, new_proxy, est_commit. cbn [fst snd].
  assert (Z : exists y, current_score (A := XRa) (es_surface e) q = Fin y
     /\ (y = 0 \/ es_surface e = su_id s /\ leaked G v g s q)).
  { unfold current_score. destruct H as [Lk|Ev].
    - pose proof Lk as (Ev & Su & _). rewrite Su, Ev. cbn [event_eqb orb].
      rewrite andb_true_r. destruct (Nat.eqb_spec (su_id s) (es_surface e)); eexists; (split; [reflexivity|]); auto.
    - rewrite Ev. cbn [event_eqb orb]. exists 0. split; [|auto].
      destruct (p_surface q); [rewrite andb_false_r|]; reflexivity. }
  destruct Z as (y & Ey & Hy).
  destruct (commit_one G v g s e (es_scorable e) q y eq_refl Rd Hy) as (own & E1 & sc' & E2).
  rewrite Ey. change (num XRa) with xr in *. rewrite E1. cbn [bind].
  assert (S : forall l, incl l (es_sens e) -> exists subs,
    mapM (fun sp : sensitivity XRa * pending XRa =>
            bind (sens_score (fst sp) q) (fun score =>
              proxy_score (sc_bins (sn_scorable (fst sp))) score (snd sp) q))
         (combine l (map (fun _ => []) l)) = Ok subs
    /\ exists sens, mapM (fun sp : sensitivity XRa * pending XRa =>
            bind (sc_commit (sn_scorable (fst sp)) (snd sp)) (fun s0 =>
              Ok (mkSens s0 (sn_surface (fst sp)) (sn_pert (fst sp)))))
         (combine l subs) = Ok sens).
  { induction l as [|sn l IH]; intros I; [exists []; split; [reflexivity|exists []; reflexivity]|].
    destruct IH as (subs & F1 & sens & F2); [intros z Hz; apply I; now right|].
    destruct (Sn sn (I sn (or_introl eq_refl))) as [(Es & Eb & pert & Hp & Ep) Rs].
    destruct (Ef pert Hp) as (z & Ez).
    assert (Hz : z * y = 0 \/ es_surface e = su_id s /\ leaked G v g s q).
    { destruct Hy as [-> |Hy]; [left; ring|now right]. }
    destruct (commit_one G v g s e (sn_scorable sn) q (z * y) Eb Rs Hz) as (pd & F3 & sc2 & F4).
    exists (pd :: subs). cbn [combine map mapM fst snd]. unfold sens_score at 1, get_indirect.
    rewrite <- Ep. unfold entry in Ez. change (num XRa) with xr in *. rewrite Ez. cbn [bind snd].
    rewrite Es, Ey. change (nmul XRa (Fin z) (Fin y)) with (Fin (z * y)).
    rewrite F3. cbn [bind]. rewrite F1. split; [reflexivity|].
    cbn [combine mapM fst snd]. rewrite F4. cbn [bind]. rewrite F2. eexists. reflexivity. }
  destruct (S (es_sens e) (incl_refl _)) as (subs & F1 & sens & F2).
  match goal with |- context [mapM ?f ?l] => replace (mapM f l) with (Ok subs) by (symmetry; exact F1) end.
  cbn [bind noexcept]. eexists. split; [reflexivity|]. cbn [fst snd].
  rewrite E2. cbn [bind].
  match goal with |- context [mapM ?f ?l] => replace (mapM f l) with (Ok sens) by (symmetry; exact F2) end.
  eexists. reflexivity.
Qed.

Lemma C86_completes_proof :
  forall (G : Rng XRa) (X : Ext XRa) Gs (dr : @driver XRa) o v g s (L rate : R) fuel schedule,
  valid_rng G -> beam X Gs dr o v g s L rate ->
  (dr_batchsize dr + dr_threads dr <= 2 ^ 64)%N ->
  blank_set (dr_init dr) -> unique_names (dr_init dr) -> NoDup (map pt_id (dr_perts dr)) ->
  List.Forall (ready (dr_perts dr) v g s) (ss_estimators (dr_init dr)) ->
  (2 <= fuel)%nat -> fair dr (2 * N.to_nat (dr_batchsize dr) + 1) schedule ->
  List.Forall succeeded
    (sv_workers (run_schedule (G := G) dr fuel (solver_start dr 0) schedule)).
Proof.
  intros G X Gs dr o v g s L rate fuel schedule V B few Bl Un Nd Rd Hf Fa.
  assert (Rn : forall i, exists r, run_history (G := G) dr fuel (dr_init dr) i = Ok r).
  { intros i. unfold run_history. destruct fuel as [|[|fuel]]; try lia. cbn [bank_loop rev app].
    destruct (bm_absorber _ _ _ _ _ _ _ _ _ B) as (c & m & D & x & Fc & Em & _).
    destruct (beam_start G X Gs dr o v g s L rate B i c) as [St Ep].
    set (p0 := set_cell (set_perturbations (dr_perts dr) (history_start dr i)) c) in *.
    assert (Lv : live G Gs (dr_world dr) p0).
    { constructor; [now apply (starting_neutron G X Gs dr o v g s L rate B)|].
      exists c, m. split; [reflexivity|]. split; [now apply first_cell_in in Fc|exact Em]. }
    destruct (step_live G V X Gs (dr_world dr) (bm_data _ _ _ _ _ _ _ _ _ B)
      (bm_geometry _ _ _ _ _ _ _ _ _ B) (dr_tracking dr) fuel p0 Lv) as (q & Eq & _).
    destruct (beam_step G V X Gs dr o v g s L rate B fuel p0 q c m St Fc Em eq_refl Eq)
      as (u & _ & _ & Sq & Fl & Cases).
    assert (Hq : (leaked G v g s q \/ p_event q = capture) /\ is_alive q = false).
    { unfold leaked, is_alive. destruct Cases as [(_ & Ev & H)|(_ & Ev)]; rewrite Ev; auto. }
    destruct Hq as [Hq Al].
    destruct (score_commit G q (ss_estimators (dr_init dr))) as (pxs & E1 & es & E2).
    { intros e He. rewrite Forall_forall in Rd. apply (beam_scored G (dr_perts dr) v g s); auto.
      intros pert Hp. destruct (beam_effect G X Gs dr o v g s L rate B i fuel c m q pert Hp Nd Fc Em Eq Fl)
        as (y & Ey & _). eauto. }
    unfold transport. cbn [p_position set_perturbations] in *.
    change (p_position (set_perturbations (dr_perts dr) (history_start dr i)))
      with (p_position (history_start (G := G) dr i)).
    rewrite Ep. apply (proj1 (C13_point_location_proof XRa (dr_world dr) _)) in Fc.
    change (num XRa) with xr in *. rewrite Fc. cbn [bind]. fold p0.
    assert (Al0 : is_alive p0 = true).
    { unfold p0, is_alive, history_start, source_sample. destruct (sample_direction _ _) as [d s1].
      destruct (rraw G s1). reflexivity. }
    cbn [transport_loop]. rewrite Al0, Eq. cbn [bind]. unfold set_proxy_score at 1, new_set_proxy.
    rewrite E1. cbn [bind]. replace (transport_loop (set_proxy_score (dr_init dr)) (dr_tracking dr) fuel
      (dr_world dr) pxs q) with (Ok (pxs, q)) by (destruct fuel; cbn [transport_loop]; now rewrite Al).
    cbn [noexcept bind]. rewrite Sq. cbn [app bank_loop rev].
    cbn [bind]. unfold set_commit. rewrite E2. cbn. eauto. }
  destruct (serial_total (G := G) dr fuel (below (dr_batchsize dr)) (dr_init dr) []
    (tallied_init dr fuel)) as (r & Er & _).
  { apply Forall_forall. intros i _. apply Rn. }
  exact (serial_succeeded dr fuel few schedule r Er Fa).
Qed.
