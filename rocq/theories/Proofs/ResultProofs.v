(** The merged result of the workers: C57. *)
From Coq Require Import Bool String List Reals ZArith NArith Lra Lia Permutation.
From Verif Require Import Model.Num Model.Outcome Model.Rng Model.Xml Model.Std Model.Types
  Model.Bins Model.Particle Model.World Model.Perturbation Model.Estimator Model.Transport
  Model.Driver Spec.SumSpec Spec.HistorySpec Spec.EstimatorSpec Spec.SolverSpec
  Proofs.OutcomeLib Proofs.RealLib Proofs.BinsProofs Proofs.FuelProofs Proofs.HistoryProofs
  Proofs.EstimatorProofs Proofs.TallyProofs Proofs.MergeProofs Proofs.AlikeProofs
  Proofs.SolverProofs.
Import ListNotations.

Lemma Forall2_positions {V W} (Q : V -> W -> Prop) : forall l l',
  Forall2 Q l l' <-> length l = length l' /\
    forall i x y, nth_error l i = Some x -> nth_error l' i = Some y -> Q x y.
Proof.
  intros l l'. split.
  - induction 1 as [|x y l l' H F [IHl IH]]; (split; [cbn; congruence|]).
    + intros [|i]; discriminate.
    + intros [|i] a b; cbn; [congruence|eauto].
  - revert l'. induction l as [|x l IH]; intros [|y l'] [L H]; try discriminate; constructor.
    + exact (H 0%nat x y eq_refl eq_refl).
    + apply IH. split; [cbn in L; congruence|]. intros i a b. exact (H (S i) a b).
Qed.
Lemma list_positions {V} (l l' : list V) : length l = length l' ->
  (forall i x y, nth_error l i = Some x -> nth_error l' i = Some y -> x = y) -> l = l'.
Proof.
  intros L H. assert (F : Forall2 eq l l') by now apply Forall2_positions.
  clear - F. induction F; congruence.
Qed.
Lemma nth_partner {V W} (l : list V) (l' : list W) i x : length l = length l' ->
  nth_error l i = Some x -> exists y, nth_error l' i = Some y.
Proof.
  intros L E. destruct (nth_error l' i) eqn:E'; eauto.
  apply nth_error_None in E'. assert (i < length l)%nat by (apply nth_error_Some; congruence). lia.
Qed.
Lemma same_position {V} (name : V -> string) (l : list V) i j x y : NoDup (map name l) ->
  nth_error l i = Some x -> nth_error l j = Some y -> name x = name y -> i = j.
Proof.
  intros Nd Ei Ej E. apply (proj1 (NoDup_nth_error (map name l)) Nd).
  - rewrite map_length. apply nth_error_Some. congruence.
  - rewrite !nth_error_map, Ei, Ej. cbn. congruence.
Qed.

Section Result.
  Context {G : Rng XRa}.
  Notation particle := (particle XRa G).

  (** ** The scores determine the set *)
  Lemma scored_fun score (hs hs' : list (list particle)) s a b : Permutation hs hs' ->
    scored score hs s a -> scored score hs' s b -> a = b.
  Proof.
    intros P [N1 B1 L1 K1 S1 Q1] [N2 B2 L2 K2 S2 Q2].
    destruct a as [na ba xa qa], b as [nb bb xb qb]. cbn in *. f_equal; try congruence.
    - apply list_positions; [congruence|]. intros i x y Ex Ey.
      destruct (nth_partner xa (sc_scores s) i x L1 Ex) as (z & Ez).
      specialize (S1 i z Ez). specialize (S2 i z Ez).
      change (num XRa) with xr in *. rewrite S1 in Ex. rewrite S2 in Ey.
      injection Ex as <-. injection Ey as <-. f_equal. now apply xsum_perm, Permutation_map.
    - apply list_positions; [congruence|]. intros i x y Ex Ey.
      destruct (nth_partner qa (sc_squares s) i x K1 Ex) as (z & Ez).
      specialize (Q1 i z Ez). specialize (Q2 i z Ez).
      change (num XRa) with xr in *. rewrite Q1 in Ex. rewrite Q2 in Ey.
      injection Ex as <-. injection Ey as <-. f_equal. now apply xsum_perm, Permutation_map.
  Qed.
  Lemma Forall2_fun {V W} (Q Q' : V -> W -> Prop) : (forall v a b, Q v a -> Q' v b -> a = b) ->
    forall l a b, Forall2 Q l a -> Forall2 Q' l b -> a = b.
  Proof.
    intros H l a b F. revert b. induction F; intros b F'; inversion F'; subst; f_equal; eauto.
  Qed.
  Lemma scored_set_fun (hs hs' : list (list particle)) s a b : Permutation hs hs' ->
    scored_set hs s a -> scored_set hs' s b -> a = b.
  Proof.
    intros P [W1 F1] [W2 F2]. destruct a as [ea wa], b as [eb wb]. cbn in *. f_equal; try congruence.
    refine (Forall2_fun _ _ _ _ _ _ F1 F2). clear F1 F2.
    intros v a b [S1 T1 U1] [S2 T2 U2]. destruct a, b. cbn in *. f_equal; try congruence.
    - eapply scored_fun; eauto.
    - refine (Forall2_fun _ _ _ _ _ _ U1 U2). clear U1 U2.
      intros v' a b [X1 Y1 Z1] [X2 Y2 Z2]. destruct a, b. cbn in *. f_equal; try congruence.
      eapply scored_fun; eauto.
  Qed.

  (** ** Merging scores that start from nothing *)
  Lemma blank_nth (s : scorable XRa) : blank s ->
    (forall i x, nth_error (sc_scores s) i = Some x -> x = Fin 0)
    /\ forall i x, nth_error (sc_squares s) i = Some x -> x = Fin 0.
  Proof.
    intros (n & -> & ->). split; intros i x E; apply nth_error_In in E; now apply repeat_spec in E.
  Qed.
  Lemma added_scored score (hs hs' : list (list particle)) s a o r : blank s ->
    scored score hs s a -> scored score hs' s o -> added a o r -> scored score (hs ++ hs') s r.
  Proof.
    intros B [N1 B1 L1 K1 S1 Q1] [N2 B2 L2 K2 S2 Q2] [N3 B3 L3 K3 S3 Q3].
    destruct (blank_nth s B) as [Z1 Z2]. constructor; try congruence.
    - intros i x E. pose proof (Z1 i x E) as ->.
      rewrite (S3 i _ _ (S1 i _ E) (S2 i _ E)). cbn [nadd XRa].
      rewrite map_app, xsum_app, !xadd_0_l. reflexivity.
    - intros i x E. pose proof (Z2 i x E) as ->.
      rewrite (Q3 i _ _ (Q1 i _ E) (Q2 i _ E)). cbn [nadd XRa].
      rewrite map_app, xsum_app, !xadd_0_l. reflexivity.
  Qed.

  Lemma scored_same_bins score (hs hs' : list (list particle)) s a o :
    scored score hs s a -> scored score hs' s o -> same_bins a o.
  Proof. intros [] []. split; congruence. Qed.

  Lemma merged (hs hs' : list (list particle)) (s a o : estimator_set XRa) :
    blank_set s -> unique_names s -> scored_set hs s a -> scored_set hs' s o ->
    exists r, set_add a o = Ok r /\ scored_set (hs ++ hs') s r.
  Proof.
    intros Bl [Nd Ns] [Wa Fa] [Wo Fo].
    apply Forall2_positions in Fa as [La Fa]. apply Forall2_positions in Fo as [Lo Fo].
    assert (Names : forall e e' (hs : list (list particle)), scored_estimator hs e e' -> es_name e' = es_name e).
    { intros e e' h [_ [En _ _ _ _ _] _]. exact En. }
    assert (SNames : forall e e' (hs : list (list particle)), scored_estimator hs e e' ->
              map sens_name (es_sens e') = map sens_name (es_sens e)).
    { intros e e' h [_ _ F]. induction F as [|x y l l' [_ _ [Sn _ _ _ _ _]] F IH]; cbn; auto.
      unfold sens_name at 1 3. congruence. }
    assert (Uo : unique_names o).
    { split.
      - replace (map es_name (ss_estimators o)) with (map es_name (ss_estimators s)); auto.
        apply list_positions; [now rewrite !map_length|]. intros i x y.
        rewrite !nth_error_map. intros Ex Ey.
        destruct (nth_error (ss_estimators s) i) as [e|] eqn:Es; [|discriminate].
        destruct (nth_error (ss_estimators o) i) as [e'|] eqn:Eo; [|discriminate].
        injection Ex as <-. injection Ey as <-. symmetry. eapply Names, Fo; eauto.
      - intros e He. apply In_nth_error in He as (i & Ei).
        destruct (nth_partner _ (ss_estimators s) i e (eq_sym Lo) Ei) as (e0 & E0).
        rewrite (SNames _ _ _ (Fo i _ _ E0 Ei)). apply Ns. eapply nth_error_In; eauto. }
    (** estimators of one name are at one position *)
    assert (Pos : forall i j e e', nth_error (ss_estimators a) i = Some e ->
              nth_error (ss_estimators o) j = Some e' -> es_name e' = es_name e -> i = j).
    { intros i j e e' Ei Ej En.
      destruct (nth_partner _ (ss_estimators s) i e (eq_sym La) Ei) as (e0 & E0).
      destruct (nth_partner _ (ss_estimators s) j e' (eq_sym Lo) Ej) as (e1 & E1).
      apply (same_position es_name (ss_estimators s) i j e0 e1 Nd E0 E1).
      rewrite <- (Names _ _ _ (Fa i _ _ E0 Ei)), <- (Names _ _ _ (Fo j _ _ E1 Ej)). congruence. }
    destruct (C53_error_proof XRa a o Uo) as [_ [_ Tot]].
    { intros e e' He He' En. apply In_nth_error in He as (i & Ei). apply In_nth_error in He' as (j & Ej).
      pose proof (Pos i j e e' Ei Ej En) as <-.
      destruct (nth_partner _ (ss_estimators s) i e (eq_sym La) Ei) as (e0 & E0).
      destruct (Fa i _ _ E0 Ei) as [Su1 Sc1 Se1]. destruct (Fo i _ _ E0 Ej) as [Su2 Sc2 Se2].
      split; [eapply scored_same_bins; eauto|].
      pose proof (Ns e0 (nth_error_In _ _ E0)) as Nn.
      apply Forall2_positions in Se1 as [L1 F1]. apply Forall2_positions in Se2 as [L2 F2].
      intros sn Hsn. apply In_nth_error in Hsn as (k & Ek).
      destruct (nth_partner _ (es_sens e0) k sn (eq_sym L1) Ek) as (s0 & Es0).
      split.
      - destruct (nth_partner (es_sens e0) (es_sens e') k s0 L2 Es0) as (so & Eso).
        exists so. split; [eapply nth_error_In; eauto|].
        destruct (F1 k _ _ Es0 Ek) as [_ _ [Q1 _ _ _ _ _]].
        destruct (F2 k _ _ Es0 Eso) as [_ _ [Q2 _ _ _ _ _]]. unfold sens_name. congruence.
      - intros so Hso Eso. apply In_nth_error in Hso as (m & Em).
        destruct (nth_partner _ (es_sens e0) m so (eq_sym L2) Em) as (s1 & Es1).
        destruct (F1 k _ _ Es0 Ek) as [Xa Ya Z1].
        destruct (F2 m _ _ Es1 Em) as [Xb Yb Z2].
        assert (k = m) as <-.
        { apply (same_position sens_name (es_sens e0) k m s0 s1 Nn Es0 Es1).
          destruct Z1 as [Q1 _ _ _ _ _], Z2 as [Q2 _ _ _ _ _]. unfold sens_name in *. congruence. }
        assert (s1 = s0) as -> by congruence. eapply scored_same_bins; eauto. }
    destruct Tot as (r & Er).
    { intros e He. apply In_nth_error in He as (i & Ei).
      destruct (nth_partner _ (ss_estimators s) i e (eq_sym La) Ei) as (e0 & E0).
      destruct (nth_partner _ (ss_estimators o) i e0 Lo E0) as (e' & Ee).
      exists e'. split; [eapply nth_error_In; eauto|].
      rewrite (Names _ _ _ (Fa i _ _ E0 Ei)), (Names _ _ _ (Fo i _ _ E0 Ee)). reflexivity. }
    exists r. split; [exact Er|].
    apply (C53_merge_proof XRa a o r Uo) in Er as [Wr Fr].
    constructor; [congruence|]. apply Forall2_positions in Fr as [Lr Fr].
    apply Forall2_positions. split; [congruence|]. intros i e0 er E0 Eer.
    destruct (nth_partner _ (ss_estimators a) i e0 La E0) as (ea & Eea).
    destruct (Fr i _ _ Eea Eer) as (eo & Ho & En & Ad).
    apply In_nth_error in Ho as (j & Ej). pose proof (Pos i j ea eo Eea Ej En) as <-.
    destruct (Fa i _ _ E0 Eea) as [Su1 Sc1 Se1]. destruct (Fo i _ _ E0 Ej) as [Su2 Sc2 Se2].
    destruct Ad as [Su3 Sc3 Se3]. destruct (Bl e0 (nth_error_In _ _ E0)) as [B0 Bs].
    constructor; [congruence|eapply added_scored; eauto|].
    apply Forall2_positions in Se1 as [L1 F1]. apply Forall2_positions in Se2 as [L2 F2].
    apply Forall2_positions in Se3 as [L3 F3].
    apply Forall2_positions. split; [congruence|]. intros k s0 sr Es0 Esr.
    destruct (nth_partner _ (es_sens ea) k s0 L1 Es0) as (sa & Esa).
    destruct (nth_partner _ (es_sens eo) k s0 L2 Es0) as (so & Eso).
    destruct (F1 k _ _ Es0 Esa) as [X1 Y1 Z1]. destruct (F2 k _ _ Es0 Eso) as [X2 Y2 Z2].
    destruct (F3 k _ _ Esa Esr so (nth_error_In _ _ Eso)) as [X3 Y3 Z3].
    { destruct Z1 as [Q1 _ _ _ _ _], Z2 as [Q2 _ _ _ _ _]. unfold sens_name. congruence. }
    constructor; try congruence.
    eapply added_scored; eauto. apply Bs. eapply nth_error_In; eauto.
  Qed.
End Result.

Section Workers.
  Context {G : Rng XRa}.
  Variable dr : @driver XRa.
  Variable fuel : nat.
  Hypothesis few : (dr_batchsize dr + dr_threads dr <= 2 ^ 64)%N.
  Hypothesis fresh : blank_set (dr_init dr).
  Hypothesis unique : unique_names (dr_init dr).

  Definition runs (h : N) : Prop :=
    exists r, run_history (G := G) dr fuel (dr_init dr) h = Ok r.
  Definition tallied (e : estimator_set XRa) (l : list N) : Prop :=
    (exists hs, Forall2 (shown (G := G) dr) l hs /\ scored_set hs (dr_init dr) e)
    /\ alike (dr_init dr) e /\ List.Forall runs l.

  Lemma alike_sym {A : Arith} (a b : estimator_set A) : alike a b -> alike b a.
  Proof.
    unfold alike. induction 1 as [|x y l l' [S1 [C1 C2 C3 C4] T1] F IH]; constructor; auto.
    constructor; auto; [constructor; congruence|].
    clear - T1. induction T1 as [|u v m m' [X1 Y1 [C1 C2 C3 C4]] F IH]; constructor; auto.
    constructor; auto. constructor; congruence.
  Qed.

  Lemma tallied_init : tallied (dr_init dr) [].
  Proof.
    split; [|split; [apply alike_refl|constructor]]. exists []. split; [constructor|apply scored_set_nil].
  Qed.
  Lemma tallied_run e l h e' : tallied e l -> run_history (G := G) dr fuel e h = Ok e' ->
    tallied e' (l ++ [h])%list.
  Proof.
    intros ((hs & Fh & Sc) & Al & Rn) H. split; [|split].
    - pose proof H as H'. apply run_history_shown in H' as (evs & Sh & Ev).
      exists (hs ++ [evs])%list. split.
      + apply Forall2_app; auto.
      + eapply scored_set_app; eauto. now apply run_events_scored.
    - eapply alike_trans; [exact Al|]. eapply run_history_keeps_shape; eauto.
    - apply Forall_app. split; auto. constructor; auto.
      eapply run_history_alike; [|exact H]. now apply alike_sym.
  Qed.

  Lemma serial_total : forall l e hs, tallied e hs -> List.Forall runs l ->
    exists r, foldM (run_history (G := G) dr fuel) l e = Ok r /\ tallied r (hs ++ l)%list.
  Proof.
    induction l as [|h l IH]; intros e hs T F.
    - exists e. split; [reflexivity|]. now rewrite app_nil_r.
    - inversion F as [|? ? (r0 & R0) F']; subst. destruct T as (T1 & Al & T2).
      destruct (run_history_alike dr fuel _ e h r0 Al R0) as (e1 & E1).
      cbn [foldM]. rewrite E1. cbn [bind].
      destruct (IH e1 (hs ++ [h])%list) as (r & Er & Tr); auto.
      { apply tallied_run with e; auto. split; auto. }
      exists r. split; auto. now rewrite <- app_assoc in Tr.
  Qed.
  Lemma serial_runs : forall l e hs r, tallied e hs ->
    foldM (run_history (G := G) dr fuel) l e = Ok r ->
    tallied r (hs ++ l)%list.
  Proof.
    induction l as [|h l IH]; intros e hs r T F.
    - injection F as <-. now rewrite app_nil_r.
    - cbn [foldM] in F. apply bind_ok in F as (e1 & E1 & F).
      change (h :: l) with ([h] ++ l)%list. rewrite app_assoc. eapply IH; [|exact F].
      eapply tallied_run; eauto.
  Qed.

  (** Merging the workers. *)
  Lemma merge_workers : forall ws ls acc l0,
    Forall2 (holds (G := G) dr fuel tallied) ws ls -> List.Forall succeeded ws -> tallied acc l0 ->
    exists r, foldM (fun acc wk => bind (worker_result wk) (fun e => set_add acc e)) ws acc = Ok r
      /\ exists hs, Forall2 (shown (G := G) dr) (l0 ++ concat ls)%list hs
                    /\ scored_set hs (dr_init dr) r.
  Proof.
    intros ws ls acc l0 F. revert acc l0.
    induction F as [|wk l ws ls H F IH]; intros acc l0 Su T.
    - exists acc. split; [reflexivity|]. cbn. rewrite app_nil_r. apply T.
    - inversion Su as [|? ? S1 S2]; subst. destruct wk as [|  |e|]; try easy.
      cbn in H. destruct H as ((hs & Fh & Sc) & Al & Rn). destruct T as ((hs0 & F0 & Sc0) & Al0 & Rn0).
      destruct (merged hs0 hs _ acc e fresh unique Sc0 Sc) as (r1 & E1 & Sc1).
      cbn [foldM worker_result bind]. rewrite E1. cbn [bind].
      destruct (IH r1 (l0 ++ l)%list S2) as (r & Er & hs' & Fh' & Sc').
      { split; [|split].
        - exists (hs0 ++ hs)%list. split; auto. now apply Forall2_app.
        - destruct Sc1 as [_ Fe]. unfold alike. clear - Fe.
          induction Fe as [|x y l l' [X1 [C1 C2 C3 C4 _ _] T1] F IH]; constructor; auto.
          constructor; auto; [now constructor|].
          clear - T1. induction T1 as [|u v m m' [X1 Y1 [C1 C2 C3 C4 _ _]] F IH]; constructor; auto.
          constructor; auto. now constructor.
        - now apply Forall_app. }
      exists r. split; auto. exists hs'. split; auto. cbn [concat]. now rewrite app_assoc.
  Qed.

  Lemma shares schedule : (0 < dr_threads dr)%N ->
    let sv := run_schedule (G := G) dr fuel (solver_start dr 0) schedule in
    List.Forall succeeded (sv_workers sv) ->
    exists ls, Forall2 (holds (G := G) dr fuel tallied) (sv_workers sv) ls
      /\ Permutation (concat ls) (below (dr_batchsize dr)).
  Proof.
    intros T sv Su. destruct (after dr fuel tallied tallied_init tallied_run few schedule)
      as (k & ls & V & _).
    exists ls. split; [apply V|]. fold sv in V.
    replace (dr_batchsize dr) with k; [apply V|]. apply (iv_done _ _ _ _ _ _ V).
    pose proof (iv_length _ _ _ _ _ _ V) as L.
    destruct (sv_workers sv) as [|wk ws] eqn:E; [cbn in L; lia|].
    inversion Su; subst. eapply dones_in; [now left|auto].
  Qed.

  Lemma workers_result schedule : (0 < dr_threads dr)%N ->
    let sv := run_schedule (G := G) dr fuel (solver_start dr 0) schedule in
    List.Forall succeeded (sv_workers sv) ->
    exists r hs, solver_result dr sv = Ok r
      /\ Forall2 (shown (G := G) dr) (below (dr_batchsize dr)) hs /\ scored_set hs (dr_init dr) r.
  Proof.
    intros T sv Su. destruct (shares schedule T Su) as (ls & F & P).
    destruct (merge_workers _ _ _ _ F Su tallied_init) as (r & Er & hs & Fh & Sc).
    cbn [app] in Fh. destruct (Permutation_Forall2 P Fh) as (hs' & P' & Fh').
    exists r, hs'. split; [exact Er|]. split; auto.
    destruct Sc as [W Fe]. constructor; auto.
    assert (Ps : forall score s s', scored score hs s s' -> scored score hs' s s').
    { intros score s s' [N B L K S1 Q1]. constructor; auto.
      - intros i x E. rewrite (S1 i x E). do 2 f_equal. now apply xsum_perm, Permutation_map.
      - intros i x E. rewrite (Q1 i x E). do 2 f_equal. now apply xsum_perm, Permutation_map. }
    clear - Fe Ps. induction Fe as [|x y l l' [X1 C1 T1] F IH]; constructor; auto.
    constructor; auto.
    clear - T1 Ps. induction T1 as [|u v m m' [X1 Y1 C1] F IH]; constructor; auto.
    constructor; auto.
  Qed.

  Lemma holds_runs ws ls : Forall2 (holds (G := G) dr fuel tallied) ws ls ->
    List.Forall succeeded ws -> List.Forall runs (concat ls).
  Proof.
    induction 1 as [|wk l ws ls H F IH]; intros Su; cbn; [constructor|].
    inversion Su; subst. apply Forall_app. split; auto.
    destruct wk; try easy. apply H.
  Qed.

  Lemma shown_all_fun : forall ids hs hs', Forall2 (shown (G := G) dr) ids hs ->
    Forall2 (shown (G := G) dr) ids hs' -> hs = hs'.
  Proof. apply Forall2_fun. intros v a b. apply shown_fun. Qed.

  Lemma workers_serial schedule : (0 < dr_threads dr)%N ->
    let sv := run_schedule (G := G) dr fuel (solver_start dr 0) schedule in
    List.Forall succeeded (sv_workers sv) ->
    exists r, solver_result dr sv = Ok r /\ serial (G := G) dr fuel = Ok r.
  Proof.
    intros T sv Su. destruct (workers_result schedule T Su) as (r & hs & Er & Fh & Sc).
    exists r. split; [exact Er|]. unfold serial.
    destruct (shares schedule T Su) as (ls & F & P).
    pose proof (holds_runs _ _ F Su) as Rn.
    assert (Rn' : List.Forall runs (below (dr_batchsize dr))).
    { rewrite Forall_forall in *. intros h Hh. apply Rn.
      now apply (Permutation_in _ (Permutation_sym P)). }
    destruct (serial_total _ _ _ tallied_init Rn') as (r' & E' & ((hs' & Fh' & Sc') & _)).
    rewrite E'. f_equal. cbn [app] in Fh'. pose proof (shown_all_fun _ _ _ Fh Fh') as <-.
    apply (scored_set_fun hs hs (dr_init dr)); auto.
  Qed.

  Lemma serial_succeeded schedule r : serial (G := G) dr fuel = Ok r ->
    fair dr (2 * N.to_nat (dr_batchsize dr) + 1) schedule ->
    List.Forall succeeded (sv_workers (run_schedule (G := G) dr fuel (solver_start dr 0) schedule)).
  Proof.
    intros Sr Fa. apply Forall_forall. intros wk Hin.
    destruct (serial_runs _ _ _ _ tallied_init Sr) as (_ & _ & Rn). cbn [app] in Rn.
    destruct (after dr fuel tallied tallied_init tallied_run few schedule) as (k & ls & V & _).
    apply In_nth_error in Hin as (i & Ei).
    destruct (C56_ends_proof XRa G dr fuel schedule i few) as (wk' & Ei' & Fi).
    { rewrite <- (iv_length _ _ _ _ _ _ V). apply nth_error_Some. congruence. }
    { apply Fa. rewrite <- (iv_length _ _ _ _ _ _ V). apply nth_error_Some. congruence. }
    assert (wk' = wk) as -> by congruence.
    destruct wk as [| |e|o]; try easy.
    destruct (Forall2_nth _ _ _ _ _ (iv_holds _ _ _ _ _ _ V) Ei) as (l & El & e & l' & h & -> & T & Rh & No).
    assert (In h (concat ls)).
    { apply in_concat. exists (l' ++ [h])%list. split; [eapply nth_error_In; eauto|].
      apply in_or_app. right. now left. }
    apply (Permutation_in _ (iv_perm _ _ _ _ _ _ V)) in H. apply in_below in H.
    pose proof (iv_le _ _ _ _ _ _ V).
    rewrite Forall_forall in Rn. destruct (Rn h) as (r0 & R0); [apply in_below; lia|].
    destruct T as (_ & Al & _). destruct (run_history_alike dr fuel _ e h r0 Al R0) as (e1 & E1).
    exfalso. apply (No e1). congruence.
  Qed.
End Workers.

Lemma bank_threads {A : Arith} {G : Rng A} {E} (score : E -> particle A G -> outcome E) t (dr : @driver A) :
  forall fuel e bank, bank_loop score (with_threads t dr) fuel e bank = bank_loop score dr fuel e bank.
Proof.
  induction fuel as [|n IH]; intros e bank; cbn [bank_loop]; auto.
  destruct (rev bank); auto. cbn [with_threads dr_perts dr_tracking dr_world].
  destruct (transport _ _ _ _ _ _) as [[e1 p1]| | | |]; cbn [bind]; auto.
Qed.
Lemma serial_threads {A : Arith} {G : Rng A} t (dr : @driver A) fuel :
  serial (G := G) (with_threads t dr) fuel = serial (G := G) dr fuel.
Proof.
  unfold serial. cbn [with_threads dr_batchsize dr_init]. apply foldM_ext. intros s x _.
  unfold run_history. rewrite bank_threads. reflexivity.
Qed.

Lemma C57_result_proof :
  forall (G : Rng XRa) (dr : @driver XRa) fuel schedule,
  (dr_batchsize dr + dr_threads dr <= 2 ^ 64)%N -> (0 < dr_threads dr)%N ->
  blank_set (dr_init dr) -> unique_names (dr_init dr) ->
  let sv := run_schedule (G := G) dr fuel (solver_start dr 0) schedule in
  List.Forall succeeded (sv_workers sv) ->
  exists r hs, solver_result dr sv = Ok r
    /\ Forall2 (history (G := G) dr) (below (dr_batchsize dr)) hs
    /\ scored_set hs (dr_init dr) r.
Proof.
  intros G dr fuel schedule few T Bl Un sv Su.
  destruct (workers_result dr fuel few Bl Un schedule T Su) as (r & hs & Er & Fh & Sc).
  exists r, hs. parts; auto. clear - Fh. induction Fh; constructor; auto using shown_history.
Qed.

Lemma C57_serial_proof :
  forall (G : Rng XRa) (dr : @driver XRa) fuel schedule r,
  (dr_batchsize dr + dr_threads dr <= 2 ^ 64)%N -> (0 < dr_threads dr)%N ->
  blank_set (dr_init dr) -> unique_names (dr_init dr) ->
  fair dr (2 * N.to_nat (dr_batchsize dr) + 1) schedule ->
  serial (G := G) dr fuel = Ok r ->
  solver_result dr (run_schedule (G := G) dr fuel (solver_start dr 0) schedule) = Ok r.
Proof.
  intros G dr fuel schedule r few T Bl Un Fa Sr.
  pose proof (serial_succeeded dr fuel few schedule r Sr Fa) as Su.
  destruct (workers_serial dr fuel few Bl Un schedule T Su) as (r' & Er & Sr'). congruence.
Qed.

Lemma C57_threads_proof :
  forall (G : Rng XRa) (dr : @driver XRa) t t' fuel fuel' schedule schedule' ,
  (dr_batchsize dr + t <= 2 ^ 64)%N -> (0 < t)%N ->
  (dr_batchsize dr + t' <= 2 ^ 64)%N -> (0 < t')%N ->
  blank_set (dr_init dr) -> unique_names (dr_init dr) ->
  let one := with_threads t dr in
  let other := with_threads t' dr in
  let sv := run_schedule (G := G) one fuel (solver_start one 0) schedule in
  let sv' := run_schedule (G := G) other fuel' (solver_start other 0) schedule' in
  List.Forall succeeded (sv_workers sv) -> List.Forall succeeded (sv_workers sv') ->
  exists r, solver_result one sv = Ok r /\ solver_result other sv' = Ok r.
Proof.
  intros G dr t t' fuel fuel' sch sch' few T few' T' Bl Un one other sv sv' Su Su'.
  destruct (workers_serial one fuel few Bl Un sch T Su) as (r & Er & Sr).
  destruct (workers_serial other fuel' few' Bl Un sch' T' Su') as (r' & Er' & Sr').
  exists r. split; [exact Er|]. transitivity (Ok r'); [exact Er'|]. unfold one, other in Sr, Sr'.
  rewrite serial_threads in Sr, Sr'. rewrite <- Sr. unfold serial in *.
  enough (foldM (run_history (G := G) dr (fuel + fuel')) (below (dr_batchsize dr)) (dr_init dr) = Ok r
    /\ foldM (run_history (G := G) dr (fuel + fuel')) (below (dr_batchsize dr)) (dr_init dr) = Ok r')
    as [E1 E2] by congruence.
  assert (K : forall l f f' e r, (f <= f')%nat -> foldM (run_history (G := G) dr f) l e = Ok r ->
    foldM (run_history (G := G) dr f') l e = Ok r).
  { clear. induction l as [|h l IH]; intros f f' e r L H; cbn [foldM] in *; auto.
    apply bind_ok in H as (e1 & E1 & H).
    rewrite (upto_ok _ _ _ (run_history_fuel dr f f' e h L) E1). cbn [bind]. eauto. }
  split; eapply K; try eassumption; lia.
Qed.

(** ** What the constructor gives *)
Lemma blank_new {A : Arith} name (b : particle_bins A) : blank (new_scorable name b).
Proof. eexists. split; reflexivity. Qed.

Lemma estimator_create_blank {A : Arith} (X : Ext A) w pts n e : estimator_create X w pts n = Ok e ->
  blank (es_scorable e) /\ (forall sn, In sn (es_sens e) -> blank (sn_scorable sn))
  /\ map sens_name (es_sens e)
     = map (fun c => es_name e ++ "::" ++ as_string (n_attr c "name"))%string
           (n_children (n_child n "sensitivities")).
Proof.
  intros H. unfold estimator_create in H.
  destruct (String.eqb (n_name n) "current"); [|discriminate].
  apply bind_ok in H as ([est sens] & E & H). apply -> @noexcept_ok in E.
  apply bind_ok in E as (b & Eb & E). apply bind_ok in E as (l & Es & E). apply Ok_inj in E.
  injection E as <- <-. apply bind_ok in H as (s & Ef & H). apply Ok_inj in H. subst e.
  unfold es_name. cbn [es_sens es_scorable es_surface sc_name new_scorable] in *.
  split; [apply blank_new|]. rewrite map_map. cbn [sens_name sn_scorable].
  apply mapM_ok in Es. clear - Es.
  induction Es as [|c s0 l l' E F [IH1 IH2]]; cbn [map]; [split; [intros sn []|reflexivity]|].
  unfold sensitivity_create in E. apply bind_ok in E as (pt & Ep & E).
  destruct (String.eqb _ "current"); [|discriminate]. apply Ok_inj in E. subst s0. split.
  - intros sn [<-|Hin]; [apply blank_new|now apply IH1].
  - rewrite <- IH2. unfold sens_name. cbn [sn_scorable new_scorable sc_name]. f_equal.
    unfold find_perturbation in Ep. destruct (find _ pts) eqn:Fp; [|discriminate].
    apply Ok_inj in Ep. subst p. apply find_some in Fp as [_ Fp]. apply String.eqb_eq in Fp.
    now rewrite Fp.
Qed.

Lemma append_inj a : forall b c, (a ++ b)%string = (a ++ c)%string -> b = c.
Proof. induction a; cbn; auto. intros b c [= E]. auto. Qed.

Lemma C57_created_proof :
  forall (A : Arith) (X : Ext A) (root source_node : node) (dr : @driver A),
  driver_create X root source_node = Ok dr ->
  let attribute n := as_string (n_attr n "name") in
  let estimators := n_children (n_child root "estimators") in
  blank_set (dr_init dr)
  /\ (NoDup (map attribute estimators) ->
      (forall n, In n estimators ->
         NoDup (map attribute (n_children (n_child n "sensitivities")))) ->
      unique_names (dr_init dr))
  /\ (exists z, stoi X (n_text (n_child (n_child root "general") "histories")) = Ok z
      /\ dr_batchsize dr = of_int z).
Proof.
  intros A X root source_node dr H attribute estimators. unfold driver_create in H.
  apply bind_ok in H as (w & Ew & H). apply bind_ok in H as (pts & Ep & H).
  apply bind_ok in H as (z & Ez & H). apply bind_ok in H as (sd & Esd & H).
  apply bind_ok in H as (init & Ei & H). apply bind_ok in H as (threads & Et & H).
  apply bind_ok in H as (t & Ett & H). apply bind_ok in H as (so & Eso & H).
  apply Ok_inj in H. subst dr. cbn [dr_init dr_batchsize].
  unfold estimator_set_create in Ei. apply bind_ok in Ei as (es & Es & Ei). apply Ok_inj in Ei.
  subst init. unfold blank_set, unique_names. cbn [ss_estimators].
  apply mapM_ok in Es. fold estimators in Es. clear Ew Ett Eso. split; [|split].
  - intros e He. induction Es as [|n e0 l l' E F IH]; [destruct He|].
    destruct He as [<-|He]; [|auto]. apply estimator_create_blank in E. tauto.
  - intros Nd Ns. split.
    + replace (map es_name es) with (map attribute estimators); auto. clear Nd Ns.
      induction Es as [|n e l l' E F IH]; cbn; auto. rewrite IH. f_equal.
      apply C50_created_proof in E. symmetry. apply E.
    + clear Nd. intros e He. revert Ns. induction Es as [|n e0 l l' E F IH]; intros Ns; [destruct He|].
      destruct He as [<-|He]; [|apply IH; auto; intros; apply Ns; now right].
      apply estimator_create_blank in E as (_ & _ & ->).
      specialize (Ns n (or_introl eq_refl)).
      rewrite <- (map_map attribute (fun s => es_name e0 ++ "::" ++ s)%string).
      apply FinFun.Injective_map_NoDup; auto. intros x y Exy. apply append_inj in Exy. now injection Exy.
  - exists z. auto.
Qed.

(** ** C58 *)
Lemma bank_same {A : Arith} {G : Rng A} {E} (score : E -> particle A G -> outcome E) (dr dr' : @driver A) :
  dr_world dr' = dr_world dr -> dr_perts dr' = dr_perts dr -> dr_tracking dr' = dr_tracking dr ->
  forall fuel e bank, bank_loop score dr' fuel e bank = bank_loop score dr fuel e bank.
Proof.
  intros Ew Ep Et. induction fuel as [|n IH]; intros e bank; cbn [bank_loop]; auto.
  destruct (rev bank); auto. rewrite Ew, Ep, Et.
  destruct (transport _ _ _ _ _ _) as [[e1 p1]| | | |]; cbn [bind]; auto.
Qed.

Lemma C58_reproducible_proof :
  forall (A : Arith) (G : Rng A) (dr dr' : @driver A) fuel fuel' i j (a a' b b' : estimator_set A),
  dr_world dr' = dr_world dr -> dr_perts dr' = dr_perts dr ->
  dr_tracking dr' = dr_tracking dr -> dr_source dr' = dr_source dr ->
  ((dr_seed dr' + j) mod 2 ^ 64 = (dr_seed dr + i) mod 2 ^ 64)%N ->
  run_history (G := G) dr fuel a i = Ok a' -> run_history (G := G) dr' fuel' b j = Ok b' ->
  exists evs : list (particle A G), history dr i evs /\ history dr' j evs
    /\ run_events a evs = Ok a' /\ run_events b evs = Ok b'.
Proof.
  intros A G dr dr' fuel fuel' i j a a' b b' Ew Ep Et Eso Es Ha Hb.
  apply run_history_shown in Ha as (evs & Sa & Ha). apply run_history_shown in Hb as (evs' & Sb & Hb).
  assert (Eq : shown dr i evs').
  { destruct Sb as (f & Sb). exists f. rewrite <- (bank_same _ dr dr' Ew Ep Et), <- Sb. do 2 f_equal.
    unfold history_start, history_seed, wrap64. now rewrite Eso, Es. }
  pose proof (shown_fun _ _ _ _ Sa Eq) as <-. exists evs.
  parts; auto using shown_history.
Qed.

(** ** C62 *)
Section Again.
  Context {A : Arith} {G : Rng A}.
  Variable dr : @driver A.
  Variable fuel : nat.
  Definition spent (sv : @solver A) : Prop :=
    List.Forall (fun wk => wk = Idle (dr_init dr) \/ wk = Done (dr_init dr)) (sv_workers sv)
    /\ (dr_batchsize dr <= sv_counter sv)%N
    /\ (sv_counter sv + N.of_nat (length (filter (fun wk => negb (is_done wk)) (sv_workers sv))) < 2 ^ 64)%N.
  Lemma spent_step sv i : spent sv ->
    spent (solver_step (G := G) dr fuel sv i) /\ start_of i sv (solver_step (G := G) dr fuel sv i) = [].
  Proof.
    intros (F & B & C). unfold solver_step, start_of.
    destruct (nth_error (sv_workers sv) i) as [wk|] eqn:E; [|split; [split; auto|reflexivity]].
    assert (Hwk : wk = Idle (dr_init dr) \/ wk = Done (dr_init dr)).
    { rewrite Forall_forall in F. apply F. eapply nth_error_In; eauto. }
    destruct Hwk as [-> | ->]; cbn [worker_step].
    - rewrite (proj2 (N.leb_le _ _) B). cbn [sv_workers]. rewrite (update_same _ _ _ _ E).
      split; [|reflexivity].
      assert (L : length (filter (fun wk => negb (is_done wk)) (update_nth i (Done (dr_init dr)) (sv_workers sv)))
        = pred (length (filter (fun wk => negb (is_done wk)) (sv_workers sv)))
        /\ (0 < length (filter (fun wk => negb (is_done wk)) (sv_workers sv)))%nat).
      { clear - E. revert i E. induction (sv_workers sv) as [|x l IH]; intros [|i] E; try discriminate;
          cbn in *.
        - injection E as ->. cbn. lia.
        - destruct (IH i E) as [IH1 IH2]. destruct (is_done x); cbn; lia. }
      unfold spent. cbn [sv_workers sv_counter]. destruct L as [L1 L2].
      unfold wrap64. rewrite N.mod_small by lia. parts; try lia.
      apply Forall_forall. intros wk Hin. apply In_nth_error in Hin as (j & Ej).
      destruct (Nat.eq_dec i j) as [<-|Nij].
      + rewrite (update_same _ _ _ _ E) in Ej. injection Ej as <-. auto.
      + rewrite update_other in Ej by auto. rewrite Forall_forall in F. apply F.
        eapply nth_error_In; eauto.
    - rewrite (update_id _ _ _ E). split; [destruct sv; split; auto|]. cbn [sv_workers]. now destruct (nth_error _ i).
  Qed.
  Lemma spent_run schedule : forall sv, spent sv ->
    spent (run_schedule (G := G) dr fuel sv schedule) /\ started (G := G) dr fuel sv schedule = [].
  Proof.
    induction schedule as [|i rest IH]; intros sv H; [split; [exact H|reflexivity]|].
    destruct (spent_step sv i H) as [H1 E1]. destruct (IH _ H1) as [H2 E2].
    split; [exact H2|]. cbn [started]. rewrite E1, E2. reflexivity.
  Qed.
End Again.

Lemma done_all {A : Arith} (ws : list (@worker A)) : List.Forall succeeded ws -> dones ws = length ws.
Proof.
  unfold dones. induction 1 as [|x l H F IH]; cbn; auto. destruct x; try easy. cbn. congruence.
Qed.
Lemma filter_le {V} (f : V -> bool) l : (length (filter f l) <= length l)%nat.
Proof. apply filter_length_le. Qed.

Lemma C62_second_proof :
  forall (A : Arith) (G : Rng A) (dr : @driver A) fuel schedule schedule',
  (dr_batchsize dr + 2 * dr_threads dr < 2 ^ 64)%N -> (0 < dr_threads dr)%N ->
  let first := run_schedule (G := G) dr fuel (solver_start dr 0) schedule in
  List.Forall succeeded (sv_workers first) ->
  let again := solver_start dr (sv_counter first) in
  started (G := G) dr fuel again schedule' = []
  /\ forall wk, In wk (sv_workers (run_schedule (G := G) dr fuel again schedule')) ->
     wk = Idle (dr_init dr) \/ wk = Done (dr_init dr).
Proof.
  intros A G dr fuel schedule schedule' few T first Su again.
  destruct (after (G := G) dr fuel (fun _ _ => True) I (fun _ _ _ _ _ _ => I) ltac:(lia) schedule)
    as (k & ls & V & E). fold first in V.
  assert (Sp : spent dr again).
  { pose proof (iv_length _ _ _ _ _ _ V) as L. pose proof (done_all _ Su) as D.
    assert (k = dr_batchsize dr) as -> by (apply (iv_done _ _ _ _ _ _ V); lia).
    assert (C : sv_counter first = (dr_batchsize dr + dr_threads dr)%N).
    { destruct (iv_counter _ _ _ _ _ _ V) as [C|C]; lia. }
    unfold again, spent. cbn [solver_start sv_workers sv_counter]. parts.
    - apply Forall_forall. intros wk Hin. apply repeat_spec in Hin. auto.
    - lia.
    - pose proof (filter_le (fun wk => negb (is_done wk)) (repeat (Idle (dr_init dr)) (N.to_nat (dr_threads dr)))) as F.
      rewrite repeat_length in F. lia. }
  destruct (spent_run (G := G) dr fuel schedule' again Sp) as [(F & _) St]. split; [exact St|].
  rewrite Forall_forall in F. exact F.
Qed.

Lemma C62_empty_proof :
  forall (G : Rng XRa) (dr : @driver XRa) fuel schedule schedule',
  (dr_batchsize dr + 2 * dr_threads dr < 2 ^ 64)%N -> (0 < dr_threads dr)%N ->
  blank_set (dr_init dr) -> unique_names (dr_init dr) ->
  let first := run_schedule (G := G) dr fuel (solver_start dr 0) schedule in
  let second := run_schedule (G := G) dr fuel (solver_start dr (sv_counter first)) schedule' in
  List.Forall succeeded (sv_workers first) -> List.Forall succeeded (sv_workers second) ->
  solver_result dr second = Ok (dr_init dr).
Proof.
  intros G dr fuel sch sch' few T Bl Un first second Su Su'.
  destruct (C62_second_proof XRa G dr fuel sch sch' few T Su) as [_ H]. fold first second in H.
  assert (F : Forall2 (holds (G := G) dr fuel (tallied (G := G) dr fuel)) (sv_workers second)
                (repeat [] (length (sv_workers second)))).
  { clear - H. induction (sv_workers second) as [|wk ws IH]; cbn; constructor.
    - destruct (H wk (or_introl eq_refl)) as [-> | ->]; apply tallied_init.
    - apply IH. intros; apply H; now right. }
  destruct (merge_workers dr fuel Bl Un _ _ _ _ F Su' (tallied_init dr fuel)) as (r & Er & hs & Fh & Sc).
  transitivity (Ok r); [exact Er|]. f_equal. rewrite concat_repeat in Fh. inversion Fh; subst.
  apply (scored_set_fun (G := G) [] [] (dr_init dr)); auto. apply scored_set_nil.
Qed.
