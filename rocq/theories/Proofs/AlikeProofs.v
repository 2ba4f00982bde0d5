(** Estimator sets of the same shape: whether a history can be tallied depends on the
    shape only. *)
From Coq Require Import Bool String List ZArith NArith Lia.
From Verif Require Import Model.Num Model.Outcome Model.Rng Model.Types Model.Bins Model.Particle
  Model.World Model.Perturbation Model.Estimator Model.Transport Model.Driver Spec.EstimatorSpec
  Proofs.OutcomeLib Proofs.RealLib Proofs.BinsProofs Proofs.HistoryProofs Proofs.EstimatorProofs Proofs.TallyProofs.
Import ListNotations.

Section Alike.
  Context {A : Arith} {G : Rng A}.
  Notation particle := (particle A G).

  Record alike_sc (s s' : scorable A) : Prop := mkAlikeSc {
    alsc_name : sc_name s' = sc_name s;
    alsc_bins : sc_bins s' = sc_bins s;
    alsc_scores : length (sc_scores s') = length (sc_scores s);
    alsc_squares : length (sc_squares s') = length (sc_squares s)
  }.
  Record alike_sn (s s' : sensitivity A) : Prop := mkAlikeSn {
    alsn_surface : sn_surface s' = sn_surface s;
    alsn_pert : sn_pert s' = sn_pert s;
    alsn_scorable : alike_sc (sn_scorable s) (sn_scorable s')
  }.
  Record alike_es (e e' : estimator A) : Prop := mkAlikeEs {
    ales_surface : es_surface e' = es_surface e;
    ales_scorable : alike_sc (es_scorable e) (es_scorable e');
    ales_sens : Forall2 alike_sn (es_sens e) (es_sens e')
  }.
  Definition alike (s s' : estimator_set A) : Prop :=
    Forall2 alike_es (ss_estimators s) (ss_estimators s').

  Lemma alike_sc_refl s : alike_sc s s.
  Proof. now constructor. Qed.
  Lemma alike_sn_refl s : alike_sn s s.
  Proof. constructor; auto using alike_sc_refl. Qed.
  Lemma alike_refl s : alike s s.
  Proof.
    unfold alike. apply Forall2_diag. intros e. constructor; auto using alike_sc_refl.
    apply Forall2_diag, alike_sn_refl.
  Qed.
  Lemma alike_sc_trans a b c : alike_sc a b -> alike_sc b c -> alike_sc a c.
  Proof. intros [] []. constructor; congruence. Qed.
  Lemma alike_trans a b c : alike a b -> alike b c -> alike a c.
  Proof.
    intros F F'. refine (Forall2_trans _ _ _ _ _ _ F _ F'). clear.
    intros a b c [S1 T1 U1] [S2 T2 U2].
    constructor; [congruence|eauto using alike_sc_trans|].
    refine (Forall2_trans _ _ _ _ _ _ U1 _ U2). clear.
    intros a b c [] []. constructor; try congruence. eauto using alike_sc_trans.
  Qed.

  (** ** Committing *)
  Lemma add_at_total x : forall (l : list (num A)) i, (i < length l)%nat ->
    exists l', add_at i x l = Ok l'.
  Proof.
    induction l as [|y l IH]; intros [|i] H; cbn in *; try lia; eauto.
    destruct (IH i) as (l' & ->); [lia|]. cbn. eauto.
  Qed.
  Lemma add_at_N_alike i x y (l l' r : list (num A)) : length l' = length l ->
    add_at_N i x l = Ok r -> exists r', add_at_N i y l' = Ok r'.
  Proof.
    unfold add_at_N. intros L. rewrite L.
    destruct (N.ltb_spec i (N.of_nat (length l))); [|discriminate]. intros _.
    apply add_at_total. lia.
  Qed.
  Lemma sc_commit_alike pd : forall s r, sc_commit s pd = Ok r -> alike_sc s r.
  Proof.
    intros s r H. refine (foldM_inv _ (alike_sc s) pd s r _ (alike_sc_refl s) H).
    clear r H. intros s1 [i x] s2 _ A1 E. cbn [fst snd] in E.
    apply bind_ok in E as (a & E1 & E). apply bind_ok in E as (b & E2 & [= <-]).
    apply add_at_N_nth in E1 as [L1 _]. apply add_at_N_nth in E2 as [L2 _].
    destruct A1. constructor; cbn; congruence.
  Qed.
  Lemma sc_commit_total pd : forall s s' r, alike_sc s s' -> sc_commit s pd = Ok r ->
    exists r', sc_commit s' pd = Ok r'.
  Proof.
    unfold sc_commit. induction pd as [|[i x] pd IH]; intros s s' r A1 H; cbn [foldM] in *; [eauto|].
    apply bind_ok in H as (s1 & E & H). cbn [fst snd] in *.
    apply bind_ok in E as (a & E1 & E). apply bind_ok in E as (b & E2 & [= <-]).
    destruct A1 as [N B L1 L2].
    destruct (add_at_N_alike _ _ x _ _ _ L1 E1) as (a' & Ea).
    destruct (add_at_N_alike _ _ (nmul A x x) _ _ _ L2 E2) as (b' & Eb).
    rewrite Ea. cbn [bind]. rewrite Eb. cbn [bind].
    apply (IH (mkScorable (sc_name s) (sc_bins s) a b)
              (mkScorable (sc_name s') (sc_bins s') a' b') r); auto.
    apply add_at_N_nth in E1 as [L3 _]. apply add_at_N_nth in E2 as [L4 _].
    apply add_at_N_nth in Ea as [L5 _]. apply add_at_N_nth in Eb as [L6 _].
    constructor; cbn; congruence.
  Qed.

  Lemma mapM_combine_total {V V' P W W'} (Q : V -> V' -> Prop) (f : V * P -> outcome W)
      (f' : V' * P -> outcome W') :
    (forall v v' p w, Q v v' -> f (v, p) = Ok w -> exists w', f' (v', p) = Ok w') ->
    forall vs vs', Forall2 Q vs vs' -> forall ps ws, mapM f (combine vs ps) = Ok ws ->
    exists ws', mapM f' (combine vs' ps) = Ok ws'.
  Proof.
    intros Hf vs vs' F. induction F as [|v v' vs vs' Hq F IH]; intros ps ws H.
    - exists []. reflexivity.
    - destruct ps as [|p ps]; [exists []; reflexivity|]. cbn [combine mapM] in *.
      apply bind_ok in H as (w & E & H). apply bind_ok in H as (ws1 & E1 & H).
      destruct (Hf _ _ _ _ Hq E) as (w' & ->). cbn [bind].
      destruct (IH _ _ E1) as (ws' & ->). cbn [bind]. eauto.
  Qed.
  Lemma mapM_combine_ext {V V' P W} (Q : V -> V' -> Prop) (f : V * P -> outcome W)
      (f' : V' * P -> outcome W) :
    (forall v v' p, Q v v' -> f (v, p) = f' (v', p)) ->
    forall vs vs', Forall2 Q vs vs' -> forall ps, mapM f (combine vs ps) = mapM f' (combine vs' ps).
  Proof.
    intros Hf vs vs' F. induction F as [|v v' vs vs' Hq F IH]; intros [|p ps]; cbn; auto.
    rewrite (Hf v v' p Hq), IH. reflexivity.
  Qed.

  Lemma est_commit_total (e e' : estimator A) (px : est_proxy A) w : alike_es e e' ->
    est_commit e px = Ok w -> exists w', est_commit e' px = Ok w'.
  Proof.
    intros [Su Sc Se] H. unfold est_commit in *.
    apply bind_ok in H as (own & E1 & H). apply bind_ok in H as (sens & E2 & _).
    destruct (sc_commit_total _ _ _ _ Sc E1) as (own' & ->). cbn [bind].
    match type of E2 with mapM ?f _ = _ =>
      assert (Hf : forall v v' p w, alike_sn v v' -> f (v, p) = Ok w -> exists w', f (v', p) = Ok w');
      [|destruct (mapM_combine_total alike_sn f f Hf _ _ Se _ _ E2) as (sens' & Es')]
    end.
    - clear. intros v v' p w [Su Pe Sc] H. cbn [fst snd] in *.
      apply bind_ok in H as (s & E & _). destruct (sc_commit_total _ _ _ _ Sc E) as (s' & ->).
      cbn. eauto.
    - rewrite Es'. cbn. eauto.
  Qed.

  Lemma set_commit_total s s' pxs r : alike s s' -> set_commit s pxs = Ok r ->
    exists r', set_commit s' pxs = Ok r'.
  Proof.
    intros F H. unfold set_commit in *. apply bind_ok in H as (es & E & _).
    match type of E with mapM ?f _ = _ =>
      destruct (mapM_combine_total alike_es f f est_commit_total _ _ F _ _ E) as (es' & Es') end.
    rewrite Es'. cbn. eauto.
  Qed.

  (** ** Scoring *)
  Lemma set_proxy_score_alike s s' pxs (p : particle) : alike s s' ->
    set_proxy_score s pxs p = set_proxy_score s' pxs p.
  Proof.
    intros F. unfold set_proxy_score. apply (mapM_combine_ext alike_es); auto.
    clear. intros e e' px [Su Sc Se]. cbn [fst snd]. unfold est_proxy_score. f_equal.
    rewrite Su, (alsc_bins _ _ Sc). destruct (proxy_score _ _ _ _); cbn [bind]; auto.
    erewrite (mapM_combine_ext alike_sn); [reflexivity| |exact Se].
    clear. intros v v' p0 [Su Pe Sc]. cbn [fst snd]. unfold sens_score.
    now rewrite Su, Pe, (alsc_bins _ _ Sc).
  Qed.
  Lemma new_set_proxy_alike s s' : alike s s' -> new_set_proxy s = new_set_proxy s'.
  Proof.
    unfold new_set_proxy, alike. induction 1 as [|e e' l l' [_ _ Se] F IH]; cbn [map]; auto.
    rewrite IH. f_equal. unfold new_proxy. f_equal. induction Se; cbn; congruence.
  Qed.

  Lemma loop_ext {E} (f g : E -> particle -> outcome E) t w : (forall e p, f e p = g e p) ->
    forall n e p, transport_loop f t n w e p = transport_loop g t n w e p.
  Proof.
    intros H. induction n as [|n IH]; intros e p; cbn; auto.
    destruct (is_alive p); auto. destruct (transport_step t n w p); cbn; auto.
    rewrite H. destruct (g e x); cbn; auto.
  Qed.
  Lemma bank_ext {E} (f g : E -> particle -> outcome E) dr : (forall e p, f e p = g e p) ->
    forall n e bank, bank_loop f dr n e bank = bank_loop g dr n e bank.
  Proof.
    intros H. induction n as [|n IH]; intros e bank; cbn [bank_loop]; auto.
    destruct (rev bank) as [|back front]; auto. unfold transport.
    destruct (find_cell _ _) as [c| | | |]; cbn [bind noexcept]; auto.
    rewrite (loop_ext f g) by auto. destruct (noexcept _) as [[e1 p1]| | | |]; cbn [bind]; auto.
  Qed.

  Lemma run_history_alike (dr : @driver A) fuel s s' h r : alike s s' ->
    run_history (G := G) dr fuel s h = Ok r -> exists r', run_history (G := G) dr fuel s' h = Ok r'.
  Proof.
    intros F H. unfold run_history in *. apply bind_ok in H as (px & E & H).
    rewrite (new_set_proxy_alike _ _ F) in E.
    rewrite (bank_ext _ (set_proxy_score s')) in E.
    2: { intros e p. now apply set_proxy_score_alike. }
    rewrite E. cbn [bind]. eapply set_commit_total; eauto.
  Qed.

  Lemma run_events_alike (ss ss' : estimator_set A) (evs : list particle) :
    run_events ss evs = Ok ss' -> alike ss ss'.
  Proof.
    intros H. apply bind_ok in H as (pxs & Ep & Hc). unfold set_proxy_score in Ep.
    apply (fold_pointwise (fun e px p => est_proxy_score e px p)) in Ep.
    2:{ unfold new_set_proxy. apply map_length. }
    unfold set_commit in Hc. apply bind_ok in Hc as (es & Ec & Hc). apply Ok_inj in Hc. subst ss'.
    unfold alike. cbn [ss_estimators]. apply mapM_ok in Ec.
    unfold new_set_proxy in Ep. revert pxs es Ep Ec.
    induction (ss_estimators ss) as [|e l IH]; intros pxs es Ep Ec; cbn [map combine] in Ep.
    { inversion Ep; subst. cbn in Ec. inversion Ec; subst. constructor. }
    inversion Ep as [|? px ? pxs' E1 E2]; subst. cbn [combine] in Ec.
    inversion Ec as [|? e' ? es' C1 C2]; subst. constructor; eauto. clear IH E2 C2 Ep Ec.
    cbn [fst snd] in *. unfold new_proxy in E1. destruct px as [own subs].
    apply (fold_pair (G := G)
      (fun pd p => proxy_score (sc_bins (es_scorable e)) (current_score (es_surface e) p) pd p)
      (fun ps p => mapM (fun sp => bind (sens_score (fst sp) p) (fun score =>
         proxy_score (sc_bins (sn_scorable (fst sp))) score (snd sp) p)) (combine (es_sens e) ps)))
      in E1 as [E1 E2].
    unfold est_commit in C1. apply bind_ok in C1 as (own' & Co & C1).
    apply bind_ok in C1 as (sens & Cs & C1). apply Ok_inj in C1. subst e'. cbn [fst snd] in *.
    constructor; cbn [es_surface es_scorable es_sens]; eauto using sc_commit_alike.
    apply (fold_pointwise (fun sn pd p => score_one (sc_bins (sn_scorable sn)) (sens_score sn) pd p))
      in E2; [|apply map_length].
    apply mapM_ok in Cs. revert subs sens E2 Cs.
    induction (es_sens e) as [|sn sl IHs]; intros subs sens E2 Cs; cbn [map combine] in E2.
    { inversion E2; subst. cbn in Cs. inversion Cs; subst. constructor. }
    inversion E2 as [|? pd ? subs' F1 F2]; subst. cbn [combine] in Cs.
    inversion Cs as [|? sn' ? sens' D1 D2]; subst. constructor; eauto.
    cbn [fst snd] in *. apply bind_ok in D1 as (s' & D1 & D3). apply Ok_inj in D3. subst sn'.
    constructor; cbn [sn_surface sn_pert sn_scorable]; eauto using sc_commit_alike.
  Qed.
  Lemma run_history_keeps_shape (dr : @driver A) fuel s h r :
    run_history (G := G) dr fuel s h = Ok r -> alike s r.
  Proof. intros H. apply run_history_shown in H as (evs & _ & H). eapply run_events_alike; eauto. Qed.
End Alike.
