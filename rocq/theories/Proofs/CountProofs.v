(** Counts that are exact in binary64: C78. *)
From Coq Require Import Bool String List Reals ZArith NArith Lra Lia Permutation SpecFloat.
From Verif Require Import Model.Num Model.Outcome Model.Rng Model.Xml Model.Std Model.Types
  Model.Bins Model.Particle Model.World Model.Perturbation Model.Estimator Model.Transport
  Model.Driver Spec.SumSpec Spec.HistorySpec Spec.EstimatorSpec Spec.CountSpec Spec.SolverSpec
  Proofs.OutcomeLib Proofs.RealLib Proofs.BinsProofs Proofs.FuelProofs Proofs.HistoryProofs
  Proofs.EstimatorProofs Proofs.TallyProofs Proofs.MergeProofs Proofs.AlikeProofs
  Proofs.SolverProofs Proofs.ResultProofs Proofs.FloatLib.
Import ListNotations.
Local Open Scope Z_scope.

Lemma C78_exact_proof :
  forall L : Libm, counts_exactly (F64 L) (2 ^ 53).
Proof.
  intros L. constructor; cbn [neqb nofZ nadd nmul F64].
  - reflexivity.
  - reflexivity.
  - intros a b Ha Hb H. now apply f64_add_int.
  - intros a Ha H. apply f64_mul_int; auto; nia.
Qed.
Lemma counts_real limit : counts_exactly XRa limit.
Proof.
  constructor; cbn [neqb nofZ nadd nmul XRa].
  - cbn. now destruct (Reqb_spec 0 0).
  - cbn. destruct (Reqb_spec 1 0); auto. lra.
  - intros. cbn. now rewrite plus_IZR.
  - intros. cbn. now rewrite mult_IZR.
Qed.

(** ** Sums of numbers of crossings *)
Lemma Zsum_app l l' : Zsum (l ++ l') = Zsum l + Zsum l'.
Proof. induction l as [|x l IH]; [reflexivity|]. cbn [app]. unfold Zsum in *. cbn [fold_right]. lia. Qed.
Lemma Zsum_cons x l : Zsum (x :: l) = x + Zsum l.
Proof. reflexivity. Qed.
Lemma Zsum_perm l l' : Permutation l l' -> Zsum l = Zsum l'.
Proof. induction 1; rewrite ?Zsum_cons; lia. Qed.
Lemma Zsum_nonneg {V} (f : V -> Z) l : (forall x, 0 <= f x) -> 0 <= Zsum (map f l).
Proof. intros H. induction l; cbn [map]; [cbn; lia|]. rewrite Zsum_cons. specialize (H a). lia. Qed.
Lemma Zsum_le {V} (f g : V -> Z) l : (forall x, f x <= g x) -> Zsum (map f l) <= Zsum (map g l).
Proof. intros H. induction l; cbn [map]; [cbn; lia|]. rewrite !Zsum_cons. specialize (H a). lia. Qed.

Section Counts.
  Context {A : Arith} {G : Rng A}.
  Variable limit : Z.
  Hypothesis exact_counts : counts_exactly A limit.
  Notation particle := (particle A G).
  Implicit Types (p : particle) (evs : list particle) (hs : list (list particle)).

  Lemma howmany_nonneg (f : particle -> bool) evs : 0 <= howmany f evs.
  Proof. unfold howmany. lia. Qed.
  Lemma howmany_cons (f : particle -> bool) p evs :
    howmany f (p :: evs) = (if f p then 1 else 0) + howmany f evs.
  Proof. unfold howmany. cbn [filter]. destruct (f p); cbn [length]; lia. Qed.
  Lemma bin_le b surface i evs : bin_crossings b surface i evs <= crossings surface evs.
  Proof.
    unfold bin_crossings, crossings. induction evs as [|p evs IH]; [cbn; lia|].
    rewrite !howmany_cons. destruct (in_bin b i p), (crossed surface p); cbn [andb]; lia.
  Qed.
  Lemma bin_square b surface i evs :
    bin_crossings b surface i evs * bin_crossings b surface i evs
    <= crossings surface evs * crossings surface evs.
  Proof.
    pose proof (bin_le b surface i evs).
    pose proof (howmany_nonneg (fun p => in_bin b i p && crossed surface p) evs).
    unfold bin_crossings in *. nia.
  Qed.
  Lemma few_squares b surface i hs : few_crossings limit hs ->
    Zsum (map (fun h => bin_crossings b surface i h * bin_crossings b surface i h) hs) <= limit.
  Proof.
    intros F. etransitivity; [|apply (F surface)]. apply Zsum_le. intros. apply bin_square.
  Qed.
  Lemma few_sums b surface i hs : few_crossings limit hs ->
    Zsum (map (bin_crossings b surface i) hs) <= limit.
  Proof.
    intros F. etransitivity; [|apply (few_squares b surface i hs F)]. apply Zsum_le. intros h.
    pose proof (howmany_nonneg (fun p => in_bin b i p && crossed surface p) h).
    unfold bin_crossings in *. nia.
  Qed.
  Lemma few_app hs hs' : few_crossings limit (hs ++ hs') ->
    few_crossings limit hs /\ few_crossings limit hs'.
  Proof.
    intros F. split; intros surface; specialize (F surface); rewrite map_app, Zsum_app in F.
    - pose proof (Zsum_nonneg (fun h => crossings surface h * crossings surface h) hs' ltac:(intros; apply Z.square_nonneg)). lia.
    - pose proof (Zsum_nonneg (fun h => crossings surface h * crossings surface h) hs ltac:(intros; apply Z.square_nonneg)). lia.
  Qed.
  Lemma few_perm hs hs' : Permutation hs hs' -> few_crossings limit hs -> few_crossings limit hs'.
  Proof.
    intros P F surface. rewrite <- (Zsum_perm _ _ (Permutation_map _ P)). apply F.
  Qed.

  (** ** One history *)
  Lemma current_score_crossed surface p :
    current_score surface p = nofZ A (if crossed surface p then 1 else 0).
  Proof.
    unfold current_score, crossed. destruct (p_surface p) as [s|]; [|reflexivity].
    destruct (Nat.eqb s surface) eqn:E; cbn [andb]; destruct (p_event p); cbn; try reflexivity;
      rewrite E; reflexivity.
  Qed.

  Definition pends (i : nat) (pd : pending A) (n : Z) : Prop :=
    keyed (N.of_nat i) pd = if n =? 0 then None else Some (nofZ A n).

  Lemma score_count b surface evs i : forall pd pd' n, ordered pd -> 0 <= n ->
    n + bin_crossings b surface i evs <= limit -> pends i pd n ->
    foldM (score_one b (fun p => Ok (current_score surface p))) evs pd = Ok pd' ->
    pends i pd' (n + bin_crossings b surface i evs).
  Proof.
    induction evs as [|p evs IH]; intros pd pd' n O Hn Hl Hp H; cbn [foldM] in H.
    - injection H as <-. replace (n + _) with n; auto. unfold bin_crossings, howmany. cbn. lia.
    - unfold bin_crossings in *. rewrite howmany_cons in *.
      set (m := howmany (fun p => in_bin b i p && crossed surface p) evs) in *.
      assert (0 <= m) by apply howmany_nonneg.
      apply bind_ok in H as (pd1 & E & H).
      assert (O1 : ordered pd1).
      { apply (score_ordered b (fun p => Ok (current_score surface p)) [p] pd pd1 O).
        cbn [foldM]. now rewrite E. }
      assert (K : pends i pd1 (n + if in_bin b i p && crossed surface p then 1 else 0)).
      { unfold score_one, proxy_score in E. cbn [bind] in E. rewrite current_score_crossed in E.
        destruct (crossed surface p).
        - rewrite (counts_one _ _ exact_counts) in E. apply bind_ok in E as (j & Ej & [= <-]).
          unfold pends. rewrite pending_add_keyed by auto. unfold in_bin in *. rewrite Ej in *.
          rewrite (N.eqb_sym j). rewrite (N.eqb_sym j) in Hl.
          destruct (N.eqb_spec (N.of_nat i) j) as [Eij|D]; cbn [andb] in *.
          + rewrite <- Eij. destruct (Z.eqb_spec (n + 1) 0); [lia|]. f_equal. rewrite Hp.
            destruct (Z.eqb_spec n 0) as [->|N]; [reflexivity|].
            apply (counts_add _ _ exact_counts); lia.
          + rewrite Z.add_0_r. exact Hp.
        - rewrite (counts_zero _ _ exact_counts) in E. injection E as <-.
          rewrite andb_false_r, Z.add_0_r. exact Hp. }
      replace (n + (_ + m))
        with ((n + if in_bin b i p && crossed surface p then 1 else 0) + m) by lia.
      eapply IH; eauto; destruct (in_bin b i p && crossed surface p); unfold m in *; lia.
  Qed.

  Lemma commit_counted surface hs evs pd (s0 s s' : scorable A) :
    few_crossings limit (hs ++ [evs]) -> counted surface hs s0 s ->
    foldM (score_one (sc_bins s) (fun p => Ok (current_score surface p))) evs [] = Ok pd ->
    sc_commit s pd = Ok s' -> counted surface (hs ++ [evs]) s0 s'.
  Proof.
    intros Few [N B L L2 Hs Hq] F C.
    assert (O0 : ordered (A := A) []) by constructor.
    assert (O : ordered pd) by (eapply score_ordered; [exact O0|exact F]).
    apply (commit_nth pd s s' O) in C as (C1 & C2 & C3 & C4 & C5 & C6).
    assert (Am : forall i, pends i pd (bin_crossings (sc_bins s0) surface i evs)).
    { intros i. rewrite B in F.
      apply (score_count _ surface evs i [] pd 0 O0) in F; auto; [lia| |reflexivity].
      destruct (few_app hs [evs] Few) as [_ Fe].
      pose proof (few_sums (sc_bins s0) surface i [evs] Fe) as Q. cbn [map] in Q. rewrite Zsum_cons in Q.
      cbn in Q. lia. }
    constructor; try congruence.
    - intros i Hi. rewrite C5, (Hs i Hi), map_app, Zsum_app. cbn [map]. rewrite Zsum_cons.
      change (Zsum []) with 0. rewrite Z.add_0_r.
      pose proof (few_sums (sc_bins s0) surface i _ Few) as Q.
      rewrite map_app, Zsum_app in Q. cbn [map] in Q. rewrite Zsum_cons in Q. change (Zsum []) with 0 in Q.
      pose proof (Zsum_nonneg (bin_crossings (sc_bins s0) surface i) hs (fun h => howmany_nonneg _ h)).
      pose proof (howmany_nonneg (fun p => in_bin (sc_bins s0) i p && crossed surface p) evs).
      specialize (Am i). unfold pends in Am. rewrite Am.
      destruct (Z.eqb_spec (bin_crossings (sc_bins s0) surface i evs) 0) as [->|N0].
      + now rewrite Z.add_0_r.
      + cbn [option_map]. f_equal. apply (counts_add _ _ exact_counts); unfold bin_crossings in *; lia.
    - intros i Hi. rewrite C6, (Hq i Hi), map_app, Zsum_app. cbn [map]. rewrite Zsum_cons.
      change (Zsum []) with 0. rewrite Z.add_0_r.
      pose proof (few_squares (sc_bins s0) surface i _ Few) as Q.
      rewrite map_app, Zsum_app in Q. cbn [map] in Q. rewrite Zsum_cons in Q. change (Zsum []) with 0 in Q.
      pose proof (Zsum_nonneg (fun h => bin_crossings (sc_bins s0) surface i h
        * bin_crossings (sc_bins s0) surface i h) hs ltac:(intros; nia)).
      specialize (Am i). unfold pends in Am. rewrite Am.
      set (n := bin_crossings (sc_bins s0) surface i evs) in *.
      assert (0 <= n) by apply howmany_nonneg.
      destruct (Z.eqb_spec n 0) as [E0|N0].
      + rewrite E0. now rewrite Z.add_0_r.
      + cbn [option_map]. f_equal. rewrite (counts_square _ _ exact_counts) by nia.
        apply (counts_add _ _ exact_counts); nia.
  Qed.

  Lemma counted_blank surface (s : scorable A) : blank s -> counted surface (G := G) [] s s.
  Proof.
    intros (n & B1 & B2). constructor; auto; intros i Hi; cbn [map]; change (Zsum []) with 0.
    - rewrite B1 in *. rewrite repeat_length in Hi. now apply nth_error_repeat'.
    - rewrite B2 in *. rewrite repeat_length in Hi. now apply nth_error_repeat'.
  Qed.
  Lemma counted_set_blank (ss : estimator_set A) : blank_set ss -> counted_set (G := G) [] ss ss.
  Proof.
    intros B. split; auto. unfold blank_set in B. induction (ss_estimators ss) as [|e l IH];
      constructor; [|apply IH; intros; apply B; now right].
    constructor; auto. apply counted_blank, B. now left.
  Qed.

  Lemma run_events_counted hs evs (s0 s s' : estimator_set A) :
    few_crossings limit (hs ++ [evs]) -> counted_set hs s0 s -> run_events s evs = Ok s' ->
    counted_set (hs ++ [evs]) s0 s'.
  Proof.
    intros Few [W F0] H. apply bind_ok in H as (pxs & Ep & Hc). unfold set_proxy_score in Ep.
    apply (fold_pointwise (fun e px p => est_proxy_score e px p)) in Ep.
    2:{ unfold new_set_proxy. apply map_length. }
    unfold set_commit in Hc. apply bind_ok in Hc as (es & Ec & Hc). apply Ok_inj in Hc. subst s'.
    split; [exact W|]. cbn [ss_estimators]. apply mapM_ok in Ec.
    unfold new_set_proxy in Ep. revert pxs es Ep Ec.
    induction F0 as [|e0 e l0 l Q F0 IH]; intros pxs es Ep Ec; cbn [map combine] in Ep.
    { inversion Ep; subst. cbn in Ec. inversion Ec; subst. constructor. }
    inversion Ep as [|? px ? pxs' E1 E2]; subst. cbn [combine] in Ec.
    inversion Ec as [|? e' ? es' C1 C2]; subst. constructor; eauto. clear IH E2 C2 Ep Ec.
    cbn [fst snd] in *. unfold new_proxy in E1. destruct px as [own subs].
    apply (fold_pair (G := G)
      (fun pd p => proxy_score (sc_bins (es_scorable e)) (current_score (es_surface e) p) pd p)
      (fun ps p => mapM (fun sp => bind (sens_score (fst sp) p) (fun score =>
         proxy_score (sc_bins (sn_scorable (fst sp))) score (snd sp) p)) (combine (es_sens e) ps)))
      in E1 as [E1 _].
    unfold est_commit in C1. apply bind_ok in C1 as (own' & Co & C1).
    apply bind_ok in C1 as (sens & Cs & C1). apply Ok_inj in C1. subst e'. cbn [fst snd] in *.
    destruct Q as [Q1 Q2]. constructor; cbn [es_surface es_scorable]; auto.
    rewrite Q1 in E1. eapply commit_counted; eauto.
  Qed.

  Lemma added_counted surface hs hs' (s a o r : scorable A) :
    few_crossings limit (hs ++ hs') -> counted surface hs s a -> counted surface hs' s o ->
    added a o r -> counted surface (hs ++ hs') s r.
  Proof.
    intros Few [N1 B1 L1 K1 S1 Q1] [N2 B2 L2 K2 S2 Q2] [N3 B3 L3 K3 S3 Q3].
    constructor; try congruence; intros i Hi.
    - rewrite (S3 i _ _ (S1 i Hi) (S2 i Hi)). f_equal.
      pose proof (few_sums (sc_bins s) surface i _ Few) as Q. rewrite map_app, Zsum_app in *.
      apply (counts_add _ _ exact_counts); auto; apply Zsum_nonneg; intros; apply howmany_nonneg.
    - rewrite (Q3 i _ _ (Q1 i Hi) (Q2 i Hi)). f_equal.
      pose proof (few_squares (sc_bins s) surface i _ Few) as Q. rewrite map_app, Zsum_app in *.
      apply (counts_add _ _ exact_counts); auto; apply Zsum_nonneg; intros; nia.
  Qed.
  Lemma counted_fun surface hs hs' (s a b : scorable A) : Permutation hs hs' ->
    counted surface hs s a -> counted surface hs' s b -> a = b.
  Proof.
    intros P [N1 B1 L1 K1 S1 Q1] [N2 B2 L2 K2 S2 Q2].
    destruct a as [na ba xa qa], b as [nb bb xb qb]. cbn in *. f_equal; try congruence.
    - apply list_positions; [congruence|]. intros i x y Ex Ey.
      assert (Hi : (i < length (sc_scores s))%nat) by (rewrite <- L1; apply nth_error_Some; congruence).
      rewrite (S1 i Hi) in Ex. rewrite (S2 i Hi) in Ey.
      rewrite (Zsum_perm _ _ (Permutation_map _ P)) in Ex. congruence.
    - apply list_positions; [congruence|]. intros i x y Ex Ey.
      assert (Hi : (i < length (sc_squares s))%nat) by (rewrite <- K1; apply nth_error_Some; congruence).
      rewrite (Q1 i Hi) in Ex. rewrite (Q2 i Hi) in Ey.
      rewrite (Zsum_perm _ _ (Permutation_map _ P)) in Ex. congruence.
  Qed.
  Lemma counted_set_fun hs hs' (s a b : estimator_set A) : Permutation hs hs' ->
    counted_set hs s a -> counted_set hs' s b ->
    map es_scorable (ss_estimators a) = map es_scorable (ss_estimators b)
    /\ map es_surface (ss_estimators a) = map es_surface (ss_estimators b)
    /\ ss_weight a = ss_weight b.
  Proof.
    intros P [W1 F1] [W2 F2]. parts; [| |congruence].
    - revert F2. generalize (ss_estimators b). induction F1 as [|x y l l' [X1 X2] F IH];
        intros lb F2; inversion F2 as [|? z ? ? [Y1 Y2] F3]; subst; cbn; auto.
      f_equal; auto. eapply counted_fun; eauto.
    - revert F2. generalize (ss_estimators b). induction F1 as [|x y l l' [X1 X2] F IH];
        intros lb F2; inversion F2 as [|? z ? ? [Y1 Y2] F3]; subst; cbn; auto.
      f_equal; auto. congruence.
  Qed.
  Lemma counted_set_perm hs hs' (s a : estimator_set A) : Permutation hs hs' ->
    counted_set hs s a -> counted_set hs' s a.
  Proof.
    intros P [W F]. split; auto. induction F as [|x y l l' [X [N B L K S1 Q1]] F IH]; constructor; auto.
    constructor; auto. constructor; auto; intros i Hi.
    - rewrite <- (Zsum_perm _ _ (Permutation_map _ P)). auto.
    - rewrite <- (Zsum_perm _ _ (Permutation_map _ P)). auto.
  Qed.
End Counts.

(** ** Merging estimators of one shape *)
Lemma alike_names {A : Arith} (s a : estimator_set A) : alike s a ->
  map es_name (ss_estimators a) = map es_name (ss_estimators s)
  /\ Forall2 (fun e e' => map sens_name (es_sens e') = map sens_name (es_sens e))
       (ss_estimators s) (ss_estimators a).
Proof.
  unfold alike. induction 1 as [|x y l l' [S1 [C1 C2 C3 C4] T1] F [IH1 IH2]]; [split; auto|].
  split.
  - cbn. rewrite IH1. f_equal. exact C1.
  - constructor; auto. clear - T1. induction T1 as [|u v m m' [X1 Y1 [C1 C2 C3 C4]] F IH]; cbn; auto.
    rewrite IH. f_equal. exact C1.
Qed.
Lemma alike_unique {A : Arith} (s a : estimator_set A) : alike s a -> unique_names s -> unique_names a.
Proof.
  intros Al [Nd Ns]. destruct (alike_names s a Al) as [E1 F]. split; [now rewrite E1|].
  intros e He. clear E1 Nd Al. revert Ns He. induction F as [|x y l l' E F IH]; intros Ns He; [destruct He|].
  destruct He as [<-|He]; [|apply IH; auto; intros; apply Ns; now right].
  rewrite E. apply Ns. now left.
Qed.
Lemma alike_same_bins {A : Arith} (s a o : scorable A) : alike_sc s a -> alike_sc s o -> same_bins a o.
Proof. intros [] []. split; congruence. Qed.

Lemma merged_alike {A : Arith} (s a o : estimator_set A) :
  unique_names s -> alike s a -> alike s o ->
  exists r, set_add a o = Ok r /\ ss_weight r = ss_weight a /\ alike s r
    /\ forall i ea eo er, nth_error (ss_estimators a) i = Some ea ->
       nth_error (ss_estimators o) i = Some eo -> nth_error (ss_estimators r) i = Some er ->
       es_surface er = es_surface ea /\ added (es_scorable ea) (es_scorable eo) (es_scorable er).
Proof.
  intros Un Ala Alo. pose proof (alike_unique s o Alo Un) as Uo. destruct Un as [Nd Ns].
  unfold alike in Ala, Alo.
  apply Forall2_positions in Ala as [La Fa]. apply Forall2_positions in Alo as [Lo Fo].
  assert (Names : forall e e' : estimator A, alike_es e e' -> es_name e' = es_name e).
  { intros e e' [_ [En _ _ _] _]. exact En. }
  assert (Pos : forall i j e e', nth_error (ss_estimators a) i = Some e ->
            nth_error (ss_estimators o) j = Some e' -> es_name e' = es_name e -> i = j).
  { intros i j e e' Ei Ej En.
    destruct (nth_partner _ (ss_estimators s) i e (eq_sym La) Ei) as (e0 & E0).
    destruct (nth_partner _ (ss_estimators s) j e' (eq_sym Lo) Ej) as (e1 & E1).
    apply (same_position es_name (ss_estimators s) i j e0 e1 Nd E0 E1).
    rewrite <- (Names _ _ (Fa i _ _ E0 Ei)), <- (Names _ _ (Fo j _ _ E1 Ej)). congruence. }
  destruct (C53_error_proof A a o Uo) as [_ [_ Tot]].
  { intros e e' He He' En. apply In_nth_error in He as (i & Ei). apply In_nth_error in He' as (j & Ej).
    pose proof (Pos i j e e' Ei Ej En) as <-.
    destruct (nth_partner _ (ss_estimators s) i e (eq_sym La) Ei) as (e0 & E0).
    destruct (Fa i _ _ E0 Ei) as [Su1 Sc1 Se1]. destruct (Fo i _ _ E0 Ej) as [Su2 Sc2 Se2].
    split; [eapply alike_same_bins; eauto|].
    pose proof (Ns e0 (nth_error_In _ _ E0)) as Nn.
    apply Forall2_positions in Se1 as [L1 F1]. apply Forall2_positions in Se2 as [L2 F2].
    intros sn Hsn. apply In_nth_error in Hsn as (k & Ek).
    destruct (nth_partner _ (es_sens e0) k sn (eq_sym L1) Ek) as (s0 & Es0).
    split.
    - destruct (nth_partner (es_sens e0) (es_sens e') k s0 L2 Es0) as (so & Eso).
      exists so. split; [eapply nth_error_In; eauto|].
      destruct (F1 k _ _ Es0 Ek) as [_ _ [Q1 _ _ _]].
      destruct (F2 k _ _ Es0 Eso) as [_ _ [Q2 _ _ _]]. unfold sens_name. congruence.
    - intros so Hso Eso. apply In_nth_error in Hso as (m & Em).
      destruct (nth_partner _ (es_sens e0) m so (eq_sym L2) Em) as (s1 & Es1).
      destruct (F1 k _ _ Es0 Ek) as [Xa Ya Z1].
      destruct (F2 m _ _ Es1 Em) as [Xb Yb Z2].
      assert (k = m) as <-.
      { apply (same_position sens_name (es_sens e0) k m s0 s1 Nn Es0 Es1).
        destruct Z1 as [Q1 _ _ _], Z2 as [Q2 _ _ _]. unfold sens_name in *. congruence. }
      assert (s1 = s0) as -> by congruence. eapply alike_same_bins; eauto. }
  destruct Tot as (r & Er).
  { intros e He. apply In_nth_error in He as (i & Ei).
    destruct (nth_partner _ (ss_estimators s) i e (eq_sym La) Ei) as (e0 & E0).
    destruct (nth_partner _ (ss_estimators o) i e0 Lo E0) as (e' & Ee).
    exists e'. split; [eapply nth_error_In; eauto|].
    rewrite (Names _ _ (Fa i _ _ E0 Ei)), (Names _ _ (Fo i _ _ E0 Ee)). reflexivity. }
  exists r. split; [exact Er|].
  apply (C53_merge_proof A a o r Uo) in Er as [Wr Fr]. split; [exact Wr|].
  apply Forall2_positions in Fr as [Lr Fr].
  assert (Here : forall i ea eo er, nth_error (ss_estimators a) i = Some ea ->
       nth_error (ss_estimators o) i = Some eo -> nth_error (ss_estimators r) i = Some er ->
       added_estimator ea eo er).
  { intros i ea eo er Ea Eo Ee. destruct (Fr i _ _ Ea Ee) as (eo' & Ho & En & Ad).
    apply In_nth_error in Ho as (j & Ej). pose proof (Pos i j ea eo' Ea Ej En) as <-.
    assert (eo' = eo) as -> by congruence. exact Ad. }
  assert (Shape : forall x y z w : scorable A, alike_sc x y -> added y z w -> alike_sc x w).
  { intros x y z w [] []. constructor; congruence. }
  split.
  - unfold alike. apply Forall2_positions. split; [congruence|]. intros i e0 er E0 Eer.
    destruct (nth_partner _ (ss_estimators a) i e0 La E0) as (ea & Eea).
    destruct (nth_partner _ (ss_estimators o) i e0 Lo E0) as (eo & Eeo).
    destruct (Here i ea eo er Eea Eeo Eer) as [Su3 Sc3 Se3].
    destruct (Fa i _ _ E0 Eea) as [Su1 Sc1 Se1]. destruct (Fo i _ _ E0 Eeo) as [Su2 Sc2 Se2].
    constructor; [congruence|eauto|].
    apply Forall2_positions in Se1 as [L1 F1]. apply Forall2_positions in Se2 as [L2 F2].
    apply Forall2_positions in Se3 as [L3 F3].
    apply Forall2_positions. split; [congruence|]. intros k s0 sr Es0 Esr.
    destruct (nth_partner _ (es_sens ea) k s0 L1 Es0) as (sa & Esa).
    destruct (nth_partner _ (es_sens eo) k s0 L2 Es0) as (so & Eso).
    destruct (F1 k _ _ Es0 Esa) as [X1 Y1 Z1]. destruct (F2 k _ _ Es0 Eso) as [X2 Y2 Z2].
    destruct (F3 k _ _ Esa Esr so (nth_error_In _ _ Eso)) as [X3 Y3 Z3].
    { destruct Z1 as [Q1 _ _ _], Z2 as [Q2 _ _ _]. unfold sens_name. congruence. }
    constructor; try congruence. eauto.
  - intros i ea eo er Ea Eo Ee. destruct (Here i ea eo er Ea Eo Ee). auto.
Qed.

Section Workers.
  Context {A : Arith} {G : Rng A}.
  Variable limit : Z.
  Hypothesis exact_counts : counts_exactly A limit.
  Variable dr : @driver A.
  Variable fuel : nat.
  Hypothesis few : (dr_batchsize dr + dr_threads dr <= 2 ^ 64)%N.
  Hypothesis fresh : blank_set (dr_init dr).
  Hypothesis unique : unique_names (dr_init dr).

  Definition ctallied (e : estimator_set A) (l : list N) : Prop :=
    alike (dr_init dr) e /\ exists hs, Forall2 (shown (G := G) dr) l hs
      /\ (few_crossings limit hs -> counted_set hs (dr_init dr) e).

  Lemma ctallied_init : ctallied (dr_init dr) [].
  Proof.
    split; [apply alike_refl|]. exists []. split; [constructor|]. intros _.
    now apply counted_set_blank.
  Qed.
  Lemma ctallied_run e l h e' : ctallied e l -> run_history (G := G) dr fuel e h = Ok e' ->
    ctallied e' (l ++ [h])%list.
  Proof.
    intros (Al & hs & Fh & Sc) H. split.
    - eapply alike_trans; [exact Al|]. eapply run_history_keeps_shape; eauto.
    - apply run_history_shown in H as (evs & Sh & Ev).
      exists (hs ++ [evs])%list. split; [now apply Forall2_app; auto|].
      intros Few. destruct (few_app limit hs [evs] Few) as [F1 _].
      eapply run_events_counted; eauto.
  Qed.

  Lemma counted_merged (hs hs' : list (list (particle A G))) (a o r : estimator_set A) :
    few_crossings limit (hs ++ hs') -> counted_set hs (dr_init dr) a ->
    counted_set hs' (dr_init dr) o -> ss_weight r = ss_weight a -> alike (dr_init dr) r ->
    (forall i ea eo er, nth_error (ss_estimators a) i = Some ea ->
       nth_error (ss_estimators o) i = Some eo -> nth_error (ss_estimators r) i = Some er ->
       es_surface er = es_surface ea /\ added (es_scorable ea) (es_scorable eo) (es_scorable er)) ->
    counted_set (hs ++ hs') (dr_init dr) r.
  Proof.
    intros Few [W1 F1] [W2 F2] W Al H. split; [congruence|].
    apply Forall2_positions in F1 as [L1 F1]. apply Forall2_positions in F2 as [L2 F2].
    unfold alike in Al. apply Forall2_positions in Al as [L3 F3].
    apply Forall2_positions. split; auto. intros i e0 er E0 Er.
    destruct (nth_partner _ (ss_estimators a) i e0 L1 E0) as (ea & Ea).
    destruct (nth_partner _ (ss_estimators o) i e0 L2 E0) as (eo & Eo).
    destruct (H i ea eo er Ea Eo Er) as [Hs Ha].
    destruct (F1 i _ _ E0 Ea) as [S1 C1]. destruct (F2 i _ _ E0 Eo) as [S2 C2].
    constructor; [congruence|]. eapply added_counted; eauto.
  Qed.

  Lemma merge_counted : forall ws ls acc l0,
    Forall2 (holds (G := G) dr fuel ctallied) ws ls -> List.Forall succeeded ws -> ctallied acc l0 ->
    exists r, foldM (fun acc wk => bind (worker_result wk) (fun e => set_add acc e)) ws acc = Ok r
      /\ ctallied r (l0 ++ concat ls)%list.
  Proof.
    intros ws ls acc l0 F. revert acc l0.
    induction F as [|wk l ws ls H F IH]; intros acc l0 Su T.
    - exists acc. split; [reflexivity|]. cbn. rewrite app_nil_r. apply T.
    - inversion Su as [|? ? S1 S2]; subst. destruct wk as [|  |e|]; try easy.
      cbn in H. destruct H as (Al & hs & Fh & Sc). destruct T as (Al0 & hs0 & F0 & Sc0).
      destruct (merged_alike _ acc e unique Al0 Al) as (r1 & E1 & W1 & A1 & P1).
      cbn [foldM worker_result bind]. rewrite E1. cbn [bind].
      destruct (IH r1 (l0 ++ l)%list S2) as (r & Er & Cr).
      { split; auto. exists (hs0 ++ hs)%list. split; [now apply Forall2_app|].
        intros Few. destruct (few_app limit _ _ Few).
        eapply counted_merged; eauto. }
      exists r. split; auto. cbn [concat]. now rewrite app_assoc.
  Qed.

  Lemma count_result schedule : (0 < dr_threads dr)%N ->
    let sv := run_schedule (G := G) dr fuel (solver_start dr 0) schedule in
    List.Forall succeeded (sv_workers sv) ->
    exists r hs, solver_result dr sv = Ok r
      /\ Forall2 (shown (G := G) dr) (below (dr_batchsize dr)) hs
      /\ alike (dr_init dr) r
      /\ (few_crossings limit hs -> counted_set hs (dr_init dr) r).
  Proof.
    intros T sv Su. destruct (after dr fuel ctallied ctallied_init ctallied_run few schedule)
      as (k & ls & V & _). fold sv in V.
    assert (P : Permutation (concat ls) (below (dr_batchsize dr))).
    { replace (dr_batchsize dr) with k; [apply V|]. apply (iv_done _ _ _ _ _ _ V).
      pose proof (iv_length _ _ _ _ _ _ V) as L.
      destruct (sv_workers sv) as [|wk ws] eqn:E; [cbn in L; lia|].
      inversion Su; subst. eapply dones_in; [now left|auto]. }
    destruct (merge_counted _ _ _ _ (iv_holds _ _ _ _ _ _ V) Su ctallied_init) as (r & Er & Al & hs & Fh & Sc).
    cbn [app] in Fh. destruct (Permutation_Forall2 P Fh) as (hs' & P' & Fh').
    exists r, hs'. parts; auto. intros Few.
    apply (counted_set_perm hs hs'); auto. apply Sc. eapply few_perm; [|exact Few].
    now apply Permutation_sym.
  Qed.
End Workers.

Lemma shown_threads {A : Arith} {G : Rng A} t (dr : @driver A) i (evs : list (particle A G)) :
  shown (with_threads t dr) i evs -> shown dr i evs.
Proof.
  intros (f & H). exists f. rewrite bank_threads in H. exact H.
Qed.

Lemma C78_counts_proof :
  forall (A : Arith) (limit : Z) (G : Rng A) (dr : @driver A) fuel schedule,
  counts_exactly A limit ->
  (dr_batchsize dr + dr_threads dr <= 2 ^ 64)%N -> (0 < dr_threads dr)%N ->
  blank_set (dr_init dr) -> unique_names (dr_init dr) ->
  let sv := run_schedule (G := G) dr fuel (solver_start dr 0) schedule in
  List.Forall succeeded (sv_workers sv) ->
  exists r hs, solver_result dr sv = Ok r
    /\ Forall2 (history (G := G) dr) (below (dr_batchsize dr)) hs
    /\ (few_crossings limit hs -> counted_set hs (dr_init dr) r).
Proof.
  intros A limit G dr fuel schedule Ex few T Bl Un sv Su.
  destruct (count_result limit Ex dr fuel few Bl Un schedule T Su) as (r & hs & Er & Fh & _ & Sc).
  exists r, hs. parts; auto. clear - Fh. induction Fh; constructor; auto using shown_history.
Qed.

Lemma C78_schedule_proof :
  forall (A : Arith) (limit : Z) (G : Rng A) (dr : @driver A) t t' fuel fuel' schedule schedule',
  counts_exactly A limit ->
  (dr_batchsize dr + t <= 2 ^ 64)%N -> (0 < t)%N ->
  (dr_batchsize dr + t' <= 2 ^ 64)%N -> (0 < t')%N ->
  blank_set (dr_init dr) -> unique_names (dr_init dr) ->
  let one := with_threads t dr in
  let other := with_threads t' dr in
  let sv := run_schedule (G := G) one fuel (solver_start one 0) schedule in
  let sv' := run_schedule (G := G) other fuel' (solver_start other 0) schedule' in
  List.Forall succeeded (sv_workers sv) -> List.Forall succeeded (sv_workers sv') ->
  exists r r' hs, solver_result one sv = Ok r /\ solver_result other sv' = Ok r'
    /\ Forall2 (history (G := G) dr) (below (dr_batchsize dr)) hs
    /\ (few_crossings limit hs ->
        map es_scorable (ss_estimators r) = map es_scorable (ss_estimators r')
        /\ ((forall e, In e (ss_estimators (dr_init dr)) -> es_sens e = []) -> r = r')).
Proof.
  intros A limit G dr t t' fuel fuel' sch sch' Ex few T few' T' Bl Un one other sv sv' Su Su'.
  destruct (count_result limit Ex one fuel few Bl Un sch T Su) as (r & hs & Er & Fh & Al & Sc).
  destruct (count_result limit Ex other fuel' few' Bl Un sch' T' Su') as (r' & hs' & Er' & Fh' & Al' & Sc').
  cbn [one other with_threads dr_batchsize dr_init] in Fh, Fh', Al, Al', Sc, Sc'.
  assert (Gh : Forall2 (shown (G := G) dr) (below (dr_batchsize dr)) hs).
  { clear - Fh. induction Fh; constructor; auto. eapply shown_threads; eauto. }
  assert (Gh' : Forall2 (shown (G := G) dr) (below (dr_batchsize dr)) hs').
  { clear - Fh'. induction Fh'; constructor; auto. eapply shown_threads; eauto. }
  assert (hs = hs') as <-.
  { refine (Forall2_fun _ _ _ _ _ _ Gh Gh'). intros v a b. apply shown_fun. }
  exists r, r', hs. parts; auto.
  { clear - Gh. induction Gh; constructor; auto using shown_history. }
  intros Few. specialize (Sc Few). specialize (Sc' Few).
  destruct (counted_set_fun _ _ _ _ _ (Permutation_refl hs) Sc Sc') as (E1 & E2 & E3).
  split; [exact E1|]. intros Ns. destruct r as [es w], r' as [es' w']. cbn in *. f_equal; [|exact E3].
  unfold alike in Al, Al'. cbn in Al, Al'. clear - Al Al' Ns E1 E2. revert es' Al' E1 E2.
  induction Al as [|e0 e l l' H F IH]; intros es' Al' E1 E2; inversion Al' as [|? e' ? es2 H' F']; subst;
    auto.
  cbn [map] in E1, E2. injection E1 as E1a E1. injection E2 as E2a E2. f_equal.
  - destruct H as [_ _ T1], H' as [_ _ T2]. rewrite (Ns e0 (or_introl eq_refl)) in T1, T2.
    inversion T1; inversion T2. destruct e, e'. cbn in *. congruence.
  - apply IH; auto. intros; apply Ns; now right.
Qed.
