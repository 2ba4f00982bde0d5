(** Tallies: C50-C54. *)
From Coq Require Import Bool String List Reals ZArith NArith Lia Lra Permutation Sorting.Sorted.
From Verif Require Import Model.Num Model.Outcome Model.Rng Model.Xml Model.Std Model.Point
  Model.Surface Model.Types Model.Bins Model.Field Model.Tables Model.Particle
  Model.Multigroup Model.Continuous Model.Material Model.World Model.Perturbation
  Model.Estimator Model.Transport Model.Driver Spec.SumSpec Spec.TransportSpec Spec.HistorySpec
  Spec.EstimatorSpec Proofs.RealLib Proofs.OutcomeLib Proofs.BinsProofs.
Import ListNotations.

(** ** Sums of extended reals *)
Lemma xadd_comm a b : xadd a b = xadd b a.
Proof. destruct a, b; cbn; auto. now rewrite Rplus_comm. Qed.
Lemma xadd_assoc a b c : xadd a (xadd b c) = xadd (xadd a b) c.
Proof. destruct a, b, c; cbn; auto. now rewrite Rplus_assoc. Qed.
Lemma xadd_0_r a : xadd a (Fin 0) = a.
Proof. destruct a; cbn; auto. now rewrite Rplus_0_r. Qed.
Lemma xadd_0_l a : xadd (Fin 0) a = a.
Proof. now rewrite xadd_comm, xadd_0_r. Qed.
Lemma xsum_cons x l : xsum (x :: l) = xadd x (xsum l).
Proof. reflexivity. Qed.
Lemma xsum_app l l' : xsum (l ++ l') = xadd (xsum l) (xsum l').
Proof.
  induction l as [|x l IH]; cbn [app].
  - change (xsum []) with (Fin 0). now rewrite xadd_0_l.
  - now rewrite !xsum_cons, IH, xadd_assoc.
Qed.
Lemma xsum_perm l l' : Permutation l l' -> xsum l = xsum l'.
Proof.
  induction 1; auto; rewrite ?xsum_cons; [now f_equal| |congruence].
  now rewrite !xadd_assoc, (xadd_comm y x).
Qed.
Lemma xsum_fin l : xsum (map Fin l) = Fin (Rsum l).
Proof. induction l as [|x l IH]; auto. cbn [map]. rewrite xsum_cons, IH. reflexivity. Qed.

Lemma Forall2_length {X Y} (P : X -> Y -> Prop) l l' : Forall2 P l l' -> length l = length l'.
Proof. induction 1; cbn; auto. Qed.

(** ** The pending scores of one scorable *)
Section Pending.
  Context {A : Arith} {G : Rng A}.
  Notation particle := (particle A G).

  Implicit Types (pd : pending A) (p : particle).

  Definition keyed (i : N) (pd : pending A) : option (num A) :=
    option_map snd (find (fun kx => N.eqb (fst kx) i) pd).
  Definition ordered (pd : pending A) : Prop := StronglySorted N.lt (map fst pd).

  Lemma pending_add_keys j (s : num A) pd (P : N -> Prop) :
    P j -> List.Forall P (map fst pd) -> List.Forall P (map fst (pending_add j s pd)).
  Proof.
    intros Pj. induction pd as [|[k x] pd IH]; cbn; intros F; [auto|].
    inversion F; subst. destruct (j <? k)%N; [cbn; auto|].
    destruct (k <? j)%N; cbn; auto.
  Qed.

  Lemma pending_add_ordered j (s : num A) pd : ordered pd -> ordered (pending_add j s pd).
  Proof.
    unfold ordered. induction pd as [|[k x] pd IH]; cbn; intros O.
    - repeat constructor.
    - inversion O as [|? ? O1 O2]; subst. destruct (N.ltb_spec j k); cbn.
      + constructor; auto. constructor; auto. eapply Forall_impl; [|exact O2]. cbn. intros; lia.
      + destruct (N.ltb_spec k j); cbn; constructor; auto.
        apply pending_add_keys; auto.
  Qed.

  Lemma keyed_none (i : N) pd : List.Forall (fun k => (i < k)%N) (map fst pd) -> keyed i pd = None.
  Proof.
    induction pd as [|[k x] pd IH]; cbn; intros F; auto. inversion F; subst. unfold keyed. cbn.
    destruct (N.eqb_spec k i); [lia|]. now apply IH.
  Qed.

  Lemma keyed_cons i k x pd : keyed i ((k, x) :: pd) = if N.eqb k i then Some x else keyed i pd.
  Proof. unfold keyed. cbn. now destruct (N.eqb k i). Qed.

  Lemma pending_add_keyed i j s pd : ordered pd ->
    keyed i (pending_add j s pd)
    = if N.eqb i j then Some (match keyed j pd with Some x => nadd A x s | None => s end)
      else keyed i pd.
  Proof.
    induction pd as [|[k x] pd IH]; cbn [pending_add]; intros O.
    - rewrite keyed_cons. destruct (N.eqb_spec j i), (N.eqb_spec i j); subst; auto; congruence.
    - inversion O as [|? ? O1 O2]; subst. cbn [fst map] in O1, O2.
      destruct (N.ltb_spec j k).
      + rewrite !keyed_cons. replace (keyed j pd) with (@None (num A)).
        2:{ symmetry. apply keyed_none. eapply Forall_impl; [|exact O2]. cbn. intros; lia. }
        destruct (N.eqb_spec j i), (N.eqb_spec i j), (N.eqb_spec k i), (N.eqb_spec k j);
          try lia; auto; subst; try lia; congruence.
      + destruct (N.ltb_spec k j); rewrite !keyed_cons.
        * rewrite IH by exact O1.
          destruct (N.eqb_spec k i), (N.eqb_spec i j), (N.eqb_spec k j); subst; try lia; auto.
        * assert (k = j) by lia. subst k. rewrite N.eqb_refl.
          destruct (N.eqb_spec j i), (N.eqb_spec i j); subst; try lia; auto; congruence.
  Qed.

  Lemma add_at_nth (x : num A) l : forall i l', add_at i x l = Ok l' ->
    length l' = length l /\ forall k, nth_error l' k
      = if Nat.eqb k i then option_map (fun y => nadd A y x) (nth_error l k) else nth_error l k.
  Proof.
    induction l as [|y l IH]; intros [|i] l' H; cbn in H; try discriminate.
    - injection H as <-. split; auto. intros [|k]; auto.
    - apply bind_ok in H as (r & E & [= <-]). apply IH in E as [L N]. split; [cbn; lia|].
      intros [|k]; cbn; auto.
  Qed.
  Lemma add_at_N_nth (x : num A) l i l' : add_at_N i x l = Ok l' ->
    length l' = length l /\ forall k, nth_error l' k
      = if N.eqb (N.of_nat k) i then option_map (fun y => nadd A y x) (nth_error l k)
        else nth_error l k.
  Proof.
    unfold add_at_N. destruct (_ <? _)%N; [|discriminate]. intros H.
    apply add_at_nth in H as [L N]. split; auto. intros k. rewrite N.
    destruct (Nat.eqb_spec k (N.to_nat i)), (N.eqb_spec (N.of_nat k) i); auto; lia.
  Qed.

  Lemma commit_nth pd : forall (s s' : scorable A), ordered pd -> sc_commit s pd = Ok s' ->
    sc_name s' = sc_name s /\ sc_bins s' = sc_bins s
    /\ length (sc_scores s') = length (sc_scores s)
    /\ length (sc_squares s') = length (sc_squares s)
    /\ (forall k, nth_error (sc_scores s') k
        = match keyed (N.of_nat k) pd with
          | Some x => option_map (fun y => nadd A y x) (nth_error (sc_scores s) k)
          | None => nth_error (sc_scores s) k end)
    /\ (forall k, nth_error (sc_squares s') k
        = match keyed (N.of_nat k) pd with
          | Some x => option_map (fun y => nadd A y (nmul A x x)) (nth_error (sc_squares s) k)
          | None => nth_error (sc_squares s) k end).
  Proof.
    induction pd as [|[j x] pd IH]; intros s s' O H.
    - cbn in H. injection H as <-. parts; auto.
    - unfold sc_commit in H. cbn [foldM fst snd] in H.
      apply bind_ok in H as (s1 & E & H). apply bind_ok in E as (sc & E1 & E).
      apply bind_ok in E as (sq & E2 & [= <-]).
      inversion O as [|? ? O1 O2]; subst. apply (IH _ _ O1) in H. cbn [sc_name sc_bins sc_scores sc_squares] in H.
      destruct H as (H1 & H2 & H3 & H4 & H5 & H6).
      apply add_at_N_nth in E1 as [L1 N1]. apply add_at_N_nth in E2 as [L2 N2].
      assert (Nk : keyed j pd = None) by now apply keyed_none.
      parts; auto; try congruence.
      + intros k. rewrite H5, N1, keyed_cons.
        destruct (N.eqb_spec (N.of_nat k) j) as [->|D].
        * now rewrite Nk, N.eqb_refl.
        * destruct (N.eqb_spec j (N.of_nat k)); [congruence|reflexivity].
      + intros k. rewrite H6, N2, keyed_cons.
        destruct (N.eqb_spec (N.of_nat k) j) as [->|D].
        * now rewrite Nk, N.eqb_refl.
        * destruct (N.eqb_spec j (N.of_nat k)); [congruence|reflexivity].
  Qed.

  (** ** Several proxies at once *)
  Lemma fold_pointwise {V W} (f : V -> W -> particle -> outcome W) (vs : list V) evs :
    forall ws ws', length ws = length vs ->
    foldM (fun ws p => mapM (fun x => f (fst x) (snd x) p) (combine vs ws)) evs ws = Ok ws' ->
    Forall2 (fun x w' => foldM (fun w p => f (fst x) w p) evs (snd x) = Ok w') (combine vs ws) ws'.
  Proof.
    induction evs as [|p evs IH]; intros ws ws' L H; cbn [foldM] in H.
    - injection H as <-. revert ws L. induction vs as [|v vs IHv]; intros [|w ws] L; cbn in *;
        try discriminate; constructor; auto.
    - apply bind_ok in H as (ws1 & E & H). apply mapM_ok in E.
      assert (L1 : length ws1 = length vs).
      { apply Forall2_length in E. rewrite combine_length in E. lia. }
      apply IH in H; auto. clear IH. revert ws ws1 ws' L L1 E H.
      induction vs as [|v vs IHv]; intros [|w ws] [|w1 ws1] ws' L L1 E H; cbn in *;
        try discriminate; inversion E; inversion H; subst; constructor; eauto.
      cbn [foldM fst snd] in *. match goal with H : f v w p = _ |- _ => rewrite H end. auto.
  Qed.

  Lemma fold_pair {U V} (f : U -> particle -> outcome U) (g : V -> particle -> outcome V) evs :
    forall u v u' v',
    foldM (fun uv p => noexcept (bind (f (fst uv) p) (fun a => bind (g (snd uv) p) (fun b => Ok (a, b)))))
          evs (u, v) = Ok (u', v') ->
    foldM f evs u = Ok u' /\ foldM g evs v = Ok v'.
  Proof.
    induction evs as [|p evs IH]; intros u v u' v' H; cbn [foldM] in *.
    - injection H as <- <-. auto.
    - apply bind_ok in H as ([u1 v1] & E & H). apply -> @noexcept_ok in E. cbn [fst snd] in E.
      apply bind_ok in E as (a & Ea & E). apply bind_ok in E as (b & Eb & [= <- <-]).
      apply IH in H as [H1 H2]. rewrite Ea, Eb. auto.
  Qed.

  (** One scorable over the events of a history. *)
  Definition score_one (b : particle_bins A) (sc : particle -> outcome (num A)) pd p :=
    bind (sc p) (fun s => proxy_score b s pd p).

  Lemma score_ordered b sc evs : forall pd pd', ordered pd ->
    foldM (score_one b sc) evs pd = Ok pd' -> ordered pd'.
  Proof.
    intros pd pd' O H. refine (foldM_inv _ ordered evs pd pd' _ O H).
    intros s p s' _ Os E. unfold score_one, proxy_score in E. apply bind_ok in E as (x & _ & E).
    destruct (neqb A x _); [now injection E as <-|]. apply bind_ok in E as (i & _ & [= <-]).
    now apply pending_add_ordered.
  Qed.

  (** A bin that no event scores in is not pending. *)
  Lemma score_untouched b sc evs i : forall pd pd', ordered pd ->
    (forall p, In p evs -> in_bin b i p = true -> forall x, sc p = Ok x -> neqb A x (nofZ A 0) = true) ->
    foldM (score_one b sc) evs pd = Ok pd' -> keyed (N.of_nat i) pd' = keyed (N.of_nat i) pd.
  Proof.
    induction evs as [|p evs IH]; intros pd pd' O Hz H; cbn [foldM] in H; [now injection H as <-|].
    apply bind_ok in H as (pd1 & E & H).
    assert (O1 : ordered pd1).
    { apply (score_ordered b sc [p] pd pd1 O). cbn. now rewrite E. }
    rewrite (IH pd1 pd' O1); auto; [|intros; eapply Hz; eauto; now right].
    unfold score_one, proxy_score in E. apply bind_ok in E as (x & Ex & E).
    destruct (neqb A x _) eqn:Z; [now injection E as <-|].
    apply bind_ok in E as (j & Ej & [= <-]). rewrite pending_add_keyed by auto.
    destruct (N.eqb_spec (N.of_nat i) j) as [<-|D]; auto.
    rewrite (Hz p) in Z; [discriminate|now left| |exact Ex].
    unfold in_bin. rewrite Ej. apply N.eqb_refl.
  Qed.
End Pending.

(** ** Exact sums *)
Section Exact.
  Context {G : Rng XRa}.
  Notation particle := (particle XRa G).
  Implicit Types (p : particle) (evs : list particle) (hs : list (list particle)).

  Definition amount (i : nat) (pd : pending XRa) : xr :=
    match keyed (N.of_nat i) pd with Some x => x | None => Fin 0 end.

  Lemma xeqb_0 x : xeqb x (Fin 0) = true -> x = Fin 0.
  Proof.
    destruct x; cbn; try discriminate. destruct (Reqb_spec r 0); [congruence|discriminate].
  Qed.

  Lemma history_total_cons b (score : particle -> xr) i p evs :
    history_total b score i (p :: evs)
    = xadd (if in_bin b i p then score p else Fin 0) (history_total b score i evs).
  Proof.
    unfold history_total. cbn [filter]. destruct (in_bin b i p); cbn [map].
    - apply xsum_cons.
    - now rewrite xadd_0_l.
  Qed.

  Lemma score_amount b sc (score : particle -> xr) evs i : forall pd pd', ordered pd ->
    (forall p x, In p evs -> sc p = Ok x -> x = score p) ->
    foldM (score_one b sc) evs pd = Ok pd' ->
    amount i pd' = xadd (amount i pd) (history_total b score i evs).
  Proof.
    induction evs as [|p evs IH]; intros pd pd' O Hs H; cbn [foldM] in H.
    - injection H as <-. unfold history_total. cbn. now rewrite xadd_0_r.
    - apply bind_ok in H as (pd1 & E & H).
      assert (O1 : ordered pd1).
      { apply (score_ordered b sc [p] pd pd1 O). cbn. now rewrite E. }
      rewrite (IH pd1 pd' O1) by (auto; intros; apply Hs; auto; now right).
      rewrite history_total_cons, xadd_assoc. f_equal.
      unfold score_one, proxy_score in E. apply bind_ok in E as (x & Ex & E).
      pose proof (Hs p x (or_introl eq_refl) Ex) as Es. rewrite <- Es.
      destruct (neqb XRa x _) eqn:Z.
      + injection E as <-. apply xeqb_0 in Z. rewrite Z.
        destruct (in_bin b i p); now rewrite xadd_0_r.
      + apply bind_ok in E as (j & Ej & [= <-]). unfold amount.
        rewrite pending_add_keyed by auto. unfold in_bin. rewrite Ej.
        rewrite (N.eqb_sym j). destruct (N.eqb_spec (N.of_nat i) j) as [<-|D].
        * destruct (keyed (N.of_nat i) pd); cbn [nadd XRa]; auto. symmetry. apply xadd_0_l.
        * symmetry. apply xadd_0_r.
  Qed.

  Lemma commit_scored b sc (score : particle -> xr) evs pd (s s' : scorable XRa) :
    b = sc_bins s -> (forall p x, In p evs -> sc p = Ok x -> x = score p) ->
    foldM (score_one b sc) evs [] = Ok pd -> sc_commit s pd = Ok s' -> scored score [evs] s s'.
  Proof.
    intros -> Hs F C.
    assert (O0 : ordered (A := XRa) []) by constructor.
    assert (O : ordered pd) by (eapply score_ordered; [exact O0|exact F]).
    pose proof (fun i => score_amount _ sc score evs i [] pd O0 Hs F) as Am.
    apply (commit_nth pd s s' O) in C as (C1 & C2 & C3 & C4 & C5 & C6). constructor; auto.
    - intros i x E. rewrite C5, E. cbn [map]. rewrite xsum_cons. change (xsum []) with (Fin 0).
      rewrite xadd_0_r. specialize (Am i). unfold amount at 2 in Am. cbn [keyed find option_map] in Am.
      rewrite xadd_0_l in Am. rewrite <- Am. unfold amount.
      destruct (keyed (N.of_nat i) pd); cbn; [reflexivity|now rewrite xadd_0_r].
    - intros i x E. rewrite C6, E. cbn [map]. rewrite xsum_cons. change (xsum []) with (Fin 0).
      rewrite xadd_0_r. specialize (Am i). unfold amount at 2 in Am. cbn [keyed find option_map] in Am.
      rewrite xadd_0_l in Am. rewrite <- Am. unfold amount.
      destruct (keyed (N.of_nat i) pd); [reflexivity|]. cbn [xmul]. rewrite Rmult_0_l.
      now rewrite xadd_0_r.
  Qed.

  Lemma scored_nil score (s : scorable XRa) : scored (G := G) score [] s s.
  Proof.
    constructor; auto; intros i x E; cbn [map]; change (xsum []) with (Fin 0);
      now rewrite xadd_0_r.
  Qed.

  Lemma scored_app score hs hs' (s s1 s2 : scorable XRa) :
    scored score hs s s1 -> scored score hs' s1 s2 -> scored score (hs ++ hs') s s2.
  Proof.
    intros [N B L L2 Hs Hq] [N' B' L' L2' Hs' Hq']. constructor; try congruence.
    - intros i x E. rewrite (Hs' i _ (Hs i x E)), map_app, xsum_app, xadd_assoc. now rewrite B.
    - intros i x E. rewrite (Hq' i _ (Hq i x E)), map_app, xsum_app, xadd_assoc. now rewrite B.
  Qed.

  Lemma Forall2_trans {X} (P Q R : X -> X -> Prop) :
    (forall a b c, P a b -> Q b c -> R a c) -> forall l1 l2, Forall2 P l1 l2 ->
    forall l3, Forall2 Q l2 l3 -> Forall2 R l1 l3.
  Proof.
    intros H l1 l2 F. induction F; intros l3 F3; inversion F3; subst; constructor; eauto.
  Qed.
  Lemma Forall2_diag {X} (P : X -> X -> Prop) : (forall a, P a a) -> forall l, Forall2 P l l.
  Proof. intros H. induction l; constructor; auto. Qed.

  Lemma scored_set_nil (ss : estimator_set XRa) : scored_set (G := G) [] ss ss.
  Proof.
    constructor; auto. apply Forall2_diag. intros e. constructor; auto using scored_nil.
    apply Forall2_diag. intros sn. constructor; auto using scored_nil.
  Qed.

  Lemma scored_set_app hs hs' (s s1 s2 : estimator_set XRa) :
    scored_set hs s s1 -> scored_set hs' s1 s2 -> scored_set (hs ++ hs') s s2.
  Proof.
    intros [W F] [W' F']. constructor; [congruence|].
    refine (Forall2_trans _ _ _ _ _ _ F _ F'). clear.
    intros a b c [S1 T1 U1] [S2 T2 U2]. constructor; [congruence| |].
    - apply scored_app with (es_scorable b); auto. now rewrite <- S1.
    - refine (Forall2_trans _ _ _ _ _ _ U1 _ U2). clear.
      intros a b c [S1 V1 T1] [S2 V2 T2]. constructor; try congruence.
      apply scored_app with (sn_scorable b); auto. now rewrite <- S1, <- V1.
  Qed.

  Lemma current_score_crossing surface p : current_score surface p = crossing surface p.
  Proof.
    unfold current_score, crossing, crossed. destruct (p_surface p) as [s|]; [|reflexivity].
    destruct (Nat.eqb s surface) eqn:E; cbn [andb]; destruct (p_event p); cbn; try reflexivity;
      rewrite E; reflexivity.
  Qed.

  Lemma sens_score_weighted sn p x : sens_score sn p = Ok x ->
    x = weighted_crossing (sn_surface sn) (sn_pert sn) p.
  Proof.
    unfold sens_score, get_indirect. intros H. apply bind_ok in H as (i & E & H). apply Ok_inj in H.
    subst x. unfold weighted_crossing, indirect_effect.
    rewrite current_score_crossing. destruct (find _ _) as [[pt v]|]; [|discriminate].
    injection E as <-. reflexivity.
  Qed.

  Lemma run_events_scored (ss ss' : estimator_set XRa) evs :
    run_events ss evs = Ok ss' -> scored_set [evs] ss ss'.
  Proof.
    intros H. apply bind_ok in H as (pxs & Ep & Hc). unfold set_proxy_score in Ep.
    apply (fold_pointwise (fun e px p => est_proxy_score e px p)) in Ep.
    2:{ unfold new_set_proxy. apply map_length. }
    unfold set_commit in Hc. apply bind_ok in Hc as (es & Ec & Hc). apply Ok_inj in Hc. subst ss'.
    constructor; [reflexivity|]. cbn [ss_estimators]. apply mapM_ok in Ec.
    unfold new_set_proxy in Ep. revert pxs es Ep Ec.
    induction (ss_estimators ss) as [|e l IH]; intros pxs es Ep Ec; cbn [map combine] in Ep.
    { inversion Ep; subst. cbn in Ec. inversion Ec; subst. constructor. }
    inversion Ep as [|? px ? pxs' E1 E2]; subst. cbn [combine] in Ec.
    inversion Ec as [|? e' ? es' C1 C2]; subst. constructor; eauto. clear IH E2 C2 Ep Ec.
    cbn [fst snd] in *. unfold new_proxy in E1. destruct px as [own subs].
    apply (fold_pair (G := G)
      (fun pd p => proxy_score (sc_bins (es_scorable e)) (current_score (es_surface e) p) pd p)
      (fun ps p => mapM (fun sp => bind (sens_score (fst sp) p) (fun score =>
         proxy_score (sc_bins (sn_scorable (fst sp))) score (snd sp) p)) (combine (es_sens e) ps)))
      in E1 as [E1 E2].
    unfold est_commit in C1. apply bind_ok in C1 as (own' & Co & C1).
    apply bind_ok in C1 as (sens & Cs & C1). apply Ok_inj in C1. subst e'. cbn [fst snd] in *.
    constructor; cbn [es_surface es_scorable es_sens]; auto.
    - apply (commit_scored (sc_bins (es_scorable e)) (fun p => Ok (current_score (es_surface e) p)))
        with (pd := own); auto.
      intros p x _ [= <-]. apply current_score_crossing.
    - apply (fold_pointwise (fun sn pd p => score_one (sc_bins (sn_scorable sn)) (sens_score sn) pd p))
        in E2; [|apply map_length].
      apply mapM_ok in Cs. revert subs sens E2 Cs.
      induction (es_sens e) as [|sn sl IHs]; intros subs sens E2 Cs; cbn [map combine] in E2.
      { inversion E2; subst. cbn in Cs. inversion Cs; subst. constructor. }
      inversion E2 as [|? pd ? subs' F1 F2]; subst. cbn [combine] in Cs.
      inversion Cs as [|? sn' ? sens' D1 D2]; subst. constructor; eauto.
      cbn [fst snd] in *. apply bind_ok in D1 as (s' & D1 & D3). apply Ok_inj in D3. subst sn'.
      constructor; cbn [sn_surface sn_pert sn_scorable]; auto.
      apply (commit_scored (sc_bins (sn_scorable sn)) (sens_score sn)) with (pd := pd); auto.
      intros p x _. apply sens_score_weighted.
  Qed.

  Lemma run_all_scored hs : forall ss ss' : estimator_set XRa,
    run_all ss hs = Ok ss' -> scored_set hs ss ss'.
  Proof.
    induction hs as [|h hs IH]; intros ss ss' H.
    - injection H as <-. apply scored_set_nil.
    - cbn [run_all foldM] in H. apply bind_ok in H as (s1 & E & H).
      change (h :: hs) with ([h] ++ hs). apply scored_set_app with s1; auto.
      now apply run_events_scored.
  Qed.
End Exact.
