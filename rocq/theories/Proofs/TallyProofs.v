(** Tallies of histories: C50-C54. *)
From Coq Require Import Bool String List Reals ZArith NArith Lia Lra Permutation SpecFloat.
From Verif Require Import Model.Num Model.Outcome Model.Rng Model.Xml Model.Std Model.Point
  Model.Surface Model.Types Model.Bins Model.Field Model.Tables Model.Particle
  Model.Multigroup Model.Continuous Model.Material Model.World Model.Perturbation
  Model.Estimator Model.Transport Model.Driver Spec.SumSpec Spec.TransportSpec Spec.HistorySpec
  Spec.EstimatorSpec Proofs.RealLib Proofs.OutcomeLib Proofs.BinsProofs Proofs.HistoryProofs
  Proofs.EstimatorProofs.
Import ListNotations.
Local Open Scope string_scope.

(** A history is a run over its events. *)
Lemma run_history_shown {A : Arith} {G : Rng A} (dr : @driver A) fuel (ss ss' : estimator_set A) h :
  run_history (G := G) dr fuel ss h = Ok ss' ->
  exists evs : list (particle A G), shown dr h evs /\ run_events ss evs = Ok ss'.
Proof.
  intros H. unfold run_history in H. apply bind_ok in H as (px & E & H).
  apply bank_keep in E as (evs & F & K). exists evs. split.
  - exists fuel. apply (K []).
  - unfold run_events. rewrite F. exact H.
Qed.

(** ** C50 *)
Lemma crossing_count {G : Rng XRa} b surface i (evs : list (particle XRa G)) :
  history_total b (crossing surface) i evs
  = Fin (INR (length (filter (fun p => in_bin b i p && crossed surface p) evs))).
Proof.
  induction evs as [|p evs IH]; [reflexivity|]. rewrite history_total_cons, IH. cbn [filter].
  unfold crossing. destruct (in_bin b i p), (crossed surface p); cbn [andb]; try apply xadd_0_l.
  cbn [length]. rewrite S_INR. cbn. f_equal. lra.
Qed.

Lemma C50_crossings_proof :
  forall (G : Rng XRa) (dr : @driver XRa) fuel (ss ss' : estimator_set XRa) h,
  run_history (G := G) dr fuel ss h = Ok ss' ->
  exists evs : list (particle XRa G), history dr h evs
    /\ Forall2 (fun e e' : estimator XRa => forall i x, nth_error (sc_scores (es_scorable e)) i = Some x ->
         let n := length (filter (fun p => in_bin (sc_bins (es_scorable e)) i p
                                           && crossed (es_surface e) p) evs) in
         nth_error (sc_scores (es_scorable e')) i = Some (xadd x (Fin (INR n))))
       (ss_estimators ss) (ss_estimators ss').
Proof.
  intros G dr fuel ss ss' h H. apply run_history_shown in H as (evs & Sh & H).
  exists evs. split; [now apply shown_history|].
  apply run_events_scored in H as [_ F]. induction F as [|e e' l l' S F IH]; constructor; auto.
  intros i x E n. destruct S as [_ [_ _ _ _ Hs _] _]. rewrite (Hs i x E). cbn [map].
  rewrite xsum_cons. change (xsum []) with (Fin 0). rewrite xadd_0_r, crossing_count. reflexivity.
Qed.

Lemma C50_created_proof :
  forall (A : Arith) (X : Ext A) (w : world A) pts n e,
  estimator_create X w pts n = Ok e ->
  es_name e = as_string (n_attr n "name")
  /\ (exists before s after, w_surfaces w = (before ++ s :: after)%list
      /\ su_name s = as_string (n_attr n "surface")
      /\ (forall s', In s' before -> su_name s' <> su_name s)
      /\ es_surface e = su_id s)
  /\ pbins_create X (n_child n "bins") = Ok (sc_bins (es_scorable e))
  /\ sc_scores (es_scorable e) = repeat (nofZ A 0) (N.to_nat (pbins_size (sc_bins (es_scorable e))))
  /\ sc_squares (es_scorable e) = repeat (nofZ A 0) (N.to_nat (pbins_size (sc_bins (es_scorable e)))).
Proof.
  intros A X w pts n e H. unfold estimator_create in H.
  destruct (String.eqb (n_name n) "current"); [|discriminate].
  apply bind_ok in H as ([est sens] & E & H). apply -> @noexcept_ok in E.
  apply bind_ok in E as (b & Eb & E). apply bind_ok in E as (sn & Es & E). apply Ok_inj in E.
  injection E as <- <-. apply bind_ok in H as (s & Ef & H). apply Ok_inj in H. subst e.
  unfold es_name. cbn [es_scorable new_scorable sc_name es_surface sc_bins sc_scores sc_squares].
  parts; auto. unfold find_surface in Ef.
  destruct (find _ (w_surfaces w)) as [s0|] eqn:F; [|discriminate]. apply Ok_inj in Ef. subst s0.
  assert (K : forall l : list (surf A), find (fun s => String.eqb (su_name s) (as_string (n_attr n "surface"))) l = Some s ->
    exists before after, l = (before ++ s :: after)%list /\ su_name s = as_string (n_attr n "surface")
      /\ forall s', In s' before -> su_name s' <> su_name s).
  { induction l as [|a l IH]; cbn; [discriminate|].
    destruct (String.eqb_spec (su_name a) (as_string (n_attr n "surface"))) as [Ea|Na].
    - intros [= ->]. exists [], l. parts; auto.
    - intros Fl. destruct (IH Fl) as (bf & af & -> & Es' & Hb). exists (a :: bf), af. parts; auto.
      intros s' [<-|Hin]; auto. congruence. }
  destruct (K _ F) as (bf & af & E1 & E2 & E3). exists bf, s, af. auto.
Qed.

(** ** C51 *)
Lemma C51_sums_proof :
  forall (G : Rng XRa) (hs : list (list (particle XRa G))) (ss ss' : estimator_set XRa),
  run_all ss hs = Ok ss' -> scored_set hs ss ss'.
Proof. intros G hs ss ss'. apply run_all_scored. Qed.

Lemma C51_histories_proof :
  forall (G : Rng XRa) (dr : @driver XRa) fuel (ids : list N) (ss ss' : estimator_set XRa),
  foldM (run_history (G := G) dr fuel) ids ss = Ok ss' ->
  exists hs : list (list (particle XRa G)), Forall2 (history dr) ids hs /\ scored_set hs ss ss'.
Proof.
  intros G dr fuel ids. induction ids as [|h ids IH]; intros ss ss' H; cbn [foldM] in H.
  - injection H as <-. exists []. split; [constructor|apply scored_set_nil].
  - apply bind_ok in H as (s1 & E & H). apply IH in H as (hs & Fh & Sc).
    apply run_history_shown in E as (evs & Sh & E). exists (evs :: hs). split.
    + constructor; auto. now apply shown_history.
    + change (evs :: hs) with ([evs] ++ hs)%list. apply scored_set_app with s1; auto.
      now apply run_events_scored.
Qed.

(** Whatever the arithmetic, a bin in which no event of the history scores keeps its
    values. *)
Lemma C51_untouched_proof :
  forall (A : Arith) (G : Rng A) (evs : list (particle A G)) (ss ss' : estimator_set A),
  neqb A (nofZ A 0) (nofZ A 0) = true ->
  run_events ss evs = Ok ss' ->
  Forall2 (fun e e' : estimator A => forall i,
    (forall p, In p evs -> in_bin (sc_bins (es_scorable e)) i p = true ->
       crossed (es_surface e) p = false) ->
    nth_error (sc_scores (es_scorable e')) i = nth_error (sc_scores (es_scorable e)) i
    /\ nth_error (sc_squares (es_scorable e')) i = nth_error (sc_squares (es_scorable e)) i)
    (ss_estimators ss) (ss_estimators ss').
Proof.
  intros A G evs ss ss' Z H. apply bind_ok in H as (pxs & Ep & Hc). unfold set_proxy_score in Ep.
  apply (fold_pointwise (fun e px p => est_proxy_score e px p)) in Ep.
  2:{ unfold new_set_proxy. apply map_length. }
  unfold set_commit in Hc. apply bind_ok in Hc as (es & Ec & Hc). apply Ok_inj in Hc. subst ss'.
  cbn [ss_estimators]. apply mapM_ok in Ec.
  unfold new_set_proxy in Ep. revert pxs es Ep Ec.
  induction (ss_estimators ss) as [|e l IH]; intros pxs es Ep Ec; cbn [map combine] in Ep.
  { inversion Ep; subst. cbn in Ec. inversion Ec; subst. constructor. }
  inversion Ep as [|? px ? pxs' E1 E2]; subst. cbn [combine] in Ec.
  inversion Ec as [|? e' ? es' C1 C2]; subst. constructor; eauto. clear IH E2 C2 Ep Ec.
  intros i Hi. cbn [fst snd] in *. unfold new_proxy in E1. destruct px as [own subs].
  apply (fold_pair (G := G)
    (fun pd p => proxy_score (sc_bins (es_scorable e)) (current_score (es_surface e) p) pd p)
    (fun ps p => mapM (fun sp => bind (sens_score (fst sp) p) (fun score =>
       proxy_score (sc_bins (sn_scorable (fst sp))) score (snd sp) p)) (combine (es_sens e) ps)))
    in E1 as [E1 _].
  unfold est_commit in C1. apply bind_ok in C1 as (own' & Co & C1).
  apply bind_ok in C1 as (sens & Cs & C1). apply Ok_inj in C1. subst e'. cbn [fst snd es_scorable] in *.
  change (foldM (score_one (sc_bins (es_scorable e)) (fun p => Ok (current_score (es_surface e) p))) evs []
          = Ok own) in E1.
  assert (O0 : ordered (A := A) []) by constructor.
  assert (O : ordered own) by (eapply score_ordered; [exact O0|exact E1]).
  apply (score_untouched _ _ evs i) in E1; auto.
  - apply (commit_nth own _ _ O) in Co as (_ & _ & _ & _ & C5 & C6). rewrite C5, C6, E1. auto.
  - intros p Hp Hb x [= <-]. specialize (Hi p Hp Hb). unfold current_score, crossed in *.
    destruct (p_surface p) as [s|]; auto.
    destruct (Nat.eqb s (es_surface e)), (p_event p); cbn in *; auto; discriminate.
Qed.

(** ** C52 *)
Local Open Scope R_scope.
Lemma Rsum_sq_dev (xs : list R) c :
  Rsum (map (fun x => (x - c) * (x - c)) xs)
  = Rsum (map (fun x => x * x) xs) - 2 * c * Rsum xs + INR (length xs) * (c * c).
Proof.
  induction xs as [|x xs IH]; [cbn; ring|]. cbn [map Rsum]. rewrite IH.
  change (length (x :: xs)) with (S (length xs)). rewrite S_INR. ring.
Qed.
Lemma Rsum_sq_nonneg (xs : list R) c : 0 <= Rsum (map (fun x => (x - c) * (x - c)) xs).
Proof. induction xs as [|x xs IH]; cbn; [lra|]. pose proof (Rle_0_sqr (x - c)). unfold Rsqr in *. lra. Qed.

(** The radicand of the printed deviation. *)
Lemma radicand (xs : list R) : xs <> [] ->
  Rsum (map (fun x => x * x) xs) - Rsum xs * Rsum xs / INR (length xs)
  = Rsum (map (fun x => (x - mean xs) * (x - mean xs)) xs).
Proof.
  intros Ne. rewrite Rsum_sq_dev. unfold mean.
  assert (INR (length xs) <> 0) by (apply not_0_INR; destruct xs; [congruence|discriminate]).
  field; auto.
Qed.

Lemma C52_radicand_proof :
  forall xs : list R, xs <> [] ->
  0 <= Rsum (map (fun x => x * x) xs) - Rsum xs * Rsum xs / INR (length xs).
Proof. intros xs Ne. rewrite radicand by auto. apply Rsum_sq_nonneg. Qed.

Lemma scored_printed {G : Rng XRa} (score : particle XRa G -> xr) hs s s' i xs :
  scored score hs s s' -> blank s -> hs <> [] -> (i < length (sc_scores s))%nat ->
  map (history_total (sc_bins s) score i) hs = map Fin xs ->
  printed s' (Fin (INR (length hs))) i xs.
Proof.
  intros [Sn Sb Sl Sl2 Hs Hq] (n & B1 & B2) Ne Hi Ex.
  change (nofZ XRa 0) with (Fin 0 : num XRa) in B1, B2.
  assert (Nr : nth_error (repeat (Fin 0 : num XRa) n) i = Some (Fin 0)).
  { rewrite B1, repeat_length in Hi. clear - Hi. revert i Hi.
    induction n; intros [|i] Hi; cbn; auto; try lia. apply IHn. lia. }
  assert (Lx : length hs = length xs).
  { apply (f_equal (@length _)) in Ex. now rewrite !map_length in Ex. }
  assert (Nx : xs <> []) by (destruct xs; [destruct hs; [congruence|discriminate]|discriminate]).
  rewrite <- B1 in Nr. pose proof (Hs i _ Nr) as E1. rewrite B1, <- B2 in Nr.
  pose proof (Hq i _ Nr) as E2. rewrite Ex, xsum_fin in E1.
  assert (Es : map (fun h => xmul (history_total (sc_bins s) score i h)
                               (history_total (sc_bins s) score i h)) hs
               = map Fin (map (fun x => x * x) xs)).
  { rewrite <- (map_map (history_total (sc_bins s) score i) (fun v => xmul v v)), Ex, !map_map.
    apply map_ext. intros; reflexivity. }
  rewrite Es, xsum_fin in E2. cbn [xadd] in E1, E2. rewrite Rplus_0_l in E1, E2.
  rewrite Lx. assert (Pn : 0 < INR (length xs)) by (apply lt_0_INR; destruct xs; [congruence|cbn; lia]).
  unfold printed. split.
  - unfold sc_means. rewrite nth_error_map, E1. cbn [option_map]. f_equal.
    cbn [ndiv XRa]. unfold mean. apply xdiv_fin. lra.
  - unfold sc_stddevs. rewrite nth_error_map.
    assert (Ec : nth_error (combine (sc_scores s') (sc_squares s')) i
                 = Some (Fin (Rsum xs), Fin (Rsum (map (fun x => x * x) xs)))).
    { revert E1 E2. generalize (sc_scores s') (sc_squares s'). clear. revert i.
      intros i l. revert i. induction l as [|a l IH]; intros [|i] [|b m] E1 E2; cbn in *;
        try discriminate; try congruence; auto. }
    rewrite Ec. cbn [option_map fst snd]. f_equal. cbn [nsqrt nsub nmul ndiv XRa xmul].
    rewrite xdiv_fin by lra.
    change (xsub (Fin (Rsum (map (fun x => x * x) xs))) (Fin (Rsum xs * Rsum xs / INR (length xs))))
      with (Fin (Rsum (map (fun x => x * x) xs) - Rsum xs * Rsum xs / INR (length xs))).
    rewrite radicand by auto. pose proof (Rsum_sq_nonneg xs (mean xs)) as Pos.
    rewrite xsqrt_fin by auto. rewrite xdiv_fin by lra. f_equal. unfold variance.
    set (D := Rsum _) in *. rewrite sqrt_div by auto.
    assert (Hq2 : sqrt (INR (length xs)) * sqrt (INR (length xs)) = INR (length xs))
      by (apply sqrt_sqrt; lra).
    assert (0 < sqrt (INR (length xs))) by now apply sqrt_lt_R0.
    rewrite <- Hq2 at 1. field. lra.
Qed.

Lemma C52_statistics_proof :
  forall (G : Rng XRa) (hs : list (list (particle XRa G))) (ss ss' : estimator_set XRa),
  blank_set ss -> hs <> [] -> ss_weight ss = Fin (INR (length hs)) ->
  run_all ss hs = Ok ss' ->
  Forall2 (fun e e' : estimator XRa =>
    (* estimators: the totals are numbers of crossings *)
    (forall i, (i < length (sc_scores (es_scorable e)))%nat ->
       printed (es_scorable e') (ss_weight ss') i
         (map (fun h => INR (length (filter (fun p => in_bin (sc_bins (es_scorable e)) i p
                                                     && crossed (es_surface e) p) h))) hs))
    (* sensitivities: the totals are sums of real indirect effects *)
    /\ Forall2 (fun sn sn' : sensitivity XRa => forall i xs, (i < length (sc_scores (sn_scorable sn)))%nat ->
         map (history_total (sc_bins (sn_scorable sn))
                (weighted_crossing (sn_surface sn) (sn_pert sn)) i) hs = map Fin xs ->
         printed (sn_scorable sn') (ss_weight ss') i xs) (es_sens e) (es_sens e'))
    (ss_estimators ss) (ss_estimators ss').
Proof.
  intros G hs ss ss' Bl Ne Ew H. apply run_all_scored in H as [W F]. rewrite W, Ew.
  assert (Bl' : forall e, In e (ss_estimators ss) -> blank (es_scorable e) /\
    forall sn, In sn (es_sens e) -> blank (sn_scorable sn)) by exact Bl.
  clear Bl. induction F as [|e e' l l' S F IH]; constructor.
  - destruct (Bl' e (or_introl eq_refl)) as [B Bs]. destruct S as [_ Sc Sn]. split.
    + intros i Hi. apply (scored_printed _ _ _ _ i _ Sc); auto.
      rewrite map_map. apply map_ext. intros h. apply crossing_count.
    + clear - Sn Bs Ne. induction Sn as [|sn sn' k k' S F IH]; constructor.
      * intros i xs Hi Ex. destruct S as [_ _ Sc]. apply (scored_printed _ _ _ _ i _ Sc); auto.
        apply Bs. now left.
      * apply IH. intros; apply Bs. now right.
  - apply IH. intros; apply Bl'. now right.
Qed.

Lemma C52_binary64_refuted_proof :
  forall L, exists (b : particle_bins (F64 L)) (x : num (F64 L)),
  (* one bin, three histories scoring one tenth each *)
  x = ndec (F64 L) 1 (-1)
  /\ exists s, foldM (fun s pd => sc_commit s pd) [[(0%N, x)]; [(0%N, x)]; [(0%N, x)]]
                     (new_scorable "" b) = Ok s
     /\ sc_stddevs s (nofZ (F64 L) 3) = [S754_nan].
Proof.
  intros L. exists (make_pbins None NoBins NoBins), (ndec (F64 L) 1 (-1)). split; [reflexivity|].
  exists (mkScorable (A := F64 L) "" (make_pbins None NoBins NoBins)
            [S754_finite false 5404319552844596 (-54)]
            [S754_finite false 8646911284551354 (-58)]).
  split.
  - match goal with |- _ = ?r => vm_cast_no_check (eq_refl r) end.
  - match goal with |- _ = ?r => vm_cast_no_check (eq_refl r) end.
Qed.
