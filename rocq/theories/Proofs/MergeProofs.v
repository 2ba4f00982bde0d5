(** Merging estimator sets (C53) and sensitivities (C54). *)
From Coq Require Import Bool String List Reals ZArith NArith Lia Lra Permutation.
From Verif Require Import Model.Num Model.Outcome Model.Rng Model.Xml Model.Std Model.Point
  Model.Surface Model.Types Model.Bins Model.Field Model.Tables Model.Particle
  Model.Multigroup Model.Continuous Model.Material Model.World Model.Perturbation
  Model.Estimator Model.Transport Model.Driver Spec.SumSpec Spec.TransportSpec Spec.HistorySpec
  Spec.EstimatorSpec Proofs.RealLib Proofs.OutcomeLib Proofs.BinsProofs Proofs.HistoryProofs
  Proofs.EstimatorProofs Proofs.TallyProofs.
Import ListNotations.
Local Open Scope string_scope.

Section Merge.
  Context {A : Arith}.

  Lemma add_onto_ok (acc : list (num A)) : forall xs r, add_onto acc xs = Ok r ->
    length r = length acc /\ forall i x y, nth_error acc i = Some x -> nth_error xs i = Some y ->
      nth_error r i = Some (nadd A x y).
  Proof.
    induction acc as [|a acc IH]; intros [|b xs] r H; cbn in H; try discriminate.
    - injection H as <-. split; auto. intros [|i]; discriminate.
    - injection H as <-. split; auto. intros [|i]; discriminate.
    - apply bind_ok in H as (r' & E & [= <-]). apply IH in E as [L N]. split; [cbn; lia|].
      intros [|i] x y; cbn; auto. congruence.
  Qed.
  Lemma add_onto_total (acc : list (num A)) : forall xs, length xs = length acc ->
    exists r, add_onto acc xs = Ok r.
  Proof.
    induction acc as [|a acc IH]; intros [|b xs] L; cbn in *; try discriminate; eauto.
    destruct (IH xs) as (r & E); [lia|]. rewrite E. cbn. eauto.
  Qed.

  Lemma sc_add_ok (s o r : scorable A) : sc_add s o = Ok r -> added s o r.
  Proof.
    unfold sc_add. intros H. apply bind_ok in H as (l & E1 & H). apply bind_ok in H as (q & E2 & H).
    apply Ok_inj in H. subst r. apply add_onto_ok in E1 as [L1 N1]. apply add_onto_ok in E2 as [L2 N2].
    constructor; auto.
  Qed.
  Lemma sc_add_total (s o : scorable A) : same_bins s o -> exists r, sc_add s o = Ok r.
  Proof.
    intros [L1 L2]. unfold sc_add. destruct (add_onto_total _ _ L1) as (l & ->).
    destruct (add_onto_total _ _ L2) as (q & ->). cbn. eauto.
  Qed.

  Lemma find_unique {V} (name : V -> string) (l : list V) n v :
    NoDup (map name l) -> In v l -> name v = n -> find (fun x => String.eqb n (name x)) l = Some v.
  Proof.
    induction l as [|a l IH]; cbn; intros Nd Hin En; [destruct Hin|].
    inversion Nd as [|? ? Na Nl]; subst. destruct (String.eqb_spec (name v) (name a)) as [E|D].
    - destruct Hin as [->|Hin]; auto. exfalso. apply Na. rewrite <- E. now apply in_map.
    - destruct Hin as [->|Hin]; [congruence|auto].
  Qed.
  Lemma find_name_none {V} (name : V -> string) (l : list V) n :
    find (fun x => String.eqb n (name x)) l = None <-> forall v, In v l -> name v <> n.
  Proof.
    split.
    - intros F v Hin E. apply (find_none _ _ F) in Hin. rewrite E, String.eqb_refl in Hin. discriminate.
    - intros H. destruct (find _ l) eqn:F; auto. apply find_some in F as [Hin E].
      apply String.eqb_eq in E. exfalso. apply (H v); auto.
  Qed.

  Definition add_sens (o : estimator A) (sn : sensitivity A) : outcome (sensitivity A) :=
    match find (fun so => String.eqb (sens_name sn) (sens_name so)) (es_sens o) with
    | None => UB
    | Some so => bind (sc_add (sn_scorable sn) (sn_scorable so))
                      (fun s => Ok (mkSens s (sn_surface sn) (sn_pert sn)))
    end.

  Lemma est_add_ok (e o r : estimator A) : NoDup (map sens_name (es_sens o)) ->
    est_add e o = Ok r -> added_estimator e o r.
  Proof.
    intros Nd H. unfold est_add in H. apply bind_ok in H as (s & E1 & H).
    apply bind_ok in H as (sens & E2 & H). apply Ok_inj in H. subst r.
    constructor; cbn [es_surface es_scorable es_sens]; auto using sc_add_ok.
    apply mapM_ok in E2. induction E2 as [|sn r l l' E F IH]; constructor; auto.
    intros so Hin En. change (add_sens o sn = Ok r) in E. unfold add_sens in E.
    rewrite (find_unique sens_name _ (sens_name sn) so) in E; auto.
    apply bind_ok in E as (s' & E & H). apply Ok_inj in H. subst r. apply sc_add_ok in E.
    constructor; auto.
  Qed.

  Lemma mapM_exists {V W} (f : V -> outcome W) (l : list V) :
    (forall v, In v l -> exists w, f v = Ok w) -> exists r, mapM f l = Ok r.
  Proof.
    induction l as [|v l IH]; intros H; cbn; [eauto|].
    destruct (H v (or_introl eq_refl)) as (w & ->). destruct IH as (r & ->).
    { intros; apply H; now right. } cbn. eauto.
  Qed.

  Lemma est_add_total (e o : estimator A) : matching e o -> exists r, est_add e o = Ok r.
  Proof.
    intros [B M]. unfold est_add. destruct (sc_add_total _ _ B) as (s & ->). cbn [bind].
    destruct (mapM_exists (add_sens o) (es_sens e)) as (r & E).
    { intros sn Hin. destruct (M sn Hin) as [(so & Hso & En) Ms]. unfold add_sens.
      destruct (find _ (es_sens o)) as [so'|] eqn:F.
      - apply find_some in F as [Hin' E]. apply String.eqb_eq in E.
        destruct (sc_add_total (sn_scorable sn) (sn_scorable so')) as (s' & ->); cbn; eauto.
      - apply (proj1 (find_name_none sens_name _ _)) with (v := so) in F; congruence. }
    match goal with |- context [mapM ?f (es_sens e)] =>
      change (mapM f (es_sens e)) with (mapM (add_sens o) (es_sens e)) end.
    rewrite E. cbn. eauto.
  Qed.

  Lemma mapM_throw {V W} (f : V -> outcome W) (l : list V) :
    (forall v, In v l -> (exists w, f v = Ok w) \/ exists m, f v = Throw m) ->
    (exists m, mapM f l = Throw m) <-> exists v m, In v l /\ f v = Throw m.
  Proof.
    induction l as [|v l IH]; intros H; cbn.
    - split; [intros (m & E); discriminate|intros (v & m & [] & _)].
    - destruct (H v (or_introl eq_refl)) as [(w & E)|(m & E)]; rewrite E; cbn.
      + assert (H' : forall v, In v l -> (exists w, f v = Ok w) \/ exists m, f v = Throw m)
          by (intros; apply H; now right).
        specialize (IH H'). split.
        * intros (m & Em). destruct (mapM f l) eqn:El; cbn in Em; try discriminate.
          destruct (proj1 IH) as (v' & m' & Hin & E'); [eauto|]. exists v', m'. auto.
        * intros (v' & m' & [<-|Hin] & E'); [congruence|].
          destruct (proj2 IH (ex_intro _ v' (ex_intro _ m' (conj Hin E')))) as (m & ->). cbn. eauto.
      + clear IH. split; intros _; [exists v, m; auto|exists m; reflexivity].
  Qed.
End Merge.

Lemma C53_merge_proof :
  forall (A : Arith) (a b r : estimator_set A),
  unique_names b -> set_add a b = Ok r ->
  ss_weight r = ss_weight a
  /\ Forall2 (fun e e' => exists o, In o (ss_estimators b) /\ es_name o = es_name e
                          /\ added_estimator e o e') (ss_estimators a) (ss_estimators r).
Proof.
  intros A a b r [Nd Ns] H. unfold set_add in H. apply bind_ok in H as (es & E & H).
  apply Ok_inj in H. subst r. split; [reflexivity|]. cbn [ss_estimators].
  apply mapM_ok in E. induction E as [|e e' l l' E F IH]; constructor; auto.
  destruct (find _ (ss_estimators b)) as [o|] eqn:Fo; [|discriminate].
  apply find_some in Fo as [Hin En]. apply String.eqb_eq in En. exists o. parts; auto.
  apply est_add_ok; auto.
Qed.

Lemma C53_error_proof :
  forall (A : Arith) (a b : estimator_set A),
  unique_names b ->
  (forall e o, In e (ss_estimators a) -> In o (ss_estimators b) -> es_name o = es_name e ->
     matching e o) ->
  ((exists msg, set_add a b = Throw msg)
     <-> exists e, In e (ss_estimators a) /\ forall o, In o (ss_estimators b) -> es_name o <> es_name e)
  /\ ((exists r, set_add a b = Ok r)
     <-> forall e, In e (ss_estimators a) -> exists o, In o (ss_estimators b) /\ es_name o = es_name e).
Proof.
  intros A a b [Nd Ns] M. unfold set_add.
  set (f := fun e => match find (fun o => String.eqb (es_name e) (es_name o)) (ss_estimators b) with
                     | None => Throw ("Estimator not found: " ++ es_name e)
                     | Some o => est_add e o end).
  change (fun e : estimator A => match _ with Some o => est_add e o | None => _ end) with f.
  assert (Cases : forall e, In e (ss_estimators a) ->
    (exists o w, In o (ss_estimators b) /\ es_name o = es_name e /\ f e = Ok w)
    \/ (exists m, f e = Throw m) /\ forall o, In o (ss_estimators b) -> es_name o <> es_name e).
  { intros e He. unfold f. destruct (find _ (ss_estimators b)) as [o|] eqn:F.
    - left. apply find_some in F as [Hin E]. apply String.eqb_eq in E.
      destruct (est_add_total e o) as (w & Ew); [apply M; auto|]. exists o, w. auto.
    - right. split; [eauto|]. intros o Ho E. apply (find_none _ _ F) in Ho. rewrite E, String.eqb_refl in Ho.
      discriminate. }
  assert (H : forall v, In v (ss_estimators a) -> (exists w, f v = Ok w) \/ exists m, f v = Throw m).
  { intros v Hv. destruct (Cases v Hv) as [(o & w & _ & _ & E)|[(m & E) _]]; eauto. }
  pose proof (mapM_throw f _ H) as T. split.
  - split.
    + intros (m & E). destruct (mapM f (ss_estimators a)) as [r|m'| | |] eqn:Em; try discriminate.
      destruct (proj1 T) as (e & m2 & He & Ee); [eauto|]. exists e. split; auto.
      destruct (Cases e He) as [(o & w & _ & _ & E')|[_ N]]; [congruence|auto].
    + intros (e & He & N). destruct (proj2 T) as (m & ->); [|cbn; eauto].
      destruct (Cases e He) as [(o & w & Ho & En & E')|[(m & Em) _]]; [|eauto].
      exfalso. exact (N o Ho En).
  - split.
    + intros (r & E) e He. apply bind_ok in E as (es & E & _).
      destruct (Cases e He) as [(o & w & Ho & En & _)|[(m & Em) _]]; [eauto|].
      destruct (proj2 T) as (m' & E'); [eauto|congruence].
    + intros All. destruct (mapM_exists f (ss_estimators a)) as (r & ->); [|cbn; eauto].
      intros e He. destruct (Cases e He) as [(o & w & _ & _ & E)|[_ N]]; [eauto|].
      destruct (All e He) as (o & Ho & En). exfalso. exact (N o Ho En).
Qed.

Lemma find_perm {V} (name : V -> string) (l l' : list V) n :
  NoDup (map name l) -> Permutation l l' ->
  find (fun x => String.eqb n (name x)) l = find (fun x => String.eqb n (name x)) l'.
Proof.
  intros Nd P. destruct (find _ l) as [v|] eqn:F.
  - apply find_some in F as [Hin E]. apply String.eqb_eq in E. symmetry.
    apply find_unique; [|now apply (Permutation_in _ P)|auto].
    eapply Permutation_NoDup; [|exact Nd]. now apply Permutation_map.
  - symmetry. apply find_name_none. intros v Hin. apply (proj1 (find_name_none name l n)); auto.
    apply (Permutation_in _ (Permutation_sym P)); auto.
Qed.

Lemma C53_order_proof :
  forall (A : Arith) (a b b' : estimator_set A),
  unique_names b -> Permutation (ss_estimators b) (ss_estimators b') ->
  set_add a b = set_add a b'.
Proof.
  intros A a b b' [Nd _] P. unfold set_add. f_equal.
  induction (ss_estimators a) as [|e l IH]; cbn [mapM]; auto.
  rewrite IH, (find_perm es_name _ _ (es_name e) Nd P). reflexivity.
Qed.

(** ** C54 *)
Lemma C54_created_proof :
  forall (A : Arith) (X : Ext A) (w : world A) pts n e sn,
  estimator_create X w pts n = Ok e -> In sn (es_sens e) ->
  sc_bins (sn_scorable sn) = sc_bins (es_scorable e) /\ sn_surface sn = es_surface e
  /\ length (sc_scores (sn_scorable sn)) = length (sc_scores (es_scorable e))
  /\ exists pt, In pt pts /\ pt_id pt = sn_pert sn
     /\ sc_name (sn_scorable sn) = es_name e ++ "::" ++ pt_name pt.
Proof.
  intros A X w pts n e sn H Hin. unfold estimator_create in H.
  destruct (String.eqb (n_name n) "current"); [|discriminate].
  apply bind_ok in H as ([est sens] & E & H). apply -> @noexcept_ok in E.
  apply bind_ok in E as (b & Eb & E). apply bind_ok in E as (l & Es & E). apply Ok_inj in E.
  injection E as <- <-. apply bind_ok in H as (s & Ef & H). apply Ok_inj in H. subst e.
  cbn [es_sens es_scorable es_surface] in *. apply in_map_iff in Hin as (s0 & <- & Hin).
  cbn [sn_scorable sn_surface sn_pert].
  apply mapM_ok in Es. clear - Es Hin. unfold es_name. cbn [es_scorable].
  induction Es as [|n0 s1 l l' E F IH]; [destruct Hin|]. destruct Hin as [->|Hin]; [|now apply IH].
  unfold sensitivity_create in E. apply bind_ok in E as (pt & Ep & E).
  destruct (String.eqb _ "current"); [|discriminate]. apply Ok_inj in E. subst s0.
  cbn [sn_scorable sn_pert new_scorable sc_bins sc_scores sc_name].
  parts; auto. exists pt. parts; auto. unfold find_perturbation in Ep.
  destruct (find _ pts) eqn:Fp; [|discriminate]. apply Ok_inj in Ep. subst p.
  now apply find_some in Fp.
Qed.

Lemma C54_scores_proof :
  forall (G : Rng XRa) (dr : @driver XRa) fuel (ss ss' : estimator_set XRa) h,
  run_history (G := G) dr fuel ss h = Ok ss' ->
  exists evs : list (particle XRa G), history dr h evs
    /\ Forall2 (fun e e' => Forall2 (fun sn sn' : sensitivity XRa => forall i x,
         nth_error (sc_scores (sn_scorable sn)) i = Some x ->
         nth_error (sc_scores (sn_scorable sn')) i
         = Some (xadd x (xsum (map (fun p => xmul (indirect_effect (sn_pert sn) p)
                                                  (crossing (sn_surface sn) p))
                                   (filter (in_bin (sc_bins (sn_scorable sn)) i) evs)))))
         (es_sens e) (es_sens e')) (ss_estimators ss) (ss_estimators ss').
Proof.
  intros G dr fuel ss ss' h H. apply run_history_shown in H as (evs & Sh & H).
  exists evs. split; [now apply shown_history|].
  apply run_events_scored in H as [_ F]. induction F as [|e e' l l' S F IH]; constructor; auto.
  destruct S as [_ _ S]. clear F IH. induction S as [|sn sn' k k' S F IH]; constructor; auto.
  intros i x E. destruct S as [_ _ [_ _ _ _ Hs _]]. rewrite (Hs i x E). cbn [map].
  rewrite xsum_cons. change (xsum []) with (Fin 0). now rewrite xadd_0_r.
Qed.

Lemma C53_lookup_proof :
  forall (A : Arith) (ss : estimator_set A) (name : string),
  (forall e, find_estimator ss name = Ok e ->
     exists before after, ss_estimators ss = (before ++ e :: after)%list /\ es_name e = name
       /\ forall e', In e' before -> es_name e' <> name)
  /\ ((exists e, In e (ss_estimators ss) /\ es_name e = name) ->
      exists e, find_estimator ss name = Ok e)
  /\ ((forall e, In e (ss_estimators ss) -> es_name e <> name) ->
      exists msg, find_estimator ss name = Throw msg).
Proof.
  intros A ss name. unfold find_estimator.
  assert (K : match find (fun e => String.eqb (es_name e) name) (ss_estimators ss) with
    | Some e => exists before after, ss_estimators ss = (before ++ e :: after)%list
        /\ es_name e = name /\ forall e', In e' before -> es_name e' <> name
    | None => forall e, In e (ss_estimators ss) -> es_name e <> name end).
  { induction (ss_estimators ss) as [|e l IH]; cbn [find]; [intros e []|].
    destruct (String.eqb_spec (es_name e) name) as [En|Ne].
    - exists [], l. split; [reflexivity|]. split; [exact En|intros e' []].
    - destruct (find _ l) as [x|].
      + destruct IH as (b & a & E & Ex & H). exists (e :: b), a. split; [now rewrite E|].
        split; [exact Ex|]. intros e' [<-|He]; auto.
      + intros e' [<-|He]; auto. }
  destruct (find _ _) as [x|]; (split; [|split]).
  - intros e H. injection H as <-. exact K.
  - eauto.
  - intros H. destruct K as (b & a & E & Ex & _). exfalso. apply (H x); auto. rewrite E.
    apply in_or_app. right. now left.
  - discriminate.
  - intros (e & He & En). now contradiction (K e He).
  - eauto.
Qed.

Lemma C52_asked_proof :
  forall (A : Arith) (s : scorable A) (index : N) (w : num A),
  match nth_error (sc_means s w) (N.to_nat index) with
  | Some mean => sc_get_score s index w = Ok mean
  | None => sc_get_score s index w = Terminate
  end.
Proof.
  intros A s index w. unfold sc_get_score, sc_means, vec_at. rewrite nth_error_map.
  destruct (nth_error (sc_scores s) (N.to_nat index)) as [x|] eqn:E.
  - assert (N.to_nat index < length (sc_scores s))%nat by (apply nth_error_Some; congruence).
    destruct (N.ltb_spec index (N.of_nat (length (sc_scores s)))); [|lia].
    reflexivity.
  - apply nth_error_None in E. destruct (N.ltb_spec index (N.of_nat (length (sc_scores s)))); [lia|].
    reflexivity.
Qed.

Lemma C54_requested_proof :
  forall (A : Arith) (X : Ext A) (w : world A) pts n e,
  estimator_create X w pts n = Ok e ->
  Forall2 (fun request sn => exists before pt after, pts = (before ++ pt :: after)%list
             /\ pt_name pt = as_string (n_attr request "name")
             /\ (forall pt', In pt' before -> pt_name pt' <> pt_name pt)
             /\ sn_pert sn = pt_id pt
             /\ sc_name (sn_scorable sn)
                = as_string (n_attr n "name") ++ "::" ++ as_string (n_attr request "name"))
    (n_children (n_child n "sensitivities")) (es_sens e).
Proof.
  intros A X w pts n e H. unfold estimator_create in H.
  destruct (String.eqb (n_name n) "current"); [|discriminate].
  apply bind_ok in H as ([est sens] & E & H). apply -> @noexcept_ok in E.
  apply bind_ok in E as (b & Eb & E). apply bind_ok in E as (l & Es & E). apply Ok_inj in E.
  injection E as <- <-. apply bind_ok in H as (s & Ef & H). apply Ok_inj in H. subst e.
  cbn [es_sens]. apply mapM_ok in Es. clear - Es.
  induction Es as [|n0 s1 l l' E F IH]; cbn [map]; constructor; auto.
  unfold sensitivity_create in E. apply bind_ok in E as (pt & Ep & E).
  destruct (String.eqb _ "current"); [|discriminate]. apply Ok_inj in E. subst s1.
  cbn [sn_scorable sn_pert new_scorable sc_name]. unfold find_perturbation in Ep.
  destruct (find _ pts) as [p|] eqn:Fp; [|discriminate]. apply Ok_inj in Ep. subst p.
  assert (K : exists before after, pts = (before ++ pt :: after)%list
    /\ pt_name pt = as_string (n_attr n0 "name")
    /\ forall pt', In pt' before -> pt_name pt' <> pt_name pt).
  { clear - Fp. induction pts as [|q pts IH]; [discriminate|]. cbn [find] in Fp.
    destruct (String.eqb_spec (pt_name q) (as_string (n_attr n0 "name"))) as [Eq|Ne].
    - injection Fp as ->. exists [], pts. split; [reflexivity|]. split; [exact Eq|intros ? []].
    - destruct (IH Fp) as (b & a & -> & En & H). exists (q :: b), a. split; [reflexivity|].
      split; [exact En|]. intros pt' [<-|Hin]; auto. congruence. }
  destruct K as (b' & a' & Ep & En & H). exists b', pt, a'. parts; auto. now rewrite En.
Qed.
