(** The output file: C76 and C77. *)
From Coq Require Import Bool String Ascii List Arith NArith ZArith Lia Reals DecimalString.
From Coq Require Decimal.
From Verif Require Import Model.Num Model.Outcome Model.Rng Model.Xml Model.Std Model.Point
  Model.Surface Model.Types Model.Bins Model.Field Model.Tables Model.Particle
  Model.Multigroup Model.Thermal Model.Continuous Model.Material Model.World Model.Perturbation
  Model.Estimator Model.Transport Model.Driver Model.Schema Model.Program
  Spec.WorldSpec Spec.SchemaSpec Spec.EstimatorSpec Spec.SolverSpec Spec.ProgramSpec
  Proofs.OutcomeLib Proofs.KEigenProofs Proofs.SchemaLib Proofs.WorldProofs Proofs.ResultProofs Proofs.SchemaProofs.
Import ListNotations.
Local Open Scope string_scope.
Local Open Scope outcome_scope.

(** ** Strings *)
Lemma app_assoc_s a b c : (a ++ b) ++ c = a ++ (b ++ c).
Proof. induction a; cbn; congruence. Qed.
Lemma app_nil_s a : a ++ "" = a.
Proof. induction a; cbn; congruence. Qed.

(** Lines, each with its line feed. *)
Definition unlines (l : list string) : string := String.concat "" (map (fun s => s ++ newline) l).
Lemma concat_cons s l : String.concat "" (s :: l) = s ++ String.concat "" l.
Proof. destruct l; [|reflexivity]. cbn. now rewrite app_nil_s. Qed.
Lemma unlines_cons s l : unlines (s :: l) = s ++ newline ++ unlines l.
Proof. unfold unlines. cbn [map]. now rewrite concat_cons, app_assoc_s. Qed.
Lemma unlines_app l l' : unlines (l ++ l') = unlines l ++ unlines l'.
Proof.
  induction l as [|s l IH]; [reflexivity|]. cbn [app]. rewrite !unlines_cons, IH.
  now rewrite !app_assoc_s.
Qed.

Lemma lines_some s : forall cur, lines_from cur s <> [].
Proof.
  induction s as [|c s IH]; intros cur; cbn; [discriminate|].
  destruct (Ascii.eqb _ _); [discriminate|apply IH].
Qed.
Lemma lines_one a : forall cur s, lines_from cur a = [cur ++ a] ->
  lines_from cur (a ++ newline ++ s) = (cur ++ a) :: lines s.
Proof.
  induction a as [|c a IH]; intros cur s H.
  - cbn. now rewrite app_nil_s.
  - cbn [lines_from append] in *. destruct (Ascii.eqb c (ascii_of_nat 10)).
    + exfalso. injection H as _ H. now apply lines_some in H.
    + replace (cur ++ String c a) with ((cur ++ String c "") ++ a) in * by (now rewrite app_assoc_s).
      now apply IH.
Qed.
Lemma lines_unlines l : (forall s, In s l -> one_line s) -> lines (unlines l) = (l ++ [""])%list.
Proof.
  induction l as [|s l IH]; intros H; [reflexivity|]. rewrite unlines_cons. unfold lines at 1.
  rewrite lines_one; [|apply (H s); now left]. rewrite IH; [reflexivity|]. intros; apply H; now right.
Qed.

(** No line feed. *)
Lemma lines_plain s : forall cur, without (ascii_of_nat 10) s -> lines_from cur s = [cur ++ s].
Proof.
  induction s as [|c s IH]; intros cur H; cbn [lines_from].
  - now rewrite app_nil_s.
  - destruct (Ascii.eqb_spec c (ascii_of_nat 10)) as [->|_].
    + exfalso. apply H. now left.
    + rewrite IH; [now rewrite app_assoc_s|]. intros K. apply H. now right.
Qed.
Lemma plain_lines s : forall cur, lines_from cur s = [cur ++ s] -> without (ascii_of_nat 10) s.
Proof.
  induction s as [|c s IH]; intros cur H K; [destruct K|]. cbn [lines_from] in H.
  destruct (Ascii.eqb_spec c (ascii_of_nat 10)) as [->|N].
  - injection H as _ H. now apply lines_some in H.
  - destruct K as [K|K]; [congruence|].
    apply (IH (cur ++ String c "")); auto. rewrite H. now rewrite app_assoc_s.
Qed.
Lemma one_line_iff s : one_line s <-> without (ascii_of_nat 10) s.
Proof. split; [apply (plain_lines s "")|apply (lines_plain s "")]. Qed.
Lemma ascii_app a b : list_ascii_of_string (a ++ b) = (list_ascii_of_string a ++ list_ascii_of_string b)%list.
Proof. induction a; cbn; congruence. Qed.
Lemma one_line_app a b : one_line a -> one_line b -> one_line (a ++ b).
Proof.
  rewrite !one_line_iff. unfold without. rewrite ascii_app, in_app_iff. tauto.
Qed.

Lemma fold_text {V} (f : V -> string) l : forall acc,
  fold_left (fun acc x => acc ++ f x) l acc = acc ++ String.concat "" (map f l).
Proof.
  induction l as [|x l IH]; intros acc; cbn [fold_left map].
  - cbn. now rewrite app_nil_s.
  - now rewrite IH, concat_cons, app_assoc_s.
Qed.
Lemma concat_lines {V} (f : V -> string) (g : V -> list string) l :
  (forall x, In x l -> f x = unlines (g x)) ->
  String.concat "" (map f l) = unlines (flat_map g l).
Proof.
  induction l as [|x l IH]; intros H; [reflexivity|]. cbn [map flat_map].
  rewrite concat_cons, unlines_app, H by now left. f_equal. apply IH. intros; apply H; now right.
Qed.

Lemma show_plain n : one_line (show_N n).
Proof.
  apply one_line_iff. unfold show_N, without.
  assert (K : forall u, ~ In (ascii_of_nat 10) (list_ascii_of_string (NilEmpty.string_of_uint u))).
  { induction u; cbn; try (intros [E|E]; [discriminate|now apply IHu]). intros []. }
  unfold NilZero.string_of_uint. destruct (N.to_uint n) eqn:E; try (apply K).
  cbn. intros [H|[]]. discriminate.
Qed.

Section Text.
  Context {A : Arith} (sci : num A -> string).

  Lemma comma_row l : comma_list sci l = row sci l.
  Proof. unfold comma_list. now rewrite (fold_text (fun x => sci x ++ ", ")). Qed.
  Lemma bins_rows b : bins_text sci b = bins_row sci b.
  Proof. destruct b; [reflexivity|apply comma_row..]. Qed.
  Lemma repeated_underline n : repeated n "=" = underline "=" n.
  Proof. induction n as [|n IH]; [reflexivity|]. cbn. unfold underline in *. cbn. now rewrite IH. Qed.
  Lemma title_lines name : title_text name = unlines (title name).
  Proof.
    unfold title_text, title. rewrite !unlines_cons, repeated_underline. cbn [unlines map String.concat].
    now rewrite app_nil_s.
  Qed.
  Lemma pbins_lines b : pbins_text sci b = unlines (bins_lines sci b).
  Proof.
    unfold pbins_text, bins_lines. rewrite !unlines_cons, !bins_rows.
    cbn [unlines map String.concat]. now rewrite !app_nil_s.
  Qed.
  Lemma stddevs_nth (s : scorable A) w : length (sc_scores s) = length (sc_squares s) ->
    sc_stddevs s w
    = map (fun i => let x := nth i (sc_scores s) (nofZ A 0%Z) in
                    let x2 := nth i (sc_squares s) (nofZ A 0%Z) in
                    ndiv A (nsqrt A (nsub A x2 (ndiv A (nmul A x x) w))) w)
          (seq 0 (length (sc_scores s))).
  Proof.
    unfold sc_stddevs. generalize (sc_squares s) as l'. induction (sc_scores s) as [|x l IH];
      intros [|y l'] E; try discriminate; [reflexivity|]. cbn [combine map length seq nth fst snd].
    f_equal. rewrite (IH l') by (now injection E). rewrite <- seq_shift, map_map. reflexivity.
  Qed.
  Lemma scores_lines (s : scorable A) w : length (sc_scores s) = length (sc_squares s) ->
    scores_text sci s w = unlines (score_lines sci s w).
  Proof.
    intros E. unfold scores_text, score_lines. rewrite !comma_row, (stddevs_nth s w E).
    rewrite !unlines_cons. cbn [unlines map String.concat]. now rewrite !app_nil_s.
  Qed.
  Lemma estimator_lines_text (e : estimator A) w :
    length (sc_scores (es_scorable e)) = length (sc_squares (es_scorable e)) ->
    (forall sn, In sn (es_sens e) ->
       length (sc_scores (sn_scorable sn)) = length (sc_squares (sn_scorable sn))) ->
    newline ++ estimator_text sci e w ++ newline = unlines (estimator_lines sci w e).
  Proof.
    intros E F. unfold estimator_text, estimator_lines.
    rewrite (fold_text (fun sn => sensitivity_text sci sn w)).
    rewrite (concat_lines _ (sensitivity_lines sci w)).
    - rewrite title_lines, pbins_lines, (scores_lines _ _ E).
      rewrite !unlines_app, !app_assoc_s. reflexivity.
    - intros sn Hn. unfold sensitivity_text, sensitivity_lines.
      rewrite title_lines, (scores_lines _ _ (F sn Hn)), !unlines_app. reflexivity.
  Qed.
  Lemma set_lines (r : estimator_set A) : paired r ->
    set_text sci r = unlines (flat_map (estimator_lines sci (ss_weight r)) (ss_estimators r)).
  Proof.
    intros P. unfold set_text.
    rewrite (fold_text (fun e => newline ++ estimator_text sci e (ss_weight r) ++ newline)).
    cbn [append]. apply concat_lines. intros e He. apply estimator_lines_text; now apply P.
  Qed.

  Hypothesis Plain : forall x, one_line (sci x).
  Lemma row_plain l : one_line (row sci l).
  Proof.
    unfold row. induction l as [|x l IH]; [reflexivity|]. cbn [map]. rewrite concat_cons.
    apply one_line_app; auto. apply one_line_app; [apply Plain|reflexivity].
  Qed.
  Lemma bins_row_plain b : one_line (bins_row sci b).
  Proof. destruct b; try apply row_plain. reflexivity. Qed.
  Lemma underline_plain n : one_line (underline "=" n).
  Proof.
    apply one_line_iff. unfold without, underline. rewrite list_ascii_of_string_of_list_ascii.
    intros H. apply repeat_spec in H. discriminate.
  Qed.
  Lemma title_plain name s : one_line name -> In s (title name) -> one_line s.
  Proof. intros H [<-|[<-|[<-|[]]]]; auto using underline_plain. reflexivity. Qed.
  Lemma scores_plain (sc : scorable A) w s : In s (score_lines sci sc w) -> one_line s.
  Proof.
    unfold score_lines. cbn [In]. intros H.
    repeat destruct H as [<-|H]; auto using row_plain; try reflexivity. destruct H.
  Qed.
  Lemma report_plain batch (r : estimator_set A) s : one_line_names r ->
    In s (report sci batch r) -> one_line s.
  Proof.
    intros N [<-|H]; [apply show_plain|]. apply in_flat_map in H as (e & He & H).
    destruct (N e He) as [N1 N2]. unfold estimator_lines in H. rewrite !in_app_iff in H.
    destruct H as [H|[H|[H|[H|[H|H]]]]].
    - destruct H as [<-|[]]. reflexivity.
    - eauto using title_plain.
    - unfold bins_lines in H. cbn [In] in H.
      repeat destruct H as [<-|H]; auto using bins_row_plain; try reflexivity. destruct H.
    - eauto using scores_plain.
    - apply in_flat_map in H as (sn & Hn & H). unfold sensitivity_lines in H. rewrite !in_app_iff in H.
      destruct H as [H|[H|[<-|[]]]]; eauto using title_plain, scores_plain. reflexivity.
    - destruct H as [<-|[]]. reflexivity.
  Qed.
End Text.

(** ** The result has the layout of the initial estimators *)
Section Layout.
  Context {A : Arith}.
  Definition alike_scorable (s s' : scorable A) : Prop :=
    sc_name s' = sc_name s /\ sc_bins s' = sc_bins s
    /\ length (sc_scores s') = length (sc_scores s)
    /\ length (sc_squares s') = length (sc_squares s).
  Definition alike_estimator (e e' : estimator A) : Prop :=
    alike_scorable (es_scorable e) (es_scorable e') /\ es_surface e' = es_surface e
    /\ Forall2 (fun s s' => alike_scorable (sn_scorable s) (sn_scorable s')
                            /\ sn_surface s' = sn_surface s /\ sn_pert s' = sn_pert s)
               (es_sens e) (es_sens e').
  Definition alike_set (r r' : estimator_set A) : Prop :=
    ss_weight r' = ss_weight r /\ Forall2 alike_estimator (ss_estimators r) (ss_estimators r').

  Lemma alike_scorable_refl s : alike_scorable s s. Proof. repeat split. Qed.
  Lemma alike_refl r : alike_set r r.
  Proof.
    split; auto. induction (ss_estimators r) as [|e l IH]; constructor; auto.
    split; [apply alike_scorable_refl|]. split; auto.
    induction (es_sens e); constructor; auto using alike_scorable_refl.
  Qed.
  Lemma alike_scorable_trans a b c : alike_scorable a b -> alike_scorable b c -> alike_scorable a c.
  Proof. unfold alike_scorable. intuition congruence. Qed.
  Lemma Forall2_trans {V} (P : V -> V -> Prop) : (forall a b c, P a b -> P b c -> P a c) ->
    forall l l' l'', Forall2 P l l' -> Forall2 P l' l'' -> Forall2 P l l''.
  Proof.
    intros T l l' l'' F. revert l''. induction F; intros l'' F'; inversion F'; subst; constructor; eauto.
  Qed.
  Lemma alike_trans a b c : alike_set a b -> alike_set b c -> alike_set a c.
  Proof.
    intros [W1 F1] [W2 F2]. split; [congruence|]. revert F1 F2. apply Forall2_trans.
    intros x y z (S1 & U1 & K1) (S2 & U2 & K2). split; [eauto using alike_scorable_trans|].
    split; [congruence|]. revert K1 K2. apply Forall2_trans.
    intros s t u (R1 & V1 & T1) (R2 & V2 & T2). split; [eauto using alike_scorable_trans|].
    split; congruence.
  Qed.
  Lemma add_length (a b r : list (num A)) : add_onto a b = Ok r -> length r = length a.
  Proof.
    revert b r. induction a as [|x a IH]; intros [|y b] r H; cbn in H; try discriminate;
      try (injection H as <-; reflexivity).
    apply bind_ok in H as (r' & E & [= <-]). cbn. f_equal. eauto.
  Qed.
  Lemma sc_add_alike s o r : sc_add (A := A) s o = Ok r -> alike_scorable s r.
  Proof.
    unfold sc_add. intros H. apply bind_ok in H as (x & Ex & H). apply bind_ok in H as (y & Ey & [= <-]).
    repeat split; cbn; eauto using add_length.
  Qed.
  Lemma mapM_related {V W} (f : V -> outcome W) (P : V -> W -> Prop) l r :
    (forall x y, f x = Ok y -> P x y) -> mapM f l = Ok r -> Forall2 P l r.
  Proof. intros H E. apply mapM_ok in E. induction E; constructor; auto. Qed.
  Lemma set_add_alike ss so r : set_add (A := A) ss so = Ok r -> alike_set ss r.
  Proof.
    unfold set_add. intros H. apply bind_ok in H as (es & E & [= <-]). split; auto. cbn.
    revert E. apply mapM_related. intros e e' H. destruct (find _ (ss_estimators so)) as [o|]; [|discriminate].
    unfold est_add in H. apply bind_ok in H as (own & Eo & H). apply bind_ok in H as (sens & Es & [= <-]).
    split; [cbn; eauto using sc_add_alike|]. split; auto. cbn. revert Es. apply mapM_related.
    intros sn sn' H. destruct (find _ (es_sens o)) as [p|]; [|discriminate].
    apply bind_ok in H as (s & E & [= <-]). cbn. eauto using sc_add_alike.
  Qed.
  Lemma result_alike {G : Rng A} (dr : @driver A) sv r :
    solver_result dr sv = Ok r -> alike_set (dr_init dr) r.
  Proof.
    unfold solver_result.
    apply (foldM_inv _ (fun r => alike_set (dr_init dr) r)); [|apply alike_refl].
    intros s x s' _ H E. apply bind_ok in E as (e & _ & E). apply set_add_alike in E.
    eauto using alike_trans.
  Qed.
  Lemma keigen_alike {G : Rng A} (ke : @keigen A G) : ke_solve ke = ke_init ke.
  Proof.
    unfold ke_solve.
    assert (K : forall n (x : estimator_set A), N.iter n ke_cycle x = x); [|apply K].
    intros n x. rewrite <- (N2Nat.id n). induction (N.to_nat n) as [|k IH]; [reflexivity|].
    rewrite Nat2N.inj_succ, N.iter_succ. now rewrite IH.
  Qed.
End Layout.

Section Created.
  Context {A : Arith} {G : Rng A}.

  Lemma estimator_shaped (X : Ext A) w pts n e :
    estimator_create X w pts n = Ok e -> shaped_estimator X n e.
  Proof.
    intros H. unfold estimator_create in H.
    destruct (String.eqb (n_name n) "current"); [|discriminate].
    apply bind_ok in H as ([est sens] & E & H). apply -> @noexcept_ok in E.
    apply bind_ok in E as (b & Eb & E). apply bind_ok in E as (l & Es & E).
    injection E as <- <-. apply bind_ok in H as (s & Ef & H). injection H as <-.
    exists b. split; auto. cbn [es_scorable es_sens]. split.
    { repeat split; cbn; now rewrite repeat_length. }
    apply mapM_ok in Es. clear - Es.
    induction Es as [|c s0 l l' E F IH]; cbn [map]; constructor; auto.
    unfold sensitivity_create in E. apply bind_ok in E as (pt & Ep & E).
    destruct (String.eqb _ "current"); [|discriminate]. injection E as <-. cbn [sn_scorable].
    unfold find_perturbation in Ep. destruct (find _ pts) eqn:Fp; [|discriminate].
    injection Ep as ->. apply find_some in Fp as [_ Fp]. apply String.eqb_eq in Fp.
    unfold named. rewrite <- Fp.
    repeat split; cbn; now rewrite repeat_length.
  Qed.
  Lemma alike_shaped name b s s' : shaped (A := A) name b s -> alike_scorable s s' -> shaped name b s'.
  Proof. unfold shaped, alike_scorable. intuition congruence. Qed.
  Lemma alike_laid_out X root w r r' : laid_out (A := A) X root w r -> alike_set r r' -> laid_out X root w r'.
  Proof.
    intros [W F] [W' F']. split; [congruence|]. revert F'. generalize (ss_estimators r') as l.
    induction F as [|n e ns es (b & Eb & Sh & Ss) F IH]; intros l F'; inversion F'; subst; constructor; auto.
    match goal with H : alike_estimator _ _ |- _ => destruct H as (A1 & _ & A3) end.
    exists b. split; auto. split; eauto using alike_shaped.
    clear - Ss A3. revert A3. match goal with |- context [es_sens ?y] => is_var y; idtac end.
    generalize (es_sens y) as l'. induction Ss as [|c sn l k S1 Ss IH]; intros l' H; inversion H; subst;
      constructor; auto. eapply alike_shaped; eauto. tauto.
  Qed.

  (** The estimators of a driver that was created. *)
  Lemma driver_laid_out (X : Ext A) root src dr : driver_create X root src = Ok dr ->
    laid_out X root (nofN (dr_batchsize dr)) (dr_init dr).
  Proof.
    intros H. unfold driver_create in H.
    apply bind_ok in H as (w & Ew & H). apply bind_ok in H as (pts & Ep & H).
    apply bind_ok in H as (z & Ez & H). apply bind_ok in H as (sd & Esd & H).
    apply bind_ok in H as (init & Ei & H). apply bind_ok in H as (threads & Et & H).
    apply bind_ok in H as (t & Ett & H). apply bind_ok in H as (so & Eso & H).
    injection H as <-. cbn [dr_init dr_batchsize]. unfold estimator_set_create in Ei.
    apply bind_ok in Ei as (es & Es & Ei). injection Ei as <-. split; [reflexivity|].
    cbn [ss_estimators]. revert Es. apply mapM_related. intros; eapply estimator_shaped; eauto.
  Qed.
  Lemma solve_alike (V : Env A) root (pb : problem (G := G)) fuel schedule r :
    create_problem V root = Ok pb -> solve pb fuel schedule = Ok r ->
    alike_set (dr_init (problem_driver pb)) r.
  Proof.
    intros C H. destruct pb as [dr|dr ke]; cbn [solve problem_driver] in *.
    - eauto using result_alike.
    - injection H as <-. rewrite keigen_alike. unfold create_problem in C.
      destruct (String.eqb _ "fixedsource").
      { apply bind_ok in C as (d & _ & C). discriminate. }
      destruct (String.eqb _ "keigenvalue"); [|discriminate].
      apply bind_ok in C as (d & Ed & C). apply bind_ok in C as (k & Ek & C). injection C as -> ->.
      unfold keigen_create in Ek. rewrite Ed in Ek. cbn [bind] in Ek. injection Ek as <-.
      apply alike_refl.
  Qed.
End Created.

Lemma C76_layout_proof :
  forall (A : Arith) (G : Rng A) (V : Env A) (root : node) (pb : problem (G := G)) fuel schedule r,
  create_problem V root = Ok pb -> solve pb fuel schedule = Ok r ->
  laid_out (env_ext V) root (nofN (dr_batchsize (problem_driver pb))) r.
Proof.
  intros A G V root pb fuel schedule r C H. destruct (problem_created V root pb C) as (src & Ed).
  eapply alike_laid_out; [eapply driver_laid_out; eauto|eauto using solve_alike].
Qed.

Lemma laid_out_paired {A : Arith} (X : Ext A) root w r : laid_out X root w r -> paired r.
Proof.
  intros [_ F]. unfold paired. induction F as [|n e ns es (b & _ & (_ & _ & L1 & L2) & Ss) F IH];
    intros e' []; auto.
  subst e'. split; [congruence|]. clear - Ss.
  induction Ss as [|c sn l k (_ & _ & L1 & L2) Ss IH]; intros s []; auto. subst. congruence.
Qed.
Lemma laid_out_plain {A : Arith} (X : Ext A) root w r :
  laid_out X root w r -> plain_names root -> one_line_names r.
Proof.
  intros [_ F] P. unfold one_line_names, plain_names in *. revert P.
  induction F as [|n e ns es (b & _ & (N1 & _) & Ss) F IH]; intros P e' He; [destruct He|].
  destruct He as [<-|He]; [|apply IH; auto; intros; apply P; now right].
  destruct (P n (or_introl eq_refl)) as [P1 P2]. rewrite N1. split; auto.
  clear - Ss P1 P2. induction Ss as [|c sn l k (S1 & _) Ss IH]; intros s Hs; [destruct Hs|].
  destruct Hs as [<-|Hs]; [|apply IH; auto; intros; apply P2; now right].
  rewrite S1. repeat apply one_line_app; auto; [reflexivity|]. apply P2. now left.
Qed.

Lemma after_three fs out a b :
  after fs [Truncated out; Appended out a; Appended out b] out = Some (a ++ b).
Proof.
  unfold after. cbn [fold_left done_effect]. unfold written. rewrite String.eqb_refl.
  cbn. reflexivity.
Qed.

Lemma C76_report_proof :
  forall (A : Arith) (G : Rng A) (V : Env A) (path : string) (root : node)
         (pb : problem (G := G)) fuel schedule r (before : files),
  open_document V path = Ok root -> create_problem V root = Ok pb ->
  solve pb fuel schedule = Ok r ->
  env_writable V (out_path path) = true ->
  (forall x, one_line (env_sci V x)) -> plain_names root ->
  let (effects, ending) := main (G := G) V [path] fuel schedule in
  ending = Ok tt
  /\ exists text, after before effects (out_path path) = Some text
     /\ lines text
        = (report (env_sci V) (dr_batchsize (problem_driver pb)) r ++ [""])%list.
Proof.
  intros A G V path root pb fuel schedule r before Op C Sv Wr Sci Pl.
  pose proof (C76_layout_proof A G V root pb fuel schedule r C Sv) as L.
  unfold main. rewrite Op. cbn [bind]. rewrite C, Sv, Wr. split; [reflexivity|].
  eexists. split; [apply after_three|].
  rewrite (set_lines _ _ (laid_out_paired _ _ _ _ L)).
  rewrite app_assoc_s, <- unlines_cons. apply lines_unlines.
  intros s Hs. eapply report_plain; eauto using laid_out_plain.
Qed.

(** ** The name of the output file *)
Lemma split_file file : without "/" file -> split_path file = ("", file).
Proof.
  induction file as [|c t IH]; intros H; [reflexivity|]. cbn [split_path].
  rewrite IH by (intros K; apply H; now right).
  destruct (Ascii.eqb_spec c "/") as [->|_]; [|reflexivity]. exfalso. apply H. now left.
Qed.
Lemma split_dir d file : without "/" file -> split_path (d ++ "/" ++ file) = (d ++ "/", file).
Proof.
  intros H. induction d as [|c t IH]; cbn [append split_path].
  - now rewrite split_file by assumption.
  - cbn [append] in IH. rewrite IH. destruct (Ascii.eqb c "/"); [reflexivity|].
    now destruct t.
Qed.
Lemma split_directory dir file : directory dir -> without "/" file ->
  split_path (dir ++ file) = (dir, file).
Proof.
  intros [->|(d & ->)] H; [now apply split_file|]. rewrite app_assoc_s. now apply split_dir.
Qed.
Lemma split_whole p : fst (split_path p) ++ snd (split_path p) = p.
Proof.
  induction p as [|c t IH]; [reflexivity|]. cbn [split_path]. destruct (split_path t) as [d f].
  cbn [fst snd] in IH. destruct (Ascii.eqb c "/"); cbn [fst snd append]; [congruence|].
  destruct d; cbn [fst snd append] in *; congruence.
Qed.
Lemma before_dot_none f : without "." f -> before_dot f = None.
Proof.
  induction f as [|c t IH]; intros H; [reflexivity|]. cbn [before_dot].
  rewrite IH by (intros K; apply H; now right).
  destruct (Ascii.eqb_spec c ".") as [->|_]; [|reflexivity]. exfalso. apply H. now left.
Qed.
Lemma before_dot_some s e : without "." e -> before_dot (s ++ "." ++ e) = Some s.
Proof.
  intros H. induction s as [|c t IH]; cbn [append before_dot].
  - now rewrite before_dot_none.
  - cbn [append] in IH. now rewrite IH.
Qed.
Lemma without_app c a b : without c a -> without c b -> without c (a ++ b).
Proof. unfold without. rewrite ascii_app, in_app_iff. tauto. Qed.

Lemma C76_name_proof :
  (forall dir name extension, directory dir -> without "/" name -> name <> "" ->
     without "/" extension -> without "." extension -> (name ++ "." ++ extension) <> ".." ->
     out_path (dir ++ name ++ "." ++ extension) = dir ++ name ++ ".out")
  /\ (forall dir name, directory dir -> without "/" name -> without "." name ->
     out_path (dir ++ name) = dir ++ name ++ ".out")
  /\ (forall dir name, directory dir -> without "/" name -> without "." name ->
     out_path (dir ++ "." ++ name) = dir ++ "." ++ name ++ ".out")
  /\ (forall path, out_path path = path -> exists p, path = p ++ ".out").
Proof.
  split; [|split; [|split]].
  - intros dir name ext D H1 H2 H3 H4 H5. unfold out_path. rewrite split_directory; auto.
    + unfold stem. destruct (String.eqb_spec (name ++ "." ++ ext) "..") as [E|_]; [now destruct H5|].
      rewrite before_dot_some by assumption. now destruct name.
    + repeat apply without_app; auto. intros [K|[]]. discriminate.
  - intros dir name D H1 H2. unfold out_path. rewrite split_directory by auto.
    unfold stem. rewrite before_dot_none by assumption. now destruct (String.eqb name "..").
  - intros dir name D H1 H2. unfold out_path. rewrite split_directory; auto.
    + unfold stem. destruct (String.eqb ("." ++ name) ".."); [reflexivity|].
      pose proof (before_dot_some "" name H2) as K. cbn [append] in K |- *. now rewrite K.
    + apply without_app; auto. intros [K|[]]. discriminate.
  - intros path H. unfold out_path in H. pose proof (split_whole path) as W.
    destruct (split_path path) as [d f]. exists (d ++ stem f). rewrite app_assoc_s. congruence.
Qed.

(** ** C77 *)
Section Same.
  Context {A : Arith} (G : Rng A).

  (** A worker never stops on a history that succeeded. *)
  Definition honest (wk : @worker A) : Prop :=
    match wk with Failed (Ok _) => False | _ => True end.
  Lemma honest_update i wk (ws : list (@worker A)) : honest wk -> List.Forall honest ws ->
    List.Forall honest (update_nth i wk ws).
  Proof.
    intros H F. revert i. induction F; intros [|i]; cbn; constructor; auto.
  Qed.
  Lemma honest_run dr fuel schedule : forall sv, List.Forall honest (sv_workers sv) ->
    List.Forall honest (sv_workers (run_schedule (G := G) dr fuel sv schedule)).
  Proof.
    induction schedule as [|i l IH]; intros sv H; [exact H|]. apply IH. unfold solver_step.
    destruct (nth_error (sv_workers sv) i) as [wk|] eqn:E; [|exact H].
    apply nth_error_In in E. pose proof (proj1 (List.Forall_forall _ _) H wk E) as Hw.
    destruct (worker_step (G := G) dr fuel (sv_counter sv) wk) as [c wk'] eqn:Es.
    cbn [sv_workers]. apply honest_update; auto.
    destruct wk; cbn [worker_step] in Es; injection Es as <- <-; auto.
    - destruct (_ <=? _)%N; exact I.
    - destruct (run_history _ _ _ _); exact I.
  Qed.
  Lemma result_succeeded (dr : @driver A) (ws : list (@worker A)) : List.Forall honest ws ->
    forall acc r, foldM (fun acc wk => let! e := worker_result wk in set_add acc e) ws acc = Ok r ->
    List.Forall succeeded ws.
  Proof.
    induction 1 as [|wk ws H F IH]; intros acc r E; constructor.
    - cbn [foldM] in E. apply bind_ok in E as (a & E & _). apply bind_ok in E as (e & E & _).
      destruct wk as [| | |o]; cbn in *; auto; try discriminate. subst o. exact H.
    - cbn [foldM] in E. apply bind_ok in E as (a & _ & E). eauto.
  Qed.
  Lemma solver_succeeded (dr : @driver A) fuel schedule r :
    solver_result dr (run_schedule (G := G) dr fuel (solver_start dr 0) schedule) = Ok r ->
    List.Forall succeeded (sv_workers (run_schedule (G := G) dr fuel (solver_start dr 0) schedule)).
  Proof.
    intros H. eapply result_succeeded; [auto|apply honest_run|exact H].
    cbn. generalize (N.to_nat (dr_threads dr)). induction n; constructor; cbn; auto.
  Qed.

  Lemma with_own_threads (dr : @driver A) : with_threads (dr_threads dr) dr = dr.
  Proof. now destruct dr. Qed.
End Same.
Lemma solve_same (G : Rng XRa) (V : Env XRa) path root pb fuel fuel' schedule schedule' r r' :
  agrees (env_lexical V) (env_ext V) -> open_document V path = Ok root ->
  create_problem (G := G) V root = Ok pb -> named_sensitivities root ->
  (dr_threads (problem_driver pb) <= 2 ^ 63)%N ->
  solve pb fuel schedule = Ok r -> solve pb fuel' schedule' = Ok r' -> r = r'.
Proof.
  intros Ag Op C Ns Few. destruct (C75_fields_proof XRa G V path root pb Ag Op C) as (B & T & U).
  destruct (problem_created V root pb C) as (src & Ed).
  destruct (C57_created_proof _ _ _ _ _ Ed) as (Bl & _).
  destruct pb as [dr|dr ke]; cbn [solve problem_driver] in *; [|congruence].
  intros H H'. pose proof (solver_succeeded _ _ _ _ _ H) as Su.
  pose proof (solver_succeeded _ _ _ _ _ H') as Su'.
  pose proof (C57_threads_proof G dr (dr_threads dr) (dr_threads dr) fuel fuel' schedule schedule')
    as K. cbv zeta in K. rewrite with_own_threads in K.
  destruct K as (x & E & E'); auto; try lia. congruence.
Qed.

Lemma C77_same_proof :
  forall (G : Rng XRa) (V : Env XRa) (path : string) (root : node)
         fuel fuel' schedule schedule' effects effects',
  agrees (env_lexical V) (env_ext V) ->
  open_document V path = Ok root -> named_sensitivities root ->
  (forall t, stoul (env_ext V) (n_text (n_child (n_child root "general") "threads")) = Ok t ->
     (t <= 2 ^ 63)%N) ->
  main (G := G) V [path] fuel schedule = (effects, Ok tt) ->
  main (G := G) V [path] fuel' schedule' = (effects', Ok tt) ->
  effects = effects'.
Proof.
  intros G V path root fuel fuel' schedule schedule' effects effects' Ag Op Ns Th.
  unfold main. rewrite Op. cbn [bind].
  destruct (create_problem (G := G) V root) as [pb| | | |] eqn:C; try (cbn; congruence).
  assert (Few : (dr_threads (problem_driver pb) <= 2 ^ 63)%N).
  { destruct (problem_created V root pb C) as (src & Ed). apply Th. unfold driver_create in Ed.
    apply bind_ok in Ed as (w & _ & Ed). apply bind_ok in Ed as (pts & _ & Ed).
    apply bind_ok in Ed as (z' & _ & Ed). apply bind_ok in Ed as (sd & _ & Ed).
    apply bind_ok in Ed as (init & _ & Ed). apply bind_ok in Ed as (threads & Et & Ed).
    apply bind_ok in Ed as (t & _ & Ed). apply bind_ok in Ed as (so & _ & Ed).
    cbv zeta in Et. injection Ed as <-. exact Et. }
  destruct (solve pb fuel schedule) as [r| | | |] eqn:E; try (cbn; congruence).
  destruct (solve pb fuel' schedule') as [r'| | | |] eqn:E'; try (cbn; congruence).
  rewrite <- (solve_same G V path root pb fuel fuel' schedule schedule' r r'); auto. congruence.
Qed.

Lemma C77_serial_proof :
  forall (G : Rng XRa) (V : Env XRa) (path : string) (root : node) (dr : @driver XRa)
         fuel schedule r,
  agrees (env_lexical V) (env_ext V) ->
  open_document V path = Ok root -> named_sensitivities root ->
  create_problem (G := G) V root = Ok (FixedProblem dr) ->
  (dr_threads dr <= 2 ^ 63)%N -> env_writable V (out_path path) = true ->
  serial (G := G) dr fuel = Ok r -> fair dr (2 * N.to_nat (dr_batchsize dr) + 1) schedule ->
  main (G := G) V [path] fuel schedule
  = ([Truncated (out_path path);
      Appended (out_path path) (show_N (dr_batchsize dr) ++ newline);
      Appended (out_path path) (set_text (env_sci V) r)], Ok tt).
Proof.
  intros G V path root dr fuel schedule r Ag Op Ns C Few Wr Sr Fa.
  destruct (C75_fields_proof XRa G V path root _ Ag Op C) as (B & T & U). cbn [problem_driver] in *.
  destruct (problem_created V root _ C) as (src & Ed). cbn [problem_driver] in Ed.
  destruct (C57_created_proof _ _ _ _ _ Ed) as (Bl & _).
  unfold main. rewrite Op. cbn [bind]. rewrite C. cbn [solve problem_driver].
  rewrite (C57_serial_proof G dr fuel schedule r); auto; try lia. now rewrite Wr.
Qed.

(** The effects are nothing, or a truncation, or the three of a run that succeeded. *)
Lemma main_effects {A : Arith} {G : Rng A} (V : Env A) arguments fuel schedule :
  let m := main (G := G) V arguments fuel schedule in
  fst m = []
  \/ exists path root pb, arguments = [path] /\ open_document V path = Ok root
     /\ create_problem (G := G) V root = Ok pb
     /\ (fst m = [Truncated (out_path path)]
         \/ exists a b, fst m = [Truncated (out_path path); Appended (out_path path) a;
                                 Appended (out_path path) b] /\ snd m = Ok tt).
Proof.
  cbv zeta. unfold main. destruct arguments as [|path [|x l]]; [now left| |now left].
  destruct (open_document V path) as [root| | | |] eqn:Op; cbn [bind]; try now left.
  destruct (create_problem V root) as [pb| | | |] eqn:C; try now left.
  destruct (solve pb fuel schedule) as [r| | | |] eqn:E;
    destruct (env_writable V (out_path path)); try (now left); right; exists path, root, pb;
    repeat split; auto; try (left; reflexivity). right. eexists _, _. split; reflexivity.
Qed.

Lemma after_other fs p l q : q <> p ->
  (forall e, In e l -> match e with Truncated x => x = p | Appended x _ => x = p end) ->
  after fs l q = fs q.
Proof.
  intros N. revert fs. induction l as [|e l IH]; intros fs H; [reflexivity|].
  unfold after in *. cbn [fold_left]. rewrite IH by (intros; apply H; now right).
  specialize (H e (or_introl eq_refl)). destruct e; subst; cbn; unfold written;
    destruct (String.eqb_spec q p); congruence.
Qed.
Lemma in_prefix {V} (x : V) a b l : l = (a ++ b)%list -> In x a -> In x l.
Proof. intros ->. rewrite in_app_iff. auto. Qed.
Lemma main_only {A : Arith} {G : Rng A} (V : Env A) arguments fuel schedule e :
  In e (fst (main (G := G) V arguments fuel schedule)) ->
  exists path, arguments = [path]
  /\ match e with Truncated x => x = out_path path | Appended x _ => x = out_path path end.
Proof.
  intros H. destruct (main_effects (G := G) V arguments fuel schedule)
    as [E|(path & root & pb & -> & _ & _ & [E|(a & b & E & _)])]; rewrite E in H; cbn [In] in H.
  - destruct H.
  - exists path. split; auto. destruct H as [<-|[]]. reflexivity.
  - exists path. split; auto. destruct H as [<-|[<-|[<-|[]]]]; reflexivity.
Qed.

Lemma C77_only_output_proof :
  forall (A : Arith) (G : Rng A) (V : Env A) arguments fuel schedule (before now : files) file,
  crashed before (fst (main (G := G) V arguments fuel schedule)) now ->
  (forall path, arguments = [path] -> file <> out_path path) ->
  now file = before file.
Proof.
  intros A G V arguments fuel schedule before now file Cr Ne.
  assert (K : forall l, (forall e, In e l -> exists path, arguments = [path]
      /\ match e with Truncated x => x = out_path path | Appended x _ => x = out_path path end) ->
    after before l file = before file).
  { intros l H. destruct l as [|e l]; [reflexivity|].
    destruct (H e (or_introl eq_refl)) as (path & -> & _).
    apply (after_other before (out_path path)); auto. intros e' He.
    destruct (H e' He) as (path' & [= <-] & K). exact K. }
  destruct Cr as [pre post E|pre p text part post E St]; apply K; intros e He.
  - apply (main_only (G := G) V arguments fuel schedule). eapply in_prefix; eauto.
  - apply in_app_iff in He as [He|[<-|[]]].
    + apply (main_only (G := G) V arguments fuel schedule). eapply in_prefix; eauto.
    + destruct (main_only (G := G) V arguments fuel schedule (Appended p text)) as (path & Ep & H).
      { rewrite E. apply in_app_iff. right. now left. }
      exists path. auto.
Qed.

Lemma starts_app a u b : starts u b -> starts (a ++ u) (a ++ b).
Proof. intros (r & ->). exists r. now rewrite app_assoc_s. Qed.
Lemma starts_more u a b : starts u a -> starts u (a ++ b).
Proof. intros (r & ->). exists (r ++ b). now rewrite app_assoc_s. Qed.

Lemma C77_prefix_proof :
  forall (A : Arith) (G : Rng A) (V : Env A) (path : string) fuel schedule (before now : files),
  let (effects, ending) := main (G := G) V [path] fuel schedule in
  let out := out_path path in
  crashed before effects now ->
  now out = before out \/ now out = Some ""
  \/ ending = Ok tt /\ exists part whole,
       now out = Some part /\ after before effects out = Some whole /\ starts part whole.
Proof.
  intros A G V path fuel schedule before now.
  destruct (main V [path] fuel schedule) as [effects ending] eqn:M. intros out Cr.
  pose proof (main_effects (G := G) V [path] fuel schedule) as K. cbv zeta in K. rewrite M in K.
  cbn [fst snd] in K. destruct K as [E|(p & root & pb & [= <-] & _ & _ & [E|(a & b & E & O)])];
    fold out in E; subst effects.
  - left. destruct Cr as [pre post E|pre p text part post E St].
    + symmetry in E. apply app_eq_nil in E as [-> _]. reflexivity.
    + now destruct pre.
  - destruct Cr as [pre post E|pre p text part post E St].
    + destruct pre as [|e [|e' pre]]; [now left| |destruct pre; discriminate].
      injection E as <- _. right. left. cbn. unfold written. now rewrite String.eqb_refl.
    + destruct pre as [|e [|e' pre]]; discriminate.
  - assert (T : forall u v, after before [Truncated out; Appended out u; Appended out v] out = Some (u ++ v)).
    { intros; apply after_three. }
    assert (T1 : after before [Truncated out] out = Some "").
    { cbn. unfold written. now rewrite String.eqb_refl. }
    assert (T2 : forall u, after before [Truncated out; Appended out u] out = Some u).
    { intros u. cbn. unfold written. now rewrite !String.eqb_refl. }
    destruct Cr as [pre post E|pre p text part post E St].
    + destruct pre as [|e1 [|e2 [|e3 pre]]]; [now left| | |].
      * injection E as <- _. right; left. exact T1.
      * injection E as <- <- _. right; right. split; auto. exists a, (a ++ b).
        split; [apply T2|split; [apply T|]]. now exists b.
      * injection E as <- <- <- E. symmetry in E. apply app_eq_nil in E as [-> _].
        right; right. split; auto. exists (a ++ b), (a ++ b).
        split; [apply T|split; [apply T|]]. exists "". now rewrite app_nil_s.
    + destruct pre as [|e1 [|e2 [|e3 pre]]]; cbn [app] in *.
      * discriminate.
      * injection E as <- <- <- _. right; right. split; auto. exists part, (a ++ b).
        split; [apply T2|split; [apply T|]]. now apply starts_more.
      * injection E as <- <- <- <- _. right; right. split; auto. exists (a ++ part), (a ++ b).
        split; [apply T|split; [apply T|]]. now apply starts_app.
      * injection E as _ _ _ E. now destruct pre.
Qed.

Lemma C77_first_proof :
  forall (A : Arith) (G : Rng A) (V : Env A) arguments fuel schedule (before now : files) file,
  crashed before (fst (main (G := G) V arguments fuel schedule)) now ->
  now file <> before file ->
  exists path root pb, arguments = [path] /\ open_document V path = Ok root
    /\ create_problem (G := G) V root = Ok pb.
Proof.
  intros A G V arguments fuel schedule before now file Cr Ne.
  destruct (main_effects (G := G) V arguments fuel schedule)
    as [E|(path & root & pb & Ea & Op & C & _)]; [|eauto 10].
  exfalso. rewrite E in Cr. destruct Cr as [pre post K|pre p text part post K St].
  - symmetry in K. apply app_eq_nil in K as [-> _]. now apply Ne.
  - now destruct pre.
Qed.

Lemma C63_program_proof :
  forall (A : Arith) (G : Rng A) (V : Env A) (path : string) (root : node) (pb : problem)
         fuel schedule,
  open_document V path = Ok root ->
  n_name (n_first_child (n_child root "problemtype")) = "keigenvalue" ->
  create_problem (G := G) V root = Ok pb ->
  exists r, blank_set r
    /\ main (G := G) V [path] fuel schedule
       = (if env_writable V (out_path path)
          then [Truncated (out_path path);
                Appended (out_path path) (show_N (dr_batchsize (problem_driver pb)) ++ newline);
                Appended (out_path path) (set_text (env_sci V) r)]
          else [], Ok tt).
Proof.
  intros A G V path root pb fuel schedule Op K C. unfold main. rewrite Op. cbn [bind]. rewrite C.
  pose proof C as C'. unfold create_problem in C'. rewrite K in C'. cbn -[keigen_create] in C'.
  apply bind_ok in C' as (dr & Ed & C'). apply bind_ok in C' as (ke & Ek & C'). injection C' as <-.
  cbn [solve problem_driver]. apply C63_initial_proof in Ek as (dr' & Ed' & -> & _).
  rewrite Ed in Ed'. injection Ed' as <-. exists (dr_init dr).
  split; [|reflexivity]. now destruct (C57_created_proof _ _ _ _ _ Ed).
Qed.
