(** Runs of the program in an arithmetic that counts exactly: C78. *)
From Coq Require Import Bool String List ZArith NArith Lia Permutation.
From Verif Require Import Model.Num Model.Outcome Model.Rng Model.Xml Model.Std Model.Types
  Model.Bins Model.Particle Model.World Model.Perturbation Model.Estimator Model.Transport
  Model.Driver Model.Schema Model.Program Spec.HistorySpec Spec.EstimatorSpec Spec.CountSpec
  Spec.SolverSpec Spec.SchemaSpec
  Proofs.OutcomeLib Proofs.HistoryProofs Proofs.ResultProofs Proofs.CountProofs Proofs.SchemaProofs Proofs.ProgramProofs.
Import ListNotations.
Local Open Scope string_scope.

Lemma no_sensitivities {A : Arith} (X : Ext A) root src (dr : @driver A) :
  driver_create X root src = Ok dr ->
  (forall n, In n (n_children (n_child root "estimators")) ->
     n_children (n_child n "sensitivities") = []) ->
  forall e, In e (ss_estimators (dr_init dr)) -> es_sens e = [].
Proof.
  intros H None. unfold driver_create in H.
  apply bind_ok in H as (w & Ew & H). apply bind_ok in H as (pts & Ep & H).
  apply bind_ok in H as (z & Ez & H). apply bind_ok in H as (sd & Esd & H).
  apply bind_ok in H as (init & Ei & H). apply bind_ok in H as (threads & Et & H).
  apply bind_ok in H as (t & Ett & H). apply bind_ok in H as (so & Eso & H).
  injection H as <-. cbn [dr_init].
  unfold estimator_set_create in Ei. apply bind_ok in Ei as (es & Es & Ei). injection Ei as <-.
  cbn [ss_estimators]. apply mapM_ok in Es. clear - Es None.
  induction Es as [|n e0 l l' E F IH]; intros e He; [destruct He|].
  destruct He as [<-|He]; [|apply IH; auto; intros; apply None; now right].
  apply estimator_create_blank in E as (_ & _ & Em).
  rewrite (None n (or_introl eq_refl)) in Em. now destruct (es_sens e0).
Qed.

Lemma history_permuted {A : Arith} {G : Rng A} (dr : @driver A) i (a b : list (particle A G)) :
  history dr i a -> history dr i b -> Permutation a b.
Proof.
  intros (f & o & Cf & Ff & P & ->) (f' & o' & Cf' & Ff' & P' & ->).
  assert (f' = f) as -> by (apply (complete_fun dr); auto; congruence).
  unfold events. rewrite <- P, <- P'. reflexivity.
Qed.
Lemma few_permuted {A : Arith} {G : Rng A} limit (hs hs' : list (list (particle A G))) :
  Forall2 (Permutation (A := particle A G)) hs hs' -> few_crossings limit hs ->
  few_crossings limit hs'.
Proof.
  intros F H surface. specialize (H surface). enough (E :
    map (fun h => crossings surface h * crossings surface h)%Z hs'
    = map (fun h => crossings surface h * crossings surface h)%Z hs) by now rewrite E.
  clear H. induction F as [|h h' l l' P F IH]; [reflexivity|]. cbn [map]. f_equal; auto.
  assert (L : crossings surface h' = crossings surface h); [|now rewrite L].
  unfold crossings, howmany. f_equal. clear - P.
  induction P as [|x l l' P IH|x y l|l l' l'' P IH P' IH']; cbn [filter]; auto.
  - destruct (crossed surface x); cbn [length]; congruence.
  - destruct (crossed surface x), (crossed surface y); reflexivity.
  - congruence.
Qed.

Lemma C78_program_proof :
  forall (A : Arith) (limit : Z) (G : Rng A) (V : Env A) (path : string) (root : node)
         (pb : problem) hs fuel fuel' schedule schedule' effects effects',
  counts_exactly A limit ->
  agrees (env_lexical V) (env_ext V) -> open_document V path = Ok root ->
  (forall n, In n (n_children (n_child root "estimators")) ->
     n_children (n_child n "sensitivities") = []) ->
  (forall t, stoul (env_ext V) (n_text (n_child (n_child root "general") "threads")) = Ok t ->
     (t <= 2 ^ 63)%N) ->
  create_problem (G := G) V root = Ok pb ->
  Forall2 (history (G := G) (problem_driver pb)) (below (dr_batchsize (problem_driver pb))) hs ->
  few_crossings limit hs ->
  main (G := G) V [path] fuel schedule = (effects, Ok tt) ->
  main (G := G) V [path] fuel' schedule' = (effects', Ok tt) ->
  effects = effects'.
Proof.
  intros A limit G V path root pb hs0 fuel fuel' schedule schedule' effects effects'
    Ex Ag Op None Th C Fh0 Few.
  unfold main. rewrite Op. cbn [bind].
  rewrite C.
  destruct (problem_created V root pb C) as (src & Ed).
  assert (Ft : (dr_threads (problem_driver pb) <= 2 ^ 63)%N).
  { apply Th. unfold driver_create in Ed.
    apply bind_ok in Ed as (w & _ & Ed). apply bind_ok in Ed as (pts & _ & Ed).
    apply bind_ok in Ed as (z' & _ & Ed). apply bind_ok in Ed as (sd & _ & Ed).
    apply bind_ok in Ed as (init & _ & Ed). apply bind_ok in Ed as (threads & Et & Ed).
    apply bind_ok in Ed as (t & _ & Ed). apply bind_ok in Ed as (so & _ & Ed).
    cbv zeta in Et. injection Ed as <-. exact Et. }
  destruct (C75_fields_proof A G V path root pb Ag Op C) as (B & T & U).
  destruct (C57_created_proof _ _ _ _ _ Ed) as (Bl & _).
  pose proof (no_sensitivities _ _ _ _ Ed None) as Nos.
  destruct (solve pb fuel schedule) as [r| | | |] eqn:E; try (cbn; congruence).
  destruct (solve pb fuel' schedule') as [r'| | | |] eqn:E'; try (cbn; congruence).
  enough (Same : r = r') by (rewrite <- Same; congruence).
  destruct pb as [dr|dr ke]; cbn [solve problem_driver] in *; [|congruence].
  pose proof (solver_succeeded _ _ _ _ _ E) as Su. pose proof (solver_succeeded _ _ _ _ _ E') as Su'.
  pose proof (C78_schedule_proof A limit G dr (dr_threads dr) (dr_threads dr) fuel fuel'
    schedule schedule' Ex) as K. cbv zeta in K. rewrite with_own_threads in K.
  destruct K as (x & x' & hs & Ea & Eb & Fh & Kh); auto; try lia.
  { apply U. intros n m Hn. rewrite (None n Hn). intros []. }
  destruct Kh as [_ Eq].
  { apply (few_permuted limit hs0); [|exact Few]. clear - Fh Fh0. revert hs Fh.
    induction Fh0 as [|i h l l' H F IH]; intros hs Fh; inversion Fh; subst; constructor; auto.
    eapply history_permuted; eauto. }
  rewrite E in Ea. rewrite E' in Eb. injection Ea as ->. injection Eb as ->. now apply Eq.
Qed.
