(** A document without sensitivities, run by the whole program in binary64. *)
From Coq Require Import Bool String List ZArith NArith Lia SpecFloat.
From Verif Require Import Model.Num Model.Outcome Model.Rng Model.Xml Model.Std Model.Types
  Model.Bins Model.Particle Model.World Model.Perturbation Model.Estimator Model.Transport
  Model.Driver Model.Schema Model.Program Spec.TextExt Spec.EstimatorSpec Spec.SolverSpec
  Spec.CountSpec Spec.HistorySpec Spec.SchemaSpec Proofs.OutcomeLib Proofs.HistoryProofs
  Proofs.SampleDocument Proofs.SampleDouble Proofs.SampleProgram.
Import ListNotations.
Local Open Scope string_scope.

Definition binned_estimators : xml :=
  group "estimators"
    [Elem "current" [("name", "through"); ("surface", "edge")]
       [group "bins" [Elem "cosine" [("u", "1"); ("v", "0"); ("w", "0")]
          [leaf "linspace" [("min", "0"); ("max", "1"); ("bins", "5")]] ""]] ""].
Definition binned_xml : xml :=
  Elem "minimc" []
    [double_general; slab_surfaces; slab_nuclides; slab_materials; slab_cells;
     slab_warmth; slab_perturbations; binned_estimators; group "problemtype" [double_source]] "".
Definition binned : node := Some (mkH binned_xml [Elem "" [] [binned_xml] ""]).
Definition show_double (x : num D64) : string :=
  match x with
  | S754_finite s m e =>
      (if s then "-" else "") ++ show_N (Npos m) ++ "p" ++ (if (e <? 0)%Z then "-" else "")
      ++ show_N (Z.abs_N e)
  | S754_zero _ => "0" | S754_infinity _ => "inf" | S754_nan => "nan"
  end.
Definition binned_env : Env D64 :=
  mkEnv slab_lexical (text_ext D64 []) (fun p => if String.eqb p "dir/binned.xml" then Some binned_xml else None)
    show_double (fun _ => true).

Lemma binned_opens : open_document binned_env "dir/binned.xml" = Ok binned.
Proof. match goal with |- _ = ?r => vm_cast_no_check (eq_refl r) end. Qed.
Lemma binned_agrees : agrees (env_lexical binned_env) (env_ext binned_env).
Proof. intros s H. exact (slab_agrees s H). Qed.
Lemma binned_plain n : In n (n_children (n_child binned "estimators")) ->
  n_children (n_child n "sensitivities") = [].
Proof. intros [<-|[]]. reflexivity. Qed.

Notation binned_main schedule :=
  (main (G := Minstd D64) binned_env ["dir/binned.xml"] 50 schedule).
Definition ended (o : outcome unit) : bool := match o with Ok _ => true | _ => false end.
Lemma ended_spec o : ended o = true -> o = Ok tt.
Proof. destruct o as [[]| | | |]; try discriminate. reflexivity. Qed.
Lemma binned_runs : exists effects effects',
  binned_main alone = (effects, Ok tt) /\ binned_main alternate = (effects', Ok tt).
Proof.
  assert (K : ended (snd (binned_main alone)) && ended (snd (binned_main alternate)) = true)
    by (match goal with |- _ = ?r => vm_cast_no_check (eq_refl r) end).
  apply andb_prop in K as [K K']. apply ended_spec in K, K'.
  exists (fst (binned_main alone)), (fst (binned_main alternate)).
  rewrite <- K at 1. rewrite <- K' at 1. split; apply surjective_pairing.
Qed.
Notation binned_created := (create_problem (G := Minstd D64) binned_env binned).
Lemma binned_histories : exists pb hs, binned_created = Ok pb
  /\ Forall2 (history (G := Minstd D64) (problem_driver pb))
       (below (dr_batchsize (problem_driver pb))) hs
  /\ few_crossings (2 ^ 53) hs
  /\ dr_batchsize (problem_driver pb) = 24%N.
Proof.
  assert (K : match binned_created with
    | Ok pb => match mapM (double_history (problem_driver pb)) (below (dr_batchsize (problem_driver pb))) with
               | Ok hs => (Zsum (map (fun h => Z.of_nat (length h) * Z.of_nat (length h)) hs) <=? 2 ^ 53)%Z
                          && N.eqb (dr_batchsize (problem_driver pb)) 24
               | _ => false end
    | _ => false end = true).
  { match goal with |- _ = ?r => vm_cast_no_check (eq_refl r) end. }
  destruct binned_created as [pb| | | |]; try discriminate K. exists pb.
  destruct (mapM _ _) as [hs| | | |] eqn:M; try discriminate.
  apply andb_prop in K as [K K2]. apply Z.leb_le in K. apply N.eqb_eq in K2.
  exists hs. split; [reflexivity|]. split; [|split; [|exact K2]].
  - apply mapM_ok in M. clear - M. induction M; constructor; auto.
    apply shown_history. now exists 50%nat.
  - now apply few_short.
Qed.
