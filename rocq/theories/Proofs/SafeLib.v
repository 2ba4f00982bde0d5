(** Computations that succeed unless something named happens. *)
From Coq Require Import Bool String List.
From Verif Require Import Model.Outcome Proofs.OutcomeLib.
Import ListNotations.

(** [o] is a success with [P], runs out of fuel, or [T] is the case. *)
Definition safe {X} (T : Prop) (o : outcome X) (P : X -> Prop) : Prop :=
  match o with Ok x => P x | OutOfFuel => True | _ => T end.

Lemma safe_ok {X} T (o : outcome X) (P : X -> Prop) x : o = Ok x -> P x -> safe T o P.
Proof. intros -> H. exact H. Qed.
Lemma safe_bind {X Y} T (o : outcome X) (f : X -> outcome Y) P Q :
  safe T o P -> (forall x, o = Ok x -> P x -> safe T (f x) Q) -> safe T (bind o f) Q.
Proof. destruct o; cbn; auto. Qed.
Lemma safe_noexcept {X} T (o : outcome X) P : safe T o P -> safe T (noexcept o) P.
Proof. destruct o; cbn; auto. Qed.
Lemma safe_impl {X} (T T' : Prop) (o : outcome X) (P Q : X -> Prop) :
  safe T o P -> (T -> T') -> (forall x, o = Ok x -> P x -> Q x) -> safe T' o Q.
Proof. destruct o; cbn; auto. Qed.
Lemma safe_and {X} T (o : outcome X) (P Q : X -> Prop) :
  safe T o P -> (forall x, o = Ok x -> Q x) -> safe T o (fun x => P x /\ Q x).
Proof. destruct o; cbn; auto. Qed.
Lemma safe_out {X} T (o : outcome X) P : safe T o P -> o = OutOfFuel \/ (exists x, o = Ok x /\ P x) \/ T.
Proof. destruct o; cbn; eauto. Qed.
