(** Outcomes of running a piece of the code. *)
From Coq Require Import String List.
Import ListNotations.

(** [Throw] is a C++ exception that reaches the caller, with the message;
    [Terminate] is an exception leaving a [noexcept] function; [UB] is undefined
    behaviour; [OutOfFuel] is the step bound of the model and not a behaviour of
    the code. *)
Inductive outcome (X : Type) : Type :=
  | Ok (x : X)
  | Throw (msg : string)
  | Terminate
  | UB
  | OutOfFuel.
Arguments Ok {X} x.
Arguments Throw {X} msg.
Arguments Terminate {X}.
Arguments UB {X}.
Arguments OutOfFuel {X}.

Definition bind {X Y} (o : outcome X) (f : X -> outcome Y) : outcome Y :=
  match o with
  | Ok x => f x
  | Throw m => Throw m
  | Terminate => Terminate
  | UB => UB
  | OutOfFuel => OutOfFuel
  end.

(** The body of a [noexcept] function: an escaping exception calls
    [std::terminate]. *)
Definition noexcept {X} (o : outcome X) : outcome X :=
  match o with Throw _ => Terminate | _ => o end.

Definition of_option {X} (o : option X) (e : outcome X) : outcome X :=
  match o with Some x => Ok x | None => e end.

(** Run [f] over a list, left to right, stopping at the first failure. *)
Fixpoint mapM {X Y} (f : X -> outcome Y) (l : list X) : outcome (list Y) :=
  match l with
  | [] => Ok []
  | x :: t => bind (f x) (fun y => bind (mapM f t) (fun ys => Ok (y :: ys)))
  end.

(** A loop over a list carrying a state. *)
Fixpoint foldM {X S} (f : S -> X -> outcome S) (l : list X) (s : S) : outcome S :=
  match l with
  | [] => Ok s
  | x :: t => bind (f s x) (fun s' => foldM f t s')
  end.

Declare Scope outcome_scope.
Delimit Scope outcome_scope with outcome.
Notation "'let!' x ':=' o 'in' k" := (bind o (fun x => k))
  (at level 200, x pattern, o at level 100, k at level 200, right associativity)
  : outcome_scope.
