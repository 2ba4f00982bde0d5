(** What is assumed of a random number generator: uniform numbers are in [0,1).
    Property C60 shows it of the generator the program uses. *)
From Coq Require Import Reals NArith.
From Verif Require Import Model.Num Model.Rng.
Local Open Scope R_scope.

Definition valid_rng (G : Rng XRa) : Prop :=
  forall s, exists u, fst (runif G s) = Fin u /\ 0 <= u < 1.

(** Uniform numbers are in the open interval, as they are for the generator the
    program uses. *)
Definition open_rng (G : Rng XRa) : Prop :=
  forall s, exists u, fst (runif G s) = Fin u /\ 0 < u < 1.

(** The generator after [n] uniform numbers, and the number drawn after [n] others. *)
Fixpoint advance {A} (G : Rng A) (n : nat) (s : rst G) : rst G :=
  match n with O => s | S n' => advance G n' (snd (runif G s)) end.
Definition draw {A} (G : Rng A) (n : nat) (s : rst G) : num A := fst (runif G (advance G n s)).

(** The generator after [n] raw numbers. *)
Definition after_raw {A} (G : Rng A) (n : N) (s : rst G) : rst G :=
  N.iter n (fun s => snd (rraw G s)) s.
