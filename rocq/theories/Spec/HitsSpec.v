(** How many of some independent histories have a property. *)
From Coq Require Import Bool List Reals Arith.
From Verif Require Import Spec.ChanceSpec.
Import ListNotations.
Local Open Scope R_scope.

(** Each of [n] histories has [k] random numbers of its own; so many of them have property [E]. *)
Fixpoint hits (k : nat) (E : list R -> bool) (n : nat) (l : list R) : nat :=
  match n with
  | O => O
  | S n' => ((if E (firstn k l) then 1 else 0) + hits k E n' (skipn k l))%nat
  end.
(** The number of ways to choose [j] of [n], by the triangle of Pascal. *)
Fixpoint choose (n j : nat) : nat :=
  match n, j with
  | _, O => 1
  | O, S _ => 0
  | S n', S j' => (choose n' j' + choose n' (S j'))%nat
  end.
(** The binomial distribution. *)
Definition binomial (n j : nat) (x : R) : R := INR (choose n j) * x ^ j * (1 - x) ^ (n - j).
