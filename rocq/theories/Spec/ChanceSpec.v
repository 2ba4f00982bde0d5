(** Probability, when the random numbers a program draws are independent and uniform. *)
From Coq Require Import List Reals ZArith.
From Coquelicot Require Import Hierarchy RInt.
From Verif Require Import Model.Num Model.Rng.
Import ListNotations.
Local Open Scope R_scope.

(** Random numbers that are given in advance. Those that are not in the unit interval, which
    have no chance, and those that are missing are taken to be one half. *)
Definition inside (u : R) : R := if Rlt_dec 0 u then if Rlt_dec u 1 then u else / 2 else / 2.
Definition Given : Rng XRa :=
  mkRng XRa (list R) (fun _ => []) (fun s => (1%Z, tl s))
    (fun s => (Fin (inside (hd (/ 2) s)), tl s)).

(** [E] holds with probability [x] of [n] independent random numbers, uniform on the unit
    interval: one integral after another, each up to finitely many values. *)
Fixpoint chance (n : nat) (E : list R -> bool) (x : R) : Prop :=
  match n with
  | O => x = if E [] then 1 else 0
  | S n' => exists (g : R -> R) (but : list R),
      (forall u, 0 < u < 1 -> ~ In u but -> chance n' (fun l => E (u :: l)) (g u))
      /\ is_RInt (V := R_NormedModule) g 0 1 x
  end.

(** [E] holds with probability at most [x] (of an event of any kind). *)
Fixpoint at_most (n : nat) (E : list R -> Prop) (x : R) : Prop :=
  match n with
  | O => 0 <= x /\ (E [] -> 1 <= x)
  | S n' => exists (g : R -> R) (but : list R) (y : R),
      (forall u, 0 < u < 1 -> ~ In u but -> at_most n' (fun l => E (u :: l)) (g u))
      /\ is_RInt (V := R_NormedModule) g 0 1 y /\ y <= x
  end.
