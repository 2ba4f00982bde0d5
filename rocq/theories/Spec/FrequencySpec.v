(** How often something happens: counts, and shares of the cycle of the generator. *)
From Coq Require Import List Reals ZArith NArith.
Import ListNotations.
Local Open Scope R_scope.

(** There are exactly [n] things with the property. *)
Definition counts {T : Type} (P : T -> Prop) (n : N) : Prop :=
  exists l, NoDup l /\ (forall x, In x l <-> P x) /\ N.of_nat (length l) = n.

(** The number of states of the generator the program uses. *)
Definition cycle : N := 2147483646.

(** The property holds of the share [x] of the cycle, but for at most [err] cases. *)
Definition frequency {T : Type} (P : T -> Prop) (x err : R) : Prop :=
  exists n, counts P n /\ Rabs (IZR (Z.of_N n) - x * IZR (Z.of_N cycle)) <= err.
