(** Doubles: the numbers of IEEE binary64 and their real values. *)
From Coq Require Import ZArith Reals SpecFloat.
From Verif Require Import Model.Num.
Local Open Scope R_scope.

(** A number in the format: 53 bits of mantissa, exponents up to 1024. *)
Definition is_double (x : spec_float) : Prop := valid_binary prec64 emax64 x = true.
Definition finite (x : spec_float) : Prop :=
  match x with S754_zero _ | S754_finite _ _ _ => True | _ => False end.
Definition value (x : spec_float) : R :=
  match x with
  | S754_finite s m e => (if s then -1 else 1) * IZR (Zpos m) * powerRZ 2 e
  | _ => 0
  end.

(** A logarithm accurate to one part in 1024 on doubles between zero and one, and a cosine
    and sine at most one in size whose squares sum to one up to [delta]. *)
Definition log_accurate (L : Libm) : Prop :=
  forall x, is_double x -> finite x -> 0 < value x < 1 ->
  is_double (l_log L x) /\ finite (l_log L x)
  /\ Rabs (value (l_log L x) - ln (value x)) <= Rabs (ln (value x)) / 1024.
Definition bounded_turn (L : Libm) (delta : R) : Prop :=
  forall x, is_double x -> finite x ->
  is_double (l_cos L x) /\ finite (l_cos L x) /\ Rabs (value (l_cos L x)) <= 1
  /\ is_double (l_sin L x) /\ finite (l_sin L x) /\ Rabs (value (l_sin L x)) <= 1
  /\ Rabs (value (l_cos L x) * value (l_cos L x) + value (l_sin L x) * value (l_sin L x) - 1) <= delta.
