(** Number systems.

    [Real] is [double] (src/BasicTypes.hpp:9). Every model function is
    parametrised by a record [Arith] of number operations so that one
    definition is read both over the exact reals with infinities ([XRa]) and
    over IEEE binary64 ([F64]). A plain record is used: no functors. *)
From Coq Require Import ZArith NArith Reals Bool.
From Coq Require Import SpecFloat.
From Coquelicot Require Import Coquelicot.
Local Open Scope R_scope.

(** The operations of [double] and of [<cmath>] that minimc uses. *)
Record Arith : Type := mkArith {
  num : Type;
  nofZ : Z -> num;                  (* integer literal or integer-to-Real conversion *)
  ndec : Z -> Z -> num;             (* decimal literal m * 10^e *)
  nadd : num -> num -> num;
  nsub : num -> num -> num;
  nmul : num -> num -> num;
  ndiv : num -> num -> num;
  nopp : num -> num;
  nabs : num -> num;                (* std::abs *)
  nsqrt : num -> num;               (* std::sqrt *)
  nltb : num -> num -> bool;        (* operator< ; false on NaN *)
  nleb : num -> num -> bool;        (* operator<= ; false on NaN *)
  neqb : num -> num -> bool;        (* operator== ; false on NaN *)
  ninf : num;                       (* std::numeric_limits<Real>::infinity() *)
  ntoN : num -> option N;           (* conversion to size_t; None: undefined behaviour *)
  ncos : num -> num;
  nsin : num -> num;
  nlog : num -> num;
  nexp : num -> num;
  nerf : num -> num;
  npow : num -> num -> num;
  npi : num;                        (* M_PI *)
  neps : num                        (* std::numeric_limits<Real>::epsilon() *)
}.

(** ** Exact reals with infinities and NaN *)

Inductive xr : Type :=
  | Fin (r : R)
  | PInf
  | NInf
  | NaN.

Definition Rltb (a b : R) : bool := if Rlt_dec a b then true else false.
Definition Rleb (a b : R) : bool := if Rle_dec a b then true else false.
Definition Reqb (a b : R) : bool := if Req_EM_T a b then true else false.

Definition xopp (a : xr) : xr :=
  match a with Fin r => Fin (- r) | PInf => NInf | NInf => PInf | NaN => NaN end.

Definition xadd (a b : xr) : xr :=
  match a, b with
  | NaN, _ | _, NaN => NaN
  | Fin x, Fin y => Fin (x + y)
  | PInf, NInf | NInf, PInf => NaN
  | PInf, _ | _, PInf => PInf
  | NInf, _ | _, NInf => NInf
  end.

Definition xsub (a b : xr) : xr := xadd a (xopp b).

(** An infinity of the sign of [x]; [0 * inf] is NaN. *)
Definition xsinf (x : R) : xr :=
  if Rltb 0 x then PInf else if Rltb x 0 then NInf else NaN.

Definition xmul (a b : xr) : xr :=
  match a, b with
  | NaN, _ | _, NaN => NaN
  | Fin x, Fin y => Fin (x * y)
  | Fin x, PInf | PInf, Fin x => xsinf x
  | Fin x, NInf | NInf, Fin x => xsinf (- x)
  | PInf, PInf | NInf, NInf => PInf
  | PInf, NInf | NInf, PInf => NInf
  end.

(** Zero is unsigned: a non-zero number over zero is an infinity of the sign
    of the dividend (IEEE consults the sign of the zero). *)
Definition xdiv (a b : xr) : xr :=
  match a, b with
  | NaN, _ | _, NaN => NaN
  | Fin x, Fin y => if Reqb y 0 then xsinf x else Fin (x / y)
  | Fin _, (PInf | NInf) => Fin 0
  | PInf, Fin y => if Rltb y 0 then NInf else PInf
  | NInf, Fin y => if Rltb y 0 then PInf else NInf
  | (PInf | NInf), (PInf | NInf) => NaN
  end.

Definition xabs (a : xr) : xr :=
  match a with Fin r => Fin (Rabs r) | PInf | NInf => PInf | NaN => NaN end.

Definition xsqrt (a : xr) : xr :=
  match a with
  | Fin r => if Rltb r 0 then NaN else Fin (sqrt r)
  | PInf => PInf
  | NInf | NaN => NaN
  end.

Definition xltb (a b : xr) : bool :=
  match a, b with
  | NaN, _ | _, NaN => false
  | Fin x, Fin y => Rltb x y
  | NInf, NInf | PInf, PInf => false
  | NInf, _ | _, PInf => true
  | PInf, _ | _, NInf => false
  end.

Definition xleb (a b : xr) : bool :=
  match a, b with
  | NaN, _ | _, NaN => false
  | Fin x, Fin y => Rleb x y
  | NInf, _ | _, PInf => true
  | PInf, _ | _, NInf => false
  end.

Definition xeqb (a b : xr) : bool :=
  match a, b with
  | Fin x, Fin y => Reqb x y
  | PInf, PInf | NInf, NInf => true
  | _, _ => false
  end.

(** Conversion to [size_t] truncates toward zero; it is undefined when the
    truncated value is not representable ([conv.fpint]). *)
Definition xtoN (a : xr) : option N :=
  match a with
  | Fin r =>
      if Rleb r (-1) then None
      else if Rleb (IZR (2 ^ 64)) r then None
      else Some (Z.to_N (Int_part r))
  | _ => None
  end.

Definition xcos (a : xr) : xr := match a with Fin r => Fin (cos r) | _ => NaN end.
Definition xsin (a : xr) : xr := match a with Fin r => Fin (sin r) | _ => NaN end.

Definition xlog (a : xr) : xr :=
  match a with
  | Fin r => if Rltb 0 r then Fin (ln r) else if Rltb r 0 then NaN else NInf
  | PInf => PInf
  | NInf | NaN => NaN
  end.

Definition xexp (a : xr) : xr :=
  match a with Fin r => Fin (exp r) | PInf => PInf | NInf => Fin 0 | NaN => NaN end.

(** The error function, as its defining integral. *)
Definition erf (x : R) : R := 2 / sqrt PI * RInt (fun t => exp (- (t * t))) 0 x.

Definition xerf (a : xr) : xr :=
  match a with Fin r => Fin (erf r) | PInf => Fin 1 | NInf => Fin (-1) | NaN => NaN end.

(** [pow]; no caller has an infinite exponent, which gives NaN here. *)
Definition xpow (a b : xr) : xr :=
  match a, b with
  | Fin x, Fin y =>
      if Rltb 0 x then Fin (Rpower x y)
      else if Reqb x 0 then
        (if Rltb 0 y then Fin 0 else if Reqb y 0 then Fin 1 else PInf)
      else if Reqb (IZR (Int_part y)) y then Fin (powerRZ x (Int_part y))
      else NaN
  | PInf, Fin y => if Rltb 0 y then PInf else if Reqb y 0 then Fin 1 else Fin 0
  | NInf, Fin y =>
      if Rltb 0 y then
        (if (Reqb (IZR (Int_part y)) y && Z.odd (Int_part y))%bool then NInf else PInf)
      else if Reqb y 0 then Fin 1 else Fin 0
  | _, _ => NaN
  end.

(** [m * 10^e] *)
Definition Rdec (m e : Z) : R :=
  if (e <? 0)%Z then (IZR m / IZR (10 ^ (- e)))%R else IZR (m * 10 ^ e).

Definition XRa : Arith := {|
  num := xr;
  nofZ := fun z => Fin (IZR z);
  ndec := fun m e => Fin (Rdec m e);
  nadd := xadd; nsub := xsub; nmul := xmul; ndiv := xdiv;
  nopp := xopp; nabs := xabs; nsqrt := xsqrt;
  nltb := xltb; nleb := xleb; neqb := xeqb;
  ninf := PInf;
  ntoN := xtoN;
  ncos := xcos; nsin := xsin; nlog := xlog; nexp := xexp; nerf := xerf;
  npow := xpow;
  npi := Fin PI;
  neps := Fin (/ IZR (2 ^ 52))
|}.

(** ** IEEE binary64 *)

Definition prec64 : Z := 53.
Definition emax64 : Z := 1024.

(** Results of the C mathematical library, which IEEE 754 does not fix. *)
Record Libm : Type := mkLibm {
  l_cos : spec_float -> spec_float;
  l_sin : spec_float -> spec_float;
  l_log : spec_float -> spec_float;
  l_exp : spec_float -> spec_float;
  l_erf : spec_float -> spec_float;
  l_pow : spec_float -> spec_float -> spec_float
}.

Definition f64_ofZ (z : Z) : spec_float := binary_normalize prec64 emax64 z 0 false.

(** A decimal literal, correctly rounded. *)
Definition f64_dec (m e : Z) : spec_float :=
  if (e <? 0)%Z then
    match m with
    | Z0 => S754_zero false
    | Zpos p =>
        let '(q, ex, l) := SFdiv_core_binary prec64 emax64 (Zpos p) 0 (10 ^ (- e))%Z 0 in
        binary_round_aux prec64 emax64 false q ex l
    | Zneg p =>
        let '(q, ex, l) := SFdiv_core_binary prec64 emax64 (Zpos p) 0 (10 ^ (- e))%Z 0 in
        binary_round_aux prec64 emax64 true q ex l
    end
  else f64_ofZ (m * 10 ^ e).

(** Truncation toward zero of a finite double, then the [size_t] range. *)
Definition f64_toN (f : spec_float) : option N :=
  match f with
  | S754_zero _ => Some 0%N
  | S754_finite s m e =>
      let t := (if (e <? 0) then Z.pos m / 2 ^ (- e) else Z.pos m * 2 ^ e)%Z in
      if s then (if (t =? 0)%Z then Some 0%N else None)
      else if (t <? 2 ^ 64)%Z then Some (Z.to_N t) else None
  | _ => None
  end.

Definition F64 (L : Libm) : Arith := {|
  num := spec_float;
  nofZ := f64_ofZ;
  ndec := f64_dec;
  nadd := SFadd prec64 emax64; nsub := SFsub prec64 emax64;
  nmul := SFmul prec64 emax64; ndiv := SFdiv prec64 emax64;
  nopp := SFopp; nabs := SFabs; nsqrt := SFsqrt prec64 emax64;
  nltb := SFltb; nleb := SFleb; neqb := SFeqb;
  ninf := S754_infinity false;
  ntoN := f64_toN;
  ncos := l_cos L; nsin := l_sin L; nlog := l_log L; nexp := l_exp L;
  nerf := l_erf L; npow := l_pow L;
  npi := S754_finite false 7074237752028440 (-51);
  neps := S754_finite false 4503599627370496 (-104)
|}.

(** Notations for the model: the number system is inferred from the operands. *)
Declare Scope num_scope.
Delimit Scope num_scope with num.
Notation "x + y" := (nadd _ x y) : num_scope.
Notation "x - y" := (nsub _ x y) : num_scope.
Notation "x * y" := (nmul _ x y) : num_scope.
Notation "x / y" := (ndiv _ x y) : num_scope.
Notation "- x" := (nopp _ x) : num_scope.
Notation "x <? y" := (nltb _ x y) : num_scope.
Notation "x <=? y" := (nleb _ x y) : num_scope.
Notation "x =? y" := (neqb _ x y) : num_scope.
Notation "x >? y" := (nltb _ y x) : num_scope.
Notation "x >=? y" := (nleb _ y x) : num_scope.
Notation "# z" := (nofZ _ z%Z) (at level 1, z at level 0, format "# z") : num_scope.
