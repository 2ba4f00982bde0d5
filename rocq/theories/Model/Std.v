(** The parts of the C++ standard library that the code relies on, and
    [size_t] arithmetic. *)
From Coq Require Import Bool String List ZArith NArith.
From Verif Require Import Model.Num Model.Outcome.
Import ListNotations.
Local Open Scope string_scope.

(** [size_t] arithmetic wraps modulo 2^64. *)
Definition wrap64 (n : N) : N := (n mod 2 ^ 64)%N.
Definition sub64 (n k : N) : N := wrap64 (n + (2 ^ 64 - k)).

(** Conversion of a [size_t] to [Real]. *)
Definition nofN {A : Arith} (n : N) : num A := nofZ A (Z.of_N n).

(** [vector::at] and [array::at]: range-checked access. The text of libstdc++'s
    message is shortened. *)
Definition vec_at {X} (l : list X) (i : N) : outcome X :=
  if (i <? N.of_nat (length l))%N then
    match nth_error l (N.to_nat i) with Some x => Ok x | None => UB end
  else Throw "vector::_M_range_check".

(** [std::map::emplace] of a new key into a map in the order of addresses. *)
Fixpoint insert_at {X} (address : X -> N) (x : X) (l : list X) : list X :=
  match l with
  | [] => [x]
  | y :: t => if (address x <? address y)%N then x :: l else y :: insert_at address x t
  end.

(** The loop of libstdc++'s [std::upper_bound]. [less i] is the test
    [value < element i]; [first] is an offset, [len] the length of the remaining
    range. Each turn shortens [len], so [fuel = length] suffices. *)
Fixpoint upper_bound_loop (fuel : nat) (less : nat -> outcome bool) (first len : nat)
    : outcome nat :=
  match fuel with
  | O => if Nat.eqb len 0 then Ok first else OutOfFuel
  | S fuel' =>
      if Nat.eqb len 0 then Ok first
      else
        let half := Nat.div2 len in
        bind (less (first + half)%nat) (fun b : bool =>
        if b then upper_bound_loop fuel' less first half
        else upper_bound_loop fuel' less (first + half + 1)%nat (len - half - 1)%nat)
  end.

Definition upper_bound_gen (less : nat -> outcome bool) (len : nat) : outcome nat :=
  upper_bound_loop len less 0 len.

(** [std::upper_bound] over a vector of [size_t]. *)
Definition upper_bound_N (v : N) (l : list N) : outcome nat :=
  upper_bound_gen (fun i => match nth_error l i with
                            | Some x => Ok (v <? x)%N
                            | None => UB
                            end) (length l).

(** [std::map] with keys ordered by [<] on [Real], as the list of its entries
    in key order. *)
Section Map.
  Context {A : Arith} {V : Type}.
  (** [m[k] = v]: insert or overwrite. *)
  Fixpoint map_set (k : num A) (v : V) (l : list (num A * V)) : list (num A * V) :=
    match l with
    | [] => [(k, v)]
    | (k', v') :: t =>
        if nltb A k k' then (k, v) :: l
        else if nltb A k' k then (k', v') :: map_set k v t
        else (k', v) :: t
    end.
  (** [upper_bound(k)]: the first entry with key greater than [k], with the entry
      before it. *)
  Fixpoint map_upper (prev : option (num A * V)) (k : num A) (l : list (num A * V))
      : option (num A * V) * option (num A * V) :=
    match l with
    | [] => (prev, None)
    | (k', v') :: t =>
        if nltb A k k' then (prev, Some (k', v')) else map_upper (Some (k', v')) k t
    end.
End Map.

(** [std::accumulate] with [+]. *)
Definition accumulate {A : Arith} (init : num A) (l : list (num A)) : num A :=
  fold_left (nadd A) l init.
