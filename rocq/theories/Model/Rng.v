(** Random numbers. [RNG] is [std::minstd_rand] (src/BasicTypes.hpp:27). *)
From Coq Require Import ZArith Lia.
From Verif Require Import Model.Num.
Local Open Scope Z_scope.

(** What the code uses of a generator: construction from a seed, the raw
    output of [rng()] and [std::uniform_real_distribution{}(rng)]. *)
Record Rng (A : Arith) : Type := mkRng {
  rst : Type;                             (* generator state *)
  rseed : Z -> rst;                       (* RNG{seed} *)
  rraw : rst -> Z * rst;                  (* rng() *)
  runif : rst -> num A * rst              (* uniform on [0,1) *)
}.
Arguments rst {A} r.
Arguments rseed {A} r _.
Arguments rraw {A} r _.
Arguments runif {A} r _.

Section Distributions.
  Context {A : Arith} (G : Rng A).

  (** [std::uniform_real_distribution{a, b}(rng)], libstdc++:
      [generate_canonical * (b - a) + a]. *)
  Definition uniform (a b : num A) (s : rst G) : num A * rst G :=
    let (u, s') := runif G s in
    (nadd A (nmul A u (nsub A b a)) a, s').

  (** [std::exponential_distribution{lambda}(rng)], libstdc++:
      [-log(1 - generate_canonical) / lambda]. *)
  Definition exponential (lambda : num A) (s : rst G) : num A * rst G :=
    let (u, s') := runif G s in
    (ndiv A (nopp A (nlog A (nsub A (nofZ A 1) u))) lambda, s').

  (** [std::bernoulli_distribution{p}(rng)], libstdc++:
      [generate_canonical < p]. *)
  Definition bernoulli (p : num A) (s : rst G) : bool * rst G :=
    let (u, s') := runif G s in (nltb A u p, s').
End Distributions.

(** ** std::minstd_rand = linear_congruential_engine<uint_fast32_t, 48271, 0, 2147483647> *)

Definition minstd_m : Z := 2147483647.
Definition minstd_a : Z := 48271.

(** Seeding: [seed mod m], or 1 if that is zero and the increment is zero. *)
Definition minstd_seed (s : Z) : Z := if s mod minstd_m =? 0 then 1 else s mod minstd_m.

(** One step; the output is the new state. *)
Definition minstd_next (x : Z) : Z := (minstd_a * x) mod minstd_m.

(** Number of values [rng()] takes: [max - min + 1]. *)
Definition minstd_range : Z := 2147483646.

(** libstdc++ [generate_canonical<double, 53>]: two draws, the first weighing
    least; a sum that rounds up to one is replaced by the largest double below
    one. *)
Definition minstd_canonical (A : Arith) (x : Z) : num A * Z :=
  let x1 := minstd_next x in
  let x2 := minstd_next x1 in
  let r := nofZ A minstd_range in
  let sum := nadd A (nofZ A (x1 - 1)) (nmul A (nofZ A (x2 - 1)) r) in
  let ret := ndiv A sum (nmul A r r) in
  ((if nleb A (nofZ A 1) ret
    then nsub A (nofZ A 1) (ndiv A (neps A) (nofZ A 2))
    else ret), x2).

(** The engine's state is a value between 1 and m-1: seeding produces one and a
    step keeps it there. The state type carries that fact, so that [Minstd] has
    no states the engine cannot be in. *)
Definition minstd_in (x : Z) : bool := ((1 <=? x) && (x <=? 2147483646))%bool.
Record mstate : Type := mkMs { ms_val : Z; ms_in : minstd_in ms_val = true }.

Lemma minstd_in_spec x : minstd_in x = true <-> 1 <= x <= 2147483646.
Proof. unfold minstd_in; rewrite Bool.andb_true_iff, !Z.leb_le; tauto. Qed.

Lemma minstd_seed_in s : minstd_in (minstd_seed s) = true.
Proof.
  apply minstd_in_spec. unfold minstd_seed, minstd_m.
  destruct (Z.eqb_spec (s mod 2147483647) 0); [lia|].
  pose proof (Z.mod_pos_bound s 2147483647); lia.
Qed.

Lemma minstd_next_in x : minstd_in x = true -> minstd_in (minstd_next x) = true.
Proof.
  rewrite !minstd_in_spec. unfold minstd_next, minstd_a, minstd_m. intros H.
  pose proof (Z.mod_pos_bound (48271 * x) 2147483647).
  enough ((48271 * x) mod 2147483647 <> 0) by lia.
  intros E. apply Z.mod_divide in E; [|lia]. destruct E as [k E].
  (* 1899818559 is the inverse of 48271 *)
  assert (x = (k * 1899818559 - 42704 * x) * 2147483647).
  { replace ((k * 1899818559 - 42704 * x) * 2147483647)
      with (1899818559 * (k * 2147483647) - 42704 * 2147483647 * x) by ring.
    rewrite <- E. lia. }
  nia.
Qed.

Definition ms_seed (s : Z) : mstate := mkMs (minstd_seed s) (minstd_seed_in s).
Definition ms_next (s : mstate) : mstate :=
  mkMs (minstd_next (ms_val s)) (minstd_next_in _ (ms_in s)).

Definition Minstd (A : Arith) : Rng A := {|
  rst := mstate;
  rseed := ms_seed;
  rraw := fun s => (minstd_next (ms_val s), ms_next s);
  runif := fun s => (fst (minstd_canonical A (ms_val s)), ms_next (ms_next s))
|}.
