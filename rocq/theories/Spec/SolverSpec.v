(** Runs of the fixed-source solver under a scheduler: which histories are started,
    and when the workers have finished. *)
From Coq Require Import List NArith PeanoNat.
From Verif Require Import Model.Num Model.Outcome Model.Rng Model.Estimator Model.Driver.
Import ListNotations.

Section Solver.
  Context {A : Arith} {G : Rng A}.
  Notation solver := (@solver A).

  (** The numbers below [n]. *)
  Definition below (n : N) : list N := map N.of_nat (seq 0 (N.to_nat n)).

  (** The history a worker starts in a step from [sv] to [sv']. *)
  Definition start_of (i : nat) (sv sv' : solver) : list N :=
    match nth_error (sv_workers sv) i, nth_error (sv_workers sv') i with
    | Some (Idle _), Some (Busy _ h) => [h]
    | _, _ => []
    end.
  (** All histories started during a schedule, in order. *)
  Fixpoint started (dr : @driver A) (fuel : nat) (sv : solver) (schedule : list nat) : list N :=
    match schedule with
    | [] => []
    | i :: rest =>
        let sv' := solver_step (G := G) dr fuel sv i in
        start_of i sv sv' ++ started dr fuel sv' rest
    end.

  Definition finished (wk : @worker A) : Prop :=
    match wk with Done _ | Failed _ => True | _ => False end.
  Definition succeeded (wk : @worker A) : Prop :=
    match wk with Done _ => True | _ => False end.

  (** The same problem with another number of threads. *)
  Definition with_threads (t : N) (dr : @driver A) : @driver A :=
    mkDriver (dr_world dr) (dr_perts dr) (dr_batchsize dr) (dr_seed dr) (dr_init dr) t
             (dr_tracking dr) (dr_source dr).

  (** The schedule lets every worker make at least [n] steps. *)
  Definition fair (dr : @driver A) (n : nat) (schedule : list nat) : Prop :=
    forall i, (i < N.to_nat (dr_threads dr))%nat -> (n <= count_occ Nat.eq_dec schedule i)%nat.

  (** The histories one after another in a single thread. *)
  Definition serial (dr : @driver A) (fuel : nat) : outcome (estimator_set A) :=
    foldM (run_history (G := G) dr fuel) (below (dr_batchsize dr)) (dr_init dr).
End Solver.
