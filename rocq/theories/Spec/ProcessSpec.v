(** Terms for the calls made in one process. *)
From Coq Require Import List NArith.
From Verif Require Import Model.Num Model.Rng Model.Types Model.World Model.Perturbation Model.Estimator
  Model.Transport Model.Driver Model.Program Model.Process.
Import ListNotations.

(** None of the calls solves the problem [i]. *)
Definition unsolved (i : nat) (calls : list call) : Prop :=
  forall fuel schedule, ~ In (SolveProblem i fuel schedule) calls.

(** The problem with the tracking method [t] instead of its own. *)
Definition tracked_by {A : Arith} {G : Rng A} (t : tracking) (pb : @problem A G) : @problem A G :=
  match pb with
  | FixedProblem dr =>
      FixedProblem (mkDriver (dr_world dr) (dr_perts dr) (dr_batchsize dr) (dr_seed dr) (dr_init dr)
                             (dr_threads dr) t (dr_source dr))
  | KEigenProblem dr ke => KEigenProblem dr ke
  end.
