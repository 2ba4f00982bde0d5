(** Several problems in one process. The transport method is a static member of Particle:
    src/Particle.hpp:47, src/Particle.cpp:34; it is set by the constructor of Driver,
    src/Driver.cpp:49-52. *)
From Coq Require Import Bool String List ZArith NArith.
From Verif Require Import Model.Num Model.Outcome Model.Rng Model.Xml Model.Std Model.Point
  Model.Surface Model.Types Model.Bins Model.Field Model.Tables Model.Particle
  Model.Multigroup Model.Continuous Model.Material Model.World Model.Perturbation
  Model.Estimator Model.Transport Model.Driver Model.Schema Model.Program.
Import ListNotations.
Local Open Scope string_scope.
Local Open Scope bool_scope.
Local Open Scope outcome_scope.

Section Process.
  Context {A : Arith} {G : Rng A}.
  Variable V : Env A.

  (** What outlives the calls: Particle::transport_method, null at first, and the drivers
      with their FixedSource::histories_elapsed (src/FixedSource.hpp:29). *)
  Record process : Type := mkProcess {
    ps_method : option tracking;
    ps_problems : list (@problem A G * N)
  }.
  Definition process_start : process := mkProcess None [].

  (** The constructor of Driver up to the assignment of the transport method,
      Driver.cpp:37-52. A source that cannot be read is noticed only afterwards
      (FixedSource.cpp:19-20, KEigenvalue.cpp:19-34). *)
  Definition driver_method (X : Ext A) (root : node) : outcome tracking :=
    let! w := world_create X root in
    let! pts := noexcept (perturbations_create w (n_child root "perturbations")) in
    let general := n_child root "general" in
    let! batch := stoi X (n_text (n_child general "histories")) in
    let batchsize := of_int batch in
    let seed_node := n_child general "seed" in
    let! sd := stoi X (if is_null seed_node then "1" else n_text seed_node) in
    let! init := estimator_set_create X w pts (nofN batchsize) (n_child root "estimators") in
    let! threads := stoul X (n_text (n_child general "threads")) in
    tracking_create root w.

  (** The method that Driver::Create of this file leaves behind, if it gets that far,
      Driver.cpp:18-35. *)
  Definition file_method (path : string) : option tracking :=
    match (let! root := open_document V path in driver_method (env_ext V) root) with
    | Ok t => Some t
    | _ => None
    end.

  (** All particles use the static method, whatever problem they belong to
      (Particle.cpp:42-44, Perturbation.cpp:76). *)
  Definition with_method (t : tracking) (dr : @driver A) : @driver A :=
    mkDriver (dr_world dr) (dr_perts dr) (dr_batchsize dr) (dr_seed dr) (dr_init dr)
      (dr_threads dr) t (dr_source dr).

  (** Calls of the public interface, one after another. *)
  Inductive call : Type :=
    | CreateProblem (path : string)                          (* Driver::Create *)
    | SolveProblem (i fuel : nat) (schedule : list nat).     (* Solve of the i-th driver *)
  Inductive answer : Type :=
    | Created (o : outcome nat)
    | Solved (o : outcome (estimator_set A)).

  (** Driver::Create, Driver.cpp:18-35 *)
  Definition create_call (ps : process) (path : string) : process * answer :=
    let method := match file_method path with Some t => Some t | None => ps_method ps end in
    match (let! root := open_document V path in create_problem (G := G) V root) with
    | Ok pb => (mkProcess method (ps_problems ps ++ [(pb, 0%N)])%list,
                Created (Ok (length (ps_problems ps))))
    | o => (mkProcess method (ps_problems ps), Created (let! _ := o in Ok 0))
    end.

  (** FixedSource::Solve, FixedSource.cpp:22-37, starts from the histories already counted;
      KEigenvalue::Solve, KEigenvalue.cpp:36-62, transports nothing. A null transport method
      would be dereferenced. *)
  Definition solve_call (ps : process) (i fuel : nat) (schedule : list nat)
      : process * answer :=
    match nth_error (ps_problems ps) i with
    | None => (ps, Solved UB)
    | Some (KEigenProblem dr ke, _) => (ps, Solved (Ok (ke_solve ke)))
    | Some (FixedProblem dr, elapsed) =>
        match ps_method ps with
        | None => (ps, Solved UB)
        | Some t =>
            let dr' := with_method t dr in
            let sv := run_schedule (G := G) dr' fuel (solver_start dr' elapsed) schedule in
            (mkProcess (ps_method ps)
               (update_nth i (FixedProblem dr, sv_counter sv) (ps_problems ps)),
             Solved (solver_result dr' sv))
        end
    end.
  Definition process_call (ps : process) (c : call) : process * answer :=
    match c with
    | CreateProblem path => create_call ps path
    | SolveProblem i fuel schedule => solve_call ps i fuel schedule
    end.
  Definition process_after (calls : list call) : process :=
    fold_left (fun ps c => fst (process_call ps c)) calls process_start.
  (** What the last of the calls answers. *)
  Definition answer_after (calls : list call) (c : call) : answer :=
    snd (process_call (process_after calls) c).
End Process.
