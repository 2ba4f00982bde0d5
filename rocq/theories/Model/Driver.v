(** Sources and drivers: src/Source.cpp, src/Bank.cpp, src/Driver.cpp,
    src/FixedSource.cpp, src/KEigenvalue.cpp. *)
From Coq Require Import Bool String List ZArith NArith.
From Verif Require Import Model.Num Model.Outcome Model.Rng Model.Xml Model.Std Model.Point
  Model.Surface Model.Types Model.Bins Model.Field Model.Tables Model.Particle
  Model.Multigroup Model.Continuous Model.Material Model.World Model.Perturbation
  Model.Estimator Model.Transport.
Import ListNotations.
Local Open Scope string_scope.
Local Open Scope bool_scope.
Local Open Scope num_scope.
Local Open Scope outcome_scope.

Section Source.
  Context {A : Arith} {G : Rng A}.
  Notation particle := (particle A G).

  (** The direction distributions, src/Source.hpp *)
  Inductive dir_dist : Type :=
    | DirConstant (d : point A)
    | DirIsotropic
    | DirIsotropicFlux (reference : point A).

  (** Source members; position, energy and type have constant distributions only. *)
  Record source : Type := mkSource {
    so_position : point A;
    so_direction : dir_dist;
    so_energy : energy A;
    so_type : ptype
  }.

  (** Distribution<T>::Create, Source.cpp:26-92. Unknown names give null pointers
      (undefined when sampled; reported at once here). *)
  Definition position_create (X : Ext A) (n : node) : outcome (point A) :=
    let d := n_first_child n in
    if String.eqb (n_name d) "constant" then Ok (point_of_node X d) else UB.
  Definition direction_create (X : Ext A) (n : node) : outcome dir_dist :=
    let d := n_first_child n in
    if String.eqb (n_name d) "constant" then Ok (DirConstant (dir_of_node X d))
    else if String.eqb (n_name d) "isotropic" then Ok DirIsotropic
    else if String.eqb (n_name d) "isotropic-flux" then Ok (DirIsotropicFlux (dir_of_node X d))
    else UB.
  Definition energy_create (X : Ext A) (n : node) : outcome (energy A) :=
    let d := n_first_child n in
    if String.eqb (n_name d) "constant" then
      let energy_type := n_name (n_first_child (n_child (n_child (n_root n) "minimc")
                                                         "nuclides")) in
      let value := as_string (n_attr d "energy") in
      if String.eqb energy_type "multigroup" then
        let! g := stoull X value in Ok (Group g)
      else if String.eqb energy_type "continuous" then
        let! e := stod X value in Ok (ContinuousE e)
      else UB
    else UB.
  Definition type_create (n : node) : outcome ptype :=
    let d := n_first_child n in
    if String.eqb (n_name d) "constant" then Ok (to_type (as_string (n_attr d "type")))
    else UB.

  (** Source constructor, Source.cpp:135-141 *)
  Definition source_create (X : Ext A) (n : node) : outcome source :=
    let! pos := position_create X (n_child n "position") in
    let! dir := direction_create X (n_child n "direction") in
    let! en := energy_create X (n_child n "energy") in
    let! ty := type_create (n_child n "particletype") in
    Ok (mkSource pos dir en ty).

  (** Direction sampling, Source.cpp:104-107, 113-115, 124-129 *)
  Definition sample_direction (d : dir_dist) (s : rst G) : point A * rst G :=
    match d with
    | DirConstant x => (x, s)
    | DirIsotropic => dir_isotropic G s
    | DirIsotropicFlux reference =>
        let (u, s1) := runif G s in
        let mu := nsqrt A u in
        let (phi, s2) := uniform G (#0) (#2 * c_pi) s1 in
        (dir_rotate reference mu phi, s2)
    end.

  (** Source::Sample, Source.cpp:143-154 *)
  Definition source_sample (so : source) (seed : Z) : particle :=
    let s0 := rseed G seed in
    let (dir, s1) := sample_direction (so_direction so) s0 in
    let (seed', _) := rraw G s1 in
    new_particle (so_position so) dir (so_energy so) (so_type so) seed' None.
End Source.
Arguments source A : clear implicits.

Section Driver.
  Context {A : Arith} {G : Rng A}.
  Notation particle := (particle A G).

  (** src/Driver.hpp:31-50: members, and FixedSource::source. *)
  Record driver : Type := mkDriver {
    dr_world : world A;
    dr_perts : list (perturbation A);
    dr_batchsize : N;
    dr_seed : N;
    dr_init : estimator_set A;
    dr_threads : N;
    dr_tracking : tracking;
    dr_source : source A
  }.

  (** Driver constructor, Driver.cpp:37-52, and FixedSource constructor,
      FixedSource.cpp:19-20. [int] converts to a 64-bit unsigned type. *)
  Definition of_int (z : Z) : N := Z.to_N (z mod 2 ^ 64)%Z.
  Definition driver_create (X : Ext A) (root source_node : node) : outcome driver :=
    let! w := world_create X root in
    let! pts := noexcept (perturbations_create w (n_child root "perturbations")) in
    let general := n_child root "general" in
    let! batch := stoi X (n_text (n_child general "histories")) in
    let batchsize := of_int batch in
    let seed_node := n_child general "seed" in
    let! sd := stoi X (if is_null seed_node then "1" else n_text seed_node) in
    let! init := estimator_set_create X w pts (nofN batchsize) (n_child root "estimators") in
    let! threads := stoul X (n_text (n_child general "threads")) in
    let! t := tracking_create root w in
    let! so := source_create X source_node in
    Ok (mkDriver w pts batchsize (of_int sd) init threads t so).
  Definition fixed_source_create (X : Ext A) (root : node) : outcome driver :=
    driver_create X root (n_child (n_child root "problemtype") "fixedsource").

  (** The bank loop of one history, FixedSource.cpp:63-72: the back of the bank is
      transported, its secondaries are spliced to the front (Bank.cpp:5-8), the back
      is removed. *)
  Fixpoint bank_loop {E : Type} (score : E -> particle -> outcome E) (dr : driver)
      (fuel : nat) (e : E) (bank : list particle) : outcome E :=
    match rev bank with
    | [] => Ok e
    | back :: front_rev =>
        match fuel with
        | O => OutOfFuel
        | S fuel' =>
            let p := set_perturbations (dr_perts dr) back in
            let! ep := transport score (dr_tracking dr) fuel' (dr_world dr) e p in
            let (e1, p1) := (ep : E * particle) in
            bank_loop score dr fuel' e1 (p_secondaries p1 ++ rev front_rev)%list
        end
    end.

  (** The first particle of history [elapsed], FixedSource.cpp:61: the sum of two
      64-bit unsigned numbers wraps. *)
  Definition history_seed (dr : driver) (elapsed : N) : N := wrap64 (dr_seed dr + elapsed).
  Definition history_start (dr : driver) (elapsed : N) : particle :=
    source_sample (dr_source dr) (Z.of_N (history_seed dr elapsed)).

  (** One history, FixedSource.cpp:48 and 59-74: a fresh proxy, the bank loop, and
      the commit. *)
  Definition run_history (dr : driver) (fuel : nat) (ests : estimator_set A) (elapsed : N)
      : outcome (estimator_set A) :=
    let! px := bank_loop (set_proxy_score ests) dr fuel (new_set_proxy ests)
                         [history_start dr elapsed] in
    set_commit ests px.

  (** ** FixedSource::Solve as an interleaving of its workers *)

  (** A worker, FixedSource.cpp:40-77: about to take a history number, running the
      history it took, finished, or stopped by a failure. *)
  Inductive worker : Type :=
    | Idle (ests : estimator_set A)
    | Busy (ests : estimator_set A) (elapsed : N)
    | Done (ests : estimator_set A)
    | Failed (o : outcome (estimator_set A)).

  (** The state shared by the workers: the atomic counter histories_elapsed. *)
  Record solver : Type := mkSolver { sv_counter : N; sv_workers : list worker }.

  (** One step of one worker. [histories_elapsed++] is one atomic step
      (FixedSource.cpp:50-53); everything else touches only the worker's own
      EstimatorSet and immutable data and is one step. *)
  Definition worker_step (dr : driver) (fuel : nat) (counter : N) (wk : worker)
      : N * worker :=
    match wk with
    | Idle ests =>
        (wrap64 (counter + 1),
         if (dr_batchsize dr <=? counter)%N then Done ests else Busy ests counter)
    | Busy ests elapsed =>
        (counter,
         match run_history dr fuel ests elapsed with
         | Ok ests' => Idle ests'
         | o => Failed o
         end)
    | _ => (counter, wk)
    end.

  Fixpoint update_nth {V} (i : nat) (v : V) (l : list V) : list V :=
    match l, i with
    | [], _ => []
    | _ :: t, O => v :: t
    | x :: t, S i' => x :: update_nth i' v t
    end.

  (** The scheduler runs worker [i]. *)
  Definition solver_step (dr : driver) (fuel : nat) (sv : solver) (i : nat) : solver :=
    match nth_error (sv_workers sv) i with
    | None => sv
    | Some wk =>
        let (c, wk') := worker_step dr fuel (sv_counter sv) wk in
        mkSolver c (update_nth i wk' (sv_workers sv))
    end.

  (** Start of Solve, FixedSource.cpp:22-29: every worker copies
      init_estimator_set. [counter] is 0 on the first call. *)
  Definition solver_start (dr : driver) (counter : N) : solver :=
    mkSolver counter (repeat (Idle (dr_init dr)) (N.to_nat (dr_threads dr))).

  Definition run_schedule (dr : driver) (fuel : nat) (sv : solver) (schedule : list nat)
      : solver :=
    fold_left (solver_step dr fuel) schedule sv.

  (** The estimator sets of the futures, once every worker has finished. *)
  Definition worker_result (wk : worker) : outcome (estimator_set A) :=
    match wk with Done e => Ok e | Failed o => o | _ => OutOfFuel end.

  (** The merge, FixedSource.cpp:30-35 *)
  Definition solver_result (dr : driver) (sv : solver) : outcome (estimator_set A) :=
    foldM (fun acc wk => let! e := worker_result wk in set_add acc e)
          (sv_workers sv) (dr_init dr).

  (** ** KEigenvalue *)

  (** src/KEigenvalue.hpp: members besides Driver's. *)
  Record keigen : Type := mkKeigen {
    ke_init : estimator_set A;
    ke_last_inactive : N;
    ke_last_active : N;
    ke_source_bank : list particle
  }.

  (** The source bank built by the constructor, KEigenvalue.cpp:29-33: seeds 1 to
      batchsize. *)
  Definition ke_initial_bank (so : source A) (batchsize : N) : list particle :=
    map (fun i => source_sample so (Z.of_nat i)) (seq 1 (N.to_nat batchsize)).

  (** Constructor, KEigenvalue.cpp:19-34, given the Driver base. *)
  Definition keigen_create (X : Ext A) (root : node) : outcome keigen :=
    let ke := n_child (n_child root "problemtype") "keigenvalue" in
    let! dr := driver_create X root (n_child ke "initialsource") in
    let inactive := as_uint X (n_attr ke "inactive") in
    Ok (mkKeigen (dr_init dr) inactive
          (wrap64 (inactive + as_uint X (n_attr ke "active")))
          (ke_initial_bank (dr_source dr) (dr_batchsize dr))).

  (** Solve, KEigenvalue.cpp:36-62: no worker is started and no result is merged,
      so each cycle leaves the estimators as they are. *)
  Definition ke_cycle (ests : estimator_set A) : estimator_set A := ests.
  Definition ke_solve (ke : keigen) : estimator_set A :=
    N.iter (ke_last_inactive ke) ke_cycle (ke_init ke).

  (** ** NextParticle, KEigenvalue.cpp:76-84, called by several threads *)

  (** Where a thread is: outside a call (or waiting for the lock, line 77); before
      [empty()] (78); before [back()] (79); before [pop_back()] (80); before the
      lock is given up with the answer (81 or 83, and the end of the scope); or
      past an access to an empty bank, which is undefined. *)
  Inductive np_thread : Type :=
    | NpOut
    | NpTest
    | NpBack
    | NpPop (p : particle)
    | NpReturn (answer : option particle)
    | NpBroken.

  (** The holder of source_bank_mutex, source_bank, the threads, and the answers
      given so far, in the order in which the lock was given up, with the thread
      that got each. *)
  Record np_state : Type := mkNp {
    np_lock : option nat;
    np_bank : list particle;
    np_threads : list np_thread;
    np_answers : list (nat * option particle)
  }.

  (** The last particle of the bank and the others. *)
  Definition bank_back (bank : list particle) : option (particle * list particle) :=
    match rev bank with
    | [] => None
    | back :: front_rev => Some (back, rev front_rev)
    end.

  (** The scheduler runs thread [i] up to its next access. A thread that waits for
      a lock held by another does not move. *)
  Definition np_step (st : np_state) (i : nat) : np_state :=
    let go lock bank th answers :=
      mkNp lock bank (update_nth i th (np_threads st)) answers in
    match nth_error (np_threads st) i with
    | None | Some NpBroken => st
    | Some NpOut =>
        match np_lock st with
        | None => go (Some i) (np_bank st) NpTest (np_answers st)
        | Some _ => st
        end
    | Some NpTest =>
        go (np_lock st) (np_bank st)
           (match np_bank st with [] => NpReturn None | _ :: _ => NpBack end) (np_answers st)
    | Some NpBack =>
        go (np_lock st) (np_bank st)
           (match bank_back (np_bank st) with None => NpBroken | Some (p, _) => NpPop p end)
           (np_answers st)
    | Some (NpPop p) =>
        match bank_back (np_bank st) with
        | None => go (np_lock st) (np_bank st) NpBroken (np_answers st)
        | Some (_, rest) => go (np_lock st) rest (NpReturn (Some p)) (np_answers st)
        end
    | Some (NpReturn answer) =>
        go None (np_bank st) NpOut (np_answers st ++ [(i, answer)])%list
    end.

  Definition np_start (threads : nat) (bank : list particle) : np_state :=
    mkNp None bank (repeat NpOut threads) [].
  Definition np_run (st : np_state) (schedule : list nat) : np_state :=
    fold_left np_step schedule st.
End Driver.
