(** The source bank of a k-eigenvalue problem. *)
From Coq Require Import List NArith.
From Verif Require Import Model.Num Model.Outcome Model.Rng Model.Types Model.Particle
  Model.Estimator Model.Transport Model.Driver.
Import ListNotations.

Section KEigenSpec.
  Context {A : Arith} {G : Rng A}.

  (** What transporting a bank would give: every particle of it is followed with its
      progeny, its scores gathered and committed. *)
  Definition transported (dr : @driver A) (fuel : nat) (ests : estimator_set A)
      (bank : list (particle A G)) : outcome (estimator_set A) :=
    foldM (fun e p =>
             bind (bank_loop (set_proxy_score e) dr fuel (new_set_proxy e) [p]) (set_commit e))
          bank ests.

  (** The particles among answers. *)
  Definition particles_of (answers : list (option (particle A G))) : list (particle A G) :=
    flat_map (fun a => match a with Some p => [p] | None => [] end) answers.
  (** The answers a thread got. *)
  Definition answers_of (i : nat) (st : @np_state A G) : list (option (particle A G)) :=
    map snd (filter (fun a => Nat.eqb (fst a) i) (np_answers st)).
  (** The particles taken out of the bank whose caller has not got them yet. *)
  Definition in_flight (st : @np_state A G) : list (particle A G) :=
    flat_map (fun t => match t with NpReturn (Some p) => [p] | _ => [] end) (np_threads st).
End KEigenSpec.
