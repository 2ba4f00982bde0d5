(** Property C61. *)
From Coq Require Import String List Reals ZArith NArith Permutation.
From Verif Require Import Model.Num Model.Outcome Model.Rng Model.Types Model.Particle
  Model.Perturbation Model.Transport Model.Driver Spec.TransportSpec Spec.HistorySpec
  Proofs.SampleFission Proofs.HistoryProofs.
Import ListNotations.

(** C61: a family is what the transport of a particle makes of it, by the small
    specification Spec/HistorySpec.v. The bank loop follows the members' walks, each
    once, in some order; conversely every complete family is followed to the end;
    and a particle has one family only. *)
@@C61_members_once
@@C61_all_members
@@C61_one_family

(** A fission with two neutrons, both captured: three walks of one event each. *)
Example C61_case :
  exists (f : @family XRa two_rng) enough, complete pile_driver f /\ founder f = pile_start
    /\ length (members f) = 3
    /\ bank_loop (fun n _ => Ok (S n)) pile_driver enough 0 [pile_start] = Ok 3.
Proof.
  destruct pile_family as (f & C & F & M & E).
  destruct (C61_all_members_proof XRa two_rng pile_driver f C) as (order & enough & P & H).
  exists f, enough. repeat split; auto. rewrite <- F. apply H; [apply le_n|].
  assert (L : length (events order) = 3).
  { rewrite <- E. apply Permutation_length, Permutation_flat_map, Permutation_sym, P. }
  revert L. generalize (events order). clear. intros l.
  destruct l as [|? [|? [|? [|]]]]; try discriminate. reflexivity.
Qed.
