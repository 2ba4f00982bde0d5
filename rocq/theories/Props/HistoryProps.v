(** Property C61. *)
From Coq Require Import String List Reals ZArith NArith Permutation.
From Verif Require Import Model.Num Model.Outcome Model.Rng Model.Types Model.Particle
  Model.Perturbation Model.Transport Model.Driver Spec.TransportSpec Spec.HistorySpec
  Proofs.SampleFission Proofs.HistoryProofs.
Import ListNotations.

(** C61: a family is what the transport of a particle makes of it, by the small
    specification Spec/HistorySpec.v. The bank loop follows the members' walks, each
    once, in some order; conversely every complete family is followed to the end;
    and a particle has one family only. *)
Theorem C61_members_once :
  forall (A : Arith) (G : Rng A) (E : Type) (score : E -> particle A G -> outcome E)
    (dr : @driver A) fuel e (p : particle A G) e',
  bank_loop score dr fuel e [p] = Ok e' ->
  exists f order, complete dr f /\ founder f = p
    (* the walks followed are those of the members, each once *)
    /\ Permutation (members f) order
    /\ foldM score (events order) e = Ok e'.
Proof. exact C61_members_once_proof. Qed.
Print Assumptions C61_members_once.
Theorem C61_all_members :
  forall (A : Arith) (G : Rng A) (dr : @driver A) (f : @family A G),
  complete dr f ->
  exists order enough, Permutation (members f) order
    /\ forall (E : Type) (score : E -> particle A G -> outcome E) e e' fuel,
       (enough <= fuel)%nat -> foldM score (events order) e = Ok e' ->
       bank_loop score dr fuel e [founder f] = Ok e'.
Proof. exact C61_all_members_proof. Qed.
Print Assumptions C61_all_members.
Theorem C61_one_family :
  forall (A : Arith) (G : Rng A) (dr : @driver A) (f f' : @family A G),
  complete dr f -> complete dr f' -> founder f = founder f' -> f = f'.
Proof. exact C61_one_family_proof. Qed.
Print Assumptions C61_one_family.

(** A fission with two neutrons, both captured: three walks of one event each. *)
Example C61_case :
  exists (f : @family XRa two_rng) enough, complete pile_driver f /\ founder f = pile_start
    /\ length (members f) = 3
    /\ bank_loop (fun n _ => Ok (S n)) pile_driver enough 0 [pile_start] = Ok 3.
Proof.
  destruct pile_family as (f & C & F & M & E).
  destruct (C61_all_members_proof XRa two_rng pile_driver f C) as (order & enough & P & H).
  exists f, enough. repeat split; auto. rewrite <- F. apply H; [apply le_n|].
  assert (L : length (events order) = 3).
  { rewrite <- E. apply Permutation_length, Permutation_flat_map, Permutation_sym, P. }
  revert L. generalize (events order). clear. intros l.
  destruct l as [|? [|? [|? [|]]]]; try discriminate. reflexivity.
Qed.
