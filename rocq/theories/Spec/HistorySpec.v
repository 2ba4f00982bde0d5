(** Histories: a source particle, the walks of the whole family it starts, and the
    order in which they are followed. *)
From Coq Require Import List NArith Permutation.
From Verif Require Import Model.Num Model.Outcome Model.Rng Model.Types Model.Particle
  Model.Perturbation Model.Transport Model.Driver Spec.TransportSpec.
Import ListNotations.

Section History.
  Context {A : Arith} {G : Rng A}.
  Notation particle := (particle A G).

  (** A walk: the states after each event until the particle ends. *)
  Inductive walk (t : tracking) (w : world A) : particle -> list particle -> particle -> Prop :=
    | Walk_end p : ended p -> walk t w p [] p
    | Walk_event fuel p p1 visited q :
        ~ ended p -> transport_step t fuel w p = Ok p1 -> walk t w p1 visited q ->
        walk t w p (p1 :: visited) q.

  (** A particle, the states of its walk, and the families of its secondaries. *)
  Inductive family : Type :=
    Family (start : particle) (visited : list particle) (children : list family).
  Definition founder (f : family) : particle := match f with Family p _ _ => p end.

  (** Every member of a family starts, without indirect effects yet, in the first
      cell that contains it and walks until it ends; its children are the
      secondaries it has banked by then. *)
  Inductive complete (dr : driver (A := A)) : family -> Prop :=
    Complete p c visited q children :
      first_cell (dr_world dr) (p_position p) c ->
      walk (dr_tracking dr) (dr_world dr) (set_cell (set_perturbations (dr_perts dr) p) c)
           visited q ->
      p_secondaries q = map founder children ->
      Forall (complete dr) children ->
      complete dr (Family p visited children).

  (** All members of a family with the states of their walks. *)
  Fixpoint members (f : family) : list (particle * list particle) :=
    match f with Family p visited children => (p, visited) :: flat_map members children end.

  (** The events of some walks, one walk after another. *)
  Definition events (walks : list (particle * list particle)) : list particle :=
    flat_map snd walks.

  (** [evs] is what a history can show to an estimator: the events of a complete
      family of the source particle of history [i], one member after another. *)
  Definition history (dr : driver (A := A)) (i : N) (evs : list particle) : Prop :=
    exists f order, complete dr f /\ founder f = history_start dr i
      /\ Permutation (members f) order /\ evs = events order.
End History.
