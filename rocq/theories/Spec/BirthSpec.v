(** The neutrons that come of a fission. *)
From Coq Require Import Bool List Reals NArith.
From Verif Require Import Model.Num Model.Outcome Model.Rng Model.Xml Model.Types Model.Particle
  Spec.MultigroupSpec Spec.CollisionSpec.
Import ListNotations.
Local Open Scope R_scope.

(** What is asked of a neutron: its group, and a number which its cosine to the x axis is
    to be below. *)
Definition wanted : Type := N * R.
(** The neutrons are as many as asked for, and each is as asked, in their order. *)
Fixpoint as_wanted {G : Rng XRa} (ws : list wanted) (born : list (particle XRa G)) : bool :=
  match ws, born with
  | [], [] => true
  | (h, x) :: ws', q :: born' => in_group h q && cosine_below x q && as_wanted ws' born'
  | _, _ => false
  end.

(** The share of the neutrons of fission by group [g] that come in group [h]. *)
Definition emitted (X : Ext XRa) (g h : N) (n : node) : R :=
  weight X n (chi_node n) h g / column_sum X n (chi_node n) g.
(** Independent neutrons, each isotropic. *)
Fixpoint all_emitted (X : Ext XRa) (g : N) (ws : list wanted) (n : node) : R :=
  match ws with
  | [] => 1
  | (h, x) :: ws' => emitted X g h n * ((1 + x) / 2) * all_emitted X g ws' n
  end.
