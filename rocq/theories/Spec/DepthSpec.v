(** Where in layers of absorbers a neutron is captured. *)
From Coq Require Import Bool List Reals NArith.
From Verif Require Import Model.Num Model.Outcome Model.Rng Model.Xml Model.Point Model.Surface Model.Types
  Model.Field Model.Particle Model.Multigroup Model.Material Model.World
  Spec.Vec Spec.MultigroupSpec Spec.SumSpec Spec.ChanceSpec Spec.LayerSpec.
Import ListNotations.
Local Open Scope R_scope.

(** The cells from [o] along [v] up to the void, each with its thickness in mean free paths. *)
Inductive stack (X : Ext XRa) (Gs : list N) (doc : nuclide XRa -> node) (w : world XRa) (g : N) (v : vec)
    : vec -> cell XRa -> list (cell XRa * R) -> Prop :=
| top_cell o c x o' c' : layer X Gs doc w g v o c x o' c' -> c_material c' = None -> stack X Gs doc w g v o c [(c, x)]
| under_cell o c x o' c' l : layer X Gs doc w g v o c x o' c' -> stack X Gs doc w g v o' c' l ->
    stack X Gs doc w g v o c ((c, x) :: l).
(** The neutron was captured in the cell with this address. *)
Definition captured_in (id : nat) (q : particle XRa Given) : bool :=
  event_eqb (p_event q) capture && match p_cell q with Some c => Nat.eqb (c_id c) id | None => false end.
