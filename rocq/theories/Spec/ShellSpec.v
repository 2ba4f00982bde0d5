(** An isotropic source in the middle of absorbing shells, one around the other. *)
From Coq Require Import Bool List Reals NArith.
From Verif Require Import Model.Num Model.Outcome Model.Rng Model.Xml Model.Point Model.Surface Model.Types
  Model.Field Model.Particle Model.Multigroup Model.Material Model.World Spec.Vec Spec.MultigroupSpec
  Spec.CollisionSpec Spec.AbsorbSpec.
Import ListNotations.
Local Open Scope R_scope.

Section Shells.
  Context (X : Ext XRa) (Gs : list N) (doc : nuclide XRa -> node) (w : world XRa) (g : N) (a : vec) (k : R).

  (** Cell [c] is filled with a mixture that only absorbs, with macroscopic cross section [S]. *)
  Definition filled (c : cell XRa) (S : R) : Prop :=
    exists m d, c_material c = Some m /\ mixture X Gs doc m /\ absorbs X doc m g /\ m_density m = Fin d
      /\ S = d * mixed_sum doc m (fun n => sigma X n Rcapture g).
  (** Surface [s] is the sphere about the middle with radius [r]. *)
  Definition around_middle (s : surf XRa) (r : R) : Prop :=
    s_shape (su_surface s) = Sphere (A := XRa) (pt a) (Fin r).

  (** Cell [c] begins with the surfaces [inner] and is entered at the distance [q] of the middle.
      From there outwards there are [n] cells up to the void, [x] mean free paths in all.
      A particle that leaves a cell is put [k] behind its surface. *)
  Inductive shells : list (surf XRa * bool) -> R -> cell XRa -> nat -> R -> Prop :=
  | last_shell inner q c s r S :
      c_senses c = inner ++ [(s, true)] -> around_middle s r -> q < r -> filled c S ->
      (forall x, r < dist x a -> exists c', find_cell w (pt x) = Ok c' /\ c_material c' = None) ->
      shells inner q c 1 (S * (r - q))
  | next_shell inner q c s r S c' n x :
      c_senses c = inner ++ [(s, true)] -> around_middle s r -> 0 < r -> q < r -> filled c S ->
      (forall x, dist x a = r + k -> find_cell w (pt x) = Ok c') ->
      shells [(s, false)] (r + k) c' n x ->
      shells inner q c (1 + n) (S * (r - q) + x).
End Shells.
