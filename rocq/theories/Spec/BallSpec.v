(** An isotropic source in the middle of a ball: test/point_source_leakage.xml. *)
From Coq Require Import Bool List Reals NArith.
From Verif Require Import Model.Num Model.Outcome Model.Rng Model.Xml Model.Point Model.Surface Model.Types
  Model.Field Model.Particle Model.Material Model.World Model.Perturbation Model.Transport Model.Driver
  Spec.Vec Spec.EstimatorSpec Spec.ChanceSpec.
Import ListNotations.
Local Open Scope R_scope.

(** Cell [c] is the inside of a ball about [a], and the world outside is void. *)
Record ball (w : world XRa) (c : cell XRa) (a : vec) (r : R) : Prop := {
  bl_radius : 0 < r;
  bl_cell : exists s, c_senses c = [(s, true)] /\ s_shape (su_surface s) = Sphere (A := XRa) (pt a) (Fin r);
  bl_inside : find_cell w (pt a) = Ok c;
  bl_outside : forall x, r < dist x a -> exists c', find_cell w (pt x) = Ok c' /\ c_material c' = None
}.
(** A neutron of an isotropic source at [a]: the first numbers choose its direction and the
    others are its own. *)
Definition isotropic_neutron (a : vec) (g : N) (l : list R) : particle XRa Given :=
  let (dir, s) := sample_direction (A := XRa) (G := Given) DirIsotropic l in
  set_rng (new_particle (pt a) dir (Group g) neutron 1 None) s.
(** Of the particles that are scored, one after each step, just [n] have crossed the surface. *)
Definition tallied (t : tracking) (fuel : nat) (w : world XRa) (id : nat) (n : nat) (p : particle XRa Given) : bool :=
  match transport (A := XRa) (fun seen q => Ok (seen ++ [q])%list) t fuel w [] p with
  | Ok (seen, _) => Nat.eqb (length (filter (EstimatorSpec.crossed id) seen)) n
  | _ => false
  end.
