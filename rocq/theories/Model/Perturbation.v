(** Perturbations: src/Perturbation.cpp; Particle::Stream. *)
From Coq Require Import Bool String List ZArith NArith.
From Verif Require Import Model.Num Model.Outcome Model.Rng Model.Xml Model.Std Model.Point
  Model.Surface Model.Types Model.Bins Model.Field Model.Tables Model.Particle
  Model.Multigroup Model.Continuous Model.Material Model.World.
Import ListNotations.
Local Open Scope string_scope.
Local Open Scope bool_scope.
Local Open Scope num_scope.
Local Open Scope outcome_scope.

(** The two transport methods, src/TransportMethod.hpp. *)
Inductive tracking : Type := SurfaceTracking | CellDeltaTracking.

Section Perturbation.
  Context {A : Arith} {G : Rng A}.
  Notation particle := (particle A G).

  (** Perturbation::Create, Perturbation.cpp:22-33 (noexcept), with the constructors
      39-40 and 46-50. An unknown name gives a null pointer. *)
  Definition perturbation_create (w : world A) (id : nat) (n : node)
      : outcome (perturbation A) :=
    noexcept
      (if String.eqb (n_name n) "total" then
         let! nu := find_nuclide w (as_string (n_attr n "nuclide")) in
         Ok (mkPert id (as_string (n_attr n "name")) nu)
       else UB).

  (** PerturbationSet constructor, Perturbation.cpp:89-97 *)
  Definition perturbations_create (w : world A) (n : node) : outcome (list (perturbation A)) :=
    foldM (fun acc c =>
             let! pt := perturbation_create w (length acc) c in
             Ok (acc ++ [pt])%list) (n_children n) [].

  (** FindPerturbationByName, Perturbation.cpp:99-119 *)
  Definition find_perturbation (pts : list (perturbation A)) (name : string)
      : outcome (perturbation A) :=
    match find (fun pt => String.eqb (pt_name pt) name) pts with
    | Some pt => Ok pt
    | None => Throw ("Perturbation " ++ quoted name ++ " not found. Must be one of: [" ++
                     quote_strings (map pt_name pts) ++ "]")
    end.

  (** GetIndirectEffects, Perturbation.cpp:121-128, and Particle::SetPerturbations,
      Particle.cpp:71-73 *)
  Definition set_perturbations (pts : list (perturbation A)) (p : particle) : particle :=
    set_indirect p (map (fun pt => (pt, #0)) pts).

  (** The material of the particle's cell, dereferenced: [p.GetCell().material->]. *)
  Definition get_material (p : particle) : outcome (material A) :=
    let! c := get_cell p in of_option (c_material c) UB.

  (** GetCollisionProbabilityDensity, TransportMethod.cpp:79-82 and 124-127 *)
  Definition collision_density (t : tracking) (p : particle) : outcome (num A) :=
    noexcept
      (let! m := get_material p in
       match t with
       | SurfaceTracking => mat_total m p
       | CellDeltaTracking => mat_majorant m p
       end).

  (** TotalCrossSectionPerturbation::Stream, Perturbation.cpp:68-78 *)
  Definition pert_stream (t : tracking) (pt : perturbation A) (p : particle) (dist : num A)
      : outcome (num A) :=
    noexcept
      (let! m := get_material p in
       if existsb (fun x => Nat.eqb (nu_id (fst x)) (nu_id (pt_nuclide pt))) (m_afracs m)
       then let! d := collision_density t p in Ok (#1 / d - dist)
       else Ok (#0)).

  (** Particle::Stream, Particle.cpp:46-53. [GetCollisionProbabilityDensity] does
      not read the indirect effects, so all are computed from the unmodified
      particle. *)
  Definition stream (t : tracking) (p : particle) (dist : num A) : outcome particle :=
    noexcept
      (let! effects := mapM (fun x => let! s := pert_stream t (fst x) p dist in
                                      Ok (fst x, snd x + s)) (p_indirect p) in
       Ok (set_position (set_indirect p effects)
             (padd (p_position p) (pscale (p_direction p) dist)))).
End Perturbation.
