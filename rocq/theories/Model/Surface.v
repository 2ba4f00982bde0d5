(** Surfaces: src/CSGSurface.cpp, src/CSGSurface.hpp. *)
From Coq Require Import Bool String ZArith.
From Verif Require Import Model.Num Model.Outcome Model.Rng Model.Xml Model.Point.
Local Open Scope string_scope.
Local Open Scope bool_scope.
Local Open Scope num_scope.

(** The concrete surface classes, src/CSGSurface.hpp:62-118, with their data
    members. *)
Inductive shape (A : Arith) : Type :=
  | Sphere (center : point A) (radius : num A)
  | PlaneX (c : num A)
  | CylinderX (radius : num A).
Arguments Sphere {A} center radius.
Arguments PlaneX {A} c.
Arguments CylinderX {A} radius.

Record surface (A : Arith) : Type := mkSurface { s_name : string; s_shape : shape A }.
Arguments mkSurface {A} s_name s_shape.
Arguments s_name {A} s.
Arguments s_shape {A} s.

Section Surface.
  Context {A : Arith}.

  (** CSGSurface::SolveQuadratic, CSGSurface.cpp:71-97 *)
  Definition SolveQuadratic (a b c : num A) : num A :=
    let discriminant := b * b - #4 * a * c in
    if discriminant <=? #0 then ninf A
    else
      let lesser := if b >? #0 then (- b - nsqrt A discriminant) / (#2 * a)
                    else (#2 * c) / (- b + nsqrt A discriminant) in
      let greater := if b >? #0 then (#2 * c) / (- b - nsqrt A discriminant)
                     else (- b + nsqrt A discriminant) / (#2 * a) in
      if lesser >? #0 then lesser
      else if greater >? #0 then greater
      else ninf A.

  Definition xhat : point A := mkPoint (#1) (#0) (#0).

  (** Distance: CSGSurface.cpp:107-111, 125-134, 148-162. The cylinder's axis is
      a Direction and so is normalised. *)
  Definition distance (s : shape A) (origin direction : point A) : num A :=
    match s with
    | Sphere center radius =>
        let oc := psub origin center in
        SolveQuadratic (#1) (#2 * pdot oc direction) (pdot oc oc - radius * radius)
    | PlaneX c =>
        let v_x := c - pdot origin xhat in
        let d_x := pdot direction xhat in
        let d := v_x / d_x in
        if d >? #0 then d else ninf A
    | CylinderX radius =>
        let w := dir_xyz (#1) (#0) (#0) in
        let pp := pdot origin origin in
        let pw := pdot origin w in
        let dw := pdot direction w in
        let pd := pdot origin direction in
        SolveQuadratic (#1 - dw * dw) (#2 * (pd - pw * dw)) (pp - pw * pw - radius * radius)
    end.

  (** Contains: CSGSurface.cpp:113-116, 136-138, 164-174 *)
  Definition contains (s : shape A) (p : point A) : bool :=
    match s with
    | Sphere center radius =>
        let pc := psub p center in pdot pc pc <? radius * radius
    | PlaneX c => pdot p xhat <? c
    | CylinderX radius =>
        let w := dir_xyz (#1) (#0) (#0) in
        let pp := pdot p p in
        let pw := pdot p w in
        nsqrt A (pp - pw * pw) <? radius * radius
    end.

  (** ToSurfaceType, CSGSurface.cpp:56-69. [assert] is compiled out, and
      [return {}] is the first enumerator, Sphere. Constructors:
      CSGSurface.cpp:103-105, 122-123, 144-146. *)
  Definition shape_of_node (X : Ext A) (n : node) : shape A :=
    if String.eqb (n_name n) "planex" then PlaneX (as_double X (n_attr n "x"))
    else if String.eqb (n_name n) "cylinderx" then CylinderX (as_double X (n_attr n "r"))
    else Sphere (point_of_node X (n_child n "center"))
                (as_double X (n_attr (n_child n "radius") "r")).

  (** CSGSurface::Create, CSGSurface.cpp:15-45 *)
  Definition surface_create (X : Ext A) (root : node) (name : string) : outcome (surface A) :=
    let surfaces_node := n_child root "surfaces" in
    let surface_node := n_find_by_attr surfaces_node "name" name in
    if is_null surface_node then
      Throw ("Surface node " ++ quoted name ++ " not found. Must be one of: [" ++
             quote_names (n_children surfaces_node) ++ "]")
    else Ok (mkSurface (as_string (n_attr surface_node "name"))
                       (shape_of_node X surface_node)).
End Surface.
