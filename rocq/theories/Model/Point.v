(** Points and directions: src/Point.cpp, src/Point.hpp. *)
From Coq Require Import Bool String ZArith.
From Verif Require Import Model.Num Model.Outcome Model.Rng Model.Xml.
Local Open Scope string_scope.
Local Open Scope bool_scope.
Local Open Scope num_scope.

(** src/Point.hpp:43-50. A [Direction] is a [Point] (src/Point.hpp:58-84); the
    model uses one type and distinguishes them by how they are built. *)
Record point (A : Arith) : Type := mkPoint { px : num A; py : num A; pz : num A }.
Arguments mkPoint {A} px py pz.
Arguments px {A} p.
Arguments py {A} p.
Arguments pz {A} p.

Section Point.
  Context {A : Arith}.
  Implicit Types p q : point A.

  (** Point.cpp:12-14, and [operator+=] Point.cpp:58-63 *)
  Definition padd p q := mkPoint (px p + px q) (py p + py q) (pz p + pz q).
  (** Point.cpp:16-18 *)
  Definition psub p q := mkPoint (px p - px q) (py p - py q) (pz p - pz q).
  (** Point.cpp:20-22; the Real-times-Point form Point.cpp:24-26 is
      [rhs * lhs], hence the same products. *)
  Definition pscale p (r : num A) := mkPoint (px p * r) (py p * r) (pz p * r).
  (** Point.cpp:28-30, and [operator/=] Point.cpp:65-70 *)
  Definition pdiv p (r : num A) := mkPoint (px p / r) (py p / r) (pz p / r).
  (** Point.cpp:49-51 *)
  Definition pdot p q : num A := px p * px q + py p * py q + pz p * pz q.
  (** Point.cpp:53-56 *)
  Definition pcross p q :=
    mkPoint (py p * pz q - pz p * py q)
            (pz p * px q - px p * pz q)
            (px p * py q - py p * px q).
  (** Point.cpp:44-47 *)
  Definition pnormalize p := pdiv p (nsqrt A (pdot p p)).
  (** Point.cpp:72-74 *)
  Definition peqb p q : bool := (px p =? px q) && (py p =? py q) && (pz p =? pz q).

  (** Direction from components, Point.cpp:85-88 *)
  Definition dir_xyz (x y z : num A) : point A := pnormalize (mkPoint x y z).
  (** Direction from a Point, Point.cpp:123-129 *)
  Definition dir_of_point p : point A := pnormalize p.

  (** [constants::pi], [on_axis_tolerance]: src/Constants.hpp:13,20 *)
  Definition c_pi : num A := npi A.
  Definition on_axis_tolerance : num A := ndec A 9 (-1).

  (** Isotropic direction, Point.cpp:90-96: not renormalised. *)
  Definition dir_isotropic (G : Rng A) (s : rst G) : point A * rst G :=
    let (x, s1) := uniform G (- #1) (#1) s in
    let sin_theta := nsqrt A (#1 - x * x) in
    let (phi, s2) := uniform G (#0) (#2 * c_pi) s1 in
    (mkPoint x (sin_theta * ncos A phi) (sin_theta * nsin A phi), s2).

  (** Direction relative to another, Point.cpp:98-121. The assignment to
      [*this] converts a Point to a Direction and so normalises
      (Point.cpp:127-129). *)
  Definition dir_rotate (d : point A) (mu phi : num A) : point A :=
    let is_off_xaxis :=
      (px d <=? on_axis_tolerance) && (px d >? - on_axis_tolerance) in
    let xaxis := if is_off_xaxis then mkPoint (#1) (#0) (#0) else mkPoint (#0) (#1) (#0) in
    let u := dir_of_point (pcross d xaxis) in
    let v := dir_of_point (pcross d u) in
    let u_comp := pscale u (nsqrt A (#1 - mu * mu) * ncos A phi) in
    let v_comp := pscale v (nsqrt A (#1 - mu * mu) * nsin A phi) in
    let d_comp := pscale d mu in
    dir_of_point (padd (padd u_comp v_comp) d_comp).

  (** Construction from a node, Point.cpp:36-39 and 80-83 *)
  Definition point_of_node (X : Ext A) (n : node) : point A :=
    mkPoint (as_double X (n_attr n "x")) (as_double X (n_attr n "y"))
            (as_double X (n_attr n "z")).
  Definition dir_of_node (X : Ext A) (n : node) : point A := pnormalize (point_of_node X n).
End Point.
