(** Patches of the sphere of directions. *)
From Coq Require Import Bool Reals.
From Verif Require Import Model.Num Model.Point Spec.Vec.
Local Open Scope R_scope.

(** A pole and two axes across it. *)
Record frame (d e1 e2 : vec) : Prop := {
  fr_pole : unit d; fr_first : unit e1; fr_second : unit e2;
  fr_01 : dot e1 d = 0; fr_02 : dot e2 d = 0; fr_12 : dot e1 e2 = 0
}.
(** The angle of the point (y, z) of a plane, from 0 up to a full turn. *)
Definition angle (y z : R) : R :=
  let a := acos (y / sqrt (y * y + z * z)) in if Rle_dec 0 z then a else 2 * PI - a.
(** The direction [w] by its cosine to the pole and its azimuth. *)
Definition azimuth (e1 e2 w : vec) : R := angle (dot w e1) (dot w e2).

Definition between (a b x : R) : bool := if Rle_dec a x then if Rlt_dec x b then true else false else false.
(** The patch where the cosine to the pole is from [a] to [b] and the azimuth from [f] to
    [t]. Its area is (b - a) (t - f), that of the sphere 4 pi. *)
Definition patch (d e1 e2 : vec) (a b f t : R) (u : point XRa) : bool :=
  match px u, py u, pz u with
  | Fin x, Fin y, Fin z =>
      let w := V3 x y z in between a b (dot w d) && between f t (azimuth e1 e2 w)
  | _, _, _ => false
  end.
