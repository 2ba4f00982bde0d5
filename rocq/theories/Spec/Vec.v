(** Vectors of real numbers, independent of the model, and the embedding of real
    inputs into the model's number type. *)
From Coq Require Import Reals.
From Verif Require Import Model.Num Model.Point.
Local Open Scope R_scope.

Record vec : Type := V3 { vx : R; vy : R; vz : R }.
Definition vadd (a b : vec) : vec := V3 (vx a + vx b) (vy a + vy b) (vz a + vz b).
Definition vsub (a b : vec) : vec := V3 (vx a - vx b) (vy a - vy b) (vz a - vz b).
Definition vscale (t : R) (a : vec) : vec := V3 (t * vx a) (t * vy a) (t * vz a).
Definition dot (a b : vec) : R := vx a * vx b + vy a * vy b + vz a * vz b.
Definition norm (a : vec) : R := sqrt (dot a a).
Definition dist (a b : vec) : R := norm (vsub a b).
Definition unit (a : vec) : Prop := norm a = 1.
Definition zero_vec : vec := V3 0 0 0.

(** The point of a ray from [o] along [u] at parameter [t]. *)
Definition along (o u : vec) (t : R) : vec := vadd o (vscale t u).

(** A real vector as a point of the model. *)
Definition pt (a : vec) : point XRa := mkPoint (A := XRa) (Fin (vx a)) (Fin (vy a)) (Fin (vz a)).
