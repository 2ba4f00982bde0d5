(** What an input document says about the temperature and the settings of a run. *)
From Coq Require Import Bool String List ZArith NArith.
From Verif Require Import Model.Num Model.Outcome Model.Xml Model.Point Model.Types Model.Bins
  Model.Perturbation.
Import ListNotations.
Local Open Scope string_scope.
Local Open Scope num_scope.

Section Temperature.
  Context {A : Arith} (X : Ext A).

  (** The number written in an attribute. *)
  Definition number (n : node) (attr : string) : num A := as_double X (n_attr n attr).

  (** A field node gives the value [v] at the point [p]. *)
  Definition written_value (n : node) (p : point A) (v : num A) : Prop :=
    (n_name n = "constant" /\ v = number n "c")
    \/ (n_name n = "linear"
        /\ let g := n_child n "gradient" in
           v = number g "x" * px p + number g "y" * py p + number g "z" * pz p
               + number (n_child n "intercept") "b").
  (** A field node gives the bounds [lower] and [upper]. *)
  Definition written_bounds (n : node) (lower upper : num A) : Prop :=
    (n_name n = "constant" /\ lower = number n "c" /\ upper = number n "c")
    \/ (n_name n = "linear" /\ lower = number (n_child n "bounds") "lower"
        /\ upper = number (n_child n "bounds") "upper").

  (** 293.6 K *)
  Definition comfortable : num A := ndec A 2936 (-1).

  (** The temperature of a cell at a point: its own, or else that of the document, or
      else room temperature. *)
  Definition written_temperature (root cell_node : node) (p : point A) (v : num A) : Prop :=
    match n_attr cell_node "temperature" with
    | Some t => v = to_double X t
    | None => if is_null (n_child root "temperature") then v = comfortable
              else written_value (n_first_child (n_child root "temperature")) p v
    end.
  Definition written_range (root cell_node : node) (lower upper : num A) : Prop :=
    match n_attr cell_node "temperature" with
    | Some t => lower = to_double X t /\ upper = to_double X t
    | None => if is_null (n_child root "temperature") then lower = comfortable /\ upper = comfortable
              else written_bounds (n_first_child (n_child root "temperature")) lower upper
    end.
End Temperature.

(** The tracking method written: surface tracking if none is. *)
Definition written_tracking (root : node) (t : tracking) : Prop :=
  let s := n_text (n_child (n_child root "general") "tracking") in
  (t = SurfaceTracking /\ (s = "" \/ s = "surface")) \/ (t = CellDeltaTracking /\ s = "cell delta").
