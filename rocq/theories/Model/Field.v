(** Scalar fields: src/ScalarField.cpp; physical constants: src/Constants.hpp. *)
From Coq Require Import Bool String List ZArith NArith.
From Verif Require Import Model.Num Model.Outcome Model.Rng Model.Xml Model.Std Model.Point
  Model.Surface Model.Types.
Import ListNotations.
Local Open Scope string_scope.
Local Open Scope bool_scope.
Local Open Scope num_scope.
Local Open Scope outcome_scope.

Section Constants.
  Context {A : Arith}.
  (** src/Constants.hpp:15-35 *)
  Definition nudge : num A := #10 * neps A.
  Definition room_temperature : num A := ndec A 2936 (-1).
  Definition boltzmann : num A := ndec A 8617333262145 (-23).
  Definition neutron_mass : num A := ndec A 1045354912280858 (-33).
  Definition temperature_tolerance : num A := ndec A 1 (-2).
  Definition beta_resample_limit : nat := 10.
  Definition alpha_resample_limit : nat := 10.
End Constants.

Section Field.
  Context {A : Arith}.

  (** ConstantField from a value, ScalarField.cpp:41 *)
  Definition constant_field (c : num A) : field A := ConstantField c c c.

  (** ScalarField::Create, ScalarField.cpp:11-26; constructors 35-39, 49-54. An
      unknown name yields a null pointer; the schemas exclude it and the model
      reports undefined behaviour at once rather than at the first use. *)
  Definition field_create (X : Ext A) (n : node) : outcome (field A) :=
    if String.eqb (n_name n) "constant" then
      Ok (constant_field (as_double X (n_attr n "c")))
    else if String.eqb (n_name n) "linear" then
      Ok (LinearField (as_double X (n_attr (n_child n "bounds") "upper"))
                      (as_double X (n_attr (n_child n "bounds") "lower"))
                      (point_of_node X (n_child n "gradient"))
                      (as_double X (n_attr (n_child n "intercept") "b")))
    else UB.

  (** IsConstant, ScalarField.cpp:43, 56 *)
  Definition field_is_constant (f : field A) : bool :=
    match f with
    | ConstantField _ _ _ => true
    | LinearField _ _ g _ => peqb g (mkPoint (#0) (#0) (#0))
    end.

  (** at, ScalarField.cpp:45, 58 *)
  Definition field_at (f : field A) (p : point A) : num A :=
    match f with
    | ConstantField _ _ c => c
    | LinearField _ _ g b => pdot g p + b
    end.

  (** The public members upper_bound and lower_bound, src/ScalarField.hpp:36-39 *)
  Definition field_upper (f : field A) : num A :=
    match f with ConstantField u _ _ | LinearField u _ _ _ => u end.
  Definition field_lower (f : field A) : num A :=
    match f with ConstantField _ l _ | LinearField _ l _ _ => l end.
End Field.
