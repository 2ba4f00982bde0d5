(** What a document must say, beyond following the schema, to be read without the
    program being aborted. *)
From Coq Require Import Bool String List NArith ZArith.
From Verif Require Import Model.Num Model.Outcome Model.Xml Model.Schema Spec.WorldSpec.
Import ListNotations.
Local Open Scope string_scope.

(** The call returns, or throws an exception that its caller can catch. *)
Definition reported {V} (o : outcome V) : Prop :=
  match o with Ok _ | Throw _ => True | _ => False end.
(** As above, or the program is aborted; what it does is defined. *)
Definition defined {V} (o : outcome V) : Prop :=
  match o with Ok _ | Throw _ | Terminate => True | _ => False end.

Section SchemaSpec.
  Context {A : Arith} (X : Ext A).

  (** The conversions of the C++ library return a number or throw. *)
  Definition library_returns : Prop :=
    forall s, reported (stoi X s) /\ reported (stoul X s) /\ reported (stoull X s)
              /\ reported (stod X s).

  (** No data file has an empty axis. *)
  Definition no_empty_axis : Prop :=
    forall path axes values, h5_file X path = Some (axes, values) -> ~ In [] axes.

  (** A file of [d] axes, none of them empty. *)
  Definition has_axes (d : nat) (path : string) : Prop :=
    exists axes values, h5_file X path = Some (axes, values)
      /\ length axes = d /\ ~ In [] axes.
  (** A table of one axis with a value for each point. *)
  Definition has_curve (path : string) : Prop :=
    exists axis values, h5_file X path = Some ([axis], values)
      /\ axis <> [] /\ (length axis <= length values)%nat.

  Definition attribute (n : node) (name : string) : string := as_string (n_attr n name).

  (** The files of a thermal scattering library have the axes the program expects. *)
  Definition readable_library (tsl : node) : Prop :=
    has_curve (attribute tsl "majorant")
    /\ has_axes 2 (attribute tsl "total_T")
    /\ has_axes 1 (attribute tsl "total_S")
    /\ has_axes 2 (attribute tsl "total_E")
    /\ (forall p, In p (n_children (n_child tsl "beta_partitions")) ->
          has_axes 2 (attribute p "CDF") /\ has_axes 1 (attribute p "S")
          /\ has_axes 3 (attribute p "E_T"))
    /\ (forall p, In p (n_children (n_child tsl "alpha_partitions")) ->
          has_axes 2 (attribute p "CDF") /\ has_axes 1 (attribute p "S")
          /\ has_axes 3 (attribute p "beta_T")).

  (** Bins that increase. [prev] is the boundary before those listed. *)
  Fixpoint rising (prev : num A) (l : list (num A)) : Prop :=
    match l with
    | [] => True
    | b :: t => nleb A b prev = false /\ rising b t
    end.
  Definition rising_bins (n : node) : Prop :=
    if String.eqb (n_name n) "boundaries"
    then rising (nopp A (ninf A)) (to_reals X (n_text n))
    else n <> None ->
         nleb A (as_double X (n_attr n "max")) (as_double X (n_attr n "min")) = false.

  Variable root : node.

  Record usable : Prop := {
    (** perturbed nuclides are in a material that a cell is made of *)
    us_nuclides : forall n, In n (n_children (n_child root "perturbations")) ->
      uses_nuclide root (attribute n "nuclide");
    (** sensitivities are to perturbations that are declared *)
    us_sensitivities : forall e n, In e (n_children (n_child root "estimators")) ->
      In n (n_children (n_child e "sensitivities")) ->
      declares (n_child root "perturbations") (attribute n "name");
    (** the bins of estimators increase *)
    us_bins : forall e, In e (n_children (n_child root "estimators")) ->
      rising_bins (n_first_child (n_child (n_child e "bins") "cosine"))
      /\ rising_bins (n_first_child (n_child (n_child e "bins") "energy"));
    (** thermal scattering libraries can be read *)
    us_libraries : forall n particle, In n (n_children (nuclide_group root)) ->
      In particle (n_children n) ->
      n_child (n_child particle "scatter") "tsl" <> None ->
      readable_library (n_child (n_child particle "scatter") "tsl")
  }.

  (** Every sensitivity says which perturbation it is to. *)
  Definition named_sensitivities : Prop :=
    forall e n, In e (n_children (n_child root "estimators")) ->
    In n (n_children (n_child e "sensitivities")) -> n_attr n "name" <> None.
End SchemaSpec.

(** A text that the schema takes for a positive integer is one to std::stoi and
    std::stoul, unless it is too large for them. *)
Definition agrees {A : Arith} (L : Lexical) (X : Ext A) : Prop :=
  forall s, lex_positive_integer L s = true ->
    (forall z, stoi X s = Ok z -> (0 < z < 2 ^ 31)%Z)
    /\ (forall n, stoul X s = Ok n -> (0 < n < 2 ^ 64)%N).
