(** The input schema, test/minimc.xsd with test/minimc_basictypes.xsd, and the
    validator that XMLDocument::ValidateXML (src/XMLDocument.cpp:73-90) runs.

    Xerces is external: this is the part of XML Schema that the two files use,
    read as a function on documents. The document names its schema itself; the
    model assumes it names this one. *)
From Coq Require Import Bool String List ZArith NArith.
From Verif Require Import Model.Num Model.Outcome Model.Xml.
Import ListNotations.
Local Open Scope string_scope.
Local Open Scope bool_scope.

(** The lexical rules of the built-in types, which Xerces decides: xs:double, its
    restrictions to at least and above zero, xs:positiveInteger, and the items of
    a list. *)
Record Lexical : Type := mkLexical {
  lex_double : string -> bool;
  lex_nonnegative : string -> bool;
  lex_positive : string -> bool;
  lex_positive_integer : string -> bool;
  lex_items : string -> list string
}.

(** Simple types, minimc_basictypes.xsd:4-44. [SAny] stands for
    xs:normalizedString, xs:anyURI and untyped attributes. *)
Inductive simple : Type :=
  | SAny
  | SDouble
  | SNonNegative
  | SPositive
  | SPositiveInteger
  | SEnum (values : list string)
  | SList (item : simple) (at_least : nat).

(** Element types. An attribute or an element of an xs:all group comes with
    whether it is required. [TComplex] has attributes, whether the names of the
    children must differ (xs:unique), and a content. *)
Inductive etype : Type :=
  | TAny
  | TSimple (s : simple)
  | TComplex (attributes : list (string * bool * simple)) (unique : bool) (c : content)
with content : Type :=
  | CEmpty
  | CAll (elements : list (string * bool * etype))
  | COnce (elements : list (string * etype))        (* xs:choice *)
  | CMany (elements : list (string * etype)).       (* xs:choice, 1 to unbounded *)

Section Validate.
  Variable L : Lexical.

  Fixpoint simple_ok (s : simple) (text : string) : bool :=
    match s with
    | SAny => true
    | SDouble => lex_double L text
    | SNonNegative => lex_nonnegative L text
    | SPositive => lex_positive L text
    | SPositiveInteger => lex_positive_integer L text
    | SEnum values => existsb (String.eqb text) values
    | SList item at_least =>
        forallb (simple_ok item) (lex_items L text)
        && Nat.leb at_least (length (lex_items L text))
    end.

  (** Every attribute is declared and of its type, and the required ones are there. *)
  Definition attributes_ok (decls : list (string * bool * simple))
      (attrs : list (string * string)) : bool :=
    forallb (fun a => existsb (fun d => String.eqb (fst (fst d)) (fst a)
                                        && simple_ok (snd d) (snd a)) decls) attrs
    && forallb (fun d => negb (snd (fst d))
                         || existsb (fun a => String.eqb (fst a) (fst (fst d))) attrs) decls.

  (** The names that the elements of a list have, and whether they differ. *)
  Definition names_given (l : list xml) : list string :=
    flat_map (fun x => match find (fun a => String.eqb (fst a) "name") (x_attrs x) with
                       | Some a => [snd a]
                       | None => []
                       end) l.
  Fixpoint distinct (l : list string) : bool :=
    match l with
    | [] => true
    | x :: t => negb (existsb (String.eqb x) t) && distinct t
    end.

  Fixpoint valid (t : etype) (x : xml) : bool :=
    match t with
    | TAny => true
    | TSimple s =>
        attributes_ok [] (x_attrs x) && Nat.eqb (length (x_children x)) 0
        && simple_ok s (x_text x)
    | TComplex decls unique c =>
        attributes_ok decls (x_attrs x)
        && (negb unique || distinct (names_given (x_children x)))
        && String.eqb (x_text x) ""
        && match c with
           | CEmpty => Nat.eqb (length (x_children x)) 0
           | CAll l =>
               forallb (fun y => existsb (fun d => String.eqb (fst (fst d)) (x_name y)
                                                   && valid (snd d) y) l) (x_children x)
               && distinct (map x_name (x_children x))
               && forallb (fun d => negb (snd (fst d))
                                    || existsb (fun y => String.eqb (x_name y) (fst (fst d)))
                                               (x_children x)) l
           | COnce l =>
               forallb (fun y => existsb (fun d => String.eqb (fst d) (x_name y)
                                                   && valid (snd d) y) l) (x_children x)
               && Nat.eqb (length (x_children x)) 1
           | CMany l =>
               forallb (fun y => existsb (fun d => String.eqb (fst d) (x_name y)
                                                   && valid (snd d) y) l) (x_children x)
               && Nat.leb 1 (length (x_children x))
           end
    end.
End Validate.

(** ** minimc_basictypes.xsd *)

Definition required (name : string) (s : simple) := (name, true, s).
Definition optional (name : string) (s : simple) := (name, false, s).
Definition one (name : string) (t : etype) := (name, true, t).
Definition maybe (name : string) (t : etype) := (name, false, t).
Definition leaf_type (attributes : list (string * bool * simple)) : etype :=
  TComplex attributes false CEmpty.

(** 18-23 *)
Definition ParticleType : simple := SEnum ["neutron"; "photon"].
(** 25-27 *)
Definition ParticleTypeList : simple := SList ParticleType 0.
(** 29-31 *)
Definition GroupXS : etype := TSimple (SList SNonNegative 0).
(** 33-38 *)
Definition TrackingType : simple := SEnum ["surface"; "cell delta"].
(** 46-50 *)
Definition PointType : etype :=
  leaf_type [required "x" SDouble; required "y" SDouble; required "z" SDouble].

(** 52-66 *)
Definition GroupXSReactions : etype :=
  TComplex [] false (CAll
    [maybe "capture" GroupXS; maybe "scatter" GroupXS;
     maybe "fission" (TComplex [] false (CAll
       [one "xs" GroupXS; one "nubar" GroupXS; one "chi" GroupXS]))]).

(** 68-81 *)
Definition MultigroupNuclearData : etype :=
  TComplex [required "groups" SPositiveInteger] false (CMany
    [("nuclide", TComplex [required "name" SAny] false (CAll
       [maybe "neutron" GroupXSReactions; maybe "photon" GroupXSReactions]))]).

(** 83-86 *)
Definition ContinuousEvaluation : etype :=
  leaf_type [required "file" SAny; required "temperature" SPositive].

(** 96-133; [grid] is E_T or beta_T *)
Definition Partitions (grid : string) : etype :=
  TComplex [] false (CMany
    [("partition", leaf_type [required "CDF" SAny; required "S" SAny; required grid SAny])]).
Definition ThermalLibrary : etype :=
  TComplex [required "majorant" SAny; required "total_E" SAny; required "total_T" SAny;
            required "total_S" SAny; required "beta_cutoff" SPositive;
            required "alpha_cutoff" SPositive] false
    (CAll [one "beta_partitions" (Partitions "E_T");
           one "alpha_partitions" (Partitions "beta_T")]).

(** 88-146 *)
Definition ContinuousXSReactions : etype :=
  TComplex [] false (CAll
    [maybe "total" ContinuousEvaluation; maybe "capture" ContinuousEvaluation;
     maybe "scatter" (TComplex [] false (CAll
       [one "xs" ContinuousEvaluation; maybe "tsl" ThermalLibrary]));
     maybe "fission" (TComplex [] false (CAll
       [one "xs" ContinuousEvaluation; one "nubar" ContinuousEvaluation]))]).

(** 148-161 *)
Definition ContinuousNuclearData : etype :=
  TComplex [] false (CMany
    [("nuclide", TComplex [required "name" SAny; required "awr" SPositive] false (CAll
       [maybe "neutron" ContinuousXSReactions; maybe "photon" ContinuousXSReactions]))]).

(** 167-183 *)
Definition CSGContent : content :=
  CMany [("surface", leaf_type [required "name" SAny; required "sense" (SEnum ["+1"; "-1"])])].

(** 185-211 *)
Definition ScalarField : etype :=
  TComplex [] false (COnce
    [("constant", leaf_type [required "c" SDouble]);
     ("linear", TComplex [] false (CAll
       [one "bounds" (leaf_type [required "lower" SDouble; required "upper" SDouble]);
        one "intercept" (leaf_type [required "b" SDouble]);
        one "gradient" PointType]))]).

(** 213-254 *)
Definition SourceDistributionType : etype :=
  TComplex [] false (CAll
    [one "position" (TComplex [] false (COnce [("constant", PointType)]));
     one "direction" (TComplex [] false (COnce
       [("constant", PointType); ("isotropic", TAny); ("isotropic-flux", PointType)]));
     one "energy" (TComplex [] false (COnce
       [("constant", leaf_type [required "energy" SPositive])]));
     one "particletype" (TComplex [] false (COnce
       [("constant", leaf_type [optional "type" ParticleType])]))]).

(** 256-282 *)
Definition BinAttributes : list (string * bool * simple) :=
  [required "min" SDouble; required "max" SDouble; required "bins" SPositiveInteger].
Definition BinChoice : list (string * etype) :=
  [("linspace", leaf_type BinAttributes);
   ("logspace", leaf_type (BinAttributes ++ [optional "base" SDouble]));
   ("boundaries", TSimple (SList SDouble 1))].
(** 284-299 *)
Definition ParticleBinType : etype :=
  TComplex [] false (CAll
    [maybe "energy" (TComplex [] false (COnce BinChoice));
     maybe "cosine" (TComplex [required "u" SDouble; required "v" SDouble;
                               required "w" SDouble] false (COnce BinChoice))]).

(** 301-329 *)
Definition EstimatorDefinition : content :=
  CMany
    [("current", TComplex [required "name" SAny; required "surface" SAny] false (CAll
       [maybe "bins" ParticleBinType;
        maybe "sensitivities" (TComplex [] true (CMany
          [("perturbation", leaf_type [optional "name" SAny])]))]))].

(** 331-340 *)
Definition PerturbationDefinition : content :=
  CMany [("total", leaf_type [required "name" SAny; required "nuclide" SAny])].

(** ** minimc.xsd *)

(** 9-20 *)
Definition general_type : etype :=
  TComplex [] false (CAll
    [one "particles" (TSimple ParticleTypeList); one "histories" (TSimple SPositiveInteger);
     one "threads" (TSimple SPositiveInteger); one "chunksize" (TSimple SPositiveInteger);
     maybe "seed" (TSimple SPositiveInteger); maybe "tracking" (TSimple TrackingType)]).

(** 21-32: the names that must differ are those of the children of [nuclides], of
    which there is one. *)
Definition nuclides_type : etype :=
  TComplex [] true (COnce
    [("multigroup", MultigroupNuclearData); ("continuous", ContinuousNuclearData)]).

(** 33-60 *)
Definition materials_type : etype :=
  TComplex [] true (CMany
    [("material", TComplex [required "name" SAny; required "aden" SPositive] true (CMany
       [("nuclide", leaf_type [required "name" SAny; required "afrac" SPositive])]))]).

(** 61-104 *)
Definition surfaces_type : etype :=
  TComplex [] true (CMany
    [("sphere", TComplex [required "name" SAny] false (CAll
       [one "center" PointType; one "radius" (leaf_type [required "r" SPositive])]));
     ("planex", leaf_type [required "name" SAny; required "x" SDouble]);
     ("cylinderx", leaf_type [required "name" SAny; required "r" SDouble])]).

(** 105-130: only the names of cells must differ, and void has none. *)
Definition cells_type : etype :=
  TComplex [] true (CMany
    [("cell", TComplex [required "name" SAny; required "material" SAny;
                        optional "temperature" SNonNegative] true CSGContent);
     ("void", TComplex [] false CSGContent)]).

(** 132-147 *)
Definition problem_type : etype :=
  TComplex [] false (COnce
    [("fixedsource", SourceDistributionType);
     ("keigenvalue", TComplex [required "inactive" SPositiveInteger;
                               required "active" SPositiveInteger] false
        (CAll [one "initialsource" SourceDistributionType]))]).

(** 6-172 *)
Definition minimc_content : content :=
  CAll
    [one "general" general_type; one "nuclides" nuclides_type; one "materials" materials_type;
     one "surfaces" surfaces_type; one "cells" cells_type; maybe "temperature" ScalarField;
     one "problemtype" problem_type;
     maybe "estimators" (TComplex [] true EstimatorDefinition);
     maybe "perturbations" (TComplex [] true PerturbationDefinition)].
(** The root element may say where the schema is, as XML Schema allows everywhere. *)
Definition minimc_type : etype :=
  TComplex [optional "xmlns:xsi" SAny; optional "xsi:noNamespaceSchemaLocation" SAny] false
    minimc_content.
Definition valid_document (L : Lexical) (root : xml) : bool :=
  String.eqb (x_name root) "minimc" && valid L minimc_type root.
