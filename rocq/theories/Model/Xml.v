(** Input documents, as seen through pugixml.

    pugixml and Xerces are external. A document is a finite tree; comments and
    whitespace are dropped as [load_file] does by default. Simplification: an
    element has element children or text, never both (as the schemas demand),
    so iterating over a node visits its elements. *)
From Coq Require Import String List NArith ZArith DecimalString.
From Verif Require Import Model.Num Model.Outcome.
Import ListNotations.
Local Open Scope string_scope.

Inductive xml : Type :=
  | Elem (name : string) (attrs : list (string * string)) (children : list xml)
         (text : string).

Definition x_name (x : xml) := let (n, _, _, _) := x in n.
Definition x_attrs (x : xml) := let (_, a, _, _) := x in a.
Definition x_children (x : xml) := let (_, _, c, _) := x in c.
Definition x_text (x : xml) := let (_, _, _, t) := x in t.

(** A non-null node handle: the element and its ancestors, nearest first. *)
Record hnode : Type := mkH { h_elem : xml; h_anc : list xml }.

(** [pugi::xml_node]: possibly null. Every operation on a null handle yields a
    null handle, an empty string or an empty range, as in pugixml. *)
Definition node : Type := option hnode.

Definition n_name (n : node) : string :=
  match n with Some h => x_name (h_elem h) | None => "" end.

(** [child_value()] *)
Definition n_text (n : node) : string :=
  match n with Some h => x_text (h_elem h) | None => "" end.

(** Iteration over a node. *)
Definition n_children (n : node) : list node :=
  match n with
  | Some h => map (fun c => Some (mkH c (h_elem h :: h_anc h))) (x_children (h_elem h))
  | None => []
  end.

Definition n_first_child (n : node) : node :=
  match n_children n with c :: _ => c | [] => None end.

(** [child(name)]: the first child of that name. *)
Definition n_child (n : node) (nm : string) : node :=
  match find (fun c => String.eqb (n_name c) nm) (n_children n) with
  | Some c => c
  | None => None
  end.

(** [attribute(name)]: null if absent. *)
Definition n_attr (n : node) (nm : string) : option string :=
  match n with
  | Some h =>
      match find (fun a => String.eqb (fst a) nm) (x_attrs (h_elem h)) with
      | Some a => Some (snd a)
      | None => None
      end
  | None => None
  end.

(** [as_string()]: empty for a null attribute. *)
Definition as_string (a : option string) : string :=
  match a with Some s => s | None => "" end.

(** [find_child_by_attribute(attr, value)] *)
Definition n_find_by_attr (n : node) (attr value : string) : node :=
  match find (fun c => match n_attr c attr with
                       | Some v => String.eqb v value
                       | None => false
                       end) (n_children n) with
  | Some c => c
  | None => None
  end.

Definition n_parent (n : node) : node :=
  match n with
  | Some h => match h_anc h with p :: r => Some (mkH p r) | [] => None end
  | None => None
  end.

(** [root()]: the document node. *)
Definition n_root (n : node) : node :=
  match n with
  | Some h => Some (mkH (last (h_anc h) (h_elem h)) [])
  | None => None
  end.

(** [path()]: names from the root joined by ["/"]. *)
Definition n_path (n : node) : string :=
  match n with
  | Some h => String.concat "/" (map x_name (rev (h_anc h) ++ [h_elem h])%list)
  | None => ""
  end.

Definition is_null (n : node) : bool := match n with None => true | Some _ => false end.

(** [std::to_string(size_t)]: the decimal digits. *)
Definition show_N (n : N) : string := NilZero.string_of_uint (N.to_uint n).

(** Conversions of text performed by the C and C++ libraries. *)
Record Ext (A : Arith) : Type := mkExt {
  to_double : string -> num A;          (* strtod, as in as_double() *)
  to_ullong : string -> N;              (* strtoull, as in as_ullong() *)
  to_uint : string -> N;                (* strtoul, as in as_uint() *)
  to_reals : string -> list (num A);    (* repeated stringstream >> Real *)
  to_words : string -> list string;     (* repeated stringstream >> std::string *)
  stoi : string -> outcome Z;           (* std::stoi: may throw *)
  stoul : string -> outcome N;          (* std::stoul: may throw *)
  stoull : string -> outcome N;         (* std::stoull: may throw *)
  stod : string -> outcome (num A);     (* std::stod: may throw *)
  show_real : num A -> string;          (* std::to_string(Real) *)
  (** The HDF5 library: None if the file does not exist, otherwise the level
      arrays axis1_level0, axis1_level1, ... and block0_values. *)
  h5_file : string -> option (list (list (num A)) * list (num A));
  (** The allocator: where the i-th surface and the i-th nuclide of a world are put.
      Maps keyed by pointer are kept in the order of these. *)
  surface_address : nat -> N;
  nuclide_address : nat -> N
}.
Arguments to_double {A} e _.
Arguments to_ullong {A} e _.
Arguments to_reals {A} e _.
Arguments to_words {A} e _.
Arguments to_uint {A} e _.
Arguments stoull {A} e _.
Arguments stod {A} e _.
Arguments h5_file {A} e _.
Arguments surface_address {A} e _.
Arguments nuclide_address {A} e _.
Arguments stoi {A} e _.
Arguments stoul {A} e _.
Arguments show_real {A} e _.

Section Attributes.
  Context {A : Arith} (X : Ext A).
  (** [as_double(def)]: [def] for a null attribute. *)
  Definition as_double_def (a : option string) (def : num A) : num A :=
    match a with Some s => to_double X s | None => def end.
  (** [as_double()] *)
  Definition as_double (a : option string) : num A := as_double_def a (nofZ A 0).
  (** [as_ullong()] *)
  Definition as_ullong (a : option string) : N :=
    match a with Some s => to_ullong X s | None => 0%N end.
  (** [as_uint()] *)
  Definition as_uint (a : option string) : N :=
    match a with Some s => to_uint X s | None => 0%N end.
End Attributes.

(** The list of names quoted in "not found" errors: [["a", "b", ]]. *)
Definition quote_strings (ns : list string) : string :=
  fold_left (fun acc c => acc ++ String (Ascii.ascii_of_nat 34)
                              (c ++ String (Ascii.ascii_of_nat 34) ", ")) ns "".
Definition quote_names (ns : list node) : string :=
  quote_strings (map (fun c => as_string (n_attr c "name")) ns).

Definition quoted (s : string) : string :=
  String (Ascii.ascii_of_nat 34) (s ++ String (Ascii.ascii_of_nat 34) "").
