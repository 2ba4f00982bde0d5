(** Where the objects of a run lie in memory. *)
From Coq Require Import String List NArith Permutation.
From Verif Require Import Model.Num Model.Outcome Model.Xml Model.Types Model.Program.
Local Open Scope string_scope.

(** The same libraries and files, with the surfaces and nuclides at other addresses. *)
Definition moved {A : Arith} (X : Ext A) (surfaces nuclides : nat -> N) : Ext A :=
  {| to_double := to_double X; to_ullong := to_ullong X; to_uint := to_uint X;
     to_reals := to_reals X; to_words := to_words X; stoi := stoi X; stoul := stoul X;
     stoull := stoull X; stod := stod X; show_real := show_real X; h5_file := h5_file X;
     surface_address := surfaces; nuclide_address := nuclides |}.
Definition moved_env {A : Arith} (V : Env A) (surfaces nuclides : nat -> N) : Env A :=
  {| env_lexical := env_lexical V; env_ext := moved (env_ext V) surfaces nuclides;
     env_document := env_document V; env_sci := env_sci V; env_writable := env_writable V |}.

(** Two layouts put any two objects in the same order. *)
Definition same_order (a b : nat -> N) : Prop := forall i j, (a i < a j)%N <-> (b i < b j)%N.

(** Materials with at most one nuclide and cells with at most one surface. *)
Definition few (root : node) : Prop :=
  (forall m, In m (n_children (n_child root "materials")) -> (length (n_children m) <= 1)%nat)
  /\ (forall c, In c (n_children (n_child root "cells")) -> (length (n_children c) <= 1)%nat).

(** Two outcomes that are both results, related by [R], or the same failure. *)
Definition both {X : Type} (R : X -> X -> Prop) (o o' : outcome X) : Prop :=
  match o, o' with
  | Ok x, Ok y => R x y
  | Ok _, _ | _, Ok _ => False
  | _, _ => o = o'
  end.

(** The same material, cell or world, where the lists of nuclides and of surfaces are
    related by [nuclides] and [surfaces]. *)
Section Same.
  Context {A : Arith}.
  Variables (surfaces : list (surf A * bool) -> list (surf A * bool) -> Prop)
            (nuclides : list (nuclide A * num A) -> list (nuclide A * num A) -> Prop).

  Record same_material (m m' : material A) : Prop := {
    sm_name : m_name m = m_name m';
    sm_density : m_density m = m_density m';
    sm_nuclides : nuclides (m_afracs m) (m_afracs m')
  }.
  Record same_cell (c c' : cell A) : Prop := {
    sl_id : c_id c = c_id c';
    sl_name : c_name c = c_name c';
    sl_surfaces : surfaces (c_senses c) (c_senses c');
    sl_material : match c_material c, c_material c' with
                  | Some m, Some m' => same_material m m'
                  | None, None => True
                  | _, _ => False
                  end;
    sl_temperature : c_temperature c = c_temperature c'
  }.
  Record same_world (w w' : world A) : Prop := {
    sw_surfaces : w_surfaces w = w_surfaces w';
    sw_nuclides : w_nuclides w = w_nuclides w';
    sw_materials : Forall2 same_material (w_materials w) (w_materials w');
    sw_temperature : w_temperature w = w_temperature w';
    sw_cells : Forall2 same_cell (w_cells w) (w_cells w')
  }.
End Same.

(** In some order; and, for nuclides, whatever their fractions. *)
Definition in_some_order {X : Type} (l l' : list X) : Prop := Permutation l l'.
Definition same_objects {X Y : Type} (l l' : list (X * Y)) : Prop :=
  Permutation (map fst l) (map fst l').

(** Two layouts: one object after another in the order in which they are made, and the
    same with two objects exchanged. *)
Definition in_a_row (i : nat) : N := (4096 + 64 * N.of_nat i)%N.
Definition exchanged (a b i : nat) : N :=
  in_a_row (if Nat.eqb i a then b else if Nat.eqb i b then a else i).
