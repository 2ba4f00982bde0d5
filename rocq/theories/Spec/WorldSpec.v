(** What an input document says about surfaces, nuclides, materials and cells. *)
From Coq Require Import Bool String List.
From Verif Require Import Model.Num Model.Outcome Model.Xml Model.Types Model.Surface
  Model.Material.
Import ListNotations.
Local Open Scope string_scope.

(** [c] is the first child of [group] with that name. *)
Definition first_named (group : node) (name : string) (c : node) : Prop :=
  exists before after, n_children group = (before ++ c :: after)%list
    /\ n_attr c "name" = Some name
    /\ forall b, In b before -> n_attr b "name" <> Some name.
(** Some child of [group] has that name. *)
Definition declares (group : node) (name : string) : Prop :=
  exists c, In c (n_children group) /\ n_attr c "name" = Some name.

Definition name_of (n : node) : string := as_string (n_attr n "name").

Section WorldSpec.
  Variable root : node.

  (** The cells, the cells that are not void, and the places where things are
      declared. *)
  Definition cell_nodes : list node := n_children (n_child root "cells").
  Definition material_cell (c : node) : Prop := In c cell_nodes /\ n_name c <> "void".
  Definition surface_group : node := n_child root "surfaces".
  Definition nuclide_group : node := n_first_child (n_child root "nuclides").
  Definition material_group : node := n_child root "materials".

  (** The names cells use. *)
  Definition uses_surface (name : string) : Prop :=
    exists c s, In c cell_nodes /\ In s (n_children c) /\ name_of s = name.
  Definition uses_material (name : string) : Prop :=
    exists c, material_cell c /\ as_string (n_attr c "material") = name.
  Definition uses_nuclide (name : string) : Prop :=
    exists material m n, uses_material material /\ first_named material_group material m
      /\ In n (n_children m) /\ name_of n = name.

  (** Every name used is declared. *)
  Definition complete : Prop :=
    (forall name, uses_surface name -> declares surface_group name)
    /\ (forall name, uses_material name -> declares material_group name)
    /\ (forall name, uses_nuclide name -> declares nuclide_group name).

  (** The rules of the schema that matter here: cells have names and void ones have
      none; senses are "-1" or "+1"; a temperature is constant or linear; and the
      data of the nuclides can be read. *)
  Record well_formed {A : Arith} (X : Ext A) : Prop := {
    wf_name : forall c, In c cell_nodes -> n_attr c "name" = None <-> n_name c = "void";
    wf_sense : forall c s, In c cell_nodes -> In s (n_children c) ->
      n_attr s "sense" = Some "-1" \/ n_attr s "sense" = Some "+1";
    wf_temperature : n_child root "temperature" = None
      \/ n_name (n_first_child (n_child root "temperature")) = "constant"
      \/ n_name (n_first_child (n_child root "temperature")) = "linear";
    wf_nuclide : forall name n id, uses_nuclide name -> first_named nuclide_group name n ->
      exists nu, nuclide_create X id n = Ok nu
  }.
End WorldSpec.

(** A cell built from a node refers to what the node lists. *)
Record cell_of {A : Arith} (X : Ext A) (surfaces : list (surf A)) (materials : list (material A))
    (temperature : field A) (n : node) (c : cell A) : Prop := {
  co_name : c_name c = name_of n;
  (** every surface listed, with the sense written where it is first listed *)
  co_listed : forall before s after,
    n_children n = (before ++ s :: after)%list ->
    (forall b, In b before -> name_of b <> name_of s) ->
    exists sf sense, In (sf, sense) (c_senses c) /\ In sf surfaces
      /\ s_name (su_surface sf) = name_of s
      /\ n_attr s "sense" = Some (if sense : bool then "-1" else "+1");
  (** and no others, and none twice *)
  co_only : forall sf sense, In (sf, sense) (c_senses c) ->
    In sf surfaces /\ exists s, In s (n_children n) /\ s_name (su_surface sf) = name_of s;
  co_once : NoDup (map (fun x => s_name (su_surface (fst x))) (c_senses c));
  (** the material named, if the cell has a name *)
  co_material : match c_material c with
    | None => n_attr n "name" = None
    | Some m => n_attr n "name" <> None /\ In m materials
                /\ m_name m = as_string (n_attr n "material")
    end;
  (** its own temperature, or that of the world *)
  co_temperature : c_temperature c
    = match n_attr n "temperature" with
      | Some t => ConstantField (to_double X t) (to_double X t) (to_double X t)
      | None => temperature
      end
}.
