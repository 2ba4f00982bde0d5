(** Cells and the world: src/Cell.cpp, src/World.cpp. *)
From Coq Require Import Bool String List ZArith NArith.
From Verif Require Import Model.Num Model.Outcome Model.Rng Model.Xml Model.Std Model.Point
  Model.Surface Model.Types Model.Bins Model.Field Model.Tables Model.Particle
  Model.Multigroup Model.Continuous Model.Material.
Import ListNotations.
Local Open Scope string_scope.
Local Open Scope bool_scope.
Local Open Scope num_scope.
Local Open Scope outcome_scope.

Section World.
  Context {A : Arith}.

  Definition su_name (s : surf A) : string := s_name (su_surface s).
  Definition su_distance (s : surf A) (p d : point A) : num A :=
    distance (s_shape (su_surface s)) p d.
  Definition su_contains (s : surf A) (p : point A) : bool :=
    contains (s_shape (su_surface s)) p.

  (** Cell::Contains, Cell.cpp:27-35 *)
  Definition cell_contains (c : cell A) (p : point A) : bool :=
    forallb (fun x => Bool.eqb (su_contains (fst x) p) (snd x)) (c_senses c).

  (** [std::min_element]: the first of the smallest. *)
  Fixpoint min_surface (best : surf A) (l : list (surf A * bool)) (p d : point A) : surf A :=
    match l with
    | [] => best
    | (s, _) :: t =>
        if su_distance s p d <? su_distance best p d then min_surface s t p d
        else min_surface best t p d
    end.

  (** Cell::NearestSurface, Cell.cpp:37-51 *)
  Definition nearest_surface (c : cell A) (p d : point A) : outcome (surf A * num A) :=
    match c_senses c with
    | [] => Throw ("Particle in Cell " ++ quoted (c_name c) ++
                   " could not find nearest surface")
    | (s, _) :: t => let n := min_surface s t p d in Ok (n, su_distance n p d)
    end.

  (** AssignSurfaceSenses, Cell.cpp:57-86, into a map ordered by address, Cell.hpp:30.
      An unknown surface dereferences end(); an unknown sense leaves [is_within]
      uninitialised. *)
  Definition assign_senses (X : Ext A) (all : list (surf A)) (ns : list node)
      : outcome (list (surf A * bool)) :=
    foldM (fun acc n =>
             let name := as_string (n_attr n "name") in
             match find (fun s => String.eqb (su_name s) name) all with
             | None => UB
             | Some s =>
                 let sense := as_string (n_attr n "sense") in
                 let! within := if String.eqb sense "-1" then Ok true
                                else if String.eqb sense "+1" then Ok false
                                else UB in
                 Ok (if existsb (fun x => Nat.eqb (su_id (fst x)) (su_id s)) acc
                     then acc
                     else insert_at (fun x => surface_address X (su_id (fst x))) (s, within) acc)
             end) ns [].

  (** AssignMaterial, Cell.cpp:88-104: null iff the node has no name attribute. *)
  Definition assign_material (all : list (material A)) (n : node)
      : outcome (option (material A)) :=
    match n_attr n "name" with
    | None => Ok None
    | Some _ =>
        match find (fun m => String.eqb (m_name m) (as_string (n_attr n "material"))) all with
        | Some m => Ok (Some m)
        | None => UB
        end
    end.

  (** AssignTemperature, Cell.cpp:106-113 *)
  Definition assign_temperature (X : Ext A) (global : field A) (n : node) : field A :=
    match n_attr n "temperature" with
    | Some s => constant_field (as_double X (Some s))
    | None => global
    end.

  (** Cell constructor, Cell.cpp:18-25 *)
  Definition cell_create (X : Ext A) (id : nat) (n : node) (surfaces : list (surf A))
      (materials : list (material A)) (global : field A) : outcome (cell A) :=
    noexcept
      (let! senses := assign_senses X surfaces (n_children n) in
       let! m := assign_material materials n in
       Ok (mkCell id (as_string (n_attr n "name")) senses m
             (assign_temperature X global n))).

  (** World::CreateCSGSurfaces, World.cpp:85-102 *)
  Definition create_surfaces (X : Ext A) (root : node) : outcome (list (surf A)) :=
    foldM (fun acc n =>
             let name := as_string (n_attr n "name") in
             if existsb (fun s => String.eqb (su_name s) name) acc then Ok acc
             else
               let! s := surface_create X root name in
               Ok (acc ++ [mkSurf (length acc) s])%list)
          (flat_map n_children (n_children (n_child root "cells"))) [].

  (** The cells that are not void, World.cpp:108-111 *)
  Definition material_cells (root : node) : list node :=
    filter (fun n => negb (String.eqb (n_name n) "void")) (n_children (n_child root "cells")).

  (** World::CreateNuclides, World.cpp:104-145 *)
  Definition create_nuclide_step (X : Ext A) (root : node) (acc : list (nuclide A)) (n : node)
      : outcome (list (nuclide A)) :=
    let name := as_string (n_attr n "name") in
    if existsb (fun nu => String.eqb (nu_name nu) name) acc then Ok acc
    else
      let energy_type := n_first_child (n_child root "nuclides") in
      let nn := n_find_by_attr energy_type "name" name in
      if is_null nn then
        Throw ("Nuclide node " ++ quoted name ++ " not found. Must be one of: [" ++
               quote_names (n_children energy_type) ++ "]")
      else
        let! nu := nuclide_create X (length acc) nn in
        Ok (acc ++ [nu])%list.
  Definition create_nuclides (X : Ext A) (root : node) : outcome (list (nuclide A)) :=
    foldM (fun acc c =>
             let! m := material_node root (as_string (n_attr c "material")) in
             foldM (create_nuclide_step X root) (n_children m) acc)
          (material_cells root) [].

  (** World::CreateMaterials, World.cpp:147-168 *)
  Definition create_materials (X : Ext A) (root : node) (nuclides : list (nuclide A))
      : outcome (list (material A)) :=
    foldM (fun acc c =>
             let name := as_string (n_attr c "material") in
             if existsb (fun m => String.eqb (m_name m) name) acc then Ok acc
             else let! m := material_create X root name nuclides in Ok (acc ++ [m])%list)
          (material_cells root) [].

  (** World::CreateTemperature, World.cpp:170-177 *)
  Definition create_temperature (X : Ext A) (n : node) : outcome (field A) :=
    if is_null n then Ok (constant_field room_temperature)
    else field_create X (n_first_child n).

  (** World::CreateCells, World.cpp:179-189 *)
  Definition create_cells (X : Ext A) (root : node) (surfaces : list (surf A))
      (materials : list (material A)) (temperature : field A) : outcome (list (cell A)) :=
    foldM (fun acc n =>
             let! c := cell_create X (length acc) n surfaces materials temperature in
             Ok (acc ++ [c])%list) (n_children (n_child root "cells")) [].

  (** World constructor, World.cpp:20-24 *)
  Definition world_create (X : Ext A) (root : node) : outcome (world A) :=
    let! surfaces := create_surfaces X root in
    let! nuclides := create_nuclides X root in
    let! materials := create_materials X root nuclides in
    let! temperature := create_temperature X (n_child root "temperature") in
    let! cells := create_cells X root surfaces materials temperature in
    Ok (mkWorld surfaces nuclides materials temperature cells).

  (** FindCellContaining, World.cpp:26-37 *)
  Definition find_cell (w : world A) (p : point A) : outcome (cell A) :=
    match find (fun c => cell_contains c p) (w_cells w) with
    | Some c => Ok c
    | None => Throw ("Point does not belong to any Cell. Please check" ++
                     "that all space is either assigned a material or void.")
    end.

  (** HasConstantTemperature, World.cpp:39-41 *)
  Definition has_constant_temperature (w : world A) : bool :=
    field_is_constant (w_temperature w).

  (** FindSurfaceByName, World.cpp:43-61 *)
  Definition find_surface (w : world A) (name : string) : outcome (surf A) :=
    match find (fun s => String.eqb (su_name s) name) (w_surfaces w) with
    | Some s => Ok s
    | None => Throw ("Surface " ++ quoted name ++ " not found. Must be one of: [" ++
                     quote_strings (map su_name (w_surfaces w)) ++ "]")
    end.

  (** FindNuclideByName, World.cpp:63-81 *)
  Definition find_nuclide (w : world A) (name : string) : outcome (nuclide A) :=
    match find (fun nu => String.eqb (nu_name nu) name) (w_nuclides w) with
    | Some nu => Ok nu
    | None => Throw ("Nuclide " ++ quoted name ++ " not found. Must be one of: [" ++
                     quote_strings (map nu_name (w_nuclides w)) ++ "]")
    end.
End World.
