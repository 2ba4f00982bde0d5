(** Nuclides and materials: src/Interaction.cpp, src/Nuclide.cpp,
    src/Material.cpp, and Particle::SampleNuclide. *)
From Coq Require Import Bool String List ZArith NArith.
From Verif Require Import Model.Num Model.Outcome Model.Rng Model.Xml Model.Std Model.Point
  Model.Surface Model.Types Model.Bins Model.Field Model.Tables Model.Particle
  Model.Multigroup Model.Continuous.
Import ListNotations.
Local Open Scope string_scope.
Local Open Scope bool_scope.
Local Open Scope num_scope.
Local Open Scope outcome_scope.

Section Material.
  Context {A : Arith} {G : Rng A}.
  Notation particle := (particle A G).

  (** [std::map<Particle::Type, ...>::emplace], src/Interaction.hpp:20 *)
  Definition type_emplace (t : ptype) (i : interaction A) (l : list (ptype * interaction A))
      : list (ptype * interaction A) :=
    if existsb (fun x => ptype_eqb (fst x) t) l then l else (l ++ [(t, i)])%list.

  (** Interaction::Create, Interaction.cpp:16-46. The XPath selection
      "minimc/general/particles" is the chain of first children of those names. *)
  Definition interaction_create (X : Ext A) (n : node)
      : outcome (list (ptype * interaction A)) :=
    let names := to_words X (n_text (n_child (n_child (n_child (n_root n) "minimc")
                                                      "general") "particles")) in
    foldM (fun acc name =>
             let pn := n_child n name in
             if is_null pn then
               Throw (n_path n ++ ": " ++ quoted name ++ " node not found")
             else
               let energy_type := n_name (n_parent n) in
               if String.eqb energy_type "multigroup" then
                 let! m := multigroup_create X pn in
                 Ok (type_emplace (to_type name) (IMultigroup m) acc)
               else if String.eqb energy_type "continuous" then
                 let! c := continuous_create X pn in
                 Ok (type_emplace (to_type name) (IContinuous c) acc)
               else Ok acc) names [].

  (** Nuclide constructor, Nuclide.cpp:12-14; [id] is its position in
      World::nuclides. *)
  Definition nuclide_create (X : Ext A) (id : nat) (n : node) : outcome (nuclide A) :=
    let! xs := interaction_create X n in
    Ok (mkNuclide id (as_string (n_attr n "name")) xs).

  (** [xs.at(p.type)] *)
  Definition nu_at (nu : nuclide A) (p : particle) : outcome (interaction A) :=
    match find (fun x => ptype_eqb (fst x) (p_type p)) (nu_xs nu) with
    | Some x => Ok (snd x)
    | None => Throw "map::at"
    end.

  (** GetMajorant, GetTotal, Interact: Nuclide.cpp:16-26 *)
  Definition nu_majorant (nu : nuclide A) (p : particle) : outcome (num A) :=
    noexcept (let! i := nu_at nu p in
              match i with
              | IMultigroup m => mg_get_majorant m p
              | IContinuous c => co_get_majorant c p
              end).
  Definition nu_total (nu : nuclide A) (p : particle) : outcome (num A) :=
    noexcept (let! i := nu_at nu p in
              match i with
              | IMultigroup m => mg_get_total m p
              | IContinuous c => co_get_total c p
              end).
  Definition nu_interact (fuel : nat) (nu : nuclide A) (p : particle) : outcome particle :=
    noexcept (let! i := nu_at nu p in
              match i with
              | IMultigroup m => mg_interact m p
              | IContinuous c => co_interact fuel c p
              end).

  (** Material::FindNode, Material.cpp:16-33 *)
  Definition material_node (root : node) (name : string) : outcome node :=
    let materials := n_child root "materials" in
    let n := n_find_by_attr materials "name" name in
    if is_null n then
      Throw ("Material node " ++ quoted name ++ " not found. Must be one of: [" ++
             quote_names (n_children materials) ++ "]")
    else Ok n.

  (** The insertion loop of AssignNuclides, Material.cpp:70-82, into a map ordered by
      address, Material.hpp:20. A name missing from all_nuclides dereferences end(). *)
  Definition collect_nuclides (X : Ext A) (all : list (nuclide A)) (ns : list node)
      : outcome (list (nuclide A * num A)) :=
    foldM (fun acc n =>
             let name := as_string (n_attr n "name") in
             match find (fun nu => String.eqb (nu_name nu) name) all with
             | None => UB
             | Some nu =>
                 let afrac := as_double X (n_attr n "afrac") in
                 Ok (if existsb (fun x => Nat.eqb (nu_id (fst x)) (nu_id nu)) acc
                     then acc
                     else insert_at (fun x => nuclide_address X (nu_id (fst x))) (nu, afrac) acc)
             end) ns [].

  (** The normalisation of AssignNuclides, Material.cpp:83-93 *)
  Definition normalize_afracs (l : list (nuclide A * num A)) : list (nuclide A * num A) :=
    let s := fold_left (fun acc x => acc + snd x) l (#0) in
    map (fun x => (fst x, snd x / s)) l.

  (** AssignNuclides, Material.cpp:65-94, and the constructor, 35-39. *)
  Definition material_create (X : Ext A) (root : node) (name : string)
      (all : list (nuclide A)) : outcome (material A) :=
    let! n := material_node root name in
    let! l := collect_nuclides X all (n_children n) in
    Ok (mkMaterial name (normalize_afracs l) (as_double X (n_attr n "aden"))).

  (** GetMicroscopicMajorant and GetMicroscopicTotal, Material.cpp:41-61 *)
  Definition sum_afracs (f : nuclide A -> outcome (num A)) (l : list (nuclide A * num A))
      : outcome (num A) :=
    foldM (fun acc x => let! v := f (fst x) in Ok (acc + snd x * v)) l (#0).
  Definition mat_majorant (m : material A) (p : particle) : outcome (num A) :=
    noexcept (sum_afracs (fun nu => nu_majorant nu p) (m_afracs m)).
  Definition mat_total (m : material A) (p : particle) : outcome (num A) :=
    noexcept (sum_afracs (fun nu => nu_total nu p) (m_afracs m)).

  (** The selection loop of Particle::SampleNuclide, Particle.cpp:114-119 *)
  Fixpoint pick_nuclide (l : list (nuclide A * num A)) (p : particle)
      (acc threshold : num A) : outcome (option (nuclide A)) :=
    match l with
    | [] => Ok None
    | (nu, afrac) :: t =>
        let! x := nu_total nu p in
        let acc' := acc + afrac * x in
        if acc' >? threshold then Ok (Some nu) else pick_nuclide t p acc' threshold
    end.

  (** Particle::SampleNuclide, Particle.cpp:110-124. Null [cell] or [material] is
      dereferenced; running off the end of the function is undefined. *)
  Definition sample_nuclide (p : particle) : outcome (nuclide A * particle) :=
    noexcept
      (match p_cell p with
       | None => UB
       | Some c =>
           match c_material c with
           | None => UB
           | Some m =>
               let! total := mat_total m p in
               let (u, p1) := p_unif p in
               let! sel := pick_nuclide (m_afracs m) p1 (#0) (total * u) in
               match sel with Some nu => Ok (nu, p1) | None => UB end
           end
       end).
End Material.
