(** Multigroup nuclear data: src/Multigroup.cpp, src/Reaction.cpp. *)
From Coq Require Import Bool String List ZArith NArith.
From Verif Require Import Model.Num Model.Outcome Model.Rng Model.Xml Model.Std Model.Point
  Model.Surface Model.Types Model.Particle.
Import ListNotations.
Local Open Scope string_scope.
Local Open Scope bool_scope.
Local Open Scope num_scope.
Local Open Scope outcome_scope.

(** ToReaction, Reaction.cpp:6-19 *)
Definition to_reaction (name : string) : outcome reaction :=
  if String.eqb name "capture" then Ok Rcapture
  else if String.eqb name "scatter" then Ok Rscatter
  else if String.eqb name "fission" then Ok Rfission
  else Throw ("Unrecognized reaction name: " ++ name).

(** Enumeration order, src/Reaction.hpp:9-13 *)
Definition reaction_rank (r : reaction) : nat :=
  match r with Rcapture => 0 | Rscatter => 1 | Rfission => 2 end.

Section Multigroup.
  Context {A : Arith} {G : Rng A}.
  Notation particle := (particle A G).

  (** GroupStructureSize, Multigroup.cpp:192-199 *)
  Definition group_structure_size (X : Ext A) (n : node) : N :=
    as_uint X (n_attr (n_child (n_child (n_child (n_root n) "minimc") "nuclides")
                               "multigroup") "groups").

  (** OneDimensional from a node, Multigroup.cpp:82-94; [groups] is
      GroupStructureSize and [path], [elements] come from the node. *)
  Definition make_one (X : Ext A) (path : string) (groups : N) (elements : list (num A))
      : outcome (list (num A)) :=
    if (N.of_nat (length elements) =? groups)%N then Ok elements
    else Throw (path ++ ": Expected " ++ show_N groups ++ " entries but got " ++
                show_N (N.of_nat (length elements))).
  Definition one_dimensional (X : Ext A) (n : node) : outcome (list (num A)) :=
    make_one X (n_path n) (group_structure_size X (n_root n)) (to_reals X (n_text n)).

  (** OneDimensional::at, Multigroup.cpp:96-98, and TwoDimensional::at,
      Multigroup.cpp:149-152: groups count from 1. *)
  Definition group_at {V} (l : list V) (g : N) : outcome V := vec_at l (sub64 g 1).

  (** TwoDimensional from a node, Multigroup.cpp:124-147: row-major input,
      stored by column. *)
  Definition make_two (X : Ext A) (path : string) (groups : N) (flattened : list (num A))
      : outcome (list (list (num A))) :=
    let expected := (groups * groups)%N in
    if (N.of_nat (length flattened) =? expected)%N then
      mapM (fun gp =>
              mapM (fun g => vec_at flattened
                               (groups * (N.of_nat g - 1) + (N.of_nat gp - 1))%N)
                   (seq 1 (N.to_nat groups)))
           (seq 1 (N.to_nat groups))
    else Throw (path ++ ": Expected " ++ show_N expected ++ " entries but got " ++
                show_N (N.of_nat (length flattened))).
  Definition two_dimensional (X : Ext A) (n : node) : outcome (list (list (num A))) :=
    make_two X (n_path n) (group_structure_size X (n_root n)) (to_reals X (n_text n)).

  (** The normalisation of NormalizedTwoDimensional, Multigroup.cpp:171-185 *)
  Definition normalize_column (col : list (num A)) : list (num A) :=
    let s := accumulate (#0) col in
    if s =? #0 then col else map (fun e => e / s) col.
  Definition normalized_two (X : Ext A) (n : node) : outcome (list (list (num A))) :=
    let! m := two_dimensional X n in Ok (map normalize_column m).

  (** CreateScatterXS, Multigroup.cpp:201-210 *)
  Definition create_scatter_xs (X : Ext A) (n : node) : outcome (list (num A)) :=
    let! m := two_dimensional X n in Ok (map (accumulate (#0)) m).

  (** [std::map<Reaction, ...>::emplace]: keys in enumeration order, the first
      insertion of a key wins. *)
  Fixpoint reaction_emplace (r : reaction) (v : list (num A))
      (l : list (reaction * list (num A))) : list (reaction * list (num A)) :=
    match l with
    | [] => [(r, v)]
    | (r', v') :: t =>
        if Nat.ltb (reaction_rank r) (reaction_rank r') then (r, v) :: l
        else if Nat.ltb (reaction_rank r') (reaction_rank r)
             then (r', v') :: reaction_emplace r v t
             else l
    end.

  (** CreateReactions, Multigroup.cpp:212-229 *)
  Definition create_reactions (X : Ext A) (particle_node : node)
      : outcome (list (reaction * list (num A))) :=
    foldM (fun acc n =>
             let! r := to_reaction (n_name n) in
             let! v := match r with
                       | Rscatter => create_scatter_xs X n
                       | Rfission => one_dimensional X (n_child n "xs")
                       | Rcapture => one_dimensional X n
                       end in
             Ok (reaction_emplace r v acc)) (n_children particle_node) [].

  (** [std::transform] with [plus] over the range of the first vector; reading
      past the end of the second is undefined. *)
  Fixpoint add_onto (acc xs : list (num A)) : outcome (list (num A)) :=
    match acc, xs with
    | [], _ => Ok []
    | _ :: _, [] => UB
    | a :: acc', x :: xs' => let! r := add_onto acc' xs' in Ok (a + x :: r)
    end.

  (** CreateTotalXS, Multigroup.cpp:231-243 *)
  Definition create_total (groups : N) (reactions : list (reaction * list (num A)))
      : outcome (list (num A)) :=
    foldM (fun acc rx => add_onto acc (snd rx)) reactions (repeat (#0) (N.to_nat groups)).

  (** An optional member read from an optional node. *)
  Definition when_node {V} (n : node) (k : node -> outcome V) : outcome (option V) :=
    if is_null n then Ok None else let! v := k n in Ok (Some v).

  (** Constructor, Multigroup.cpp:23-38 *)
  Definition multigroup_create (X : Ext A) (n : node) : outcome (multigroup A) :=
    let! nubar := when_node (n_child (n_child n "fission") "nubar") (one_dimensional X) in
    let! chi := when_node (n_child (n_child n "fission") "chi") (normalized_two X) in
    let! probs := when_node (n_child n "scatter") (normalized_two X) in
    let! reactions := create_reactions X n in
    let! total := create_total (group_structure_size X (n_root n)) reactions in
    Ok (mkMultigroup nubar chi probs reactions total (group_structure_size X (n_root n))).

  (** GetTotal, Multigroup.cpp:45-47 *)
  Definition mg_get_total (m : multigroup A) (p : particle) : outcome (num A) :=
    noexcept (let! g := get_group (p_energy p) in group_at (mg_total m) g).

  (** GetMajorant, Multigroup.cpp:40-43 *)
  Definition mg_get_majorant (m : multigroup A) (p : particle) : outcome (num A) :=
    mg_get_total m p.

  (** The selection loop shared by Scatter (Multigroup.cpp:255-262) and Fission
      (Multigroup.cpp:279-285): [n] groups remain, starting at [g]. *)
  Fixpoint pick_group (n : nat) (g : N) (probs : list (num A)) (acc threshold : num A)
      : outcome (option N) :=
    match n with
    | O => Ok None
    | S n' =>
        let! x := group_at probs g in
        let acc' := acc + x in
        if acc' >? threshold then Ok (Some g)
        else pick_group n' (g + 1)%N probs acc' threshold
    end.

  (** Capture, Multigroup.cpp:245-247 *)
  Definition mg_capture (p : particle) : particle := set_event p capture.

  (** Scatter, Multigroup.cpp:249-265. When no group is selected the disabled
      assert is passed and only the event has changed. *)
  Definition mg_scatter (m : multigroup A) (p : particle) : outcome particle :=
    noexcept
      (let p1 := set_event p scatter in
       let (threshold, p2) := p_unif p1 in
       let! probs := of_option (mg_scatter_probs m) (Throw "bad_optional_access") in
       let! g0 := get_group (p_energy p2) in
       let! group_probs := group_at probs g0 in
       let! sel := pick_group (N.to_nat (mg_max_group m)) 1 group_probs (#0) threshold in
       Ok (match sel with
           | Some g => set_direction_isotropic (set_energy p2 (Group g))
           | None => p2
           end)).

  (** The loop over secondaries of Fission, Multigroup.cpp:275-286 *)
  Fixpoint mg_fission_loop (n : nat) (m : multigroup A) (group_probs : list (num A))
      (p : particle) : outcome particle :=
    match n with
    | O => Ok p
    | S n' =>
        let (threshold, p1) := p_unif p in
        let! sel := pick_group (N.to_nat (mg_max_group m)) 1 group_probs (#0) threshold in
        let p2 := match sel with
                  | Some g =>
                      let (d, s) := dir_isotropic G (p_rng p1) in
                      bank_secondary (set_rng p1 s) d (Group g)
                  | None => p1
                  end in
        mg_fission_loop n' m group_probs p2
    end.

  (** The conversion [size_t fission_yield(nubar + u)]. *)
  Definition to_yield (x : num A) : outcome N := of_option (ntoN A x) UB.

  (** Fission, Multigroup.cpp:267-287 *)
  Definition mg_fission (m : multigroup A) (p : particle) : outcome particle :=
    noexcept
      (let p1 := set_event p fission in
       let! g0 := get_group (p_energy p1) in
       let! nubar := of_option (mg_nubar m) (Throw "bad_optional_access") in
       let! nu := group_at nubar g0 in
       let (u, p2) := p_unif p1 in
       let! yield := to_yield (nu + u) in
       let! chi := of_option (mg_chi m) (Throw "bad_optional_access") in
       let! group_probs := group_at chi g0 in
       mg_fission_loop (N.to_nat yield) m group_probs p2).

  (** The selection loop of Interact, Multigroup.cpp:52-69 *)
  Fixpoint pick_reaction (l : list (reaction * list (num A))) (g : N)
      (acc threshold : num A) : outcome (option reaction) :=
    match l with
    | [] => Ok None
    | (r, xs) :: t =>
        let! x := group_at xs g in
        let acc' := acc + x in
        if acc' >? threshold then Ok (Some r) else pick_reaction t g acc' threshold
    end.

  (** Interact, Multigroup.cpp:49-73. When nothing is selected the disabled
      assert is passed and the function returns. *)
  Definition mg_interact (m : multigroup A) (p : particle) : outcome particle :=
    noexcept
      (let (u, p1) := p_unif p in
       let! total := mg_get_total m p1 in
       let! g := get_group (p_energy p1) in
       let! sel := pick_reaction (mg_reactions m) g (#0) (u * total) in
       match sel with
       | Some Rcapture => Ok (mg_capture p1)
       | Some Rscatter => mg_scatter m p1
       | Some Rfission => mg_fission m p1
       | None => Ok p1
       end).
End Multigroup.
