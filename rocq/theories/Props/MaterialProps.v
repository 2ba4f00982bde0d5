(** Materials: properties C28-C31. *)
From Coq Require Import String List Reals ZArith NArith Lra Lia Permutation.
From Verif Require Import Model.Num Model.Outcome Model.Rng Model.Xml Model.Std Model.Surface
  Model.Types Model.Field Model.Tables Model.Particle Model.Multigroup Model.Continuous
  Model.Material Model.World Model.Perturbation Model.Transport Spec.Vec Spec.SumSpec
  Spec.RngSpec Spec.MultigroupSpec Spec.MaterialSpec Spec.TextExt Proofs.RealLib
  Proofs.RngProofs Proofs.MaterialProofs.
Import ListNotations.
Local Open Scope string_scope.
Local Open Scope R_scope.

(** C28 *)
Theorem C28_atom_fractions :
  forall (X : Ext XRa) root name (all : list (nuclide XRa)) (l : list (string * R)),
  let n := material_element root name in
  n <> None -> written_fractions X n l -> l <> [] -> NoDup (map fst l) ->
  List.Forall (fun w => 0 < snd w) l ->
  NoDup (map nu_id all) -> (forall w, In w l -> exists nu, In nu all /\ nu_name nu = fst w) ->
  exists m, material_create X root name all = Ok m
    /\ m_name m = name /\ m_density m = as_double X (n_attr n "aden"%string)
    /\ (exists l', Permutation l l' /\ Forall2 (fun w x => In (fst x) all /\ nu_name (fst x) = fst w
                           /\ snd x = Fin (snd w / Rsum (map snd l))) l' (m_afracs m))
    /\ List.Forall (fun x => 0 < fraction x) (m_afracs m)
    /\ Rsum (map fraction (m_afracs m)) = 1.
Proof. exact C28_atom_fractions_proof. Qed.
Print Assumptions C28_atom_fractions.

(** Two nuclides, fractions written as 2 and 6. *)
Definition example_nuclides : list (nuclide XRa) := [mkNuclide 0 "H1" []; mkNuclide 1 "O16" []].
Definition example_materials : node :=
  document [Elem "materials" [] [Elem "material" [("name", "water"); ("aden", "5")]
    [leaf "nuclide" [("name", "O16"); ("afrac", "2")];
     leaf "nuclide" [("name", "H1"); ("afrac", "6")]] ""] ""].

Example C28_case :
  let X := text_ext XRa [] in
  let l := [("O16", 2); ("H1", 6)] in
  material_element example_materials "water" <> None
  /\ written_fractions X (material_element example_materials "water") l
  /\ NoDup (map fst l) /\ List.Forall (fun w => 0 < snd w) l
  /\ NoDup (map nu_id example_nuclides)
  /\ (forall w, In w l -> exists nu, In nu example_nuclides /\ nu_name nu = fst w).
Proof.
  cbv zeta. split; [discriminate|]. split.
  { repeat constructor; cbn; decs; f_equal; lra. }
  split; [|split; [|split]].
  - repeat constructor; cbn; intuition discriminate.
  - repeat constructor; cbn; lra.
  - repeat constructor; cbn; intuition discriminate.
  - intros w [<-|[<-|[]]]; cbn; eauto.
Qed.

(** Two one-group nuclides with capture only, in the half space x < 1. *)
Definition absorber (id : nat) (x : R) : nuclide XRa :=
  mkNuclide id "absorber" [(neutron, IMultigroup (A := XRa)
    (mkMultigroup (A := XRa) None None None [(Rcapture, [Fin x])] [Fin x] 1%N))].
Definition mix : material XRa :=
  mkMaterial (A := XRa) "mix" [(absorber 0 1, Fin (1 / 4)); (absorber 1 3, Fin (3 / 4))] (Fin 1).
Definition half_space : cell XRa :=
  mkCell 0 "left" [(mkSurf 0 (mkSurface "left" (PlaneX (Fin 1 : num XRa))), true)]
    (Some mix) (constant_field (Fin 300 : num XRa)).
Definition half_rng : Rng XRa :=
  mkRng XRa Datatypes.unit (fun _ => tt) (fun s => (1%Z, s)) (fun s => (Fin (1 / 2), s)).
Lemma half_valid : valid_rng half_rng.
Proof. intros s. exists (1 / 2). split; [reflexivity|lra]. Qed.
Definition inside : particle XRa half_rng :=
  new_particle (G := half_rng) (pt (V3 0 0 0)) (pt (V3 1 0 0)) (Group 1) neutron 1 (Some half_space).

Lemma mix_plain : List.Forall (plain inside) (m_afracs mix).
Proof. repeat constructor; cbn; lra. Qed.
Lemma mix_total : weighted (total_at inside) (m_afracs mix) = 5 / 2.
Proof. unfold weighted; cbn. lra. Qed.

(** C29 *)
Theorem C29_material_sums :
  forall (G : Rng XRa) (m : material XRa) (p : particle XRa G),
  List.Forall (plain p) (m_afracs m) ->
  let T := weighted (total_at p) (m_afracs m) in
  let M := weighted (majorant_at p) (m_afracs m) in
  mat_total m p = Ok (Fin T) /\ mat_majorant m p = Ok (Fin M)
  /\ (forall m', Permutation (m_afracs m) (m_afracs m') ->
        mat_total m' p = Ok (Fin T) /\ mat_majorant m' p = Ok (Fin M))
  /\ ((forall x, In x (m_afracs m) -> total_at p x <= majorant_at p x) ->
      0 <= T <= M
      /\ (0 < M -> exists r, ndiv XRa (Fin T) (Fin M) = Fin r /\ 0 <= r <= 1)).
Proof. exact C29_material_sums_proof. Qed.
Print Assumptions C29_material_sums.

Example C29_case :
  List.Forall (plain inside) (m_afracs mix)
  /\ (forall x, In x (m_afracs mix) -> total_at inside x <= majorant_at inside x)
  /\ weighted (total_at inside) (m_afracs mix) = 5 / 2.
Proof.
  split; [exact mix_plain|]. split; [|exact mix_total].
  intros x [<-|[<-|[]]]; cbn; lra.
Qed.

(** C30 *)
Theorem C30_collided_nuclide :
  forall (G : Rng XRa) (p : particle XRa G) c m,
  valid_rng G -> p_cell p = Some c -> c_material c = Some m ->
  List.Forall (plain p) (m_afracs m) -> 0 < weighted (total_at p) (m_afracs m) ->
  exists u nu pre a post, fst (runif G (p_rng p)) = Fin u /\ 0 <= u < 1
    /\ sample_nuclide p = Ok (nu, set_rng p (snd (runif G (p_rng p))))
    /\ m_afracs m = (pre ++ (nu, a) :: post)%list
    /\ weighted (total_at p) pre <= u * weighted (total_at p) (m_afracs m)
       < weighted (total_at p) pre + fraction (nu, a) * total_at p (nu, a)
    /\ 0 < fraction (nu, a) * total_at p (nu, a).
Proof. exact C30_collided_nuclide_proof. Qed.
Print Assumptions C30_collided_nuclide.

Example C30_case :
  valid_rng half_rng /\ p_cell inside = Some half_space /\ c_material half_space = Some mix
  /\ List.Forall (plain inside) (m_afracs mix)
  /\ 0 < weighted (total_at inside) (m_afracs mix).
Proof.
  split; [exact half_valid|]. split; [reflexivity|]. split; [reflexivity|].
  split; [exact mix_plain|]. rewrite mix_total. lra.
Qed.

(** C31 *)
Theorem C31_multigroup_majorant :
  forall (A : Arith) (G : Rng A) (m : material A) (p : particle A G),
  all_multigroup m (p_type p) -> mat_majorant m p = mat_total m p.
Proof. exact C31_multigroup_majorant_proof. Qed.
Print Assumptions C31_multigroup_majorant.
Theorem C31_no_virtual_collisions :
  forall (G : Rng XRa) fuel (w : world XRa) (p q : particle XRa G) c m t,
  valid_rng G -> p_cell p = Some c -> c_material c = Some m ->
  all_multigroup m (p_type p) -> mat_total m p = Ok (Fin t) -> 0 < t ->
  p_event p <> virtual_collision ->
  transport_step CellDeltaTracking fuel w p = Ok q -> p_event q <> virtual_collision.
Proof. exact C31_no_virtual_collisions_proof. Qed.
Print Assumptions C31_no_virtual_collisions.

Lemma ln_half : -1 <= ln (1 + - (1 / 2)) <= 0.
Proof.
  replace (1 + - (1 / 2)) with (/ 2) by lra. rewrite ln_Rinv by lra.
  assert (ln 1 < ln 2) by (apply ln_increasing; lra). rewrite ln_1 in H.
  assert (ln 2 < ln (exp 1)) by (apply ln_increasing; [lra|]; pose proof (exp_ineq1 1); lra).
  rewrite ln_exp in H0. lra.
Qed.

Lemma inside_distance :
  sample_distance CellDeltaTracking inside = Ok (Fin (- ln (1 + - (1 / 2)) / (5 / 2)), inside).
Proof.
  unfold sample_distance. cbn. decide_reals. cbn. decide_reals.
  unfold inside, set_rng, new_particle. cbn. do 4 f_equal. lra.
Qed.
Lemma inside_surface : exists s,
  nearest_surface half_space (p_position inside) (p_direction inside) = Ok (s, Fin 1).
Proof. eexists. cbn. decide_reals. do 3 f_equal. field. Qed.

(** Half a mean free path away there is a capture. *)
Example C31_case :
  let w := mkWorld [] [] [] (constant_field (Fin 300 : num XRa)) [half_space] in
  all_multigroup mix (p_type inside) /\ mat_total mix inside = Ok (Fin (5 / 2))
  /\ p_event inside <> virtual_collision
  /\ exists q, transport_step CellDeltaTracking 1 w inside = Ok q /\ p_event q = capture.
Proof.
  cbv zeta. split; [|split; [|split; [discriminate|]]].
  - intros x [<-|[<-|[]]]; eexists; reflexivity.
  - destruct (C29_material_sums half_rng mix inside mix_plain) as [E _]. rewrite E, mix_total.
    reflexivity.
  - cbn [transport_step]. unfold delta_step. rewrite inside_distance. cbn [bind].
    change (get_cell inside) with (Ok half_space). cbn [bind].
    destruct inside_surface as (s & ->). cbn [bind]. pose proof ln_half as L.
    change (nltb XRa (Fin 1) (Fin (- ln (1 + - (1 / 2)) / (5 / 2))))
      with (Rltb 1 (- ln (1 + - (1 / 2)) / (5 / 2))). decide_reals.
    change (get_material inside) with (Ok mix). cbn [bind].
    destruct (C29_material_sums half_rng mix inside mix_plain) as [E _].
    rewrite C31_multigroup_majorant, E, mix_total. 
    2: { intros x [<-|[<-|[]]]; eexists; reflexivity. }
    cbn [bind]. replace (bernoulli half_rng _ _) with (true, tt).
    2: { cbn. decide_reals. cbn. decide_reals. reflexivity. }
    unfold collide. cbn [bind stream noexcept mapM p_indirect set_rng inside new_particle].
    match goal with |- context [sample_nuclide ?p] => set (p1 := p) end.
    destruct (C30_collided_nuclide half_rng p1 half_space mix half_valid eq_refl eq_refl)
      as (u & nu & pre & a & post & _ & _ & E1 & El & _).
    + repeat constructor; cbn; lra.
    + unfold weighted; cbn; lra.
    + rewrite E1. cbn [bind].
      assert (Hn : exists i x, 0 < x /\ nu = absorber i x).
      { assert (Hin : In (nu, a) (m_afracs mix)) by (rewrite El; apply in_elt).
        destruct Hin as [[= <- _]|[[= <- _]|[]]]; do 2 eexists; (split; [|reflexivity]); lra. }
      destruct Hn as (i & x & Hx & ->). eexists. split.
      * unfold nu_interact, mg_interact. cbn. decide_reals. reflexivity.
      * reflexivity.
Qed.
