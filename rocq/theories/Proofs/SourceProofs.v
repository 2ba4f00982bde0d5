(** Source particles: C65. *)
From Coq Require Import Bool String List Reals ZArith NArith Lra Lia.
From Verif Require Import Model.Num Model.Outcome Model.Rng Model.Xml Model.Std Model.Point
  Model.Types Model.Particle Model.Transport Model.Driver
  Spec.Vec Spec.RngSpec Spec.DirectionSpec Spec.TextExt
  Proofs.OutcomeLib Proofs.RealLib Proofs.RngProofs Proofs.DirectionProofs.
Import ListNotations.
Local Open Scope string_scope.
Local Open Scope R_scope.

Lemma source_create_ok {A : Arith} (X : Ext A) n so : source_create X n = Ok so ->
  position_create X (n_child n "position") = Ok (so_position so)
  /\ direction_create X (n_child n "direction") = Ok (so_direction so)
  /\ energy_create X (n_child n "energy") = Ok (so_energy so)
  /\ type_create (n_child n "particletype") = Ok (so_type so).
Proof.
  intros E. unfold source_create in E.
  apply bind_ok in E as (a & Ea & E). apply bind_ok in E as (b & Eb & E).
  apply bind_ok in E as (c & Ec & E). apply bind_ok in E as (d & Ed & E).
  injection E as <-. auto.
Qed.
Lemma sample_is {A : Arith} {G : Rng A} (so : source A) seed :
  exists seed', source_sample (G := G) so seed
  = new_particle (so_position so) (fst (sample_direction (so_direction so) (rseed G seed)))
      (so_energy so) (so_type so) seed' None.
Proof.
  unfold source_sample. destruct (sample_direction (so_direction so) (rseed G seed)) as [d s1].
  destruct (rraw G s1) as [seed' s2]. now exists seed'.
Qed.

Lemma C65_particle_proof :
  forall (A : Arith) (G : Rng A) (X : Ext A) (n : node) (so : source A) (seed : Z),
  source_create X n = Ok so ->
  let p := source_sample (G := G) so seed in
  let position := n_first_child (n_child n "position") in
  let energy := n_first_child (n_child n "energy") in
  let type := n_first_child (n_child n "particletype") in
  let nuclides := n_first_child (n_child (n_child (n_root (n_child n "energy")) "minimc") "nuclides") in
  is_alive p = true /\ p_event p = birth /\ p_cell p = None /\ p_surface p = None
  /\ p_secondaries p = [] /\ p_indirect p = []
  /\ p_position p = mkPoint (as_double X (n_attr position "x")) (as_double X (n_attr position "y"))
                            (as_double X (n_attr position "z"))
  /\ p_type p = to_type (as_string (n_attr type "type"))
  /\ ((n_name nuclides = "multigroup"
       /\ exists g, stoull X (as_string (n_attr energy "energy")) = Ok g /\ p_energy p = Group g)
      \/ (n_name nuclides = "continuous"
          /\ exists e, stod X (as_string (n_attr energy "energy")) = Ok e
                       /\ p_energy p = ContinuousE e)).
Proof.
  intros A G X n so seed E p position energy type nuclides.
  apply source_create_ok in E as (E1 & E2 & E3 & E4).
  destruct (sample_is (G := G) so seed) as (seed' & Ep). unfold p. rewrite Ep. cbn.
  do 6 (split; [reflexivity|]). split; [|split].
  - unfold position_create in E1. destruct (String.eqb _ _); [|discriminate]. now injection E1 as <-.
  - unfold type_create in E4. destruct (String.eqb _ _); [|discriminate]. now injection E4 as <-.
  - unfold energy_create in E3. fold energy in E3. destruct (String.eqb _ _); [|discriminate].
    fold nuclides in E3. destruct (String.eqb_spec (n_name nuclides) "multigroup") as [M|_].
    + left. split; auto. apply bind_ok in E3 as (g & Eg & E3). injection E3 as <-. eauto.
    + destruct (String.eqb_spec (n_name nuclides) "continuous") as [M|_]; [|discriminate].
      right. split; auto. apply bind_ok in E3 as (g & Eg & E3). injection E3 as <-. eauto.
Qed.

Lemma C65_direction_proof :
  forall (G : Rng XRa) (X : Ext XRa) (n : node) (so : source XRa) (seed : Z) (v : vec),
  valid_rng G ->
  source_create X n = Ok so ->
  let p := source_sample (G := G) so seed in
  let direction := n_first_child (n_child n "direction") in
  (n_name direction <> "isotropic" -> v <> zero_vec /\
     as_double X (n_attr direction "x") = Fin (vx v)
     /\ as_double X (n_attr direction "y") = Fin (vy v)
     /\ as_double X (n_attr direction "z") = Fin (vz v)) ->
  (n_name direction = "constant" /\ p_direction p = pt (vscale (/ norm v) v))
  \/ (n_name direction = "isotropic"
      /\ p_direction p = fst (dir_isotropic G (rseed G seed)) /\ unit_point (p_direction p))
  \/ (n_name direction = "isotropic-flux"
      /\ exists u u' w, draw G 0 (rseed G seed) = Fin u /\ 0 <= u < 1
           /\ draw G 1 (rseed G seed) = Fin u' /\ 0 <= u' < 1
           /\ p_direction p = pt w /\ unit w
           /\ dot w (vscale (/ norm v) v) = sqrt u /\ 0 <= sqrt u < 1
           (* turned about the vector by an angle uniform on a full turn *)
           /\ pt w = dir_rotate (pt (vscale (/ norm v) v)) (Fin (sqrt u)) (Fin (2 * PI * u'))).
Proof.
  intros G X n so seed v HG E p direction Hv.
  apply source_create_ok in E as (E1 & E2 & E3 & E4).
  destruct (sample_is (G := G) so seed) as (seed' & Ep). unfold p. rewrite Ep. cbn [p_direction new_particle].
  unfold direction_create in E2. fold direction in E2.
  assert (Hd : n_name direction <> "isotropic" ->
               dir_of_node X direction = pt (vscale (/ norm v) v) /\ unit (vscale (/ norm v) v)).
  { intros N. destruct (Hv N) as (Nz & H1 & H2 & H3). unfold dir_of_node, point_of_node.
    rewrite H1, H2, H3. split; [now apply pnormalize_pt|]. now apply unit_normalized. }
  destruct (String.eqb_spec (n_name direction) "constant") as [M|_].
  { left. split; auto. injection E2 as <-. cbn. apply Hd. rewrite M. discriminate. }
  destruct (String.eqb_spec (n_name direction) "isotropic") as [M|_].
  { right. left. injection E2 as <-. cbn. split; auto. split; auto.
    destruct (dir_isotropic_pt G (rseed G seed) HG) as (w & Ew & Uw). exists w. auto. }
  destruct (String.eqb_spec (n_name direction) "isotropic-flux") as [M|_]; [|discriminate].
  right. right. split; auto. injection E2 as <-.
  destruct Hd as [Hd Hu]; [rewrite M; discriminate|]. cbn [sample_direction]. unfold draw. cbn [advance].
  destruct (HG (rseed G seed)) as (u & Eu & Bu).
  destruct (runif G (rseed G seed)) as [x s1]; cbn [fst] in *; subst x.
  unfold uniform. destruct (HG s1) as (u2 & Eu2 & Bu2).
  destruct (runif G s1) as [x s2] eqn:Er2; cbn [fst snd] in *; subst x. rewrite Hd.
  assert (Bs : 0 <= sqrt u < 1).
  { split; [apply sqrt_pos|]. pose proof (sqrt_lt_1 u 1 ltac:(lra) ltac:(lra) ltac:(lra)) as H1. rewrite sqrt_1 in H1. exact H1. }
  unfold c_pi. xr. rewrite xsqrt_fin by lra. rewrite !dir_rotate_pt by (auto; lra).
  eexists u, u2, _. split; [reflexivity|]. split; [auto|]. split; [now rewrite Er2|]. split; [auto|].
  split; [reflexivity|]. split; [apply rotated_unit; auto; lra|].
  split; [apply rotated_cosine; auto|]. split; [auto|]. rewrite dir_rotate_pt by (auto; lra). do 2 f_equal. lra.
Qed.

(** A zero vector has no direction: reading one gives a direction that is not a
    number. *)
Lemma C65_zero_direction_refuted_proof :
  exists (X : Ext XRa) (n : node),
  as_double X (n_attr n "x") = Fin 0 /\ as_double X (n_attr n "y") = Fin 0
  /\ as_double X (n_attr n "z") = Fin 0
  /\ dir_of_node X n = mkPoint (A := XRa) NaN NaN NaN.
Proof.
  exists (text_ext XRa []), (lone (leaf "constant" [("x", "0"); ("y", "0"); ("z", "0")])).
  assert (E : forall s, s = "0" -> as_double (text_ext XRa []) (Some s) = Fin 0).
  { intros s ->. cbn. decs. reflexivity. }
  unfold dir_of_node, point_of_node. change (n_attr ?a ?b) with (Some "0"). rewrite !E by auto.
  repeat split. unfold pnormalize, pdot, pdiv. cbn [px py pz]. xr.
  rewrite !Rmult_0_l, !Rplus_0_l. rewrite xsqrt_fin by lra. rewrite sqrt_0.
  cbn. unfold xsinf. decide_reals. reflexivity.
Qed.
