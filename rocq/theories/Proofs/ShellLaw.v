(** An isotropic source in the middle of absorbing shells: property C110. *)
From Coq Require Import Bool String List Reals ZArith NArith Lra Lia.
From Verif Require Import Model.Num Model.Outcome Model.Rng Model.Xml Model.Std Model.Point
  Model.Surface Model.Types Model.Field Model.Particle Model.Multigroup
  Model.Material Model.World Model.Perturbation Model.Transport Model.Driver
  Spec.Vec Spec.GeometrySpec Spec.DirectionSpec Spec.RngSpec
  Spec.MultigroupSpec Spec.MaterialSpec Spec.TransportSpec Spec.ChanceSpec
  Spec.CollisionSpec Spec.StepSpec Spec.AbsorbSpec Spec.LayerSpec Spec.BallSpec Spec.ShellSpec
  Proofs.OutcomeLib Proofs.RealLib Proofs.RngProofs Proofs.GeometryProofs Proofs.DirectionProofs
  Proofs.CrossingProofs Proofs.ChanceLib Proofs.BirthLaw Proofs.AbsorbLaw Proofs.LayerLaw Proofs.BallLaw
  Proofs.SampleProblem.
Import ListNotations.
Local Open Scope R_scope.

Lemma away_dots a v y : unit v ->
  dot (vsub (along a v y) a) v = y /\ dot (vsub (along a v y) a) (vsub (along a v y) a) = y * y.
Proof.
  intros U. apply unit_dot in U. destruct a as [a1 a2 a3], v as [v1 v2 v3].
  unfold along, vsub, vadd, vscale, dot in *. cbn in *. split.
  - transitivity (y * (v1 * v1 + v2 * v2 + v3 * v3)); [ring|rewrite U; ring].
  - transitivity (y * y * (v1 * v1 + v2 * v2 + v3 * v3)); [ring|rewrite U; ring].
Qed.

(** On the way out a sphere that is ahead is met, *)
Lemma ahead_distance a v y r : unit v -> 0 <= y < r ->
  distance (Sphere (A := XRa) (pt a) (Fin r)) (pt (along a v y)) (pt v) = Fin (r - y).
Proof.
  intros U Hy. rewrite sphere_distance by exact U. destruct (away_dots a v y U) as [-> ->].
  destruct (SolveQuadratic_spec 1 (2 * y) (y * y - r * r) ltac:(lra)) as (S1 & S2 & _).
  destruct S2 as [d Ed].
  { exists (r - y). unfold quad. split; [lra|]. split; [ring|lra]. }
  rewrite Ed. destruct (S1 d Ed) as (Pd & Q & _). unfold quad in Q. f_equal. nra.
Qed.
(** and one that is behind is not. *)
Lemma behind_distance a v y r : unit v -> 0 < r < y ->
  distance (Sphere (A := XRa) (pt a) (Fin r)) (pt (along a v y)) (pt v) = PInf.
Proof.
  intros U Hy. rewrite sphere_distance by exact U. destruct (away_dots a v y U) as [-> ->].
  destruct (SolveQuadratic_spec 1 (2 * y) (y * y - r * r) ltac:(lra)) as (S1 & _ & [S3|[d Ed]]); [exact S3|].
  destruct (S1 d Ed) as (Pd & Q & _). unfold quad in Q. nra.
Qed.

Lemma shells_layers X Gs doc w g a k v : nudge (A := XRa) = Fin k -> 0 < k -> unit v ->
  forall inner q c n x, shells X Gs doc w g a k inner q c n x -> 0 <= q ->
  (inner = [] \/ exists s r, inner = [(s, false)] /\ around_middle a s r /\ 0 < r < q) ->
  layers X Gs doc w g v n (along a v q) c x.
Proof.
  intros Ek Hk U.
  assert (Near : forall inner q c s r, c_senses c = (inner ++ [(s, true)])%list -> around_middle a s r -> 0 <= q < r ->
    (inner = [] \/ exists s' r', inner = [(s', false)] /\ around_middle a s' r' /\ 0 < r' < q) ->
    nearest_surface c (pt (along a v q)) (pt v) = Ok (s, Fin (r - q))).
  { intros inner q c s r Cs Sh Hq I. unfold nearest_surface. rewrite Cs.
    assert (Ds : su_distance s (pt (along a v q)) (pt v) = Fin (r - q)).
    { unfold su_distance. rewrite Sh. now apply ahead_distance. }
    destruct I as [->|(s' & r' & -> & Sh' & Hr')]; cbn [app min_surface].
    - now rewrite Ds.
    - assert (Ds' : su_distance s' (pt (along a v q)) (pt v) = PInf).
      { unfold su_distance. rewrite Sh'. now apply behind_distance. }
      change (num XRa) with xr in *. rewrite Ds, Ds'. cbn. now rewrite Ds. }
  assert (Step : forall q y, along (along a v q) v y = along a v (q + y)).
  { intros q y. unfold along, vadd, vscale. destruct a, v. cbn. f_equal; ring. }
  intros inner q c n x H. induction H as [inner q c s r S Cs Sh Hr F V|inner q c s r S c' n x Cs Sh Pr Hr F V H IH]; intros Hq I.
  - destruct F as (m & d & Em & M & Ab & Hd & ->).
    destruct (V (along a v (r + k))) as (c' & Fc & Nc); [rewrite away_distance; auto; lra|].
    apply last_layer with (o' := along a v (r + k)) (c' := c'); [|exact Nc].
    exists m, d, (r - q), k. do 5 (split; [assumption|]). split; [lra|]. split; [exists s; eapply Near; eauto; lra|].
    split; [exact Ek|]. split; [rewrite Step; f_equal; ring|]. split; [exact Fc|reflexivity].
  - destruct F as (m & d & Em & M & Ab & Hd & ->).
    apply next_layer with (o' := along a v (r + k)) (c' := c').
    + exists m, d, (r - q), k. do 5 (split; [assumption|]). split; [lra|]. split; [exists s; eapply Near; eauto; lra|].
      split; [exact Ek|]. split; [rewrite Step; f_equal; ring|]. split; [|reflexivity].
      apply V. rewrite away_distance; auto; lra.
    + apply IH; [lra|]. right. exists s, r. split; [reflexivity|]. split; [exact Sh|lra].
Qed.

Lemma C110_shells_proof :
  forall (X : Ext XRa) (Gs : list N) (doc : nuclide XRa -> node) (w : world XRa) (c : cell XRa)
    (g : N) (a : vec) (k : R) (n : nat) (x : R) (t : tracking) (fuel more : nat)
    (E : Type) (score : E -> particle XRa Given -> outcome E) (e : E),
  nudge (A := XRa) = Fin k -> In g Gs ->
  find_cell w (pt a) = Ok c -> shells X Gs doc w g a k [] 0 c n x ->
  (forall e' q, exists e'', score e' q = Ok e'') ->
  chance (2 + (n + more))
    (fun l => comes_to (last_state (transport (A := XRa) score t (n + fuel) w e (isotropic_neutron a g l)))
                (fun q => event_eqb (p_event q) leak))
    (exp (- x)).
Proof.
  intros X Gs doc w c g a k n x t fuel more E score e Ek Hg Fc H Sc.
  destruct nudge_fin as (k' & Ek' & Hk). rewrite Ek in Ek'. injection Ek' as <-.
  apply (chance_any (1 + (n + more))). intros u Hu. apply (chance_any (n + more)). intros y Hy.
  destruct (dir_isotropic_pt Given [u; y] (open_valid _ given_open)) as (v & Ev & U).
  assert (Ei : forall l, isotropic_neutron a g (u :: y :: l)
                         = set_rng (new_particle (G := Given) (pt a) (pt v) (Group g) neutron 1 None) l).
  { intros l. unfold isotropic_neutron. cbn [sample_direction]. rewrite <- Ev. reflexivity. }
  eapply chance_ext.
  2:{ apply (C107_layers_proof X Gs doc w g a v c n x
         (new_particle (G := Given) (pt a) (pt v) (Group g) neutron 1 None) t fuel more E score e).
      - constructor.
        + reflexivity.
        + exists g. split; [reflexivity|exact Hg].
        + exists a. reflexivity.
        + exists v. split; [reflexivity|exact U].
      - reflexivity.
      - reflexivity.
      - reflexivity.
      - reflexivity.
      - exact Fc.
      - assert (A0 : along a v 0 = a) by (unfold along, vadd, vscale; destruct a, v; cbn; f_equal; ring).
        pose proof (shells_layers X Gs doc w g a k v Ek Hk U [] 0 c n x H ltac:(lra) (or_introl eq_refl)) as L.
        rewrite A0 in L. exact L.
      - exact Sc. }
  intros l. cbv beta. now rewrite Ei.
Qed.

(** A ball of radius one in a shell of radius two. *)
Definition outer_sphere : surf XRa := mkSurf 1 (mkSurface "outer" (Sphere (A := XRa) (pt (V3 0 0 0)) (Fin 2))).
Definition shell_cell : cell XRa := mkCell 1 "shell" [(sphere, false); (outer_sphere, true)] (Some slab_material) warmth.
Definition shell_outside : cell XRa := mkCell 2 "" [(outer_sphere, false)] None warmth.
Definition shell_world : world XRa :=
  mkWorld [sphere; outer_sphere] [slab_nuclide] [slab_material] warmth [ball_cell; shell_cell; shell_outside].

Lemma C110_example :
  exists k, nudge (A := XRa) = Fin k /\ 0 < k < 1 /\ In 1%N [1]%N
    /\ find_cell shell_world (pt (V3 0 0 0)) = Ok ball_cell
    /\ shells slab_ext [1]%N (fun _ => slab_node) shell_world 1 (V3 0 0 0) k [] 0 ball_cell 2
         (1 * (1 - 0) + 1 * (2 - (1 + k))).
Proof.
  destruct C106_example as (Mx & Ab & _ & _ & _ & _ & _ & _ & _ & _ & S1).
  destruct nudge_fin as (k & Ek & _). pose proof (nudge_small k Ek) as Hk.
  exists k. split; [exact Ek|]. split; [exact Hk|]. split; [now left|].
  assert (In1 : forall x, su_contains sphere (pt x) = Rltb (dot (vsub x (V3 0 0 0)) (vsub x (V3 0 0 0))) (1 * 1)).
  { intros x. apply (sphere_contains (V3 0 0 0) 1). }
  assert (In2 : forall x, su_contains outer_sphere (pt x) = Rltb (dot (vsub x (V3 0 0 0)) (vsub x (V3 0 0 0))) (2 * 2)).
  { intros x. apply (sphere_contains (V3 0 0 0) 2). }
  assert (Sq : forall x, dot (vsub x (V3 0 0 0)) (vsub x (V3 0 0 0)) = dist x (V3 0 0 0) * dist x (V3 0 0 0)).
  { intros x. unfold dist, norm. symmetry. apply sqrt_sqrt. apply dot_nonneg. }
  assert (F : forall c, c_material c = Some slab_material -> filled slab_ext [1]%N (fun _ => slab_node) 1 c 1).
  { intros c Em. exists slab_material, 1. rewrite S1. do 4 (split; [first [assumption|reflexivity]|]). ring. }
  split.
  - unfold find_cell. cbn [w_cells shell_world find]. unfold cell_contains. cbn [c_senses ball_cell forallb fst snd].
    rewrite In1. unfold dot, vsub. cbn [vx vy vz]. decide_reals. reflexivity.
  - apply (next_shell _ _ _ _ _ _ _ [] 0 ball_cell sphere 1 1 shell_cell 1); try reflexivity; try lra.
    + now apply F.
    + intros x Hx. unfold find_cell. cbn [w_cells shell_world find]. unfold cell_contains.
      cbn [c_senses ball_cell shell_cell forallb fst snd]. rewrite In1, In2, Sq, Hx.
      rewrite Rltb_false by nra. rewrite Rltb_true by nra. reflexivity.
    + apply (last_shell _ _ _ _ _ _ _ [(sphere, false)] (1 + k) shell_cell outer_sphere 2 1); try reflexivity; try lra.
      * now apply F.
      * intros x Hx. exists shell_outside. split; [|reflexivity].
        unfold find_cell. cbn [w_cells shell_world find]. unfold cell_contains.
        cbn [c_senses ball_cell shell_cell shell_outside forallb fst snd]. rewrite In1, In2, Sq.
        rewrite !Rltb_false by nra. reflexivity.
Qed.
