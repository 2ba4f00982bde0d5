(** The transport of a particle ends with probability one: property C100. *)
From Coq Require Import Bool String List Reals ZArith NArith Lra Lia.
From Coquelicot Require Import Coquelicot.
From Verif Require Import Model.Num Model.Outcome Model.Rng Model.Xml Model.Std Model.Point
  Model.Surface Model.Types Model.Field Model.Particle Model.Multigroup Model.Thermal
  Model.Continuous Model.Material Model.World Model.Perturbation Model.Estimator Model.Transport
  Spec.Vec Spec.GeometrySpec Spec.CellSpec Spec.DirectionSpec Spec.RngSpec Spec.SumSpec
  Spec.MultigroupSpec Spec.MaterialSpec Spec.TextExt Spec.TransportSpec Spec.ChanceSpec Spec.EndingSpec
  Proofs.OutcomeLib Proofs.RealLib Proofs.RngProofs Proofs.GeometryProofs Proofs.CellProofs
  Proofs.StreamProofs Proofs.StepLib Proofs.DirectionProofs Proofs.MultigroupProofs
  Proofs.MultigroupReal Proofs.MaterialProofs Proofs.TransportProofs Proofs.WellPosed
  Proofs.CrossingProofs Proofs.SampleProblem Proofs.ChanceLib Proofs.FlightLaw.
Import ListNotations.
Local Open Scope R_scope.

(** ** How often a line crosses surfaces *)

Definition roots (a b k : R) : list R :=
  [(- b + sqrt (b * b - 4 * a * k)) / (2 * a); (- b - sqrt (b * b - 4 * a * k)) / (2 * a)].

Lemma roots_all a b k t : a <> 0 -> quad a b k t = 0 -> In t (roots a b k).
Proof.
  intros Ha Q. unfold quad in Q.
  assert (E : (2 * a * t + b) * (2 * a * t + b) = b * b - 4 * a * k) by nra.
  unfold roots. rewrite <- E.
  assert (S : sqrt ((2 * a * t + b) * (2 * a * t + b)) = Rabs (2 * a * t + b)) by apply sqrt_Rsqr_abs.
  rewrite S. unfold Rabs. destruct (Rcase_abs (2 * a * t + b)).
  - right; left. field; auto.
  - left. field; auto.
Qed.

Definition meets (o u : vec) (s : shape XRa) : list R :=
  match s with
  | Sphere (mkPoint (Fin x) (Fin y) (Fin z)) (Fin r) =>
      let c := V3 x y z in
      roots 1 (2 * dot (vsub o c) u) (dot (vsub o c) (vsub o c) - r * r)
  | PlaneX (Fin x) => [(x - vx o) / vx u]
  | CylinderX (Fin r) =>
      roots (vy u * vy u + vz u * vz u) (2 * (vy o * vy u + vz o * vz u))
        (vy o * vy o + vz o * vz o - r * r)
  | _ => []
  end.

Lemma meets_length o u s : (length (meets o u s) <= 2)%nat.
Proof. unfold meets. repeat match goal with |- context [match ?x with _ => _ end] => destruct x end; cbn; lia. Qed.

Lemma meets_all o u s a r : real_shape s -> unit u ->
  distance s (pt (along o u a)) (pt u) = Fin r -> In (a + r) (meets o u s).
Proof.
  intros [c rr Hr|x|rr Hr] Hu D.
  - rewrite sphere_distance in D by auto.
    destruct (SolveQuadratic_spec 1 (2 * dot (vsub (along o u a) c) u)
      (dot (vsub (along o u a) c) (vsub (along o u a) c) - rr * rr)) as (S1 & _); [lra|].
    apply S1 in D as (_ & Q & _). rewrite <- sphere_quad, along_add, sphere_quad in Q by auto.
    destruct c as [cx cy cz]. apply roots_all; [lra|exact Q].
  - rewrite planex_distance in D. destruct (Reqb_spec (vx u) 0) as [|N]; [discriminate|].
    destruct (Rltb _ _); [|discriminate]. injection D as <-. left.
    unfold along, vadd, vscale; cbn. field. auto.
  - rewrite cylinder_distance in D by auto.
    destruct (Req_dec (vy u * vy u + vz u * vz u) 0) as [Z|Z].
    + exfalso. rewrite SolveQuadratic_none in D; [discriminate|]. rewrite Z.
      assert (vy u = 0) as -> by nra. assert (vz u = 0) as -> by nra. lra.
    + edestruct (SolveQuadratic_spec (vy u * vy u + vz u * vz u)) as (S1 & _); [nra|].
      apply S1 in D as (_ & Q & _). rewrite <- cylinder_quad, along_add, cylinder_quad in Q.
      apply roots_all; auto.
Qed.

(** The crossings of a line with all surfaces, and those ahead of a point of it. *)
Definition all_meets (w : world XRa) (o u : vec) : list R :=
  flat_map (fun s => meets o u (s_shape (su_surface s))) (sides w).
Definition is_ahead (a z : R) : bool := if Rlt_dec a z then true else false.
Definition ahead (l : list R) (a : R) : nat := length (filter (is_ahead a) l).

Lemma all_meets_length w o u : (length (all_meets w o u) <= 2 * length (sides w))%nat.
Proof.
  unfold all_meets. induction (sides w) as [|s l IH]; cbn [flat_map]; [cbn; lia|].
  rewrite app_length. pose proof (meets_length o u (s_shape (su_surface s))). cbn [length]. lia.
Qed.

Lemma ahead_length l a : (ahead l a <= length l)%nat.
Proof. unfold ahead. induction l as [|z l IH]; cbn; [lia|]. destruct (is_ahead a z); cbn; lia. Qed.

Lemma ahead_mono l a a' : a <= a' -> (ahead l a' <= ahead l a)%nat.
Proof.
  intros H. unfold ahead, is_ahead. induction l as [|z l IH]; cbn; [lia|].
  destruct (Rlt_dec a' z), (Rlt_dec a z); cbn; try lia. lra.
Qed.

Lemma ahead_less l a a' z : In z l -> a < z <= a' -> (ahead l a' < ahead l a)%nat.
Proof.
  intros Hin Hz. unfold ahead. induction l as [|y l IH]; [destruct Hin|].
  assert (D : forall x y, is_ahead x y = true <-> x < y)
    by (intros x1 y1; unfold is_ahead; destruct (Rlt_dec x1 y1); split; auto; discriminate).
  pose proof (ahead_mono l a a' ltac:(lra)) as M. unfold ahead in M.
  destruct Hin as [->|Hin]; cbn [filter].
  - destruct (is_ahead a' z) eqn:E1; [apply D in E1; lra|].
    destruct (is_ahead a z) eqn:E2; [cbn; lia|].
    assert (is_ahead a z = true) by (apply D; lra). congruence.
  - specialize (IH Hin). destruct (is_ahead a' y) eqn:E1.
    + assert (is_ahead a y = true) as -> by (apply D; apply D in E1; lra). cbn; lia.
    + destruct (is_ahead a y); cbn; lia.
Qed.

Lemma sides_in w c s : In c (w_cells w) -> surface_of c s -> In s (sides w).
Proof.
  intros Hc [b Hs]. unfold sides. apply in_flat_map. exists c. split; auto.
  apply in_map_iff. exists (s, b). auto.
Qed.

(** ** Steps of a particle whose random numbers are given *)

Lemma interval_most n (E : list R -> Prop) lo hi x : 0 <= lo <= hi -> hi <= 1 -> 0 <= x ->
  (forall u, lo < u < hi -> at_most n (fun l => E (u :: l)) x) ->
  (forall u, 0 < u < 1 -> u < lo \/ hi < u -> at_most n (fun l => E (u :: l)) 0) ->
  at_most (S n) E ((hi - lo) * x).
Proof.
  intros Hl Hh Px Hin Hout.
  exists (fun u => if Rlt_dec u lo then 0 else if Rlt_dec u hi then x else 0), [lo; hi], ((hi - lo) * x).
  split; [|split; [|lra]].
  - intros u Hu N. assert (u <> lo) by (intros ->; apply N; now left).
    assert (u <> hi) by (intros ->; apply N; right; now left).
    destruct (Rlt_dec u lo); [apply Hout; auto; lra|].
    destruct (Rlt_dec u hi); [apply Hin; lra|apply Hout; auto; lra].
  - replace ((hi - lo) * x) with (0 + ((hi - lo) * x + 0)) by ring.
    apply (integral_chasles _ 0 lo 1).
    + apply (integral_ext (fun _ => 0)); [lra| |apply integral_is; ring].
      intros u Hu. destruct (Rlt_dec u lo); [auto|lra].
    + apply (integral_chasles _ lo hi 1).
      * apply (integral_ext (fun _ => x)); [lra| |apply integral_is; ring].
        intros u Hu. destruct (Rlt_dec u lo); [lra|]. destruct (Rlt_dec u hi); [auto|lra].
      * apply (integral_ext (fun _ => 0)); [lra| |apply integral_is; ring].
        intros u Hu. destruct (Rlt_dec u lo); [lra|]. destruct (Rlt_dec u hi); [lra|auto].
Qed.

Lemma same_set_rng (p : particle XRa Given) l : same_here p (set_rng p l).
Proof. constructor; auto. Qed.

Lemma pick_nuclide_rng (p : particle XRa Given) l s : forall acc thr,
  pick_nuclide l (set_rng p s) acc thr = pick_nuclide l p acc thr.
Proof.
  induction l as [|[nu a] l IH]; intros acc thr; cbn [pick_nuclide]; auto.
  rewrite (same_nu_total nu p _ (same_set_rng p s)). destruct (nu_total nu p); cbn [bind]; auto.
  destruct (nltb _ _ _); auto.
Qed.

(** The nuclide chosen depends on one random number. *)
Lemma nuclide_given (p : particle XRa Given) nu q v l : 0 < v < 1 ->
  sample_nuclide (set_rng p (v :: l)) = Ok (nu, q) ->
  forall l', sample_nuclide (set_rng p (v :: l')) = Ok (nu, set_rng p l').
Proof.
  intros Hv H l'. unfold sample_nuclide in *. cbn [p_cell set_rng] in *.
  destruct (p_cell p) as [c|]; [|discriminate]. destruct (c_material c) as [m|]; [|discriminate].
  rewrite (same_mat_total m p _ (same_set_rng p (v :: l))) in H.
  rewrite (same_mat_total m p _ (same_set_rng p (v :: l'))).
  destruct (mat_total m p) as [T| | | |]; try discriminate. cbn [bind] in *.
  unfold p_unif in *. cbn [p_rng set_rng runif Given hd tl] in *.
  change (set_rng (set_rng p (v :: l)) l) with (set_rng p l) in H.
  change (set_rng (set_rng p (v :: l')) l') with (set_rng p l').
  rewrite pick_nuclide_rng in H |- *.
  destruct (pick_nuclide _ p _ _) as [[nu'|]| | | |]; cbn [bind noexcept] in *; try discriminate.
  injection H as <- _. reflexivity.
Qed.

(** A scatter takes three random numbers. *)
Lemma scatter_given X n m (p : particle XRa Given) g a b e :
  built X n m -> sensible_data X n -> scatter_node n <> None ->
  In g (groups (written_groups X n)) -> p_energy p = Group g ->
  0 < column_sum X n (scatter_node n) g -> 0 < a < 1 ->
  exists q : particle XRa Given, p_position q = p_position p /\ p_cell q = p_cell p
    /\ forall l, mg_scatter m (set_rng p (a :: b :: e :: l)) = Ok (set_rng q l).
Proof.
  intros B S Ns Hg Ep Hs Ha. pose proof (sd_groups _ _ S) as HG.
  assert (Nn : nonneg_numbers X (scatter_node n)).
  { apply (sd_nonneg _ _ S); auto. right; now left. }
  destruct (pick_column X n (scatter_node n) g a Nn HG ltac:(lra)) as (sel & Esel & Sel & _).
  destruct (Sel Hs) as (h & -> & _).
  exists (set_direction (set_energy (set_event p scatter) (Group h)) (fst (dir_isotropic Given [b; e]))).
  split; [reflexivity|split; [reflexivity|]]. intros l. unfold mg_scatter, p_unif. cbn [p_rng set_rng set_event runif Given hd tl].
  rewrite inside_is by auto.
  pose proof (bu_scatter _ _ _ B) as Bs.
  destruct (scatter_node n) as [c|] eqn:Ec; [|congruence]. rewrite <- Ec in *.
  destruct Bs as [Bs _]. rewrite Bs. cbn [of_option bind p_energy set_rng set_event].
  rewrite Ep. cbn [get_group bind].
  pose proof (proj1 (in_groups _ _) Hg) as Hg'.
  rewrite (group_at_nth _ _ []); try lia.
  2: { rewrite map_length, groups_length. lia. }
  rewrite (nth_groups _ _ _ _ Hg), (normalized_fin X n (scatter_node n) g Nn). cbn [bind].
  rewrite (bu_groups _ _ _ B). change (nofZ XRa 0) with (Fin 0). rewrite Esel.
  cbn [bind noexcept]. reflexivity.
Qed.

Lemma pow_falls x i j : 0 <= x <= 1 -> (i <= j)%nat -> x ^ j <= x ^ i.
Proof.
  intros Hx H. induction H as [|j H IH]; [lra|]. cbn [pow].
  assert (0 <= x ^ j) by (apply pow_le; lra). nra.
Qed.

(** What follows the flight in a collision. *)
Definition react (fuel : nat) (p : particle XRa Given) : outcome (particle XRa Given) :=
  (let! np := sample_nuclide p in let (nu, p2) := np : nuclide XRa * _ in nu_interact fuel nu p2)%outcome.

Section Ends.
  Variables (X : Ext XRa) (Gs : list N) (b : R) (w : world XRa) (t : tracking).
  Hypotheses (AW : absorbing_world X Gs b w) (PG : plain_geometry w) (Hb : 0 <= b <= 1).
  Notation live := (live Given Gs w).
  Implicit Types p q : particle XRa Given.

  Let V : valid_rng Given := open_valid _ given_open.

  Lemma absorbing_multigroup : multigroup_world X Gs w.
  Proof.
    intros c m Hc Em. destruct (AW c m Hc Em) as (D & Ne & H). split; [auto|split; [auto|]].
    intros nu a Hin. destruct (H nu a Hin) as (Ha & n & mg & H1 & H2 & H3 & H4 & H5).
    split; auto. exists n, mg. repeat (split; auto). intros g Hg. now apply H5.
  Qed.
  Let MW := absorbing_multigroup.

  Lemma live_rng p l : live p -> live (set_rng p l).
  Proof. intros [[? ? ? ?] ?]. constructor; auto. constructor; auto. Qed.
  Lemma live_back p l : live (set_rng p l) -> live p.
  Proof. intros [[? ? ? ?] ?]. constructor; auto. constructor; auto. Qed.

  Lemma react_given q1 c m v : group_neutron Gs q1 -> p_cell q1 = Some c -> In c (w_cells w) ->
    c_material c = Some m -> 0 < v < 1 ->
    exists lo hi, 0 <= lo <= hi /\ hi <= 1 /\ hi - lo <= 1 - b /\ forall z, 0 < z < 1 ->
      (z < lo \/ hi < z -> forall fuel l, exists q,
         react fuel (set_rng q1 (v :: z :: l)) = Ok q /\ is_alive q = false)
      /\ (lo < z < hi -> forall x y e, 0 < x < 1 -> exists q, p_position q = p_position q1
         /\ p_cell q = p_cell q1 /\ forall fuel l,
         react fuel (set_rng q1 (v :: z :: x :: y :: e :: l)) = Ok (set_rng q l)).
  Proof.
    intros N1 Ec Hc Em Hv.
    assert (N0 : forall l, group_neutron Gs (set_rng q1 l)) by (intros l; destruct N1; constructor; auto).
    destruct (material_total Given X Gs m (set_rng q1 [v]) (MW c m Hc Em) (N0 _)) as (Fo & T & HT & _ & _ & ET).
    destruct (sample_nuclide_fin Given (set_rng q1 [v]) c m V Ec Em Fo) as (v' & nu & pre & a & post & _ & _ & Es & El & _).
    { rewrite ET. exact HT. }
    pose proof (nuclide_given q1 nu _ v [] Hv Es) as Sn.
    assert (Hin : In (nu, a) (m_afracs m)) by (rewrite El; apply in_elt).
    destruct (AW c m Hc Em) as (_ & _ & Hm). destruct (Hm nu a Hin) as (_ & n & mg & Dn & C & S & W & P).
    pose proof N1 as [T1 (g & Eg & Hg) _ _]. pose proof Hg as Hg'. rewrite <- W in Hg'.
    destruct (P g Hg) as [Pt Pb]. clear P.
    pose proof (multigroup_built X n mg C) as B.
    destruct (sigma_written X n mg Rcapture g B S Hg') as [C0 _].
    destruct (sigma_written X n mg Rscatter g B S Hg') as [S0 _].
    destruct (sigma_written X n mg Rfission g B S Hg') as [F0 _].
    set (cc := sigma X n Rcapture g) in *. set (ss := sigma X n Rscatter g) in *.
    set (ff := sigma X n Rfission g) in *.
    assert (At : forall l, nu_at nu (set_rng q1 l) = Ok (IMultigroup mg)).
    { intros l. apply nu_multigroup. cbn [p_type set_rng]. rewrite T1. exact Dn. }
    assert (Re : forall fuel l, react fuel (set_rng q1 (v :: l)) = noexcept (mg_interact mg (set_rng q1 l))).
    { intros fuel l. unfold react. rewrite Sn. cbn [bind]. unfold nu_interact. rewrite At. reflexivity. }
    exists (cc / (cc + ss + ff)), ((cc + ss) / (cc + ss + ff)).
    assert (U : forall x y, x <= y -> x / (cc + ss + ff) <= y / (cc + ss + ff)).
    { intros x y H. apply Rmult_le_compat_r; [left; now apply Rinv_0_lt_compat|auto]. }
    assert (I1 : (cc + ss + ff) / (cc + ss + ff) = 1) by (field; lra).
    split; [split; [|apply U; lra]|split; [|split]].
    { apply Rmult_le_pos; [auto|left; now apply Rinv_0_lt_compat]. }
    { rewrite <- I1. apply U. lra. }
    { replace ((cc + ss) / (cc + ss + ff) - cc / (cc + ss + ff))
        with (1 - (cc + ff) / (cc + ss + ff)) by (field; lra).
      enough (b * (cc + ss + ff) / (cc + ss + ff) <= (cc + ff) / (cc + ss + ff)).
      { replace (b * (cc + ss + ff) / (cc + ss + ff)) with b in H by (field; lra). lra. }
      apply U. exact Pb. }
    assert (Lt : forall x z, (z < x / (cc + ss + ff) <-> z * (cc + ss + ff) < x)
                          /\ (x / (cc + ss + ff) < z <-> x < z * (cc + ss + ff))).
    { intros x z. replace x with (x / (cc + ss + ff) * (cc + ss + ff)) at 2 4 by (field; lra).
      split; split; intros H; try (now apply Rmult_lt_compat_r); apply Rmult_lt_reg_r with (cc + ss + ff); auto. }
    intros z Hz. split.
    - intros Out fuel l. rewrite Re.
      destruct (C24_reaction_choice_proof Given X n mg (set_rng q1 (z :: l)) g V C S Hg' Eg Pt)
        as (z' & q & Ez & _ & Ei & _ & Sc & _ & Ev). fold cc ss ff in Sc.
      cbn in Ez. rewrite inside_is in Ez by auto. injection Ez as <-.
      exists q. rewrite Ei. split; [reflexivity|]. unfold is_alive.
      destruct Ev as [->|[Ev| ->]]; auto. exfalso. apply Sc in Ev.
      destruct (Lt cc z) as [L1 _]. destruct (Lt (cc + ss) z) as [_ L2].
      destruct Out as [O|O]; [apply L1 in O|apply L2 in O]; lra.
    - intros [O1 O2] x y e Hx. apply (proj2 (Lt cc z)) in O1. apply (proj1 (Lt (cc + ss) z)) in O2.
      assert (Mi : forall l, mg_interact mg (set_rng q1 (z :: l)) = noexcept (mg_scatter mg (set_rng q1 l))
                             /\ scatter_node n <> None /\ 0 < column_sum X n (scatter_node n) g).
      { intros l.
        destruct (reaction_selected Given X n mg (set_rng q1 (z :: l)) g V C S Hg' Eg Pt)
          as (z' & r & Ez & _ & Ei & Wr & Pr & I). fold cc ss ff in I.
        cbn in Ez. rewrite inside_is in Ez by auto. injection Ez as <-.
        destruct r; try lra. split; [exact Ei|].
        assert (Ns : scatter_node n <> None).
        { cbn [written_xs] in Wr. unfold present in Wr. fold (scatter_node n) in Wr.
          destruct (is_null (scatter_node n)) eqn:Z; [discriminate|]. now apply is_null_false. }
        split; auto.
        rewrite <- (proj2 (C21_total_reals_proof Given X n mg q1 g C S Hg' Eg) Ns). exact Pr. }
      destruct (Mi []) as (_ & Ns & Cs).
      destruct (scatter_given X n mg q1 g x y e B S Ns Hg' Eg Cs Hx) as (q & Qp & Qc & Eq).
      exists q. split; [exact Qp|split; [exact Qc|]]. intros fuel l. rewrite Re, (proj1 (Mi _)), Eq. reflexivity.
  Qed.

  Definition k0 : R := 10 * / IZR (2 ^ 52).
  Lemma k0_pos : 0 < k0.
  Proof. unfold k0. apply Rmult_lt_0_compat; [lra|]. apply Rinv_0_lt_compat. apply IZR_lt. reflexivity. Qed.
  Lemma nudge_is : nudge (A := XRa) = Fin k0.
  Proof. reflexivity. Qed.

  (** The first number drawn decides whether a surface is crossed. *)
  Definition flight (S y : R) : R := - ln (1 - y) / S.

  Lemma step_full p x u : live p -> p_position p = pt x -> p_direction p = pt u -> unit u ->
    exists c m D T s ds, p_cell p = Some c /\ In c (w_cells w) /\ c_material c = Some m
      /\ m_density m = Fin D /\ 0 < D /\ collision_density t p = Ok (Fin T) /\ 0 < T
      /\ surface_of c s /\ ds = distance (s_shape (su_surface s)) (pt x) (pt u)
      /\ (forall s', surface_of c s' -> xleb ds (surf_distance s' (pt x) (pt u)) = true)
      /\ (ds = PInf \/ exists r, ds = Fin r /\ 0 < r)
      /\ forall y, 0 < y < 1 ->
    (exists q r c', ds = Fin r /\ r <= flight (D * T) y
       /\ p_position q = pt (along x u (r + k0)) /\ p_direction q = pt u
       /\ p_cell q = Some c' /\ first_cell w (p_position q) c'
       /\ forall fuel l, transport_step t fuel w (set_rng p (y :: l)) = Ok (set_rng q l))
    \/ (exists q, (forall r, ds = Fin r -> flight (D * T) y <= r)
         /\ p_position q = pt (along x u (flight (D * T) y)) /\ group_neutron Gs q /\ p_cell q = Some c
         /\ forall fuel l, match t with
              | SurfaceTracking => transport_step t fuel w (set_rng p (y :: l)) = react fuel (set_rng q l)
              | CellDeltaTracking => forall e, 0 < e < 1 ->
                  transport_step t fuel w (set_rng p (y :: e :: l)) = react fuel (set_rng q l)
              end).
  Proof.
    intros L Ex Eu Hu.
    destruct (density_live Given X Gs w MW t p L) as (c & m & D & T & Ec & Hc & Em & Gm & ED & HD & ET & HT).
    destruct (nearest_live Given Gs w PG p c x u L Ec Ex Eu Hu) as (s & ds & En & Hs & Hds).
    assert (Eds : ds = distance (s_shape (su_surface s)) (pt x) (pt u)
      /\ forall s', surface_of c s' -> xleb ds (surf_distance s' (pt x) (pt u)) = true).
    { destruct (C11_nearest_surface_proof c x u) as [H _]; auto.
      { intros s'. now apply (pg_shapes _ PG). }
      destruct H as (s' & ds' & En' & _ & Ed' & Least & _); [now apply (pg_bounded _ PG c m)|].
      rewrite Ex, Eu, En' in En. injection En as <- <-. split; [exact Ed'|exact Least]. }
    destruct Eds as [Eds Least].
    exists c, m, D, T, s, ds. do 11 (split; [assumption|]). intros y Hy.
    set (d := flight (D * T) y).
    assert (Sd : forall l, sample_distance t (set_rng p (y :: l)) = Ok (Fin d, set_rng p l)).
    { intros l. unfold sample_distance.
      change (get_material (set_rng p (y :: l))) with (get_material p). rewrite Gm. cbn [bind].
      assert (Cd : collision_density t (set_rng p (y :: l)) = Ok (Fin T)).
      { rewrite <- ET. unfold collision_density. change (get_material (set_rng p (y :: l))) with (get_material p).
        rewrite Gm. cbn [bind]. destruct t; f_equal; [apply same_mat_total|apply same_mat_majorant]; apply same_set_rng. }
      rewrite Cd. cbn [bind]. rewrite ED. change (nmul XRa (Fin D) (Fin T)) with (Fin (D * T)).
      pose proof (exponential_fin Given (p_rng (set_rng p (y :: l))) y (D * T)) as E.
      cbn [p_rng set_rng] in E |- *. rewrite E; [reflexivity| |lra|nra]. cbn. now rewrite inside_is. }
    assert (St : forall r l, stream t (set_rng p l) (Fin r)
      = Ok (set_rng (set_position (set_indirect p (effects m T r p)) (pt (along x u r))) l)).
    { intros r l. rewrite (stream_is t m T r x u 0 (set_rng p l)).
      - rewrite Rplus_0_l. reflexivity.
      - exact Gm.
      - rewrite <- ET. unfold collision_density. change (get_material (set_rng p l)) with (get_material p).
        rewrite Gm. cbn [bind]. destruct t; f_equal; [apply same_mat_total|apply same_mat_majorant]; apply same_set_rng.
      - cbn [p_position set_rng]. rewrite Ex. f_equal. destruct x; unfold along, vadd, vscale; cbn; f_equal; ring.
      - exact Eu. }
    assert (Gc : forall l, get_cell (set_rng p l) = Ok c) by (intros l; unfold get_cell; cbn; rewrite Ec; reflexivity).
    assert (Co : forall fuel l, collide (A := XRa) fuel t (Fin d) (set_rng p l)
      = react fuel (set_rng (set_position (set_indirect p (effects m T d p)) (pt (along x u d))) l)).
    { intros fuel l. unfold collide, react. change (num XRa) with xr in *. rewrite St. reflexivity. }
    assert (Nq : group_neutron Gs (set_position (set_indirect p (effects m T d p)) (pt (along x u d)))).
    { destruct L as [[? ? ? ?] _]. constructor; auto. cbn. eauto. }
    assert (Cr : forall r, exists q, p_position q = pt (along x u (r + k0)) /\ p_direction q = pt u
              /\ (exists c', p_cell q = Some c' /\ first_cell w (p_position q) c')
              /\ forall l, cross_surface t w s (Fin r) (set_rng p l) = Ok (set_rng q l)).
    { intros r. destruct (find_cell_total w PG (along x u (r + k0))) as (c' & Ec' & Fc' & _).
      eexists (set_event (set_surface (set_cell (set_position (set_indirect p (effects m T (r + k0) p))
        (pt (along x u (r + k0)))) c') (Some (su_id s))) _).
      split; [reflexivity|]. split; [exact Eu|]. split; [exists c'; split; [reflexivity|exact Fc']|].
      intros l. unfold cross_surface.
      rewrite nudge_is. change (nadd XRa (Fin r) (Fin k0)) with (Fin (r + k0)).
      change (num XRa) with xr in *. rewrite St. cbn [bind].
      cbn [p_position set_rng set_position]. rewrite Ec'. cbn [bind]. reflexivity. }
    assert (Cases : (exists r, ds = Fin r /\ 0 < r /\ (match t with SurfaceTracking => ~ d < r | CellDeltaTracking => r < d end))
                    \/ (match t with SurfaceTracking => nltb XRa (Fin d) ds = true
                        | CellDeltaTracking => nltb XRa ds (Fin d) = false end)).
    { destruct Hds as [->|(r & -> & Hr)]; [right; destruct t; reflexivity|].
      destruct t; cbn.
      - destruct (Rltb_spec d r); [now right|left; eauto].
      - destruct (Rltb_spec r d); [left; eauto|now right]. }
    destruct Cases as [(r & -> & Hr & Cmp)|Cmp].
    - left. destruct (Cr r) as (q & Pq & Dq & (c' & Cq & Fq) & Eq).
      exists q, r, c'. split; [reflexivity|split; [destruct t; lra|]].
      do 4 (split; [assumption|]). intros fuel l.
      destruct t; cbn [transport_step]; [unfold surface_step|unfold delta_step];
        change (num XRa) with xr in *; rewrite Sd; cbn [bind]; rewrite Gc; cbn [bind];
        change (p_position (set_rng p l)) with (p_position p);
        change (p_direction (set_rng p l)) with (p_direction p); rewrite En; cbn [bind].
      + replace (nltb XRa (Fin d) (Fin r)) with false by (symmetry; cbn; destruct (Rltb_spec d r); tauto).
        apply Eq.
      + replace (nltb XRa (Fin r) (Fin d)) with true by (symmetry; cbn; destruct (Rltb_spec r d); tauto).
        apply Eq.
    - right. exists (set_position (set_indirect p (effects m T d p)) (pt (along x u d))).
      split.
      { intros r ->. destruct t; cbn in Cmp; [destruct (Rltb_spec d r)|destruct (Rltb_spec r d)];
          try discriminate; lra. }
      split; [reflexivity|split; [exact Nq|split; [exact Ec|]]]. intros fuel l.
      destruct t; cbn [transport_step]; [unfold surface_step|unfold delta_step; intros e He];
        change (num XRa) with xr in *; rewrite Sd; cbn [bind]; rewrite Gc; cbn [bind];
        change (p_position (set_rng p ?l)) with (p_position p).
      + change (p_position (set_rng p l)) with (p_position p);
        change (p_direction (set_rng p l)) with (p_direction p); rewrite En; cbn [bind]. rewrite Cmp. apply Co.
      + change (p_position (set_rng p (e :: l))) with (p_position p);
        change (p_direction (set_rng p (e :: l))) with (p_direction p); rewrite En; cbn [bind]. rewrite Cmp.
        change (get_material (set_rng p (e :: l))) with (get_material p). rewrite Gm. cbn [bind].
        destruct (material_total Given X Gs m (set_rng p (e :: l)) (MW c m Hc Em)
          (lv_neutron _ _ _ _ (live_rng p (e :: l) L))) as (_ & T' & HT' & E1 & E2 & _).
        rewrite E1, E2. cbn [bind]. unfold bernoulli. cbn [p_rng set_rng runif Given hd tl].
        rewrite inside_is by auto.
        replace (nltb XRa (Fin e) (ndiv XRa (Fin T') (Fin T'))) with true.
        2: { cbn. rewrite Reqb_false by lra. symmetry. apply Rltb_true. unfold Rdiv.
             rewrite Rinv_r by lra. lra. }
        apply (Co fuel l).
  Qed.

  Lemma step_shape p x u y : live p -> p_position p = pt x -> p_direction p = pt u -> unit u ->
    0 < y < 1 ->
    (exists q r s c, In c (w_cells w) /\ surface_of c s
       /\ distance (s_shape (su_surface s)) (pt x) (pt u) = Fin r /\ 0 < r
       /\ p_position q = pt (along x u (r + k0)) /\ p_direction q = pt u
       /\ forall fuel l, transport_step t fuel w (set_rng p (y :: l)) = Ok (set_rng q l))
    \/ (exists q c m, group_neutron Gs q /\ p_cell q = Some c /\ In c (w_cells w) /\ c_material c = Some m
         /\ forall fuel l, match t with
              | SurfaceTracking => transport_step t fuel w (set_rng p (y :: l)) = react fuel (set_rng q l)
              | CellDeltaTracking => forall e, 0 < e < 1 ->
                  transport_step t fuel w (set_rng p (y :: e :: l)) = react fuel (set_rng q l)
              end).
  Proof.
    intros L Ex Eu Hu Hy.
    destruct (step_full p x u L Ex Eu Hu)
      as (c & m & D & T & s & ds & Ec & Hc & Em & _ & _ & _ & _ & Hs & Eds & _ & Hds & H).
    destruct (H y Hy) as [(q & r & c' & -> & _ & Pq & Dq & _ & _ & E)|(q & _ & _ & Nq & Cq & E)].
    - left. exists q, r, s, c. destruct Hds as [|(r' & Er & Hr)]; [discriminate|]. injection Er as <-.
      repeat (split; auto).
    - right. exists q, c, m. repeat (split; auto).
  Qed.

  (** Whether the particle is still on its way after [F] steps. *)
  Definition goes (F : nat) p : Prop :=
    transport_loop (fun (_ : Datatypes.unit) _ => Ok tt) t F w tt p = OutOfFuel.

  Lemma goes_step F p q : live p -> transport_step t F w p = Ok q -> goes (S F) p ->
    goes F q /\ (is_alive q = true -> live q).
  Proof.
    intros L E H. split.
    - unfold goes in *. cbn [transport_loop] in H. destruct (is_alive p); [|discriminate].
      rewrite E in H. exact H.
    - destruct (step_live Given V X Gs w MW PG t F p L) as (q' & E' & St & _).
      rewrite E in E'. injection E' as <-. apply (sp_neutron _ _ _ _ _ St).
  Qed.

  Lemma goes_alive F q : goes F q -> is_alive q = true.
  Proof.
    unfold goes. destruct F; cbn [transport_loop]; destruct (is_alive q); auto; discriminate.
  Qed.

  Let N : nat := (2 * length (sides w))%nat.

  Lemma goes_on_chance : forall F p o u a c n, live p ->
    p_position p = pt (along o u a) -> p_direction p = pt u -> unit u ->
    (ahead (all_meets w o u) a <= c <= N)%nat -> (7 * F <= n)%nat ->
    at_most n (fun l => goes F (set_rng p l)) ((1 - b) ^ ((F + N - c) / S N)).
  Proof.
    assert (P0 : forall i, 0 <= (1 - b) ^ i) by (intros i; apply pow_le; lra).
    induction F as [|F IH]; intros p o u a c n L Ep Ed Hu Hc Hn.
    { rewrite Nat.div_small by lia. cbn. apply at_most_const; intros; lra. }
    assert (K : forall q (l : list R) n' x, 0 <= x ->
      (forall l0, transport_step t F w (set_rng p (l ++ l0)) = Ok (set_rng q l0)) ->
      (is_alive q = true -> live q -> at_most n' (fun l0 => goes F (set_rng q l0)) x) ->
      at_most n' (fun l0 => goes (S F) (set_rng p (l ++ l0))) x).
    { intros q l n' x Px E H. destruct (is_alive q) eqn:Al.
      - assert (Lq : live q).
        { destruct (step_live Given V X Gs w MW PG t F _ (live_rng p (l ++ []) L)) as (q' & E' & St & _).
          rewrite E in E'. injection E' as <-. apply (live_back q []).
          apply (sp_neutron _ _ _ _ _ St). exact Al. }
        eapply at_most_mono; [|apply Rle_refl|exact (H eq_refl Lq)].
        intros l0 _ _ G. now apply (goes_step F _ _ (live_rng p _ L) (E l0)).
      - apply at_most_const; [exact Px|]. intros l0 G. exfalso.
        destruct (goes_step F _ _ (live_rng p _ L) (E l0) G) as [G' _].
        apply goes_alive in G'. cbn in G'. change (is_alive q = true) in G'. congruence. }
    assert (Dead : forall (l : list R) n' (x : R),
      (forall l0, exists q', transport_step t F w (set_rng p (l ++ l0)) = Ok q' /\ is_alive q' = false) ->
      x = 0 -> at_most n' (fun l0 => goes (S F) (set_rng p (l ++ l0))) x).
    { intros l n' x H ->. apply at_most_const; [lra|]. intros l0 G. exfalso.
      destruct (H l0) as (q' & E & D).
      destruct (goes_step F _ _ (live_rng p _ L) E G) as [G' _]. apply goes_alive in G'. congruence. }
    destruct n as [|n]; [lia|]. apply at_most_draw. intros y Hy.
    destruct (step_shape p (along o u a) u y L Ep Ed Hu Hy)
      as [(q & r & s & cl & Hcl & Hs & Dr & Hr & Pq & Dq & E)|(q & cl & m & Nq & Cq & Hcl & Em & E)].
    - (* a surface is crossed *)
      apply (K q [y] n); auto. { intros l0. apply E. }
      intros Al Lq. rewrite along_add in Pq.
      assert (Z : In (a + r) (all_meets w o u)).
      { apply in_flat_map. exists s. split; [now apply (sides_in w cl)|].
        apply meets_all; auto. now apply (pg_shapes _ PG cl). }
      pose proof k0_pos.
      pose proof (ahead_less _ a (a + (r + k0)) _ Z ltac:(lra)) as Lt.
      destruct c as [|c]; [lia|].
      replace (S F + N - S c)%nat with (F + N - c)%nat by lia.
      apply (IH q o u (a + (r + k0)) c n Lq Pq Dq Hu); lia.
    - (* a collision *)
      assert (M : forall l n', (6 * F + 5 + F <= n')%nat ->
        (forall fuel l0, transport_step t fuel w (set_rng p (l ++ l0)) = react fuel (set_rng q l0)) ->
        at_most n' (fun l0 => goes (S F) (set_rng p (l ++ l0))) ((1 - b) ^ ((S F + N - c) / S N))).
      { intros l n' Hn' St. destruct n' as [|n']; [lia|]. apply at_most_draw. intros v Hv.
        destruct (react_given q cl m v Nq Cq Hcl Em Hv) as (lo & hi & Hl & Hh & Hd & Cs).
        destruct n' as [|n']; [lia|].
        assert (B : (hi - lo) * (1 - b) ^ (F / S N) <= (1 - b) ^ ((S F + N - c) / S N)).
        { apply Rle_trans with ((1 - b) * (1 - b) ^ (F / S N)); [apply Rmult_le_compat_r; auto|].
          change ((1 - b) * (1 - b) ^ (F / S N)) with ((1 - b) ^ S (F / S N)).
          apply pow_falls; [lra|]. replace (S (F / S N)) with ((F + 1 * S N) / S N)%nat
            by (rewrite Nat.div_add by lia; lia).
          apply Nat.div_le_mono; lia. }
        eapply at_most_mono; [intros l0 _ _ G; exact G|exact B|].
        apply (interval_most n' _ lo hi); auto.
        + intros z Hz. destruct n' as [|[|[|n']]]; try lia.
          apply at_most_draw. intros x1 H1. apply at_most_draw. intros x2 H2. apply at_most_draw. intros x3 H3.
          destruct (proj2 (Cs z ltac:(lra)) Hz x1 x2 x3 H1) as (q' & _ & _ & Eq').
          eapply at_most_mono; [|apply Rle_refl|
            apply (K q' (l ++ [v; z; x1; x2; x3]) n' ((1 - b) ^ (F / S N)) (P0 _))].
          * intros l0 _ _ G. cbv beta. rewrite <- app_assoc. exact G.
          * intros l0. rewrite <- app_assoc. rewrite St. apply Eq'.
          * intros Al Lq. destruct (gn_position _ _ (lv_neutron _ _ _ _ Lq)) as (xq & Q3).
            destruct (gn_direction _ _ (lv_neutron _ _ _ _ Lq)) as (uq & Q4 & Q5).
            replace (F / S N)%nat with ((F + N - N) / S N)%nat by (f_equal; lia).
            apply (IH q' xq uq 0 N n' Lq); auto.
            -- rewrite Q3. f_equal. destruct xq; unfold along, vadd, vscale; cbn; f_equal; ring.
            -- split; [|lia]. eapply Nat.le_trans; [apply ahead_length|apply all_meets_length].
            -- lia.
        + intros z Hz Out.
          eapply at_most_mono; [|apply Rle_refl|apply (Dead (l ++ [v; z]) n' 0)].
          * intros l0 _ _ G. cbv beta. rewrite <- app_assoc. exact G.
          * intros l0. rewrite <- app_assoc, St. apply (proj1 (Cs z Hz) Out).
          * reflexivity. }
      destruct t eqn:Et.
      + apply (M [y] n); [lia|]. intros fuel l0. apply (E fuel l0).
      + destruct n as [|n]; [lia|]. apply at_most_draw. intros e He.
        apply (M [y; e] n); [lia|]. intros fuel l0. apply (E fuel l0 e He).
  Qed.
End Ends.

(** Scoring does not keep a particle alive. *)
Lemma goes_score {E : Type} (score : E -> particle XRa Given -> outcome E) t w :
  (forall e x, exists e', score e x = Ok e') ->
  forall F e p, transport_loop score t F w e p = OutOfFuel ->
  goes w t F p.
Proof.
  intros Hs. induction F as [|F IH]; intros e p; unfold goes; cbn [transport_loop];
    destruct (is_alive p); auto; try discriminate.
  destruct (transport_step t F w p) as [q| | | |] eqn:Et; cbn [bind]; try discriminate; auto.
  destruct (Hs e q) as [e' ->]. cbn [bind]. intros H. apply (IH _ _ H).
Qed.

Lemma first_cell_unique (w : world XRa) x c c' : first_cell w x c -> first_cell w x c' -> c' = c.
Proof.
  intros (b & a & E & I & N) (b' & a' & E' & I' & N').
  rewrite E in E'. clear E. revert b' E' N'. induction b as [|x0 b IH]; intros [|x1 b'] E' N';
    cbn in E'; injection E'.
  - auto.
  - intros _ ->. exfalso. apply (N' x1); [now left|auto].
  - intros _ ->. exfalso. apply (N c'); [now left|auto].
  - intros E1 ->. apply (IH ltac:(intros; apply N; now right) b'); auto.
    intros; apply N'; now right.
Qed.

Lemma C100_transport_ends_proof :
  forall (X : Ext XRa) (Gs : list N) (b : R) (w : world XRa) (E : Type)
    (score : E -> particle XRa Given -> outcome E) (t : tracking) (e : E) (p : particle XRa Given) c m,
  absorbing_world X Gs b w -> plain_geometry w -> 0 < b <= 1 ->
  (forall e x, exists e', score e x = Ok e') ->
  group_neutron Gs p -> first_cell w (p_position p) c -> c_material c = Some m ->
  forall F n, (7 * F <= n)%nat ->
    at_most n (fun l => ~ exists e' q, transport score t F w e (set_rng p l) = Ok (e', q))
      ((1 - b) ^ (F / S (2 * length (sides w)))).
Proof.
  intros X Gs b w E score t e p c m AW PG Hb Hs Hn Fc Em F n HF.
  assert (Ef : find_cell w (p_position p) = Ok c).
  { destruct (gn_position _ _ Hn) as (x & Ex). rewrite Ex in *.
    destruct (find_cell_total w PG x) as (c' & Ec' & Fc' & _). rewrite Ec'. f_equal.
    eapply first_cell_unique; eauto. }
  assert (L : live Given Gs w (set_cell p c)).
  { constructor; [destruct Hn; constructor; auto|]. exists c, m. repeat split; auto.
    now apply first_cell_in in Fc. }
  destruct (gn_position _ _ Hn) as (x & Ex). destruct (gn_direction _ _ Hn) as (u & Eu & Hu).
  set (N := (2 * length (sides w))%nat).
  replace (F / S N)%nat with ((F + N - N) / S N)%nat by (f_equal; lia).
  eapply at_most_mono; [|apply Rle_refl|
    apply (goes_on_chance X Gs b w t AW PG ltac:(lra) F (set_cell p c) x u 0 N n L)]; auto.
  - intros l _ _ H'.
    assert (H : transport score t F w e (set_rng p l) = OutOfFuel).
    { destruct (C71_transport_never_fails_proof Given X Gs w E score t F e (set_rng p l) c m) as [H|H];
        auto; [apply (open_valid _ given_open)|now apply (absorbing_multigroup X Gs b)| |contradiction].
      destruct Hn; constructor; auto. }
    clear H'. unfold transport in H. change (p_position (set_rng p l)) with (p_position p) in H.
    rewrite Ef in H. cbn [bind] in H.
    apply (goes_score score t w Hs F e).
    change (set_rng (set_cell p c) l) with (set_cell (set_rng p l) c).
    destruct (transport_loop score t F w e (set_cell (set_rng p l) c)); try discriminate. reflexivity.
  - cbn [p_position set_cell]. rewrite Ex. f_equal. destruct x; unfold along, vadd, vscale; cbn; f_equal; ring.
  - split; [|unfold N; lia]. eapply Nat.le_trans; [apply ahead_length|apply all_meets_length].
Qed.

(** ** An example: a half space that scatters as often as it captures *)

Definition mixed_document : node :=
  document [Elem "nuclides" [] [Elem "multigroup" [("groups", "1")]
    [Elem "nuclide" [("name", "mixed")]
       [Elem "neutron" [] [text_node "capture" "1"; text_node "scatter" "1"] ""] ""] ""] ""]%string.
Definition mixed_node : node :=
  n_child (n_child (n_child (n_child mixed_document "nuclides") "multigroup") "nuclide") "neutron".
Definition mixed_data : multigroup XRa :=
  match multigroup_create slab_ext mixed_node with
  | Ok m => m
  | _ => mkMultigroup (A := XRa) None None None [] [] 0
  end.
Lemma mixed_created : multigroup_create slab_ext mixed_node = Ok mixed_data.
Proof. reflexivity. Qed.
Lemma mixed_groups : groups (written_groups slab_ext mixed_node) = [1]%N.
Proof. reflexivity. Qed.
Lemma mixed_sensible : sensible_data slab_ext mixed_node.
Proof.
  constructor.
  - intros c Hc N. cbn in Hc.
    repeat (destruct Hc as [<-|Hc];
      [first [ exfalso; apply N; reflexivity
             | cbn; repeat constructor; eexists; (split; [reflexivity|decs; lra]) ]|]).
    destruct Hc.
  - intros N. exfalso. apply N. reflexivity.
  - cbn. repeat constructor; cbn; decs; lra.
  - reflexivity.
Qed.
Lemma mixed_sigma : sigma slab_ext mixed_node Rcapture 1 = 1
  /\ sigma slab_ext mixed_node Rscatter 1 = 1 /\ sigma slab_ext mixed_node Rfission 1 = 0.
Proof.
  unfold sigma, column_sum, column_below, weight, written_xs.
  rewrite ?mixed_groups; cbn; unfold Pos.to_nat; cbn; decs. repeat split; lra.
Qed.
Definition mixed_nuclide : nuclide XRa := mkNuclide 0 "mixed" [(neutron, IMultigroup mixed_data)].
Definition mixed_material : material XRa :=
  mkMaterial (A := XRa) "mixed" [(mixed_nuclide, Fin 1)] (Fin 1).
Definition mixed : cell XRa := mkCell 0 "mixed" [(edge, true)] (Some mixed_material) warmth.
Definition mixed_world : world XRa :=
  mkWorld [edge] [mixed_nuclide] [mixed_material] warmth [mixed; outside].
Definition mixed_neutron : particle XRa Given :=
  new_particle (G := Given) (pt (V3 0 0 0)) (pt (V3 1 0 0)) (Group 1) neutron 1 None.

Lemma C100_example :
  absorbing_world slab_ext [1]%N (1 / 2) mixed_world /\ plain_geometry mixed_world
  /\ group_neutron [1]%N mixed_neutron /\ first_cell mixed_world (p_position mixed_neutron) mixed
  /\ c_material mixed = Some mixed_material /\ length (sides mixed_world) = 2%nat.
Proof.
  split; [|split; [|split; [|split; [|split; reflexivity]]]].
  - intros c m [<-|[<-|[]]] Em; [|discriminate]. injection Em as <-.
    split; [exists 1; split; [reflexivity|lra]|]. split; [discriminate|].
    intros nu a [H|[]]. injection H as <- <-. split; [exists 1; split; [reflexivity|lra]|].
    exists mixed_node, mixed_data. split; [reflexivity|]. split; [exact mixed_created|].
    split; [exact mixed_sensible|]. split; [exact mixed_groups|].
    intros g [<-|[]]. destruct mixed_sigma as (-> & -> & ->). lra.
  - constructor.
    + intros c s [<-|[<-|[]]] [b' [H|[]]]; injection H as <- _; constructor.
    + intros c m [<-|[<-|[]]] _; discriminate.
    + intros x. destruct (Rlt_le_dec (vx x) 10) as [H|H].
      * exists mixed. split; [now left|]. apply (proj2 (in_slab x) H).
      * exists outside. split; [right; now left|]. now apply in_outside.
  - constructor; [reflexivity| | |].
    + exists 1%N. split; [reflexivity|now left].
    + eexists. reflexivity.
    + exists (V3 1 0 0). split; [reflexivity|]. apply unit_dot. unfold dot; cbn; ring.
  - exists [], [outside]. split; [reflexivity|]. split; [|intros c' []].
    apply (proj2 (in_slab (V3 0 0 0))). cbn. lra.
Qed.
