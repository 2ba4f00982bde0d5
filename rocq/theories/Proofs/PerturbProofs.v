(** Indirect effects: C55. *)
From Coq Require Import Bool String List Reals ZArith NArith Lra Lia Permutation.
From Coquelicot Require Import Coquelicot.
From Verif Require Import Model.Num Model.Outcome Model.Rng Model.Xml Model.Std Model.Point
  Model.Surface Model.Types Model.Bins Model.Field Model.Particle Model.Multigroup
  Model.Continuous Model.Material Model.World Model.Perturbation Model.Estimator Model.Transport
  Model.Driver
  Spec.Vec Spec.RngSpec Spec.SumSpec Spec.MaterialSpec Spec.TransportSpec Spec.HistorySpec
  Spec.EstimatorSpec Spec.PerturbSpec
  Proofs.OutcomeLib Proofs.RealLib Proofs.RngProofs Proofs.GeometryProofs Proofs.DirectionProofs
  Proofs.WellPosed Proofs.StreamProofs Proofs.StepLib
  Proofs.MaterialProofs Proofs.TransportProofs Proofs.CrossingProofs Proofs.SampleProblem
  Proofs.HistoryProofs Proofs.EstimatorProofs Proofs.SampleTally.
Import ListNotations.
Local Open Scope R_scope.

(** ** One flight *)

Lemma flight_length o u x l : unit u ->
  padd (A := XRa) (pt o) (pscale (pt u) x) = pt (along o u l) -> x = Fin l.
Proof.
  intros U E. apply unit_dot in U. destruct u as [ux uy uz], o as [ox oy oz].
  unfold dot in U. cbn in U. destruct x as [r| | |]; unfold padd, pscale, pt, along, vadd, vscale in E;
    cbn in E; injection E as E1 E2 E3.
  - f_equal. assert (r * ux = l * ux /\ r * uy = l * uy /\ r * uz = l * uz) as (F1 & F2 & F3)
      by (repeat split; lra).
    assert (r * (ux * ux + uy * uy + uz * uz) = l * (ux * ux + uy * uy + uz * uz)).
    { transitivity ((r * ux) * ux + (r * uy) * uy + (r * uz) * uz); [ring|]. rewrite F1, F2, F3. ring. }
    rewrite U in H. lra.
  - exfalso. unfold xsinf in E1. revert E1. repeat rcase; discriminate.
  - exfalso. unfold xsinf in E1. revert E1. repeat rcase; discriminate.
  - discriminate.
Qed.

Section Find.
  Context {A : Arith}.
  Implicit Types l : list (perturbation A * num A).
  Definition entry id l := find (fun x => Nat.eqb (pt_id (fst x)) id) l.

  Lemma entry_mapM f id : forall l l' y,
    (forall z z', In z l -> f z = Ok z' -> fst z' = fst z) ->
    mapM f l = Ok l' -> entry id l = Some y -> exists y', f y = Ok y' /\ entry id l' = Some y'.
  Proof.
    induction l as [|z l IH]; intros l' y Hf H E; [discriminate|].
    cbn [mapM] in H. oinv H. subst l'. unfold entry in *. cbn [find] in *.
    rewrite (Hf z x (or_introl eq_refl) E0). destruct (Nat.eqb _ id).
    - injection E as <-. eauto.
    - apply IH; auto. intros; apply Hf; auto. now right.
  Qed.
  Lemma entry_plus_zero id l y : entry id l = Some y ->
    entry id (plus_zero l) = Some (fst y, nadd A (snd y) (nofZ A 0)).
  Proof.
    unfold entry, plus_zero. induction l as [|z l IH]; [discriminate|]. cbn.
    destruct (Nat.eqb _ id); [intros [= <-]|]; auto.
  Qed.
End Find.

Lemma entry_iter id pert x k : forall l, entry (A := XRa) id l = Some (pert, Fin x) ->
  entry id (Nat.iter k plus_zero l) = Some (pert, Fin x : num XRa).
Proof.
  induction k as [|k IH]; intros l E; auto. apply IH in E. cbn [Nat.iter nat_rect].
  apply entry_plus_zero in E. etransitivity; [exact E|]. cbn. do 3 f_equal. lra.
Qed.

(** What the code adds for a flight. *)
Definition added_effect (f : flight) : R :=
  if fl_touched f then 1 / fl_total f - fl_length f else 0.

Lemma existsb_contains m nu :
  existsb (fun x => Nat.eqb (nu_id (fst x)) (nu_id nu)) (m_afracs m) = true
  <-> contains_nuclide m nu.
Proof.
  rewrite existsb_exists. unfold contains_nuclide. split; intros (x & H1 & H2); exists x;
    rewrite Nat.eqb_eq in *; auto.
Qed.

Lemma stream_effect (G : Rng XRa) t (p p2 : particle XRa G) c m dist pert x total :
  stream t p dist = Ok p2 ->
  p_cell p = Some c -> c_material c = Some m -> mat_total m p = Ok (Fin total) ->
  (t = CellDeltaTracking -> mat_majorant m p = Ok (Fin total)) -> 0 < total ->
  entry (pt_id pert) (p_indirect p) = Some (pert, Fin x) ->
  exists y, entry (pt_id pert) (p_indirect p2) = Some (pert, y)
    /\ forall l, dist = Fin l ->
       (contains_nuclide m (pt_nuclide pert) -> y = Fin (x + (1 / total - l)))
       /\ (~ contains_nuclide m (pt_nuclide pert) -> y = Fin (x + 0)).
Proof.
  intros E Ec Em Et Ej Pt En. unfold stream in E. oinv E. subst p2.
  cbn [p_indirect set_position set_indirect].
  assert (Gm : get_material p = Ok m).
  { unfold get_material, get_cell. rewrite Ec. cbn. rewrite Em. reflexivity. }
  match type of E0 with mapM ?f _ = _ =>
    destruct (entry_mapM (A := XRa) f (pt_id pert) (p_indirect p) x0 (pert, Fin x : num XRa))
      as (y & Ey & Ein) end; auto.
  { intros z z' _ Hz. cbn beta in Hz. apply bind_ok in Hz as (e & _ & Hz). now injection Hz as <-. }
  rewrite Ein. cbn [fst snd] in Ey. unfold pert_stream, collision_density in Ey.
  rewrite Gm in Ey. cbn [bind] in Ey.
  assert (Ed : match t with SurfaceTracking => mat_total m p | CellDeltaTracking => mat_majorant m p end
    = Ok (Fin total : num XRa)) by (destruct t; auto).
  rewrite Ed in Ey. cbn [bind noexcept] in Ey.
  destruct (existsb _ (m_afracs m)) eqn:Ex.
  - cbn [bind noexcept] in Ey. injection Ey as <-. eexists. split; [reflexivity|].
    intros l ->. rewrite existsb_contains in Ex. split; [|tauto]. intros _.
    cbn. rewrite Reqb_false by lra. reflexivity.
  - cbn [bind noexcept] in Ey. injection Ey as <-. eexists. split; [reflexivity|].
    intros l ->. split; [|reflexivity]. intros C. apply existsb_contains in C. congruence.
Qed.

Lemma step_effect (G : Rng XRa) t fuel w (p q : particle XRa G) pert x f :
  transport_step t fuel w p = Ok q ->
  flown t (pt_nuclide pert) p q f ->
  entry (pt_id pert) (p_indirect p) = Some (pert, Fin x) ->
  entry (pt_id pert) (p_indirect q) = Some (pert, Fin (x + added_effect f)).
Proof.
  intros E [(c & m & Ec & Em & Ed & Et & Ej & Ht) [Pa Pt] (o & u & Eo & Eu & U & Eq) _] En.
  assert (St : forall d p1 p2, drew p p1 -> stream t p1 d = Ok p2 ->
            p_position q = p_position p2 ->
            entry (pt_id pert) (p_indirect p2) = Some (pert, Fin (x + added_effect f))).
  { clear E. intros dist p1 p2 D1 E2 Pq. pose proof (stream_ok _ _ _ _ E2) as F2.
    assert (Ex : dist = Fin (fl_length f)).
    { apply (flight_length o u); auto. rewrite <- Eq, Pq, F2, D1. cbn. now rewrite Eo, Eu. }
    destruct (stream_effect G t p1 p2 c m dist pert x (fl_total f)) as (y & -> & Hy); auto.
    - rewrite D1. exact Ec.
    - rewrite D1, (same_mat_total m p _ (same_rng p _)). exact Et.
    - intros T. rewrite D1, (same_mat_majorant m p _ (same_rng p _)). auto.
    - rewrite D1. exact En.
    - destruct (Hy _ Ex) as [H1 H2]. unfold added_effect. do 2 f_equal.
      destruct (fl_touched f); [apply H1|apply H2]; intuition discriminate. }
  assert (Co : forall d p1, drew p p1 -> collide fuel t d p1 = Ok q ->
            entry (pt_id pert) (p_indirect q) = Some (pert, Fin (x + added_effect f))).
  { intros d p1 D1 K. unfold collide in K. apply bind_ok in K as (p2 & E2 & K).
    apply bind_ok in K as ([nu p3] & E3 & K).
    apply sample_nuclide_ok in E3 as [D3 _]. apply nu_interact_place in K as [[P0 _ _ _ (k & Ik) _] _].
    rewrite Ik. apply entry_iter. rewrite D3. cbn. apply (St d p1 p2 D1 E2). rewrite P0, D3. reflexivity. }
  assert (Cr : forall s d p1, drew p p1 -> cross_surface t w s d p1 = Ok q ->
            entry (pt_id pert) (p_indirect q) = Some (pert, Fin (x + added_effect f))).
  { intros s d p1 D1 K. unfold cross_surface in K. apply bind_ok in K as (p2 & E2 & K).
    apply bind_ok in K as (c1 & _ & K). injection K as <-. apply (St _ p1 p2 D1 E2). reflexivity. }
  assert (Sd : forall d p1, sample_distance t p = Ok (d, p1) -> drew p p1).
  { intros d p1 E1. unfold sample_distance in E1. oinv E1. destruct (exponential _ _ _) as [y s].
    injection E1 as <- <-. reflexivity. }
  destruct t; cbn [transport_step] in E.
  - unfold surface_step in E. apply bind_ok in E as ([d p1] & E1 & E). apply Sd in E1.
    apply bind_ok in E as (c0 & _ & E). apply bind_ok in E as ([s ds] & _ & E).
    destruct (nltb XRa d ds); eauto.
  - unfold delta_step in E. apply bind_ok in E as ([d p1] & E1 & E). apply Sd in E1.
    apply bind_ok in E as (c0 & _ & E). apply bind_ok in E as ([s ds] & _ & E).
    destruct (nltb XRa ds d); [eauto|].
    apply bind_ok in E as (m' & _ & E). apply bind_ok in E as (T & _ & E).
    apply bind_ok in E as (M & _ & E). destruct (bernoulli _ _ _) as [[] s'].
    + apply (Co d (set_rng p1 s')); auto. rewrite E1. reflexivity.
    + apply bind_ok in E as (p3 & E3 & E). injection E as <-.
      apply (St d (set_rng p1 s') p3); auto. rewrite E1. reflexivity.
Qed.

Lemma walk_effect (G : Rng XRa) t w pert : forall (p q : particle XRa G) visited fs x,
  walk t w p visited q -> flights t (pt_nuclide pert) p visited fs ->
  entry (pt_id pert) (p_indirect p) = Some (pert, Fin x) ->
  entry (pt_id pert) (p_indirect q) = Some (pert, Fin (x + Rsum (map added_effect fs))).
Proof.
  intros p q visited fs x W. revert fs x. induction W as [p|fuel p p1 visited q _ E W IH];
    intros fs x F En; inversion F; subst.
  - rewrite En. do 3 f_equal. cbn. lra.
  - rewrite (IH fs0 (x + added_effect f)); auto.
    + do 3 f_equal. cbn. lra.
    + eapply step_effect; eauto.
Qed.

(** ** The derivative *)
Definition true_effect (f : flight) : R :=
  if fl_touched f then (if fl_collided f then 1 / fl_total f else 0) - fl_atoms f * fl_length f
  else 0.

Lemma flight_derive (f : flight) : 0 < fl_atoms f -> 0 < fl_total f ->
  is_derive (fun e => ln (flight_density f e)) 0 (true_effect f).
Proof.
  intros Ha Ht. unfold flight_density, macroscopic, true_effect.
  destruct f as [a t l co to]; cbn in *. destruct to.
  - assert (K : locally 0 (fun e => 0 < t + e)).
    { exists (mkposreal t Ht). intros y Hy. unfold ball in Hy; cbn in Hy.
      unfold AbsRing_ball, abs, minus, plus, opp in Hy; cbn in Hy.
      apply Rabs_def2 in Hy. lra. }
    destruct co.
    + apply (is_derive_ext_loc (fun e => ln (a * (t + e)) + - (a * (t + e)) * l)).
      { revert K. apply filter_imp. intros e He. rewrite (ln_mult (a * (t + e)) (exp _)), ln_exp; auto.
        - apply Rmult_lt_0_compat; auto.
        - apply exp_pos. }
      auto_derive.
      * apply Rmult_lt_0_compat; lra.
      * rewrite Rplus_0_r. field. lra.
    + apply (is_derive_ext (fun e => - (a * (t + e)) * l)).
      { intros e. rewrite Rmult_1_l, ln_exp. reflexivity. }
      auto_derive; [exact I|]. lra.
  - exact (@is_derive_const R_AbsRing R_NormedModule _ 0).
Qed.

Lemma log_derive fs : List.Forall (fun f => 0 < fl_atoms f /\ 0 < fl_total f) fs ->
  is_derive (log_density fs) 0 (Rsum (map true_effect fs)).
Proof.
  induction 1 as [|f fs [Ha Ht] _ IH]; unfold log_density; cbn [map Rsum fold_right].
  - exact (@is_derive_const R_AbsRing R_NormedModule _ 0).
  - apply (is_derive_plus (fun e => ln (flight_density f e)) (log_density fs)); auto.
    now apply flight_derive.
Qed.

Lemma flights_positive (G : Rng XRa) t nu (p : particle XRa G) visited fs :
  flights t nu p visited fs -> List.Forall (fun f => 0 < fl_atoms f /\ 0 < fl_total f) fs.
Proof. induction 1; constructor; auto. apply H. Qed.

Lemma start_entry (G : Rng XRa) pts pert (p : particle XRa G) c :
  In pert pts -> NoDup (map pt_id pts) ->
  entry (pt_id pert) (p_indirect (set_cell (set_perturbations pts p) c))
  = Some (pert, Fin 0 : num XRa).
Proof.
  intros H N. cbn. unfold entry. induction pts as [|x pts IH]; [destruct H|].
  cbn in *. inversion N as [|? ? N1 N2]; subst. destruct H as [->|H].
  - now rewrite Nat.eqb_refl.
  - destruct (Nat.eqb_spec (pt_id x) (pt_id pert)) as [E|E]; auto.
    exfalso. apply N1. rewrite E. now apply in_map.
Qed.

Lemma entry_effect (G : Rng XRa) (p : particle XRa G) id pert x :
  entry id (p_indirect p) = Some (pert, x) -> indirect_effect id p = x.
Proof. unfold entry, indirect_effect. intros ->. reflexivity. Qed.

(** ** C55 *)
Lemma C55_collisions_partial_proof :
  forall (G : Rng XRa) t w pts pert (p q : particle XRa G) c visited fs,
  In pert pts -> NoDup (map pt_id pts) ->
  walk t w (set_cell (set_perturbations pts p) c) visited q ->
  flights t (pt_nuclide pert) (set_cell (set_perturbations pts p) c) visited fs ->
  (* missing: flights that end on a surface, atom densities other than one *)
  (forall f, In f fs -> fl_touched f = true -> fl_collided f = true /\ fl_atoms f = 1) ->
  exists x, indirect_effect (pt_id pert) q = Fin x /\ is_derive (log_density fs) 0 x.
Proof.
  intros G t w pts pert p q c visited fs Hp N W F H.
  exists (0 + Rsum (map added_effect fs)). split.
  - eapply entry_effect, walk_effect; eauto. now apply start_entry.
  - replace (0 + Rsum (map added_effect fs)) with (Rsum (map true_effect fs)).
    + eapply log_derive, flights_positive; eauto.
    + rewrite Rplus_0_l. f_equal. apply map_ext_in. intros f Hf. specialize (H f Hf).
      unfold true_effect, added_effect. destruct (fl_touched f); auto.
      destruct (H eq_refl) as [-> ->]. lra.
Qed.

Lemma C55_error_proof :
  forall (G : Rng XRa) t w pts pert (p q : particle XRa G) c visited fs,
  In pert pts -> NoDup (map pt_id pts) ->
  walk t w (set_cell (set_perturbations pts p) c) visited q ->
  flights t (pt_nuclide pert) (set_cell (set_perturbations pts p) c) visited fs ->
  exists x y, indirect_effect (pt_id pert) q = Fin x /\ is_derive (log_density fs) 0 y
    /\ x - y = Rsum (map (fun f => if fl_touched f then
         (if fl_collided f then 0 else 1 / fl_total f) + (fl_atoms f - 1) * fl_length f
         else 0) fs).
Proof.
  intros G t w pts pert p q c visited fs Hp N W F.
  exists (0 + Rsum (map added_effect fs)), (Rsum (map true_effect fs)). split; [|split].
  - eapply entry_effect, walk_effect; eauto. now apply start_entry.
  - eapply log_derive, flights_positive; eauto.
  - clear. induction fs as [|f fs IH]; cbn [map Rsum fold_right] in *; [lra|].
    rewrite <- IH. unfold true_effect, added_effect.
    destruct (fl_touched f), (fl_collided f); lra.
Qed.

(** A neutron that leaks: the surface crossing is charged as a collision. *)
Definition leak_flight (k : R) : flight := mkFlight 1 1 (1 / 2 + k) false true.

Lemma C55_surface_refuted_proof :
  exists (p q : particle XRa half_rng) fs x,
  walk SurfaceTracking slab_world (set_cell (set_perturbations [more] p) slab) [q] q
  /\ flights SurfaceTracking (pt_nuclide more) (set_cell (set_perturbations [more] p) slab) [q] fs
  /\ p_event q = leak
  /\ indirect_effect (pt_id more) q = Fin x /\ ~ is_derive (log_density fs) 0 x.
Proof.
  destruct nudge_fin as (k & Ek & Hk).
  destruct (near_edge_start 0) as (p & _ & Hn & Ex & Eu & Es & Eb & Ec).
  destruct (leak_step 0 (set_cell (set_perturbations [more] p) slab) k Ek)
    as (q & Eq & Ev & Esf & Ei & Esc & Pq & Cq); try reflexivity; auto.
  { destruct Hn; constructor; auto. }
  assert (F : flown SurfaceTracking (pt_nuclide more) (set_cell (set_perturbations [more] p) slab) q (leak_flight k)).
  { constructor.
    - exists slab, slab_material. repeat split; auto.
      + apply slab_total. destruct Hn; constructor; auto.
      + discriminate.
      + intros _. exists (slab_nuclide, Fin 1). split; [now left|reflexivity].
    - cbn. lra.
    - exists (V3 (19 / 2) 0 0), (V3 1 0 0). repeat split; auto; [apply unit_x|].
      rewrite Pq. cbn. unfold along, vadd, vscale. cbn. do 2 f_equal; lra.
    - cbn. rewrite Ev. split; [discriminate|]. intros [?|[?|?]]; discriminate. }
  exists p, q, [leak_flight k], (0 + effect k). split; [|split; [|split; [|split]]]; auto.
  - apply (Walk_event _ _ 0%nat _ q); auto.
    + unfold ended. cbn. rewrite Eb. intros [?|[?|?]]; discriminate.
    + constructor. unfold ended. auto.
  - constructor; auto. constructor.
  - unfold indirect_effect. rewrite Ei. reflexivity.
  - intros D. assert (D' : is_derive (log_density [leak_flight k]) 0 (Rsum (map true_effect [leak_flight k]))).
    { apply log_derive. repeat constructor; cbn; lra. }
    apply is_derive_unique in D, D'. rewrite D in D'. unfold effect, true_effect in D'. cbn in D'. lra.
Qed.
