(** Cells, point location and flights inside a cell. *)
From Coq Require Import List Bool ZArith NArith Reals Lra Lia Permutation SpecFloat.
From Verif Require Import Model.Num Model.Outcome Model.Rng Model.Xml Model.Std Model.Point
  Model.Surface Model.Types Model.World
  Spec.Vec Spec.GeometrySpec Spec.CellSpec Proofs.RealLib Proofs.BinsProofs Proofs.GeometryProofs.
Import ListNotations.
Local Open Scope R_scope.

Lemma real_shape_distance s o u : real_shape s -> unit u ->
  distance s (pt o) (pt u) = PInf \/ exists d, distance s (pt o) (pt u) = Fin d /\ 0 < d.
Proof.
  intros [c r Hr|x|r Hr] Hu.
  - rewrite sphere_distance by auto.
    edestruct (SolveQuadratic_spec 1) as (S1 & _ & [E|[d E]]); [lra|left; apply E|right].
    exists d; split; [apply E|]. apply S1 in E; tauto.
  - rewrite planex_distance. repeat rcase; eauto.
  - rewrite cylinder_distance by auto.
    destruct (Req_dec (vy u * vy u + vz u * vz u) 0) as [Z|Z].
    + left. apply SolveQuadratic_none. rewrite Z.
      assert (vy u = 0) as -> by nra. assert (vz u = 0) as -> by nra. lra.
    + edestruct (SolveQuadratic_spec (vy u * vy u + vz u * vz u)) as (S1 & _ & [E|[d E]]);
        [nra|left; apply E|right].
      exists d; split; [apply E|]. apply S1 in E; tauto.
Qed.

(** ** Nearest surface *)
Section Nearest.
  Context {A : Arith} (P : num A -> Prop) (T : total_order P).

  Lemma min_surface_spec (p d : point A) l : forall best,
    P (su_distance best p d) ->
    (forall s b, In (s, b) l -> P (su_distance s p d)) ->
    let m := min_surface best l p d in
    (m = best \/ exists b, In (m, b) l)
    /\ nltb A (su_distance best p d) (su_distance m p d) = false
    /\ (forall s b, In (s, b) l -> nltb A (su_distance s p d) (su_distance m p d) = false).
  Proof.
    induction l as [|[s b] l IH]; intros best Pb Pl; cbn [min_surface].
    - split; [auto|split]; [|intros ? ? []]. apply (to_irrefl _ T); auto.
    - assert (Ps : P (su_distance s p d)) by (eapply Pl; left; eauto).
      assert (Pl' : forall s0 b0, In (s0, b0) l -> P (su_distance s0 p d))
        by (intros; eapply Pl; right; eauto).
      destruct (nltb A (su_distance s p d) (su_distance best p d)) eqn:E.
      + destruct (IH s Ps Pl') as (I1 & I2 & I3).
        set (m := min_surface s l p d) in *.
        assert (Pm : P (su_distance m p d)) by (destruct I1 as [->|[b' I1]]; eauto).
        split; [|split].
        * right. destruct I1 as [->|[b' I1]]; [exists b; now left|exists b'; now right].
        * destruct (nltb A (su_distance best p d) (su_distance m p d)) eqn:F; auto.
          rewrite <- I2. symmetry. exact (to_trans _ T _ _ _ Ps Pb Pm E F).
        * intros s0 b0 [[= <- <-]|H]; eauto.
      + destruct (IH best Pb Pl') as (I1 & I2 & I3).
        set (m := min_surface best l p d) in *.
        assert (Pm : P (su_distance m p d)) by (destruct I1 as [->|[b' I1]]; eauto).
        split; [|split; auto].
        * destruct I1 as [->|[b' I1]]; [now left|right; exists b'; now right].
        * intros s0 b0 [[= <- <-]|H]; eauto.
          exact (to_ge_trans _ T _ _ _ Ps Pb Pm E I2).
  Qed.

  Lemma nearest_surface_spec c (p d : point A) :
    (forall s, surface_of c s -> P (su_distance s p d)) -> c_senses c <> [] ->
    exists s, nearest_surface c p d = Ok (s, su_distance s p d)
      /\ surface_of c s
      /\ forall s', surface_of c s' -> nltb A (su_distance s' p d) (su_distance s p d) = false.
  Proof.
    intros Pl Ne. unfold nearest_surface, surface_of in *.
    destruct (c_senses c) as [|[s b] l]; [congruence|].
    destruct (min_surface_spec p d l s) as (I1 & I2 & I3).
    - apply Pl; exists b; now left.
    - intros s0 b0 H; apply Pl; exists b0; now right.
    - eexists; split; [reflexivity|split].
      + destruct I1 as [->|[b' I1]]; [exists b; now left|exists b'; now right].
      + intros s' [b' [[= <- <-]|H]]; eauto.
  Qed.
End Nearest.

Lemma C11_nearest_surface_proof :
  forall (c : cell XRa) (o u : vec),
    (forall s, surface_of c s -> real_shape (s_shape (su_surface s))) -> unit u ->
    (c_senses c <> [] ->
       exists s d, nearest_surface c (pt o) (pt u) = Ok (s, d)
         /\ surface_of c s /\ d = surf_distance s (pt o) (pt u)
         /\ (forall s', surface_of c s' -> xleb d (surf_distance s' (pt o) (pt u)) = true)
         (* whatever order the surfaces are stored in *)
         /\ forall c', Permutation (c_senses c) (c_senses c') ->
              exists s', nearest_surface c' (pt o) (pt u) = Ok (s', d))
    /\ (c_senses c = [] -> exists msg, nearest_surface c (pt o) (pt u) = Throw msg).
Proof.
  intros c o u Hs Hu. split.
  2: { intros E; unfold nearest_surface; rewrite E; eauto. }
  intros Ne.
  assert (Pd : forall s, surface_of c s -> su_distance s (pt o) (pt u) <> NaN).
  { intros s H E. apply Hs in H. unfold su_distance in E.
    destruct (real_shape_distance _ o u H Hu) as [F|[d [F _]]]; rewrite E in F; discriminate. }
  destruct (nearest_surface_spec _ xr_total c (pt o) (pt u) Pd Ne) as (s & E & I & M).
  exists s, (su_distance s (pt o) (pt u)). split; [auto|]. split; [auto|]. split; [auto|].
  split.
  - intros s' H. change (nleb XRa (su_distance s (pt o) (pt u)) (su_distance s' (pt o) (pt u)) = true).
    rewrite (to_le _ xr_total) by (apply Pd; auto). rewrite M; auto.
  - intros c' Pm.
    assert (Eq : forall s', surface_of c s' <-> surface_of c' s').
    { intros s'; split; intros [b H]; exists b.
      - eapply Permutation_in; eauto.
      - eapply Permutation_in; [apply Permutation_sym|]; eauto. }
    destruct (nearest_surface_spec _ xr_total c' (pt o) (pt u)) as (s2 & E2 & I2 & M2).
    + intros s' H; apply Pd, Eq, H.
    + intros H; rewrite H in Pm. apply Permutation_sym, Permutation_nil in Pm; auto.
    + exists s2. rewrite E2. do 2 f_equal.
      assert (L1 : xltb (su_distance s2 (pt o) (pt u)) (su_distance s (pt o) (pt u)) = false)
        by (apply M, Eq, I2).
      assert (L2 : xltb (su_distance s (pt o) (pt u)) (su_distance s2 (pt o) (pt u)) = false)
        by (apply M2, Eq, I).
      assert (N1 := Pd s I). assert (N2 := Pd s2 (proj2 (Eq s2) I2)). cbn [num XRa] in *.
      destruct (su_distance s2 (pt o) (pt u)) as [x| | |], (su_distance s (pt o) (pt u)) as [y| | |];
        cbn in L1, L2; try congruence.
      destruct (Rltb_spec x y); [discriminate|]. destruct (Rltb_spec y x); [discriminate|].
      f_equal; lra.
Qed.

(** For doubles as computed: nothing is closer, provided no distance is NaN. *)
Lemma C11_nearest_surface_binary64_proof :
  forall (L : Libm) (c : cell (F64 L)) (p d : point (F64 L)),
    (forall s, surface_of c s -> surf_distance s p d <> S754_nan) ->
    c_senses c <> [] ->
    exists s x, nearest_surface c p d = Ok (s, x)
      /\ surface_of c s /\ x = surf_distance s p d
      /\ forall s', surface_of c s' -> SFleb x (surf_distance s' p d) = true.
Proof.
  intros L c p d Pd Ne.
  destruct (nearest_surface_spec _ (f64_total L) c p d Pd Ne) as (s & E & I & M).
  exists s, (su_distance s p d). split; [auto|]. split; [auto|]. split; [auto|].
  intros s' H. change (nleb (F64 L) (su_distance s p d) (su_distance s' p d) = true).
  rewrite (to_le _ (f64_total L)) by (apply Pd; auto). rewrite M; auto.
Qed.

Lemma cell_contains_inside {A : Arith} (c : cell A) p :
  cell_contains c p = true <-> inside c p.
Proof.
  unfold cell_contains, inside. rewrite forallb_forall. split.
  - intros H s b I. apply H in I; cbn in I. now apply eqb_prop in I.
  - intros H [s b] I; cbn. apply H in I. unfold su_contains; rewrite I. apply eqb_reflx.
Qed.

Lemma C12_flight_stays_in_cell_proof :
  forall (c : cell XRa) (o u : vec) (s : surf XRa) (d : xr) (t : R),
    (forall s, surface_of c s -> sphere_or_plane (s_shape (su_surface s))) -> unit u ->
    inside c (pt o) ->
    (forall s, surface_of c s -> ~ on_surface (s_shape (su_surface s)) o) ->
    nearest_surface c (pt o) (pt u) = Ok (s, d) ->
    0 <= t -> before t d ->
    inside c (pt (along o u t)).
Proof.
  intros c o u s d t Hs Hu In0 Off E Ht Bd s' b H.
  assert (S' : surface_of c s') by (exists b; auto).
  destruct (C09_side_changes_at_distance_proof _ o u (Hs _ S') Hu (Off _ S')) as (F & P & FP).
  rewrite <- (In0 s' b H).
  destruct FP as [Ep|[d' Ed]]; [apply P; auto|].
  destruct (F d' Ed) as (Pd & Same & _). apply Same. split; auto.
  destruct (C11_nearest_surface_proof c o u) as [N _]; auto.
  { intros s0 H0; destruct (Hs s0 H0); constructor; auto. }
  destruct N as (s2 & d2 & E2 & _ & _ & M & _).
  { intros Em; rewrite Em in H; contradiction. }
  cbn [num XRa] in E, E2. rewrite E in E2; injection E2 as <- <-.
  specialize (M s' S'). unfold surf_distance in M. rewrite Ed in M.
  destruct d as [r| | |]; cbn in M, Bd; try tauto; try discriminate.
  destruct (Rleb_spec r d'); [lra|discriminate].
Qed.

Lemma C13_point_location_proof :
  forall (A : Arith) (w : world A) (p : point A),
    (forall c, find_cell w p = Ok c <->
       exists before after, w_cells w = (before ++ c :: after)%list
         /\ inside c p /\ forall c', In c' before -> ~ inside c' p)
    /\ ((exists msg, find_cell w p = Throw msg) <-> forall c, In c (w_cells w) -> ~ inside c p).
Proof.
  intros A w p. unfold find_cell.
  assert (G : forall l, match find (fun c => cell_contains c p) l with
    | Some c => exists l1 l2, l = (l1 ++ c :: l2)%list /\ inside c p
                              /\ forall c', In c' l1 -> ~ inside c' p
    | None => forall c, In c l -> ~ inside c p end).
  { induction l as [|a l IH]; cbn; [tauto|].
    destruct (cell_contains a p) eqn:E.
    - exists [], l. split; [auto|split]; [now apply cell_contains_inside|intros ? []].
    - assert (Na : ~ inside a p) by (rewrite <- cell_contains_inside; congruence).
      destruct (find _ l) as [c|].
      + destruct IH as (l1 & l2 & -> & I & N). exists (a :: l1), l2.
        split; [auto|split; [auto|]]. intros c' [<-|H]; auto.
      + intros c [<-|H]; auto. }
  specialize (G (w_cells w)).
  destruct (find (fun c => cell_contains c p) (w_cells w)) as [c0|] eqn:F.
  - destruct G as (l1 & l2 & El & I & N). split.
    + intros c; split.
      * intros [= <-]. exists l1, l2; auto.
      * intros (k1 & k2 & Ek & Ic & Nk). f_equal.
        rewrite El in Ek. clear - Ek I N Ic Nk. revert k1 Ek Nk.
        induction l1 as [|a l1 IH]; intros [|b k1] Ek Nk; cbn in Ek.
        { congruence. }
        { injection Ek as -> _. exfalso; apply (Nk b); [now left|auto]. }
        { injection Ek as -> _. exfalso; apply (N c); [now left|auto]. }
        { injection Ek as -> Ek. apply (IH (fun c' H => N c' (or_intror H)) k1 Ek).
          intros c' H; apply Nk; now right. }
    + split; [intros [m Hm]; discriminate|].
      intros H. exfalso. apply (H c0); auto. rewrite El. apply in_or_app; right; now left.
  - split.
    + intros c; split; [discriminate|]. intros (l1 & l2 & El & I & _).
      exfalso. apply (G c); auto. rewrite El. apply in_or_app; right; now left.
    + split; eauto.
Qed.

(** When exactly one cell contains the point the declaration order is irrelevant. *)
Lemma C13_point_location_order_proof :
  forall (A : Arith) (w w' : world A) (p : point A) (c : cell A),
    Permutation (w_cells w) (w_cells w') ->
    In c (w_cells w) -> inside c p ->
    (forall c', In c' (w_cells w) -> inside c' p -> c' = c) ->
    find_cell w p = Ok c /\ find_cell w' p = Ok c.
Proof.
  intros A w w' p c Pm I Ic Un.
  assert (K : forall w0 : world A, In c (w_cells w0) ->
            (forall c', In c' (w_cells w0) -> inside c' p -> c' = c) -> find_cell w0 p = Ok c).
  { intros w0 I0 U0. destruct (find_cell w0 p) as [c1| | | |] eqn:E; unfold find_cell in E.
    - destruct (C13_point_location_proof A w0 p) as [H _].
      assert (E' : find_cell w0 p = Ok c1) by exact E.
      apply H in E' as (l1 & l2 & El & I1 & _).
      f_equal. apply U0; auto. rewrite El. apply in_or_app; right; now left.
    - destruct (C13_point_location_proof A w0 p) as [_ H].
      exfalso. apply (proj1 H) with c; auto. exists msg; exact E.
    - destruct (find _ _); discriminate.
    - destruct (find _ _); discriminate.
    - destruct (find _ _); discriminate. }
  split; apply K; auto.
  - eapply Permutation_in; eauto.
  - intros c' H. apply Un. eapply Permutation_in; [apply Permutation_sym; eauto|auto].
Qed.
