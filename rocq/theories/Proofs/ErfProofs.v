(** The error function, by its defining integral: derivative, bounds and the limit
    one at infinity, and from these the behaviour of the free-gas factor. *)
From Coq Require Import Reals Lra Psatz.
From Coquelicot Require Import Coquelicot.
From Verif Require Import Model.Num.
Local Open Scope R_scope.

(** [ring] on equations whose type is a canonical structure over R *)
Ltac rring :=
  unfold minus, plus, opp, scal, mult; simpl; unfold mult; simpl;
  lazymatch goal with |- @eq _ ?a ?b => change (@eq R a b) end; ring.

(** ** Mean value theorem, in the two forms used *)
Lemma mvt f df a b :
  a <= b -> (forall x, a <= x <= b -> is_derive f x (df x)) ->
  exists c, a <= c <= b /\ f b - f a = df c * (b - a).
Proof.
  intros H D. destruct (MVT_gen f a b df) as [c [Hc E]].
  - intros x Hx. rewrite Rmin_left, Rmax_right in Hx by lra. apply D; lra.
  - intros x Hx. rewrite Rmin_left, Rmax_right in Hx by lra.
    apply derivable_continuous_pt. exists (df x).
    apply is_derive_Reals, D; lra.
  - rewrite Rmin_left, Rmax_right in Hc by lra. exists c; auto.
Qed.

Lemma deriv_incr f df a b :
  a <= b -> (forall x, a <= x <= b -> is_derive f x (df x)) ->
  (forall x, a <= x <= b -> 0 <= df x) -> f a <= f b.
Proof.
  intros H D P. destruct (mvt f df a b H D) as [c [Hc E]].
  specialize (P c Hc). nra.
Qed.

(** ** The Gaussian integral *)
Definition gauss (t : R) : R := exp (- (t * t)).
Definition G (x : R) : R := RInt gauss 0 x.

Lemma gauss_cont x : continuous gauss x.
Proof.
  apply (ex_derive_continuous gauss). unfold gauss. auto_derive. exact I.
Qed.

Lemma gauss_ex a b : ex_RInt gauss a b.
Proof. apply (ex_RInt_continuous (V := R_CompleteNormedModule)). intros; apply gauss_cont. Qed.

Lemma G_derive x : is_derive G x (gauss x).
Proof.
  apply (is_derive_RInt gauss G 0).
  - exists (mkposreal 1 Rlt_0_1). intros y _. apply (RInt_correct (V := R_CompleteNormedModule)), gauss_ex.
  - apply gauss_cont.
Qed.

Lemma gauss_pos t : 0 < gauss t.
Proof. apply exp_pos. Qed.

Lemma G_0 : G 0 = 0.
Proof. unfold G. rewrite RInt_point. reflexivity. Qed.

Lemma G_incr x y : x <= y -> G x <= G y.
Proof.
  intros H. apply (deriv_incr G gauss x y H).
  - intros; apply G_derive.
  - intros; left; apply gauss_pos.
Qed.

Lemma G_nonneg x : 0 <= x -> 0 <= G x.
Proof. intros H. rewrite <- G_0. apply G_incr, H. Qed.

Definition h (x t : R) : R := exp (- (x * x) * (1 + t * t)) / (1 + t * t).
Definition H (x : R) : R := RInt (h x) 0 1.

Lemma sq1 t : 0 < 1 + t * t.
Proof. nra. Qed.

Lemma h_dx x t : is_derive (fun z => h z t) x (-2 * x * exp (- (x * x) * (1 + t * t))).
Proof.
  unfold h. pose proof (sq1 t). auto_derive; [lra|]. field. lra.
Qed.

Lemma h_cont x t : continuous (h x) t.
Proof.
  apply (ex_derive_continuous (h x)). unfold h. pose proof (sq1 t). auto_derive. lra.
Qed.

Lemma h_ex x : ex_RInt (h x) 0 1.
Proof. apply (ex_RInt_continuous (V := R_CompleteNormedModule)). intros; apply h_cont. Qed.

Lemma H_derive x : is_derive H x (-2 * G x * gauss x).
Proof.
  assert (D : is_derive H x (RInt (fun t => Derive (fun u => h u t) x) 0 1)).
  { apply (is_derive_RInt_param h 0 1 x).
    - exists (mkposreal 1 Rlt_0_1). intros y _ t _. eexists. apply h_dx.
    - intros t _.
      apply continuity_2d_pt_ext with
        (f := fun u v => (-2 * u) * exp (- (u * u) * (1 + v * v))).
      { intros u v. symmetry. apply is_derive_unique, h_dx. }
      apply continuity_2d_pt_mult.
      + apply continuity_2d_pt_mult;
          [apply continuity_2d_pt_const|apply continuity_2d_pt_id1].
      + apply (continuity_1d_2d_pt_comp exp).
        * apply derivable_continuous_pt, derivable_pt_exp.
        * apply continuity_2d_pt_mult.
          -- apply continuity_2d_pt_opp, continuity_2d_pt_mult; apply continuity_2d_pt_id1.
          -- apply continuity_2d_pt_plus; [apply continuity_2d_pt_const|].
             apply continuity_2d_pt_mult; apply continuity_2d_pt_id2.
    - exists (mkposreal 1 Rlt_0_1). intros y _. apply h_ex. }
  replace (-2 * G x * gauss x) with (RInt (fun t => Derive (fun u => h u t) x) 0 1); [exact D|].
  transitivity (RInt (fun t => scal (-2 * gauss x) (scal x (gauss (x * t + 0)))) 0 1).
  - apply RInt_ext. intros t _.
    transitivity (-2 * x * exp (- (x * x) * (1 + t * t))); [apply is_derive_unique, h_dx|].
    unfold scal; simpl; unfold mult; simpl. unfold gauss.
    replace (- (x * x) * (1 + t * t)) with (- (x * x) + - ((x * t + 0) * (x * t + 0))) by ring.
    rewrite exp_plus. ring.
  - transitivity (scal (-2 * gauss x) (RInt (fun t => scal x (gauss (x * t + 0))) 0 1)).
    2:{ pose proof (RInt_comp_lin (V := R_CompleteNormedModule) gauss x 0 0 1
                      (gauss_ex _ _)) as E.
        assert (E0 : x * 0 + 0 = 0) by ring. assert (E1 : x * 1 + 0 = x) by ring.
        rewrite E0, E1 in E.
        etransitivity; [exact (f_equal (scal (-2 * gauss x)) E)|].
        fold (G x). rring. }
    + apply (RInt_scal (V := R_CompleteNormedModule) (fun t => scal x (gauss (x * t + 0)))).
      apply (ex_RInt_continuous (V := R_CompleteNormedModule)). intros z _.
      apply (ex_derive_continuous (fun y => x * gauss (x * y + 0))).
      unfold gauss. auto_derive. exact I.
Qed.

Lemma H_0 : H 0 = PI / 4.
Proof.
  unfold H. transitivity (RInt (fun t => / (1 + t * t)) 0 1).
  - apply RInt_ext. intros t _. unfold h. rewrite Rmult_0_l, Ropp_0, Rmult_0_l, exp_0.
    unfold Rdiv. rring.
  - apply is_RInt_unique.
    replace (PI / 4) with (minus (atan 1) (atan 0)).
    2:{ rewrite atan_1, atan_0. rring. }
    apply (is_RInt_derive atan (fun t => / (1 + t * t))).
    + intros x _. apply is_derive_Reals.
      replace (/ (1 + x * x)) with (/ (1 + x ^ 2)) by (f_equal; ring).
      apply derivable_pt_lim_atan.
    + intros x _. pose proof (sq1 x).
      apply (ex_derive_continuous (fun t => / (1 + t * t))). auto_derive. lra.
Qed.

Lemma gauss_identity x : 0 <= x -> G x * G x + H x = PI / 4.
Proof.
  intros Hx.
  destruct (mvt (fun z => G z * G z + H z) (fun _ => 0) 0 x Hx) as [c [_ E]].
  - intros z _.
    replace 0 with ((gauss z * G z + G z * gauss z) + (-2 * G z * gauss z)) by ring.
    apply (is_derive_plus (fun z => G z * G z) H).
    + apply (is_derive_mult G G z (gauss z) (gauss z)); try apply G_derive.
      intros; rring.
    + apply H_derive.
  - rewrite G_0, H_0 in E. lra.
Qed.

Lemma H_bounds x : 0 <= H x <= gauss x.
Proof.
  unfold H. split.
  - apply RInt_ge_0; [lra|apply h_ex|]. intros t _. unfold h.
    apply Rlt_le, Rdiv_lt_0_compat; [apply exp_pos|apply sq1].
  - replace (gauss x) with (RInt (fun _ => gauss x) 0 1).
    2:{ rewrite RInt_const. rring. }
    apply RInt_le; [lra|apply h_ex|apply ex_RInt_const|].
    intros t _. unfold h, gauss. pose proof (sq1 t).
    apply Rle_trans with (exp (- (x * x) * (1 + t * t)) / 1).
    + unfold Rdiv. apply Rmult_le_compat_l; [left; apply exp_pos|].
      apply Rinv_le_contravar; nra.
    + rewrite Rdiv_1.
      destruct (Req_dec (- (x * x) * (1 + t * t)) (- (x * x))) as [->|N]; [lra|].
      left. apply exp_increasing. nra.
Qed.

(** ** erf *)
Lemma erf_G x : erf x = 2 / sqrt PI * G x.
Proof. reflexivity. Qed.

Lemma sqrt_pi : 0 < sqrt PI.
Proof. apply sqrt_lt_R0, PI_RGT_0. Qed.

Lemma erf_derive x : is_derive erf x (2 / sqrt PI * gauss x).
Proof. apply (is_derive_scal G x (2 / sqrt PI) (gauss x)), G_derive. Qed.

Lemma erf_0 : erf 0 = 0.
Proof. rewrite erf_G, G_0. ring. Qed.

Lemma erf_nonneg x : 0 <= x -> 0 <= erf x.
Proof.
  intros Hx. rewrite erf_G. apply Rmult_le_pos; [|apply G_nonneg, Hx].
  apply Rlt_le, Rdiv_lt_0_compat; [lra|apply sqrt_pi].
Qed.

Lemma erf_pos x : 0 < x -> 0 < erf x.
Proof.
  intros Hx. rewrite erf_G.
  destruct (mvt G gauss 0 x) as [c [_ E]]; [lra|intros; apply G_derive|].
  rewrite G_0 in E. pose proof (gauss_pos c).
  apply Rmult_lt_0_compat; [apply Rdiv_lt_0_compat; [lra|apply sqrt_pi]|nra].
Qed.

Lemma erf_sq x : 0 <= x -> erf x * erf x = 1 - 4 / PI * H x.
Proof.
  intros Hx. rewrite erf_G. pose proof (gauss_identity x Hx) as E. pose proof PI_RGT_0.
  replace (2 / sqrt PI * G x * (2 / sqrt PI * G x))
    with (4 / (sqrt PI * sqrt PI) * (G x * G x)) by (field; pose proof sqrt_pi; lra).
  rewrite sqrt_sqrt by lra.
  replace (G x * G x) with (PI / 4 - H x) by lra. field. lra.
Qed.

Lemma erf_le_1 x : 0 <= x -> erf x <= 1.
Proof.
  intros Hx. pose proof (erf_sq x Hx). pose proof (erf_nonneg x Hx).
  pose proof (H_bounds x). pose proof PI_RGT_0.
  assert (0 < 4 / PI) by (apply Rdiv_lt_0_compat; lra).
  nra.
Qed.

Lemma erf_lower x : 0 <= x -> 1 - 4 / PI * gauss x <= erf x.
Proof.
  intros Hx. pose proof (erf_sq x Hx). pose proof (erf_nonneg x Hx).
  pose proof (erf_le_1 x Hx). pose proof (H_bounds x). pose proof PI_RGT_0.
  assert (0 < 4 / PI) by (apply Rdiv_lt_0_compat; lra).
  nra.
Qed.

(** ** The free-gas factor as a function of [sqrt (A E / (k T))] *)
Definition fg (x : R) : R :=
  (1 + 1 / (2 * (x * x))) * erf x + exp (- (x * x)) / (sqrt PI * x).

Lemma fg_derive x : 0 < x -> is_derive fg x (- erf x / (x * x * x)).
Proof.
  intros Hx. pose proof sqrt_pi.
  replace (- erf x / (x * x * x)) with
    ((((- / (x * x * x)) * erf x) + (1 + 1 / (2 * (x * x))) * (2 / sqrt PI * gauss x))
     + (- (2 * x) * exp (- (x * x)) / (sqrt PI * x) - exp (- (x * x)) / (sqrt PI * (x * x)))).
  2:{ unfold gauss. field. lra. }
  apply (is_derive_plus (fun x => (1 + 1 / (2 * (x * x))) * erf x)
           (fun x => exp (- (x * x)) / (sqrt PI * x))).
  - apply (is_derive_mult (fun x => 1 + 1 / (2 * (x * x))) erf x).
    + auto_derive; [nra|]. field. lra.
    + apply erf_derive.
    + intros; rring.
  - auto_derive; [nra|]. field. lra.
Qed.

(** Decreasing, strictly. *)
Lemma fg_decr x y : 0 < x -> x <= y -> fg y <= fg x.
Proof.
  intros Hx Hy.
  enough (- fg x <= - fg y) by lra.
  apply (deriv_incr (fun x => - fg x) (fun x => erf x / (x * x * x)) x y Hy).
  - intros z Hz. replace (erf z / (z * z * z)) with (- (- erf z / (z * z * z))) by (field; lra).
    apply (is_derive_opp fg). apply fg_derive. lra.
  - intros z Hz. apply Rlt_le, Rdiv_lt_0_compat; [apply erf_pos; lra|].
    apply Rmult_lt_0_compat; [nra|lra].
Qed.

Lemma fg_above_erf x : 0 < x -> erf x <= fg x.
Proof.
  intros Hx. unfold fg. pose proof sqrt_pi. pose proof (erf_nonneg x ltac:(lra)).
  assert (0 < 1 / (2 * (x * x))) by (apply Rdiv_lt_0_compat; nra).
  assert (0 < exp (- (x * x)) / (sqrt PI * x)).
  { apply Rdiv_lt_0_compat; [apply exp_pos|nra]. }
  nra.
Qed.


Lemma gauss_small eps : 0 < eps -> exists y, 1 <= y /\ forall z, y <= z -> gauss z < eps.
Proof.
  intros He. exists (1 + / eps). assert (0 < / eps) by (apply Rinv_0_lt_compat; lra).
  split; [lra|]. intros z Hz. unfold gauss.
  assert (1 + z * z < exp (z * z)) by (apply exp_ineq1; nra).
  rewrite exp_Ropp. rewrite <- (Rinv_inv eps) at 1.
  apply Rinv_lt_contravar; [apply Rmult_lt_0_compat; [lra|apply exp_pos]|nra].
Qed.

Lemma fg_ge_1 x : 0 < x -> 1 <= fg x.
Proof.
  intros Hx. destruct (Rle_lt_dec 1 (fg x)) as [L|L]; [exact L|exfalso].
  pose proof PI_RGT_0. assert (0 < PI / 4) by lra.
  destruct (gauss_small ((1 - fg x) * (PI / 4))) as [y [Hy Q]]; [nra|].
  set (z := Rmax x y). assert (x <= z /\ y <= z) as [Z1 Z2].
  { unfold z; split; [apply Rmax_l|apply Rmax_r]. }
  specialize (Q z Z2). pose proof (fg_decr x z Hx Z1).
  pose proof (fg_above_erf z ltac:(lra)). pose proof (erf_lower z ltac:(lra)).
  assert (4 / PI * gauss z < 1 - fg x).
  { replace (1 - fg x) with (4 / PI * ((1 - fg x) * (PI / 4))) by (field; lra).
    apply Rmult_lt_compat_l; [apply Rdiv_lt_0_compat; lra|exact Q]. }
  lra.
Qed.
