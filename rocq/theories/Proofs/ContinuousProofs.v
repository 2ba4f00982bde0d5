(** Continuous-energy cross sections over the reals. *)
From Coq Require Import Bool String List Reals ZArith NArith Lra Lia.
From Verif Require Import Model.Num Model.Outcome Model.Rng Model.Xml Model.Std Model.Point
  Model.Surface Model.Types Model.Field Model.Tables Model.Particle Model.Multigroup
  Model.Thermal Model.Continuous Model.Material
  Spec.Vec Spec.RngSpec Spec.SumSpec Spec.BinsSpec Spec.TablesSpec Spec.MultigroupSpec
  Spec.MaterialSpec Spec.ContinuousSpec Proofs.RealLib Proofs.OutcomeLib Proofs.TablesProofs
  Proofs.MaterialProofs Proofs.StepLib Proofs.ErfProofs.
Import ListNotations.
Local Open Scope R_scope.

Lemma boltzmann_real : boltzmann (A := XRa) = Fin k_B.
Proof.
  change (boltzmann (A := XRa)) with (Fin (8617333262145 / IZR (10 ^ 23))).
  unfold k_B. rewrite (pow_IZR 10 23). reflexivity.
Qed.

Lemma k_B_pos : 0 < k_B.
Proof. unfold k_B. apply Rdiv_lt_0_compat; [lra|]. apply pow_lt. lra. Qed.

Lemma tolerance_real : temperature_tolerance (A := XRa) = Fin (1 / 100).
Proof. reflexivity. Qed.

(** ** Validity of an evaluation *)

Lemma ev_is_valid_real (ev : evaluation XRa) (T T0 : R) : ev_temperature ev = Fin T0 -> 0 <= T -> 0 <= T0 ->
  ev_is_valid (A := XRa) ev (Fin T) = Rltb T (T0 * (101 / 100)).
Proof.
  intros E HT H0. unfold ev_is_valid. rewrite E, tolerance_real.
  change (xltb (xdiv (Fin (T + - T0)) (Fin T0)) (Fin (1 / 100)) = Rltb T (T0 * (101 / 100))).
  unfold xdiv, xsinf. destruct (Reqb_spec T0 0) as [->|N].
  - rewrite (Rltb_false T) by lra.
    destruct (Rltb_spec 0 (T + - 0)); cbn; auto. destruct (Rltb_spec (T + - 0) 0); auto.
    exfalso; lra.
  - cbn. assert (0 < T0) by lra. destruct (Rltb_spec T (T0 * (101 / 100))).
    + apply Rltb_true. apply (Rmult_lt_reg_r T0); [lra|]. unfold Rdiv at 1.
      rewrite Rmult_assoc, Rinv_l by lra. lra.
    + apply Rltb_false. apply (Rmult_le_reg_r T0); [lra|]. unfold Rdiv at 2.
      rewrite Rmult_assoc, Rinv_l by lra. lra.
Qed.

Lemma C32_valid_near_temperature_partial_proof :
  forall (xs : cmap XRa 1) (T0 T : R), 0 < T0 -> 0 <= T ->
    (* at or above the evaluation's temperature the test is the documented one *)
    (T0 <= T -> (ev_is_valid (mkEval (A := XRa) xs (Fin T0)) (Fin T) = true
                 <-> relative_difference T T0 < 1 / 100))
    (* below it the evaluation is always taken as valid *)
    /\ (T < T0 -> ev_is_valid (mkEval (A := XRa) xs (Fin T0)) (Fin T) = true).
Proof.
  intros xs T0 T H0 HT.
  rewrite (ev_is_valid_real (mkEval (A := XRa) xs (Fin T0)) T T0 eq_refl HT ltac:(lra)).
  split; intros L.
  - unfold relative_difference. rewrite Rabs_right by lra.
    destruct (Rltb_spec T (T0 * (101 / 100))); split; intros; try discriminate; auto.
    + apply (Rmult_lt_reg_r T0); [lra|]. unfold Rdiv at 1.
      rewrite Rmult_assoc, Rinv_l by lra. lra.
    + exfalso. apply (Rmult_lt_compat_r T0) in H; [|lra]. unfold Rdiv at 1 in H.
      rewrite Rmult_assoc, Rinv_l in H by lra. lra.
  - apply Rltb_true. lra.
Qed.

Lemma C32_valid_near_temperature_refuted_proof :
  forall xs : cmap XRa 1, exists T0 T : R, 0 < T0 /\ 0 <= T
    /\ ev_is_valid (mkEval (A := XRa) xs (Fin T0)) (Fin T) = true
    /\ ~ relative_difference T T0 < 1 / 100.
Proof.
  intros xs. exists 600, 300. split; [lra|split; [lra|split]].
  - rewrite (ev_is_valid_real (mkEval (A := XRa) xs (Fin 600)) 300 600 eq_refl) by lra.
    apply Rltb_true. lra.
  - unfold relative_difference. rewrite Rabs_left by lra. lra.
Qed.

(** ** The free-gas factor *)

(** As a function of temperature, one at zero. *)
Definition factor (awr E T : R) : R :=
  if Req_EM_T T 0 then 1 else free_gas_ratio (awr * E / (k_B * T)).

Lemma ratio_fg a : 0 < a -> free_gas_ratio a = fg (sqrt a).
Proof.
  intros Ha. unfold free_gas_ratio, fg. rewrite sqrt_sqrt by lra.
  rewrite sqrt_mult by (try lra; left; apply PI_RGT_0). reflexivity.
Qed.

Lemma factor_real (awr E T : R) : 0 < awr -> 0 < E -> 0 <= T ->
  free_gas_factor (A := XRa) (Fin awr) (Fin E) (Fin T) = Fin (factor awr E T).
Proof.
  intros Ha HE HT. unfold free_gas_factor, factor. rewrite boltzmann_real.
  change (neqb XRa (Fin T) (nofZ XRa 0)) with (Reqb T 0).
  destruct (Req_EM_T T 0) as [->|N].
  - rewrite Reqb_true by reflexivity. reflexivity.
  - rewrite Reqb_false by exact N. pose proof k_B_pos. assert (0 < k_B * T) by (apply Rmult_lt_0_compat; lra).
    assert (P : 0 < E / (k_B * T)) by (apply Rdiv_lt_0_compat; lra).
    set (a := awr * E / (k_B * T)).
    assert (Pa : 0 < a) by (unfold a; apply Rdiv_lt_0_compat; nra).
    assert (Ex : nsqrt XRa (ndiv XRa (Fin E) (nmul XRa (Fin k_B) (Fin T)))
                 = Fin (sqrt (E / (k_B * T)))).
    { change (xsqrt (xdiv (Fin E) (Fin (k_B * T))) = Fin (sqrt (E / (k_B * T)))).
      rewrite xdiv_fin by lra. apply xsqrt_fin. lra. }
    rewrite Ex. cbv zeta.
    assert (Ea : nmul XRa (nmul XRa (Fin awr) (Fin (sqrt (E / (k_B * T)))))
                   (Fin (sqrt (E / (k_B * T)))) = Fin a).
    { change (Fin (awr * sqrt (E / (k_B * T)) * sqrt (E / (k_B * T))) = Fin a). f_equal.
      rewrite Rmult_assoc, sqrt_sqrt by lra. unfold a. field. lra. }
    rewrite Ea.
    change (xadd (xmul (xadd (Fin 1) (xdiv (Fin 1) (Fin (2 * a)))) (xerf (xsqrt (Fin a))))
              (xdiv (Fin (exp (- a))) (xsqrt (Fin (PI * a)))) = Fin (free_gas_ratio a)).
    pose proof PI_RGT_0. assert (0 < PI * a) by nra.
    rewrite !xsqrt_fin, !xdiv_fin by (try lra; apply Rgt_not_eq, sqrt_lt_R0; lra).
    reflexivity.
Qed.

Lemma factor_zero awr E : factor awr E 0 = 1.
Proof. unfold factor. destruct (Req_EM_T 0 0); lra. Qed.

Lemma arg_pos awr E T : 0 < awr -> 0 < E -> 0 < T -> 0 < awr * E / (k_B * T).
Proof.
  intros. pose proof k_B_pos. apply Rdiv_lt_0_compat; apply Rmult_lt_0_compat; lra.
Qed.

Lemma factor_ge_1 awr E T : 0 < awr -> 0 < E -> 0 <= T -> 1 <= factor awr E T.
Proof.
  intros Ha HE HT. unfold factor. destruct (Req_EM_T T 0); [lra|].
  pose proof (arg_pos awr E T Ha HE ltac:(lra)).
  rewrite ratio_fg by auto. apply fg_ge_1. now apply sqrt_lt_R0.
Qed.

Lemma factor_mono awr E T T' : 0 < awr -> 0 < E -> 0 <= T <= T' ->
  factor awr E T <= factor awr E T'.
Proof.
  intros Ha HE HT. destruct (Req_EM_T T 0) as [->|N].
  - rewrite factor_zero. apply factor_ge_1; auto; lra.
  - unfold factor. destruct (Req_EM_T T 0), (Req_EM_T T' 0); try lra.
    pose proof (arg_pos awr E T Ha HE ltac:(lra)). pose proof (arg_pos awr E T' Ha HE ltac:(lra)).
    rewrite !ratio_fg by auto. apply fg_decr; [now apply sqrt_lt_R0|].
    apply sqrt_le_1; try lra. pose proof k_B_pos.
    unfold Rdiv. apply Rmult_le_compat_l; [nra|].
    apply Rinv_le_contravar; [apply Rmult_lt_0_compat; lra|nra].
Qed.

Lemma adjustment_real (G : Rng XRa) (p : particle XRa G) awr E T :
  p_energy p = ContinuousE (A := XRa) (Fin E) -> 0 < awr -> 0 < E -> 0 <= T ->
  free_gas_adjustment (A := XRa) (Fin awr) p (Fin T) = Ok (Fin (factor awr E T)).
Proof.
  intros Ep Ha HE HT. unfold free_gas_adjustment. rewrite Ep.
  pose proof (factor_real awr E T Ha HE HT) as F.
  change (neqb XRa (Fin T) (nofZ XRa 0)) with (Reqb T 0).
  destruct (Reqb_spec T 0) as [->|N].
  - rewrite factor_zero. reflexivity.
  - cbn [get_continuous bind noexcept]. now rewrite F.
Qed.

Lemma C33_free_gas_adjustment_proof :
  forall (G : Rng XRa) (awr E : R), 0 < awr -> 0 < E ->
  exists adjustment : R -> R,
    (forall (p : particle XRa G) T, p_energy p = ContinuousE (A := XRa) (Fin E) -> 0 <= T ->
       free_gas_adjustment (A := XRa) (Fin awr) p (Fin T) = Ok (Fin (adjustment T)))
    /\ adjustment 0 = 1
    /\ (forall T, 0 < T -> adjustment T = free_gas_ratio (awr * E / (k_B * T)))
    /\ (forall T, 0 <= T -> 1 <= adjustment T)
    /\ (forall T T', 0 <= T <= T' -> adjustment T <= adjustment T').
Proof.
  intros G awr E Ha HE. exists (factor awr E). parts.
  - intros; now apply adjustment_real.
  - apply factor_zero.
  - intros T HT. unfold factor. destruct (Req_EM_T T 0); [lra|reflexivity].
  - intros; now apply factor_ge_1.
  - intros; now apply factor_mono.
Qed.

(** ** Cross sections of one reaction *)

Lemma interp_nonneg l : forall k0 v0 k, increasing (map fst ((k0, v0) :: l)) -> 0 <= v0 ->
  List.Forall (fun e => 0 <= snd e) l -> 0 <= interp k0 v0 l k.
Proof.
  induction l as [|[k1 v1] l IH]; intros k0 v0 k Inc H0 F; cbn; auto.
  inversion F as [|? ? P1 P2]; subst. cbn in P1. destruct Inc as [Lt Inc]. cbn in Lt.
  destruct (Rlt_dec k k1); [|apply IH; auto].
  destruct (Rlt_dec k k0); auto.
  pose proof (chord_between k0 v0 k1 v1 k Lt ltac:(lra)) as [C _].
  apply Rle_trans with (Rmin v0 v1); auto. unfold Rmin. destruct (Rle_dec v0 v1); auto.
Qed.

Lemma ev_xs_real (G : Rng XRa) (p : particle XRa G) ev E :
  sound_evaluation ev -> p_energy p = ContinuousE (A := XRa) (Fin E) ->
  ev_xs_at ev p = Ok (Fin (tabulated ev E)) /\ 0 <= tabulated ev E.
Proof.
  intros [(l & El & Nl & Inc & Pos) _] Ep. unfold ev_xs_at, tabulated. rewrite Ep, El.
  destruct l as [|[k0 v0] l]; [now destruct Nl|].
  cbn [get_continuous bind]. rewrite cm1_table by auto. split; [reflexivity|].
  cbn. inversion Pos; subst. now apply interp_nonneg.
Qed.

Definition fg_applies (t : ptype) (awr E T : R) : bool :=
  ptype_eqb t neutron && (Rleb awr 1 || Rltb E (500 * k_B * T / awr)).

Lemma free_gas_valid_real (G : Rng XRa) (p : particle XRa G) awr E T :
  p_energy p = ContinuousE (A := XRa) (Fin E) -> 0 < awr ->
  free_gas_valid (A := XRa) (Fin awr) p (Fin T) = Ok (fg_applies (p_type p) awr E T).
Proof.
  intros Ep Ha. unfold free_gas_valid, fg_applies. rewrite Ep, boltzmann_real.
  destruct (ptype_eqb (p_type p) neutron); cbn [negb andb]; auto.
  change (nleb XRa (Fin awr) (nofZ XRa 1)) with (Rleb awr 1).
  destruct (Rleb awr 1); cbn [orb]; auto. cbn [get_continuous bind noexcept].
  change (Ok (xltb (Fin E) (xdiv (Fin (500 * k_B * T)) (Fin awr))) =
          Ok (Rltb E (500 * k_B * T / awr))).
  rewrite xdiv_fin by lra. reflexivity.
Qed.

(** The scatter cross section once the temperature is known. *)
Definition scatter_real (t : ptype) (s T0 awr E T : R) : R :=
  if Rltb T (T0 * (101 / 100)) then s
  else if fg_applies t awr E T then s / factor awr E T0 * factor awr E T
  else s.

Lemma scatter_xs_real (G : Rng XRa) (p : particle XRa G) ev T0 awr E T :
  sound_evaluation ev -> ev_temperature ev = Fin T0 -> 0 <= T0 ->
  p_energy p = ContinuousE (A := XRa) (Fin E) -> 0 < awr -> 0 < E -> 0 <= T ->
  scatter_xs_at (A := XRa) ev (Fin awr) p (Fin T)
  = Ok (Fin (scatter_real (p_type p) (tabulated ev E) T0 awr E T)).
Proof.
  intros S E0 H0 Ep Ha HE HT. unfold scatter_xs_at, scatter_real.
  rewrite (ev_is_valid_real ev T T0) by auto.
  destruct (ev_xs_real G p ev E S Ep) as [Ex _].
  destruct (Rltb T (T0 * (101 / 100))); auto.
  rewrite (free_gas_valid_real G p awr E T) by auto. cbn [bind].
  destruct (fg_applies (p_type p) awr E T); auto.
  rewrite Ex, E0, !(adjustment_real G p awr E) by auto. cbn [bind].
  change (Ok (xmul (xdiv (Fin (tabulated ev E)) (Fin (factor awr E T0))) (Fin (factor awr E T)))
          = Ok (Fin (tabulated ev E / factor awr E T0 * factor awr E T))).
  pose proof (factor_ge_1 awr E T0 Ha HE H0). rewrite xdiv_fin by lra. reflexivity.
Qed.

(** More temperature never removes free-gas treatment. *)
Lemma fg_applies_mono t awr E T U : 0 < awr -> T <= U ->
  fg_applies t awr E T = true -> fg_applies t awr E U = true.
Proof.
  unfold fg_applies. intros Ha HT. destruct (ptype_eqb t neutron); cbn [andb]; auto.
  destruct (Rleb awr 1); cbn [orb]; auto.
  destruct (Rltb_spec E (500 * k_B * T / awr)); intros; [|discriminate].
  apply Rltb_true. eapply Rlt_le_trans; [eassumption|]. pose proof k_B_pos.
  unfold Rdiv. apply Rmult_le_compat_r; [left; now apply Rinv_0_lt_compat|]. nra.
Qed.

Lemma scaled_ge s a b : 0 <= s -> 1 <= a -> a <= b -> s <= s / a * b.
Proof.
  intros. replace (s / a * b) with (s * (b / a)) by (field; lra).
  assert (1 <= b / a).
  { apply (Rmult_le_reg_r a); [lra|]. unfold Rdiv. rewrite Rmult_assoc, Rinv_l by lra. lra. }
  nra.
Qed.

Lemma scatter_real_nonneg t s T0 awr E T : 0 <= s -> 0 < awr -> 0 < E -> 0 <= T0 -> 0 <= T ->
  0 <= scatter_real t s T0 awr E T.
Proof.
  intros. unfold scatter_real. destruct (Rltb _ _); auto. destruct (fg_applies t awr E T); auto.
  pose proof (factor_ge_1 awr E T0 ltac:(auto) ltac:(auto) ltac:(auto)).
  pose proof (factor_ge_1 awr E T ltac:(auto) ltac:(auto) ltac:(auto)).
  apply Rmult_le_pos; [|lra]. unfold Rdiv. apply Rmult_le_pos; auto.
  left. apply Rinv_0_lt_compat. lra.
Qed.

(** It is at least the tabulated value... *)
Lemma scatter_real_table t s T0 awr E U : 0 <= s -> 0 < awr -> 0 < E -> 0 <= T0 -> 0 <= U ->
  s <= scatter_real t s T0 awr E U.
Proof.
  intros. unfold scatter_real. destruct (Rltb_spec U (T0 * (101 / 100))); [lra|].
  destruct (fg_applies t awr E U); [|lra].
  apply scaled_ge; auto; [apply factor_ge_1; auto|apply factor_mono; auto; lra].
Qed.

(** ... and does not decrease with temperature. *)
Lemma scatter_real_mono t s T0 awr E T U : 0 <= s -> 0 < awr -> 0 < E -> 0 <= T0 ->
  0 <= T <= U -> scatter_real t s T0 awr E T <= scatter_real t s T0 awr E U.
Proof.
  intros Hs Ha HE H0 HT. pose proof (scatter_real_table t s T0 awr E U Hs Ha HE H0 ltac:(lra)) as B.
  unfold scatter_real at 1. destruct (Rltb_spec T (T0 * (101 / 100))); auto.
  destruct (fg_applies t awr E T) eqn:F; auto.
  unfold scatter_real. rewrite Rltb_false by lra.
  rewrite (fg_applies_mono t awr E T U Ha ltac:(lra) F).
  apply Rmult_le_compat_l; [|apply factor_mono; auto].
  pose proof (factor_ge_1 awr E T0 Ha HE H0).
  unfold Rdiv. apply Rmult_le_pos; auto. left. apply Rinv_0_lt_compat. lra.
Qed.

Lemma C34_scatter_majorant_proof :
  forall (G : Rng XRa) (p : particle XRa G) c ev tsl (awr E T U : R),
  sound_evaluation ev -> 0 < awr -> at_temperature p c E T U ->
  (* the thermal data, if any, does not apply to this particle *)
  tsl_applies tsl p = Ok false ->
  exists xs majorant : R,
    cr_xs (CScatter (A := XRa) ev tsl (Fin awr)) p = Ok (Fin xs)
    /\ cr_majorant (CScatter (A := XRa) ev tsl (Fin awr)) p = Ok (Fin majorant)
    /\ 0 <= xs <= majorant
    /\ tabulated ev E <= majorant.
Proof.
  intros G p c ev tsl awr E T U S Ha [Ee Ec Ef Eu HE HT] Et.
  destruct (se_temperature _ S) as (T0 & E0 & H0).
  destruct (ev_xs_real G p ev E S Ee) as [_ Hs].
  exists (scatter_real (p_type p) (tabulated ev E) T0 awr E T),
         (scatter_real (p_type p) (tabulated ev E) T0 awr E U).
  unfold cr_xs, cr_majorant, get_cell. rewrite Et, Ec. cbn [bind]. rewrite Ef, Eu.
  rewrite !(scatter_xs_real G p ev T0 awr E) by (auto; lra). cbn [noexcept]. parts; auto.
  - apply scatter_real_nonneg; auto; lra.
  - apply scatter_real_mono; auto.
  - apply scatter_real_table; auto; lra.
Qed.

(** ** The nuclide *)

Definition reaction_majorant {G : Rng XRa} (p : particle XRa G) (r : creaction XRa) : R :=
  real_outcome (cr_majorant r p).

Lemma reaction_bounds (G : Rng XRa) (p : particle XRa G) c E T U r :
  at_temperature p c E T U -> sound_reaction p r ->
  cr_xs r p = Ok (Fin (reaction_xs p r))
  /\ cr_majorant r p = Ok (Fin (reaction_majorant p r))
  /\ 0 <= reaction_xs p r <= reaction_majorant p r
  /\ (cr_modifies_total r p = Ok false /\ tabulated (cr_evaluation r) E <= reaction_majorant p r
      \/ cr_modifies_total r p = Ok true).
Proof.
  intros H [S K]. unfold reaction_xs, reaction_majorant.
  destruct r as [ev|ev tsl awr|ev nubar]; cbn [cr_evaluation] in *.
  - destruct (ev_xs_real G p ev E S (at_energy _ _ _ _ _ H)) as [Ex Hx].
    cbn [cr_xs cr_majorant cr_evaluation cr_modifies_total]. rewrite Ex. cbn [real_outcome].
    parts; auto; try lra; left; split; auto; lra.
  - destruct K as [(a & -> & Ha) K].
    assert (Q : tsl_applies tsl p = Ok false ->
      cr_xs (CScatter (A := XRa) ev tsl (Fin a)) p
        = Ok (Fin (real_outcome (cr_xs (CScatter (A := XRa) ev tsl (Fin a)) p)))
      /\ cr_majorant (CScatter (A := XRa) ev tsl (Fin a)) p
        = Ok (Fin (real_outcome (cr_majorant (CScatter (A := XRa) ev tsl (Fin a)) p)))
      /\ 0 <= real_outcome (cr_xs (CScatter (A := XRa) ev tsl (Fin a)) p)
           <= real_outcome (cr_majorant (CScatter (A := XRa) ev tsl (Fin a)) p)
      /\ (cr_modifies_total (CScatter (A := XRa) ev tsl (Fin a)) p = Ok false
            /\ tabulated ev E
               <= real_outcome (cr_majorant (CScatter (A := XRa) ev tsl (Fin a)) p)
          \/ cr_modifies_total (CScatter (A := XRa) ev tsl (Fin a)) p = Ok true)).
    { intros Et. destruct (C34_scatter_majorant_proof G p c ev tsl a E T U S Ha H Et)
        as (x & m & Ex & Em & B & D). rewrite Ex, Em. cbn [real_outcome].
      parts; auto; try lra; left; split; auto. }
    destruct tsl as [t|]; [|apply Q; reflexivity].
    destruct K as [Et|(Et & x & m & Ex & Em & B)]; [apply Q; exact Et|].
    unfold cr_xs, cr_majorant, cr_modifies_total, tsl_applies. rewrite Et. cbn [bind].
    rewrite Ex, Em. cbn [noexcept real_outcome]. parts; auto; lra.
  - destruct (ev_xs_real G p ev E S (at_energy _ _ _ _ _ H)) as [Ex Hx].
    cbn [cr_xs cr_majorant cr_evaluation cr_modifies_total]. rewrite Ex. cbn [real_outcome].
    parts; auto; try lra; left; split; auto; lra.
Qed.

Lemma sum_reactions_fin (f : creaction XRa -> outcome (num XRa)) (g : creaction XRa -> R) rs :
  (forall r, In r rs -> f r = Ok (Fin (g r))) ->
  sum_reactions f rs = Ok (Fin (Rsum (map g rs))).
Proof.
  unfold sum_reactions. change (nofZ XRa 0) with (Fin 0). intros H.
  enough (Q : forall a, foldM (fun (acc : num XRa) r => bind (f r) (fun x => Ok (nadd XRa acc x))) rs (Fin a)
                        = Ok (Fin (a + Rsum (map g rs)))).
  { specialize (Q 0). rewrite Rplus_0_l in Q. exact Q. }
  induction rs as [|r rs IH]; intros a; cbn [foldM map Rsum].
  - now rewrite Rplus_0_r.
  - rewrite (H r) by now left. cbn [bind].
    change (nadd XRa (Fin a) (Fin (g r))) with (Fin (a + g r)).
    rewrite IH by (intros; apply H; now right). do 2 f_equal. ring.
Qed.

Lemma Rsum_le {X} (f g : X -> R) l : (forall x, In x l -> f x <= g x) ->
  Rsum (map f l) <= Rsum (map g l).
Proof.
  induction l as [|x l IH]; intros H; cbn; [lra|].
  pose proof (H x (or_introl eq_refl)). pose proof (IH (fun y Hy => H y (or_intror Hy))). lra.
Qed.

Lemma Rsum_nonneg {X} (f : X -> R) l : (forall x, In x l -> 0 <= f x) -> 0 <= Rsum (map f l).
Proof.
  induction l as [|x l IH]; intros H; cbn; [lra|].
  pose proof (H x (or_introl eq_refl)). pose proof (IH (fun y Hy => H y (or_intror Hy))). lra.
Qed.

Lemma any_modifies_bool (G : Rng XRa) (p : particle XRa G) rs :
  (forall r, In r rs -> exists b, cr_modifies_total r p = Ok b) ->
  exists b, any_modifies rs p = Ok b
    /\ (b = false -> forall r, In r rs -> cr_modifies_total r p = Ok false).
Proof.
  induction rs as [|r rs IH]; intros H; cbn [any_modifies].
  - exists false. split; auto. intros _ r [].
  - destruct (H r (or_introl eq_refl)) as [[] E]; rewrite E; cbn [bind].
    + exists true. split; auto. discriminate.
    + destruct IH as (b & Eb & Hb); [intros; apply H; now right|].
      exists b. split; auto. intros Z r' [<-|Hr]; auto.
Qed.

Lemma continuous_bounds (G : Rng XRa) (p : particle XRa G) c E T U co :
  at_temperature p c E T U -> List.Forall (sound_reaction p) (co_reactions co) ->
  sound_evaluation (co_total co) -> total_within_sum co E ->
  exists total majorant : R,
    co_get_total co p = Ok (Fin total) /\ co_get_majorant co p = Ok (Fin majorant)
    /\ 0 <= total <= majorant.
Proof.
  intros H F S W. rewrite Forall_forall in F.
  assert (B : forall r, In r (co_reactions co) -> _) by
    exact (fun r Hr => reaction_bounds G p c E T U r H (F r Hr)).
  destruct (any_modifies_bool G p (co_reactions co)) as (b & Eb & Hb).
  { intros r Hr. destruct (B r Hr) as (_ & _ & _ & [[Q _]|Q]); eauto. }
  destruct (se_temperature _ S) as (T0 & E0 & H0).
  destruct H as [Ee Ec Ef Eu HE HT].
  destruct (ev_xs_real G p (co_total co) E S Ee) as [Ex Hx].
  unfold co_get_total, co_get_majorant, get_cell. rewrite Ec. cbn [bind].
  unfold co_at_temperature. rewrite Eb, Ef, Eu. cbn [bind].
  rewrite !(ev_is_valid_real (co_total co) _ T0) by (auto; lra).
  rewrite Ex, (sum_reactions_fin (fun r => cr_xs r p) (reaction_xs p)),
    (sum_reactions_fin (fun r => cr_majorant r p) (reaction_majorant p)).
  2,3: intros r Hr; destruct (B r Hr) as (Q1 & Q2 & _); assumption.
  assert (B1 : 0 <= Rsum (map (reaction_xs p) (co_reactions co))).
  { apply Rsum_nonneg. intros r Hr. destruct (B r Hr) as (_ & _ & Q & _). lra. }
  assert (B2 : Rsum (map (reaction_xs p) (co_reactions co))
               <= Rsum (map (reaction_majorant p) (co_reactions co))).
  { apply Rsum_le. intros r Hr. destruct (B r Hr) as (_ & _ & Q & _). lra. }
  destruct b; cbn [negb andb noexcept].
  - eexists; eexists; parts; auto.
  - assert (B3 : tabulated (co_total co) E <= Rsum (map (reaction_majorant p) (co_reactions co))).
    { eapply Rle_trans; [exact W|]. apply Rsum_le. intros r Hr.
      destruct (B r Hr) as (_ & _ & _ & [[_ Q]|Q]); auto.
      rewrite (Hb eq_refl r Hr) in Q. discriminate. }
    destruct (Rltb_spec T (T0 * (101 / 100))), (Rltb_spec U (T0 * (101 / 100))); try lra;
      cbn [negb andb noexcept]; eexists; eexists; parts; auto; lra.
Qed.

Lemma C35_continuous_majorant_proof :
  forall (G : Rng XRa) (p : particle XRa G) c E T U nu co,
  at_temperature p c E T U ->
  find (fun x => ptype_eqb (fst x) (p_type p)) (nu_xs nu) = Some (p_type p, IContinuous co) ->
  List.Forall (sound_reaction p) (co_reactions co) -> sound_evaluation (co_total co) ->
  total_within_sum co E ->
  exists total majorant : R,
    nu_total nu p = Ok (Fin total) /\ nu_majorant nu p = Ok (Fin majorant)
    /\ 0 <= total <= majorant.
Proof.
  intros G p c E T U nu co H Hf F S W.
  destruct (continuous_bounds G p c E T U co H F S W) as (t & m & Et & Em & B).
  exists t, m. unfold nu_total, nu_majorant, nu_at. rewrite Hf. cbn [bind snd].
  rewrite Et, Em. auto.
Qed.

(** ** Choosing a reaction *)

Lemma cr_xs_rng {A : Arith} {G : Rng A} (p : particle A G) r s :
  cr_xs r (set_rng p s) = cr_xs r p.
Proof. destruct r; reflexivity. Qed.

Lemma co_total_rng {A : Arith} {G : Rng A} (p : particle A G) co s :
  co_get_total co (set_rng p s) = co_get_total co p.
Proof.
  unfold co_get_total, get_cell. cbn [p_cell set_rng]. destruct (p_cell p); cbn [bind]; auto.
  unfold co_at_temperature. rewrite (any_modifies_sees p (set_rng p s)) by reflexivity.
  reflexivity.
Qed.

Lemma noexcept_idem {X} (o : outcome X) : noexcept (noexcept o) = noexcept o.
Proof. destruct o; reflexivity. Qed.

Lemma co_interact_noexcept {A : Arith} {G : Rng A} fuel co (p : particle A G) :
  noexcept (co_interact fuel co p) = co_interact fuel co p.
Proof. destruct fuel; cbn [co_interact]; [reflexivity|apply noexcept_idem]. Qed.

Lemma cr_interact_noexcept {A : Arith} {G : Rng A} fuel r (p : particle A G) :
  noexcept (cr_interact fuel r p) = cr_interact fuel r p.
Proof. unfold cr_interact. apply noexcept_idem. Qed.

Lemma pick_creaction_fin (G : Rng XRa) (p : particle XRa G) rs : forall acc thr,
  plain_reactions p rs -> acc <= thr ->
  exists sel, pick_creaction rs p (Fin acc : num XRa) (Fin thr) = Ok sel
    /\ match sel with
       | Some r => exists pre post, rs = pre ++ r :: post
                     /\ acc + sum_xs p pre <= thr < acc + sum_xs p pre + reaction_xs p r
       | None => acc + sum_xs p rs <= thr
       end.
Proof.
  induction rs as [|r rs IH]; intros acc thr F L; cbn [pick_creaction].
  - exists None. split; auto. unfold sum_xs. cbn. lra.
  - inversion F as [|? ? [Ex Hx] F']; subst. rewrite Ex. cbn [bind].
    change (nadd XRa (Fin acc) (Fin (reaction_xs p r))) with (Fin (acc + reaction_xs p r)).
    change (nltb XRa (Fin thr) (Fin (acc + reaction_xs p r))) with (Rltb thr (acc + reaction_xs p r)).
    destruct (Rltb_spec thr (acc + reaction_xs p r)).
    + exists (Some r). split; auto. exists nil, rs. split; auto. unfold sum_xs. cbn. lra.
    + destruct (IH (acc + reaction_xs p r) thr F' ltac:(lra)) as (sel & E & Hs).
      exists sel. split; [exact E|]. destruct sel as [r'|].
      * destruct Hs as (pre & post & -> & Hs). exists (r :: pre), post. split; auto.
        unfold sum_xs in *. cbn. lra.
      * unfold sum_xs in *. cbn. lra.
Qed.

(** The interval determines the reaction. *)
Lemma interval_unique (G : Rng XRa) (p : particle XRa G) pre : forall pre' r r' post post' t,
  plain_reactions p (pre ++ r :: post) -> pre ++ r :: post = pre' ++ r' :: post' ->
  sum_xs p pre <= t < sum_xs p pre + reaction_xs p r ->
  sum_xs p pre' <= t < sum_xs p pre' + reaction_xs p r' -> r = r' /\ pre = pre'.
Proof.
  unfold sum_xs. induction pre as [|a pre IH]; intros [|b pre'] r r' post post' t F E H1 H2; cbn in *.
  - injection E as -> _; auto.
  - exfalso. injection E as -> ->. inversion F as [|? ? [_ Hx] F']; subst.
    assert (0 <= Rsum (map (reaction_xs p) pre')); [|lra].
    apply Rsum_nonneg. intros x Hx'. rewrite Forall_forall in F'.
    destruct (F' x) as [_ Q]; auto. apply in_or_app. now left.
  - exfalso. injection E as -> E. inversion F as [|? ? [_ Hx] F']; subst.
    assert (0 <= Rsum (map (reaction_xs p) pre)); [|lra].
    apply Rsum_nonneg. intros x Hx'. rewrite Forall_forall in F'.
    destruct (F' x) as [_ Q]; auto. apply in_or_app. now left.
  - injection E as -> E. inversion F as [|? ? [_ Hx] F']; subst.
    destruct (IH pre' r r' post post' (t - reaction_xs p b) F' E ltac:(lra) ltac:(lra)) as [-> ->].
    auto.
Qed.

Lemma C36_reaction_choice_proof :
  forall (G : Rng XRa) (p : particle XRa G) co total fuel,
  valid_rng G -> plain_reactions p (co_reactions co) ->
  co_get_total co p = Ok (Fin total) -> 0 <= total ->
  exists u, fst (runif G (p_rng p)) = Fin u /\ 0 <= u < 1 /\
    let p1 := set_rng p (snd (runif G (p_rng p))) in
    (* the reaction whose interval contains u * total takes place *)
    (forall before r after, co_reactions co = before ++ r :: after ->
       sum_xs p before <= u * total < sum_xs p before + reaction_xs p r ->
       co_interact (S fuel) co p = cr_interact fuel r p1)
    (* there is one, and it has a positive cross section, unless u * total is at or
       beyond the sum of all *)
    /\ (u * total < sum_xs p (co_reactions co) ->
        exists before r after, co_reactions co = before ++ r :: after
          /\ sum_xs p before <= u * total < sum_xs p before + reaction_xs p r
          /\ 0 < reaction_xs p r)
    (* in which case another number is drawn *)
    /\ (sum_xs p (co_reactions co) <= u * total -> co_interact (S fuel) co p = co_interact fuel co p1).
Proof.
  intros G p co total fuel V F Et Ht.
  destruct (V (p_rng p)) as (u & Eu & Hu). exists u. split; [exact Eu|]. split; [exact Hu|].
  intros p1.
  assert (F1 : plain_reactions p1 (co_reactions co)).
  { unfold plain_reactions, reaction_xs in *. eapply Forall_impl; [|exact F].
    intros r [Q1 Q2]. unfold p1. rewrite cr_xs_rng. auto. }
  assert (Es : forall rs, sum_xs p1 rs = sum_xs p rs).
  { intros rs. unfold sum_xs, reaction_xs. apply f_equal, map_ext. intros r.
    unfold p1. now rewrite cr_xs_rng. }
  assert (Er : forall r, reaction_xs p1 r = reaction_xs p r).
  { intros r. unfold reaction_xs, p1. now rewrite cr_xs_rng. }
  destruct (pick_creaction_fin G p1 (co_reactions co) 0 (u * total) F1 ltac:(nra))
    as (sel & Ep & Hs).
  assert (Step : co_interact (S fuel) co p =
            match sel with Some r => cr_interact fuel r p1 | None => co_interact fuel co p1 end).
  { cbn [co_interact]. unfold p_unif. destruct (runif G (p_rng p)) as [u' s] eqn:R.
    cbn [fst snd] in Eu, p1. subst u'. fold p1. unfold p1 at 1. rewrite co_total_rng, Et.
    cbn [bind]. change (nmul XRa (Fin u) (Fin total)) with (Fin (u * total)).
    change (nofZ XRa 0) with (Fin 0 : num XRa). rewrite Ep. cbn [bind].
    destruct sel; [apply cr_interact_noexcept|apply co_interact_noexcept]. }
  rewrite Step. parts.
  - intros pre r post E I. destruct sel as [r'|].
    + destruct Hs as (pre' & post' & E' & I'). rewrite Es, Er in I'.
      destruct (interval_unique G p pre pre' r r' post post' (u * total)) as [-> _]; auto.
      * now rewrite <- E.
      * now rewrite <- E.
      * lra.
    + exfalso. rewrite Es in Hs. rewrite E in Hs. unfold sum_xs in *.
      rewrite map_app in Hs. cbn [map] in Hs.
      assert (Q : forall l1 l2, Rsum (l1 ++ l2) = Rsum l1 + Rsum l2).
      { intros l1 l2. induction l1; cbn; lra. }
      rewrite Q in Hs. cbn [Rsum] in Hs.
      assert (0 <= Rsum (map (reaction_xs p) post)); [|lra].
      apply Rsum_nonneg. intros x Hx. unfold plain_reactions in F. rewrite E, Forall_forall in F.
      apply (F x). apply in_or_app. right. now right.
  - intros L. destruct sel as [r|]; [|rewrite Es in Hs; lra].
    destruct Hs as (pre & post & E & I). rewrite Es, Er in I. exists pre, r, post.
    parts; auto; lra.
  - intros L. destruct sel as [r|]; auto. exfalso.
    destruct Hs as (pre & post & E & I). rewrite Es, Er in I. rewrite E in L. unfold sum_xs in *.
    rewrite map_app in L. cbn [map] in L.
    assert (Q : forall l1 l2, Rsum (l1 ++ l2) = Rsum l1 + Rsum l2).
    { intros l1 l2. induction l1; cbn; lra. }
    rewrite Q in L. cbn [Rsum] in L.
    assert (0 <= Rsum (map (reaction_xs p) post)); [|lra].
    apply Rsum_nonneg. intros x Hx. unfold plain_reactions in F. rewrite E, Forall_forall in F.
    apply (F x). apply in_or_app. right. now right.
Qed.

Lemma C36_no_reaction_proof :
  forall (G : Rng XRa) co total fuel (p : particle XRa G),
  valid_rng G -> co_get_total co p = Ok (Fin total) -> 0 <= total ->
  (forall r, In r (co_reactions co) -> cr_xs r p = Ok (Fin 0)) ->
  co_interact fuel co p = OutOfFuel.
Proof.
  intros G co total fuel. induction fuel as [|fuel IH]; intros p V Et Ht Z; [reflexivity|].
  assert (F : plain_reactions p (co_reactions co)).
  { apply Forall_forall. intros r Hr. unfold reaction_xs. rewrite (Z r Hr). cbn. split; auto; lra. }
  destruct (C36_reaction_choice_proof G p co total fuel V F Et Ht) as (u & _ & Hu & _ & _ & N).
  rewrite N.
  - apply (IH _ V); [rewrite co_total_rng; exact Et|exact Ht|].
    intros r Hr. rewrite cr_xs_rng. auto.
  - enough (E : sum_xs p (co_reactions co) = 0) by (rewrite E; nra).
    unfold sum_xs, reaction_xs. clear - Z. induction (co_reactions co) as [|r l IH]; cbn; auto.
    rewrite (Z r) by now left. cbn. rewrite IH by (intros; apply Z; now right). ring.
Qed.

Lemma C36_reaction_share_proof :
  forall (G : Rng XRa) (p : particle XRa G) co total fuel before r after,
  valid_rng G -> plain_reactions p (co_reactions co) ->
  co_get_total co p = Ok (Fin total) -> 0 < total -> sum_xs p (co_reactions co) = total ->
  co_reactions co = before ++ r :: after ->
  exists low high, high - low = reaction_xs p r / total /\ 0 <= low /\ high <= 1
    /\ forall u, fst (runif G (p_rng p)) = Fin u -> low <= u < high ->
       co_interact (S fuel) co p = cr_interact fuel r (set_rng p (snd (runif G (p_rng p)))).
Proof.
  intros G p co total fuel pre r post V F Et Ht Es E.
  assert (Q : forall l1 l2, Rsum (l1 ++ l2) = Rsum l1 + Rsum l2).
  { intros l1 l2. induction l1; cbn; lra. }
  assert (P : forall l, incl l (co_reactions co) -> 0 <= sum_xs p l).
  { intros l Hl. apply Rsum_nonneg. intros x Hx. unfold plain_reactions in F.
    rewrite Forall_forall in F. apply (F x); auto. }
  assert (P1 : 0 <= sum_xs p pre).
  { apply P. rewrite E. intros x Hx. apply in_or_app. now left. }
  assert (P2 : 0 <= sum_xs p post).
  { apply P. rewrite E. intros x Hx. apply in_or_app. right. now right. }
  assert (Ps : sum_xs p pre + (reaction_xs p r + sum_xs p post) = total).
  { rewrite <- Es, E. unfold sum_xs. rewrite map_app, Q. reflexivity. }
  exists (sum_xs p pre / total), ((sum_xs p pre + reaction_xs p r) / total). parts.
  - field. lra.
  - unfold Rdiv. apply Rmult_le_pos; auto. left. now apply Rinv_0_lt_compat.
  - apply (Rmult_le_reg_r total); auto. unfold Rdiv. rewrite Rmult_assoc, Rinv_l by lra. lra.
  - intros u Eu [H1 H2].
    destruct (C36_reaction_choice_proof G p co total fuel V F Et ltac:(lra))
      as (u' & Eu' & _ & C & _).
    rewrite Eu in Eu'. injection Eu' as <-. apply (C pre r post E).
    apply (Rmult_le_compat_r total) in H1; [|lra].
    apply (Rmult_lt_compat_r total) in H2; [|lra].
    unfold Rdiv in H1, H2. rewrite Rmult_assoc, Rinv_l, Rmult_1_r in H1, H2 by lra. lra.
Qed.
