(** Continuous-energy data and free-gas scattering: properties C32-C38. *)
From Coq Require Import String List Reals ZArith NArith Lra Lia.
From Verif Require Import Model.Num Model.Outcome Model.Rng Model.Xml Model.Std Model.Surface
  Model.Types Model.Field Model.Tables Model.Particle Model.Thermal Model.Continuous
  Model.Material Spec.Vec Spec.SumSpec Spec.RngSpec Spec.BinsSpec Spec.TablesSpec
  Spec.MaterialSpec Spec.ContinuousSpec Spec.FreeGasSpec Proofs.RealLib Proofs.OutcomeLib
  Proofs.RngProofs Proofs.TablesProofs Proofs.ContinuousProofs Proofs.FreeGasProofs.
Import ListNotations.
Local Open Scope R_scope.

(** C32: false below the evaluation's temperature, where the sign of the relative
    difference makes every temperature pass. *)
@@C32_valid_near_temperature_partial
@@C32_valid_near_temperature_refuted

Example C32_case :
  0 < 300 /\ 0 <= 302 /\ relative_difference 302 300 < 1 / 100
  /\ ~ relative_difference 304 300 < 1 / 100.
Proof.
  unfold relative_difference. rewrite !Rabs_right by lra. lra.
Qed.

(** C33 *)
@@C33_free_gas_adjustment

(** A neutron of energy 1 in a cell at 600 degrees, with scatter data made at 300. *)
Definition hot : cell XRa := mkCell 0 "hot" [] None (constant_field (Fin 600 : num XRa)).
Definition fast : particle XRa half_rng :=
  new_particle (G := half_rng) (pt (V3 0 0 0)) (pt (V3 1 0 0))
    (ContinuousE (A := XRa) (Fin 1)) neutron 1 (Some hot).
Definition flat (x : R) : evaluation XRa := mkEval (A := XRa) (table [(1 / 2, x); (2, x)]) (Fin 300).
Lemma flat_sound x : 0 <= x -> sound_evaluation (flat x).
Proof.
  intros Hx. constructor.
  - exists [(1 / 2, x); (2, x)]. split; [reflexivity|]. split; [discriminate|].
    split; [cbn; lra|]. repeat (apply Forall_cons; [exact Hx|]). constructor.
  - exists 300. split; [reflexivity|lra].
Qed.
Lemma fast_at : at_temperature fast hot 1 600 600.
Proof. constructor; try reflexivity; lra. Qed.
Lemma flat_at x : tabulated (flat x) 1 = x.
Proof.
  unfold tabulated, flat. cbn [ev_xs].
  cbn. decide_reals. cbn. decide_reals. cbn. lra.
Qed.

Example C33_case : 0 < 12 /\ 0 < 1 /\ p_energy fast = ContinuousE (A := XRa) (Fin 1) /\ 0 < 600.
Proof. split; [lra|]. split; [lra|]. split; [reflexivity|lra]. Qed.

(** C34 *)
@@C34_scatter_majorant

Example C34_case :
  sound_evaluation (flat 4) /\ 0 < 12 /\ at_temperature fast hot 1 600 600
  /\ tsl_applies None fast = Ok false.
Proof.
  split; [apply flat_sound; lra|]. split; [lra|]. split; [exact fast_at|reflexivity].
Qed.

(** C35 *)
@@C35_continuous_majorant

Definition reactions : list (creaction XRa) :=
  [CCapture (A := XRa) (flat 1); CScatter (A := XRa) (flat 3) None (Fin 12 : num XRa)].
Definition element : continuous XRa := mkContinuous (A := XRa) reactions (flat 4).

Example C35_case :
  at_temperature fast hot 1 600 600
  /\ List.Forall (sound_reaction fast) (co_reactions element)
  /\ sound_evaluation (co_total element) /\ total_within_sum element 1.
Proof.
  split; [exact fast_at|]. split; [|split].
  - repeat constructor; try (apply flat_sound; lra). exists 12. split; [reflexivity|lra].
  - apply flat_sound; lra.
  - unfold total_within_sum, element, reactions. cbn [co_total co_reactions map cr_evaluation Rsum].
    rewrite !flat_at. lra.
Qed.

(** C36 *)
@@C36_reaction_choice
@@C36_reaction_share
@@C36_no_reaction

(** The same at 300 degrees, where the tables apply. *)
Definition warm : cell XRa := mkCell 0 "warm" [] None (constant_field (Fin 300 : num XRa)).
Definition neutral : particle XRa half_rng :=
  new_particle (G := half_rng) (pt (V3 0 0 0)) (pt (V3 1 0 0))
    (ContinuousE (A := XRa) (Fin 1)) neutron 1 (Some warm).
Lemma flat_valid x : ev_is_valid (flat x) (Fin 300) = true.
Proof.
  rewrite (ev_is_valid_real (flat x) 300 300 eq_refl) by lra. apply Rltb_true. lra.
Qed.
Lemma flat_xs x : ev_xs_at (flat x) neutral = Ok (Fin x).
Proof.
  unfold ev_xs_at. cbn. decide_reals. cbn. decide_reals. cbn. do 2 f_equal. lra.
Qed.
Lemma element_xs : map (fun r => cr_xs r neutral) reactions = [Ok (Fin 1); Ok (Fin 3)].
Proof.
  unfold reactions. cbn [map]. unfold cr_xs. cbn [cr_evaluation tsl_applies bind].
  change (get_cell neutral) with (Ok warm). cbn [bind].
  change (field_at (c_temperature warm) (p_position neutral)) with (Fin 300 : num XRa).
  unfold scatter_xs_at. rewrite flat_valid, !flat_xs. reflexivity.
Qed.

Example C36_case :
  valid_rng half_rng /\ plain_reactions neutral (co_reactions element)
  /\ co_get_total element neutral = Ok (Fin 4)
  /\ sum_xs neutral (co_reactions element) = 4
  (* u * total = 2 is in the scatter interval [1, 4) *)
  /\ sum_xs neutral [CCapture (A := XRa) (flat 1)] <= 1 / 2 * 4
     < sum_xs neutral [CCapture (A := XRa) (flat 1)]
       + reaction_xs neutral (CScatter (A := XRa) (flat 3) None (Fin 12 : num XRa)).
Proof.
  assert (E1 : cr_xs (CCapture (A := XRa) (flat 1)) neutral = Ok (Fin 1)).
  { pose proof element_xs as E. now injection E. }
  assert (E2 : cr_xs (CScatter (A := XRa) (flat 3) None (Fin 12 : num XRa)) neutral = Ok (Fin 3)).
  { pose proof element_xs as E. unfold reactions in E. cbn [map] in E. congruence. }
  split; [apply open_valid, half_open|]. split; [|split; [|split]].
  - cbn [co_reactions element]. unfold reactions, plain_reactions, reaction_xs.
    apply Forall_cons; [|apply Forall_cons; [|apply Forall_nil]].
    + rewrite E1. cbn. split; auto; lra.
    + rewrite E2. cbn. split; auto; lra.
  - unfold co_get_total. change (get_cell neutral) with (Ok warm). cbn [bind].
    unfold co_at_temperature. cbn [co_reactions element reactions any_modifies cr_modifies_total
      tsl_applies bind negb andb co_total].
    change (field_at (c_temperature warm) (p_position neutral)) with (Fin 300 : num XRa).
    rewrite flat_valid. cbn [andb]. now rewrite flat_xs.
  - cbn [co_reactions element]. unfold reactions, sum_xs, reaction_xs. cbn [map Rsum].
    rewrite E1, E2. cbn. lra.
  - unfold sum_xs, reaction_xs. cbn [map Rsum]. rewrite E1, E2. cbn. lra.
Qed.

(** Data that are zero at the particle's energy. *)
Example C36_none_case :
  let co := mkContinuous (A := XRa) [CCapture (A := XRa) (flat 0)] (flat 0) in
  co_get_total co neutral = Ok (Fin 0)
  /\ forall r, In r (co_reactions co) -> cr_xs r neutral = Ok (Fin 0).
Proof.
  cbv zeta. split.
  - unfold co_get_total. change (get_cell neutral) with (Ok warm). cbn [bind].
    unfold co_at_temperature. cbn [co_reactions any_modifies cr_modifies_total
      tsl_applies bind negb andb co_total].
    change (field_at (c_temperature warm) (p_position neutral)) with (Fin 300 : num XRa).
    rewrite flat_valid. cbn [andb]. now rewrite flat_xs.
  - intros r [<-|[]]. exact (flat_xs 0).
Qed.

(** C37 *)
@@C37_free_gas_collision

(** With every uniform number 1/2 the first target is accepted. *)
Lemma half_target y (p : particle XRa half_rng) : 0 < y -> exists x mu q,
  free_gas_target 1 (Fin y : num XRa) p = Ok (x, mu, q).
Proof.
  intros Hy. destruct (C38_target_sampling_proof half_rng p y 0 half_open Hy)
    as (xi1 & xi2 & test & xi3 & v & acc & n & x & mu & a & _ & _ & _ & _ & _ & _ & Ev & Ea & _ & Hx
        & Em & _ & Eq & _ & E).
  rewrite half_draw in Ev, Ea. injection Ev as <-. injection Ea as <-.
  assert (L : 1 / 2 < a).
  { rewrite Eq, Em. unfold acceptance. apply (Rmult_lt_reg_r (x + y)); [lra|].
    unfold Rdiv at 2. rewrite Rmult_assoc, Rinv_l, Rmult_1_r by lra.
    rewrite <- (sqrt_square (1 / 2 * (x + y))) by lra. apply sqrt_lt_1_alt.
    pose proof (Rle_0_sqr (x - y)) as Q. unfold Rsqr in Q. split; [nra|].
    replace (2 * x * y * (2 * (1 / 2) - 1)) with 0 by field. nra. }
  rewrite E. destruct (Rlt_dec (1 / 2) a); [eauto|lra].
Qed.

Example C37_case :
  open_rng half_rng /\ unit (V3 1 0 0) /\ p_direction fast = pt (V3 1 0 0)
  /\ p_cell fast = Some hot /\ field_at (c_temperature hot) (p_position fast) = Fin 600
  /\ tsl_applies None fast = Ok false
  /\ exists q, cr_interact 1 (CScatter (A := XRa) (flat 3) None (Fin 12 : num XRa)) fast = Ok q.
Proof.
  split; [exact half_open|]. split; [apply unit_dot; unfold dot; cbn; lra|].
  do 3 (split; [reflexivity|]). split; [reflexivity|].
  unfold cr_interact. cbn [tsl_applies bind]. unfold free_gas_scatter.
  change (get_continuous (p_energy (set_event fast scatter))) with (Ok (Fin 1 : num XRa)).
  change (get_cell (set_event fast scatter)) with (Ok hot). cbn [bind].
  change (field_at (c_temperature hot) (p_position (set_event fast scatter)))
    with (Fin 600 : num XRa).
  rewrite neutron_mass_real, boltzmann_real, speed_real, inverse_speed_real by lra.
  change (nmul XRa (Fin (inverse_speed 12 600)) (Fin (speed 1)))
    with (Fin (inverse_speed 12 600 * speed 1)).
  destruct (half_target (inverse_speed 12 600 * speed 1) (set_event fast scatter))
    as (x & mu & q & E).
  - pose proof m_n_pos. pose proof k_B_pos.
    apply Rmult_lt_0_compat; apply sqrt_lt_R0, Rdiv_lt_0_compat; lra.
  - rewrite E. cbn [bind]. destruct (p_unif q) as [u1 q1]. destruct (p_unif q1) as [u2 q2].
    destruct (p_unif q2) as [u3 q3].
    destruct (free_gas_outgoing _ _ _ _ _ _ _ _) as [m e'].
    eexists; reflexivity.
Qed.

(** C38 *)
@@C38_target_sampling
@@C38_target_returned

Example C38_case : open_rng half_rng /\ 0 < 1
  /\ exists x mu q, free_gas_target 1 (Fin 1 : num XRa) fast = Ok (x, mu, q).
Proof.
  split; [exact half_open|]. split; [lra|]. apply half_target. lra.
Qed.
