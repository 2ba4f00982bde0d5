(** Continuous-energy data and free-gas scattering: properties C32-C38. *)
From Coq Require Import String List Reals ZArith NArith Lra Lia.
From Verif Require Import Model.Num Model.Outcome Model.Rng Model.Xml Model.Std Model.Surface
  Model.Types Model.Field Model.Tables Model.Particle Model.Thermal Model.Continuous
  Model.Material Spec.Vec Spec.SumSpec Spec.RngSpec Spec.BinsSpec Spec.TablesSpec
  Spec.MaterialSpec Spec.ContinuousSpec Spec.FreeGasSpec Proofs.RealLib Proofs.OutcomeLib
  Proofs.RngProofs Proofs.TablesProofs Proofs.ContinuousProofs Proofs.FreeGasProofs.
Import ListNotations.
Local Open Scope R_scope.

(** C32: false below the evaluation's temperature, where the sign of the relative
    difference makes every temperature pass. *)
Theorem C32_valid_near_temperature_partial :
  forall (xs : cmap XRa 1) (T0 T : R), 0 < T0 -> 0 <= T ->
    (* at or above the evaluation's temperature the test is the documented one *)
    (T0 <= T -> (ev_is_valid (mkEval (A := XRa) xs (Fin T0)) (Fin T) = true
                 <-> relative_difference T T0 < 1 / 100))
    (* below it the evaluation is always taken as valid *)
    /\ (T < T0 -> ev_is_valid (mkEval (A := XRa) xs (Fin T0)) (Fin T) = true).
Proof. exact C32_valid_near_temperature_partial_proof. Qed.
Print Assumptions C32_valid_near_temperature_partial.
Theorem C32_valid_near_temperature_refuted :
  forall xs : cmap XRa 1, exists T0 T : R, 0 < T0 /\ 0 <= T
    /\ ev_is_valid (mkEval (A := XRa) xs (Fin T0)) (Fin T) = true
    /\ ~ relative_difference T T0 < 1 / 100.
Proof. exact C32_valid_near_temperature_refuted_proof. Qed.
Print Assumptions C32_valid_near_temperature_refuted.

Example C32_case :
  0 < 300 /\ 0 <= 302 /\ relative_difference 302 300 < 1 / 100
  /\ ~ relative_difference 304 300 < 1 / 100.
Proof.
  unfold relative_difference. rewrite !Rabs_right by lra. lra.
Qed.

(** C33 *)
Theorem C33_free_gas_adjustment :
  forall (G : Rng XRa) (awr E : R), 0 < awr -> 0 < E ->
  exists adjustment : R -> R,
    (forall (p : particle XRa G) T, p_energy p = ContinuousE (A := XRa) (Fin E) -> 0 <= T ->
       free_gas_adjustment (A := XRa) (Fin awr) p (Fin T) = Ok (Fin (adjustment T)))
    /\ adjustment 0 = 1
    /\ (forall T, 0 < T -> adjustment T = free_gas_ratio (awr * E / (k_B * T)))
    /\ (forall T, 0 <= T -> 1 <= adjustment T)
    /\ (forall T T', 0 <= T <= T' -> adjustment T <= adjustment T').
Proof. exact C33_free_gas_adjustment_proof. Qed.
Print Assumptions C33_free_gas_adjustment.

(** A neutron of energy 1 in a cell at 600 degrees, with scatter data made at 300. *)
Definition hot : cell XRa := mkCell 0 "hot" [] None (constant_field (Fin 600 : num XRa)).
Definition fast : particle XRa half_rng :=
  new_particle (G := half_rng) (pt (V3 0 0 0)) (pt (V3 1 0 0))
    (ContinuousE (A := XRa) (Fin 1)) neutron 1 (Some hot).
Definition flat (x : R) : evaluation XRa := mkEval (A := XRa) (table [(1 / 2, x); (2, x)]) (Fin 300).
Lemma flat_sound x : 0 <= x -> sound_evaluation (flat x).
Proof.
  intros Hx. constructor.
  - exists [(1 / 2, x); (2, x)]. split; [reflexivity|]. split; [discriminate|].
    split; [cbn; lra|]. repeat (apply Forall_cons; [exact Hx|]). constructor.
  - exists 300. split; [reflexivity|lra].
Qed.
Lemma fast_at : at_temperature fast hot 1 600 600.
Proof. constructor; try reflexivity; lra. Qed.
Lemma flat_at x : tabulated (flat x) 1 = x.
Proof.
  unfold tabulated, flat. cbn [ev_xs].
  cbn. decide_reals. cbn. decide_reals. cbn. lra.
Qed.

Example C33_case : 0 < 12 /\ 0 < 1 /\ p_energy fast = ContinuousE (A := XRa) (Fin 1) /\ 0 < 600.
Proof. split; [lra|]. split; [lra|]. split; [reflexivity|lra]. Qed.

(** C34 *)
Theorem C34_scatter_majorant :
  forall (G : Rng XRa) (p : particle XRa G) c ev tsl (awr E T U : R),
  sound_evaluation ev -> 0 < awr -> at_temperature p c E T U ->
  (* the thermal data, if any, does not apply to this particle *)
  tsl_applies tsl p = Ok false ->
  exists xs majorant : R,
    cr_xs (CScatter (A := XRa) ev tsl (Fin awr)) p = Ok (Fin xs)
    /\ cr_majorant (CScatter (A := XRa) ev tsl (Fin awr)) p = Ok (Fin majorant)
    /\ 0 <= xs <= majorant
    /\ tabulated ev E <= majorant.
Proof. exact C34_scatter_majorant_proof. Qed.
Print Assumptions C34_scatter_majorant.

Example C34_case :
  sound_evaluation (flat 4) /\ 0 < 12 /\ at_temperature fast hot 1 600 600
  /\ tsl_applies None fast = Ok false.
Proof.
  split; [apply flat_sound; lra|]. split; [lra|]. split; [exact fast_at|reflexivity].
Qed.

(** C35 *)
Theorem C35_continuous_majorant :
  forall (G : Rng XRa) (p : particle XRa G) c E T U nu co,
  at_temperature p c E T U ->
  find (fun x => ptype_eqb (fst x) (p_type p)) (nu_xs nu) = Some (p_type p, IContinuous co) ->
  List.Forall (sound_reaction p) (co_reactions co) -> sound_evaluation (co_total co) ->
  total_within_sum co E ->
  exists total majorant : R,
    nu_total nu p = Ok (Fin total) /\ nu_majorant nu p = Ok (Fin majorant)
    /\ 0 <= total <= majorant.
Proof. exact C35_continuous_majorant_proof. Qed.
Print Assumptions C35_continuous_majorant.

Definition reactions : list (creaction XRa) :=
  [CCapture (A := XRa) (flat 1); CScatter (A := XRa) (flat 3) None (Fin 12 : num XRa)].
Definition element : continuous XRa := mkContinuous (A := XRa) reactions (flat 4).

Example C35_case :
  at_temperature fast hot 1 600 600
  /\ List.Forall (sound_reaction fast) (co_reactions element)
  /\ sound_evaluation (co_total element) /\ total_within_sum element 1.
Proof.
  split; [exact fast_at|]. split; [|split].
  - repeat constructor; try (apply flat_sound; lra). exists 12. split; [reflexivity|lra].
  - apply flat_sound; lra.
  - unfold total_within_sum, element, reactions. cbn [co_total co_reactions map cr_evaluation Rsum].
    rewrite !flat_at. lra.
Qed.

(** C36 *)
Theorem C36_reaction_choice :
  forall (G : Rng XRa) (p : particle XRa G) co total fuel,
  valid_rng G -> plain_reactions p (co_reactions co) ->
  co_get_total co p = Ok (Fin total) -> 0 <= total ->
  exists u, fst (runif G (p_rng p)) = Fin u /\ 0 <= u < 1 /\
    let p1 := set_rng p (snd (runif G (p_rng p))) in
    (* the reaction whose interval contains u * total takes place *)
    (forall before r after, co_reactions co = before ++ r :: after ->
       sum_xs p before <= u * total < sum_xs p before + reaction_xs p r ->
       co_interact (S fuel) co p = cr_interact fuel r p1)
    (* there is one, and it has a positive cross section, unless u * total is at or
       beyond the sum of all *)
    /\ (u * total < sum_xs p (co_reactions co) ->
        exists before r after, co_reactions co = before ++ r :: after
          /\ sum_xs p before <= u * total < sum_xs p before + reaction_xs p r
          /\ 0 < reaction_xs p r)
    (* in which case another number is drawn *)
    /\ (sum_xs p (co_reactions co) <= u * total -> co_interact (S fuel) co p = co_interact fuel co p1).
Proof. exact C36_reaction_choice_proof. Qed.
Print Assumptions C36_reaction_choice.
Theorem C36_reaction_share :
  forall (G : Rng XRa) (p : particle XRa G) co total fuel before r after,
  valid_rng G -> plain_reactions p (co_reactions co) ->
  co_get_total co p = Ok (Fin total) -> 0 < total -> sum_xs p (co_reactions co) = total ->
  co_reactions co = before ++ r :: after ->
  exists low high, high - low = reaction_xs p r / total /\ 0 <= low /\ high <= 1
    /\ forall u, fst (runif G (p_rng p)) = Fin u -> low <= u < high ->
       co_interact (S fuel) co p = cr_interact fuel r (set_rng p (snd (runif G (p_rng p)))).
Proof. exact C36_reaction_share_proof. Qed.
Print Assumptions C36_reaction_share.
Theorem C36_no_reaction :
  forall (G : Rng XRa) co total fuel (p : particle XRa G),
  valid_rng G -> co_get_total co p = Ok (Fin total) -> 0 <= total ->
  (forall r, In r (co_reactions co) -> cr_xs r p = Ok (Fin 0)) ->
  co_interact fuel co p = OutOfFuel.
Proof. exact C36_no_reaction_proof. Qed.
Print Assumptions C36_no_reaction.

(** The same at 300 degrees, where the tables apply. *)
Definition warm : cell XRa := mkCell 0 "warm" [] None (constant_field (Fin 300 : num XRa)).
Definition neutral : particle XRa half_rng :=
  new_particle (G := half_rng) (pt (V3 0 0 0)) (pt (V3 1 0 0))
    (ContinuousE (A := XRa) (Fin 1)) neutron 1 (Some warm).
Lemma flat_valid x : ev_is_valid (flat x) (Fin 300) = true.
Proof.
  rewrite (ev_is_valid_real (flat x) 300 300 eq_refl) by lra. apply Rltb_true. lra.
Qed.
Lemma flat_xs x : ev_xs_at (flat x) neutral = Ok (Fin x).
Proof.
  unfold ev_xs_at. cbn. decide_reals. cbn. decide_reals. cbn. do 2 f_equal. lra.
Qed.
Lemma element_xs : map (fun r => cr_xs r neutral) reactions = [Ok (Fin 1); Ok (Fin 3)].
Proof.
  unfold reactions. cbn [map]. unfold cr_xs. cbn [cr_evaluation tsl_applies bind].
  change (get_cell neutral) with (Ok warm). cbn [bind].
  change (field_at (c_temperature warm) (p_position neutral)) with (Fin 300 : num XRa).
  unfold scatter_xs_at. rewrite flat_valid, !flat_xs. reflexivity.
Qed.

Example C36_case :
  valid_rng half_rng /\ plain_reactions neutral (co_reactions element)
  /\ co_get_total element neutral = Ok (Fin 4)
  /\ sum_xs neutral (co_reactions element) = 4
  (* u * total = 2 is in the scatter interval [1, 4) *)
  /\ sum_xs neutral [CCapture (A := XRa) (flat 1)] <= 1 / 2 * 4
     < sum_xs neutral [CCapture (A := XRa) (flat 1)]
       + reaction_xs neutral (CScatter (A := XRa) (flat 3) None (Fin 12 : num XRa)).
Proof.
  assert (E1 : cr_xs (CCapture (A := XRa) (flat 1)) neutral = Ok (Fin 1)).
  { pose proof element_xs as E. now injection E. }
  assert (E2 : cr_xs (CScatter (A := XRa) (flat 3) None (Fin 12 : num XRa)) neutral = Ok (Fin 3)).
  { pose proof element_xs as E. unfold reactions in E. cbn [map] in E. congruence. }
  split; [apply open_valid, half_open|]. split; [|split; [|split]].
  - cbn [co_reactions element]. unfold reactions, plain_reactions, reaction_xs.
    apply Forall_cons; [|apply Forall_cons; [|apply Forall_nil]].
    + rewrite E1. cbn. split; auto; lra.
    + rewrite E2. cbn. split; auto; lra.
  - unfold co_get_total. change (get_cell neutral) with (Ok warm). cbn [bind].
    unfold co_at_temperature. cbn [co_reactions element reactions any_modifies cr_modifies_total
      tsl_applies bind negb andb co_total].
    change (field_at (c_temperature warm) (p_position neutral)) with (Fin 300 : num XRa).
    rewrite flat_valid. cbn [andb]. now rewrite flat_xs.
  - cbn [co_reactions element]. unfold reactions, sum_xs, reaction_xs. cbn [map Rsum].
    rewrite E1, E2. cbn. lra.
  - unfold sum_xs, reaction_xs. cbn [map Rsum]. rewrite E1, E2. cbn. lra.
Qed.

(** Data that are zero at the particle's energy. *)
Example C36_none_case :
  let co := mkContinuous (A := XRa) [CCapture (A := XRa) (flat 0)] (flat 0) in
  co_get_total co neutral = Ok (Fin 0)
  /\ forall r, In r (co_reactions co) -> cr_xs r neutral = Ok (Fin 0).
Proof.
  cbv zeta. split.
  - unfold co_get_total. change (get_cell neutral) with (Ok warm). cbn [bind].
    unfold co_at_temperature. cbn [co_reactions any_modifies cr_modifies_total
      tsl_applies bind negb andb co_total].
    change (field_at (c_temperature warm) (p_position neutral)) with (Fin 300 : num XRa).
    rewrite flat_valid. cbn [andb]. now rewrite flat_xs.
  - intros r [<-|[]]. exact (flat_xs 0).
Qed.

(** C37 *)
Theorem C37_free_gas_collision :
  forall (G : Rng XRa) (p q : particle XRa G) c ev tsl fuel (awr E T : R) d,
  open_rng G -> 0 < awr -> 0 < E -> 0 < T -> unit d ->
  p_energy p = ContinuousE (A := XRa) (Fin E) -> p_direction p = pt d ->
  p_cell p = Some c -> field_at (c_temperature c) (p_position p) = Fin T ->
  (* the thermal data, if any, does not apply to this particle *)
  tsl_applies tsl p = Ok false ->
  cr_interact fuel (CScatter (A := XRa) ev tsl (Fin awr)) p = Ok q ->
  p_event q = scatter /\
  exists x mu p1 u w v' w',
    let v := vscale (speed E) d in
    (* the reduced speed and the cosine drawn for the nucleus *)
    free_gas_target fuel (Fin (inverse_speed awr T * speed E) : num XRa) (set_event p scatter)
      = Ok (Fin x, Fin mu, p1)
    /\ norm w = x / inverse_speed awr T /\ dot w d = mu * norm w
    (* the number drawn for the centre-of-mass cosine, the second one after those *)
    /\ draw G 1 (p_rng p1) = Fin u
    /\ elastic awr v w v' w' (2 * u - 1)
    (* energy and direction of the particle afterwards are those of [v'] *)
    /\ p_energy q = ContinuousE (A := XRa) (Fin (1 / 2 * m_n * dot v' v'))
    /\ (v' <> zero_vec -> exists d', p_direction q = pt d' /\ unit d' /\ v' = vscale (norm v') d').
Proof. exact C37_free_gas_collision_proof. Qed.
Print Assumptions C37_free_gas_collision.

(** With every uniform number 1/2 the first target is accepted. *)
Lemma half_target y (p : particle XRa half_rng) : 0 < y -> exists x mu q,
  free_gas_target 1 (Fin y : num XRa) p = Ok (x, mu, q).
Proof.
  intros Hy. destruct (C38_target_sampling_proof half_rng p y 0 half_open Hy)
    as (xi1 & xi2 & test & xi3 & v & acc & n & x & mu & a & _ & _ & _ & _ & _ & _ & Ev & Ea & _ & Hx
        & Em & _ & Eq & _ & E).
  rewrite half_draw in Ev, Ea. injection Ev as <-. injection Ea as <-.
  assert (L : 1 / 2 < a).
  { rewrite Eq, Em. unfold acceptance. apply (Rmult_lt_reg_r (x + y)); [lra|].
    unfold Rdiv at 2. rewrite Rmult_assoc, Rinv_l, Rmult_1_r by lra.
    rewrite <- (sqrt_square (1 / 2 * (x + y))) by lra. apply sqrt_lt_1_alt.
    pose proof (Rle_0_sqr (x - y)) as Q. unfold Rsqr in Q. split; [nra|].
    replace (2 * x * y * (2 * (1 / 2) - 1)) with 0 by field. nra. }
  rewrite E. destruct (Rlt_dec (1 / 2) a); [eauto|lra].
Qed.

Example C37_case :
  open_rng half_rng /\ unit (V3 1 0 0) /\ p_direction fast = pt (V3 1 0 0)
  /\ p_cell fast = Some hot /\ field_at (c_temperature hot) (p_position fast) = Fin 600
  /\ tsl_applies None fast = Ok false
  /\ exists q, cr_interact 1 (CScatter (A := XRa) (flat 3) None (Fin 12 : num XRa)) fast = Ok q.
Proof.
  split; [exact half_open|]. split; [apply unit_dot; unfold dot; cbn; lra|].
  do 3 (split; [reflexivity|]). split; [reflexivity|].
  unfold cr_interact. cbn [tsl_applies bind]. unfold free_gas_scatter.
  change (get_continuous (p_energy (set_event fast scatter))) with (Ok (Fin 1 : num XRa)).
  change (get_cell (set_event fast scatter)) with (Ok hot). cbn [bind].
  change (field_at (c_temperature hot) (p_position (set_event fast scatter)))
    with (Fin 600 : num XRa).
  rewrite neutron_mass_real, boltzmann_real, speed_real, inverse_speed_real by lra.
  change (nmul XRa (Fin (inverse_speed 12 600)) (Fin (speed 1)))
    with (Fin (inverse_speed 12 600 * speed 1)).
  destruct (half_target (inverse_speed 12 600 * speed 1) (set_event fast scatter))
    as (x & mu & q & E).
  - pose proof m_n_pos. pose proof k_B_pos.
    apply Rmult_lt_0_compat; apply sqrt_lt_R0, Rdiv_lt_0_compat; lra.
  - rewrite E. cbn [bind]. destruct (p_unif q) as [u1 q1]. destruct (p_unif q1) as [u2 q2].
    destruct (p_unif q2) as [u3 q3].
    destruct (free_gas_outgoing _ _ _ _ _ _ _ _) as [m e'].
    eexists; reflexivity.
Qed.

(** C38 *)
Theorem C38_target_sampling :
  forall (G : Rng XRa) (p : particle XRa G) (y : R) fuel,
  open_rng G -> 0 < y ->
  exists xi1 xi2 test xi3 v acc n x mu a,
    List.Forall (fun u => 0 < u < 1) [xi1; xi2; test; xi3; v; acc]
    (* numbers in the order in which they are drawn; the fourth only if needed *)
    /\ draw G 0 (p_rng p) = Fin xi1 /\ draw G 1 (p_rng p) = Fin xi2
    /\ draw G 2 (p_rng p) = Fin test /\ draw G 3 (p_rng p) = Fin xi3
    /\ n = (if Rlt_dec test (2 / (sqrt PI * y + 2)) then 3 else 4)%nat
    /\ draw G n (p_rng p) = Fin v /\ draw G (n + 1) (p_rng p) = Fin acc
    /\ x = target_speed y xi1 xi2 test xi3 /\ 0 <= x
    /\ mu = 2 * v - 1 /\ -1 <= mu < 1
    /\ a = acceptance x y mu /\ 0 <= a <= 1
    /\ free_gas_target (S fuel) (Fin y : num XRa) p =
         if Rlt_dec acc a
         then Ok (Fin x, Fin mu, set_rng p (advance G (n + 2) (p_rng p)))
         else free_gas_target fuel (Fin y : num XRa) (set_rng p (advance G (n + 2) (p_rng p))).
Proof. exact C38_target_sampling_proof. Qed.
Print Assumptions C38_target_sampling.
Theorem C38_target_returned :
  forall (G : Rng XRa) (y : R) fuel (p : particle XRa G) X M q,
  open_rng G -> 0 < y -> free_gas_target fuel (Fin y : num XRa) p = Ok (X, M, q) ->
  exists x mu s, X = Fin x /\ M = Fin mu /\ 0 <= x /\ -1 <= mu < 1 /\ q = set_rng p s.
Proof. exact C38_target_returned_proof. Qed.
Print Assumptions C38_target_returned.

Example C38_case : open_rng half_rng /\ 0 < 1
  /\ exists x mu q, free_gas_target 1 (Fin 1 : num XRa) fast = Ok (x, mu, q).
Proof.
  split; [exact half_open|]. split; [lra|]. apply half_target. lra.
Qed.
