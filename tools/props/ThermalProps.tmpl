(** Thermal scattering: properties C39-C44, C68, C69, C72 and C73. *)
From Coq Require Import String List Reals ZArith NArith Lra Lia.
From Verif Require Import Model.Num Model.Outcome Model.Rng Model.Xml Model.Std Model.Surface
  Model.Types Model.Field Model.Tables Model.Particle Model.Thermal Model.Continuous
  Spec.Vec Spec.SumSpec Spec.RngSpec Spec.BinsSpec Spec.TablesSpec Spec.TextExt
  Spec.ContinuousSpec Spec.ThermalSpec Proofs.RealLib Proofs.OutcomeLib Proofs.RngProofs
  Proofs.ThermalProofs Proofs.ThermalSampleProofs Proofs.PartitionProofs.
Import ListNotations.
Local Open Scope string_scope.
Local Open Scope R_scope.

(** C39 *)
@@C39_thermal_cutoff

(** Data whose total cross section is tabulated at energies 1 and 10. *)
Example C39_case :
  let X := text_ext XRa [("one", ([[Fin 1]], [Fin 1])); ("two", ([[Fin 1; Fin 10]; [Fin 0]], [Fin 1; Fin 1]))] in
  let n := Some (mkH (Elem "tnsl" [("majorant", "one"); ("total_T", "two"); ("total_S", "one");
                               ("total_E", "two")] [] "") []) in
  exists t, thermal_create X n = Ok t /\ th_cutoff_energy t = Fin 10.
Proof. cbv zeta. eexists. split; reflexivity. Qed.

(** C40: false at and above the highest of several temperatures, where the last but
    one is used. *)
@@C40_thermal_grid_partial
@@C40_highest_temperature_refuted

Example C40_case : exists V, cross_section_grid two_temperatures [1; 10] [200; 400] V
  /\ increasing [1; 10] /\ increasing [200; 400] /\ 2 < last [1; 10] 0
  /\ p_energy toy_particle = ContinuousE (A := XRa) (Fin 1).
Proof.
  eexists. split; [exact two_temperatures_grid|]. split; [cbn; lra|]. split; [cbn; lra|].
  split; [cbn; lra|reflexivity].
Qed.

(** C41 *)
@@C41_energy_nonnegative
@@C41_ten_attempts

Example C41_case :
  p_energy toy_particle = ContinuousE (A := XRa) (Fin 1) /\ p_cell toy_particle = Some toy_cell
  /\ field_at (c_temperature toy_cell) (p_position toy_particle) = Fin T_one /\ 0 < T_one
  /\ (exists q, th_scatter (toy 0 [0; 1]) toy_particle = Ok q)
  /\ exists i p1 E_s pa local, choose_energy_index (toy 0 [0; 1]) toy_particle (Fin 1 : num XRa) = Ok (i, p1)
     /\ vec_at (th_Es (toy 0 [0; 1])) i = Ok E_s
     /\ locate_partition (th_beta_partitions (toy 0 [0; 1])) (th_beta_ends (toy 0 [0; 1])) i
        = Ok (pa, local).
Proof.
  do 3 (split; [reflexivity|]). split; [exact T_one_pos|]. split.
  - destruct toy_scatter_zero as (mu & q & E & _). eauto.
  - assert (exists b q, sample_beta (toy 0 [0; 1]) toy_particle (Fin 1 : num XRa) (Fin T_one : num XRa)
      = Ok (b, q)) as (b & q & E).
    { do 2 eexists. apply toy_beta. lra. }
    unfold sample_beta in E. apply bind_ok in E as ([i p1] & E1 & E). apply bind_ok in E as (E_s & E2 & E).
    apply bind_ok in E as ([pa local] & E3 & E). exists i, p1, E_s, pa, local. auto.
Qed.

(** C42: the case of an outgoing energy of exactly zero is excluded. *)
@@C42_thermal_cosine_partial
@@C42_zero_energy_refuted

Example C42_case :
  valid_rng half_rng /\ th_awr (toy 0 [0; 1]) = Fin 1 /\ p_direction toy_particle = pt (V3 1 0 0)
  /\ unit (V3 1 0 0) /\ field_at (c_temperature toy_cell) (p_position toy_particle) = Fin T_one
  /\ 0 < T_one /\ exists q, th_scatter (toy 0 [0; 1]) toy_particle = Ok q
     /\ p_energy q = ContinuousE (A := XRa) (Fin 1).
Proof.
  split; [exact (open_valid _ half_open)|]. split; [reflexivity|]. split; [reflexivity|].
  split; [apply unit_dot; unfold dot; cbn; lra|]. split; [reflexivity|]. split; [exact T_one_pos|].
  destruct toy_scatter_zero as (mu & q & E & ->). eexists. split; [exact E|].
  unfold p_scatter. rewrite half_unif. cbn [p_energy set_energy]. do 2 f_equal. ring.
Qed.

(** C43: false unless the neighbours are at distance one, because of the order of
    the operations. *)
@@C43_beta_grid_point_partial
@@C43_beta_grid_point_refuted

Example C43_case :
  increasing [0; 1; 2] /\ nth 1 [0; 1; 2] 0 <= Rabs (3 / 2) < nth 2 [0; 1; 2] 0
  /\ ~ snapped (beta_table [0; 1; 2] 10) (3 / 2) 1 1 2 /\ nth 2 [0; 1; 2] 0 - nth 1 [0; 1; 2] 0 = 1.
Proof.
  rewrite Rabs_pos_eq by lra. split; [cbn; lra|]. split; [cbn; lra|]. split; [|cbn; lra].
  intros [[_ H]|[H _]]; [|lra]. change (Rleb 10 2 = true) in H. rewrite Rleb_false in H by lra.
  discriminate.
Qed.

(** C44: false for transfers at or above the last tabulated beta. *)
@@C44_existing_entries_partial
@@C44_existing_entries_refuted

Example C44_case :
  sound_partitions (th_beta_partitions (toy 0 [0; 1])) (th_Es (toy 0 [0; 1]))
    (th_beta_ends (toy 0 [0; 1])) [[1 / 2; 2]]
  /\ sound_partitions (th_alpha_partitions (toy 0 [0; 1])) (th_betas (toy 0 [0; 1]))
    (th_alpha_ends (toy 0 [0; 1])) [[0; 1]]
  /\ 1 < last (concat [[1 / 2; 2]]) 0 /\ Rabs 0 < last (concat [[0; 1]]) 0
  /\ ~ Rabs 0 < nth 0 (concat [[0; 1]]) 0.
Proof.
  split; [apply toy_sound; [cbn; lra|reflexivity]|].
  split; [apply toy_sound; [cbn; lra|reflexivity]|].
  rewrite Rabs_R0. cbn. lra.
Qed.

(** C68: false outside the tabulated temperatures. *)
@@C68_temperature_interpolation_partial
@@C68_lowest_temperature_refuted

Example C68_case :
  partition_table (toy_partition [1] 3) [1 / 2] [1] [T_one; 2 * T_one] (fun _ _ _ => 3)
  /\ increasing [T_one; 2 * T_one]
  /\ nth 0 [T_one; 2 * T_one] 0 <= 3 / 2 * T_one < last [T_one; 2 * T_one] 0.
Proof. pose proof T_one_pos. split; [apply toy_table|]. cbn. lra. Qed.

(** C69 *)
@@C69_energy_grid_point

Example C69_case :
  th_Es (toy 0 [0; 1]) = map Fin [1 / 2; 2] /\ increasing [1 / 2; 2] /\ valid_rng half_rng
  /\ nth 0 [1 / 2; 2] 0 <= 1 < nth 1 [1 / 2; 2] 0
  /\ upper_probability (1 / 2) 2 1 = 1 / 3.
Proof.
  split; [reflexivity|]. split; [cbn; lra|]. split; [exact (open_valid _ half_open)|].
  split; [cbn; lra|]. unfold upper_probability. field.
Qed.

(** C72 *)
@@C72_partitions

(** Two partitions of the energies 1, 2, 3 and two of the transfers 0, 1, 2. *)
Example C72_case :
  let X := text_ext XRa
    [("one", ([[Fin 1]], [Fin 1])); ("two", ([[Fin 1; Fin 10]; [Fin 0]], [Fin 1; Fin 1]));
     ("a", ([[Fin 1]; [Fin 0]; [Fin 0]], [Fin 1]));
     ("b", ([[Fin 2; Fin 3]; [Fin 0]; [Fin 0]], [Fin 1; Fin 1]));
     ("c", ([[Fin 0; Fin 1]; [Fin 0]; [Fin 0]], [Fin 1; Fin 1]));
     ("d", ([[Fin 2]; [Fin 0]; [Fin 0]], [Fin 1]))] in
  let part g f := Elem "partition" [("CDF", "two"); ("S", "one"); (g, f)] [] "" in
  let n := Some (mkH (Elem "tnsl" [("majorant", "one"); ("total_T", "two"); ("total_S", "one");
                               ("total_E", "two")]
                    [Elem "beta_partitions" [] [part "E_T" "a"; part "E_T" "b"] "";
                     Elem "alpha_partitions" [] [part "beta_T" "c"; part "beta_T" "d"] ""] "") []) in
  exists t, thermal_create X n = Ok t /\ th_Es t = map Fin [1; 2; 3]
    /\ th_betas t = map Fin [0; 1; 2] /\ length (th_beta_partitions t) = 2%nat
    /\ length (th_alpha_partitions t) = 2%nat.
Proof. cbv zeta. eexists. split; [reflexivity|]. repeat split; reflexivity. Qed.

(** C73: see C41, C69 and C72 for the choice of the table and of the accepted
    candidate. *)
@@C73_beta
@@C73_alpha

Example C73_case :
  valid_rng half_rng
  /\ partition_table (toy_partition [0; 1] 1) [1 / 2] [0; 1] [T_one; 2 * T_one] (fun _ _ _ => 1)
  /\ increasing [T_one; 2 * T_one] /\ nth 0 [T_one; 2 * T_one] 0 <= T_one < last [T_one; 2 * T_one] 0
  /\ values_at (fun _ _ _ => 1) [1 / 2] [T_one; 2 * T_one] 0 T_one [1]
  /\ increasing (0 :: [1 / 2] ++ [1])%list /\ th_beta_cutoff (toy 0 [0; 1]) = Fin 10
  /\ choose_beta_index (A := XRa) (toy 0 [0; 1]) toy_particle (Fin 0) (Fin (1 / 2)) (Fin T_one)
     = Ok (0%N, toy_particle)
  /\ vec_at (th_betas (toy 0 [0; 1])) 0 = Ok (Fin 0 : num XRa)
  /\ locate_partition (th_alpha_partitions (toy 0 [0; 1])) (th_alpha_ends (toy 0 [0; 1])) 0
     = Ok (toy_partition [0; 1] 1, 0%N)
  /\ th_alpha_cutoff (toy 0 [0; 1]) = Fin 3 /\ increasing (0 :: [1] ++ [3])%list
  /\ alpha_max 1 T_one (1 / 2) (1 / 2 + 0 * k_B * T_one) < 3
  /\ draw half_rng 0 (p_rng toy_particle) = Fin (1 / 2).
Proof.
  pose proof T_one_pos as PT. split; [exact (open_valid _ half_open)|]. split; [apply toy_table|].
  split; [cbn; lra|]. split; [cbn; lra|]. split.
  { split; [reflexivity|]. intros i Hi. cbn in Hi. assert (i = O) as -> by lia. cbn [nth].
    assert (C : chord T_one 1 (2 * T_one) 1 T_one = 1) by (unfold chord; field; lra).
    pose proof (in_between [T_one; 2 * T_one] (fun _ => 1) T_one 0 ltac:(cbn; lia) ltac:(cbn; lra)) as Q.
    cbn [nth] in Q. rewrite C in Q. exact Q. }
  split; [cbn; lra|]. split; [reflexivity|]. split; [apply toy_choice|]. split; [reflexivity|].
  split; [apply (toy_locate [0; 1] 1 0); cbn; lia|]. split; [reflexivity|]. split; [cbn; lra|].
  split; [|exact (half_draw 0 (p_rng toy_particle))].
  unfold alpha_max. replace (1 / 2 + 0 * k_B * T_one) with (1 / 2) by ring.
  rewrite Rmult_1_l, kT_one. replace ((sqrt (1 / 2) + sqrt (1 / 2)) ^ 2) with (4 * (sqrt (1 / 2) * sqrt (1 / 2))) by ring.
  rewrite sqrt_sqrt by lra. lra.
Qed.
