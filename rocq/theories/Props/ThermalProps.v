(** Thermal scattering: properties C39-C44, C68, C69, C72 and C73. *)
From Coq Require Import String List Reals ZArith NArith Lra Lia.
From Verif Require Import Model.Num Model.Outcome Model.Rng Model.Xml Model.Std Model.Surface
  Model.Types Model.Field Model.Tables Model.Particle Model.Thermal Model.Continuous
  Spec.Vec Spec.SumSpec Spec.RngSpec Spec.BinsSpec Spec.TablesSpec Spec.TextExt
  Spec.ContinuousSpec Spec.ThermalSpec Proofs.RealLib Proofs.OutcomeLib Proofs.RngProofs
  Proofs.ThermalProofs Proofs.ThermalSampleProofs Proofs.PartitionProofs.
Import ListNotations.
Local Open Scope string_scope.
Local Open Scope R_scope.

(** C39 *)
Theorem C39_thermal_cutoff :
  forall (A : Arith) (G : Rng A) (X : Ext A) n t, thermal_create X n = Ok t ->
  exists Es cutoff,
    (* the tabulated energies of the total cross section *)
    dataset_load X 2 (as_string (n_attr n "total_E")) = Ok (th_xs_E t)
    /\ ds_axis (th_xs_E t) 0 = Ok (Es ++ [cutoff])%list
    /\ forall (p : particle A G) E ev awr fuel, p_energy p = ContinuousE E ->
       let with_thermal := CScatter ev (Some t) awr in
       let without := CScatter ev None awr in
       (p_type p = neutron /\ nltb A E cutoff = true ->
          cr_xs with_thermal p = th_get_total t p
          /\ cr_majorant with_thermal p = th_get_majorant t p
          /\ cr_interact fuel with_thermal p = noexcept (th_scatter t (set_event p scatter)))
       /\ (~ (p_type p = neutron /\ nltb A E cutoff = true) ->
          cr_xs with_thermal p = cr_xs without p
          /\ cr_majorant with_thermal p = cr_majorant without p
          /\ cr_interact fuel with_thermal p = cr_interact fuel without p).
Proof. exact C39_thermal_cutoff_proof. Qed.
Print Assumptions C39_thermal_cutoff.

(** Data whose total cross section is tabulated at energies 1 and 10. *)
Example C39_case :
  let X := text_ext XRa [("one", ([[Fin 1]], [Fin 1])); ("two", ([[Fin 1; Fin 10]; [Fin 0]], [Fin 1; Fin 1]))] in
  let n := Some (mkH (Elem "tnsl" [("majorant", "one"); ("total_T", "two"); ("total_S", "one");
                               ("total_E", "two")] [] "") []) in
  exists t, thermal_create X n = Ok t /\ th_cutoff_energy t = Fin 10.
Proof. cbv zeta. eexists. split; reflexivity. Qed.

(** C40: false at and above the highest of several temperatures, where the last but
    one is used. *)
Theorem C40_thermal_grid_partial :
  forall (G : Rng XRa) (p : particle XRa G) t c Es Ts V (E T : R),
  cross_section_grid t Es Ts V -> increasing Es -> increasing Ts -> Es <> [] -> Ts <> [] ->
  p_energy p = ContinuousE (A := XRa) (Fin E) -> p_cell p = Some c ->
  field_at (c_temperature c) (p_position p) = Fin T ->
  E < last Es 0 ->
  exists g xs, th_get_total t p = Ok (Fin xs)
    (* interpolation in energy at each tabulated temperature *)
    /\ (forall j, (j < length Ts)%nat -> interpolated Es (fun i => V i j) E (g j))
    (* then in temperature *)
    /\ (T < last Ts 0 \/ length Ts = 1%nat -> interpolated Ts g T xs)
    (* but at or above the highest of several the last but one is used *)
    /\ (last Ts 0 <= T -> (1 < length Ts)%nat -> xs = g (length Ts - 2)%nat).
Proof. exact C40_thermal_grid_partial_proof. Qed.
Print Assumptions C40_thermal_grid_partial.
Theorem C40_highest_temperature_refuted :
  forall G : Rng XRa, exists (p : particle XRa G) t c Es Ts V (E T : R),
  cross_section_grid t Es Ts V /\ increasing Es /\ increasing Ts /\ Es <> [] /\ Ts <> []
  /\ p_energy p = ContinuousE (A := XRa) (Fin E) /\ p_cell p = Some c
  /\ field_at (c_temperature c) (p_position p) = Fin T /\ E < last Es 0
  /\ exists xs, th_get_total t p = Ok (Fin xs)
     /\ forall g, (forall j, (j < length Ts)%nat -> interpolated Es (fun i => V i j) E (g j)) ->
        ~ interpolated Ts g T xs.
Proof. exact C40_highest_temperature_refuted_proof. Qed.
Print Assumptions C40_highest_temperature_refuted.

Example C40_case : exists V, cross_section_grid two_temperatures [1; 10] [200; 400] V
  /\ increasing [1; 10] /\ increasing [200; 400] /\ 2 < last [1; 10] 0
  /\ p_energy toy_particle = ContinuousE (A := XRa) (Fin 1).
Proof.
  eexists. split; [exact two_temperatures_grid|]. split; [cbn; lra|]. split; [cbn; lra|].
  split; [cbn; lra|reflexivity].
Qed.

(** C41 *)
Theorem C41_energy_nonnegative :
  forall (G : Rng XRa) t (p q : particle XRa G) c (E T : R),
  p_energy p = ContinuousE (A := XRa) (Fin E) -> p_cell p = Some c ->
  field_at (c_temperature c) (p_position p) = Fin T -> 0 < T ->
  th_scatter t p = Ok q ->
  exists E', p_energy q = ContinuousE E' /\ nleb XRa (Fin 0) E' = true
    /\ exists b p1, sample_beta t p (Fin E : num XRa) (Fin T : num XRa) = Ok (b, p1)
       /\ E' = nadd XRa (Fin E) (nmul XRa (nmul XRa b (Fin k_B)) (Fin T)).
Proof. exact C41_energy_nonnegative_proof. Qed.
Print Assumptions C41_energy_nonnegative.
Theorem C41_ten_attempts :
  forall (A : Arith) (G : Rng A) t (p p1 : particle A G) E T i E_s pa local,
  (* the grid energy drawn, and its tables *)
  choose_energy_index t p E = Ok (i, p1) -> vec_at (th_Es t) i = Ok E_s ->
  locate_partition (th_beta_partitions t) (th_beta_ends t) i = Ok (pa, local) ->
  let candidate k := sample_beta_candidate t pa local E_s T (draw G k (p_rng p1)) in
  let impossible b := nleb A (ndiv A (nopp A E) (nmul A boltzmann T)) b = false in
  (* the first possible candidate is returned *)
  (forall b q, sample_beta t p E T = Ok (b, q) ->
     exists k, (k < 10)%nat /\ candidate k = Ok b /\ ~ impossible b
       /\ (forall j, (j < k)%nat -> exists c, candidate j = Ok c /\ impossible c)
       /\ q = set_rng p1 (advance G (S k) (p_rng p1)))
  (* ten impossible candidates are an error *)
  /\ ((forall k, (k < 10)%nat -> exists c, candidate k = Ok c /\ impossible c) ->
      sample_beta t p E T
      = Throw "Number of thermal scattering beta resamples exceeded limit: 10").
Proof. exact C41_ten_attempts_proof. Qed.
Print Assumptions C41_ten_attempts.

Example C41_case :
  p_energy toy_particle = ContinuousE (A := XRa) (Fin 1) /\ p_cell toy_particle = Some toy_cell
  /\ field_at (c_temperature toy_cell) (p_position toy_particle) = Fin T_one /\ 0 < T_one
  /\ (exists q, th_scatter (toy 0 [0; 1]) toy_particle = Ok q)
  /\ exists i p1 E_s pa local, choose_energy_index (toy 0 [0; 1]) toy_particle (Fin 1 : num XRa) = Ok (i, p1)
     /\ vec_at (th_Es (toy 0 [0; 1])) i = Ok E_s
     /\ locate_partition (th_beta_partitions (toy 0 [0; 1])) (th_beta_ends (toy 0 [0; 1])) i
        = Ok (pa, local).
Proof.
  do 3 (split; [reflexivity|]). split; [exact T_one_pos|]. split.
  - destruct toy_scatter_zero as (mu & q & E & _). eauto.
  - assert (exists b q, sample_beta (toy 0 [0; 1]) toy_particle (Fin 1 : num XRa) (Fin T_one : num XRa)
      = Ok (b, q)) as (b & q & E).
    { do 2 eexists. apply toy_beta. lra. }
    unfold sample_beta in E. apply bind_ok in E as ([i p1] & E1 & E). apply bind_ok in E as (E_s & E2 & E).
    apply bind_ok in E as ([pa local] & E3 & E). exists i, p1, E_s, pa, local. auto.
Qed.

(** C42: the case of an outgoing energy of exactly zero is excluded. *)
Theorem C42_thermal_cosine_partial :
  forall (G : Rng XRa) (t : thermal XRa) (p q : particle XRa G) c d (awr E E' T : R),
  valid_rng G -> th_awr t = Fin awr -> 0 < awr ->
  p_energy p = ContinuousE (A := XRa) (Fin E) -> 0 < E -> p_direction p = pt d -> unit d ->
  p_cell p = Some c -> field_at (c_temperature c) (p_position p) = Fin T -> 0 < T ->
  th_scatter t p = Ok q ->
  p_energy q = ContinuousE (A := XRa) (Fin E') -> 0 < E' ->
  exists a d', alpha_min awr T E E' < a < alpha_max awr T E E'
    /\ p_direction q = pt d' /\ unit d'
    /\ dot d' d = thermal_cosine awr T E E' a /\ -1 < dot d' d < 1.
Proof. exact C42_thermal_cosine_partial_proof. Qed.
Print Assumptions C42_thermal_cosine_partial.
Theorem C42_zero_energy_refuted :
  exists (G : Rng XRa) (t : thermal XRa) (p q : particle XRa G) c d (awr E T : R),
  valid_rng G /\ th_awr t = Fin awr /\ 0 < awr
  /\ p_energy p = ContinuousE (A := XRa) (Fin E) /\ 0 < E /\ p_direction p = pt d /\ unit d
  /\ p_cell p = Some c /\ field_at (c_temperature c) (p_position p) = Fin T /\ 0 < T
  (* a neutron may lose all its energy, which leaves it without a direction *)
  /\ th_scatter t p = Ok q /\ p_energy q = ContinuousE (A := XRa) (Fin 0)
  /\ ~ exists d', p_direction q = pt d'.
Proof. exact C42_zero_energy_refuted_proof. Qed.
Print Assumptions C42_zero_energy_refuted.

Example C42_case :
  valid_rng half_rng /\ th_awr (toy 0 [0; 1]) = Fin 1 /\ p_direction toy_particle = pt (V3 1 0 0)
  /\ unit (V3 1 0 0) /\ field_at (c_temperature toy_cell) (p_position toy_particle) = Fin T_one
  /\ 0 < T_one /\ exists q, th_scatter (toy 0 [0; 1]) toy_particle = Ok q
     /\ p_energy q = ContinuousE (A := XRa) (Fin 1).
Proof.
  split; [exact (open_valid _ half_open)|]. split; [reflexivity|]. split; [reflexivity|].
  split; [apply unit_dot; unfold dot; cbn; lra|]. split; [reflexivity|]. split; [exact T_one_pos|].
  destruct toy_scatter_zero as (mu & q & E & ->). eexists. split; [exact E|].
  unfold p_scatter. rewrite half_unif. cbn [p_energy set_energy]. do 2 f_equal. ring.
Qed.

(** C43: false unless the neighbours are at distance one, because of the order of
    the operations. *)
Theorem C43_beta_grid_point_partial :
  forall (G : Rng XRa) (t : thermal XRa) (p : particle XRa G) bs (b E T : R) j,
  th_betas t = map Fin bs -> increasing bs -> (N.of_nat (length bs) < 2 ^ 64)%N -> valid_rng G ->
  0 < T -> (S j < length bs)%nat -> nth j bs 0 <= Rabs b < nth (S j) bs 0 ->
  let lo := nth j bs 0 in let hi := nth (S j) bs 0 in
  exists u i q, draw G 0 (p_rng p) = Fin u /\ 0 <= u < 1
    /\ choose_beta_index t p (Fin b : num XRa) (Fin E : num XRa) (Fin T : num XRa)
       = Ok (N.of_nat i, q)
    (* one of the two neighbours *)
    /\ (i = j \/ i = S j)
    (* the lower one if the upper one is out of reach *)
    /\ (snapped t b E T hi -> i = j)
    (* the probability the code uses *)
    /\ (~ snapped t b E T hi -> (u < Rabs b - lo / (hi - lo) -> i = S j)
                             /\ (Rabs b - lo / (hi - lo) <= u -> i = j))
    (* is the documented one for neighbours at distance one *)
    /\ (~ snapped t b E T hi -> hi - lo = 1 ->
          (u < upper_probability lo hi (Rabs b) -> i = S j)
          /\ (upper_probability lo hi (Rabs b) <= u -> i = j)).
Proof. exact C43_beta_grid_point_partial_proof. Qed.
Print Assumptions C43_beta_grid_point_partial.
Theorem C43_beta_grid_point_refuted :
  exists (G : Rng XRa) (t : thermal XRa) (p : particle XRa G) bs (b E T : R) j u q,
  th_betas t = map Fin bs /\ increasing bs /\ (N.of_nat (length bs) < 2 ^ 64)%N /\ valid_rng G
  /\ 0 < T /\ 0 < E /\ (S j < length bs)%nat /\ nth j bs 0 <= Rabs b < nth (S j) bs 0
  /\ ~ snapped t b E T (nth (S j) bs 0)
  /\ draw G 0 (p_rng p) = Fin u
  (* the lower neighbour should be chosen *)
  /\ upper_probability (nth j bs 0) (nth (S j) bs 0) (Rabs b) <= u
  (* but the upper one is *)
  /\ choose_beta_index t p (Fin b : num XRa) (Fin E : num XRa) (Fin T : num XRa)
     = Ok (N.of_nat (S j), q).
Proof. exact C43_beta_grid_point_refuted_proof. Qed.
Print Assumptions C43_beta_grid_point_refuted.

Example C43_case :
  increasing [0; 1; 2] /\ nth 1 [0; 1; 2] 0 <= Rabs (3 / 2) < nth 2 [0; 1; 2] 0
  /\ ~ snapped (beta_table [0; 1; 2] 10) (3 / 2) 1 1 2 /\ nth 2 [0; 1; 2] 0 - nth 1 [0; 1; 2] 0 = 1.
Proof.
  rewrite Rabs_pos_eq by lra. split; [cbn; lra|]. split; [cbn; lra|]. split; [|cbn; lra].
  intros [[_ H]|[H _]]; [|lra]. change (Rleb 10 2 = true) in H. rewrite Rleb_false in H by lra.
  discriminate.
Qed.

(** C44: false for transfers at or above the last tabulated beta. *)
Theorem C44_existing_entries_partial :
  forall (G : Rng XRa) (t : thermal XRa) (p : particle XRa G) Egrids bgrids (E T : R),
  valid_rng G -> 0 < T ->
  sound_partitions (th_beta_partitions t) (th_Es t) (th_beta_ends t) Egrids ->
  sound_partitions (th_alpha_partitions t) (th_betas t) (th_alpha_ends t) bgrids ->
  concat Egrids <> [] -> concat bgrids <> [] ->
  (* the energy transfer: for energies below the last energy of its tables *)
  (E < last (concat Egrids) 0 ->
     (exists b q, sample_beta t p (Fin E : num XRa) (Fin T : num XRa) = Ok (b, q))
     \/ sample_beta t p (Fin E : num XRa) (Fin T : num XRa)
        = Throw "Number of thermal scattering beta resamples exceeded limit: 10")
  (* the momentum transfer: for transfers below the last beta of its tables, and if
     below the first one then only if that is within reach *)
  /\ (forall b, Rabs b < last (concat bgrids) 0 ->
      (Rabs b < nth 0 (concat bgrids) 0 -> ~ snapped t b E T (nth 0 (concat bgrids) 0)) ->
      (exists a q, sample_alpha t p (Fin b : num XRa) (Fin E : num XRa) (Fin T : num XRa) = Ok (a, q))
      \/ sample_alpha t p (Fin b : num XRa) (Fin E : num XRa) (Fin T : num XRa)
         = Throw "Number of thermal scattering alpha resamples exceeded limit: 10").
Proof. exact C44_existing_entries_partial_proof. Qed.
Print Assumptions C44_existing_entries_partial.
Theorem C44_existing_entries_refuted :
  exists (G : Rng XRa) (t : thermal XRa) (p : particle XRa G) c Egrids bgrids (E T : R) ev awr,
  valid_rng G
  /\ sound_partitions (th_beta_partitions t) (th_Es t) (th_beta_ends t) Egrids
  /\ sound_partitions (th_alpha_partitions t) (th_betas t) (th_alpha_ends t) bgrids
  /\ concat Egrids <> [] /\ concat bgrids <> []
  /\ p_energy p = ContinuousE (A := XRa) (Fin E) /\ p_type p = neutron
  /\ nltb XRa (Fin E) (th_cutoff_energy t) = true /\ 0 < E < last (concat Egrids) 0
  /\ p_cell p = Some c /\ field_at (c_temperature c) (p_position p) = Fin T /\ 0 < T
  (* an index outside the tables is used, and the exception ends the program *)
  /\ th_scatter t p = Throw "vector::_M_range_check"
  /\ cr_interact 1 (CScatter ev (Some t) awr) p = Terminate.
Proof. exact C44_existing_entries_refuted_proof. Qed.
Print Assumptions C44_existing_entries_refuted.

Example C44_case :
  sound_partitions (th_beta_partitions (toy 0 [0; 1])) (th_Es (toy 0 [0; 1]))
    (th_beta_ends (toy 0 [0; 1])) [[1 / 2; 2]]
  /\ sound_partitions (th_alpha_partitions (toy 0 [0; 1])) (th_betas (toy 0 [0; 1]))
    (th_alpha_ends (toy 0 [0; 1])) [[0; 1]]
  /\ 1 < last (concat [[1 / 2; 2]]) 0 /\ Rabs 0 < last (concat [[0; 1]]) 0
  /\ ~ Rabs 0 < nth 0 (concat [[0; 1]]) 0.
Proof.
  split; [apply toy_sound; [cbn; lra|reflexivity]|].
  split; [apply toy_sound; [cbn; lra|reflexivity]|].
  rewrite Rabs_R0. cbn. lra.
Qed.

(** C68: false outside the tabulated temperatures. *)
Theorem C68_temperature_interpolation_partial :
  forall pa Fs grid Ts W i k (T : R),
  partition_table pa Fs grid Ts W -> increasing Ts -> Ts <> [] ->
  (i < length Fs)%nat -> (k < length grid)%nat ->
  exists v, partition_evaluate (A := XRa) pa (N.of_nat i) (N.of_nat k) (Fin T) = Ok v
    (* between the lowest and the highest temperature *)
    /\ (nth 0 Ts 0 <= T < last Ts 0 -> exists x, v = Fin x /\ interpolated Ts (W i k) T x)
    (* at or above the highest the line through the last two points is continued *)
    /\ (forall j, (S (S j) = length Ts)%nat -> last Ts 0 <= T ->
          v = Fin (chord (nth j Ts 0) (W i k j) (nth (S j) Ts 0) (W i k (S j)) T))
    (* below the lowest, or if there is just one temperature, there is no value *)
    /\ (T < nth 0 Ts 0 \/ length Ts = 1%nat -> v = NaN).
Proof. exact C68_temperature_interpolation_partial_proof. Qed.
Print Assumptions C68_temperature_interpolation_partial.
Theorem C68_lowest_temperature_refuted :
  exists pa Fs grid Ts W i k (T : R),
  partition_table pa Fs grid Ts W /\ increasing Ts /\ Ts <> []
  /\ (i < length Fs)%nat /\ (k < length grid)%nat /\ 0 < T
  /\ forall x, interpolated Ts (W i k) T x ->
     partition_evaluate (A := XRa) pa (N.of_nat i) (N.of_nat k) (Fin T) <> Ok (Fin x).
Proof. exact C68_lowest_temperature_refuted_proof. Qed.
Print Assumptions C68_lowest_temperature_refuted.

Example C68_case :
  partition_table (toy_partition [1] 3) [1 / 2] [1] [T_one; 2 * T_one] (fun _ _ _ => 3)
  /\ increasing [T_one; 2 * T_one]
  /\ nth 0 [T_one; 2 * T_one] 0 <= 3 / 2 * T_one < last [T_one; 2 * T_one] 0.
Proof. pose proof T_one_pos. split; [apply toy_table|]. cbn. lra. Qed.

(** C69 *)
Theorem C69_energy_grid_point :
  forall (G : Rng XRa) (t : thermal XRa) (p : particle XRa G) Es (E : R),
  th_Es t = map Fin Es -> increasing Es -> (N.of_nat (length Es) < 2 ^ 64)%N -> valid_rng G ->
  exists u, draw G 0 (p_rng p) = Fin u /\ 0 <= u < 1
    /\ (forall j, (S j < length Es)%nat -> nth j Es 0 <= E < nth (S j) Es 0 ->
        exists i q, choose_energy_index t p (Fin E : num XRa) = Ok (N.of_nat i, q)
          /\ (u < upper_probability (nth j Es 0) (nth (S j) Es 0) E -> i = S j)
          /\ (upper_probability (nth j Es 0) (nth (S j) Es 0) E <= u -> i = j))
    /\ (Es <> [] -> E < nth 0 Es 0 ->
        exists q, choose_energy_index t p (Fin E : num XRa) = Ok (0%N, q)).
Proof. exact C69_energy_grid_point_proof. Qed.
Print Assumptions C69_energy_grid_point.

Example C69_case :
  th_Es (toy 0 [0; 1]) = map Fin [1 / 2; 2] /\ increasing [1 / 2; 2] /\ valid_rng half_rng
  /\ nth 0 [1 / 2; 2] 0 <= 1 < nth 1 [1 / 2; 2] 0
  /\ upper_probability (1 / 2) 2 1 = 1 / 3.
Proof.
  split; [reflexivity|]. split; [cbn; lra|]. split; [exact (open_valid _ half_open)|].
  split; [cbn; lra|]. unfold upper_probability. field.
Qed.

(** C72 *)
Theorem C72_partitions :
  forall (A : Arith) (X : Ext A) n t, thermal_create X n = Ok t ->
  (* the partitions are the listed ones, in order *)
  Forall2 (fun c pa => partition_create X "E_T" c = Ok pa)
    (n_children (n_child n "beta_partitions")) (th_beta_partitions t)
  /\ Forall2 (fun c pa => partition_create X "beta_T" c = Ok pa)
    (n_children (n_child n "alpha_partitions")) (th_alpha_partitions t)
  (* every point of the energy grid is looked up where it is stored *)
  /\ ((N.of_nat (length (th_Es t)) < 2 ^ 64)%N ->
      (N.of_nat (length (th_beta_partitions t)) < 2 ^ 64)%N ->
      forall i, (i < length (th_Es t))%nat -> exists pa local,
      locate_partition (th_beta_partitions t) (th_beta_ends t) (N.of_nat i) = Ok (pa, N.of_nat local)
      /\ holds_point (th_beta_partitions t) (th_Es t) i pa local)
  (* and so is every point of the grid of energy transfers *)
  /\ ((N.of_nat (length (th_betas t)) < 2 ^ 64)%N ->
      (N.of_nat (length (th_alpha_partitions t)) < 2 ^ 64)%N ->
      forall i, (i < length (th_betas t))%nat -> exists pa local,
      locate_partition (th_alpha_partitions t) (th_alpha_ends t) (N.of_nat i) = Ok (pa, N.of_nat local)
      /\ holds_point (th_alpha_partitions t) (th_betas t) i pa local).
Proof. exact C72_partitions_proof. Qed.
Print Assumptions C72_partitions.

(** Two partitions of the energies 1, 2, 3 and two of the transfers 0, 1, 2. *)
Example C72_case :
  let X := text_ext XRa
    [("one", ([[Fin 1]], [Fin 1])); ("two", ([[Fin 1; Fin 10]; [Fin 0]], [Fin 1; Fin 1]));
     ("a", ([[Fin 1]; [Fin 0]; [Fin 0]], [Fin 1]));
     ("b", ([[Fin 2; Fin 3]; [Fin 0]; [Fin 0]], [Fin 1; Fin 1]));
     ("c", ([[Fin 0; Fin 1]; [Fin 0]; [Fin 0]], [Fin 1; Fin 1]));
     ("d", ([[Fin 2]; [Fin 0]; [Fin 0]], [Fin 1]))] in
  let part g f := Elem "partition" [("CDF", "two"); ("S", "one"); (g, f)] [] "" in
  let n := Some (mkH (Elem "tnsl" [("majorant", "one"); ("total_T", "two"); ("total_S", "one");
                               ("total_E", "two")]
                    [Elem "beta_partitions" [] [part "E_T" "a"; part "E_T" "b"] "";
                     Elem "alpha_partitions" [] [part "beta_T" "c"; part "beta_T" "d"] ""] "") []) in
  exists t, thermal_create X n = Ok t /\ th_Es t = map Fin [1; 2; 3]
    /\ th_betas t = map Fin [0; 1; 2] /\ length (th_beta_partitions t) = 2%nat
    /\ length (th_alpha_partitions t) = 2%nat.
Proof. cbv zeta. eexists. split; [reflexivity|]. repeat split; reflexivity. Qed.

(** C73: see C41, C69 and C72 for the choice of the table and of the accepted
    candidate. *)
Theorem C73_beta :
  forall (G : Rng XRa) (t : thermal XRa) pa Fs grid Ts W k (T : R) vs (cut E_s : R) (s : rst G) n,
  valid_rng G ->
  (* a partition with the cumulative probabilities Fs, and its values at the k-th
     energy E_s and temperature T *)
  partition_table pa Fs grid Ts W -> (k < length grid)%nat -> increasing Ts -> 0 < T ->
  nth 0 Ts 0 <= T < last Ts 0 -> values_at W Fs Ts k T vs -> increasing (0 :: Fs ++ [1]) ->
  th_beta_cutoff t = Fin cut ->
  (* the candidate of C41 for the n-th random number u is the value of the completed
     curve at u *)
  exists u b, draw G n s = Fin u
    /\ joined (0 :: Fs ++ [1]) (- E_s / (k_B * T) :: vs ++ [cut]) u b
    /\ sample_beta_candidate (A := XRa) t pa (N.of_nat k) (Fin E_s) (Fin T) (draw G n s) = Ok (Fin b).
Proof. exact C73_beta_proof. Qed.
Print Assumptions C73_beta.
Theorem C73_alpha :
  forall (G : Rng XRa) (t : thermal XRa) (p p1 : particle XRa G) pa Fs grid Ts W i k
    (awr T E b g b_s : R) vs cut u,
  valid_rng G -> th_awr t = Fin awr -> 0 < awr -> 0 < E -> 0 < T -> 0 <= E + b * k_B * T ->
  (* the grid transfer drawn, with the sign of b, and its tables *)
  choose_beta_index (A := XRa) t p (Fin b) (Fin E) (Fin T) = Ok (i, p1) ->
  vec_at (th_betas t) i = Ok (Fin g : num XRa) ->
  (0 < b /\ b_s = g) \/ (b < 0 /\ b_s = - g) \/ (b = 0 /\ b_s = 0) ->
  locate_partition (th_alpha_partitions t) (th_alpha_ends t) i = Ok (pa, N.of_nat k) ->
  partition_table pa Fs grid Ts W -> (k < length grid)%nat -> increasing Ts ->
  nth 0 Ts 0 <= T < last Ts 0 -> values_at W Fs Ts k T vs ->
  th_alpha_cutoff t = Fin cut ->
  increasing (0 :: Fs ++ [1]) -> increasing (0 :: vs ++ [cut]) ->
  (* the grid transfer is possible and its momentum transfers are tabulated *)
  0 < E + b_s * k_B * T ->
  let lo := alpha_min awr T E (E + b_s * k_B * T) in
  let hi := alpha_max awr T E (E + b_s * k_B * T) in
  hi < cut ->
  (* the next random number *)
  draw G 0 (p_rng p1) = Fin u -> 0 < u ->
  let cdf := joined (0 :: vs ++ [cut]) (0 :: Fs ++ [1]) in
  exists F_lo F_hi a, cdf lo F_lo /\ cdf hi F_hi
    (* picks a momentum transfer from the part of the distribution between the limits *)
    /\ lo < a < hi /\ cdf a (F_lo + u * (F_hi - F_lo))
    (* which is moved in proportion to the limits at b *)
    /\ let lo' := alpha_min awr T E (E + b * k_B * T) in
       let hi' := alpha_max awr T E (E + b * k_B * T) in
       sample_alpha (A := XRa) t p (Fin b) (Fin E) (Fin T)
       = Ok (Fin (lo' + (a - lo) * (hi' - lo') / (hi - lo)), set_rng p1 (advance G 1 (p_rng p1))).
Proof. exact C73_alpha_proof. Qed.
Print Assumptions C73_alpha.

Example C73_case :
  valid_rng half_rng
  /\ partition_table (toy_partition [0; 1] 1) [1 / 2] [0; 1] [T_one; 2 * T_one] (fun _ _ _ => 1)
  /\ increasing [T_one; 2 * T_one] /\ nth 0 [T_one; 2 * T_one] 0 <= T_one < last [T_one; 2 * T_one] 0
  /\ values_at (fun _ _ _ => 1) [1 / 2] [T_one; 2 * T_one] 0 T_one [1]
  /\ increasing (0 :: [1 / 2] ++ [1])%list /\ th_beta_cutoff (toy 0 [0; 1]) = Fin 10
  /\ choose_beta_index (A := XRa) (toy 0 [0; 1]) toy_particle (Fin 0) (Fin (1 / 2)) (Fin T_one)
     = Ok (0%N, toy_particle)
  /\ vec_at (th_betas (toy 0 [0; 1])) 0 = Ok (Fin 0 : num XRa)
  /\ locate_partition (th_alpha_partitions (toy 0 [0; 1])) (th_alpha_ends (toy 0 [0; 1])) 0
     = Ok (toy_partition [0; 1] 1, 0%N)
  /\ th_alpha_cutoff (toy 0 [0; 1]) = Fin 3 /\ increasing (0 :: [1] ++ [3])%list
  /\ alpha_max 1 T_one (1 / 2) (1 / 2 + 0 * k_B * T_one) < 3
  /\ draw half_rng 0 (p_rng toy_particle) = Fin (1 / 2).
Proof.
  pose proof T_one_pos as PT. split; [exact (open_valid _ half_open)|]. split; [apply toy_table|].
  split; [cbn; lra|]. split; [cbn; lra|]. split.
  { split; [reflexivity|]. intros i Hi. cbn in Hi. assert (i = O) as -> by lia. cbn [nth].
    assert (C : chord T_one 1 (2 * T_one) 1 T_one = 1) by (unfold chord; field; lra).
    pose proof (in_between [T_one; 2 * T_one] (fun _ => 1) T_one 0 ltac:(cbn; lia) ltac:(cbn; lra)) as Q.
    cbn [nth] in Q. rewrite C in Q. exact Q. }
  split; [cbn; lra|]. split; [reflexivity|]. split; [apply toy_choice|]. split; [reflexivity|].
  split; [apply (toy_locate [0; 1] 1 0); cbn; lia|]. split; [reflexivity|]. split; [cbn; lra|].
  split; [|exact (half_draw 0 (p_rng toy_particle))].
  unfold alpha_max. replace (1 / 2 + 0 * k_B * T_one) with (1 / 2) by ring.
  rewrite Rmult_1_l, kT_one. replace ((sqrt (1 / 2) + sqrt (1 / 2)) ^ 2) with (4 * (sqrt (1 / 2) * sqrt (1 / 2))) by ring.
  rewrite sqrt_sqrt by lra. lra.
Qed.
