(** Thermal scattering: src/ThermalScattering.cpp. *)
From Coq Require Import Bool String List ZArith NArith.
From Verif Require Import Model.Num Model.Outcome Model.Rng Model.Xml Model.Std Model.Point
  Model.Surface Model.Types Model.Bins Model.Field Model.Tables Model.Particle.
Import ListNotations.
Local Open Scope string_scope.
Local Open Scope bool_scope.
Local Open Scope num_scope.
Local Open Scope outcome_scope.

Section Thermal.
  Context {A : Arith} {G : Rng A}.
  Notation particle := (particle A G).

  (** BetaPartition and AlphaPartition constructors, ThermalScattering.cpp:177-181
      and 219-223; [grid] is the attribute E_T or beta_T. *)
  Definition partition_create (X : Ext A) (grid : string) (n : node)
      : outcome (partition A) :=
    let! cdf := dataset_load X 2 (as_string (n_attr n "CDF")) in
    let! s := dataset_load X 1 (as_string (n_attr n "S")) in
    let! g := dataset_load X 3 (as_string (n_attr n grid)) in
    Ok (mkPartition cdf s g).

  (** The concatenated grids Es (ThermalScattering.cpp:40-53) and betas (73-86).
      The monotonicity asserts are compiled out. *)
  Definition concat_axes (ps : list (partition A)) : outcome (list (num A)) :=
    let! axes := mapM (fun pa => ds_axis (pa_grid pa) 0) ps in
    Ok (List.concat axes).

  (** The ends of the partitions, ThermalScattering.cpp:55-63 and 88-96. *)
  Fixpoint running_ends (current : N) (sizes : list N) : list N :=
    match sizes with
    | [] => []
    | s :: t => (current + s)%N :: running_ends (current + s)%N t
    end.
  Definition partition_ends (ps : list (partition A)) : outcome (list N) :=
    let! axes := mapM (fun pa => ds_axis (pa_grid pa) 0) ps in
    Ok (running_ends 0 (map (fun a => N.of_nat (length a)) axes)).

  (** Constructor, ThermalScattering.cpp:25-99 (noexcept), with the member
      initialiser of cutoff_energy, ThermalScattering.hpp:125-126: [back()] of an
      empty axis is undefined. *)
  Definition thermal_create (X : Ext A) (n : node) : outcome (thermal A) :=
    noexcept
      (let! majorant := load_map1 X (as_string (n_attr n "majorant")) in
       let! xs_T := dataset_load X 2 (as_string (n_attr n "total_T")) in
       let! xs_S := dataset_load X 1 (as_string (n_attr n "total_S")) in
       let! xs_E := dataset_load X 2 (as_string (n_attr n "total_E")) in
       let! betap := mapM (partition_create X "E_T") (n_children (n_child n "beta_partitions")) in
       let! Es := concat_axes betap in
       let! beta_ends := partition_ends betap in
       let! alphap := mapM (partition_create X "beta_T")
                           (n_children (n_child n "alpha_partitions")) in
       let! betas := concat_axes alphap in
       let! alpha_ends := partition_ends alphap in
       let! E_axis := ds_axis xs_E 0 in
       match rev E_axis with
       | [] => UB
       | cutoff :: _ =>
           Ok (mkThermal majorant xs_T xs_S xs_E betap Es beta_ends alphap betas alpha_ends
                 (as_double X (n_attr n "beta_cutoff"))
                 (as_double X (n_attr n "alpha_cutoff"))
                 (as_double X (n_attr (n_parent (n_parent (n_parent n))) "awr"))
                 cutoff)
       end).

  (** IsValid, ThermalScattering.cpp:101-104 *)
  Definition th_is_valid (t : thermal A) (p : particle) : outcome bool :=
    noexcept
      (let! E := get_continuous (p_energy p) in
       Ok (ptype_eqb (p_type p) neutron && (E <? th_cutoff_energy t))).

  (** GetMajorant, ThermalScattering.cpp:106-109 *)
  Definition th_get_majorant (t : thermal A) (p : particle) : outcome (num A) :=
    noexcept (let! E := get_continuous (p_energy p) in cm1_at (th_majorant t) E).

  (** EvaluateInelastic, ThermalScattering.cpp:260-269 *)
  Definition evaluate_inelastic (t : thermal A) (E_index T_index : N) : outcome (num A) :=
    noexcept
      (let! axis := ds_axis (th_xs_S t) 0 in
       foldM (fun result order =>
                let o := N.of_nat order in
                let! s := ds_at (th_xs_S t) [o] in
                let! e := ds_at (th_xs_E t) [E_index; o] in
                let! x := ds_at (th_xs_T t) [T_index; o] in
                Ok (result + s * e * x)) (seq 0 (length axis)) (#0)).

  (** The choice of neighbouring temperature indices, ThermalScattering.cpp:127-135
      (also 188-196, 229-237): (above_T_max, T_hi_i, below_T_min, T_lo_i). *)
  Definition temperature_indices (T : num A) (Ts : list (num A))
      : outcome (bool * N * bool * N) :=
    let! c := upper_bound T Ts in
    let candidate := N.of_nat c in
    let above := (candidate =? N.of_nat (length Ts))%N in
    let hi := if above then sub64 candidate 1 else candidate in
    let below := (hi =? 0)%N in
    let lo := if below then hi else sub64 hi 1 in
    Ok (above, hi, below, lo).

  (** GetTotal, ThermalScattering.cpp:111-157 *)
  Definition th_get_total (t : thermal A) (p : particle) : outcome (num A) :=
    noexcept
      (let! E := get_continuous (p_energy p) in
       let! Es := ds_axis (th_xs_E t) 0 in
       let! E_hi := upper_bound E Es in
       let E_hi_i := N.of_nat E_hi in
       let below_E_min := (E_hi_i =? 0)%N in
       let E_lo_i := if below_E_min then E_hi_i else sub64 E_hi_i 1 in
       let! c := get_cell p in
       let T := field_at (c_temperature c) (p_position p) in
       let! Ts := ds_axis (th_xs_T t) 0 in
       let! idx := temperature_indices T Ts in
       let '(above_T_max, T_hi_i, below_T_min, T_lo_i) := idx in
       let! xs_lo_lo := evaluate_inelastic t E_lo_i T_lo_i in
       let! xs_lo_hi := evaluate_inelastic t E_lo_i T_hi_i in
       let! xs_hi_lo := evaluate_inelastic t E_hi_i T_lo_i in
       let! xs_hi_hi := evaluate_inelastic t E_hi_i T_hi_i in
       let! E_lo_v := vec_at Es E_lo_i in
       let! E_hi_v := vec_at Es E_hi_i in
       let r_E := if below_E_min then #1 else (E - E_lo_v) / (E_hi_v - E_lo_v) in
       let xs_T_lo := xs_lo_lo + r_E * (xs_hi_lo - xs_lo_lo) in
       let xs_T_hi := xs_lo_hi + r_E * (xs_hi_hi - xs_lo_hi) in
       let! T_lo := vec_at Ts T_lo_i in
       let! T_hi := vec_at Ts T_hi_i in
       let r_T := if below_T_min then #1
                  else if above_T_max then #0
                  else (T - T_lo) / (T_hi - T_lo) in
       Ok (xs_T_lo + r_T * (xs_T_hi - xs_T_lo))).

  (** AlphaPartition::Evaluate, ThermalScattering.cpp:225-256; the body of
      BetaPartition::Evaluate (183-215) is the same but noexcept. *)
  Definition partition_evaluate (pa : partition A) (cdf_index grid_index : N) (T : num A)
      : outcome (num A) :=
    let! Ts := ds_axis (pa_grid pa) 1 in
    let! idx := temperature_indices T Ts in
    let '(_, T_hi_i, _, T_lo_i) := idx in
    let! axis := ds_axis (pa_singular pa) 0 in
    let! hl := foldM (fun hl order =>
                        let o := N.of_nat order in
                        let! s := ds_at (pa_singular pa) [o] in
                        let! c := ds_at (pa_cdf pa) [cdf_index; o] in
                        let! g_hi := ds_at (pa_grid pa) [grid_index; T_hi_i; o] in
                        let! g_lo := ds_at (pa_grid pa) [grid_index; T_lo_i; o] in
                        Ok (fst hl + s * c * g_hi, snd hl + s * c * g_lo))
                     (seq 0 (length axis)) (#0, #0) in
    let (v_hi, v_lo) := (hl : num A * num A) in
    let! T_hi := vec_at Ts T_hi_i in
    let! T_lo := vec_at Ts T_lo_i in
    Ok (v_lo + (v_hi - v_lo) / (T_hi - T_lo) * (T - T_lo)).
  Definition beta_evaluate (pa : partition A) (cdf_index grid_index : N) (T : num A)
      : outcome (num A) :=
    noexcept (partition_evaluate pa cdf_index grid_index T).

  (** Partition that holds a sampled grid index and the index local to it,
      ThermalScattering.cpp:292-300 and 381-390. *)
  Definition locate_partition (ps : list (partition A)) (ends : list N) (i : N)
      : outcome (partition A * N) :=
    let! P := upper_bound_N i ends in
    let P_i := N.of_nat P in
    let! pa := vec_at ps P_i in
    let! local :=
      if (P_i =? 0)%N then Ok i
      else let! e := vec_at ends (sub64 P_i 1) in Ok (sub64 i e) in
    Ok (pa, local).

  (** The body of the resampling loop of SampleBeta, ThermalScattering.cpp:304-326 *)
  Definition sample_beta_candidate (t : thermal A) (pa : partition A) (local : N)
      (E_s T F : num A) : outcome (num A) :=
    let! Fs := ds_axis (pa_cdf pa) 0 in
    let! F_hi := upper_bound F Fs in
    let F_hi_i := N.of_nat F_hi in
    let size := N.of_nat (length Fs) in
    let! F_lo_v := if (F_hi_i =? 0)%N then Ok (#0) else vec_at Fs (sub64 F_hi_i 1) in
    let! F_hi_v := if (F_hi_i =? size)%N then Ok (#1) else vec_at Fs F_hi_i in
    let! b_lo := if (F_hi_i =? 0)%N then Ok (- E_s / (boltzmann * T))
                 else beta_evaluate pa (sub64 F_hi_i 1) local T in
    let! b_hi := if (F_hi_i =? size)%N then Ok (th_beta_cutoff t)
                 else beta_evaluate pa F_hi_i local T in
    Ok (b_lo + (F - F_lo_v) / (F_hi_v - F_lo_v) * (b_hi - b_lo)).

  (** The resampling loop, ThermalScattering.cpp:302-338 *)
  Fixpoint sample_beta_loop (n : nat) (t : thermal A) (pa : partition A) (local : N)
      (E E_s T : num A) (p : particle) : outcome (num A * particle) :=
    match n with
    | O => Throw "Number of thermal scattering beta resamples exceeded limit: 10"
    | S n' =>
        let (F, p1) := p_unif p in
        let! b_prime := sample_beta_candidate t pa local E_s T F in
        let b_min := - E / (boltzmann * T) in
        if b_min <=? b_prime then Ok (b_prime, p1)
        else sample_beta_loop n' t pa local E E_s T p1
    end.

  (** The choice of an energy grid point in SampleBeta, ThermalScattering.cpp:274-289 *)
  Definition choose_energy_index (t : thermal A) (p : particle) (E : num A)
      : outcome (N * particle) :=
    let! E_hi := upper_bound E (th_Es t) in
    let E_hi_i := N.of_nat E_hi in
    let! r := if (E_hi_i =? 0)%N then Ok (#1)
              else
                let! lo := vec_at (th_Es t) (sub64 E_hi_i 1) in
                let! hi := vec_at (th_Es t) E_hi_i in
                Ok ((E - lo) / (hi - lo)) in
    let (u, p1) := p_unif p in
    Ok (if r <=? u then sub64 E_hi_i 1 else E_hi_i, p1).

  (** SampleBeta, ThermalScattering.cpp:271-338 *)
  Definition sample_beta (t : thermal A) (p : particle) (E T : num A)
      : outcome (num A * particle) :=
    let! ip := choose_energy_index t p E in
    let (E_s_i, p1) := (ip : N * particle) in
    let! E_s := vec_at (th_Es t) E_s_i in
    let! pl := locate_partition (th_beta_partitions t) (th_beta_ends t) E_s_i in
    let (pa, local) := (pl : partition A * N) in
    sample_beta_loop beta_resample_limit t pa local E E_s T p1.

  (** sgn_b as a Real, ThermalScattering.cpp:346 *)
  Definition sign_of (b : num A) : Z :=
    Z.sub (if #0 <? b then 1%Z else 0%Z) (if b <? #0 then 1%Z else 0%Z).

  (** The lambda find_cdf, ThermalScattering.cpp:395-418 *)
  Definition find_cdf (t : thermal A) (pa : partition A) (local : N) (T a : num A)
      : outcome (num A) :=
    let! Fs := ds_axis (pa_cdf pa) 0 in
    let! F_hi := upper_bound_gen
                   (fun i => let! v := partition_evaluate pa (N.of_nat i) local T in
                             Ok (a <? v)) (length Fs) in
    let F_hi_i := N.of_nat F_hi in
    let size := N.of_nat (length Fs) in
    let! F_lo_v := if (F_hi_i =? 0)%N then Ok (#0) else vec_at Fs (sub64 F_hi_i 1) in
    let! F_hi_v := if (F_hi_i =? size)%N then Ok (#1) else vec_at Fs F_hi_i in
    let! a_lo := if (F_hi_i =? 0)%N then Ok (#0)
                 else partition_evaluate pa (sub64 F_hi_i 1) local T in
    let! a_hi := if (F_hi_i =? size)%N then Ok (th_alpha_cutoff t)
                 else partition_evaluate pa F_hi_i local T in
    Ok (F_lo_v + (a - a_lo) * (F_hi_v - F_lo_v) / (a_hi - a_lo)).

  (** The candidate alpha of one resampling turn, ThermalScattering.cpp:430-448 *)
  Definition sample_alpha_candidate (t : thermal A) (pa : partition A) (local : N)
      (T F : num A) : outcome (num A) :=
    let! Fs := ds_axis (pa_cdf pa) 0 in
    let! F_hi := upper_bound F Fs in
    let F_hi_i := N.of_nat F_hi in
    let size := N.of_nat (length Fs) in
    let! F_lo_v := if (F_hi_i =? 0)%N then Ok (#0) else vec_at Fs (sub64 F_hi_i 1) in
    let! F_hi_v := if (F_hi_i =? size)%N then Ok (#1) else vec_at Fs F_hi_i in
    let! a_lo := if (F_hi_i =? 0)%N then Ok (#0)
                 else partition_evaluate pa (sub64 F_hi_i 1) local T in
    let! a_hi := if (F_hi_i =? size)%N then Ok (th_alpha_cutoff t)
                 else partition_evaluate pa F_hi_i local T in
    Ok (a_lo + (F - F_lo_v) / (F_hi_v - F_lo_v) * (a_hi - a_lo)).

  (** The kinematic limits of alpha at a given beta, ThermalScattering.cpp:371-376
      and 453-455. *)
  Definition alpha_limits (t : thermal A) (b E T : num A) : num A * num A :=
    let sqrt_E := nsqrt A E in
    let s := nsqrt A (E + b * boltzmann * T) in
    let akT := th_awr t * boltzmann * T in
    (npow A (sqrt_E - s) (#2) / akT, npow A (sqrt_E + s) (#2) / akT).

  (** The resampling loop, ThermalScattering.cpp:424-463 *)
  Fixpoint sample_alpha_loop (n : nat) (t : thermal A) (pa : partition A) (local : N)
      (b E T a_min a_max F_min F_max : num A) (p : particle)
      : outcome (num A * particle) :=
    match n with
    | O => Throw "Number of thermal scattering alpha resamples exceeded limit: 10"
    | S n' =>
        let (u, p1) := p_unif p in
        let F := F_min + u * (F_max - F_min) in
        let! a_prime := sample_alpha_candidate t pa local T F in
        if (a_min <? a_prime) && (a_prime <? a_max) then
          let (b_a_min, b_a_max) := alpha_limits t b E T in
          Ok (b_a_min + (a_prime - a_min) * (b_a_max - b_a_min) / (a_max - a_min), p1)
        else sample_alpha_loop n' t pa local b E T a_min a_max F_min F_max p1
    end.

  (** The interpolation factor of the beta grid, ThermalScattering.cpp:355-365,
      with the parentheses as written. *)
  Definition beta_grid_factor (t : thermal A) (b E T : num A) (b_hi_i : N)
      : outcome (num A) :=
    let abs_b := nabs A b in
    let sgn := sign_of b in
    let! snap_to_lower :=
      if Z.eqb sgn 1 then
        let! v := vec_at (th_betas t) b_hi_i in Ok (th_beta_cutoff t <=? v)
      else if Z.eqb sgn (-1) then
        let! v := vec_at (th_betas t) b_hi_i in Ok (- v <? - E / (boltzmann * T))
      else Ok false in
    if (snap_to_lower : bool) then Ok (#0)
    else if (b_hi_i =? 0)%N then Ok (#1)
    else
      let! lo := vec_at (th_betas t) (sub64 b_hi_i 1) in
      let! hi := vec_at (th_betas t) b_hi_i in
      Ok (abs_b - lo / (hi - lo)).

  (** The choice of a beta grid point in SampleAlpha, ThermalScattering.cpp:344-367 *)
  Definition choose_beta_index (t : thermal A) (p : particle) (b E T : num A)
      : outcome (N * particle) :=
    let! b_hi := upper_bound (nabs A b) (th_betas t) in
    let b_hi_i := N.of_nat b_hi in
    let! r := beta_grid_factor t b E T b_hi_i in
    let (u, p1) := p_unif p in
    Ok (if r <=? u then sub64 b_hi_i 1 else b_hi_i, p1).

  (** SampleAlpha, ThermalScattering.cpp:340-463 *)
  Definition sample_alpha (t : thermal A) (p : particle) (b E T : num A)
      : outcome (num A * particle) :=
    let! ip := choose_beta_index t p b E T in
    let (b_s_i, p1) := (ip : N * particle) in
    let! grid_b := vec_at (th_betas t) b_s_i in
    let b_s := nofZ A (sign_of b) * grid_b in
    let (a_min, a_max) := alpha_limits t b_s E T in
    let! pl := locate_partition (th_alpha_partitions t) (th_alpha_ends t) b_s_i in
    let (pa, local) := (pl : partition A * N) in
    let! F_min := find_cdf t pa local T a_min in
    let! F_max := find_cdf t pa local T a_max in
    sample_alpha_loop alpha_resample_limit t pa local b E T a_min a_max F_min F_max p1.

  (** Scatter, ThermalScattering.cpp:159-171 *)
  Definition th_scatter (t : thermal A) (p : particle) : outcome particle :=
    let! E := get_continuous (p_energy p) in
    let! c := get_cell p in
    let T := field_at (c_temperature c) (p_position p) in
    let! bp := sample_beta t p E T in
    let (beta, p1) := (bp : num A * particle) in
    let! ap := sample_alpha t p1 beta E T in
    let (alpha, p2) := (ap : num A * particle) in
    let E_p := E + beta * boltzmann * T in
    let mu := (E + E_p - alpha * th_awr t * boltzmann * T) / (#2 * nsqrt A (E * E_p)) in
    Ok (p_scatter p2 mu (ContinuousE E_p)).
End Thermal.
