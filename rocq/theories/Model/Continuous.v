(** Continuous-energy nuclear data: src/Continuous.cpp,
    src/ContinuousEvaluation.cpp, src/ContinuousReaction.cpp. *)
From Coq Require Import Bool String List ZArith NArith.
From Verif Require Import Model.Num Model.Outcome Model.Rng Model.Xml Model.Std Model.Point
  Model.Surface Model.Types Model.Bins Model.Field Model.Tables Model.Particle
  Model.Multigroup Model.Thermal.
Import ListNotations.
Local Open Scope string_scope.
Local Open Scope bool_scope.
Local Open Scope num_scope.
Local Open Scope outcome_scope.

Section Continuous.
  Context {A : Arith} {G : Rng A}.
  Notation particle := (particle A G).

  (** ContinuousEvaluation constructor, ContinuousEvaluation.cpp:11-15 *)
  Definition evaluation_create (X : Ext A) (n : node) : outcome (evaluation A) :=
    let! xs := load_map1 X (as_string (n_attr n "file")) in
    Ok (mkEval xs (as_double X (n_attr n "temperature"))).

  (** ContinuousEvaluation::IsValid, ContinuousEvaluation.cpp:17-20 *)
  Definition ev_is_valid (ev : evaluation A) (requested : num A) : bool :=
    let relative_error := (requested - ev_temperature ev) / ev_temperature ev in
    relative_error <? temperature_tolerance.

  (** ReadPandasSAB, ContinuousReaction.cpp:193-205 *)
  Definition read_sab (X : Ext A) (n : node) : outcome (option (thermal A)) :=
    if is_null n then Ok None
    else if negb (ptype_eqb (to_type (n_name (n_parent (n_parent n)))) neutron) then
      Throw (n_path n ++ ": Only neutrons may have a thermal scattering library node")
    else let! t := thermal_create X n in Ok (Some t).

  (** ContinuousReaction::Create and the constructors, ContinuousReaction.cpp:24-37,
      57-58, 68-71, 243-250 *)
  Definition creaction_create (X : Ext A) (n : node) : outcome (creaction A) :=
    let! r := to_reaction (n_name n) in
    match r with
    | Rcapture => let! ev := evaluation_create X n in Ok (CCapture ev)
    | Rscatter =>
        let! ev := evaluation_create X (n_child n "xs") in
        let! tsl := read_sab X (n_child n "tsl") in
        Ok (CScatter ev tsl (as_double X (n_attr (n_parent (n_parent n)) "awr")))
    | Rfission =>
        let! ev := evaluation_create X (n_child n "xs") in
        let! nubar := when_node (n_child n "nubar")
                        (fun m => load_map1 X (as_string (n_attr m "file"))) in
        Ok (CFission ev nubar)
    end.

  (** Continuous::CreateReactions, Continuous.cpp:74-85, and the constructor,
      Continuous.cpp:22-24 *)
  Definition continuous_create (X : Ext A) (n : node) : outcome (continuous A) :=
    let! rs := mapM (creaction_create X)
                 (filter (fun c => negb (String.eqb (n_name c) "total")) (n_children n)) in
    let! total := evaluation_create X (n_child n "total") in
    Ok (mkContinuous rs total).

  Definition cr_evaluation (r : creaction A) : evaluation A :=
    match r with CCapture ev | CScatter ev _ _ | CFission ev _ => ev end.

  (** [evaluation.xs.at(std::get<ContinuousEnergy>(p.GetEnergy()))] *)
  Definition ev_xs_at (ev : evaluation A) (p : particle) : outcome (num A) :=
    noexcept (let! E := get_continuous (p_energy p) in cm1_at (ev_xs ev) E).

  (** [tsl.has_value() && tsl->IsValid(p)] *)
  Definition tsl_applies (tsl : option (thermal A)) (p : particle) : outcome bool :=
    match tsl with Some t => th_is_valid t p | None => Ok false end.

  (** ModifiesTotal, ContinuousReaction.cpp:41-43 and 73-75 *)
  Definition cr_modifies_total (r : creaction A) (p : particle) : outcome bool :=
    match r with CScatter _ tsl _ => tsl_applies tsl p | _ => Ok false end.

  (** IsFreeGasScatteringValid, ContinuousReaction.cpp:207-223 *)
  Definition free_gas_valid (awr : num A) (p : particle) (T : num A) : outcome bool :=
    noexcept
      (if negb (ptype_eqb (p_type p) neutron) then Ok false
       else if awr <=? #1 then Ok true
       else
         let! E := get_continuous (p_energy p) in
         Ok (E <? #500 * boltzmann * T / awr)).

  (** GetFreeGasScatterAdjustment, ContinuousReaction.cpp:225-237 *)
  Definition free_gas_factor (awr E T : num A) : num A :=
    if T =? #0 then #1
    else
      let x := nsqrt A (E / (boltzmann * T)) in
      let arg := awr * x * x in
      (#1 + #1 / (#2 * arg)) * nerf A (nsqrt A arg) + nexp A (- arg) / nsqrt A (c_pi * arg).
  Definition free_gas_adjustment (awr : num A) (p : particle) (T : num A)
      : outcome (num A) :=
    noexcept
      (if T =? #0 then Ok (#1)
       else let! E := get_continuous (p_energy p) in Ok (free_gas_factor awr E T)).

  (** The part common to ContinuousScatter::GetMajorant
      (ContinuousReaction.cpp:82-95) and GetCrossSection (103-116) once the
      temperature is known. *)
  Definition scatter_xs_at (ev : evaluation A) (awr : num A) (p : particle) (T : num A)
      : outcome (num A) :=
    if ev_is_valid ev T then ev_xs_at ev p
    else
      let! fg := free_gas_valid awr p T in
      if (fg : bool) then
        let! xs := ev_xs_at ev p in
        let! a0 := free_gas_adjustment awr p (ev_temperature ev) in
        let! a1 := free_gas_adjustment awr p T in
        Ok (xs / a0 * a1)
      else ev_xs_at ev p.

  (** ContinuousReaction::GetMajorant 45-48, ContinuousScatter::GetMajorant 77-96 *)
  Definition cr_majorant (r : creaction A) (p : particle) : outcome (num A) :=
    match r with
    | CScatter ev tsl awr =>
        noexcept
          (let! b := tsl_applies tsl p in
           match (b : bool), tsl with
           | true, Some t => th_get_majorant t p
           | _, _ =>
               let! c := get_cell p in
               scatter_xs_at ev awr p (field_upper (c_temperature c))
           end)
    | _ => ev_xs_at (cr_evaluation r) p
    end.

  (** ContinuousReaction::GetCrossSection 50-53,
      ContinuousScatter::GetCrossSection 98-117 *)
  Definition cr_xs (r : creaction A) (p : particle) : outcome (num A) :=
    match r with
    | CScatter ev tsl awr =>
        noexcept
          (let! b := tsl_applies tsl p in
           match (b : bool), tsl with
           | true, Some t => th_get_total t p
           | _, _ =>
               let! c := get_cell p in
               scatter_xs_at ev awr p (field_at (c_temperature c) (p_position p))
           end)
    | _ => ev_xs_at (cr_evaluation r) p
    end.

  (** ReactionsModifyTotal, Continuous.cpp:87-91: [any_of] stops at the first. *)
  Fixpoint any_modifies (rs : list (creaction A)) (p : particle) : outcome bool :=
    match rs with
    | [] => Ok false
    | r :: t => let! b := cr_modifies_total r p in
                if (b : bool) then Ok true else any_modifies t p
    end.

  Definition sum_reactions (f : creaction A -> outcome (num A)) (rs : list (creaction A))
      : outcome (num A) :=
    foldM (fun acc r => let! x := f r in Ok (acc + x)) rs (#0).

  (** GetMajorant and GetTotal, Continuous.cpp:26-55, which differ in the
      temperature and in the function summed. *)
  Definition co_at_temperature (co : continuous A) (p : particle) (T : num A)
      (f : creaction A -> particle -> outcome (num A)) : outcome (num A) :=
    let! modifies := any_modifies (co_reactions co) p in
    if negb modifies && ev_is_valid (co_total co) T then ev_xs_at (co_total co) p
    else sum_reactions (fun r => f r p) (co_reactions co).
  Definition co_get_majorant (co : continuous A) (p : particle) : outcome (num A) :=
    noexcept (let! c := get_cell p in
              co_at_temperature co p (field_upper (c_temperature c)) cr_majorant).
  Definition co_get_total (co : continuous A) (p : particle) : outcome (num A) :=
    noexcept (let! c := get_cell p in
              co_at_temperature co p (field_at (c_temperature c) (p_position p)) cr_xs).

  (** The target-sampling loop of ContinuousScatter::Interact,
      ContinuousReaction.cpp:147-161. Returns x and mu. *)
  Fixpoint free_gas_target (fuel : nat) (y : num A) (p : particle)
      : outcome (num A * num A * particle) :=
    match fuel with
    | O => OutOfFuel
    | S fuel' =>
        let (xi_1, p1) := p_unif p in
        let (xi_2, p2) := p_unif p1 in
        let (test, p3) := p_unif p2 in
        let (x, p4) :=
          if test <? #2 / (nsqrt A c_pi * y + #2) then
            (nsqrt A (- nlog A (xi_1 * xi_2)), p3)
          else
            let (xi_3, p3') := p_unif p3 in
            let z := ncos A (c_pi * xi_3 / #2) in
            (nsqrt A (- nlog A xi_1 - nlog A xi_2 * z * z), p3') in
        let (u, p5) := p_unif p4 in
        let mu := #2 * u - #1 in
        let (acc, p6) := p_unif p5 in
        if acc >=? nsqrt A (x * x + y * y - #2 * x * y * mu) / (x + y)
        then free_gas_target fuel' y p6
        else Ok (x, mu, p6)
    end.

  (** The kinematics of a free-gas collision, ContinuousReaction.cpp:162-186, as a
      function of the sampled quantities. [d] is the incident direction, [s_n] the
      incident speed, [s_T] and [mu] the target's speed and cosine. Returns the
      lab-frame cosine and energy handed to Particle::Scatter. *)
  Definition free_gas_outgoing (awr : num A) (d : point A) (s_n s_T mu phi mu_cm phi_cm : num A)
      : num A * num A :=
    let v_n := pscale d s_n in
    let v_T := pscale (dir_rotate d mu phi) s_T in
    let v_cm := pdiv (padd v_n (pscale v_T awr)) (#1 + awr) in
    let V_n := psub v_n v_cm in
    let V_n_prime_direction := dir_rotate (dir_of_point V_n) mu_cm phi_cm in
    let V_n_prime := pscale V_n_prime_direction (nsqrt A (pdot V_n V_n)) in
    let v_n_prime := padd V_n_prime v_cm in
    let E_prime := ndec A 5 (-1) * neutron_mass * pdot v_n_prime v_n_prime in
    (pdot d (dir_of_point v_n_prime), E_prime).

  (** The free-gas branch of ContinuousScatter::Interact,
      ContinuousReaction.cpp:125-187 *)
  Definition free_gas_scatter (fuel : nat) (awr : num A) (p : particle) : outcome particle :=
    let! E := get_continuous (p_energy p) in
    let s_n := nsqrt A (#2 * E / neutron_mass) in
    let! c := get_cell p in
    let beta := nsqrt A ((awr * neutron_mass) /
                         (#2 * boltzmann * field_at (c_temperature c) (p_position p))) in
    let y := beta * s_n in
    let! xmp := free_gas_target fuel y p in
    let '(x, mu, p1) := xmp in
    let s_T := x / beta in
    let (u1, p2) := p_unif p1 in
    let phi := #2 * c_pi * u1 in
    let (u2, p3) := p_unif p2 in
    let mu_cm := #2 * u2 - #1 in
    let (u3, p4) := p_unif p3 in
    let phi_cm := #2 * c_pi * u3 in
    let (mu_lab, E_prime) := free_gas_outgoing awr (p_direction p4) s_n s_T mu phi mu_cm phi_cm in
    Ok (p_scatter p4 mu_lab (ContinuousE E_prime)).

  (** The loop over secondaries of ContinuousFission::Interact,
      ContinuousReaction.cpp:258-264 *)
  Fixpoint co_fission_loop (n : nat) (p : particle) : particle :=
    match n with
    | O => p
    | S n' =>
        let (d, s) := dir_isotropic G (p_rng p) in
        co_fission_loop n' (bank_secondary (set_rng p s) d (p_energy p))
    end.

  (** Interact: ContinuousReaction.cpp:60-62, 119-189, 252-265 *)
  Definition cr_interact (fuel : nat) (r : creaction A) (p : particle) : outcome particle :=
    noexcept
      (match r with
       | CCapture _ => Ok (set_event p capture)
       | CScatter _ tsl awr =>
           let p1 := set_event p scatter in
           let! b := tsl_applies tsl p1 in
           match (b : bool), tsl with
           | true, Some t => th_scatter t p1
           | _, _ => free_gas_scatter fuel awr p1
           end
       | CFission _ nubar =>
           let p1 := set_event p fission in
           let! nu_map := of_option nubar (Throw "bad_optional_access") in
           let! E := get_continuous (p_energy p1) in
           let! nu := cm1_at nu_map E in
           let (u, p2) := p_unif p1 in
           let! yield := to_yield (nu + u) in
           Ok (co_fission_loop (N.to_nat yield) p2)
       end).

  (** The selection loop of Continuous::Interact, Continuous.cpp:60-67 *)
  Fixpoint pick_creaction (rs : list (creaction A)) (p : particle) (acc threshold : num A)
      : outcome (option (creaction A)) :=
    match rs with
    | [] => Ok None
    | r :: t =>
        let! x := cr_xs r p in
        let acc' := acc + x in
        if acc' >? threshold then Ok (Some r) else pick_creaction t p acc' threshold
    end.

  (** Continuous::Interact, Continuous.cpp:57-70 *)
  Fixpoint co_interact (fuel : nat) (co : continuous A) (p : particle) : outcome particle :=
    match fuel with
    | O => OutOfFuel
    | S fuel' =>
        noexcept
          (let (u, p1) := p_unif p in
           let! total := co_get_total co p1 in
           let! sel := pick_creaction (co_reactions co) p1 (#0) (u * total) in
           match sel with
           | Some r => cr_interact fuel' r p1
           | None => co_interact fuel' co p1
           end)
    end.
End Continuous.
