(** Property C90: multigroup collisions in double precision. *)
From Coq Require Import Bool String List Reals ZArith NArith SpecFloat.
From Verif Require Import Model.Num Model.Outcome Model.Rng Model.Xml Model.Std Model.Point
  Model.Types Model.Particle Model.Multigroup
  Spec.SumSpec Spec.RngSpec Spec.DoubleSpec Spec.MultigroupSpec Spec.DoubleGroupSpec
  Proofs.SampleDouble Proofs.SampleGroups Proofs.DoubleGroups.
Import ListNotations.
Local Open Scope R_scope.

(** C90: with the program's generator and binary64 arithmetic, a collision always has an
    outcome, a reaction without cross section never happens, and a reaction happens for
    the random numbers of its share of the exact total, up to one part in 2^34. *)
Theorem C90_reaction :
  forall (L : Libm) (X : Ext (F64 L)) n m (p : particle (F64 L) (Minstd (F64 L))) g,
  multigroup_create X n = Ok m -> sensible_doubles X n ->
  In g (groups (written_groups X n)) -> p_energy p = Group g ->
  let c := sigma64 X n Rcapture g in
  let s := sigma64 X n Rscatter g in
  let f := sigma64 X n Rfission g in
  let T := c + s + f in
  let u := value (draw (Minstd (F64 L)) 0 (p_rng p)) in
  powerRZ 2 (-900) <= T ->
  exists q, mg_interact m p = Ok q /\
    (p_event q = capture /\ 0 < c /\ u * T <= c + slack * T
     \/ p_event q = scatter /\ 0 < s /\ c - slack * T <= u * T <= c + s + slack * T
     \/ p_event q = fission /\ 0 < f /\ c + s - slack * T <= u * T).
Proof. exact C90_reaction_proof. Qed.
Print Assumptions C90_reaction.
(** A scattered neutron always gets a group of positive probability; the random numbers of
    a group are those of its share of the exact column, up to one part in 2^34. *)
Theorem C90_scatter :
  forall (L : Libm) (X : Ext (F64 L)) n m (p q : particle (F64 L) (Minstd (F64 L))) g,
  multigroup_create X n = Ok m -> sensible_doubles X n ->
  In g (groups (written_groups X n)) -> p_energy p = Group g ->
  powerRZ 2 (-900) <= sigma64 X n Rcapture g + sigma64 X n Rscatter g + sigma64 X n Rfission g ->
  mg_interact m p = Ok q -> p_event q = scatter ->
  let w := weight64 X n (scatter_node n) in
  let below h := column_below64 X n (scatter_node n) h g in
  let s := column_sum64 X n (scatter_node n) g in
  let v := value (draw (Minstd (F64 L)) 1 (p_rng p)) in
  exists h, In h (groups (written_groups X n)) /\ p_energy q = Group h
    /\ 0 < w h g
    /\ below h - slack * s <= v * s <= below h + w h g + slack * s
    /\ is_alive q = true /\ same_place p q /\ p_secondaries q = p_secondaries p
    /\ exists r, p_direction q = fst (dir_isotropic (Minstd (F64 L)) r).
Proof. exact C90_scatter_proof. Qed.
Print Assumptions C90_scatter.
(** A fission emits the average yield rounded down or up, and every one of the neutrons gets
    a group of positive probability. A column of zeros in the spectrum loses them all. *)
Theorem C90_fission :
  forall (L : Libm) (X : Ext (F64 L)) n m (p q : particle (F64 L) (Minstd (F64 L))) g,
  multigroup_create X n = Ok m -> sensible_doubles X n ->
  In g (groups (written_groups X n)) -> p_energy p = Group g ->
  powerRZ 2 (-900) <= sigma64 X n Rcapture g + sigma64 X n Rscatter g + sigma64 X n Rfission g ->
  mg_interact m p = Ok q -> p_event q = fission ->
  let nu := value (vector_entry X (nubar_node n) g) in
  let u := value (draw (Minstd (F64 L)) 1 (p_rng p)) in
  exists new, p_secondaries q = (p_secondaries p ++ new)%list
    /\ (0 < column_sum64 X n (chi_node n) g ->
        INR (length new) <= nu + u + slack /\ nu + u < INR (length new) + 1 + slack
        /\ (Int_part nu <= Z.of_nat (length new) <= Int_part nu + 1)%Z)
    /\ (column_sum64 X n (chi_node n) g = 0 -> new = [])
    /\ List.Forall (fun s => exists h, begun_at p s h /\ In h (groups (written_groups X n))
         /\ 0 < weight64 X n (chi_node n) h g) new
    /\ is_alive q = false /\ same_place p q.
Proof. exact C90_fission_proof. Qed.
Print Assumptions C90_fission.

(** Data with rounded entries, and a collision of each kind with it. *)
Example C90_case : sensible_doubles fuel_ext fuel_node
  /\ groups (written_groups fuel_ext fuel_node) = [1; 2]%N
  /\ (powerRZ 2 (-900) <= sigma64 fuel_ext fuel_node Rcapture 1 + sigma64 fuel_ext fuel_node Rscatter 1
                      + sigma64 fuel_ext fuel_node Rfission 1
      /\ 0 < column_sum64 fuel_ext fuel_node (chi_node fuel_node) 1)
  /\ exists m, multigroup_create fuel_ext fuel_node = Ok m
  /\ (exists p q : particle D64 (Minstd D64), p_energy p = Group 1 /\ mg_interact m p = Ok q /\ p_event q = capture)
  /\ (exists p q : particle D64 (Minstd D64), p_energy p = Group 1 /\ mg_interact m p = Ok q /\ p_event q = scatter)
  /\ (exists p q : particle D64 (Minstd D64), p_energy p = Group 1 /\ mg_interact m p = Ok q
        /\ p_event q = fission /\ p_secondaries p = [] /\ length (p_secondaries q) = 3%nat).
Proof. exact (conj fuel_sensible (conj fuel_groups (conj fuel_heavy fuel_collisions))). Qed.
