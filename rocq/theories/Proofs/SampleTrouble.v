(** Problems whose runs are stopped: one with a hole in its geometry, read from a
    document, and one with a negative number of neutrons per fission. *)
From Coq Require Import Bool String List ZArith NArith Lia SpecFloat.
From Verif Require Import Model.Num Model.Outcome Model.Rng Model.Xml Model.Std Model.Point
  Model.Surface Model.Types Model.Bins Model.Field Model.Tables Model.Particle Model.Multigroup
  Model.Thermal Model.Continuous Model.Material Model.World Model.Perturbation Model.Estimator
  Model.Transport Model.Driver Spec.TextExt Spec.CellSpec Spec.TransportSpec Spec.TroubleSpec
  Proofs.OutcomeLib Proofs.SampleDocument Proofs.SampleDouble.
Import ListNotations.
Local Open Scope string_scope.

(** Multigroup problems can be checked. *)
Section Check.
  Context {A : Arith}.
  Definition fullb {V} (n : N) (l : list V) : bool := N.eqb (N.of_nat (length l)) n.
  Definition is_reaction (r : reaction) (x : reaction * list (num A)) : bool :=
    Nat.eqb (reaction_rank (fst x)) (reaction_rank r).
  Definition check_data (n : N) (mg : multigroup A) : bool :=
    (N.eqb (mg_max_group mg) n && N.ltb n (2 ^ 64) && fullb n (mg_total mg)
     && forallb (fun x => fullb n (snd x)) (mg_reactions mg)
     && (negb (existsb (is_reaction Rscatter) (mg_reactions mg))
         || match mg_scatter_probs mg with
            | Some l => fullb n l && forallb (fullb n) l
            | None => false
            end)
     && (negb (existsb (is_reaction Rfission) (mg_reactions mg))
         || match mg_nubar mg, mg_chi mg with
            | Some b, Some l => fullb n b && (fullb n l && forallb (fullb n) l)
            | _, _ => false
            end))%bool.
  Definition check_nuclide (n : N) (nu : nuclide A) : bool :=
    match find (fun x => ptype_eqb (fst x) neutron) (nu_xs nu) with
    | Some (neutron, IMultigroup mg) => check_data n mg
    | _ => false
    end.
  Definition check_cell (n : N) (c : cell A) : bool :=
    match c_material c with
    | None => true
    | Some m => match c_senses c with [] => false | _ => true end
                && forallb (fun x => check_nuclide n (fst x)) (m_afracs m)
    end%bool.
  Definition check_driver (n : N) (dr : driver (A := A)) : bool :=
    (forallb (check_cell n) (w_cells (dr_world dr))
     && ptype_eqb (so_type (dr_source dr)) neutron
     && match so_energy (dr_source dr) with
        | Group g => N.leb 1 g && N.leb g n
        | ContinuousE _ => false
        end
     && forallb (fun e => forallb (fun sn => existsb (fun pert => Nat.eqb (pt_id pert) (sn_pert sn))
                                                     (dr_perts dr)) (es_sens e))
                (ss_estimators (dr_init dr)))%bool.

  Lemma fullb_spec {V} n (l : list V) : fullb n l = true -> full n l.
  Proof. apply N.eqb_eq. Qed.
  Lemma fullb_all {V} n (l : list (list V)) : forallb (fullb n) l = true -> List.Forall (full n) l.
  Proof. intros H. rewrite forallb_forall in H. apply Forall_forall. intros y Hy. apply fullb_spec. auto. Qed.
  Lemma has_reaction r xs (l : list (reaction * list (num A))) :
    In (r, xs) l -> existsb (is_reaction r) l = true.
  Proof. intros H. apply existsb_exists. exists (r, xs). split; auto. apply Nat.eqb_refl. Qed.
  Lemma check_data_spec n mg : check_data n mg = true -> group_tables n mg.
  Proof.
    unfold check_data. rewrite !andb_true_iff. intros (((((H1 & H2) & H3) & H4) & H5) & H6).
    apply N.eqb_eq in H1. apply N.ltb_lt in H2. rewrite forallb_forall in H4. constructor.
    - auto.
    - now apply fullb_spec.
    - intros r xs Hin. apply fullb_spec. exact (H4 _ Hin).
    - intros xs Hin. rewrite (has_reaction _ _ _ Hin) in H5. cbn in H5.
      destruct (mg_scatter_probs mg) as [l|]; [|discriminate]. apply andb_true_iff in H5 as [E1 E2].
      exists l. split; auto. split; [now apply fullb_spec|now apply fullb_all].
    - intros xs Hin. rewrite (has_reaction _ _ _ Hin) in H6. cbn in H6.
      destruct (mg_nubar mg) as [b|]; [|discriminate]. destruct (mg_chi mg) as [l|]; [|discriminate].
      rewrite !andb_true_iff in H6. destruct H6 as (E1 & E2 & E3). exists b, l.
      split; auto. split; [now apply fullb_spec|]. split; auto. split; [now apply fullb_spec|now apply fullb_all].
  Qed.
  Lemma check_driver_spec n dr : check_driver n dr = true -> tabulated (Groups n) dr.
  Proof.
    unfold check_driver. rewrite !andb_true_iff. intros (((H1 & H2) & H3) & H4). constructor.
    - intros c m Hc Em. rewrite forallb_forall in H1. specialize (H1 c Hc). unfold check_cell in H1.
      rewrite Em in H1. apply andb_true_iff in H1 as [E1 E2]. split; [intros N; rewrite N in E1; discriminate|].
      intros nu a Hin. rewrite forallb_forall in E2. specialize (E2 _ Hin). unfold check_nuclide in E2.
      cbn [fst] in E2. unfold data_for.
      destruct (find _ _) as [[[|] [mg|co]]|] eqn:F; try discriminate E2.
      exists (IMultigroup mg). split; auto. now apply check_data_spec.
    - now destruct (so_type (dr_source dr)).
    - destruct (so_energy (dr_source dr)) as [e|g]; [discriminate|]. cbn.
      apply andb_true_iff in H3 as [E1 E2]. apply N.leb_le in E1, E2. auto.
    - intros e sn He Hs. rewrite forallb_forall in H4. specialize (H4 e He).
      rewrite forallb_forall in H4. specialize (H4 sn Hs). apply existsb_exists in H4 as (pert & Hp & E).
      apply Nat.eqb_eq in E. eauto.
  Qed.
End Check.

(** The sample problem without the void beyond its surface. *)
Definition hole_cells : xml :=
  group "cells"
    [Elem "cell" [("name", "slab"); ("material", "absorber")]
       [leaf "surface" [("name", "edge"); ("sense", "-1")]] ""].
Definition hole_problem : node :=
  document [double_general; slab_surfaces; slab_nuclides; slab_materials; hole_cells;
    slab_warmth; slab_perturbations; slab_estimators; group "problemtype" [double_source]].
Definition hole_driver : outcome (@driver D64) :=
  fixed_source_create (text_ext D64 []) hole_problem.
Definition stops (sv : @solver D64) : bool :=
  existsb (fun wk => match wk with Failed (Terminate | UB) => true | _ => false end) (sv_workers sv).
Lemma stops_spec sv : stops sv = true -> exists o, stopped sv o /\ o <> OutOfFuel.
Proof.
  unfold stops. intros H. apply existsb_exists in H as (wk & Hin & E).
  destruct wk as [| | |[| | | |]]; try discriminate E; eexists; (split; [exact Hin|discriminate]).
Qed.
Lemma hole_stops : exists dr, hole_driver = Ok dr /\ tabulated (Groups 1) dr
  /\ exists o, stopped (double_run dr alternate) o /\ o <> OutOfFuel.
Proof.
  assert (K : match hole_driver with Ok dr => (check_driver 1 dr && stops (double_run dr alternate))%bool
    | _ => false end = true) by (match goal with |- _ = ?r => vm_cast_no_check (eq_refl r) end).
  destruct hole_driver as [dr| | | |]; try discriminate K. exists dr. split; [reflexivity|].
  apply andb_true_iff in K as [K1 K2]. split; [now apply check_driver_spec|now apply stops_spec].
Qed.

(** A fissile slab given by energy whose number of neutrons per fission is negative. *)
Definition d64 (z : Z) : num D64 := f64_ofZ z.
Definition odd_xs : evaluation D64 := mkEval (A := D64) [(d64 1, d64 1)] (d64 300).
Definition odd_data : continuous D64 :=
  mkContinuous (A := D64) [CFission (A := D64) odd_xs (Some [(d64 1, d64 (-5))])] odd_xs.
Definition odd_nuclide : nuclide D64 := mkNuclide 0 "fuel" [(neutron, IContinuous odd_data)].
Definition odd_material : material D64 := mkMaterial (A := D64) "fuel" [(odd_nuclide, d64 1)] (d64 1).
Definition odd_edge : surf D64 := mkSurf 0 (mkSurface "edge" (PlaneX (d64 10))).
Definition odd_warmth : field D64 := constant_field (d64 300).
Definition odd_world : world D64 :=
  mkWorld [odd_edge] [odd_nuclide] [odd_material] odd_warmth
    [mkCell 0 "slab" [(odd_edge, true)] (Some odd_material) odd_warmth;
     mkCell 1 "" [(odd_edge, false)] None odd_warmth].
Definition odd_driver : @driver D64 :=
  mkDriver odd_world [] 4 1 (mkEstSet (A := D64) [] (d64 4)) 2 CellDeltaTracking
    (mkSource (mkPoint (d64 0) (d64 0) (d64 0))
       (DirConstant (mkPoint (d64 1) (d64 0) (d64 0))) (ContinuousE (d64 1)) neutron).
Lemma odd_stops : tabulated Pointwise odd_driver
  /\ exists o, stopped (double_run odd_driver alternate) o /\ o <> OutOfFuel.
Proof.
  split.
  - constructor.
    + intros c m [<-|[<-|[]]]; cbn; [|discriminate]. intros [= <-]. split; [discriminate|].
      intros nu a [[= <- _]|[]]. exists (IContinuous odd_data). split; [reflexivity|].
      split; [discriminate|]. constructor; [|constructor]. split; [discriminate|].
      eexists. split; [reflexivity|discriminate].
    + reflexivity.
    + exact I.
    + intros e sn [].
  - apply stops_spec. match goal with |- _ = ?r => vm_cast_no_check (eq_refl r) end.
Qed.
