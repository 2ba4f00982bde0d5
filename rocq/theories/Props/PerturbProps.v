(** Property C55: the indirect effect of a perturbation. *)
From Coq Require Import Bool String List Reals ZArith NArith Lra.
From Coquelicot Require Import Coquelicot.
From Verif Require Import Model.Num Model.Outcome Model.Rng Model.Xml Model.Std Model.Point
  Model.Surface Model.Types Model.Field Model.Particle Model.Material Model.World
  Model.Perturbation Model.Transport Spec.Vec Spec.SumSpec Spec.TransportSpec Spec.HistorySpec
  Spec.EstimatorSpec Spec.PerturbSpec
  Proofs.RealLib Proofs.RngProofs Proofs.GeometryProofs Proofs.SampleProblem Proofs.SampleTally
  Proofs.PerturbProofs.
Import ListNotations.
Local Open Scope string_scope.
Local Open Scope R_scope.

(** C55. The full statement: for every walk and its flights there is [x] with
    [indirect_effect (pt_id pert) q = Fin x /\ is_derive (log_density fs) 0 x].
    It holds for walks in materials of atom density one whose flights in the
    nuclide's materials end in collisions, with surface tracking, or with delta tracking
    in materials whose majorant is the total; C55_error gives the error of any other
    walk, and C55_surface_refuted a walk with a wrong effect. *)
Theorem C55_collisions_partial :
  forall (G : Rng XRa) t w pts pert (p q : particle XRa G) c visited fs,
  In pert pts -> NoDup (map pt_id pts) ->
  walk t w (set_cell (set_perturbations pts p) c) visited q ->
  flights t (pt_nuclide pert) (set_cell (set_perturbations pts p) c) visited fs ->
  (* missing: flights that end on a surface, atom densities other than one *)
  (forall f, In f fs -> fl_touched f = true -> fl_collided f = true /\ fl_atoms f = 1) ->
  exists x, indirect_effect (pt_id pert) q = Fin x /\ is_derive (log_density fs) 0 x.
Proof. exact C55_collisions_partial_proof. Qed.
Print Assumptions C55_collisions_partial.
Theorem C55_error :
  forall (G : Rng XRa) t w pts pert (p q : particle XRa G) c visited fs,
  In pert pts -> NoDup (map pt_id pts) ->
  walk t w (set_cell (set_perturbations pts p) c) visited q ->
  flights t (pt_nuclide pert) (set_cell (set_perturbations pts p) c) visited fs ->
  exists x y, indirect_effect (pt_id pert) q = Fin x /\ is_derive (log_density fs) 0 y
    /\ x - y = Rsum (map (fun f => if fl_touched f then
         (if fl_collided f then 0 else 1 / fl_total f) + (fl_atoms f - 1) * fl_length f
         else 0) fs).
Proof. exact C55_error_proof. Qed.
Print Assumptions C55_error.
Theorem C55_surface_refuted :
  exists (p q : particle XRa half_rng) fs x,
  walk SurfaceTracking slab_world (set_cell (set_perturbations [more] p) slab) [q] q
  /\ flights SurfaceTracking (pt_nuclide more) (set_cell (set_perturbations [more] p) slab) [q] fs
  /\ p_event q = leak
  /\ indirect_effect (pt_id more) q = Fin x /\ ~ is_derive (log_density fs) 0 x.
Proof. exact C55_surface_refuted_proof. Qed.
Print Assumptions C55_surface_refuted.

(** The neutron of the sample problem is captured after a flight of ln 2, with both tracking
    methods. *)
Example C55_case : forall t,
  exists q : particle XRa half_rng,
  let start := set_cell (set_perturbations [more] slab_start) slab in
  In more [more] /\ NoDup (map pt_id [more])
  /\ walk t slab_world start [q] q
  /\ flights t (pt_nuclide more) start [q] [mkFlight 1 1 (ln 2) true true].
Proof.
  intros t. set (start := set_cell (set_perturbations [more] slab_start) slab).
  assert (Hn : group_neutron [1]%N start) by (destruct start_neutron; constructor; auto).
  destruct (slab_step t 0 start) as (q & E & C & Pq & Cq & _); auto.
  exists q. cbv zeta. split; [now left|]. split; [repeat constructor; intros []|]. split.
  - apply (Walk_event _ _ 0%nat _ q); auto.
    + unfold ended. cbn. intros [?|[?|?]]; discriminate.
    + constructor. unfold ended. auto.
  - constructor; [|constructor]. constructor.
    + exists slab, slab_material. repeat split; auto.
      * now apply slab_total.
      * intros _. now apply slab_total.
      * intros _. exists (slab_nuclide, Fin 1). split; [now left|reflexivity].
    + cbn. lra.
    + exists (V3 0 0 0), (V3 1 0 0). repeat split; auto; [apply unit_x|].
      rewrite Pq. cbn. unfold along, vadd, vscale. cbn. do 2 f_equal; lra.
    + cbn. rewrite C. tauto.
Qed.
