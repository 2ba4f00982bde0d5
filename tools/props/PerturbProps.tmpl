(** Property C55: the indirect effect of a perturbation. *)
From Coq Require Import Bool String List Reals ZArith NArith Lra.
From Coquelicot Require Import Coquelicot.
From Verif Require Import Model.Num Model.Outcome Model.Rng Model.Xml Model.Std Model.Point
  Model.Surface Model.Types Model.Field Model.Particle Model.Material Model.World
  Model.Perturbation Model.Transport Spec.Vec Spec.SumSpec Spec.TransportSpec Spec.HistorySpec
  Spec.EstimatorSpec Spec.PerturbSpec
  Proofs.RealLib Proofs.RngProofs Proofs.GeometryProofs Proofs.SampleProblem Proofs.SampleTally
  Proofs.PerturbProofs.
Import ListNotations.
Local Open Scope string_scope.
Local Open Scope R_scope.

(** C55. The full statement: for every walk and its flights there is [x] with
    [indirect_effect (pt_id pert) q = Fin x /\ is_derive (log_density fs) 0 x].
    It holds for walks in materials of atom density one whose flights in the
    nuclide's materials end in collisions, with surface tracking, or with delta tracking
    in materials whose majorant is the total; C55_error gives the error of any other
    walk, and C55_surface_refuted a walk with a wrong effect. *)
@@C55_collisions_partial
@@C55_error
@@C55_surface_refuted

(** The neutron of the sample problem is captured after a flight of ln 2, with both tracking
    methods. *)
Example C55_case : forall t,
  exists q : particle XRa half_rng,
  let start := set_cell (set_perturbations [more] slab_start) slab in
  In more [more] /\ NoDup (map pt_id [more])
  /\ walk t slab_world start [q] q
  /\ flights t (pt_nuclide more) start [q] [mkFlight 1 1 (ln 2) true true].
Proof.
  intros t. set (start := set_cell (set_perturbations [more] slab_start) slab).
  assert (Hn : group_neutron [1]%N start) by (destruct start_neutron; constructor; auto).
  destruct (slab_step t 0 start) as (q & E & C & Pq & Cq & _); auto.
  exists q. cbv zeta. split; [now left|]. split; [repeat constructor; intros []|]. split.
  - apply (Walk_event _ _ 0%nat _ q); auto.
    + unfold ended. cbn. intros [?|[?|?]]; discriminate.
    + constructor. unfold ended. auto.
  - constructor; [|constructor]. constructor.
    + exists slab, slab_material. repeat split; auto.
      * now apply slab_total.
      * intros _. now apply slab_total.
      * intros _. exists (slab_nuclide, Fin 1). split; [now left|reflexivity].
    + cbn. lra.
    + exists (V3 0 0 0), (V3 1 0 0). repeat split; auto; [apply unit_x|].
      rewrite Pq. cbn. unfold along, vadd, vscale. cbn. do 2 f_equal; lra.
    + cbn. rewrite C. tauto.
Qed.
