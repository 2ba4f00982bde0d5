(** Properties C82-C83: the temperature and the settings written in a document. *)
From Coq Require Import Bool String List Reals ZArith NArith Lra Lia.
From Verif Require Import Model.Num Model.Outcome Model.Rng Model.Xml Model.Std Model.Point
  Model.Surface Model.Types Model.Bins Model.Field Model.Particle Model.Multigroup
  Model.Continuous Model.Material Model.World Model.Perturbation Model.Estimator Model.Transport
  Model.Driver Model.Schema Model.Program
  Spec.Vec Spec.TextExt Spec.CellSpec Spec.WorldSpec Spec.SettingsSpec Spec.SchemaSpec
  Proofs.RealLib Proofs.RngProofs Proofs.SampleProblem Proofs.SampleTally Proofs.SampleDocument
  Proofs.SampleProgram Proofs.SettingsProofs.
Import ListNotations.
Local Open Scope string_scope.

(** C82: at every point a cell has the temperature and the bounds that the document gives.
    The full statement also says that a temperature lies between its bounds and is not
    negative; that is not checked, and C82_bounds_refuted is a document that follows the
    schema and is accepted with cell delta tracking. *)
@@C82_temperature
@@C82_bounds_refuted

(** Three documents: a constant, a linear and no temperature. *)
Definition cold_xml : xml :=
  Elem "minimc" [] [slab_general; slab_surfaces; slab_nuclides; slab_materials; slab_cells] "".
Example C82_case :
  (exists w, world_create slab_ext slab_fixed = Ok w
     /\ map (fun c => field_at (c_temperature c) (pt (V3 1 2 3))) (w_cells w)
        = [Fin 300%R; Fin 300%R])
  /\ (exists w, world_create slab_ext (warm_node steep_xml) = Ok w
     /\ map (fun c => field_at (c_temperature c) (pt (V3 1 2 3))) (w_cells w)
        = [Fin 400%R; Fin 400%R])
  /\ (exists w, world_create slab_ext (warm_node cold_xml) = Ok w
     /\ map (fun c => field_at (c_temperature c) (pt (V3 1 2 3))) (w_cells w)
        = [Fin (2936 / 10)%R; Fin (2936 / 10)%R]).
Proof.
  split; [|split]; (eexists; split; [reflexivity|]); cbn; decs; repeat f_equal; lra.
Qed.

(** C83 *)
@@C83_settings

(** The sample document: two histories, two threads, no seed, surface tracking. *)
Example C83_case :
  driver_create slab_ext slab_fixed (n_child (n_child slab_fixed "problemtype") "fixedsource")
    = Ok slab_driver
  /\ dr_batchsize slab_driver = 2%N /\ dr_threads slab_driver = 2%N /\ dr_seed slab_driver = 1%N
  /\ dr_tracking slab_driver = SurfaceTracking
  /\ map pt_name (dr_perts slab_driver) = ["more"]
  /\ map es_name (ss_estimators (dr_init slab_driver)) = ["through"].
Proof. split; [exact slab_driver_created|]. repeat split. Qed.
