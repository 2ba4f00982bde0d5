(** Properties C82-C83: the temperature and the settings written in a document. *)
From Coq Require Import Bool String List Reals ZArith NArith Lra Lia.
From Verif Require Import Model.Num Model.Outcome Model.Rng Model.Xml Model.Std Model.Point
  Model.Surface Model.Types Model.Bins Model.Field Model.Particle Model.Multigroup
  Model.Continuous Model.Material Model.World Model.Perturbation Model.Estimator Model.Transport
  Model.Driver Model.Schema Model.Program
  Spec.Vec Spec.TextExt Spec.CellSpec Spec.WorldSpec Spec.SettingsSpec Spec.SchemaSpec
  Proofs.RealLib Proofs.RngProofs Proofs.SampleProblem Proofs.SampleTally Proofs.SampleDocument
  Proofs.SampleProgram Proofs.SettingsProofs.
Import ListNotations.
Local Open Scope string_scope.

(** C82: at every point a cell has the temperature and the bounds that the document gives.
    The full statement also says that a temperature lies between its bounds and is not
    negative; that is not checked, and C82_bounds_refuted is a document that follows the
    schema and is accepted with cell delta tracking. *)
Theorem C82_temperature :
  forall (A : Arith) (X : Ext A) (root : node) (w : world A),
  world_create X root = Ok w ->
  Forall2 (fun n c =>
      (forall p, written_temperature X root n p (field_at (c_temperature c) p))
      /\ written_range X root n (field_lower (c_temperature c)) (field_upper (c_temperature c)))
    (cell_nodes root) (w_cells w).
Proof. exact C82_temperature_proof. Qed.
Print Assumptions C82_temperature.
Theorem C82_bounds_refuted :
  exists (V : Env XRa) (path : string) (root : node) (dr : driver (A := XRa)) (c : cell XRa)
         (hot cold : point XRa) (upper lower T1 T2 : R),
  open_document V path = Ok root
  /\ create_problem (G := half_rng) V root = Ok (FixedProblem dr)
  /\ In c (w_cells (dr_world dr)) /\ c_material c <> None
  /\ cell_contains c hot = true /\ cell_contains c cold = true
  /\ field_upper (c_temperature c) = Fin upper /\ field_lower (c_temperature c) = Fin lower
  /\ field_at (c_temperature c) hot = Fin T1 /\ field_at (c_temperature c) cold = Fin T2
  /\ (upper < T1)%R /\ (T2 < lower)%R /\ (T2 < 0)%R.
Proof. exact C82_bounds_refuted_proof. Qed.
Print Assumptions C82_bounds_refuted.

(** Three documents: a constant, a linear and no temperature. *)
Definition cold_xml : xml :=
  Elem "minimc" [] [slab_general; slab_surfaces; slab_nuclides; slab_materials; slab_cells] "".
Example C82_case :
  (exists w, world_create slab_ext slab_fixed = Ok w
     /\ map (fun c => field_at (c_temperature c) (pt (V3 1 2 3))) (w_cells w)
        = [Fin 300%R; Fin 300%R])
  /\ (exists w, world_create slab_ext (warm_node steep_xml) = Ok w
     /\ map (fun c => field_at (c_temperature c) (pt (V3 1 2 3))) (w_cells w)
        = [Fin 400%R; Fin 400%R])
  /\ (exists w, world_create slab_ext (warm_node cold_xml) = Ok w
     /\ map (fun c => field_at (c_temperature c) (pt (V3 1 2 3))) (w_cells w)
        = [Fin (2936 / 10)%R; Fin (2936 / 10)%R]).
Proof.
  split; [|split]; (eexists; split; [reflexivity|]); cbn; decs; repeat f_equal; lra.
Qed.

(** C83 *)
Theorem C83_settings :
  forall (A : Arith) (X : Ext A) (root source_node : node) (dr : driver (A := A)),
  driver_create X root source_node = Ok dr ->
  let general := n_child root "general" in
  world_create X root = Ok (dr_world dr) /\ source_create X source_node = Ok (dr_source dr)
  /\ (exists z, stoi X (n_text (n_child general "histories")) = Ok z
        /\ Z.of_N (dr_batchsize dr) = z mod 2 ^ 64)%Z
  /\ (exists z, stoi X (if is_null (n_child general "seed") then "1"
                        else n_text (n_child general "seed")) = Ok z
        /\ Z.of_N (dr_seed dr) = z mod 2 ^ 64)%Z
  /\ stoul X (n_text (n_child general "threads")) = Ok (dr_threads dr)
  /\ written_tracking root (dr_tracking dr)
  /\ ss_weight (dr_init dr) = nofN (dr_batchsize dr)
  /\ map pt_id (dr_perts dr) = seq 0 (length (dr_perts dr))
  /\ Forall2 (fun n pt => n_name n = "total" /\ pt_name pt = as_string (n_attr n "name")
                /\ In (pt_nuclide pt) (w_nuclides (dr_world dr))
                /\ nu_name (pt_nuclide pt) = as_string (n_attr n "nuclide"))
       (n_children (n_child root "perturbations")) (dr_perts dr)
  /\ Forall2 (fun n e => n_name n = "current" /\ es_name e = as_string (n_attr n "name")
                /\ pbins_create X (n_child n "bins") = Ok (sc_bins (es_scorable e))
                /\ (exists s, In s (w_surfaces (dr_world dr)) /\ su_id s = es_surface e
                      /\ s_name (su_surface s) = as_string (n_attr n "surface"))
                /\ (forall x, In x (sc_scores (es_scorable e)) -> x = nofZ A 0)
                /\ (forall x, In x (sc_squares (es_scorable e)) -> x = nofZ A 0))
       (n_children (n_child root "estimators")) (ss_estimators (dr_init dr)).
Proof. exact C83_settings_proof. Qed.
Print Assumptions C83_settings.

(** The sample document: two histories, two threads, no seed, surface tracking. *)
Example C83_case :
  driver_create slab_ext slab_fixed (n_child (n_child slab_fixed "problemtype") "fixedsource")
    = Ok slab_driver
  /\ dr_batchsize slab_driver = 2%N /\ dr_threads slab_driver = 2%N /\ dr_seed slab_driver = 1%N
  /\ dr_tracking slab_driver = SurfaceTracking
  /\ map pt_name (dr_perts slab_driver) = ["more"]
  /\ map es_name (ss_estimators (dr_init slab_driver)) = ["through"].
Proof. split; [exact slab_driver_created|]. repeat split. Qed.
