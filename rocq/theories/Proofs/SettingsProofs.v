(** The temperature and the settings that a document gives (C82, C83). *)
From Coq Require Import Bool String List Reals ZArith NArith Lia Lra.
From Verif Require Import Model.Num Model.Outcome Model.Rng Model.Xml Model.Std Model.Point
  Model.Surface Model.Types Model.Bins Model.Field Model.Particle Model.Multigroup
  Model.Continuous Model.Material Model.World Model.Perturbation Model.Estimator Model.Transport
  Model.Driver Model.Schema Model.Program
  Spec.Vec Spec.TextExt Spec.CellSpec Spec.WorldSpec Spec.SettingsSpec Spec.SchemaSpec
  Proofs.OutcomeLib Proofs.RealLib Proofs.BinsProofs Proofs.RngProofs Proofs.WorldProofs Proofs.SampleProblem Proofs.SampleTally
  Proofs.SampleDocument Proofs.SchemaLib Proofs.SchemaProofs Proofs.ProgramProofs
  Proofs.SampleProgram.
Import ListNotations.
Local Open Scope string_scope.

Lemma Forall2_weaken {X Y} (P Q : X -> Y -> Prop) l l' :
  (forall x y, P x y -> Q x y) -> Forall2 P l l' -> Forall2 Q l l'.
Proof. intros H F. induction F; constructor; auto. Qed.

(** ** Temperatures *)
Lemma field_written (A : Arith) (X : Ext A) n f : field_create X n = Ok f ->
  (forall p, written_value X n p (field_at f p))
  /\ written_bounds X n (field_lower f) (field_upper f).
Proof.
  unfold field_create, written_value, written_bounds, number.
  destruct (String.eqb_spec (n_name n) "constant") as [E|_].
  - intros H. apply Ok_inj in H. subst f. cbn. auto.
  - destruct (String.eqb_spec (n_name n) "linear") as [E|_]; [|discriminate].
    intros H. apply Ok_inj in H. subst f. cbn. auto 10.
Qed.

Lemma C82_temperature_proof :
  forall (A : Arith) (X : Ext A) (root : node) (w : world A),
  world_create X root = Ok w ->
  Forall2 (fun n c =>
      (forall p, written_temperature X root n p (field_at (c_temperature c) p))
      /\ written_range X root n (field_lower (c_temperature c)) (field_upper (c_temperature c)))
    (cell_nodes root) (w_cells w).
Proof.
  intros A X root w E. pose proof (C66_cells_proof A X root w E) as F.
  apply world_parts in E as (_ & _ & _ & E4 & _).
  eapply Forall2_weaken; [|exact F]. clear F. intros n c H. apply co_temperature in H. rewrite H.
  unfold written_temperature, written_range. destruct (n_attr n "temperature") as [t|].
  - cbn. auto.
  - unfold create_temperature in E4. destruct (is_null (n_child root "temperature")).
    + apply Ok_inj in E4. rewrite <- E4. cbn. auto.
    + apply (field_written A X); exact E4.
Qed.

(** ** Settings *)
Lemma perturbations_written (A : Arith) (w : world A) l : forall acc pts,
  foldM (fun acc c => bind (perturbation_create w (length acc) c) (fun pt => Ok (acc ++ [pt])%list))
    l acc = Ok pts ->
  map pt_id acc = seq 0 (length acc) ->
  exists new, pts = (acc ++ new)%list /\ map pt_id pts = seq 0 (length pts)
    /\ Forall2 (fun n pt => n_name n = "total" /\ pt_name pt = as_string (n_attr n "name")
                  /\ In (pt_nuclide pt) (w_nuclides w)
                  /\ nu_name (pt_nuclide pt) = as_string (n_attr n "nuclide")) l new.
Proof.
  induction l as [|n l IH]; intros acc pts E I; cbn [foldM] in E.
  - apply Ok_inj in E. subst pts. exists []. rewrite app_nil_r. auto.
  - apply bind_ok in E as (acc' & E1 & E). apply bind_ok in E1 as (pt & Ep & E1).
    apply Ok_inj in E1. subst acc'. unfold perturbation_create in Ep.
    apply -> @noexcept_ok in Ep. destruct (String.eqb_spec (n_name n) "total") as [En|_]; [|discriminate].
    apply bind_ok in Ep as (nu & Ef & Ep). apply Ok_inj in Ep.
    destruct (IH (acc ++ [pt])%list pts E) as (new & -> & Is & F).
    + rewrite map_app, app_length, I. cbn. rewrite seq_app. now rewrite <- Ep.
    + exists (pt :: new). rewrite <- app_assoc in *. cbn in *. split; [reflexivity|]. split; [exact Is|].
      constructor; [|exact F]. unfold find_nuclide in Ef.
      destruct (find _ (w_nuclides w)) as [x|] eqn:Fx; [|discriminate].
      apply Ok_inj in Ef. subst x. apply find_some in Fx as [Hin Hn].
      apply String.eqb_eq in Hn. subst pt. cbn. auto.
Qed.

Lemma estimator_written (A : Arith) (X : Ext A) w pts n (e : estimator A) :
  estimator_create X w pts n = Ok e ->
  n_name n = "current" /\ es_name e = as_string (n_attr n "name")
  /\ pbins_create X (n_child n "bins") = Ok (sc_bins (es_scorable e))
  /\ (exists s, In s (w_surfaces w) /\ su_id s = es_surface e
        /\ s_name (su_surface s) = as_string (n_attr n "surface"))
  /\ sc_scores (es_scorable e) = repeat (nofZ A 0) (N.to_nat (pbins_size (sc_bins (es_scorable e))))
  /\ sc_squares (es_scorable e) = repeat (nofZ A 0) (N.to_nat (pbins_size (sc_bins (es_scorable e)))).
Proof.
  unfold estimator_create. destruct (String.eqb_spec (n_name n) "current") as [En|_]; [|discriminate].
  intros H. apply bind_ok in H as ([est sens] & E & H). apply -> @noexcept_ok in E.
  apply bind_ok in E as (b & Eb & E). apply bind_ok in E as (l & Es & E). apply Ok_inj in E.
  injection E as <- <-. apply bind_ok in H as (s & Ef & H). apply Ok_inj in H. subst e.
  unfold find_surface in Ef. destruct (find _ (w_surfaces w)) as [x|] eqn:Fx; [|discriminate].
  apply Ok_inj in Ef. subst x. apply find_some in Fx as [Hin Hn]. apply String.eqb_eq in Hn.
  cbn. repeat split; auto. exists s. auto.
Qed.

Lemma C83_settings_proof :
  forall (A : Arith) (X : Ext A) (root source_node : node) (dr : driver (A := A)),
  driver_create X root source_node = Ok dr ->
  let general := n_child root "general" in
  world_create X root = Ok (dr_world dr) /\ source_create X source_node = Ok (dr_source dr)
  /\ (exists z, stoi X (n_text (n_child general "histories")) = Ok z
        /\ Z.of_N (dr_batchsize dr) = z mod 2 ^ 64)%Z
  /\ (exists z, stoi X (if is_null (n_child general "seed") then "1"
                        else n_text (n_child general "seed")) = Ok z
        /\ Z.of_N (dr_seed dr) = z mod 2 ^ 64)%Z
  /\ stoul X (n_text (n_child general "threads")) = Ok (dr_threads dr)
  /\ written_tracking root (dr_tracking dr)
  /\ ss_weight (dr_init dr) = nofN (dr_batchsize dr)
  /\ map pt_id (dr_perts dr) = seq 0 (length (dr_perts dr))
  /\ Forall2 (fun n pt => n_name n = "total" /\ pt_name pt = as_string (n_attr n "name")
                /\ In (pt_nuclide pt) (w_nuclides (dr_world dr))
                /\ nu_name (pt_nuclide pt) = as_string (n_attr n "nuclide"))
       (n_children (n_child root "perturbations")) (dr_perts dr)
  /\ Forall2 (fun n e => n_name n = "current" /\ es_name e = as_string (n_attr n "name")
                /\ pbins_create X (n_child n "bins") = Ok (sc_bins (es_scorable e))
                /\ (exists s, In s (w_surfaces (dr_world dr)) /\ su_id s = es_surface e
                      /\ s_name (su_surface s) = as_string (n_attr n "surface"))
                /\ (forall x, In x (sc_scores (es_scorable e)) -> x = nofZ A 0)
                /\ (forall x, In x (sc_squares (es_scorable e)) -> x = nofZ A 0))
       (n_children (n_child root "estimators")) (ss_estimators (dr_init dr)).
Proof.
  intros A X root sn dr H general. unfold driver_create in H.
  apply bind_ok in H as (w & Ew & H). apply bind_ok in H as (pts & Ep & H).
  apply bind_ok in H as (b & Eb & H). apply bind_ok in H as (sd & Es & H).
  apply bind_ok in H as (init & Ei & H). apply bind_ok in H as (th & Et & H).
  apply bind_ok in H as (t & Ek & H). apply bind_ok in H as (so & Eo & H).
  apply Ok_inj in H. subst dr. cbn [dr_world dr_source dr_batchsize dr_seed dr_threads dr_tracking
    dr_init dr_perts]. fold general in Eb, Es, Et |- *.
  assert (P : forall z, Z.of_N (of_int z) = (z mod 2 ^ 64)%Z).
  { intros z. unfold of_int. apply Z2N.id. apply Z.mod_pos_bound. lia. }
  apply -> @noexcept_ok in Ep. apply (perturbations_written A w _ []) in Ep; [|reflexivity].
  destruct Ep as (new & -> & Hid & F). cbn [app] in *.
  unfold estimator_set_create in Ei. apply bind_ok in Ei as (es & Em & Ei). apply Ok_inj in Ei. subst init.
  cbn [ss_weight ss_estimators]. apply mapM_ok in Em.
  repeat match goal with |- _ /\ _ => split end; auto.
  - exists b. auto.
  - exists sd. auto.
  - unfold tracking_create in Ek. unfold written_tracking.
    destruct (String.eqb_spec (n_text (n_child (n_child root "general") "tracking")) "") as [E1|N1].
    + cbn [orb] in Ek. destruct (has_constant_temperature w); [|discriminate]. apply Ok_inj in Ek. auto.
    + cbn [orb] in Ek.
      destruct (String.eqb_spec (n_text (n_child (n_child root "general") "tracking")) "surface") as [E2|N2].
      * destruct (has_constant_temperature w); [|discriminate]. apply Ok_inj in Ek. auto.
      * destruct (String.eqb_spec (n_text (n_child (n_child root "general") "tracking")) "cell delta")
          as [E3|N3]; [|discriminate]. apply Ok_inj in Ek. auto.
  - eapply Forall2_weaken; [|exact Em]. intros n e E. apply estimator_written in E as (E1 & E2 & E3 & E4 & E5 & E6).
    rewrite E5, E6. repeat match goal with |- _ /\ _ => split end; auto; intros x Hx;
      now apply repeat_spec in Hx.
Qed.

(** ** A temperature outside the bounds written for it *)
Definition steep_warmth (g : string) : xml :=
  group "temperature" [group "linear"
    [leaf "bounds" [("lower", "0"); ("upper", "1000")];
     leaf "gradient" [("x", g); ("y", "0"); ("z", "0")];
     leaf "intercept" [("b", "300")]]].
Definition steep_general : xml :=
  group "general" [text_node "histories" "2"; text_node "threads" "2";
                   text_node "particles" "neutron"; text_node "chunksize" "1";
                   text_node "tracking" "cell delta"].
Definition warm_xml (general warmth : xml) : xml :=
  Elem "minimc" []
    [general; slab_surfaces; slab_nuclides; slab_materials; slab_cells;
     warmth; slab_perturbations; slab_estimators; group "problemtype" [slab_source "fixedsource"]] "".
Definition warm_node (x : xml) : node := Some (mkH x [Elem "" [] [x] ""]).

(** The slab is x < 10; at x = 9 it has 300 + 9 * 100 = 1200 K, above the 1000 K written,
    and at x = -9 it has -600 K. *)
Definition steep_xml : xml := warm_xml steep_general (steep_warmth "100").
Definition steep_field : field XRa :=
  LinearField (A := XRa) (dec 1000 0) (dec 0 0) (mkPoint (dec 100 0) (dec 0 0) (dec 0 0)) (dec 300 0).
Definition steep_cell : cell XRa :=
  mkCell 0 "slab" [(read_edge, true)] (Some read_material) steep_field.
Lemma C82_bounds_refuted_proof :
  exists (V : Env XRa) (path : string) (root : node) (dr : driver (A := XRa)) (c : cell XRa)
         (hot cold : point XRa) (upper lower T1 T2 : R),
  open_document V path = Ok root
  /\ create_problem (G := half_rng) V root = Ok (FixedProblem dr)
  /\ In c (w_cells (dr_world dr)) /\ c_material c <> None
  /\ cell_contains c hot = true /\ cell_contains c cold = true
  /\ field_upper (c_temperature c) = Fin upper /\ field_lower (c_temperature c) = Fin lower
  /\ field_at (c_temperature c) hot = Fin T1 /\ field_at (c_temperature c) cold = Fin T2
  /\ (upper < T1)%R /\ (T2 < lower)%R /\ (T2 < 0)%R.
Proof.
  set (V := slab_env slab_ext steep_xml).
  assert (E : exists dr, create_problem (G := half_rng) V (warm_node steep_xml) = Ok (FixedProblem dr)
    /\ w_cells (dr_world dr) = [steep_cell; mkCell 1 "" [(read_edge, false)] None steep_field]).
  { eexists. split; [reflexivity|]. reflexivity. }
  destruct E as (dr & E & Ec).
  exists V, "dir/slab.xml", (warm_node steep_xml), dr, steep_cell.
  exists (pt (V3 9 0 0)), (pt (V3 (-9) 0 0)), 1000%R, 0%R, 1200%R, (-600)%R.
  split; [reflexivity|]. split; [exact E|]. split; [rewrite Ec; now left|].
  split; [discriminate|].
  assert (dec 1000 0 = Fin 1000) as D1000 by (unfold dec; cbn; decs; reflexivity).
  assert (dec 0 0 = Fin 0) as D0 by (unfold dec; cbn; decs; reflexivity).
  assert (dec 100 0 = Fin 100) as D100 by (unfold dec; cbn; decs; reflexivity).
  assert (dec 300 0 = Fin 300) as D300 by (unfold dec; cbn; decs; reflexivity).
  assert (dec 10 0 = Fin 10) as D10 by (unfold dec; cbn; decs; reflexivity).
  unfold steep_cell, steep_field, read_edge, cell_contains. cbn -[dec]. rewrite ?D1000, ?D0, ?D100, ?D300, ?D10. cbn.
  repeat split; try decide_reals; try reflexivity; try (f_equal; lra); try lra.
Qed.
