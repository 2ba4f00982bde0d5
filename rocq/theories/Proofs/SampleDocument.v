(** The input document of the sample problem: reading it gives the driver that the
    other examples use. *)
From Coq Require Import Bool String List Reals ZArith NArith Lra Lia.
From Verif Require Import Model.Num Model.Outcome Model.Rng Model.Xml Model.Std Model.Point
  Model.Surface Model.Types Model.Bins Model.Field Model.Particle Model.Multigroup
  Model.Continuous Model.Material Model.World Model.Perturbation Model.Estimator Model.Transport
  Model.Driver Spec.Vec Spec.TextExt Spec.CellSpec Spec.WorldSpec
  Proofs.OutcomeLib Proofs.RealLib Proofs.SampleProblem Proofs.SampleTally.
Import ListNotations.
Local Open Scope string_scope.
Local Open Scope R_scope.

Definition point_leaf (name x : string) : xml := leaf name [("x", x); ("y", "0"); ("z", "0")].
Definition slab_source (name : string) : xml :=
  group name
    [group "position" [point_leaf "constant" "9.5"];
     group "direction" [point_leaf "constant" "2"];
     group "energy" [leaf "constant" [("energy", "1")]];
     group "particletype" [leaf "constant" [("type", "neutron")]]].
Definition slab_general : xml :=
  group "general" [text_node "histories" "2"; text_node "threads" "2";
                   text_node "particles" "neutron"; text_node "chunksize" "1"].
Definition slab_surfaces : xml :=
  group "surfaces" [leaf "planex" [("name", "edge"); ("x", "10")]].
Definition slab_nuclides : xml :=
  group "nuclides" [Elem "multigroup" [("groups", "1")]
    [Elem "nuclide" [("name", "absorber")]
       [Elem "neutron" [] [text_node "capture" "1"] ""] ""] ""].
Definition slab_materials : xml :=
  group "materials" [Elem "material" [("name", "absorber"); ("aden", "1")]
    [leaf "nuclide" [("name", "absorber"); ("afrac", "3")]] ""].
Definition slab_cells : xml :=
  group "cells"
    [Elem "cell" [("name", "slab"); ("material", "absorber")]
       [leaf "surface" [("name", "edge"); ("sense", "-1")]] "";
     Elem "void" [] [leaf "surface" [("name", "edge"); ("sense", "+1")]] ""].
Definition slab_estimators : xml :=
  group "estimators" [Elem "current" [("name", "through"); ("surface", "edge")]
    [group "sensitivities" [leaf "perturbation" [("name", "more")]]] ""].
Definition slab_perturbations : xml :=
  group "perturbations" [leaf "total" [("name", "more"); ("nuclide", "absorber")]].
Definition slab_warmth : xml := group "temperature" [leaf "constant" [("c", "300")]].
Definition slab_problem (problem : xml) : node :=
  document [slab_general; slab_surfaces; slab_nuclides; slab_materials; slab_cells;
    slab_warmth; slab_perturbations; slab_estimators; group "problemtype" [problem]].

(** The world as read: the numbers are those written, in decimal. *)
Definition dec (m e : Z) : num XRa := ndec XRa m e.
Definition read_material : material XRa :=
  mkMaterial (A := XRa) "absorber"
    [(slab_nuclide, ndiv XRa (dec 3 0) (nadd XRa (Fin 0) (dec 3 0)))] (dec 1 0).
Definition read_edge : surf XRa := mkSurf 0 (mkSurface (A := XRa) "edge" (PlaneX (A := XRa) (dec 10 0))).
Definition read_warmth : field XRa := constant_field (A := XRa) (dec 300 0).
Definition read_world : world XRa :=
  mkWorld [read_edge] [slab_nuclide] [read_material] read_warmth
    [mkCell 0 "slab" [(read_edge, true)] (Some read_material) read_warmth;
     mkCell 1 "" [(read_edge, false)] None read_warmth].
Lemma world_read problem : world_create slab_ext (slab_problem problem) = Ok read_world.
Proof. reflexivity. Qed.
Lemma read_slab_world : read_world = slab_world.
Proof.
  assert (dec 10 0 = Fin 10) as E1 by (unfold dec; cbn; decs; reflexivity).
  assert (dec 300 0 = Fin 300) as E2 by (unfold dec; cbn; decs; reflexivity).
  assert (dec 1 0 = Fin 1) as E3 by (unfold dec; cbn; decs; reflexivity).
  assert (dec 3 0 = Fin 3) as E4 by (unfold dec; cbn; decs; reflexivity).
  unfold read_world, read_edge, read_material, read_warmth. rewrite E1, E2, E3, E4.
  assert (ndiv XRa (Fin 3) (nadd XRa (Fin 0) (Fin 3)) = Fin 1) as ->.
  { cbn. rewrite Reqb_false by lra. f_equal. field. }
  reflexivity.
Qed.

Definition read_source : source XRa :=
  mkSource (A := XRa) (mkPoint (dec 95 (-1)) (dec 0 0) (dec 0 0))
    (DirConstant (A := XRa) (pnormalize (A := XRa) (mkPoint (dec 2 0) (dec 0 0) (dec 0 0))))
    (Group 1) neutron.
Lemma read_near_edge : read_source = near_edge.
Proof.
  assert (dec 95 (-1) = Fin (95 / 10)) as E1 by (unfold dec; cbn; decs; reflexivity).
  assert (dec 0 0 = Fin 0) as E2 by (unfold dec; cbn; decs; reflexivity).
  assert (dec 2 0 = Fin 2) as E3 by (unfold dec; cbn; decs; reflexivity).
  unfold read_source. rewrite E1, E2, E3.
  change (mkPoint (A := XRa) (Fin 2) (Fin 0) (Fin 0)) with (pt (V3 2 0 0)).
  rewrite pnormalize_pt by (intros [= E]; lra).
  assert (norm (V3 2 0 0) = 2) as ->.
  { unfold norm, dot. cbn. replace (2 * 2 + 0 * 0 + 0 * 0) with (2 * 2) by ring.
    rewrite sqrt_square; lra. }
  unfold near_edge, pt, vscale. cbn. do 2 f_equal.
  - f_equal. lra.
  - f_equal; f_equal; lra.
Qed.
Lemma driver_read problem source_node :
  source_create slab_ext source_node = Ok read_source ->
  driver_create slab_ext (slab_problem problem) source_node = Ok slab_driver.
Proof.
  intros E. unfold driver_create. rewrite world_read. cbn [bind].
  rewrite read_slab_world. rewrite E, read_near_edge.
  reflexivity.
Qed.

Definition slab_fixed : node := slab_problem (slab_source "fixedsource").
Lemma slab_driver_created : fixed_source_create slab_ext slab_fixed = Ok slab_driver.
Proof. apply driver_read. reflexivity. Qed.

Lemma first_in group name c : first_named group name c -> In c (n_children group).
Proof. intros (b & a & -> & _). apply in_or_app. right. now left. Qed.

(** The document without the declaration of its surface. *)
Definition slab_bare : node :=
  document [slab_general; slab_nuclides; slab_materials; slab_cells].

Lemma fixed_well_formed : well_formed slab_fixed slab_ext.
Proof.
  constructor.
  - intros c [<-|[<-|[]]]; cbn; split; auto; discriminate.
  - intros c s [<-|[<-|[]]] [<-|[]]; cbn; auto.
  - right. left. reflexivity.
  - intros name n id _ H. apply first_in in H as [<-|[]]. eexists. reflexivity.
Qed.
Lemma bare_well_formed : well_formed slab_bare slab_ext.
Proof.
  constructor.
  - intros c [<-|[<-|[]]]; cbn; split; auto; discriminate.
  - intros c s [<-|[<-|[]]] [<-|[]]; cbn; auto.
  - left. reflexivity.
  - intros name n id _ H. apply first_in in H as [<-|[]]. eexists. reflexivity.
Qed.
Lemma bare_incomplete : ~ complete slab_bare.
Proof.
  intros (H & _). destruct (H "edge") as (c & [] & _).
  eexists _, _. split; [now left|]. split; [now left|]. reflexivity.
Qed.
