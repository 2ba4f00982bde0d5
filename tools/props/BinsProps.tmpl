(** Bin structures: properties C01-C05. *)
From Coq Require Import String List Reals ZArith NArith Lra Lia SpecFloat.
From Verif Require Import Model.Num Model.Outcome Model.Xml Model.Std Model.Point Model.Types
  Model.Bins Spec.Vec Spec.BinsSpec Spec.TextExt Proofs.RealLib Proofs.BinsProofs.
Import ListNotations.
Local Open Scope string_scope.
Local Open Scope R_scope.

(** C01: the bin of a value is the number of boundaries not above it. *)
@@C01_linspace_bins

Example C01_case :
  let X := text_ext XRa [] in
  let nd := lone (leaf "linspace" [("bins", "4"); ("min", "-1"); ("max", "1.5")]) in
  n_name nd = "linspace" /\ as_ullong X (n_attr nd "bins") = 4%N
  /\ as_double X (n_attr nd "min") = Fin (-1)
  /\ as_double X (n_attr nd "max") = Fin (15 / 10)
  /\ (1 <= 4)%N /\ (4 + 2 < 2 ^ 64)%N /\ -1 < 15 / 10.
Proof. cbv zeta; parts; try reflexivity; try lra; try lia; cbn; decs; reflexivity. Qed.

(** C02: the same for boundaries equally spaced in the logarithm. *)
@@C02_logspace_bins

Example C02_case :
  let X := text_ext XRa [] in
  let nd := lone (leaf "logspace" [("bins", "3"); ("base", "2"); ("min", "-1"); ("max", "5")]) in
  n_name nd = "logspace" /\ as_ullong X (n_attr nd "bins") = 3%N
  /\ as_double_def X (n_attr nd "base") (Fin 10) = Fin 2
  /\ as_double X (n_attr nd "min") = Fin (-1)
  /\ as_double X (n_attr nd "max") = Fin 5
  /\ 1 < 2 /\ (1 <= 3)%N /\ (3 + 2 < 2 ^ 64)%N /\ -1 < 5.
Proof. cbv zeta; parts; try reflexivity; try lra; try lia; cbn; decs; reflexivity. Qed.

(** C03: listed boundaries, for doubles as computed and for reals. *)
@@C03_boundary_bins_binary64

Example C03_binary64_case :
  forall L, let X := text_ext (F64 L) [] in
  let nd := lone (text_node "boundaries" "0.5 1 2.25") in
  n_name nd = "boundaries"
  /\ List.Forall (fun x => x <> S754_nan) (to_reals X (n_text nd))
  /\ exists b, bins_create X nd = Ok b /\ bins_size b = 4%N.
Proof.
  intros L. cbv zeta. split; [reflexivity|split].
  - repeat constructor; discriminate.
  - eexists; split; reflexivity.
Qed.

@@C03_boundary_bins

Example C03_case :
  let X := text_ext XRa [] in
  let nd := lone (text_node "boundaries" "1 2 4") in
  n_name nd = "boundaries" /\ to_reals X (n_text nd) = map Fin [1; 2; 4] /\ increasing [1; 2; 4].
Proof.
  cbv zeta; parts; cbn; try lra; decs; reflexivity.
Qed.

(** C04: particles, bins and score slots. *)
@@C04_particle_bins

Example C04_case :
  let X := text_ext XRa [] in
  let nd := lone (group "bins"
      [Elem "cosine" [("u", "0"); ("v", "0"); ("w", "1")]
         [leaf "linspace" [("bins", "10"); ("min", "-1"); ("max", "1")]] "";
       group "energy" [leaf "logspace" [("bins", "2"); ("min", "-1"); ("max", "1")]]]) in
  exists pb, pbins_create X nd = Ok pb
    /\ proper_bins (pb_cosine pb) /\ proper_bins (pb_energy pb)
    /\ (bins_size (pb_cosine pb) * bins_size (pb_energy pb) < 2 ^ 64)%N
    /\ pbins_size pb = 48%N
    /\ (exists c, cosine_bin pb (V3 0 0 1) c)
    /\ (exists e, energy_bin pb (ContinuousE (A := XRa) (Fin 3)) e).
Proof.
  cbv zeta. set (X := text_ext XRa []).
  set (nc := lone (leaf "linspace" [("bins", "10"); ("min", "-1"); ("max", "1")])).
  set (ne := lone (leaf "logspace" [("bins", "2"); ("min", "-1"); ("max", "1")])).
  match goal with |- context [pbins_create X ?n] => set (nd := n) end.
  destruct (linspace_make (n_path (n_first_child (n_child nd "cosine"))) 10 (-1) 1)
    as (bc & Ec & Sc & _); try lra; try lia.
  destruct (logspace_make (n_path (n_first_child (n_child nd "energy"))) 2 10 (-1) 1)
    as (be & Ee & Se & _); try lra; try lia.
  assert (Pc : proper_bins bc) by (eapply proper_linspace; [| | |exact Ec]; try lra; try lia).
  assert (Pe : proper_bins be) by (eapply proper_logspace; [| | | |exact Ee]; try lra; try lia).
  assert (B1 : bins_create X (n_first_child (n_child nd "cosine")) = Ok bc).
  { rewrite <- Ec. cbn. decs. reflexivity. }
  assert (B2 : bins_create X (n_first_child (n_child nd "energy")) = Ok be).
  { rewrite <- Ee. cbn. decs. reflexivity. }
  eexists. unfold pbins_create. rewrite B1, B2. cbn [is_null noexcept bind].
  split; [reflexivity|]. cbn [make_pbins pb_cosine pb_energy].
  split; [auto|split; [auto|]]. rewrite Sc, Se. split; [lia|].
  split; [unfold pbins_size; cbn [pb_cosine pb_stride make_pbins]; rewrite Sc, Se; reflexivity|].
  split.
  - destruct (proper_total bc (dot (V3 0 0 1) (V3 0 0 1)) Pc) as (c & I & _).
    { unfold make_linspace in Ec. destruct (nleb _ _ _); [discriminate|]. injection Ec as <-. exact Logic.I. }
    exists c. unfold cosine_bin. cbn [pb_direction make_pbins pb_cosine].
    exists (V3 0 0 1). split; [|split].
    + unfold dir_xyz. etransitivity; [|apply (unit_norm1 (V3 0 0 1))].
      * cbn [as_double]. unfold pt. do 2 f_equal; cbn; decs; reflexivity.
      * unfold unit, norm, dot; cbn. replace (_ + _) with 1 by ring. apply sqrt_1.
    + unfold make_linspace in Ec. destruct (nleb _ _ _); [discriminate|]. injection Ec as <-. exact Logic.I.
    + exact I.
  - destruct (proper_total be 3 Pe) as (e & I & _).
    { unfold make_logspace in Ee. destruct (nleb _ _ _); [discriminate|]. injection Ee as <-. cbn; lra. }
    exists e. exists 3. split; [reflexivity|split; auto].
    cbn [pb_energy make_pbins]. unfold make_logspace in Ee. destruct (nleb _ _ _); [discriminate|]. injection Ee as <-. cbn; lra.
Qed.

(** C05: what is rejected and what is stored. *)
@@C05_linspace_validation

@@C05_boundaries_validation

@@C05_boundaries_validation_reals

@@C05_estimator_bins_abort

Example C05_case :
  let X := text_ext XRa [] in
  (exists msg, bins_create X (lone (leaf "linspace" [("bins", "4"); ("min", "2"); ("max", "1")]))
               = Throw msg)
  /\ (exists msg, bins_create X (lone (text_node "boundaries" "1 3 2")) = Throw msg)
  /\ (exists b, bins_create X (lone (text_node "boundaries" "1 2 3")) = Ok b)
  /\ pbins_create X (lone (group "bins" [group "energy" [text_node "boundaries" "1 3 2"]]))
     = Terminate.
Proof.
  cbv zeta.
  assert (R : exists msg, bins_create (text_ext XRa []) (lone (text_node "boundaries" "1 3 2"))
                          = Throw msg).
  { apply (C05_boundaries_validation_reals _ _ [1; 3; 2]).
    - reflexivity.
    - cbn. decs. reflexivity.
    - cbn; lra. }
  split; [|split; [exact R|split]].
  - apply C05_linspace_validation; [left; reflexivity|]. cbn. decs. apply Rleb_true; lra.
  - destruct (C05_boundaries_validation_reals (text_ext XRa [])
                (lone (text_node "boundaries" "1 2 3")) [1; 2; 3]) as [_ H].
    + reflexivity.
    + cbn. decs. reflexivity.
    + destruct H as (b & E & _); [cbn; lra|eauto].
  - assert (R2 : exists msg, bins_create (text_ext XRa []) (n_first_child (n_child
        (lone (group "bins" [group "energy" [text_node "boundaries" "1 3 2"]])) "energy"))
        = Throw msg).
    { apply (C05_boundaries_validation_reals _ _ [1; 3; 2]).
      - reflexivity.
      - cbn. decs. reflexivity.
      - cbn; lra. }
    destruct R2 as [msg R2]. eapply C05_estimator_bins_abort. right. split; [|exact R2].
    eexists; reflexivity.
Qed.
