(** Bin structures: properties C01-C05. *)
From Coq Require Import String List Reals ZArith NArith Lra Lia SpecFloat.
From Verif Require Import Model.Num Model.Outcome Model.Xml Model.Std Model.Point Model.Types
  Model.Bins Spec.Vec Spec.BinsSpec Spec.TextExt Proofs.RealLib Proofs.BinsProofs.
Import ListNotations.
Local Open Scope string_scope.
Local Open Scope R_scope.

(** C01: the bin of a value is the number of boundaries not above it. *)
Theorem C01_linspace_bins :
  forall (X : Ext XRa) (nd : node) (n : N) (lo hi : R),
    n_name nd = "linspace" ->
    as_ullong X (n_attr nd "bins") = n ->
    as_double X (n_attr nd "min") = Fin lo ->
    as_double X (n_attr nd "max") = Fin hi ->
    (1 <= n)%N -> (n + 2 < 2 ^ 64)%N -> lo < hi ->
    exists b,
      bins_create X nd = Ok b
      /\ bins_size b = (n + 2)%N
      /\ bins_boundaries b = map (fun i => Fin (lin_boundary lo hi n i)) (seq 0 (S (N.to_nat n)))
      /\ (forall v, exists i,
            bins_index b (Fin v) = Ok i
            /\ i = N.of_nat (count_le (lin_boundary lo hi n) (S (N.to_nat n)) v)
            /\ (i < bins_size b)%N)
      /\ (forall v w i j, v <= w -> bins_index b (Fin v) = Ok i ->
            bins_index b (Fin w) = Ok j -> (i <= j)%N).
Proof. exact C01_linspace_bins_proof. Qed.
Print Assumptions C01_linspace_bins.

Example C01_case :
  let X := text_ext XRa [] in
  let nd := lone (leaf "linspace" [("bins", "4"); ("min", "-1"); ("max", "1.5")]) in
  n_name nd = "linspace" /\ as_ullong X (n_attr nd "bins") = 4%N
  /\ as_double X (n_attr nd "min") = Fin (-1)
  /\ as_double X (n_attr nd "max") = Fin (15 / 10)
  /\ (1 <= 4)%N /\ (4 + 2 < 2 ^ 64)%N /\ -1 < 15 / 10.
Proof. cbv zeta; parts; try reflexivity; try lra; try lia; cbn; decs; reflexivity. Qed.

(** C02: the same for boundaries equally spaced in the logarithm. *)
Theorem C02_logspace_bins :
  forall (X : Ext XRa) (nd : node) (n : N) (base lo hi : R),
    n_name nd = "logspace" ->
    as_ullong X (n_attr nd "bins") = n ->
    as_double_def X (n_attr nd "base") (Fin 10) = Fin base ->
    as_double X (n_attr nd "min") = Fin lo ->
    as_double X (n_attr nd "max") = Fin hi ->
    1 < base -> (1 <= n)%N -> (n + 2 < 2 ^ 64)%N -> lo < hi ->
    exists b,
      bins_create X nd = Ok b
      /\ bins_size b = (n + 2)%N
      /\ bins_boundaries b
         = map (fun i => Fin (log_boundary base lo hi n i)) (seq 0 (S (N.to_nat n)))
      /\ (forall v, 0 < v -> exists i,
            bins_index b (Fin v) = Ok i
            /\ i = N.of_nat (count_le (log_boundary base lo hi n) (S (N.to_nat n)) v)
            /\ (i < bins_size b)%N)
      /\ (forall v w i j, 0 < v -> v <= w -> bins_index b (Fin v) = Ok i ->
            bins_index b (Fin w) = Ok j -> (i <= j)%N).
Proof. exact C02_logspace_bins_proof. Qed.
Print Assumptions C02_logspace_bins.

Example C02_case :
  let X := text_ext XRa [] in
  let nd := lone (leaf "logspace" [("bins", "3"); ("base", "2"); ("min", "-1"); ("max", "5")]) in
  n_name nd = "logspace" /\ as_ullong X (n_attr nd "bins") = 3%N
  /\ as_double_def X (n_attr nd "base") (Fin 10) = Fin 2
  /\ as_double X (n_attr nd "min") = Fin (-1)
  /\ as_double X (n_attr nd "max") = Fin 5
  /\ 1 < 2 /\ (1 <= 3)%N /\ (3 + 2 < 2 ^ 64)%N /\ -1 < 5.
Proof. cbv zeta; parts; try reflexivity; try lra; try lia; cbn; decs; reflexivity. Qed.

(** C03: listed boundaries, for doubles as computed and for reals. *)
Theorem C03_boundary_bins_binary64 :
  forall (L : Libm) (X : Ext (F64 L)) (nd : node) (b : bins (F64 L)),
    n_name nd = "boundaries" ->
    List.Forall (fun x => x <> S754_nan) (to_reals X (n_text nd)) ->
    bins_create X nd = Ok b ->
    bins_boundaries b = to_reals X (n_text nd)
    /\ forall v, v <> S754_nan -> exists i,
         bins_index b v = Ok i
         /\ i = N.of_nat (length (filter (fun x => SFleb x v) (to_reals X (n_text nd))))
         /\ (i < bins_size b)%N.
Proof. exact C03_boundary_bins_binary64_proof. Qed.
Print Assumptions C03_boundary_bins_binary64.

Example C03_binary64_case :
  forall L, let X := text_ext (F64 L) [] in
  let nd := lone (text_node "boundaries" "0.5 1 2.25") in
  n_name nd = "boundaries"
  /\ List.Forall (fun x => x <> S754_nan) (to_reals X (n_text nd))
  /\ exists b, bins_create X nd = Ok b /\ bins_size b = 4%N.
Proof.
  intros L. cbv zeta. split; [reflexivity|split].
  - repeat constructor; discriminate.
  - eexists; split; reflexivity.
Qed.

Theorem C03_boundary_bins :
  forall (X : Ext XRa) (nd : node) (l : list R),
    n_name nd = "boundaries" ->
    to_reals X (n_text nd) = map Fin l -> increasing l ->
    exists b,
      bins_create X nd = Ok b
      /\ bins_size b = N.of_nat (length l + 1)
      /\ bins_boundaries b = map Fin l
      /\ forall v, bins_index b (Fin v)
                   = Ok (N.of_nat (count_le (fun i => nth i l 0) (length l) v)).
Proof. exact C03_boundary_bins_proof. Qed.
Print Assumptions C03_boundary_bins.

Example C03_case :
  let X := text_ext XRa [] in
  let nd := lone (text_node "boundaries" "1 2 4") in
  n_name nd = "boundaries" /\ to_reals X (n_text nd) = map Fin [1; 2; 4] /\ increasing [1; 2; 4].
Proof.
  cbv zeta; parts; cbn; try lra; decs; reflexivity.
Qed.

(** C04: particles, bins and score slots. *)
Theorem C04_particle_bins :
  forall (X : Ext XRa) (nd : node) (pb : particle_bins XRa),
    pbins_create X nd = Ok pb ->
    proper_bins (pb_cosine pb) -> proper_bins (pb_energy pb) ->
    (bins_size (pb_cosine pb) * bins_size (pb_energy pb) < 2 ^ 64)%N ->
    pbins_size pb = (bins_size (pb_cosine pb) * bins_size (pb_energy pb))%N
    (* every particle has a slot inside the score array *)
    /\ (forall dir en c e, cosine_bin pb dir c -> energy_bin pb en e ->
          exists i, pbins_index pb (pt dir) en = Ok i /\ (i < pbins_size pb)%N)
    (* the same slot iff the same pair of bins *)
    /\ (forall dir1 en1 c1 e1 i1 dir2 en2 c2 e2 i2,
          cosine_bin pb dir1 c1 -> energy_bin pb en1 e1 ->
          cosine_bin pb dir2 c2 -> energy_bin pb en2 e2 ->
          pbins_index pb (pt dir1) en1 = Ok i1 ->
          pbins_index pb (pt dir2) en2 = Ok i2 ->
          (i1 = i2 <-> c1 = c2 /\ e1 = e2))
    (* every slot belongs to a pair of bins *)
    /\ (forall i, (i < pbins_size pb)%N ->
          exists c e, (c < bins_size (pb_cosine pb))%N /\ (e < bins_size (pb_energy pb))%N
            /\ forall dir en, cosine_bin pb dir c -> energy_bin pb en e ->
                 pbins_index pb (pt dir) en = Ok i)
    (* without a cosine node the direction does not matter *)
    /\ (n_child nd "cosine" = None ->
          bins_size (pb_cosine pb) = 1%N
          /\ forall dir1 dir2 en, pbins_index pb dir1 en = pbins_index pb dir2 en).
Proof. exact C04_particle_bins_proof. Qed.
Print Assumptions C04_particle_bins.

Example C04_case :
  let X := text_ext XRa [] in
  let nd := lone (group "bins"
      [Elem "cosine" [("u", "0"); ("v", "0"); ("w", "1")]
         [leaf "linspace" [("bins", "10"); ("min", "-1"); ("max", "1")]] "";
       group "energy" [leaf "logspace" [("bins", "2"); ("min", "-1"); ("max", "1")]]]) in
  exists pb, pbins_create X nd = Ok pb
    /\ proper_bins (pb_cosine pb) /\ proper_bins (pb_energy pb)
    /\ (bins_size (pb_cosine pb) * bins_size (pb_energy pb) < 2 ^ 64)%N
    /\ pbins_size pb = 48%N
    /\ (exists c, cosine_bin pb (V3 0 0 1) c)
    /\ (exists e, energy_bin pb (ContinuousE (A := XRa) (Fin 3)) e).
Proof.
  cbv zeta. set (X := text_ext XRa []).
  set (nc := lone (leaf "linspace" [("bins", "10"); ("min", "-1"); ("max", "1")])).
  set (ne := lone (leaf "logspace" [("bins", "2"); ("min", "-1"); ("max", "1")])).
  match goal with |- context [pbins_create X ?n] => set (nd := n) end.
  destruct (linspace_make (n_path (n_first_child (n_child nd "cosine"))) 10 (-1) 1)
    as (bc & Ec & Sc & _); try lra; try lia.
  destruct (logspace_make (n_path (n_first_child (n_child nd "energy"))) 2 10 (-1) 1)
    as (be & Ee & Se & _); try lra; try lia.
  assert (Pc : proper_bins bc) by (eapply proper_linspace; [| | |exact Ec]; try lra; try lia).
  assert (Pe : proper_bins be) by (eapply proper_logspace; [| | | |exact Ee]; try lra; try lia).
  assert (B1 : bins_create X (n_first_child (n_child nd "cosine")) = Ok bc).
  { rewrite <- Ec. cbn. decs. reflexivity. }
  assert (B2 : bins_create X (n_first_child (n_child nd "energy")) = Ok be).
  { rewrite <- Ee. cbn. decs. reflexivity. }
  eexists. unfold pbins_create. rewrite B1, B2. cbn [is_null noexcept bind].
  split; [reflexivity|]. cbn [make_pbins pb_cosine pb_energy].
  split; [auto|split; [auto|]]. rewrite Sc, Se. split; [lia|].
  split; [unfold pbins_size; cbn [pb_cosine pb_stride make_pbins]; rewrite Sc, Se; reflexivity|].
  split.
  - destruct (proper_total bc (dot (V3 0 0 1) (V3 0 0 1)) Pc) as (c & I & _).
    { unfold make_linspace in Ec. destruct (nleb _ _ _); [discriminate|]. injection Ec as <-. exact Logic.I. }
    exists c. unfold cosine_bin. cbn [pb_direction make_pbins pb_cosine].
    exists (V3 0 0 1). split; [|split].
    + unfold dir_xyz. etransitivity; [|apply (unit_norm1 (V3 0 0 1))].
      * cbn [as_double]. unfold pt. do 2 f_equal; cbn; decs; reflexivity.
      * unfold unit, norm, dot; cbn. replace (_ + _) with 1 by ring. apply sqrt_1.
    + unfold make_linspace in Ec. destruct (nleb _ _ _); [discriminate|]. injection Ec as <-. exact Logic.I.
    + exact I.
  - destruct (proper_total be 3 Pe) as (e & I & _).
    { unfold make_logspace in Ee. destruct (nleb _ _ _); [discriminate|]. injection Ee as <-. cbn; lra. }
    exists e. exists 3. split; [reflexivity|split; auto].
    cbn [pb_energy make_pbins]. unfold make_logspace in Ee. destruct (nleb _ _ _); [discriminate|]. injection Ee as <-. cbn; lra.
Qed.

(** C05: what is rejected and what is stored. *)
Theorem C05_linspace_validation :
  forall (A : Arith) (X : Ext A) (nd : node),
    n_name nd = "linspace" \/ n_name nd = "logspace" ->
    let lo := as_double X (n_attr nd "min") in
    let hi := as_double X (n_attr nd "max") in
    ((exists msg, bins_create X nd = Throw msg) <-> nleb A hi lo = true)
    /\ (nleb A hi lo = false -> exists b, bins_create X nd = Ok b).
Proof. exact C05_linspace_validation_proof. Qed.
Print Assumptions C05_linspace_validation.

Theorem C05_boundaries_validation :
  forall (A : Arith) (X : Ext A) (nd : node),
    n_name nd = "boundaries" ->
    let l := to_reals X (n_text nd) in
    let bad := exists i a b, nth_error (nopp A (ninf A) :: l) i = Some a
                             /\ nth_error l i = Some b /\ nleb A b a = true in
    ((exists msg, bins_create X nd = Throw msg) <-> bad)
    /\ (~ bad -> bins_create X nd = Ok (BoundaryBins l)).
Proof. exact C05_boundaries_validation_proof. Qed.
Print Assumptions C05_boundaries_validation.

Theorem C05_boundaries_validation_reals :
  forall (X : Ext XRa) (nd : node) (l : list R),
    n_name nd = "boundaries" -> to_reals X (n_text nd) = map Fin l ->
    ((exists msg, bins_create X nd = Throw msg) <-> ~ increasing l)
    /\ (increasing l ->
        exists b, bins_create X nd = Ok b /\ bins_boundaries b = map Fin l).
Proof. exact C05_boundaries_validation_reals_proof. Qed.
Print Assumptions C05_boundaries_validation_reals.

Theorem C05_estimator_bins_abort :
  forall (A : Arith) (X : Ext A) (nd : node) msg,
    bins_create X (n_first_child (n_child nd "cosine")) = Throw msg
    \/ ((exists c, bins_create X (n_first_child (n_child nd "cosine")) = Ok c)
        /\ bins_create X (n_first_child (n_child nd "energy")) = Throw msg) ->
    pbins_create X nd = Terminate.
Proof. exact C05_estimator_bins_abort_proof. Qed.
Print Assumptions C05_estimator_bins_abort.

Example C05_case :
  let X := text_ext XRa [] in
  (exists msg, bins_create X (lone (leaf "linspace" [("bins", "4"); ("min", "2"); ("max", "1")]))
               = Throw msg)
  /\ (exists msg, bins_create X (lone (text_node "boundaries" "1 3 2")) = Throw msg)
  /\ (exists b, bins_create X (lone (text_node "boundaries" "1 2 3")) = Ok b)
  /\ pbins_create X (lone (group "bins" [group "energy" [text_node "boundaries" "1 3 2"]]))
     = Terminate.
Proof.
  cbv zeta.
  assert (R : exists msg, bins_create (text_ext XRa []) (lone (text_node "boundaries" "1 3 2"))
                          = Throw msg).
  { apply (C05_boundaries_validation_reals _ _ [1; 3; 2]).
    - reflexivity.
    - cbn. decs. reflexivity.
    - cbn; lra. }
  split; [|split; [exact R|split]].
  - apply C05_linspace_validation; [left; reflexivity|]. cbn. decs. apply Rleb_true; lra.
  - destruct (C05_boundaries_validation_reals (text_ext XRa [])
                (lone (text_node "boundaries" "1 2 3")) [1; 2; 3]) as [_ H].
    + reflexivity.
    + cbn. decs. reflexivity.
    + destruct H as (b & E & _); [cbn; lra|eauto].
  - assert (R2 : exists msg, bins_create (text_ext XRa []) (n_first_child (n_child
        (lone (group "bins" [group "energy" [text_node "boundaries" "1 3 2"]])) "energy"))
        = Throw msg).
    { apply (C05_boundaries_validation_reals _ _ [1; 3; 2]).
      - reflexivity.
      - cbn. decs. reflexivity.
      - cbn; lra. }
    destruct R2 as [msg R2]. eapply C05_estimator_bins_abort. right. split; [|exact R2].
    eexists; reflexivity.
Qed.
