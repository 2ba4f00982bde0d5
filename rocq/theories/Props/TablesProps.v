(** Tables and data sets: properties C17-C20. *)
From Coq Require Import String List Reals ZArith NArith Lra Lia.
From Verif Require Import Model.Num Model.Outcome Model.Rng Model.Xml Model.Std Model.Types
  Model.Tables Spec.BinsSpec Spec.TablesSpec Spec.TextExt Proofs.RealLib Proofs.TablesProofs.
Import ListNotations.
Local Open Scope R_scope.

(** C17 *)
Theorem C17_table_lookup :
  forall (l : list (R * R)) (first final : R * R),
  hd_error l = Some first -> hd_error (rev l) = Some final -> increasing (map fst l) ->
  exists f : R -> R,
    (forall k, cm1_at (A := XRa) (table l) (Fin k) = Ok (Fin (f k)))
    /\ (forall k v, In (k, v) l -> f k = v)
    /\ (forall k, k <= fst first -> f k = snd first)
    /\ (forall k, fst final <= k -> f k = snd final)
    /\ (forall k0 v0 k1 v1 k, neighbours l k0 v0 k1 v1 -> k0 <= k <= k1 ->
          f k = chord k0 v0 k1 v1 k /\ Rmin v0 v1 <= f k <= Rmax v0 v1)
    /\ continuity f.
Proof. exact C17_table_lookup_proof. Qed.
Print Assumptions C17_table_lookup.

Example C17_case :
  let l := [(1, 10); (2, 30); (4, 20)] in
  hd_error l = Some (1, 10) /\ hd_error (rev l) = Some (4, 20) /\ increasing (map fst l)
  /\ neighbours l 2 30 4 20 /\ cm1_at (A := XRa) (table l) (Fin 3) = Ok (Fin 25).
Proof.
  cbv zeta. repeat split; cbn; try lra.
  - now exists [(1, 10)], [].
  - unfold cm1_at; cbn. rewrite !Rltb_false, Rltb_true by lra.
    cbn. rewrite Reqb_false by lra. unfold xmul. do 2 f_equal. field.
Qed.

(** C18 *)
Theorem C18_nested_lookup :
  exists value : forall d, nested d -> list R -> R,
    (forall d m ks, well_formed d m -> length ks = d ->
       cm_at (A := XRa) d (stored_table d m) (map Fin ks) = Ok (Fin (value d m ks)))
    /\ (forall v, value 0%nat v [] = v)
    /\ (forall d (m : nested (S d)) k ks, well_formed (S d) m -> length ks = d ->
          cm1_at (A := XRa) (table (map (fun e => (fst e, value d (snd e) ks)) m)) (Fin k)
          = Ok (Fin (value (S d) m (k :: ks))))
    /\ (forall d m ks v, well_formed d m -> stored_at d m ks v -> value d m ks = v).
Proof. exact C18_nested_lookup_proof. Qed.
Print Assumptions C18_nested_lookup.

Example C18_case :
  let m : nested 2 := [(1, [(1, 10); (2, 30)]); (3, [(5, 7)])] in
  well_formed 2 m /\ stored_at 2 m [1; 2] 30 /\ stored_at 2 m [3; 5] 7.
Proof.
  cbv zeta. split; [|split].
  - split; [discriminate|split]; [cbn; lra|]. intros e [<-|[<-|[]]]; cbn.
    + repeat split; try discriminate; lra.
    + repeat split; discriminate.
  - exists 1, [(1, 10); (2, 30)], [2]. split; [reflexivity|split; [now left|]].
    exists 2, 30, []. split; [reflexivity|split; [right; now left|now split]].
  - exists 3, [(5, 7)], [5]. split; [reflexivity|split; [right; now left|]].
    exists 5, 7, []. split; [reflexivity|split; [now left|now split]].
Qed.

(** C19 *)
Theorem C19_dataset_row_major :
  forall (A : Arith) (X : Ext A) path axes values,
  h5_file X path = Some (axes, values) -> axes <> [] ->
  N.of_nat (length values) = volume (shape_of axes) ->
  exists ds, dataset_load X (length axes) path = Ok ds
    (* indices in range: the element in row-major position *)
    /\ (forall is, in_shape (shape_of axes) is ->
          exists v, ds_at ds is = Ok v
                    /\ nth_error values (N.to_nat (row_major (shape_of axes) is)) = Some v)
    (* distinct indices address distinct positions, every position is addressed *)
    /\ (forall is js, in_shape (shape_of axes) is -> in_shape (shape_of axes) js ->
          row_major (shape_of axes) is = row_major (shape_of axes) js -> is = js)
    /\ (forall n, (n < N.of_nat (length values))%N ->
          exists is, in_shape (shape_of axes) is /\ row_major (shape_of axes) is = n)
    (* the first index out of range is reported with its level *)
    /\ (forall ok i others axis,
          length (ok ++ i :: others) = length axes ->
          in_shape (firstn (length ok) (shape_of axes)) ok ->
          nth_error axes (length ok) = Some axis -> (N.of_nat (length axis) <= i)%N ->
          ds_at ds (ok ++ i :: others) =
          Throw ("Out-of-range (level, index): (" ++ show_N (N.of_nat (length ok)) ++ ", "
                 ++ show_N i ++ ")")%string).
Proof. exact C19_dataset_row_major_proof. Qed.
Print Assumptions C19_dataset_row_major.

Example C19_case :
  let axes := [[Fin 1; Fin 2]; [Fin 5; Fin 6; Fin 7]] in
  let values := map (fun z => Fin (IZR z)) [0; 1; 2; 10; 11; 12]%Z in
  let X := text_ext XRa [("data.hdf5"%string, (axes, values))] in
  h5_file X "data.hdf5" = Some (axes, values) /\ axes <> []
  /\ N.of_nat (length values) = volume (shape_of axes)
  /\ in_shape (shape_of axes) [1; 2]%N /\ row_major (shape_of axes) [1; 2]%N = 5%N
  /\ in_shape (firstn 1 (shape_of axes)) [1]%N /\ nth_error axes 1 = Some [Fin 5; Fin 6; Fin 7]
  /\ (bind (dataset_load X 2 "data.hdf5") (fun ds => ds_at ds [1; 3]%N)
      = Throw "Out-of-range (level, index): (1, 3)")%string.
Proof. cbv zeta. repeat split; try discriminate; repeat constructor. Qed.

(** C20 *)
Theorem C20_dataset_to_table :
  forall (axes : list (list R)) (values : list R) (is : list N) (keys : list R),
  axes <> [] -> (forall a, In a axes -> increasing a) ->
  N.of_nat (length values) = volume (shape_of axes) ->
  length keys = length axes ->
  (* keys are the axis values at the indices *)
  Forall2 (fun i (ak : list R * R) => nth_error (fst ak) (N.to_nat i) = Some (snd ak)) is
    (combine axes keys) ->
  let ds := make_dataset (A := XRa) (map (map Fin) axes) (map Fin values) in
  exists m v, to_cmap ds (length axes) [] = Ok m
    /\ cm_at (length axes) m (map Fin keys) = Ok (Fin v)
    /\ ds_at ds is = Ok (Fin v).
Proof. exact C20_dataset_to_table_proof. Qed.
Print Assumptions C20_dataset_to_table.

Example C20_case :
  let axes := [[1; 2]; [5; 6; 7]] in
  let values := map IZR [0; 1; 2; 10; 11; 12]%Z in
  axes <> [] /\ (forall a, In a axes -> increasing a)
  /\ N.of_nat (length values) = volume (shape_of axes) /\ length [2; 5] = length axes
  /\ Forall2 (fun i (ak : list R * R) => nth_error (fst ak) (N.to_nat i) = Some (snd ak))
       [1; 0]%N (combine axes [2; 5]).
Proof.
  cbv zeta. repeat split; try discriminate; repeat constructor.
  intros a [<-|[<-|[]]]; cbn; lra.
Qed.
