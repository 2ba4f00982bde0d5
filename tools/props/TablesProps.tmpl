(** Tables and data sets: properties C17-C20. *)
From Coq Require Import String List Reals ZArith NArith Lra Lia.
From Verif Require Import Model.Num Model.Outcome Model.Rng Model.Xml Model.Std Model.Types
  Model.Tables Spec.BinsSpec Spec.TablesSpec Spec.TextExt Proofs.RealLib Proofs.TablesProofs.
Import ListNotations.
Local Open Scope R_scope.

(** C17 *)
@@C17_table_lookup

Example C17_case :
  let l := [(1, 10); (2, 30); (4, 20)] in
  hd_error l = Some (1, 10) /\ hd_error (rev l) = Some (4, 20) /\ increasing (map fst l)
  /\ neighbours l 2 30 4 20 /\ cm1_at (A := XRa) (table l) (Fin 3) = Ok (Fin 25).
Proof.
  cbv zeta. repeat split; cbn; try lra.
  - now exists [(1, 10)], [].
  - unfold cm1_at; cbn. rewrite !Rltb_false, Rltb_true by lra.
    cbn. rewrite Reqb_false by lra. unfold xmul. do 2 f_equal. field.
Qed.

(** C18 *)
@@C18_nested_lookup

Example C18_case :
  let m : nested 2 := [(1, [(1, 10); (2, 30)]); (3, [(5, 7)])] in
  well_formed 2 m /\ stored_at 2 m [1; 2] 30 /\ stored_at 2 m [3; 5] 7.
Proof.
  cbv zeta. split; [|split].
  - split; [discriminate|split]; [cbn; lra|]. intros e [<-|[<-|[]]]; cbn.
    + repeat split; try discriminate; lra.
    + repeat split; discriminate.
  - exists 1, [(1, 10); (2, 30)], [2]. split; [reflexivity|split; [now left|]].
    exists 2, 30, []. split; [reflexivity|split; [right; now left|now split]].
  - exists 3, [(5, 7)], [5]. split; [reflexivity|split; [right; now left|]].
    exists 5, 7, []. split; [reflexivity|split; [now left|now split]].
Qed.

(** C19 *)
@@C19_dataset_row_major

Example C19_case :
  let axes := [[Fin 1; Fin 2]; [Fin 5; Fin 6; Fin 7]] in
  let values := map (fun z => Fin (IZR z)) [0; 1; 2; 10; 11; 12]%Z in
  let X := text_ext XRa [("data.hdf5"%string, (axes, values))] in
  h5_file X "data.hdf5" = Some (axes, values) /\ axes <> []
  /\ N.of_nat (length values) = volume (shape_of axes)
  /\ in_shape (shape_of axes) [1; 2]%N /\ row_major (shape_of axes) [1; 2]%N = 5%N
  /\ in_shape (firstn 1 (shape_of axes)) [1]%N /\ nth_error axes 1 = Some [Fin 5; Fin 6; Fin 7]
  /\ (bind (dataset_load X 2 "data.hdf5") (fun ds => ds_at ds [1; 3]%N)
      = Throw "Out-of-range (level, index): (1, 3)")%string.
Proof. cbv zeta. repeat split; try discriminate; repeat constructor. Qed.

(** C20 *)
@@C20_dataset_to_table

Example C20_case :
  let axes := [[1; 2]; [5; 6; 7]] in
  let values := map IZR [0; 1; 2; 10; 11; 12]%Z in
  axes <> [] /\ (forall a, In a axes -> increasing a)
  /\ N.of_nat (length values) = volume (shape_of axes) /\ length [2; 5] = length axes
  /\ Forall2 (fun i (ak : list R * R) => nth_error (fst ak) (N.to_nat i) = Some (snd ak))
       [1; 0]%N (combine axes [2; 5]).
Proof.
  cbv zeta. repeat split; try discriminate; repeat constructor.
  intros a [<-|[<-|[]]]; cbn; lra.
Qed.
