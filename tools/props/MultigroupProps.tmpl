(** Multigroup data and collisions: properties C21-C27. *)
From Coq Require Import String List Reals ZArith NArith Lra Lia.
From Coquelicot Require Import Coquelicot.
From Verif Require Import Model.Num Model.Outcome Model.Rng Model.Xml Model.Std Model.Types
  Model.Tables Model.Particle Model.Multigroup Model.Continuous Spec.Vec Spec.BinsSpec Spec.TablesSpec
  Spec.SumSpec Spec.RngSpec Spec.DirectionSpec Spec.MultigroupSpec Spec.TextExt Proofs.RealLib
  Proofs.RngProofs Proofs.MultigroupProofs Proofs.MultigroupReal Proofs.FissionProofs.
Import ListNotations.
Local Open Scope string_scope.
Local Open Scope R_scope.

(** A two-group nuclide with capture, scattering and fission. *)
Definition example_neutron : xml :=
  Elem "neutron" [] [text_node "capture" "1 2"; text_node "scatter" "3 0 1 5";
    Elem "fission" [] [text_node "xs" "1 2"; text_node "nubar" "2.5 2";
                       text_node "chi" "1 1 0 1"] ""] "".
Definition example_root : node :=
  document [Elem "nuclides" [] [Elem "multigroup" [("groups", "2")]
    [Elem "nuclide" [("name", "fuel")] [example_neutron] ""] ""] ""]%string.
Definition example_node : node :=
  n_child (n_child (n_child (n_child example_root "nuclides") "multigroup") "nuclide") "neutron".
Definition example_ext : Ext XRa := text_ext XRa [].

Lemma example_sensible : sensible_data example_ext example_node.
Proof.
  constructor.
  - intros c Hc _. cbn in Hc.
    repeat (destruct Hc as [<-|Hc]; [cbn; repeat constructor; eexists; (split; [reflexivity|decs; lra])|]).
    destruct Hc.
  - intros _. split; discriminate.
  - cbn. repeat constructor; cbn; decs; lra.
  - reflexivity.
Qed.

Lemma example_created : exists m, multigroup_create example_ext example_node = Ok m.
Proof. eexists. vm_compute. reflexivity. Qed.

Lemma example_groups : groups (written_groups example_ext example_node) = [1; 2]%N.
Proof. reflexivity. Qed.

Ltac example_data :=
  unfold sigma, column_sum, column_below, weight, written_xs;
  rewrite ?example_groups; cbn; unfold Pos.to_nat; cbn; decs; try lra.

(** C21 *)
@@C21_total_is_sum
@@C21_total_reals

Example C21_case :
  (exists m, multigroup_create example_ext example_node = Ok m)
  /\ sensible_data example_ext example_node
  /\ groups (written_groups example_ext example_node) = [1; 2]%N
  /\ sigma example_ext example_node Rcapture 2 = 2
  /\ sigma example_ext example_node Rscatter 2 = 5
  /\ sigma example_ext example_node Rfission 2 = 2.
Proof.
  split; [exact example_created|]. split; [exact example_sensible|].
  split; [exact example_groups|]. repeat split; example_data.
Qed.

(** C22 *)
@@C22_transfer_probabilities

Example C22_case :
  (exists m, multigroup_create example_ext example_node = Ok m)
  /\ chi_node example_node <> None /\ scatter_node example_node <> None
  /\ nonneg_numbers example_ext (chi_node example_node)
  /\ column_sum example_ext example_node (scatter_node example_node) 1 = 4
  /\ weight example_ext example_node (scatter_node example_node) 2 1 = 1
  /\ column_sum example_ext example_node (chi_node example_node) 2 = 2.
Proof.
  split; [exact example_created|]. split; [discriminate|]. split; [discriminate|].
  split.
  - apply (sd_nonneg _ _ example_sensible); [do 4 right; now left|discriminate].
  - repeat split; example_data.
Qed.

(** C23 *)
@@C23_group_lists
@@C23_rejected

(** A list with a missing number stops the construction, and says where. *)
Example C23_case :
  let bad := document [Elem "nuclides" [] [Elem "multigroup" [("groups", "2")]
    [Elem "nuclide" [("name", "fuel")]
       [Elem "neutron" [] [text_node "capture" "1 2"; text_node "scatter" "3 0 1"] ""] ""] ""] ""] in
  let n := n_child (n_child (n_child (n_child bad "nuclides") "multigroup") "nuclide") "neutron" in
  multigroup_create example_ext n
  = Throw "/minimc/nuclides/multigroup/nuclide/neutron/scatter: Expected 4 entries but got 3"
  /\ exists m, multigroup_create example_ext example_node = Ok m.
Proof. split; [reflexivity|exact example_created]. Qed.

(** C24 *)
@@C24_reaction_choice

Example C24_case :
  valid_rng (Minstd XRa) /\ sensible_data example_ext example_node
  /\ (exists m, multigroup_create example_ext example_node = Ok m)
  /\ 0 < sigma example_ext example_node Rcapture 1 + sigma example_ext example_node Rscatter 1
       + sigma example_ext example_node Rfission 1.
Proof.
  split; [exact minstd_valid|]. split; [exact example_sensible|].
  split; [exact example_created|]. example_data.
Qed.

(** C25 *)
@@C25_scatter_groups

(** A collision that is a scatter exists: in group 1 the shares are capture 1,
    scatter 4, fission 1, so a draw of one half scatters. *)
Definition half_rng : Rng XRa :=
  mkRng XRa Datatypes.unit (fun _ => tt) (fun s => (1%Z, s)) (fun s => (Fin (1 / 2), s)).
Lemma half_valid : valid_rng half_rng.
Proof. intros s. exists (1 / 2). split; [reflexivity|lra]. Qed.
Definition example_particle : particle XRa half_rng :=
  new_particle (G := half_rng) (pt (V3 0 0 0)) (pt (V3 1 0 0))
    (Group 1) neutron 1 None.

Example C25_case :
  exists m q, multigroup_create example_ext example_node = Ok m
    /\ mg_interact m example_particle = Ok q /\ p_event q = scatter.
Proof.
  destruct example_created as (m & E).
  destruct (C24_reaction_choice half_rng example_ext example_node m example_particle 1)
    as (u & q & Hu & _ & Eq & _ & Hs & _); auto.
  - exact half_valid.
  - exact example_sensible.
  - rewrite example_groups. now left.
  - example_data.
  - exists m, q. split; [exact E|]. split; [exact Eq|]. apply Hs.
    cbn in Hu. injection Hu as <-.
    replace (sigma example_ext example_node Rcapture 1) with 1 by example_data.
    replace (sigma example_ext example_node Rscatter 1) with 4 by example_data.
    replace (sigma example_ext example_node Rfission 1) with 1 by example_data. lra.
Qed.

(** C26 *)
@@C26_emitted_neutrons
@@C26_mean_yield

Example C26_case : Int_part (2.5 + 0.4) = 2%Z /\ Int_part (2.5 + 0.6) = 3%Z
  /\ exists E nu, cm1_at (A := XRa) (table [(1, 2); (3, 4)]) (Fin E) = Ok (Fin nu)
       /\ 0 <= nu < IZR (2 ^ 63).
Proof.
  split; [apply floor_unique; lra|]. split; [apply floor_unique; lra|].
  exists 2, 3. split; [|split; [lra|apply IZR_lt; reflexivity]].
  unfold cm1_at; cbn. rewrite Rltb_false, Rltb_true by lra.
  cbn. rewrite Reqb_false by lra. unfold xmul. do 2 f_equal. field.
Qed.

(** C27 *)
@@C27_multigroup_secondaries
@@C27_continuous_secondaries

(** With capture and scatter absent, every collision is a fission. *)
Definition fissile_node : node :=
  n_child (n_child (n_child (n_child
    (document [Elem "nuclides" [] [Elem "multigroup" [("groups", "2")]
      [Elem "nuclide" [("name", "fuel")]
        [Elem "neutron" [] [Elem "fission" [] [text_node "xs" "1 2"; text_node "nubar" "2.5 2";
                            text_node "chi" "1 1 0 1"] ""] ""] ""] ""] ""])
    "nuclides") "multigroup") "nuclide") "neutron".

Example C27_case :
  (exists m q, multigroup_create example_ext fissile_node = Ok m
     /\ mg_interact m example_particle = Ok q /\ p_event q = fission)
  /\ sensible_data example_ext fissile_node
  /\ exists E nu, cm1_at (A := XRa) (table [(1, 2); (3, 4)]) (Fin E) = Ok (Fin nu)
       /\ 0 <= nu < IZR (2 ^ 63).
Proof.
  assert (Sd : sensible_data example_ext fissile_node).
  { constructor.
    - intros c Hc Nc. cbn in Hc.
      repeat (destruct Hc as [<-|Hc];
        [try congruence; cbn; repeat constructor; eexists; (split; [reflexivity|decs; lra])|]).
      destruct Hc.
    - intros _. split; discriminate.
    - cbn. repeat constructor; cbn; decs; lra.
    - reflexivity. }
  assert (Sg : sigma example_ext fissile_node Rcapture 1 = 0
            /\ sigma example_ext fissile_node Rscatter 1 = 0
            /\ sigma example_ext fissile_node Rfission 1 = 1).
  { repeat split; example_data. }
  destruct Sg as (Sc & Ss & Sf). split; [|split; [exact Sd|]].
  - assert (Ec : exists m, multigroup_create example_ext fissile_node = Ok m)
      by (eexists; vm_compute; reflexivity).
    destruct Ec as (m & E).
    destruct (C24_reaction_choice half_rng example_ext fissile_node m example_particle 1)
      as (u & q & Hu & Hu1 & Eq & _ & _ & Hf & _); auto.
    + exact half_valid.
    + now left.
    + rewrite Sc, Ss, Sf. lra.
    + exists m, q. split; [exact E|]. split; [exact Eq|]. apply Hf. rewrite Sc, Ss, Sf. lra.
  - exists 2, 3. split; [|split; [lra|apply IZR_lt; reflexivity]].
    unfold cm1_at; cbn. rewrite Rltb_false, Rltb_true by lra.
    cbn. rewrite Reqb_false by lra. unfold xmul. do 2 f_equal. field.
Qed.
