(** Multigroup data and collisions: properties C21-C27. *)
From Coq Require Import String List Reals ZArith NArith Lra Lia.
From Coquelicot Require Import Coquelicot.
From Verif Require Import Model.Num Model.Outcome Model.Rng Model.Xml Model.Std Model.Types
  Model.Tables Model.Particle Model.Multigroup Model.Continuous Spec.Vec Spec.BinsSpec Spec.TablesSpec
  Spec.SumSpec Spec.RngSpec Spec.DirectionSpec Spec.MultigroupSpec Spec.TextExt Proofs.RealLib
  Proofs.RngProofs Proofs.MultigroupProofs Proofs.MultigroupReal Proofs.FissionProofs.
Import ListNotations.
Local Open Scope string_scope.
Local Open Scope R_scope.

(** A two-group nuclide with capture, scattering and fission. *)
Definition example_neutron : xml :=
  Elem "neutron" [] [text_node "capture" "1 2"; text_node "scatter" "3 0 1 5";
    Elem "fission" [] [text_node "xs" "1 2"; text_node "nubar" "2.5 2";
                       text_node "chi" "1 1 0 1"] ""] "".
Definition example_root : node :=
  document [Elem "nuclides" [] [Elem "multigroup" [("groups", "2")]
    [Elem "nuclide" [("name", "fuel")] [example_neutron] ""] ""] ""]%string.
Definition example_node : node :=
  n_child (n_child (n_child (n_child example_root "nuclides") "multigroup") "nuclide") "neutron".
Definition example_ext : Ext XRa := text_ext XRa [].

Lemma example_sensible : sensible_data example_ext example_node.
Proof.
  constructor.
  - intros c Hc _. cbn in Hc.
    repeat (destruct Hc as [<-|Hc]; [cbn; repeat constructor; eexists; (split; [reflexivity|decs; lra])|]).
    destruct Hc.
  - intros _. split; discriminate.
  - cbn. repeat constructor; cbn; decs; lra.
  - reflexivity.
Qed.

Lemma example_created : exists m, multigroup_create example_ext example_node = Ok m.
Proof. eexists. vm_compute. reflexivity. Qed.

Lemma example_groups : groups (written_groups example_ext example_node) = [1; 2]%N.
Proof. reflexivity. Qed.

Ltac example_data :=
  unfold sigma, column_sum, column_below, weight, written_xs;
  rewrite ?example_groups; cbn; unfold Pos.to_nat; cbn; decs; try lra.

(** C21 *)
Theorem C21_total_is_sum :
  forall (A : Arith) (G : Rng A) (X : Ext A) n m (p : particle A G) g,
  multigroup_create X n = Ok m ->
  In g (groups (written_groups X n)) -> (g < 2 ^ 64)%N -> p_energy p = Group g ->
  mg_get_total m p =
  Ok (sum_left (somes (map (fun r => written_xs X n r g) [Rcapture; Rscatter; Rfission]))).
Proof. exact C21_total_is_sum_proof. Qed.
Print Assumptions C21_total_is_sum.
Theorem C21_total_reals :
  forall (G : Rng XRa) (X : Ext XRa) n m (p : particle XRa G) g,
  multigroup_create X n = Ok m -> sensible_data X n ->
  In g (groups (written_groups X n)) -> p_energy p = Group g ->
  mg_get_total m p = Ok (Fin (sigma X n Rcapture g + sigma X n Rscatter g + sigma X n Rfission g))
  /\ (scatter_node n <> None -> sigma X n Rscatter g = column_sum X n (scatter_node n) g).
Proof. exact C21_total_reals_proof. Qed.
Print Assumptions C21_total_reals.

Example C21_case :
  (exists m, multigroup_create example_ext example_node = Ok m)
  /\ sensible_data example_ext example_node
  /\ groups (written_groups example_ext example_node) = [1; 2]%N
  /\ sigma example_ext example_node Rcapture 2 = 2
  /\ sigma example_ext example_node Rscatter 2 = 5
  /\ sigma example_ext example_node Rfission 2 = 2.
Proof.
  split; [exact example_created|]. split; [exact example_sensible|].
  split; [exact example_groups|]. repeat split; example_data.
Qed.

(** C22 *)
Theorem C22_transfer_probabilities :
  forall (X : Ext XRa) n m c stored g,
  multigroup_create X n = Ok m ->
  c = scatter_node n /\ stored = mg_scatter_probs m \/ c = chi_node n /\ stored = mg_chi m ->
  c <> None -> nonneg_numbers X c ->
  In g (groups (written_groups X n)) -> (g < 2 ^ 64)%N ->
  exists probs col,
    stored = Some probs /\ group_at probs g = Ok (map Fin col)
    /\ length col = N.to_nat (written_groups X n)
    /\ (forall h, In h (groups (written_groups X n)) ->
          0 <= nth (N.to_nat (h - 1)) col 0
          /\ nth (N.to_nat (h - 1)) col 0 * column_sum X n c g = weight X n c h g
          /\ (column_sum X n c g = 0 -> nth (N.to_nat (h - 1)) col 0 = 0))
    /\ (0 < column_sum X n c g -> Rsum col = 1).
Proof. exact C22_transfer_probabilities_proof. Qed.
Print Assumptions C22_transfer_probabilities.

Example C22_case :
  (exists m, multigroup_create example_ext example_node = Ok m)
  /\ chi_node example_node <> None /\ scatter_node example_node <> None
  /\ nonneg_numbers example_ext (chi_node example_node)
  /\ column_sum example_ext example_node (scatter_node example_node) 1 = 4
  /\ weight example_ext example_node (scatter_node example_node) 2 1 = 1
  /\ column_sum example_ext example_node (chi_node example_node) 2 = 2.
Proof.
  split; [exact example_created|]. split; [discriminate|]. split; [discriminate|].
  split.
  - apply (sd_nonneg _ _ example_sensible); [do 4 right; now left|discriminate].
  - repeat split; example_data.
Qed.

(** C23 *)
Theorem C23_group_lists :
  forall (A : Arith) (X : Ext A) (c : node),
  let G := written_groups X c in
  let found := N.of_nat (length (numbers X c)) in
  (one_dimensional X c = if (found =? G)%N then Ok (numbers X c)
     else Throw (n_path c ++ ": Expected " ++ show_N G ++ " entries but got " ++ show_N found))
  /\ (found <> (G * G)%N ->
      two_dimensional X c =
        Throw (n_path c ++ ": Expected " ++ show_N (G * G) ++ " entries but got " ++ show_N found))
  /\ (found = (G * G)%N ->
      exists v, two_dimensional X c = Ok v /\ length v = N.to_nat G
        /\ forall g h, In g (groups G) -> In h (groups G) ->
             nth (N.to_nat (h - 1)) (nth (N.to_nat (g - 1)) v []) (nofZ A 0) = matrix_entry X c G h g).
Proof. exact C23_group_lists_proof. Qed.
Print Assumptions C23_group_lists.
Theorem C23_rejected :
  forall (A : Arith) (X : Ext A) (n : node) (m : multigroup A),
  multigroup_create X n = Ok m ->
  let G := written_groups X n in
  let size c := N.of_nat (length (numbers X c)) in
  (n_child n "capture" <> None -> size (n_child n "capture") = G)
  /\ (scatter_node n <> None -> size (scatter_node n) = (G * G)%N)
  /\ (fission_node n <> None -> (0 < G)%N -> size (n_child (fission_node n) "xs") = G)
  /\ (nubar_node n <> None -> size (nubar_node n) = G)
  /\ (chi_node n <> None -> size (chi_node n) = (G * G)%N).
Proof. exact C23_rejected_proof. Qed.
Print Assumptions C23_rejected.

(** A list with a missing number stops the construction, and says where. *)
Example C23_case :
  let bad := document [Elem "nuclides" [] [Elem "multigroup" [("groups", "2")]
    [Elem "nuclide" [("name", "fuel")]
       [Elem "neutron" [] [text_node "capture" "1 2"; text_node "scatter" "3 0 1"] ""] ""] ""] ""] in
  let n := n_child (n_child (n_child (n_child bad "nuclides") "multigroup") "nuclide") "neutron" in
  multigroup_create example_ext n
  = Throw "/minimc/nuclides/multigroup/nuclide/neutron/scatter: Expected 4 entries but got 3"
  /\ exists m, multigroup_create example_ext example_node = Ok m.
Proof. split; [reflexivity|exact example_created]. Qed.

(** C24 *)
Theorem C24_reaction_choice :
  forall (G : Rng XRa) (X : Ext XRa) n m (p : particle XRa G) g,
  valid_rng G -> multigroup_create X n = Ok m -> sensible_data X n ->
  In g (groups (written_groups X n)) -> p_energy p = Group g ->
  let c := sigma X n Rcapture g in
  let s := sigma X n Rscatter g in
  let f := sigma X n Rfission g in
  0 < c + s + f ->
  exists u q, fst (runif G (p_rng p)) = Fin u /\ 0 <= u < 1 /\ mg_interact m p = Ok q
    /\ (p_event q = capture <-> 0 <= u * (c + s + f) < c)
    /\ (p_event q = scatter <-> c <= u * (c + s + f) < c + s)
    /\ (p_event q = fission <-> c + s <= u * (c + s + f) < c + s + f)
    /\ (p_event q = capture \/ p_event q = scatter \/ p_event q = fission).
Proof. exact C24_reaction_choice_proof. Qed.
Print Assumptions C24_reaction_choice.

Example C24_case :
  valid_rng (Minstd XRa) /\ sensible_data example_ext example_node
  /\ (exists m, multigroup_create example_ext example_node = Ok m)
  /\ 0 < sigma example_ext example_node Rcapture 1 + sigma example_ext example_node Rscatter 1
       + sigma example_ext example_node Rfission 1.
Proof.
  split; [exact minstd_valid|]. split; [exact example_sensible|].
  split; [exact example_created|]. example_data.
Qed.

(** C25 *)
Theorem C25_scatter_groups :
  forall (G : Rng XRa) (X : Ext XRa) n m (p q : particle XRa G) g,
  valid_rng G -> multigroup_create X n = Ok m -> sensible_data X n ->
  In g (groups (written_groups X n)) -> p_energy p = Group g ->
  0 < sigma X n Rcapture g + sigma X n Rscatter g + sigma X n Rfission g ->
  mg_interact m p = Ok q -> p_event q = scatter ->
  let w := weight X n (scatter_node n) in
  exists v h, fst (runif G (snd (runif G (p_rng p)))) = Fin v
    /\ In h (groups (written_groups X n)) /\ p_energy q = Group h
    /\ 0 < w h g
    /\ column_below X n (scatter_node n) h g <= v * column_sum X n (scatter_node n) g
       < column_below X n (scatter_node n) h g + w h g
    /\ is_alive q = true /\ unit_point (p_direction q) /\ same_place p q
    /\ p_secondaries q = p_secondaries p.
Proof. exact C25_scatter_groups_proof. Qed.
Print Assumptions C25_scatter_groups.

(** A collision that is a scatter exists: in group 1 the shares are capture 1,
    scatter 4, fission 1, so a draw of one half scatters. *)
Definition half_rng : Rng XRa :=
  mkRng XRa Datatypes.unit (fun _ => tt) (fun s => (1%Z, s)) (fun s => (Fin (1 / 2), s)).
Lemma half_valid : valid_rng half_rng.
Proof. intros s. exists (1 / 2). split; [reflexivity|lra]. Qed.
Definition example_particle : particle XRa half_rng :=
  new_particle (G := half_rng) (pt (V3 0 0 0)) (pt (V3 1 0 0))
    (Group 1) neutron 1 None.

Example C25_case :
  exists m q, multigroup_create example_ext example_node = Ok m
    /\ mg_interact m example_particle = Ok q /\ p_event q = scatter.
Proof.
  destruct example_created as (m & E).
  destruct (C24_reaction_choice half_rng example_ext example_node m example_particle 1)
    as (u & q & Hu & _ & Eq & _ & Hs & _); auto.
  - exact half_valid.
  - exact example_sensible.
  - rewrite example_groups. now left.
  - example_data.
  - exists m, q. split; [exact E|]. split; [exact Eq|]. apply Hs.
    cbn in Hu. injection Hu as <-.
    replace (sigma example_ext example_node Rcapture 1) with 1 by example_data.
    replace (sigma example_ext example_node Rscatter 1) with 4 by example_data.
    replace (sigma example_ext example_node Rfission 1) with 1 by example_data. lra.
Qed.

(** C26 *)
Theorem C26_emitted_neutrons :
  (* multigroup *)
  (forall (G : Rng XRa) (X : Ext XRa) n m (p q : particle XRa G) g,
   valid_rng G -> multigroup_create X n = Ok m -> sensible_data X n ->
   In g (groups (written_groups X n)) -> p_energy p = Group g ->
   0 < sigma X n Rcapture g + sigma X n Rscatter g + sigma X n Rfission g ->
   0 < column_sum X n (chi_node n) g ->
   mg_interact m p = Ok q -> p_event q = fission ->
   exists u, draw G 1 (p_rng p) = Fin u /\ 0 <= u < 1
     /\ Z.of_nat (length (p_secondaries q))
        = (Z.of_nat (length (p_secondaries p))
           + Int_part (real_of (vector_entry X (nubar_node n) g) + u))%Z)
  (* continuous energy *)
  /\ (forall (G : Rng XRa) fuel ev (nubar : cmap XRa 1) (p : particle XRa G) E nu,
      valid_rng G -> p_energy p = ContinuousE (A := XRa) (Fin E) ->
      cm1_at nubar (Fin E) = Ok (Fin nu) -> 0 <= nu -> nu < IZR (2 ^ 63) ->
      exists u q, draw G 0 (p_rng p) = Fin u /\ 0 <= u < 1
        /\ cr_interact fuel (CFission ev (Some nubar)) p = Ok q
        /\ Z.of_nat (length (p_secondaries q))
           = (Z.of_nat (length (p_secondaries p)) + Int_part (nu + u))%Z).
Proof. exact C26_emitted_neutrons_proof. Qed.
Print Assumptions C26_emitted_neutrons.
Theorem C26_mean_yield :
  forall nu, 0 <= nu ->
  (forall u, 0 <= u < 1 -> let k := Int_part nu in
     (Int_part (nu + u) = k \/ Int_part (nu + u) = (k + 1)%Z)
     /\ (Int_part (nu + u) = (k + 1)%Z <-> 1 - (nu - IZR k) <= u))
  /\ is_RInt (fun u => IZR (Int_part (nu + u))) 0 1 nu.
Proof. exact C26_mean_yield_proof. Qed.
Print Assumptions C26_mean_yield.

Example C26_case : Int_part (2.5 + 0.4) = 2%Z /\ Int_part (2.5 + 0.6) = 3%Z
  /\ exists E nu, cm1_at (A := XRa) (table [(1, 2); (3, 4)]) (Fin E) = Ok (Fin nu)
       /\ 0 <= nu < IZR (2 ^ 63).
Proof.
  split; [apply floor_unique; lra|]. split; [apply floor_unique; lra|].
  exists 2, 3. split; [|split; [lra|apply IZR_lt; reflexivity]].
  unfold cm1_at; cbn. rewrite Rltb_false, Rltb_true by lra.
  cbn. rewrite Reqb_false by lra. unfold xmul. do 2 f_equal. field.
Qed.

(** C27 *)
Theorem C27_multigroup_secondaries :
  forall (G : Rng XRa) (X : Ext XRa) n m (p q : particle XRa G) g,
  valid_rng G -> multigroup_create X n = Ok m -> sensible_data X n ->
  In g (groups (written_groups X n)) -> p_energy p = Group g ->
  0 < sigma X n Rcapture g + sigma X n Rscatter g + sigma X n Rfission g ->
  mg_interact m p = Ok q -> p_event q = fission ->
  let nu := real_of (vector_entry X (nubar_node n) g) in
  exists u new, fst (runif G (snd (runif G (p_rng p)))) = Fin u
    /\ p_secondaries q = (p_secondaries p ++ new)%list
    /\ (0 < column_sum X n (chi_node n) g ->
        INR (length new) <= nu + u < INR (length new) + 1)
    /\ List.Forall (fun s => born_at p s /\ exists h, p_energy s = Group h
         /\ In h (groups (written_groups X n)) /\ 0 < weight X n (chi_node n) h g) new
    /\ is_alive q = false /\ same_place p q.
Proof. exact C27_multigroup_secondaries_proof. Qed.
Print Assumptions C27_multigroup_secondaries.
Theorem C27_continuous_secondaries :
  forall (G : Rng XRa) fuel ev (nubar : cmap XRa 1) (p : particle XRa G) E nu,
  valid_rng G -> p_energy p = ContinuousE (A := XRa) (Fin E) ->
  cm1_at nubar (Fin E) = Ok (Fin nu) -> 0 <= nu -> nu < IZR (2 ^ 63) ->
  exists u q new, fst (runif G (p_rng p)) = Fin u
    /\ cr_interact fuel (CFission ev (Some nubar)) p = Ok q
    /\ p_secondaries q = (p_secondaries p ++ new)%list
    /\ INR (length new) <= nu + u < INR (length new) + 1
    /\ List.Forall (fun s => born_at p s /\ p_energy s = ContinuousE (A := XRa) (Fin E)) new
    /\ p_event q = fission /\ is_alive q = false /\ same_place p q.
Proof. exact C27_continuous_secondaries_proof. Qed.
Print Assumptions C27_continuous_secondaries.

(** With capture and scatter absent, every collision is a fission. *)
Definition fissile_node : node :=
  n_child (n_child (n_child (n_child
    (document [Elem "nuclides" [] [Elem "multigroup" [("groups", "2")]
      [Elem "nuclide" [("name", "fuel")]
        [Elem "neutron" [] [Elem "fission" [] [text_node "xs" "1 2"; text_node "nubar" "2.5 2";
                            text_node "chi" "1 1 0 1"] ""] ""] ""] ""] ""])
    "nuclides") "multigroup") "nuclide") "neutron".

Example C27_case :
  (exists m q, multigroup_create example_ext fissile_node = Ok m
     /\ mg_interact m example_particle = Ok q /\ p_event q = fission)
  /\ sensible_data example_ext fissile_node
  /\ exists E nu, cm1_at (A := XRa) (table [(1, 2); (3, 4)]) (Fin E) = Ok (Fin nu)
       /\ 0 <= nu < IZR (2 ^ 63).
Proof.
  assert (Sd : sensible_data example_ext fissile_node).
  { constructor.
    - intros c Hc Nc. cbn in Hc.
      repeat (destruct Hc as [<-|Hc];
        [try congruence; cbn; repeat constructor; eexists; (split; [reflexivity|decs; lra])|]).
      destruct Hc.
    - intros _. split; discriminate.
    - cbn. repeat constructor; cbn; decs; lra.
    - reflexivity. }
  assert (Sg : sigma example_ext fissile_node Rcapture 1 = 0
            /\ sigma example_ext fissile_node Rscatter 1 = 0
            /\ sigma example_ext fissile_node Rfission 1 = 1).
  { repeat split; example_data. }
  destruct Sg as (Sc & Ss & Sf). split; [|split; [exact Sd|]].
  - assert (Ec : exists m, multigroup_create example_ext fissile_node = Ok m)
      by (eexists; vm_compute; reflexivity).
    destruct Ec as (m & E).
    destruct (C24_reaction_choice half_rng example_ext fissile_node m example_particle 1)
      as (u & q & Hu & Hu1 & Eq & _ & _ & Hf & _); auto.
    + exact half_valid.
    + now left.
    + rewrite Sc, Ss, Sf. lra.
    + exists m, q. split; [exact E|]. split; [exact Eq|]. apply Hf. rewrite Sc, Ss, Sf. lra.
  - exists 2, 3. split; [|split; [lra|apply IZR_lt; reflexivity]].
    unfold cm1_at; cbn. rewrite Rltb_false, Rltb_true by lra.
    cbn. rewrite Reqb_false by lra. unfold xmul. do 2 f_equal. field.
Qed.
