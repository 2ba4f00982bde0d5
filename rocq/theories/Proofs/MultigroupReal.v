(** Multigroup collisions over the reals. *)
From Coq Require Import Bool String List Reals ZArith NArith Lra Lia.
From Coquelicot Require Import Coquelicot.
From Verif Require Import Model.Num Model.Outcome Model.Rng Model.Xml Model.Std Model.Point
  Model.Surface Model.Types Model.Particle Model.Multigroup Spec.Vec Spec.RngSpec
  Spec.DirectionSpec Spec.SumSpec Spec.MultigroupSpec Proofs.RealLib Proofs.OutcomeLib
  Proofs.BinsProofs Proofs.DirectionProofs Proofs.MultigroupProofs.
Import ListNotations.
Local Open Scope R_scope.

(** ** Sums *)

Lemma Rsum_app a b : Rsum (a ++ b) = Rsum a + Rsum b.
Proof. induction a; cbn; lra. Qed.

Lemma Rsum_nonneg l : List.Forall (fun x => 0 <= x) l -> 0 <= Rsum l.
Proof. induction 1; cbn; lra. Qed.

Lemma Rsum_scale l t : Rsum (map (fun x => x * t) l) = Rsum l * t.
Proof. induction l; cbn; lra. Qed.

Lemma Rsum_zero l x : List.Forall (fun x => 0 <= x) l -> Rsum l = 0 -> In x l -> x = 0.
Proof.
  induction 1; cbn; [tauto|]. intros E [->|Hin].
  - pose proof (Rsum_nonneg _ H0). lra.
  - apply IHForall; auto. pose proof (Rsum_nonneg _ H0). lra.
Qed.

Lemma fold_xadd l : forall a, fold_left xadd (map Fin l) (Fin a) = Fin (a + Rsum l).
Proof.
  induction l as [|x l IH]; intros a; cbn.
  - f_equal; lra.
  - rewrite IH. f_equal; lra.
Qed.

Lemma sum_left_fin l : sum_left (A := XRa) (map Fin l) = Fin (Rsum l).
Proof. unfold sum_left. cbn. rewrite fold_xadd. f_equal; lra. Qed.

(** Partial sums of a function of the group. *)
Definition psum (q : N -> R) (g n : nat) : R := Rsum (map (fun k => q (N.of_nat k)) (seq g n)).

Lemma psum_S q g n : psum q g (S n) = q (N.of_nat g) + psum q (S g) n.
Proof. reflexivity. Qed.

Lemma psum_end q g n : psum q g (S n) = psum q g n + q (N.of_nat (g + n)).
Proof. unfold psum. rewrite seq_S, map_app, Rsum_app. cbn. lra. Qed.

Lemma psum_groups q G : Rsum (map q (groups G)) = psum q 1 (N.to_nat G).
Proof. unfold psum, groups. now rewrite map_map. Qed.

(** ** Written data *)

Definition reals (X : Ext XRa) (c : node) : list R := map real_of (numbers X c).

Lemma nonneg_reals X c : nonneg_numbers X c ->
  numbers X c = map Fin (reals X c) /\ List.Forall (fun x => 0 <= x) (reals X c).
Proof.
  unfold nonneg_numbers, reals. induction 1 as [|x l (r & -> & Hr) H [IH1 IH2]]; cbn.
  - auto.
  - split; [now rewrite <- IH1|constructor; auto].
Qed.

Lemma nth_fin i l : nth i (map Fin l) (Fin 0) = Fin (nth i l 0).
Proof. apply map_nth. Qed.

Lemma Forall_nth0 l i : List.Forall (fun x => 0 <= x) l -> 0 <= nth i l 0.
Proof.
  intros H. destruct (Nat.lt_ge_cases i (length l)).
  - rewrite Forall_forall in H. apply H. now apply nth_In.
  - rewrite nth_overflow; auto; lra.
Qed.

Lemma weight_fin X n c h g : nonneg_numbers X c ->
  matrix_entry X c (written_groups X n) h g = Fin (weight X n c h g) /\ 0 <= weight X n c h g.
Proof.
  intros H. apply nonneg_reals in H as [E N0]. unfold weight, matrix_entry. rewrite E.
  change (nofZ XRa 0) with (Fin 0). rewrite nth_fin. cbn [real_of]. split; auto.
  now apply Forall_nth0.
Qed.

Lemma vector_fin X c g : nonneg_numbers X c ->
  vector_entry X c g = Fin (real_of (vector_entry X c g)) /\ 0 <= real_of (vector_entry X c g).
Proof.
  intros H. apply nonneg_reals in H as [E N0]. unfold vector_entry. rewrite E.
  change (nofZ XRa 0) with (Fin 0). rewrite nth_fin. cbn [real_of]. split; auto.
  now apply Forall_nth0.
Qed.

Lemma column_fin X n c g : nonneg_numbers X c ->
  column (numbers X c) (written_groups X n) g =
  map Fin (map (fun h => weight X n c h g) (groups (written_groups X n))).
Proof.
  intros H. unfold column. rewrite map_map. apply map_ext. intros h.
  apply (weight_fin X n c h g H).
Qed.

Lemma weights_nonneg X n c g l : nonneg_numbers X c ->
  List.Forall (fun x => 0 <= x) (map (fun h => weight X n c h g) l).
Proof. intros H. apply Forall_map, Forall_forall. intros h _. now apply weight_fin. Qed.

Lemma column_sum_nonneg X n c g : nonneg_numbers X c -> 0 <= column_sum X n c g.
Proof. intros H. apply Rsum_nonneg. now apply weights_nonneg. Qed.

Lemma column_sum_left X n c g : nonneg_numbers X c ->
  sum_left (map (fun h => matrix_entry X c (written_groups X n) h g) (groups (written_groups X n)))
  = Fin (column_sum X n c g).
Proof.
  intros H. unfold column_sum. rewrite <- sum_left_fin. f_equal. rewrite map_map.
  apply map_ext. intros h. now apply weight_fin.
Qed.

(** A stored column of probabilities. *)
Definition share (X : Ext XRa) (n c : node) (g h : N) : R :=
  if Req_EM_T (column_sum X n c g) 0 then 0 else weight X n c h g / column_sum X n c g.

Lemma normalized_fin X n c g : nonneg_numbers X c ->
  normalize_column (column (numbers X c) (written_groups X n) g) =
  map Fin (map (share X n c g) (groups (written_groups X n))).
Proof.
  intros H. rewrite (column_fin X n c g H). unfold normalize_column, accumulate.
  change (nofZ XRa 0) with (Fin 0). change (nadd XRa) with xadd. rewrite fold_xadd.
  change (neqb XRa (Fin (0 + Rsum (map (fun h => weight X n c h g) (groups (written_groups X n))))) (Fin 0))
    with (Reqb (0 + Rsum (map (fun h => weight X n c h g) (groups (written_groups X n)))) 0).
  rewrite Rplus_0_l. fold (column_sum X n c g).
  destruct (Reqb_spec (column_sum X n c g) 0) as [E|E].
  - f_equal. apply map_ext_in. intros h Hh. unfold share. destruct (Req_EM_T _ _); [|contradiction].
    eapply Rsum_zero; [apply weights_nonneg; eassumption|exact E|].
    now apply (in_map (fun h => weight X n c h g)).
  - rewrite !map_map. apply map_ext. intros h. unfold share.
    destruct (Req_EM_T _ _); [contradiction|].
    change (ndiv XRa) with xdiv. now apply xdiv_fin.
Qed.

Lemma share_facts X n c g : nonneg_numbers X c ->
  (forall h, 0 <= share X n c g h)
  /\ (forall h, In h (groups (written_groups X n)) ->
        share X n c g h * column_sum X n c g = weight X n c h g)
  /\ (column_sum X n c g = 0 -> forall h, share X n c g h = 0)
  /\ (0 < column_sum X n c g -> Rsum (map (share X n c g) (groups (written_groups X n))) = 1).
Proof.
  intros H. pose proof (column_sum_nonneg X n c g H) as Hs. unfold share. parts.
  - intros h. destruct (Req_EM_T _ _); [lra|]. apply Rmult_le_pos; [now apply weight_fin|].
    apply Rlt_le, Rinv_0_lt_compat. lra.
  - intros h Hh. destruct (Req_EM_T _ _) as [E|E].
    + rewrite Rmult_0_l. symmetry. eapply Rsum_zero; [apply weights_nonneg; eassumption|exact E|].
      now apply (in_map (fun h => weight X n c h g)).
    + field. auto.
  - intros E h. destruct (Req_EM_T _ _); [auto|contradiction].
  - intros L. destruct (Req_EM_T _ _); [lra|].
    unfold Rdiv. rewrite <- (map_map (fun h => weight X n c h g) (fun x => x * / column_sum X n c g)).
    rewrite Rsum_scale. fold (column_sum X n c g). field. auto.
Qed.

Lemma C21_total_reals_proof :
  forall (G : Rng XRa) (X : Ext XRa) n m (p : particle XRa G) g,
  multigroup_create X n = Ok m -> sensible_data X n ->
  In g (groups (written_groups X n)) -> p_energy p = Group g ->
  mg_get_total m p = Ok (Fin (sigma X n Rcapture g + sigma X n Rscatter g + sigma X n Rfission g))
  /\ (scatter_node n <> None -> sigma X n Rscatter g = column_sum X n (scatter_node n) g).
Proof.
  intros G X n m p g H S Hg E.
  assert (Hl : (g < 2 ^ 64)%N) by (apply in_groups in Hg; pose proof (sd_groups _ _ S); lia).
  split.
  - rewrite (C21_total_is_sum_proof XRa G X n m p g H Hg Hl E). f_equal.
    assert (W : forall r, written_xs X n r g = None /\ sigma X n r g = 0 \/
                          written_xs X n r g = Some (Fin (sigma X n r g))).
    { intros r. unfold sigma.
      assert (K : forall x, written_xs X n r g = Some x -> exists y, x = Fin y).
      { intros x. destruct r; cbn [written_xs]; unfold present.
        - destruct (is_null _) eqn:N0; [discriminate|]. intros [= <-].
          eexists. apply vector_fin. apply (sd_nonneg _ _ S); [now left|now apply is_null_false].
        - destruct (is_null _) eqn:N0; [discriminate|]. intros [= <-].
          fold (scatter_node n). rewrite column_sum_left; [eauto|].
          apply (sd_nonneg _ _ S); [right; now left|]. now apply is_null_false.
        - destruct (is_null _) eqn:N0; [discriminate|]. intros [= <-].
          fold (fission_node n). destruct (n_child (fission_node n) "xs") as [c|] eqn:Ex.
          + eexists. rewrite <- Ex. apply vector_fin. apply (sd_nonneg _ _ S); [do 2 right; now left|].
            congruence.
          + pose proof (proj1 (proj2 (proj2 (C23_rejected_proof _ X n m H)))) as R.
            cbv zeta in R. rewrite Ex in R. apply is_null_false in N0. specialize (R N0).
            exfalso. pose proof (multigroup_built X n m H) as B.
            destruct (bu_reactions _ _ _ B) as (_ & _ & _ & _ & _ & _ & _ & _ & L).
            specialize (L N0). rewrite Ex in L. apply in_groups in Hg. lia. }
      destruct (written_xs X n r g) as [x|]; [right|left; auto].
      destruct (K x eq_refl) as [y ->]. reflexivity. }
    cbn [map somes flat_map].
    destruct (W Rcapture) as [[-> ->]| ->], (W Rscatter) as [[-> ->]| ->], (W Rfission) as [[-> ->]| ->];
      cbn; f_equal; lra.
  - intros Hs. unfold sigma. cbn [written_xs]. unfold present.
    fold (scatter_node n). rewrite (proj2 (is_null_false _) Hs), column_sum_left; auto.
    apply (sd_nonneg _ _ S); [right; now left|auto].
Qed.

Lemma C22_transfer_probabilities_proof :
  forall (X : Ext XRa) n m c stored g,
  multigroup_create X n = Ok m ->
  c = scatter_node n /\ stored = mg_scatter_probs m \/ c = chi_node n /\ stored = mg_chi m ->
  c <> None -> nonneg_numbers X c ->
  In g (groups (written_groups X n)) -> (g < 2 ^ 64)%N ->
  exists probs col,
    stored = Some probs /\ group_at probs g = Ok (map Fin col)
    /\ length col = N.to_nat (written_groups X n)
    /\ (forall h, In h (groups (written_groups X n)) ->
          0 <= nth (N.to_nat (h - 1)) col 0
          /\ nth (N.to_nat (h - 1)) col 0 * column_sum X n c g = weight X n c h g
          /\ (column_sum X n c g = 0 -> nth (N.to_nat (h - 1)) col 0 = 0))
    /\ (0 < column_sum X n c g -> Rsum col = 1).
Proof.
  intros X n m c stored g H Hc Nc Nn Hg Hl. apply multigroup_built in H.
  assert (E : stored = Some (map (fun g => normalize_column (column (numbers X c) (written_groups X n) g))
                               (groups (written_groups X n)))).
  { destruct Hc as [[-> ->]|[-> ->]].
    - pose proof (bu_scatter _ _ _ H) as B. destruct (scatter_node n); [apply B|congruence].
    - pose proof (bu_chi _ _ _ H) as B. destruct (chi_node n); [apply B|congruence]. }
  eexists _, (map (share X n c g) (groups (written_groups X n))).
  split; [exact E|]. pose proof (proj1 (in_groups _ _) Hg) as Hg'.
  destruct (share_facts X n c g Nn) as (F1 & F2 & F3 & F4).
  parts.
  - rewrite (group_at_nth _ _ []); try lia.
    + rewrite (nth_groups _ _ _ _ Hg). now rewrite normalized_fin.
    + rewrite map_length, groups_length. lia.
  - now rewrite map_length, groups_length.
  - intros h Hh. rewrite (nth_groups _ _ _ _ Hh). parts; auto.
  - exact F4.
Qed.

(** ** Selection loops *)

Lemma pick_group_spec (q : N -> R) (probs : list (num XRa)) : forall n g acc thr,
  (forall k, (g <= k < g + n)%nat -> group_at probs (N.of_nat k) = Ok (Fin (q (N.of_nat k)))) ->
  acc <= thr ->
  exists sel, pick_group n (N.of_nat g) probs (Fin acc) (Fin thr) = Ok sel /\
  match sel with
  | Some h => exists k, (k < n)%nat /\ h = N.of_nat (g + k) /\
                        acc + psum q g k <= thr < acc + psum q g (S k)
  | None => acc + psum q g n <= thr
  end.
Proof.
  induction n as [|n IH]; intros g acc thr Hq Ha.
  - exists None. split; auto. unfold psum; cbn. lra.
  - cbn [pick_group]. rewrite Hq by lia. cbn [bind].
    change (nltb XRa (Fin thr) (nadd XRa (Fin acc) (Fin (q (N.of_nat g)))))
      with (Rltb thr (acc + q (N.of_nat g))).
    destruct (Rltb_spec thr (acc + q (N.of_nat g))) as [L|L].
    + exists (Some (N.of_nat g)). split; auto. exists 0%nat. parts; try lia.
      * unfold psum; cbn; lra.
      * unfold psum; cbn; lra.
    + destruct (IH (S g) (acc + q (N.of_nat g)) thr) as (sel & E & Hs).
      * intros k Hk. apply Hq. lia.
      * lra.
      * exists sel. replace (N.of_nat g + 1)%N with (N.of_nat (S g)) by lia. split; [exact E|].
        destruct sel as [h|].
        -- destruct Hs as (k & Hk & -> & Hs). exists (S k). parts; try lia.
           ++ rewrite psum_S. lra.
           ++ rewrite psum_S. lra.
        -- rewrite psum_S. lra.
Qed.

(** The choice of a group from a normalised column. *)
Lemma pick_column X n c g v (G := written_groups X n) :
  nonneg_numbers X c -> (G < 2 ^ 64)%N -> 0 <= v < 1 ->
  exists sel,
    pick_group (A := XRa) (N.to_nat G) 1 (map Fin (map (share X n c g) (groups G))) (Fin 0) (Fin v) = Ok sel
    /\ (0 < column_sum X n c g ->
        exists h, sel = Some h /\ In h (groups G) /\ 0 < weight X n c h g
          /\ column_below X n c h g <= v * column_sum X n c g
             < column_below X n c h g + weight X n c h g)
    /\ (column_sum X n c g = 0 -> sel = None).
Proof.
  intros Nn HG Hv. destruct (share_facts X n c g Nn) as (F1 & F2 & F3 & F4).
  destruct (pick_group_spec (share X n c g) (map Fin (map (share X n c g) (groups G)))
              (N.to_nat G) 1 0 v) as (sel & E & Hs).
  { intros k Hk. assert (Hin : In (N.of_nat k) (groups G)) by (apply in_groups; lia).
    rewrite (group_at_nth _ _ (Fin 0)); try lia.
    - rewrite nth_fin, (nth_groups _ _ _ _ Hin). reflexivity.
    - rewrite !map_length, groups_length. lia. }
  { lra. }
  exists sel. split; [exact E|]. split.
  - intros L. specialize (F4 L). rewrite psum_groups in F4. fold G in F4.
    destruct sel as [h|]; [|lra].
    destruct Hs as (k & Hk & -> & Hs). exists (N.of_nat (1 + k)).
    assert (Hin : In (N.of_nat (1 + k)) (groups G)) by (apply in_groups; lia).
    assert (Eb : psum (share X n c g) 1 k * column_sum X n c g
                 = column_below X n c (N.of_nat (1 + k)) g).
    { unfold column_below. rewrite psum_groups. replace (N.to_nat (N.of_nat (1 + k) - 1)) with k by lia.
      unfold psum. rewrite <- Rsum_scale, map_map. f_equal. apply map_ext_in. intros i Hi.
      apply in_seq in Hi. apply F2. apply in_groups. lia. }
    rewrite psum_end in Hs. pose proof (F2 _ Hin) as Ew. fold G in Ew.
    set (S := column_sum X n c g) in *.
    assert (B1 : psum (share X n c g) 1 k * S <= v * S) by (apply Rmult_le_compat_r; lra).
    assert (B2 : v * S < (psum (share X n c g) 1 k + share X n c g (N.of_nat (1 + k))) * S)
      by (apply Rmult_lt_compat_r; lra).
    parts; auto; rewrite <- ?Eb; lra.
  - intros E0. specialize (F3 E0). destruct sel as [h|]; auto.
    destruct Hs as (k & Hk & -> & Hs). rewrite psum_end, F3 in Hs. lra.
Qed.

(** The choice of a reaction. *)
Fixpoint pick_real (l : list (reaction * R)) (acc thr : R) : option reaction :=
  match l with
  | [] => None
  | (r, x) :: t => if Rlt_dec thr (acc + x) then Some r else pick_real t (acc + x) thr
  end.

Lemma pick_reaction_real (l : list (reaction * list (num XRa))) g thr : forall acc (xs : list (reaction * R)),
  (1 <= g < 2 ^ 64)%N -> List.Forall (fun rx => (N.to_nat (g - 1) < length (snd rx))%nat) l ->
  map (fun rx => (fst rx, nth (N.to_nat (g - 1)) (snd rx) (Fin 0))) l =
  map (fun rx => (fst rx, Fin (snd rx))) xs ->
  pick_reaction l g (Fin acc) (Fin thr) = Ok (pick_real xs acc thr).
Proof.
  induction l as [|[r v] l IH]; intros acc xs Hg Hl E.
  - destruct xs; [reflexivity|discriminate].
  - destruct xs as [|[r' x] xs]; [discriminate|]. cbn [map fst snd] in E. injection E as <- Ev E.
    inversion Hl; subst. cbn [pick_reaction]. cbn [snd] in *.
    rewrite (group_at_nth _ _ (Fin 0)) by (auto; lia). rewrite Ev. cbn [bind pick_real].
    change (nltb XRa (Fin thr) (nadd XRa (Fin acc) (Fin x))) with (Rltb thr (acc + x)).
    destruct (Rltb_spec thr (acc + x)), (Rlt_dec thr (acc + x)); try lra; auto.
    apply (IH (acc + x) xs); auto.
Qed.

Lemma unif_fin (G : Rng XRa) (p : particle XRa G) : valid_rng G ->
  exists u, 0 <= u < 1 /\ fst (runif G (p_rng p)) = Fin u
            /\ p_unif p = (Fin u, set_rng p (snd (runif G (p_rng p)))).
Proof.
  intros V. destruct (V (p_rng p)) as (u & E & Hu). exists u. parts; try lra; auto.
  unfold p_unif. destruct (runif G (p_rng p)) as [x s]. cbn in *. now subst.
Qed.

Lemma isotropic_unit (G : Rng XRa) s : valid_rng G -> unit_point (fst (dir_isotropic G s)).
Proof. intros V. destruct (dir_isotropic_pt G s V) as (v & E & U). exists v. split; auto. Qed.

(** Scattering. *)
Lemma mg_scatter_real (G : Rng XRa) X n m (p : particle XRa G) g :
  valid_rng G -> built X n m -> sensible_data X n -> scatter_node n <> None ->
  In g (groups (written_groups X n)) -> p_energy p = Group g ->
  0 < column_sum X n (scatter_node n) g ->
  exists v h q, fst (runif G (p_rng p)) = Fin v /\ 0 <= v < 1
    /\ mg_scatter m p = Ok q /\ p_event q = scatter /\ is_alive q = true
    /\ In h (groups (written_groups X n)) /\ p_energy q = Group h
    /\ 0 < weight X n (scatter_node n) h g
    /\ column_below X n (scatter_node n) h g <= v * column_sum X n (scatter_node n) g
       < column_below X n (scatter_node n) h g + weight X n (scatter_node n) h g
    /\ unit_point (p_direction q) /\ same_place p q /\ p_secondaries q = p_secondaries p.
Proof.
  intros V B S Ns Hg Ep Hs. pose proof (sd_groups _ _ S) as HG.
  assert (Nn : nonneg_numbers X (scatter_node n)).
  { apply (sd_nonneg _ _ S); auto. right; now left. }
  destruct (unif_fin G (set_event p scatter) V) as (v & Hv & Ev & Eu).
  destruct (pick_column X n (scatter_node n) g v Nn HG Hv) as (sel & Esel & Sel & _).
  destruct (Sel Hs) as (h & -> & Hh & Hw & Hb).
  exists v, h. unfold mg_scatter. rewrite Eu.
  pose proof (bu_scatter _ _ _ B) as Bs.
  destruct (scatter_node n) as [c|] eqn:Ec; [|congruence]. rewrite <- Ec in *.
  destruct Bs as [Bs _]. rewrite Bs. cbn [of_option bind].
  change (p_energy (set_rng (set_event p scatter) (snd (runif G (p_rng (set_event p scatter))))))
    with (p_energy p). rewrite Ep. cbn [get_group bind].
  pose proof (proj1 (in_groups _ _) Hg) as Hg'.
  rewrite (group_at_nth _ _ []); try lia.
  2: { rewrite map_length, groups_length. lia. }
  rewrite (nth_groups _ _ _ _ Hg), (normalized_fin X n (scatter_node n) g Nn). cbn [bind].
  rewrite (bu_groups _ _ _ B). change (nofZ XRa 0) with (Fin 0). rewrite Esel.
  cbn [bind noexcept].
  eexists. split; [exact Ev|]. split; [exact Hv|]. split; [reflexivity|].
  unfold set_direction_isotropic.
  match goal with |- context [dir_isotropic G ?s] =>
    pose proof (isotropic_unit G s V) as U; destruct (dir_isotropic G s) as [d s'] end.
  cbn in U. parts; auto; try reflexivity; try (cbn; tauto).
  constructor; reflexivity.
Qed.

(** Fission. *)
Lemma fission_loop_real (G : Rng XRa) X n m g c : forall k (p : particle XRa G),
  valid_rng G -> built X n m -> nonneg_numbers X c -> (written_groups X n < 2 ^ 64)%N ->
  exists q new,
    mg_fission_loop (A := XRa) k m (map Fin (map (share X n c g) (groups (written_groups X n)))) p = Ok q
    /\ p_secondaries q = (p_secondaries p ++ new)%list
    /\ (0 < column_sum X n c g -> length new = k)
    /\ (column_sum X n c g = 0 -> new = [])
    /\ List.Forall (fun s => born_at p s /\ exists h, p_energy s = Group h
         /\ In h (groups (written_groups X n)) /\ 0 < weight X n c h g) new
    /\ same_place p q /\ p_event q = p_event p /\ p_energy q = p_energy p
    /\ p_direction q = p_direction p.
Proof.
  induction k as [|k IH]; intros p V B Nn HG.
  - exists p, []. cbn. parts; auto; try (now rewrite app_nil_r). constructor; auto.
  - cbn [mg_fission_loop].
    destruct (unif_fin G p V) as (v & Hv & Ev & Eu). rewrite Eu.
    destruct (pick_column X n c g v Nn HG Hv) as (sel & Esel & Sel & Sel0).
    rewrite (bu_groups _ _ _ B). change (nofZ XRa 0) with (Fin 0). rewrite Esel. cbn [bind].
    pose proof (column_sum_nonneg X n c g Nn) as Cs.
    destruct (Req_dec (column_sum X n c g) 0) as [E0|E0].
    + rewrite (Sel0 E0).
      destruct (IH (set_rng p (snd (runif G (p_rng p)))) V B Nn HG)
        as (q & new & E & H1 & H2 & H3 & H4 & [H5 H6 H7 H8 H9] & H10 & H11 & H12).
      exists q, new. cbn in *. parts; auto; try lra.
      * rewrite Forall_forall in *. intros s Hs. destruct (H4 s Hs) as [[] Hh].
        split; [constructor|]; auto.
      * constructor; auto.
    + destruct (Sel ltac:(lra)) as (h & -> & Hh & Hw & _).
      set (p1 := set_rng p (snd (runif G (p_rng p)))).
      pose proof (isotropic_unit G (p_rng p1) V) as U.
      destruct (dir_isotropic G (p_rng p1)) as [d s] eqn:Ed. cbn [fst] in U.
      destruct (IH (bank_secondary (set_rng p1 s) d (Group h)) V B Nn HG)
        as (q & new & E & H1 & H2 & H3 & H4 & [H5 H6 H7 H8 H9] & H10 & H11 & H12).
      unfold bank_secondary in *. cbn [p_rng set_rng] in *.
      destruct (rraw G s) as [seed s'] eqn:Er.
      exists q, (new_particle (p_position p) d (Group h) neutron seed (p_cell p) :: new)%list.
      cbn [p_position p_cell set_rng p1] in *. parts; auto.
      * rewrite H1. cbn. now rewrite <- app_assoc.
      * intros L. cbn. f_equal. auto.
      * contradiction.
      * constructor.
        -- split; [|exists h; parts; auto]. constructor; auto; try reflexivity.
           exists (p_rng p1). rewrite Ed. cbn. rewrite Er. auto.
        -- rewrite Forall_forall in *. intros x Hx. destruct (H4 x Hx) as [[] Hxh].
           split; [constructor|]; auto.
      * constructor; auto.
Qed.

Lemma to_yield_fin x : 0 <= x < IZR (2 ^ 64) ->
  exists y, to_yield (A := XRa) (Fin x) = Ok y /\ INR (N.to_nat y) <= x < INR (N.to_nat y) + 1.
Proof.
  intros H. exists (Z.to_N (Int_part x)). split.
  - unfold to_yield. cbn [ntoN XRa xtoN].
    rewrite !Rleb_false by lra. reflexivity.
  - assert (0 <= Int_part x)%Z by (apply Int_part_lower; lra).
    rewrite INR_N, Z2N.id by auto. destruct (base_Int_part x). lra.
Qed.

Lemma mg_fission_real (G : Rng XRa) X n m (p : particle XRa G) g :
  valid_rng G -> built X n m -> sensible_data X n -> fission_node n <> None ->
  In g (groups (written_groups X n)) -> p_energy p = Group g ->
  exists u q new, fst (runif G (p_rng p)) = Fin u /\ 0 <= u < 1
    /\ mg_fission m p = Ok q /\ p_event q = fission /\ is_alive q = false
    /\ p_secondaries q = (p_secondaries p ++ new)%list
    /\ (0 < column_sum X n (chi_node n) g ->
        INR (length new) <= real_of (vector_entry X (nubar_node n) g) + u < INR (length new) + 1)
    /\ (column_sum X n (chi_node n) g = 0 -> new = [])
    /\ List.Forall (fun s => born_at p s /\ exists h, p_energy s = Group h
         /\ In h (groups (written_groups X n)) /\ 0 < weight X n (chi_node n) h g) new
    /\ same_place p q /\ p_energy q = p_energy p /\ p_direction q = p_direction p.
Proof.
  intros V B S Nf Hg Ep. pose proof (sd_groups _ _ S) as HG.
  destruct (sd_fission _ _ S Nf) as [Nu Nc].
  assert (Nnu : nonneg_numbers X (nubar_node n)).
  { apply (sd_nonneg _ _ S); auto. do 3 right; now left. }
  assert (Nnc : nonneg_numbers X (chi_node n)).
  { apply (sd_nonneg _ _ S); auto. do 4 right; now left. }
  pose proof (proj1 (in_groups _ _) Hg) as Hg'.
  unfold mg_fission.
  change (p_energy (set_event p fission)) with (p_energy p). rewrite Ep. cbn [get_group bind].
  pose proof (bu_nubar _ _ _ B) as Bn. pose proof (bu_chi _ _ _ B) as Bc.
  destruct (nubar_node n) as [c1|] eqn:E1; [|congruence]. rewrite <- E1 in *.
  destruct (chi_node n) as [c2|] eqn:E2; [|congruence]. rewrite <- E2 in *.
  destruct Bn as [Bn Ln], Bc as [Bc _]. rewrite Bn, Bc. cbn [of_option bind].
  rewrite (group_at_nth _ _ (Fin 0)) by (try exact (proj1 Hg'); try lia;
    change (num XRa) with xr in *; cbn in Ln |- *; lia).
  cbn [bind].
  change (nth (N.to_nat (g - 1)) (numbers X (nubar_node n)) (Fin 0)) with (vector_entry X (nubar_node n) g).
  destruct (vector_fin X (nubar_node n) g Nnu) as [Ef Nf0].
  assert (Hmax : real_of (vector_entry X (nubar_node n) g) < IZR (2 ^ 63)).
  { pose proof (sd_yield _ _ S) as Y. rewrite Forall_forall in Y. apply Y.
    unfold vector_entry. apply nth_In. lia. }
  set (nu := real_of (vector_entry X (nubar_node n) g)) in *. rewrite Ef.
  destruct (unif_fin G (set_event p fission) V) as (u & Hu & Eu & Euu). rewrite Euu.
  change (nadd XRa (Fin nu) (Fin u)) with (Fin (nu + u)).
  destruct (to_yield_fin (nu + u)) as (y & Ey & Hy).
  { change (2 ^ 63)%Z with 9223372036854775808%Z in Hmax.
    change (2 ^ 64)%Z with 18446744073709551616%Z. lra. }
  rewrite Ey. cbn [bind].
  rewrite (group_at_nth _ _ []); try lia.
  2: { rewrite map_length, groups_length. lia. }
  rewrite (nth_groups _ _ _ _ Hg), (normalized_fin X n (chi_node n) g Nnc). cbn [bind].
  destruct (fission_loop_real G X n m g (chi_node n) (N.to_nat y)
              (set_rng (set_event p fission) (snd (runif G (p_rng (set_event p fission))))) V B Nnc HG)
    as (q & new & E & H1 & H2 & H3 & H4 & [H5 H6 H7 H8 H9] & H10 & H11 & H12).
  exists u, q, new. split; [exact Eu|]. split; [exact Hu|].
  split; [rewrite E; reflexivity|].
  cbn [p_secondaries p_event p_energy p_direction set_rng set_event] in *.
  parts; auto.
  - unfold is_alive. now rewrite H10.
  - intros L. rewrite (H2 L). exact Hy.
  - rewrite Forall_forall in *. intros s Hs. destruct (H4 s Hs) as [[] Hh].
    split; [constructor|]; auto.
  - constructor; auto.
  - congruence.
Qed.

(** The reactions of a nuclide with real data. *)
Lemma sigma_written X n m r g : built X n m -> sensible_data X n ->
  In g (groups (written_groups X n)) ->
  0 <= sigma X n r g /\
  (written_xs X n r g = None /\ sigma X n r g = 0 \/ written_xs X n r g = Some (Fin (sigma X n r g))).
Proof.
  intros B S Hg. pose proof (proj1 (in_groups _ _) Hg) as Hg'. unfold sigma.
  assert (K : match written_xs X n r g with
              | Some x => exists y, x = Fin y /\ 0 <= y | None => True end).
  { destruct r; cbn [written_xs]; unfold present.
    - destruct (is_null _) eqn:N0; auto.
      eexists. apply vector_fin. apply (sd_nonneg _ _ S); [now left|now apply is_null_false].
    - destruct (is_null _) eqn:N0; auto. fold (scatter_node n).
      assert (Nn : nonneg_numbers X (scatter_node n)).
      { apply (sd_nonneg _ _ S); [right; now left|now apply is_null_false]. }
      rewrite column_sum_left by auto. eexists; split; eauto. now apply column_sum_nonneg.
    - destruct (is_null _) eqn:N0; auto. fold (fission_node n).
      destruct (n_child (fission_node n) "xs") as [c|] eqn:Ex.
      + eexists. rewrite <- Ex. apply vector_fin.
        apply (sd_nonneg _ _ S); [do 2 right; now left|congruence].
      + exfalso. apply is_null_false in N0.
        destruct (bu_reactions _ _ _ B) as (c & s & f & E & _ & _ & _ & -> & L).
        fold (fission_node n) in N0. specialize (L N0). rewrite Ex in L.
        destruct (create_total_ok _ _ _ (bu_total _ _ _ B)) as (T & _).
        rewrite E in T. unfold assemble, present in T.
        rewrite (proj2 (is_null_false _) N0) in T.
        apply Forall_app in T as [_ T]. apply Forall_app in T as [_ T]. inversion T; subst.
        cbn [snd] in *. rewrite Ex in *. lia. }
  destruct (written_xs X n r g) as [x|].
  - destruct K as (y & -> & Hy). cbn. auto.
  - split; [lra|auto].
Qed.

Lemma reaction_selected (G : Rng XRa) X n m (p : particle XRa G) g :
  valid_rng G -> multigroup_create X n = Ok m -> sensible_data X n ->
  In g (groups (written_groups X n)) -> p_energy p = Group g ->
  let c := sigma X n Rcapture g in
  let s := sigma X n Rscatter g in
  let f := sigma X n Rfission g in
  0 < c + s + f ->
  exists u r, fst (runif G (p_rng p)) = Fin u /\ 0 <= u < 1
    /\ mg_interact m p = noexcept (let p1 := set_rng p (snd (runif G (p_rng p))) in
         match r with
         | Rcapture => Ok (mg_capture p1) | Rscatter => mg_scatter m p1
         | Rfission => mg_fission m p1 end)
    /\ written_xs X n r g = Some (Fin (sigma X n r g)) /\ 0 < sigma X n r g
    /\ match r with
       | Rcapture => u * (c + s + f) < c
       | Rscatter => c <= u * (c + s + f) < c + s
       | Rfission => c + s <= u * (c + s + f)
       end.
Proof.
  intros V H S Hg Ep c s f T.
  pose proof (C21_total_reals_proof G X n m) as Tot.
  destruct (unif_fin G p V) as (u & Hu & Eu & Euu). exists u.
  set (p1 := set_rng p (snd (runif G (p_rng p)))) in *.
  destruct (Tot p1 g H S Hg Ep) as [Et _]. fold c s f in Et.
  unfold mg_interact. rewrite Euu, Et. cbn [bind].
  change (p_energy p1) with (p_energy p). rewrite Ep. cbn [get_group bind].
  change (nmul XRa (Fin u) (Fin (c + s + f))) with (Fin (u * (c + s + f))).
  change (nofZ XRa 0) with (Fin 0).
  pose proof (multigroup_built X n m H) as B. pose proof (sd_groups _ _ S) as HG.
  pose proof (proj1 (in_groups _ _) Hg) as Hg'.
  destruct (sigma_written X n m Rcapture g B S Hg) as [C0 Wc].
  destruct (sigma_written X n m Rscatter g B S Hg) as [S0 Ws].
  destruct (sigma_written X n m Rfission g B S Hg) as [F0 Wf].
  fold c in C0, Wc. fold s in S0, Ws. fold f in F0, Wf.
  set (xs := somes (map (fun r => option_map (fun _ => (r, sigma X n r g)) (written_xs X n r g))
                        [Rcapture; Rscatter; Rfission])).
  rewrite (pick_reaction_real _ g _ 0 xs).
  2: lia.
  2: { destruct (create_total_ok _ _ _ (bu_total _ _ _ B)) as (Tt & _).
       rewrite Forall_forall in *. intros rx Hrx. specialize (Tt rx Hrx). lia. }
  2: { pose proof (reactions_at X n m g B Hg) as R. change (nofZ XRa 0) with (Fin 0) in R.
       etransitivity; [exact R|]. unfold xs. cbn [map somes flat_map]. fold c s f.
       destruct Wc as [[-> _]| ->], Ws as [[-> _]| ->], Wf as [[-> _]| ->]; reflexivity. }
  cbn [bind].
  assert (Q : 0 <= u * (c + s + f) < c + s + f) by (split; nra).
  assert (P : exists r, pick_real xs 0 (u * (c + s + f)) = Some r
     /\ written_xs X n r g = Some (Fin (sigma X n r g)) /\ 0 < sigma X n r g
     /\ match r with
       | Rcapture => u * (c + s + f) < c
       | Rscatter => c <= u * (c + s + f) < c + s
       | Rfission => c + s <= u * (c + s + f)
       end).
  { set (t := u * (c + s + f)) in *. unfold xs. cbn [map somes flat_map]. fold c s f.
    destruct Wc as [[Ec Zc]|Ec], Ws as [[Es Zs]|Es], Wf as [[Ef Zf]|Ef];
      rewrite Ec, Es, Ef; cbn [option_map app pick_real];
      repeat match goal with |- context [Rlt_dec ?a ?b] => destruct (Rlt_dec a b) end;
      try lra;
      first [ exists Rcapture; fold c; split; [reflexivity|split; [exact Ec|lra]]
            | exists Rscatter; fold s; split; [reflexivity|split; [exact Es|lra]]
            | exists Rfission; fold f; split; [reflexivity|split; [exact Ef|lra]] ]. }
  destruct P as (r & Er & Wr & Pr & Ir). exists r. rewrite Er. parts; auto; try lra.
Qed.

Lemma C24_reaction_choice_proof :
  forall (G : Rng XRa) (X : Ext XRa) n m (p : particle XRa G) g,
  valid_rng G -> multigroup_create X n = Ok m -> sensible_data X n ->
  In g (groups (written_groups X n)) -> p_energy p = Group g ->
  let c := sigma X n Rcapture g in
  let s := sigma X n Rscatter g in
  let f := sigma X n Rfission g in
  0 < c + s + f ->
  exists u q, fst (runif G (p_rng p)) = Fin u /\ 0 <= u < 1 /\ mg_interact m p = Ok q
    /\ (p_event q = capture <-> 0 <= u * (c + s + f) < c)
    /\ (p_event q = scatter <-> c <= u * (c + s + f) < c + s)
    /\ (p_event q = fission <-> c + s <= u * (c + s + f) < c + s + f)
    /\ (p_event q = capture \/ p_event q = scatter \/ p_event q = fission).
Proof.
  intros G X n m p g V H S Hg Ep c s f T.
  destruct (reaction_selected G X n m p g V H S Hg Ep T) as (u & r & Eu & Hu & E & W & P & I).
  fold c s f in I, E.
  pose proof (multigroup_built X n m H) as B.
  assert (Q : 0 <= u * (c + s + f) < c + s + f) by (split; nra).
  destruct (sigma_written X n m Rcapture g B S Hg) as [C0 _].
  destruct (sigma_written X n m Rscatter g B S Hg) as [S0 _].
  destruct (sigma_written X n m Rfission g B S Hg) as [F0 _].
  fold c in C0. fold s in S0. fold f in F0.
  set (p1 := set_rng p (snd (runif G (p_rng p)))) in *.
  exists u. destruct r.
  - exists (mg_capture p1). parts; auto; try lra; try (now left);
      split; cbn; intros; try discriminate; try reflexivity; lra.
  - assert (Ns : scatter_node n <> None).
    { cbn [written_xs] in W. unfold present in W. fold (scatter_node n) in W.
      destruct (is_null (scatter_node n)) eqn:Z; [discriminate|]. now apply is_null_false. }
    assert (Cs : 0 < column_sum X n (scatter_node n) g).
    { rewrite <- (proj2 (C21_total_reals_proof G X n m p g H S Hg Ep) Ns). exact P. }
    destruct (mg_scatter_real G X n m p1 g V B S Ns Hg Ep Cs)
      as (v & h & q & _ & _ & Eq & Ev & _). cbn zeta in E. rewrite Eq in E. cbn in E.
    exists q. rewrite Ev. parts; auto; try lra;
      split; cbn; intros; try discriminate; try reflexivity; lra.
  - assert (Nf : fission_node n <> None).
    { cbn [written_xs] in W. unfold present in W. fold (fission_node n) in W.
      destruct (is_null (fission_node n)) eqn:Z; [discriminate|]. now apply is_null_false. }
    destruct (mg_fission_real G X n m p1 g V B S Nf Hg Ep)
      as (v & q & new & _ & _ & Eq & Ev & _). cbn zeta in E. rewrite Eq in E. cbn in E.
    exists q. rewrite Ev. parts; auto; try lra;
      split; cbn; intros; try discriminate; try reflexivity; lra.
Qed.

Lemma C25_scatter_groups_proof :
  forall (G : Rng XRa) (X : Ext XRa) n m (p q : particle XRa G) g,
  valid_rng G -> multigroup_create X n = Ok m -> sensible_data X n ->
  In g (groups (written_groups X n)) -> p_energy p = Group g ->
  0 < sigma X n Rcapture g + sigma X n Rscatter g + sigma X n Rfission g ->
  mg_interact m p = Ok q -> p_event q = scatter ->
  let w := weight X n (scatter_node n) in
  exists v h, fst (runif G (snd (runif G (p_rng p)))) = Fin v
    /\ In h (groups (written_groups X n)) /\ p_energy q = Group h
    /\ 0 < w h g
    /\ column_below X n (scatter_node n) h g <= v * column_sum X n (scatter_node n) g
       < column_below X n (scatter_node n) h g + w h g
    /\ is_alive q = true /\ unit_point (p_direction q) /\ same_place p q
    /\ p_secondaries q = p_secondaries p.
Proof.
  intros G X n m p q g V H S Hg Ep T Eq Ev w.
  destruct (reaction_selected G X n m p g V H S Hg Ep T) as (u & r & Eu & Hu & E & W & P & I).
  pose proof (multigroup_built X n m H) as B.
  set (p1 := set_rng p (snd (runif G (p_rng p)))) in *. cbn zeta in E. rewrite Eq in E.
  destruct r.
  - cbn in E. injection E as ->. discriminate.
  - assert (Ns : scatter_node n <> None).
    { cbn [written_xs] in W. unfold present in W. fold (scatter_node n) in W.
      destruct (is_null (scatter_node n)) eqn:Z; [discriminate|]. now apply is_null_false. }
    assert (Cs : 0 < column_sum X n (scatter_node n) g).
    { rewrite <- (proj2 (C21_total_reals_proof G X n m p g H S Hg Ep) Ns). exact P. }
    destruct (mg_scatter_real G X n m p1 g V B S Ns Hg Ep Cs)
      as (v & h & q' & E1 & _ & Eq' & _ & Al & Hh & He & Hw & Hb & Ud & [] & Sec).
    rewrite Eq' in E. cbn in E. injection E as ->. exists v, h. parts; auto.
    + apply Hb. + apply Hb. + constructor; auto.
  - exfalso. assert (Nf : fission_node n <> None).
    { cbn [written_xs] in W. unfold present in W. fold (fission_node n) in W.
      destruct (is_null (fission_node n)) eqn:Z; [discriminate|]. now apply is_null_false. }
    destruct (mg_fission_real G X n m p1 g V B S Nf Hg Ep)
      as (v & q' & new & _ & _ & Eq' & Ev' & _). rewrite Eq' in E. cbn in E.
    injection E as ->. congruence.
Qed.

Lemma C27_multigroup_secondaries_proof :
  forall (G : Rng XRa) (X : Ext XRa) n m (p q : particle XRa G) g,
  valid_rng G -> multigroup_create X n = Ok m -> sensible_data X n ->
  In g (groups (written_groups X n)) -> p_energy p = Group g ->
  0 < sigma X n Rcapture g + sigma X n Rscatter g + sigma X n Rfission g ->
  mg_interact m p = Ok q -> p_event q = fission ->
  let nu := real_of (vector_entry X (nubar_node n) g) in
  exists u new, fst (runif G (snd (runif G (p_rng p)))) = Fin u
    /\ p_secondaries q = (p_secondaries p ++ new)%list
    /\ (0 < column_sum X n (chi_node n) g ->
        INR (length new) <= nu + u < INR (length new) + 1)
    /\ List.Forall (fun s => born_at p s /\ exists h, p_energy s = Group h
         /\ In h (groups (written_groups X n)) /\ 0 < weight X n (chi_node n) h g) new
    /\ is_alive q = false /\ same_place p q.
Proof.
  intros G X n m p q g V H S Hg Ep T Eq Ev nu.
  destruct (reaction_selected G X n m p g V H S Hg Ep T) as (u & r & Eu & Hu & E & W & P & I).
  pose proof (multigroup_built X n m H) as B.
  set (p1 := set_rng p (snd (runif G (p_rng p)))) in *. cbn zeta in E. rewrite Eq in E.
  destruct r.
  - cbn in E. injection E as ->. discriminate.
  - exfalso. assert (Ns : scatter_node n <> None).
    { cbn [written_xs] in W. unfold present in W. fold (scatter_node n) in W.
      destruct (is_null (scatter_node n)) eqn:Z; [discriminate|]. now apply is_null_false. }
    assert (Cs : 0 < column_sum X n (scatter_node n) g).
    { rewrite <- (proj2 (C21_total_reals_proof G X n m p g H S Hg Ep) Ns). exact P. }
    destruct (mg_scatter_real G X n m p1 g V B S Ns Hg Ep Cs)
      as (v & h & q' & E1 & _ & Eq' & Ev' & _). rewrite Eq' in E. cbn in E.
    injection E as ->. congruence.
  - assert (Nf : fission_node n <> None).
    { cbn [written_xs] in W. unfold present in W. fold (fission_node n) in W.
      destruct (is_null (fission_node n)) eqn:Z; [discriminate|]. now apply is_null_false. }
    destruct (mg_fission_real G X n m p1 g V B S Nf Hg Ep)
      as (v & q' & new & E1 & _ & Eq' & Ev' & Al & Sec & Len & _ & Fo & [] & _).
    rewrite Eq' in E. cbn in E. injection E as ->. exists v, new. parts; auto.
    + rewrite Forall_forall in *. intros s Hs. destruct (Fo s Hs) as [[] Hh].
      split; [constructor|]; auto.
    + constructor; auto.
Qed.

(** ** Yields *)

Lemma to_yield_bracket :
  forall nu u, 0 <= nu -> nu < IZR (2 ^ 64) - 1 -> 0 <= u < 1 ->
  let k := Int_part nu in
  exists y, to_yield (A := XRa) (nadd XRa (Fin nu) (Fin u)) = Ok y
    /\ IZR k <= nu < IZR k + 1
    /\ (Z.of_N y = k \/ Z.of_N y = (k + 1)%Z)
    /\ (Z.of_N y = (k + 1)%Z <-> 1 - (nu - IZR k) <= u)
    /\ IZR (Z.of_N y) <= nu + u < IZR (Z.of_N y) + 1.
Proof.
  intros nu u H1 H2 Hu k. destruct (to_yield_fin (nu + u)) as (y & Ey & Hy); [lra|].
  exists y. rewrite INR_N in Hy. destruct (base_Int_part nu) as [B1 B2]. fold k in B1, B2.
  assert (Ek : (Z.of_N y = k \/ Z.of_N y = k + 1)%Z).
  { assert (k - 1 < Z.of_N y < k + 2)%Z; [|lia].
    split; apply lt_IZR; rewrite ?minus_IZR, ?plus_IZR; lra. }
  split; [exact Ey|]. parts; try lra; auto.
  split.
  - intros E. rewrite E, plus_IZR in Hy. lra.
  - intros L. destruct Ek as [E|E]; auto. rewrite E in Hy. lra.
Qed.

Lemma yield_mean nu : 0 <= nu -> is_RInt (fun u => IZR (Int_part (nu + u))) 0 1 nu.
Proof.
  intros H. destruct (base_Int_part nu) as [B1 B2]. set (k := Int_part nu) in *.
  set (a := 1 - (nu - IZR k)).
  assert (Ip : forall x z, IZR z <= x < IZR z + 1 -> Int_part x = z).
  { intros x z Hz. destruct (base_Int_part x) as [C1 C2].
    assert (z - 1 < Int_part x < z + 1)%Z; [|lia].
    split; apply lt_IZR; rewrite ?minus_IZR, ?plus_IZR; lra. }
  assert (I1 : is_RInt (fun u => IZR (Int_part (nu + u))) 0 a (a * IZR k)).
  { apply is_RInt_ext with (f := fun _ => IZR k).
    - intros x Hx. rewrite Rmin_left, Rmax_right in Hx by (unfold a; lra). f_equal. symmetry.
      apply Ip. unfold a in Hx. lra.
    - replace (a * IZR k) with ((a - 0) * IZR k) by ring.
      exact (is_RInt_const (V := R_NormedModule) 0 a (IZR k)). }
  assert (I2 : is_RInt (fun u => IZR (Int_part (nu + u))) a 1 ((1 - a) * IZR (k + 1))).
  { apply is_RInt_ext with (f := fun _ => IZR (k + 1)).
    - intros x Hx. rewrite Rmin_left, Rmax_right in Hx by (unfold a; lra). f_equal. symmetry.
      apply Ip. rewrite plus_IZR. unfold a in Hx. lra.
    - exact (is_RInt_const (V := R_NormedModule) a 1 (IZR (k + 1))). }
  pose proof (is_RInt_Chasles _ _ _ _ _ _ I1 I2) as I.
  assert (En : plus (a * IZR k) ((1 - a) * IZR (k + 1)) = nu).
  { change (a * IZR k + (1 - a) * IZR (k + 1) = nu). rewrite plus_IZR. unfold a. ring. }
  exact (eq_rect _ (fun v : R => is_RInt (fun u => IZR (Int_part (nu + u))) 0 1 v) I _ En).
Qed.
