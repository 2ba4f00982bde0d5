(** Multigroup collisions in binary64: C90. *)
From Coq Require Import Bool String List ZArith NArith Reals Lra Lia SpecFloat.
From Flocq Require Import Core BinarySingleNaN Relative.
From Verif Require Import Model.Num Model.Outcome Model.Rng Model.Xml Model.Std Model.Point
  Model.Surface Model.Types Model.Particle Model.Multigroup Spec.SumSpec Spec.RngSpec
  Spec.DoubleSpec Spec.MultigroupSpec Spec.DoubleGroupSpec Proofs.RealLib Proofs.OutcomeLib
  Proofs.FloatLib Proofs.FloatReal Proofs.DoubleBins Proofs.DoubleRandom Proofs.DoubleStats
  Proofs.MultigroupProofs Proofs.MultigroupReal.
Import ListNotations.
Local Open Scope R_scope.

(** ** One selection loop for both *)
Fixpoint choose {A : Arith} (l : list (num A)) (acc thr : num A) : option nat :=
  match l with
  | [] => None
  | x :: t =>
      if nltb A thr (nadd A acc x) then Some O else option_map S (choose t (nadd A acc x) thr)
  end.

Lemma pick_group_choose {A : Arith} (thr : num A) : forall n g pre probs acc,
  length pre = g -> length probs = n -> (N.of_nat (g + n) < 2 ^ 64)%N ->
  pick_group n (N.of_nat (S g)) (pre ++ probs) acc thr =
  Ok (option_map (fun i => N.of_nat (S (g + i))) (choose probs acc thr)).
Proof.
  induction n as [|n IH]; intros g pre probs acc Lp Ln B; destruct probs as [|x probs]; try discriminate.
  - reflexivity.
  - cbn [length] in Ln. injection Ln as Ln. cbn [pick_group choose].
    rewrite (group_at_nth _ _ x) by (rewrite ?app_length; cbn [length]; lia).
    replace (N.to_nat (N.of_nat (S g) - 1)) with (length pre + 0)%nat by lia.
    rewrite app_nth2_plus. cbn [nth bind].
    destruct (nltb A thr (nadd A acc x)).
    + cbn. do 3 f_equal. lia.
    + replace (N.of_nat (S g) + 1)%N with (N.of_nat (S (S g))) by lia.
      replace (pre ++ x :: probs)%list with ((pre ++ [x]) ++ probs)%list by now rewrite <- app_assoc.
      rewrite IH; [|rewrite app_length; cbn; lia|auto|lia].
      destruct (choose probs (nadd A acc x) thr); cbn; [|reflexivity]. do 3 f_equal. lia.
Qed.

Lemma pick_reaction_choose {A : Arith} (thr : num A) g : forall l acc,
  (1 <= g < 2 ^ 64)%N -> List.Forall (fun rx => (N.to_nat (g - 1) < length (snd rx))%nat) l ->
  pick_reaction l g acc thr =
  Ok (match choose (map (fun rx => nth (N.to_nat (g - 1)) (snd rx) (nofZ A 0)) l) acc thr with
      | Some i => nth_error (map fst l) i
      | None => None
      end).
Proof.
  induction l as [|[r v] l IH]; intros acc Hg Hl; [reflexivity|].
  inversion Hl; subst. cbn [pick_reaction map choose fst snd] in *.
  rewrite (group_at_nth _ _ (nofZ A 0)) by (auto; lia). cbn [bind].
  destruct (nltb A thr (nadd A acc _)) eqn:E; [reflexivity|].
  rewrite (IH _ Hg H2). destruct (choose _ _ _); reflexivity.
Qed.

(** ** Rounded sums of non-negative doubles *)
Notation dn := (1 - u53).
Notation up := (1 + u53).
Notation huge := (bpow radix2 1000).

Lemma rnd_add_rel r s : format64 r -> format64 s -> 0 <= r -> 0 <= s ->
  dn * (r + s) <= rnd (r + s) <= up * (r + s).
Proof.
  intros Fr Fs Hr Hs. pose proof (rnd_sub_rel r (- s) Fr (generic_format_opp _ _ _ Fs)) as E.
  replace (r - - s) with (r + s) in E by ring. rewrite (Rabs_pos_eq (r + s)) in E by lra.
  apply Rabs_le_inv in E. lra.
Qed.

Lemma u53_pos : 0 < u53 <= / 9007199254740992.
Proof. rewrite u53_val. lra. Qed.
Lemma dn_pow k : 0 < dn ^ k <= 1.
Proof.
  pose proof u53_pos. split; [apply pow_lt; lra|].
  assert (K : dn ^ k <= 1 ^ k) by (apply pow_incr; lra). now rewrite pow1 in K.
Qed.
Lemma dn_low k : 1 - INR k * u53 <= dn ^ k.
Proof.
  induction k as [|k IH]; [cbn; lra|]. rewrite S_INR. cbn [pow].
  pose proof (dn_pow k) as D. pose proof u53_pos as P.
  assert (u53 * dn ^ k <= u53 * 1) by (apply Rmult_le_compat_l; lra). lra.
Qed.
Lemma up_dn k : up ^ k * dn ^ k <= 1.
Proof.
  rewrite <- Rpow_mult_distr. pose proof u53_pos as P.
  assert (Q : 0 <= u53 * u53 <= 1 * 1) by (split; [apply Rmult_le_pos; lra|apply Rmult_le_compat; lra]).
  assert (K : (up * dn) ^ k <= 1 ^ k) by (apply pow_incr; lra). now rewrite pow1 in K.
Qed.
Lemma up_pow k : 1 <= up ^ k.
Proof. apply pow_R1_Rle. pose proof u53_pos. lra. Qed.
Lemma many k : (Z.of_nat k <= 70000)%Z -> 1 - / 120000000000 <= dn ^ k /\ up ^ k <= 1 + / 110000000000.
Proof.
  intros H. assert (K : INR k <= 70000).
  { rewrite INR_IZR_INZ. apply IZR_le. lia. }
  assert (D : 1 - / 120000000000 <= dn ^ k).
  { apply Rle_trans with (2 := dn_low k). pose proof u53_pos. pose proof (pos_INR k). nra. }
  split; [exact D|]. pose proof (up_dn k). pose proof (up_pow k). nra.
Qed.

Definition are64 (l : list spec_float) (rs : list R) : Prop := Forall2 is64 l rs.
Definition nonneg (rs : list R) : Prop := List.Forall (fun r => 0 <= r) rs.

Lemma huge_big : huge * 2 < big.
Proof.
  change 2 with (bpow radix2 1). rewrite <- bpow_plus. apply bpow_lt. lia.
Qed.

(** Adding one more. *)
Lemma add_one x r acc a k E : is64 x r -> is64 acc a -> 0 <= r -> 0 <= E -> (Z.of_nat k <= 70000)%Z ->
  dn ^ k * E <= a <= up ^ k * E -> E + r <= huge ->
  is64 (SFadd prec64 emax64 acc x) (rnd (a + r)) /\ dn * (a + r) <= rnd (a + r)
  /\ dn ^ (S k) * (E + r) <= rnd (a + r) <= up ^ (S k) * (E + r).
Proof.
  intros Hx Ha Hr HE Hk B H. pose proof (dn_pow k). pose proof (up_pow k). destruct (many k Hk) as [M1 M2].
  assert (A0 : 0 <= a) by nra.
  destruct (rnd_add_rel a r (is64_format _ _ Ha) (is64_format _ _ Hx) A0 Hr) as [L U].
  pose proof u53_pos as P.
  assert (U' : rnd (a + r) <= up ^ S k * (E + r)).
  { apply Rle_trans with (1 := U). cbn [pow]. rewrite Rmult_assoc. apply Rmult_le_compat_l; nra. }
  assert (L' : dn ^ S k * (E + r) <= rnd (a + r)).
  { apply Rle_trans with (2 := L). cbn [pow]. rewrite Rmult_assoc. apply Rmult_le_compat_l; nra. }
  split; [|split; [exact L|split; assumption]].
  apply (is64_add _ _ _ _ Ha Hx). rewrite Rabs_pos_eq by (apply rnd_nonneg; lra).
  apply Rle_lt_trans with (1 := U'). apply Rle_lt_trans with (2 := huge_big).
  cbn [pow]. assert (up * up ^ k <= 2) by nra.
  rewrite (Rmult_comm huge). apply Rmult_le_compat; nra.
Qed.

(** The choice, and what it says of the threshold. *)
Lemma choose_spec L (thr : spec_float) t : is64 thr t -> forall l rs, are64 l rs -> nonneg rs ->
  forall k acc a E, is64 acc a -> 0 <= E -> dn ^ k * E <= a <= up ^ k * E ->
  E + Rsum rs <= huge -> (Z.of_nat (k + length l) <= 70000)%Z -> a <= t ->
  match choose (A := F64 L) l acc thr with
  | Some i => (i < length l)%nat /\ 0 < nth i rs 0
      /\ dn ^ (k + i) * (E + Rsum (firstn i rs)) <= t < up ^ (k + S i) * (E + Rsum (firstn (S i) rs))
  | None => dn ^ (k + length l) * (E + Rsum rs) <= t
  end.
Proof.
  intros Ht. induction 1 as [|x r l rs Hx Hl IH]; intros Hn k acc a E Ha HE B Hb Hk Hat.
  - cbn in *. rewrite Nat.add_0_r, Rplus_0_r. lra.
  - inversion Hn; subst. cbn [Rsum length choose] in *.
    pose proof (Rsum_nonneg _ H2) as Sn.
    destruct (add_one x r acc a k E Hx Ha) as (I & L1 & L2); auto; try lra; try lia.
    change (nltb (F64 L) thr (nadd (F64 L) acc x)) with (SFltb thr (SFadd prec64 emax64 acc x)).
    change (nadd (F64 L) acc x) with (SFadd prec64 emax64 acc x).
    rewrite (is64_ltb _ _ _ _ Ht I). destruct (Rlt_bool_spec t (rnd (a + r))) as [Q|Q].
    + split; [lia|]. cbn [nth firstn Rsum]. rewrite Nat.add_0_r, Nat.add_1_r, Rplus_0_r. parts; try lra.
      destruct (Req_dec r 0) as [->|]; [|lra].
      rewrite Rplus_0_r, (rnd_id a (is64_format _ _ Ha)) in Q. lra.
    + specialize (IH H2 (S k) _ _ (E + r) I ltac:(lra) L2 ltac:(lra) ltac:(lia) Q).
      destruct (choose (A := F64 L) l _ thr) as [i|]; cbn [option_map].
      * destruct IH as (J1 & J2 & J3). split; [lia|]. cbn [nth]. split; [exact J2|].
        replace (k + S i)%nat with (S k + i)%nat by lia.
        replace (k + S (S i))%nat with (S k + S i)%nat by lia.
        cbn [firstn Rsum] in *. rewrite <- !(Rplus_assoc E). exact J3.
      * replace (k + S (length l))%nat with (S k + length l)%nat by lia.
        rewrite <- (Rplus_assoc E). exact IH.
Qed.

(** The sum itself. *)
Lemma sum_spec L : forall l rs, are64 l rs -> nonneg rs ->
  forall k acc a E, is64 acc a -> 0 <= E -> dn ^ k * E <= a <= up ^ k * E ->
  E + Rsum rs <= huge -> (Z.of_nat (k + length l) <= 70000)%Z ->
  exists s, is64 (fold_left (nadd (F64 L)) l acc) s
    /\ dn ^ (k + length l) * (E + Rsum rs) <= s <= up ^ (k + length l) * (E + Rsum rs).
Proof.
  induction 1 as [|x r l rs Hx Hl IH]; intros Hn k acc a E Ha HE B Hb Hk.
  - cbn in *. exists a. rewrite Nat.add_0_r, Rplus_0_r. auto.
  - inversion Hn; subst. cbn [Rsum length fold_left] in *. pose proof (Rsum_nonneg _ H2) as Sn.
    destruct (add_one x r acc a k E Hx Ha) as (I & L1 & L2); auto; try lra; try lia.
    change (nadd (F64 L) acc x) with (SFadd prec64 emax64 acc x).
    destruct (IH H2 (S k) _ _ (E + r) I ltac:(lra) L2 ltac:(lra) ltac:(lia)) as (s & Is & Bs).
    exists s. split; [exact Is|]. replace (k + S (length l))%nat with (S k + length l)%nat by lia.
    rewrite <- (Rplus_assoc E). exact Bs.
Qed.

Lemma zero64 : is64 (f64_ofZ 0) 0.
Proof. apply is64_int. lia. Qed.

Lemma sum_left64 L l rs : are64 l rs -> nonneg rs -> Rsum rs <= huge -> (Z.of_nat (length l) <= 70000)%Z ->
  exists s, is64 (sum_left (A := F64 L) l) s
    /\ dn ^ (length l) * Rsum rs <= s <= up ^ (length l) * Rsum rs.
Proof.
  intros H N B K. destruct (sum_spec L l rs H N 0 _ 0 0 zero64) as (s & Is & Bs); [lra|cbn; lra|lra|exact K|].
  exists s. rewrite Rplus_0_l in Bs. auto.
Qed.

(** ** Lists that are close *)
Definition near (r' r : R) : Prop :=
  (1 - / 120000000000) * r <= r' <= (1 + / 110000000000) * r.
Lemma Forall2_firstn {A B} (P : A -> B -> Prop) i : forall l l', Forall2 P l l' ->
  Forall2 P (firstn i l) (firstn i l').
Proof.
  induction i as [|i IH]; intros l l' H; cbn; [constructor|]. destruct H; constructor; auto.
Qed.
Lemma Forall2_nth {A B} (P : A -> B -> Prop) i a b : forall l l', Forall2 P l l' ->
  (i < length l)%nat -> P (nth i l a) (nth i l' b).
Proof.
  intros l l' H. revert i. induction H; intros [|i] Hi; cbn in *; auto; try lia. apply IHForall2. lia.
Qed.
Lemma Forall2_len {A B} (P : A -> B -> Prop) l l' : Forall2 P l l' -> length l = length l'.
Proof. induction 1; cbn; congruence. Qed.
Lemma near_sum rs' rs : Forall2 near rs' rs -> near (Rsum rs') (Rsum rs).
Proof. unfold near. induction 1; cbn; lra. Qed.
Lemma nonneg_firstn i rs : nonneg rs -> nonneg (firstn i rs).
Proof.
  intros H. unfold nonneg in *. rewrite Forall_forall in *. intros r Hr. apply H.
  rewrite <- (firstn_skipn i rs). apply in_or_app. now left.
Qed.
Lemma firstn_sum i rs : nonneg rs -> 0 <= Rsum (firstn i rs) <= Rsum rs.
Proof.
  intros H. split; [apply Rsum_nonneg; now apply nonneg_firstn|].
  rewrite <- (firstn_skipn i rs) at 2. rewrite Rsum_app.
  enough (0 <= Rsum (skipn i rs)) by lra. apply Rsum_nonneg. unfold nonneg in *.
  rewrite Forall_forall in *. intros r Hr. apply H. rewrite <- (firstn_skipn i rs). apply in_or_app. now right.
Qed.
Lemma near_nonneg rs' rs : Forall2 near rs' rs -> nonneg rs -> nonneg rs'.
Proof.
  unfold near. induction 1; intros Hn; constructor; inversion Hn; subst; [nra|]. now apply IHForall2.
Qed.
Lemma slack_val : slack = / 17179869184.
Proof. unfold slack. rewrite pow_bpow. reflexivity. Qed.

Notation lowest := (bpow radix2 (-900)).

(** ** The reaction *)
Lemma reaction_index L xs rs' rs u v :
  are64 xs rs' -> Forall2 near rs' rs -> nonneg rs -> (length xs <= 3)%nat ->
  lowest <= Rsum rs <= bpow radix2 920 ->
  is64 u v -> bpow radix2 (-32) <= v <= 1 - bpow radix2 (-32) ->
  exists i, choose (A := F64 L) xs (nofZ (F64 L) 0) (nmul (F64 L) u (sum_left (A := F64 L) xs)) = Some i
    /\ (i < length xs)%nat /\ 0 < nth i rs 0
    /\ Rsum (firstn i rs) - slack * Rsum rs <= v * Rsum rs <= Rsum (firstn (S i) rs) + slack * Rsum rs.
Proof.
  intros Hx Hn Hp Hl B Hu Hv. pose proof (near_nonneg _ _ Hn Hp) as Hp'.
  pose proof (near_sum _ _ Hn) as [S1 S2]. set (T := Rsum rs) in *. set (T' := Rsum rs') in *.
  assert (H0 : 0 < lowest) by apply bpow_gt_0.
  assert (H32 : bpow radix2 (-32) = / 4294967296) by reflexivity.
  assert (Hh : T' <= huge).
  { apply Rle_trans with (bpow radix2 921).
    - change 921%Z with (1 + 920)%Z. rewrite bpow_plus. change (bpow radix2 1) with 2. lra.
    - apply bpow_le. lia. }
  assert (T0 : 0 < T') by lra.
  destruct (sum_left64 L xs rs' Hx Hp' Hh) as (tot & It & Bt); [lia|]. fold T' in Bt.
  destruct (many (length xs)) as [M1 M2]; [lia|].
  assert (Bt' : near tot T') by (unfold near; nra).
  assert (Tt : lowest / 2 <= tot) by (unfold near in Bt'; lra).
  assert (Rng : bpow radix2 (-1022) <= v * tot <= bpow radix2 922).
  { split.
    - apply Rle_trans with (bpow radix2 (-32) * bpow radix2 (-901)).
      + rewrite <- bpow_plus. apply bpow_le. lia.
      + assert (bpow radix2 (-901) = lowest / 2).
        { change (-901)%Z with (-900 + -1)%Z. rewrite bpow_plus. change (bpow radix2 (-1)) with (/ 2). lra. }
        assert (0 < bpow radix2 (-901)) by apply bpow_gt_0.
        apply Rmult_le_compat; lra.
    - apply Rle_trans with (1 * tot); [apply Rmult_le_compat_r; lra|].
      change 922%Z with (2 + 920)%Z. rewrite bpow_plus. change (bpow radix2 2) with 4.
      unfold near in Bt'. lra. }
  assert (P22 : 0 < bpow radix2 (-1022)) by apply bpow_gt_0.
  assert (Big : Rabs (rnd (v * tot)) < big).
  { apply rnd_small with 922%Z; [lia|]. rewrite Rabs_pos_eq; lra. }
  pose proof (is64_mul _ _ _ _ Hu It Big) as Ithr.
  pose proof (rnd_rel (v * tot)) as Re. rewrite Rabs_pos_eq in Re by lra. specialize (Re (proj1 Rng)).
  apply Rabs_le_inv in Re. set (t := rnd (v * tot)) in *. rewrite u53_val in Re.
  assert (Vt : v * tot <= (1 - / 4294967296) * tot) by (apply Rmult_le_compat_r; lra).
  pose proof (choose_spec L _ _ Ithr xs rs' Hx Hp' 0 _ 0 0 zero64) as C.
  change (SFmul prec64 emax64 u (sum_left (A := F64 L) xs)) with (nmul (F64 L) u (sum_left (A := F64 L) xs)) in C.
  change (f64_ofZ 0) with (nofZ (F64 L) 0) in C. fold T' in C.
  specialize (C ltac:(lra) ltac:(cbn; lra) ltac:(lra) ltac:(lia) ltac:(unfold near in *; lra)).
  destruct (choose (A := F64 L) xs _ _) as [i|].
  - exists i. split; [reflexivity|]. destruct C as (C1 & C2 & C3). split; [exact C1|].
    pose proof (Forall2_len _ _ _ Hx) as Lx.
    split.
    { pose proof (Forall2_nth near i 0 0 rs' rs Hn ltac:(lia)) as K. unfold near in K. lra. }
    rewrite !Rplus_0_l in C3.
    pose proof (near_sum _ _ (Forall2_firstn near i _ _ Hn)) as [F1 F2].
    pose proof (near_sum _ _ (Forall2_firstn near (S i) _ _ Hn)) as [G1 G2].
    pose proof (firstn_sum i rs Hp) as Fi. pose proof (firstn_sum (S i) rs Hp) as Gi. fold T in Fi, Gi.
    destruct (many (0 + i)) as [N1 N2]; [lia|]. destruct (many (0 + S i)) as [N3 N4]; [lia|].
    set (P := Rsum (firstn i rs)) in *. set (P' := Rsum (firstn i rs')) in *.
    set (Q := Rsum (firstn (S i) rs)) in *. set (Q' := Rsum (firstn (S i) rs')) in *.
    assert (L1 : (1 - / 120000000000) * P' <= t).
    { apply Rle_trans with (2 := proj1 C3). apply Rmult_le_compat_r; lra. }
    assert (L2 : t <= (1 + / 110000000000) * Q').
    { apply Rle_trans with (1 := Rlt_le _ _ (proj2 C3)). apply Rmult_le_compat_r; lra. }
    assert (V1 : v * ((1 - / 120000000000) * ((1 - / 120000000000) * T)) <= v * tot <= v * ((1 + / 110000000000) * ((1 + / 110000000000) * T))).
    { unfold near in Bt'. split; apply Rmult_le_compat_l; lra. }
    assert (V2 : 0 <= v * T <= T).
    { split; [apply Rmult_le_pos; lra|]. rewrite <- (Rmult_1_l T) at 2. apply Rmult_le_compat_r; lra. }
    rewrite slack_val. set (W := v * T) in *.
    replace (v * ((1 - / 120000000000) * ((1 - / 120000000000) * T))) with ((1 - / 120000000000) * (1 - / 120000000000) * W) in V1 by (unfold W; ring).
    replace (v * ((1 + / 110000000000) * ((1 + / 110000000000) * T))) with ((1 + / 110000000000) * (1 + / 110000000000) * W) in V1 by (unfold W; ring).
    split; lra.
  - exfalso. rewrite Rplus_0_l in C. cbn [Nat.add] in C.
    assert (K : (1 - / 120000000000) * T' <= t).
    { apply Rle_trans with (2 := C). apply Rmult_le_compat_r; lra. }
    unfold near in Bt'. lra.
Qed.

(** ** The group *)
Definition share64 (s' : R) (x e : R) : Prop :=
  (x = 0 -> e = 0) /\ 0 <= e /\ Rabs (e - x / s') <= u53 * (x / s') + bpow radix2 (-1021).

Lemma normalized64 L col rs : are64 col rs -> nonneg rs -> 0 < Rsum rs -> Rsum rs <= huge ->
  (Z.of_nat (length col) <= 65536)%Z ->
  exists s' es, near s' (Rsum rs) /\ are64 (normalize_column (A := F64 L) col) es
    /\ Forall2 (share64 s') rs es.
Proof.
  intros Hc Hn Hs Hb Hl. destruct (sum_left64 L col rs Hc Hn Hb) as (s' & Is & Bs); [lia|].
  destruct (many (length col)) as [M1 M2]; [lia|].
  assert (Nr : near s' (Rsum rs)) by (unfold near; nra).
  exists s', (map (fun x => rnd (x / s')) rs). split; [exact Nr|].
  assert (S0 : 0 < s') by (unfold near in Nr; lra).
  assert (Small : forall x, In x rs -> 0 <= x / s' <= 2).
  { intros x Hx. assert (X0 : 0 <= x) by (unfold nonneg in Hn; rewrite Forall_forall in Hn; auto).
    assert (X1 : x <= Rsum rs).
    { clear - Hx Hn. induction rs as [|y rs IH]; [destruct Hx|]. inversion Hn; subst. cbn.
      pose proof (Rsum_nonneg _ H2). destruct Hx as [->|Hx]; [lra|]. specialize (IH H2 Hx). lra. }
    split; [now apply div_nonneg|]. apply Rmult_le_reg_r with s'; [exact S0|].
    unfold Rdiv. rewrite Rmult_assoc, Rinv_l by lra. unfold near in Nr. lra. }
  split.
  - unfold normalize_column, accumulate. change (fold_left (nadd (F64 L)) col (nofZ (F64 L) 0)) with (sum_left (A := F64 L) col).
    change (neqb (F64 L) (sum_left (A := F64 L) col) (nofZ (F64 L) 0)) with (SFeqb (sum_left (A := F64 L) col) (f64_ofZ 0)).
    rewrite (is64_eqb _ _ _ _ Is zero64). rewrite Req_bool_false by lra.
    clear - Hc Is S0 Small. unfold are64 in *. set (s := sum_left (A := F64 L) col) in *. clearbody s.
    induction Hc as [|x r l rs Hx Hl IH]; cbn; constructor.
    + change (ndiv (F64 L) x s) with (SFdiv prec64 emax64 x s). apply is64_div; auto; [lra|].
      destruct (Small r) as [Q1 Q2]; [now left|]. apply rnd_small with 1%Z; [lia|].
      rewrite Rabs_pos_eq by lra. exact Q2.
    + apply IH. intros y Hy. apply Small. now right.
  - clear - Small. induction rs as [|x rs IH]; cbn; constructor.
    + destruct (Small x) as [Q1 Q2]; [now left|]. split; [|split].
      * intros ->. unfold Rdiv. rewrite Rmult_0_l. apply rnd_0.
      * now apply rnd_nonneg.
      * pose proof (rnd_any (x / s')) as K. rewrite (Rabs_pos_eq (x / s')) in K by lra. exact K.
    + apply IH. intros y Hy. apply Small. now right.
Qed.

Lemma share_sum s' rs es : 0 < s' -> Forall2 (share64 s') rs es ->
  Rabs (Rsum es - Rsum rs / s') <= u53 * (Rsum rs / s') + INR (length rs) * bpow radix2 (-1021).
Proof.
  intros S0. induction 1 as [|x e rs es (_ & _ & H) Hl IH]; cbn [Rsum length].
  - cbn. unfold Rdiv. rewrite Rmult_0_l. rewrite Rabs_pos_eq; lra.
  - rewrite S_INR. replace (e + Rsum es - (x + Rsum rs) / s') with ((e - x / s') + (Rsum es - Rsum rs / s')) by (field; lra).
    apply Rle_trans with (1 := Rabs_triang _ _).
    replace ((x + Rsum rs) / s') with (x / s' + Rsum rs / s') by (field; lra). lra.
Qed.

Lemma group_index L col rs u v : are64 col rs -> nonneg rs -> 0 < Rsum rs -> Rsum rs <= huge ->
  (Z.of_nat (length col) <= 65536)%Z -> is64 u v -> bpow radix2 (-32) <= v <= 1 - bpow radix2 (-32) ->
  exists i, choose (A := F64 L) (normalize_column (A := F64 L) col) (nofZ (F64 L) 0) u = Some i
    /\ (i < length col)%nat /\ 0 < nth i rs 0
    /\ Rsum (firstn i rs) - slack * Rsum rs <= v * Rsum rs <= Rsum (firstn (S i) rs) + slack * Rsum rs.
Proof.
  intros Hc Hn Hs Hb Hl Hu Hv. destruct (normalized64 L col rs Hc Hn Hs Hb Hl) as (s' & es & Ns & He & Hsh).
  assert (H32 : bpow radix2 (-32) = / 4294967296) by reflexivity.
  assert (T21 : 0 < bpow radix2 (-1021) <= bpow radix2 (-100)).
  { split; [apply bpow_gt_0|apply bpow_le; lia]. }
  assert (V100 : bpow radix2 (-100) <= / 1000000000000000000000000).
  { change (bpow radix2 (-100)) with (/ IZR (2 ^ 100)). apply Rinv_le; [lra|]. apply IZR_le. cbn. lia. }
  set (T := Rsum rs) in *. pose proof Ns as [N1 N2].
  assert (S0 : 0 < s') by lra.
  pose proof (Forall2_len _ _ _ Hc) as L1. pose proof (Forall2_len _ _ _ He) as L2. pose proof (Forall2_len _ _ _ Hsh) as L3.
  assert (En : nonneg es).
  { clear - Hsh. induction Hsh as [|x e rs es (_ & H & _)]; constructor; auto. }
  (* sums of the first shares *)
  assert (Part : forall i, Rabs (Rsum (firstn i es) * T - Rsum (firstn i rs) * (T / s')) <=
            u53 * (Rsum (firstn i rs) * (T / s')) + / 1000000000000000000 * T).
  { intros i. pose proof (share_sum s' _ _ S0 (Forall2_firstn _ i _ _ Hsh)) as K.
    pose proof (firstn_length i rs) as Fl.
    assert (Ic : INR (length (firstn i rs)) <= 65536) by (rewrite INR_IZR_INZ; apply IZR_le; lia).
    pose proof (pos_INR (length (firstn i rs))) as I0.
    assert (INR (length (firstn i rs)) * bpow radix2 (-1021) <= / 1000000000000000000).
    { apply Rle_trans with (65536 * / 1000000000000000000000000); [|lra]. apply Rmult_le_compat; lra. }
    replace (Rsum (firstn i es) * T - Rsum (firstn i rs) * (T / s'))
      with ((Rsum (firstn i es) - Rsum (firstn i rs) / s') * T) by (field; lra).
    rewrite Rabs_mult, (Rabs_pos_eq T) by lra.
    replace (u53 * (Rsum (firstn i rs) * (T / s')) + / 1000000000000000000 * T)
      with ((u53 * (Rsum (firstn i rs) / s') + / 1000000000000000000) * T) by (field; lra).
    apply Rmult_le_compat_r; lra. }
  assert (Q : 1 - / 109000000000 <= T / s' <= 1 + / 119000000000).
  { split; apply Rmult_le_reg_r with s'; auto; unfold Rdiv; rewrite Rmult_assoc, Rinv_l by lra; lra. }
  set (q := T / s') in *.
  assert (Close : forall i, Rabs (Rsum (firstn i es) * T - Rsum (firstn i rs)) <= / 108000000000 * T).
  { intros i. specialize (Part i). pose proof (firstn_sum i rs Hn) as F. fold T in F. rewrite u53_val in Part.
    set (P := Rsum (firstn i rs)) in *. set (P' := Rsum (firstn i es) * T) in *.
    assert (Pq : (1 - / 109000000000) * P <= P * q <= (1 + / 119000000000) * P) by (split; nra).
    apply Rabs_le_inv in Part. apply Rabs_le. lra. }
  assert (All : Rsum es <= 2).
  { specialize (Close (length es)). rewrite firstn_all in Close. rewrite <- L3, firstn_all in Close. fold T in Close.
    apply Rabs_le_inv in Close. apply Rmult_le_reg_r with T; [exact Hs|]. lra. }
  pose proof (choose_spec L _ _ Hu _ es He En 0 _ 0 0 zero64) as C.
  change (f64_ofZ 0) with (nofZ (F64 L) 0) in C.
  assert (Hg : 0 + Rsum es <= huge).
  { apply Rle_trans with (bpow radix2 1); [cbn; lra|apply bpow_le; lia]. }
  specialize (C ltac:(lra) ltac:(cbn; lra) Hg ltac:(lia) ltac:(lra)).
  destruct (choose (A := F64 L) (normalize_column (A := F64 L) col) _ u) as [i|].
  - exists i. split; [reflexivity|]. destruct C as (C1 & C2 & C3). split; [lia|].
    split.
    { destruct (Forall2_nth (share64 s') i 0 0 rs es Hsh ltac:(lia)) as (Z & _).
      assert (0 <= nth i rs 0) by now apply Forall_nth0.
      destruct (Req_dec (nth i rs 0) 0) as [E|E]; [rewrite (Z E) in C2|]; lra. }
    rewrite !Rplus_0_l in C3. destruct (many (0 + i)) as [M1 M2]; [lia|]. destruct (many (0 + S i)) as [M3 M4]; [lia|].
    pose proof (Close i) as K1. pose proof (Close (S i)) as K2. apply Rabs_le_inv in K1, K2.
    pose proof (firstn_sum i rs Hn) as F1. pose proof (firstn_sum (S i) rs Hn) as F2. fold T in F1, F2.
    pose proof (firstn_sum i es En) as G1. pose proof (firstn_sum (S i) es En) as G2.
    assert (B1 : (1 - / 120000000000) * (Rsum (firstn i es) * T) <= v * T).
    { rewrite <- Rmult_assoc. apply Rmult_le_compat_r; [lra|]. apply Rle_trans with (2 := proj1 C3).
      apply Rmult_le_compat_r; lra. }
    assert (B2 : v * T <= (1 + / 110000000000) * (Rsum (firstn (S i) es) * T)).
    { rewrite <- Rmult_assoc. apply Rmult_le_compat_r; [lra|]. apply Rle_trans with (1 := Rlt_le _ _ (proj2 C3)).
      apply Rmult_le_compat_r; lra. }
    rewrite slack_val. split; lra.
  - exfalso. rewrite Rplus_0_l in C. cbn [Nat.add] in C.
    change (num (F64 L)) with spec_float in *. rewrite L2 in C.
    destruct (many (length es)) as [M1 _]; [lia|].
    specialize (Close (length es)). rewrite firstn_all in Close. rewrite <- L3, firstn_all in Close. fold T in Close.
    apply Rabs_le_inv in Close.
    assert (E0 : 0 <= Rsum es) by now apply Rsum_nonneg.
    assert (K : (1 - / 120000000000) * Rsum es <= v).
    { apply Rle_trans with (2 := C). apply Rmult_le_compat_r; lra. }
    assert (K2 : (1 - / 120000000000) * (Rsum es * T) <= v * T).
    { rewrite <- Rmult_assoc. apply Rmult_le_compat_r; lra. }
    assert (v * T <= (1 - / 4294967296) * T) by (apply Rmult_le_compat_r; lra). lra.
Qed.

(** ** The data *)
Lemma firstn_step i : forall rs, (i < length rs)%nat -> Rsum (firstn (S i) rs) = Rsum (firstn i rs) + nth i rs 0.
Proof.
  induction i as [|i IH]; intros [|r rs] H; cbn in H; try lia; [cbn; lra|].
  specialize (IH rs ltac:(lia)).
  change (firstn (S (S i)) (r :: rs)) with (r :: firstn (S i) rs).
  change (firstn (S i) (r :: rs)) with (r :: firstn i rs). cbn [Rsum nth]. lra.
Qed.
Lemma groups_firstn (f : N -> R) G i : (i <= N.to_nat G)%nat ->
  firstn i (map f (groups G)) = map f (groups (N.of_nat i)).
Proof.
  intros H. rewrite firstn_map. f_equal. unfold groups. rewrite firstn_map. f_equal.
  rewrite Nat2N.id. replace (N.to_nat G) with (i + (N.to_nat G - i))%nat by lia.
  rewrite seq_app, firstn_app, seq_length, Nat.sub_diag, firstn_O, app_nil_r.
  rewrite <- (seq_length i 1) at 1. apply firstn_all.
Qed.

Section Data.
  Context {L : Libm} (X : Ext (F64 L)) (n : node).
  Notation G := (written_groups X n).

  Lemma entry64 M c i : doubles_up_to X M c -> 0 <= M ->
    is64 (nth i (numbers X c) (nofZ (F64 L) 0)) (value (nth i (numbers X c) (nofZ (F64 L) 0)))
    /\ 0 <= value (nth i (numbers X c) (nofZ (F64 L) 0)) <= M.
  Proof.
    intros H HM. unfold doubles_up_to in H. rewrite Forall_forall in H.
    destruct (Nat.lt_ge_cases i (length (numbers X c))) as [Hi|Hi].
    - destruct (H _ (nth_In _ (nofZ (F64 L) 0) Hi)) as (D & F & B). split; [now apply double_is64|exact B].
    - rewrite nth_overflow by exact Hi. change (nofZ (F64 L) 0) with (f64_ofZ 0). split.
      + rewrite (is64_value _ _ zero64). exact zero64.
      + rewrite (is64_value _ _ zero64). lra.
  Qed.

  Notation most := (powerRZ 2 900).
  Lemma most_pos : 0 <= most.
  Proof. left. apply powerRZ_lt. lra. Qed.

  Definition weights64 c g : list R := map (fun h => weight64 X n c h g) (groups G).
  Lemma column64 c g : doubles_up_to X most c ->
    are64 (column (numbers X c) G g) (weights64 c g) /\ nonneg (weights64 c g)
    /\ ((G <= 65536)%N -> Rsum (weights64 c g) <= bpow radix2 916)
    /\ length (column (A := F64 L) (numbers X c) G g) = N.to_nat G.
  Proof.
    intros H. unfold weights64, column, are64, nonneg. split; [|split; [|split]].
    - induction (groups G) as [|h l IH]; cbn; constructor; auto.
      apply (entry64 most c _ H most_pos).
    - rewrite Forall_forall. intros r Hr. apply in_map_iff in Hr as (h & <- & _).
      apply (entry64 most c _ H most_pos).
    - intros HG. apply Rle_trans with (INR (length (groups G)) * most).
      + induction (groups G) as [|h l IH]; [cbn; lra|]. cbn [map Rsum length]. rewrite S_INR.
        pose proof (entry64 most c (N.to_nat (G * (h - 1) + (g - 1))) H most_pos) as [_ B].
        fold (matrix_entry X c G h g) in B. unfold weight64 at 1. lra.
      + rewrite pow_bpow. change 916%Z with (16 + 900)%Z. rewrite bpow_plus.
        apply Rmult_le_compat_r; [apply bpow_ge_0|]. rewrite groups_length, INR_IZR_INZ.
        change (bpow radix2 16) with 65536. apply IZR_le. lia.
    - now rewrite map_length, groups_length.
  Qed.
  Lemma hugest : bpow radix2 916 <= huge.
  Proof. apply bpow_le. lia. Qed.

  (** The choice of a group from the normalised column [g] of [c]. *)
  Lemma pick64 c g (s : mstate) : doubles_up_to X most c -> (G <= 65536)%N ->
    0 < column_sum64 X n c g ->
    let u := fst (runif (Minstd (F64 L)) s) in
    exists h, pick_group (A := F64 L) (N.to_nat G) 1 (normalize_column (A := F64 L) (column (numbers X c) G g))
                (nofZ (F64 L) 0) u = Ok (Some h)
      /\ In h (groups G) /\ 0 < weight64 X n c h g
      /\ column_below64 X n c h g - slack * column_sum64 X n c g <= value u * column_sum64 X n c g
         <= column_below64 X n c h g + weight64 X n c h g + slack * column_sum64 X n c g.
  Proof.
    intros H HG Hs u. destruct (column64 c g H) as (Hc & Hn & Hb & Hl). specialize (Hb HG).
    destruct (unif64 L s) as (v & Hu & Hv). fold u in Hu. rewrite (is64_value _ _ Hu).
    change (column_sum64 X n c g) with (Rsum (weights64 c g)) in *.
    pose proof hugest as Hh. change (num (F64 L)) with spec_float in *.
    destruct (group_index L _ _ u v Hc Hn Hs ltac:(lra) ltac:(rewrite Hl; lia) Hu Hv)
      as (i & E & Hi & Hp & B).
    rewrite Hl in Hi.
    assert (Lw : length (weights64 c g) = N.to_nat G) by (unfold weights64; now rewrite map_length, groups_length).
    assert (Hin : In (N.of_nat (S i)) (groups G)) by (apply in_groups; lia).
    assert (En : nth i (weights64 c g) 0 = weight64 X n c (N.of_nat (S i)) g).
    { rewrite <- (nth_groups (fun h => weight64 X n c h g) G _ 0 Hin). f_equal. lia. }
    exists (N.of_nat (S i)). split; [|split; [exact Hin|split]].
    - assert (Ln : length (normalize_column (A := F64 L) (column (numbers X c) G g)) = N.to_nat G).
      { unfold normalize_column. destruct (neqb _ _ _); [|rewrite map_length]; exact Hl. }
      pose proof (pick_group_choose (A := F64 L) u (N.to_nat G) 0 []
        (normalize_column (A := F64 L) (column (numbers X c) G g)) (nofZ (F64 L) 0) eq_refl Ln ltac:(lia)) as P.
      rewrite E in P. exact P.
    - rewrite <- En. exact Hp.
    - rewrite (firstn_step i) in B by lia. rewrite En in B.
      unfold column_below64. replace (N.of_nat (S i) - 1)%N with (N.of_nat i) by lia.
      rewrite <- (groups_firstn (fun h' => weight64 X n c h' g) G i) by lia. exact B.
  Qed.

  Lemma column_nonneg c g : doubles_up_to X most c -> 0 <= column_sum64 X n c g.
  Proof. intros H. apply Rsum_nonneg. apply (column64 c g H). Qed.

  Lemma pick64_zero c g (s : mstate) : doubles_up_to X most c -> (G <= 65536)%N ->
    column_sum64 X n c g = 0 ->
    pick_group (A := F64 L) (N.to_nat G) 1 (normalize_column (A := F64 L) (column (numbers X c) G g))
      (nofZ (F64 L) 0) (fst (runif (Minstd (F64 L)) s)) = Ok None.
  Proof.
    intros H HG Hs. destruct (column64 c g H) as (Hc & Hn & Hb & Hl). specialize (Hb HG).
    change (column_sum64 X n c g) with (Rsum (weights64 c g)) in Hs.
    destruct (unif64 L s) as (v & Hu & Hv). set (u := fst (runif (Minstd (F64 L)) s)) in *.
    pose proof hugest as Hh. change (num (F64 L)) with spec_float in *.
    pose proof (bpow_gt_0 radix2 (-32)) as P32.
    assert (Hd : normalize_column (A := F64 L) (column (numbers X c) G g) = column (numbers X c) G g).
    { destruct (sum_left64 L _ _ Hc Hn ltac:(lra) ltac:(rewrite Hl; lia)) as (s' & Is & Bs).
      rewrite Hs in Bs. assert (s' = 0) as -> by lra.
      unfold normalize_column, accumulate. change (fold_left (nadd (F64 L)) ?l (nofZ (F64 L) 0)) with (sum_left (A := F64 L) l).
      change (neqb (F64 L) ?a (nofZ (F64 L) 0)) with (SFeqb a (f64_ofZ 0)).
      rewrite (is64_eqb _ _ _ _ Is zero64). now rewrite Req_bool_true. }
    rewrite Hd.
    pose proof (pick_group_choose (A := F64 L) u (N.to_nat G) 0 []
        (column (numbers X c) G g) (nofZ (F64 L) 0) eq_refl Hl ltac:(lia)) as P.
    pose proof (choose_spec L _ _ Hu _ _ Hc Hn 0 _ 0 0 zero64) as C.
    change (f64_ofZ 0) with (nofZ (F64 L) 0) in C.
    specialize (C ltac:(lra) ltac:(cbn; lra) ltac:(lra) ltac:(rewrite Hl; lia) ltac:(lra)).
    destruct (choose (A := F64 L) (column (numbers X c) G g) _ u) as [i|].
    - exfalso. destruct C as (C1 & C2 & _).
      assert (Li : (i < length (weights64 c g))%nat) by (rewrite <- (Forall2_len _ _ _ Hc); exact C1).
      rewrite (Rsum_zero _ _ Hn Hs (nth_In _ 0 Li)) in C2. lra.
    - exact P.
  Qed.

  (** ** Collisions *)
  Notation G64 := (Minstd (F64 L)).
  Notation particle := (particle (F64 L) G64).
  Variable m : multigroup (F64 L).
  Hypothesis B : built X n m.
  Hypothesis S : sensible_doubles X n.
  Variable g : N.
  Hypothesis Hg : In g (groups G).

  Lemma unif_pair (p : particle) :
    p_unif p = (fst (runif G64 (p_rng p)), set_rng p (snd (runif G64 (p_rng p)))).
  Proof. unfold p_unif. destruct (runif G64 (p_rng p)); reflexivity. Qed.

  Lemma data64 c : In c [n_child n "capture"; scatter_node n; n_child (fission_node n) "xs"; chi_node n] ->
    c <> None -> doubles_up_to X most c.
  Proof. apply (s64_data X n S). Qed.

  Lemma scatter64 (p : particle) : p_energy p = Group g -> scatter_node n <> None ->
    0 < column_sum64 X n (scatter_node n) g ->
    let v := value (fst (runif G64 (p_rng p))) in
    let s := column_sum64 X n (scatter_node n) g in
    exists h q, mg_scatter m p = Ok q /\ p_event q = scatter /\ is_alive q = true
      /\ In h (groups G) /\ p_energy q = Group h
      /\ 0 < weight64 X n (scatter_node n) h g
      /\ column_below64 X n (scatter_node n) h g - slack * s <= v * s
         <= column_below64 X n (scatter_node n) h g + weight64 X n (scatter_node n) h g + slack * s
      /\ same_place p q /\ p_secondaries q = p_secondaries p
      /\ exists r, p_direction q = fst (dir_isotropic G64 r).
  Proof.
    intros Ep Ns Hs. cbv zeta. pose proof (s64_groups X n S) as HG.
    pose proof (data64 (scatter_node n) ltac:(right; now left) Ns) as D.
    destruct (pick64 (scatter_node n) g (p_rng p) D HG Hs) as (h & Esel & Hh & Hw & Hb).
    unfold mg_scatter. rewrite unif_pair. change (p_rng (set_event p scatter)) with (p_rng p).
    pose proof (bu_scatter _ _ _ B) as Bs.
    destruct (scatter_node n) as [c|] eqn:Ec; [|congruence]. rewrite <- Ec in *.
    destruct Bs as [Bs _]. rewrite Bs. cbn [of_option bind].
    match goal with |- context [p_energy (set_rng ?a ?b)] => change (p_energy (set_rng a b)) with (p_energy p) end.
    rewrite Ep. cbn [get_group bind].
    pose proof (proj1 (in_groups _ _) Hg) as Hg'.
    rewrite (group_at_nth _ _ []); try lia.
    2: { rewrite map_length, groups_length. lia. }
    rewrite (nth_groups _ _ _ _ Hg). cbn [bind].
    rewrite (bu_groups _ _ _ B), Esel. cbn [bind noexcept].
    unfold set_direction_isotropic.
    match goal with |- context [dir_isotropic G64 ?r] => pose (r0 := r);
      destruct (dir_isotropic G64 r) as [d s'] eqn:Ed end.
    exists h. eexists. split; [reflexivity|].
    split; [reflexivity|]. split; [reflexivity|]. split; [exact Hh|]. split; [reflexivity|].
    split; [exact Hw|]. split; [exact Hb|]. split; [constructor; reflexivity|]. split; [reflexivity|].
    exists r0. unfold r0. rewrite Ed. reflexivity.
  Qed.

  Definition born64 (p s : particle) : Prop :=
    exists h, begun_at p s h /\ In h (groups G) /\ 0 < weight64 X n (chi_node n) h g.

  Lemma fission_loop64 : chi_node n <> None -> forall k (p : particle),
    exists q new,
      mg_fission_loop k m (normalize_column (A := F64 L) (column (numbers X (chi_node n)) G g)) p = Ok q
      /\ p_secondaries q = (p_secondaries p ++ new)%list
      /\ (0 < column_sum64 X n (chi_node n) g -> length new = k)
      /\ (column_sum64 X n (chi_node n) g = 0 -> new = [])
      /\ List.Forall (born64 p) new
      /\ same_place p q /\ p_event q = p_event p.
  Proof.
    intros Nc. pose proof (s64_groups X n S) as HG.
    pose proof (data64 (chi_node n) ltac:(do 3 right; now left) Nc) as D.
    pose proof (column_nonneg (chi_node n) g D) as C0.
    induction k as [|k IH]; intros p.
    - exists p, []. cbn. parts; auto; try (now rewrite app_nil_r). constructor; auto.
    - cbn [mg_fission_loop]. rewrite unif_pair, (bu_groups _ _ _ B).
      destruct (Req_dec (column_sum64 X n (chi_node n) g) 0) as [E0|E0].
      + rewrite (pick64_zero _ _ _ D HG E0). cbn [bind].
        destruct (IH (set_rng p (snd (runif G64 (p_rng p))))) as (q & new & E & H1 & H2 & H3 & H4 & [H5 H6 H7 H8 H9] & H10).
        exists q, new. cbn in H1, H5, H6, H7, H8, H9, H10. parts; auto; try lra; [|constructor; auto].
        rewrite Forall_forall in *. intros s Hs. destruct (H4 s Hs) as (h & [] & Hh).
        exists h. split; [constructor|]; auto.
      + destruct (pick64 (chi_node n) g (p_rng p) D HG ltac:(lra)) as (h & Esel & Hh & Hw & _).
        rewrite Esel. cbn [bind].
        set (p1 := set_rng p (snd (runif G64 (p_rng p)))).
        destruct (dir_isotropic G64 (p_rng p1)) as [d s] eqn:Ed.
        destruct (IH (bank_secondary (set_rng p1 s) d (Group h))) as (q & new & E & H1 & H2 & H3 & H4 & [H5 H6 H7 H8 H9] & H10).
        unfold bank_secondary in *. cbn [p_rng set_rng] in *.
        destruct (rraw G64 s) as [seed s'] eqn:Er.
        exists q, (new_particle (p_position p) d (Group h) neutron seed (p_cell p) :: new)%list.
        cbn [p_position p_cell set_rng p1] in *. parts; auto.
        * rewrite H1. cbn. now rewrite <- app_assoc.
        * intros Lp. cbn. f_equal. auto.
        * contradiction.
        * constructor.
          -- exists h. split; [|split; auto]. constructor; auto; try reflexivity.
             exists (p_rng p1). rewrite Ed. cbn [fst snd]. rewrite Er. split; reflexivity.
          -- rewrite Forall_forall in *. intros x Hx. destruct (H4 x Hx) as (h' & [] & Hxh).
             exists h'. split; [constructor|]; auto.
        * constructor; auto.
  Qed.

  (** The number of neutrons of a fission. *)
  Lemma yield64 nu (s : mstate) : is_double nu -> finite nu -> 0 <= value nu <= powerRZ 2 16 ->
    let u := fst (runif G64 s) in
    exists y, to_yield (A := F64 L) (nadd (F64 L) nu u) = Ok y
      /\ INR (N.to_nat y) <= value nu + value u + slack
      /\ value nu + value u < INR (N.to_nat y) + 1 + slack
      /\ (Zfloor (value nu) <= Z.of_N y <= Zfloor (value nu) + 1)%Z.
  Proof.
    intros Dn Fn Bn u. destruct (unif64 L s) as (v & Hu & Hv). fold u in Hu. rewrite (is64_value _ _ Hu).
    pose proof (double_is64 _ Dn Fn) as R. set (r := value nu) in *.
    assert (H32 : bpow radix2 (-32) = / 4294967296) by reflexivity.
    rewrite pow_bpow in Bn. change (bpow radix2 16) with 65536 in Bn.
    destruct (rnd_add_rel r v (is64_format _ _ R) (is64_format _ _ Hu)) as [E1 E2]; try lra.
    rewrite u53_val in E1, E2.
    assert (Big : Rabs (rnd (r + v)) < big).
    { apply rnd_small with 17%Z; [lia|]. rewrite Rabs_pos_eq by lra. change (bpow radix2 17) with 131072. lra. }
    pose proof (is64_add _ _ _ _ R Hu Big) as I.
    assert (Lo : r <= rnd (r + v)) by (apply rnd_ge_format; [exact (is64_format _ _ R)|lra]).
    set (t := rnd (r + v)) in *.
    assert (Rt : 0 <= t < IZR (2 ^ 64)).
    { split; [lra|]. apply Rlt_trans with 200000; [lra|]. apply IZR_lt. reflexivity. }
    exists (Z.to_N (Zfloor t)). rewrite slack_val.
    assert (F0 : (0 <= Zfloor t)%Z) by (apply Zfloor_lub; lra).
    assert (EI : INR (N.to_nat (Z.to_N (Zfloor t))) = IZR (Zfloor t)).
    { rewrite INR_IZR_INZ. f_equal. lia. }
    rewrite EI, Z2N.id by exact F0.
    pose proof (Zfloor_lb t) as Fl. pose proof (Zfloor_ub t) as Fu.
    split; [|split; [lra|split; [lra|]]].
    - unfold to_yield. change (ntoN (F64 L) (nadd (F64 L) nu u)) with (f64_toN (SFadd prec64 emax64 nu u)).
      now rewrite (is64_toN _ _ I Rt).
    - split; [now apply Zfloor_le|].
      assert (K : IZR (Zfloor t) < IZR (Zfloor r + 2)).
      { rewrite plus_IZR. pose proof (Zfloor_ub r). lra. }
      apply lt_IZR in K. lia.
  Qed.

  Lemma fission64 (p : particle) : p_energy p = Group g -> fission_node n <> None ->
    let u := value (fst (runif G64 (p_rng p))) in
    let nu := value (vector_entry X (nubar_node n) g) in
    exists q new, mg_fission m p = Ok q /\ p_event q = fission /\ is_alive q = false
      /\ p_secondaries q = (p_secondaries p ++ new)%list
      /\ (0 < column_sum64 X n (chi_node n) g ->
          INR (length new) <= nu + u + slack /\ nu + u < INR (length new) + 1 + slack
          /\ (Zfloor nu <= Z.of_nat (length new) <= Zfloor nu + 1)%Z)
      /\ (column_sum64 X n (chi_node n) g = 0 -> new = [])
      /\ List.Forall (born64 p) new /\ same_place p q.
  Proof.
    intros Ep Nf. cbv zeta. pose proof (s64_groups X n S) as HG.
    destruct (s64_fission X n S Nf) as [Nu Nc].
    pose proof (s64_yield X n S Nu) as Y.
    pose proof (proj1 (in_groups _ _) Hg) as Hg'.
    unfold mg_fission.
    change (p_energy (set_event p fission)) with (p_energy p). rewrite Ep. cbn [get_group bind].
    pose proof (bu_nubar _ _ _ B) as Bn. pose proof (bu_chi _ _ _ B) as Bc.
    destruct (nubar_node n) as [c1|] eqn:E1; [|congruence]. rewrite <- E1 in *.
    destruct (chi_node n) as [c2|] eqn:E2; [|congruence]. rewrite <- E2 in *.
    destruct Bn as [Bn Ln], Bc as [Bc _]. rewrite Bn, Bc. cbn [of_option bind].
    rewrite (group_at_nth _ _ (nofZ (F64 L) 0)) by (try exact (proj1 Hg'); try lia;
      change (num (F64 L)) with spec_float in *; lia).
    cbn [bind]. fold (vector_entry X (nubar_node n) g).
    assert (Dy : is_double (vector_entry X (nubar_node n) g) /\ finite (vector_entry X (nubar_node n) g)
        /\ 0 <= value (vector_entry X (nubar_node n) g) <= powerRZ 2 16).
    { unfold doubles_up_to in Y. rewrite Forall_forall in Y. apply Y. apply nth_In. lia. }
    destruct Dy as (D1 & D2 & D3).
    rewrite unif_pair. change (p_rng (set_event p fission)) with (p_rng p).
    destruct (yield64 _ (p_rng p) D1 D2 D3) as (y & Ey & Y1 & Y2 & Y3).
    rewrite Ey. cbn [bind].
    rewrite (group_at_nth _ _ []); try lia.
    2: { rewrite map_length, groups_length. lia. }
    rewrite (nth_groups _ _ _ _ Hg). cbn [bind].
    destruct (fission_loop64 Nc (N.to_nat y) (set_rng (set_event p fission) (snd (runif G64 (p_rng p)))))
      as (q & new & E & H1 & H2 & H3 & H4 & [H5 H6 H7 H8 H9] & H10).
    rewrite E. exists q, new. cbn in H1, H5, H6, H7, H8, H9, H10. parts; auto.
    - unfold is_alive. now rewrite H10.
    - intros Lc. rewrite (H2 Lc), N_nat_Z. tauto.
    - rewrite Forall_forall in *. intros s Hs. destruct (H4 s Hs) as (h & [] & Hh).
      exists h. split; [constructor|]; auto.
    - constructor; auto.
  Qed.
End Data.

(** ** The reaction of a collision *)
Section Reaction.
  Context {L : Libm} (X : Ext (F64 L)) (n : node).
  Notation G := (written_groups X n).
  Notation G64 := (Minstd (F64 L)).
  Notation most := (powerRZ 2 900).

  Lemma near_refl r : 0 <= r -> near r r.
  Proof. unfold near. lra. Qed.

  (** What is written for a reaction, what it is worth, and what is stored. *)
  Lemma written64 m r g : built X n m -> sensible_doubles X n -> In g (groups G) ->
    0 <= sigma64 X n r g <= bpow radix2 916 /\
    (written_xs X n r g = None /\ sigma64 X n r g = 0
     \/ exists x s, written_xs X n r g = Some x /\ is64 x s /\ near s (sigma64 X n r g)).
  Proof.
    intros B S Hg. pose proof (s64_groups X n S) as HG.
    assert (M0 : 0 <= bpow radix2 916) by apply bpow_ge_0.
    assert (M1 : most <= bpow radix2 916) by (rewrite pow_bpow; apply bpow_le; lia).
    assert (Vec : forall c, doubles_up_to X most c ->
      0 <= value (vector_entry X c g) <= bpow radix2 916
      /\ exists x s, Some (vector_entry X c g) = Some x /\ is64 x s /\ near s (value (vector_entry X c g))).
    { intros c D. destruct (entry64 X most c (N.to_nat (g - 1)) D (most_pos)) as [I Bd].
      fold (vector_entry X c g) in I, Bd. split; [lra|]. eexists _, _. split; [reflexivity|]. split; [exact I|].
      apply near_refl. lra. }
    destruct r; cbn [written_xs sigma64]; unfold present.
    - destruct (is_null (n_child n "capture")) eqn:N0; [split; [lra|auto]|].
      destruct (Vec (n_child n "capture")) as [V1 V2]; [|auto].
      apply (s64_data X n S); [now left|now apply is_null_false].
    - fold (scatter_node n). destruct (is_null (scatter_node n)) eqn:N0; [split; [lra|auto]|].
      assert (D : doubles_up_to X most (scatter_node n)).
      { apply (s64_data X n S); [right; now left|now apply is_null_false]. }
      destruct (column64 X n (scatter_node n) g D) as (Hc & Hn & Hb & Hl). specialize (Hb HG).
      change (column_sum64 X n (scatter_node n) g) with (Rsum (weights64 X n (scatter_node n) g)).
      pose proof (Rsum_nonneg _ Hn) as S0. split; [split; auto|right].
      pose proof hugest as Hh. change (num (F64 L)) with spec_float in *.
      destruct (sum_left64 L _ _ Hc Hn ltac:(lra) ltac:(rewrite Hl; lia)) as (s & Is & Bs).
      eexists _, s. split; [reflexivity|]. split; [exact Is|].
      rewrite Hl in Bs. destruct (many (N.to_nat G)) as [Q1 Q2]; [lia|].
      set (T := Rsum (weights64 X n (scatter_node n) g)) in *. destruct Bs as [Bs1 Bs2].
      split; [apply Rle_trans with (2 := Bs1)|apply Rle_trans with (1 := Bs2)]; apply Rmult_le_compat_r; auto.
    - fold (fission_node n). destruct (is_null (fission_node n)) eqn:N0; [split; [lra|auto]|].
      destruct (Vec (n_child (fission_node n) "xs")) as [V1 V2]; [|auto].
      apply (s64_data X n S); [do 2 right; now left|]. intros Ex.
      apply is_null_false in N0.
      destruct (bu_reactions _ _ _ B) as (c & s & f & E & _ & _ & _ & -> & Lf).
      specialize (Lf N0). rewrite Ex in Lf.
      destruct (create_total_ok _ _ _ (bu_total _ _ _ B)) as (T & _).
      rewrite E in T. unfold assemble, present in T.
      rewrite (proj2 (is_null_false _) N0) in T.
      apply Forall_app in T as [_ T]. apply Forall_app in T as [_ T]. inversion T; subst.
      cbn [snd] in *. pose proof (proj1 (in_groups _ _) Hg). rewrite Ex in *.
      change (num (F64 L)) with spec_float in *. lia.
  Qed.

  Lemma reaction64 m (p : particle (F64 L) G64) g :
    multigroup_create X n = Ok m -> sensible_doubles X n ->
    In g (groups G) -> p_energy p = Group g ->
    let c := sigma64 X n Rcapture g in
    let s := sigma64 X n Rscatter g in
    let f := sigma64 X n Rfission g in
    let T := c + s + f in
    let u := value (fst (runif G64 (p_rng p))) in
    powerRZ 2 (-900) <= T ->
    exists r,
      mg_interact m p = noexcept (let p1 := set_rng p (snd (runif G64 (p_rng p))) in
         match r with
         | Rcapture => Ok (mg_capture p1) | Rscatter => mg_scatter m p1
         | Rfission => mg_fission m p1 end)
      /\ 0 < sigma64 X n r g
      /\ match r with
         | Rcapture => u * T <= c + slack * T
         | Rscatter => c - slack * T <= u * T <= c + s + slack * T
         | Rfission => c + s - slack * T <= u * T
         end.
  Proof.
    intros H S Hg Ep c s f T u HT. pose proof (multigroup_built X n m H) as B.
    pose proof (s64_groups X n S) as HG. pose proof (proj1 (in_groups _ _) Hg) as Hg'.
    destruct (unif64 L (p_rng p)) as (v & Hu & Hv). unfold u. rewrite (is64_value _ _ Hu).
    pose proof (C21_total_is_sum_proof (F64 L) G64 X n m
                  (set_rng p (snd (runif G64 (p_rng p)))) g H Hg ltac:(lia) Ep) as Et.
    destruct (written64 m Rcapture g B S Hg) as [C0 Wc].
    destruct (written64 m Rscatter g B S Hg) as [S0 Ws].
    destruct (written64 m Rfission g B S Hg) as [F0 Wf].
    fold c in C0, Wc. fold s in S0, Ws. fold f in F0, Wf.
    assert (TB : T <= bpow radix2 920).
    { unfold T. apply Rle_trans with (3 * bpow radix2 916); [lra|].
      change 920%Z with (4 + 916)%Z. rewrite bpow_plus. change (bpow radix2 4) with 16.
      pose proof (bpow_ge_0 radix2 916). lra. }
    rewrite pow_bpow in HT.
    unfold mg_interact. rewrite unif_pair. cbv beta iota. rewrite Et. cbn [bind].
    match goal with |- context [p_energy (set_rng p ?b)] => change (p_energy (set_rng p b)) with (p_energy p) end.
    rewrite Ep. cbn [get_group bind].
    rewrite pick_reaction_choose.
    2: lia.
    2: { destruct (create_total_ok _ _ _ (bu_total _ _ _ B)) as (Tt & _).
         rewrite Forall_forall in *. intros rx Hrx. specialize (Tt rx Hrx).
         change (num (F64 L)) with spec_float in *. lia. }
    pose proof (reactions_at X n m g B Hg) as R.
    assert (R1 : map (fun rx => nth (N.to_nat (g - 1)) (snd rx) (nofZ (F64 L) 0)) (mg_reactions m) =
                 somes (map (fun r => written_xs X n r g) [Rcapture; Rscatter; Rfission])).
    { apply (f_equal (map snd)) in R. rewrite map_map in R. cbn [snd] in R. etransitivity; [exact R|].
      cbn [map somes flat_map].
      destruct (written_xs X n Rcapture g), (written_xs X n Rscatter g), (written_xs X n Rfission g); reflexivity. }
    assert (R2 : map fst (mg_reactions m) =
                 somes (map (fun r => option_map (fun _ => r) (written_xs X n r g)) [Rcapture; Rscatter; Rfission])).
    { apply (f_equal (map fst)) in R. rewrite map_map in R. cbn [fst] in R. etransitivity; [exact R|].
      cbn [map somes flat_map].
      destruct (written_xs X n Rcapture g), (written_xs X n Rscatter g), (written_xs X n Rfission g); reflexivity. }
    rewrite R1, R2.
    set (o := fun r : reaction => match written_xs X n r g with Some _ => [sigma64 X n r g] | None => [] end).
    assert (K : exists rs', are64 (somes (map (fun r => written_xs X n r g) [Rcapture; Rscatter; Rfission])) rs'
      /\ Forall2 near rs' (o Rcapture ++ o Rscatter ++ o Rfission) /\ nonneg (o Rcapture ++ o Rscatter ++ o Rfission)
      /\ Rsum (o Rcapture ++ o Rscatter ++ o Rfission) = T).
    { unfold o, T. fold c s f. cbn [map somes flat_map].
      destruct Wc as [[-> Zc]|(x1 & s1 & -> & I1 & N1)], Ws as [[-> Zs]|(x2 & s2 & -> & I2 & N2)],
        Wf as [[-> Zf]|(x3 & s3 & -> & I3 & N3)]; cbn [app];
        (eexists; split; [unfold are64; repeat (apply Forall2_cons; [eassumption|]); apply Forall2_nil|
           split; [repeat (apply Forall2_cons; [eassumption|]); apply Forall2_nil|
             split; [unfold nonneg; repeat (apply List.Forall_cons; [lra|]); apply List.Forall_nil|cbn [Rsum]; lra]]]). }
    destruct K as (rs' & K1 & K2 & K3 & K4).
    assert (Len : (length (somes (map (fun r => written_xs X n r g) [Rcapture; Rscatter; Rfission])) <= 3)%nat).
    { cbn [map somes flat_map].
      destruct (written_xs X n Rcapture g), (written_xs X n Rscatter g), (written_xs X n Rfission g); cbn; lia. }
    destruct (reaction_index L _ _ _ _ v K1 K2 K3 Len ltac:(rewrite K4; lra) Hu Hv) as (i & Ei & Li & Pi & Bi).
    rewrite Ei. rewrite K4 in Bi. cbn [bind].
    unfold o in *. cbn [map somes flat_map] in *.
    destruct Wc as [[Ec Zc]|(x1 & s1 & Ec & _)], Ws as [[Es Zs]|(x2 & s2 & Es & _)], Wf as [[Ef Zf]|(x3 & s3 & Ef & _)];
      rewrite Ec, Es, Ef in *; fold c s f in Pi, Bi; cbn [app length] in *;
      (destruct i as [|[|[|i]]]; [| | |exfalso; lia]); cbn [nth firstn Rsum nth_error option_map app] in *; try lra;
      first [ exists Rcapture; fold c; split; [reflexivity|lra]
            | exists Rscatter; fold s; split; [reflexivity|lra]
            | exists Rfission; fold f; split; [reflexivity|lra] ].
  Qed.
End Reaction.

Lemma present_node {L} (X : Ext (F64 L)) n r g : 0 < sigma64 X n r g ->
  match r with
  | Rcapture => n_child n "capture" <> None
  | Rscatter => scatter_node n <> None /\ sigma64 X n r g = column_sum64 X n (scatter_node n) g
  | Rfission => fission_node n <> None
  end.
Proof.
  destruct r; cbn [sigma64].
  - destruct (is_null (n_child n "capture")) eqn:E; [lra|]. intros _. now apply is_null_false.
  - destruct (is_null (scatter_node n)) eqn:E; [lra|]. intros _. split; [now apply is_null_false|reflexivity].
  - destruct (is_null (fission_node n)) eqn:E; [lra|]. intros _. now apply is_null_false.
Qed.

Lemma C90_reaction_proof :
  forall (L : Libm) (X : Ext (F64 L)) n m (p : particle (F64 L) (Minstd (F64 L))) g,
  multigroup_create X n = Ok m -> sensible_doubles X n ->
  In g (groups (written_groups X n)) -> p_energy p = Group g ->
  let c := sigma64 X n Rcapture g in
  let s := sigma64 X n Rscatter g in
  let f := sigma64 X n Rfission g in
  let T := c + s + f in
  let u := value (draw (Minstd (F64 L)) 0 (p_rng p)) in
  powerRZ 2 (-900) <= T ->
  exists q, mg_interact m p = Ok q /\
    (p_event q = capture /\ 0 < c /\ u * T <= c + slack * T
     \/ p_event q = scatter /\ 0 < s /\ c - slack * T <= u * T <= c + s + slack * T
     \/ p_event q = fission /\ 0 < f /\ c + s - slack * T <= u * T).
Proof.
  intros L X n m p g H S Hg Ep c s f T u HT. pose proof (multigroup_built X n m H) as B.
  destruct (reaction64 X n m p g H S Hg Ep HT) as (r & E & P & I). cbv zeta in E.
  fold c s f in I. fold T in I. change (value (fst (runif (Minstd (F64 L)) (p_rng p)))) with u in I.
  pose proof (present_node X n r g P) as Pn. rewrite E. destruct r.
  - eexists. split; [reflexivity|]. left. split; [reflexivity|]. split; [exact P|exact I].
  - destruct Pn as [Ns Es]. rewrite Es in P.
    destruct (scatter64 X n m B S g Hg (set_rng p (snd (runif (Minstd (F64 L)) (p_rng p)))) Ep Ns P)
      as (h & q & Eq & Ev & _).
    exists q. rewrite Eq. split; [reflexivity|]. right; left. split; [exact Ev|]. split; [unfold s; rewrite Es; exact P|exact I].
  - destruct (fission64 X n m B S g Hg (set_rng p (snd (runif (Minstd (F64 L)) (p_rng p)))) Ep Pn)
      as (q & new & Eq & Ev & _).
    exists q. rewrite Eq. split; [reflexivity|]. right; right. split; [exact Ev|]. split; [exact P|exact I].
Qed.

Lemma C90_scatter_proof :
  forall (L : Libm) (X : Ext (F64 L)) n m (p q : particle (F64 L) (Minstd (F64 L))) g,
  multigroup_create X n = Ok m -> sensible_doubles X n ->
  In g (groups (written_groups X n)) -> p_energy p = Group g ->
  powerRZ 2 (-900) <= sigma64 X n Rcapture g + sigma64 X n Rscatter g + sigma64 X n Rfission g ->
  mg_interact m p = Ok q -> p_event q = scatter ->
  let w := weight64 X n (scatter_node n) in
  let below h := column_below64 X n (scatter_node n) h g in
  let s := column_sum64 X n (scatter_node n) g in
  let v := value (draw (Minstd (F64 L)) 1 (p_rng p)) in
  exists h, In h (groups (written_groups X n)) /\ p_energy q = Group h
    /\ 0 < w h g
    /\ below h - slack * s <= v * s <= below h + w h g + slack * s
    /\ is_alive q = true /\ same_place p q /\ p_secondaries q = p_secondaries p
    /\ exists r, p_direction q = fst (dir_isotropic (Minstd (F64 L)) r).
Proof.
  intros L X n m p q g H S Hg Ep HT Hq Hev w below s v. pose proof (multigroup_built X n m H) as B.
  destruct (reaction64 X n m p g H S Hg Ep HT) as (r & E & P & I). cbv zeta in E.
  pose proof (present_node X n r g P) as Pn. rewrite Hq in E.
  destruct r.
  - injection E as ->. discriminate.
  - destruct Pn as [Ns Es]. rewrite Es in P.
    destruct (scatter64 X n m B S g Hg (set_rng p (snd (runif (Minstd (F64 L)) (p_rng p)))) Ep Ns P)
      as (h & q' & Eq & Ev & Al & Hh & He & Hw & Hb & [] & Sec & Dir).
    rewrite Eq in E. injection E as ->. exists h.
    split; [exact Hh|]. split; [exact He|]. split; [exact Hw|]. split; [exact Hb|].
    split; [exact Al|]. split; [constructor; assumption|]. split; [exact Sec|exact Dir].
  - destruct (fission64 X n m B S g Hg (set_rng p (snd (runif (Minstd (F64 L)) (p_rng p)))) Ep Pn)
      as (q' & new & Eq & Ev & _).
    rewrite Eq in E. injection E as ->. congruence.
Qed.

Lemma C90_fission_proof :
  forall (L : Libm) (X : Ext (F64 L)) n m (p q : particle (F64 L) (Minstd (F64 L))) g,
  multigroup_create X n = Ok m -> sensible_doubles X n ->
  In g (groups (written_groups X n)) -> p_energy p = Group g ->
  powerRZ 2 (-900) <= sigma64 X n Rcapture g + sigma64 X n Rscatter g + sigma64 X n Rfission g ->
  mg_interact m p = Ok q -> p_event q = fission ->
  let nu := value (vector_entry X (nubar_node n) g) in
  let u := value (draw (Minstd (F64 L)) 1 (p_rng p)) in
  exists new, p_secondaries q = (p_secondaries p ++ new)%list
    /\ (0 < column_sum64 X n (chi_node n) g ->
        INR (length new) <= nu + u + slack /\ nu + u < INR (length new) + 1 + slack
        /\ (Int_part nu <= Z.of_nat (length new) <= Int_part nu + 1)%Z)
    /\ (column_sum64 X n (chi_node n) g = 0 -> new = [])
    /\ List.Forall (fun s => exists h, begun_at p s h /\ In h (groups (written_groups X n))
         /\ 0 < weight64 X n (chi_node n) h g) new
    /\ is_alive q = false /\ same_place p q.
Proof.
  intros L X n m p q g H S Hg Ep HT Hq Hev nu u. pose proof (multigroup_built X n m H) as B.
  destruct (reaction64 X n m p g H S Hg Ep HT) as (r & E & P & I). cbv zeta in E.
  pose proof (present_node X n r g P) as Pn. rewrite Hq in E.
  destruct r.
  - injection E as ->. discriminate.
  - destruct Pn as [Ns Es]. rewrite Es in P.
    destruct (scatter64 X n m B S g Hg (set_rng p (snd (runif (Minstd (F64 L)) (p_rng p)))) Ep Ns P)
      as (h & q' & Eq & Ev & _).
    rewrite Eq in E. injection E as ->. congruence.
  - destruct (fission64 X n m B S g Hg (set_rng p (snd (runif (Minstd (F64 L)) (p_rng p)))) Ep Pn)
      as (q' & new & Eq & Ev & Al & Sec & Cnt & Zero & Each & []).
    rewrite Eq in E. injection E as ->. exists new. split; [exact Sec|]. split; [exact Cnt|]. split; [exact Zero|].
    split; [|split; [exact Al|constructor; assumption]].
    rewrite Forall_forall in *. intros y Hy. destruct (Each y Hy) as (h & [] & Hh). exists h.
    split; [constructor; assumption|exact Hh].
Qed.
