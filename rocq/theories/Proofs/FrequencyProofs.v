(** Frequencies over the cycle of the random number generator: C84. *)
From Coq Require Import List Bool ZArith NArith Reals Lra Lia Psatz Permutation FinFun.
From Verif Require Import Model.Num Model.Outcome Model.Rng Model.Std Model.Types Model.Point
  Model.Xml Model.Multigroup Model.Material Model.Transport
  Model.Particle Model.Driver Spec.RngSpec Spec.SumSpec Spec.MultigroupSpec Spec.MaterialSpec Spec.FrequencySpec Proofs.RealLib Proofs.RngProofs
  Proofs.PeriodProofs Proofs.FlightProofs Proofs.MultigroupProofs Proofs.MultigroupReal
  Proofs.MaterialProofs Proofs.CrossingProofs.
Import ListNotations.
Local Open Scope Z_scope.

Notation zcycle := 2147483646 (only parsing).

(** ** Lists *)
Lemma NoDup_map_on {S T : Type} (f : S -> T) l :
  (forall x y, In x l -> In y l -> f x = f y -> x = y) -> NoDup l -> NoDup (map f l).
Proof.
  intros I N. induction N as [|x l Hx N IH]; cbn; constructor.
  - intros H. apply in_map_iff in H as (y & E & Hy). apply I in E; [|now right|now left]. congruence.
  - apply IH. intros; apply I; auto; now right.
Qed.
Lemma filter_length_le {T : Type} (f g : T -> bool) l :
  (forall x, In x l -> f x = true -> g x = true) ->
  (length (filter f l) <= length (filter g l))%nat.
Proof.
  induction l as [|x l IH]; intros H; [reflexivity|]. cbn.
  assert (IH' := IH (fun y Hy => H y (or_intror Hy))). specialize (H x (or_introl eq_refl)).
  destruct (f x), (g x); cbn; try lia.
Qed.
Lemma filter_map {S T : Type} (f : S -> T) (g : T -> bool) l :
  filter g (map f l) = map f (filter (fun x => g (f x)) l).
Proof. induction l as [|x l IH]; [reflexivity|]. cbn. destruct (g (f x)); cbn; now rewrite IH. Qed.

(** A list that a map sends one to one onto the numbers from one to [M]. *)
Record numbered {T : Type} (l : list T) (f : T -> Z) (M : Z) : Prop := mkNumbered {
  nb_nodup : NoDup l;
  nb_inj : forall x y, In x l -> In y l -> f x = f y -> x = y;
  nb_range : forall x, In x l -> 1 <= f x <= M;
  nb_onto : forall z, 1 <= z <= M -> exists x, In x l /\ f x = z
}.
Lemma numbered_count {T : Type} (l : list T) f M lo hi :
  numbered l f M -> 0 <= lo -> lo <= hi -> hi <= M ->
  Z.of_nat (length (filter (fun x => (lo <? f x) && (f x <=? hi)) l)) = hi - lo.
Proof.
  intros [N I R O] Hlo Hh HM.
  set (g := fun z => (lo <? z) && (z <=? hi)).
  change (Z.of_nat (length (filter (fun x => g (f x)) l)) = hi - lo).
  rewrite <- (map_length f), <- filter_map.
  assert (P : Permutation (filter g (map f l))
                          (map (fun k => lo + Z.of_nat k) (seq 1 (Z.to_nat (hi - lo))))).
  { apply NoDup_Permutation.
    - apply NoDup_filter. now apply NoDup_map_on.
    - apply NoDup_map_on; [intros; lia|apply seq_NoDup].
    - intros z. rewrite filter_In, !in_map_iff. unfold g.
      rewrite andb_true_iff, Z.ltb_lt, Z.leb_le. split.
      + intros ((x & <- & Hx) & H1 & H2). exists (Z.to_nat (f x - lo)). split; [lia|].
        apply in_seq. lia.
      + intros (k & <- & Hk). apply in_seq in Hk. split; [|lia].
        destruct (O (lo + Z.of_nat k)) as (x & Hx & E); [lia|]. eauto. }
  rewrite (Permutation_length P), map_length, seq_length. lia.
Qed.
Lemma numbered_between {T : Type} (l : list T) f M (test : T -> bool) lo hi lo' hi' :
  numbered l f M -> 0 <= lo -> lo <= hi + 1 -> hi <= M -> 0 <= lo' -> lo' <= hi' -> hi' <= M ->
  (forall x, In x l -> lo < f x <= hi -> test x = true) ->
  (forall x, In x l -> test x = true -> lo' < f x <= hi') ->
  hi - lo <= Z.of_nat (length (filter test l)) <= hi' - lo'.
Proof.
  intros N H1 H2 H3 H4 H5 H6 Lo Hi. split.
  - destruct (Z_le_gt_dec lo hi) as [L|L]; [|lia].
    rewrite <- (numbered_count l f M lo hi N) by auto. apply Nat2Z.inj_le. apply filter_length_le.
    intros x Hx. rewrite andb_true_iff, Z.ltb_lt, Z.leb_le. auto.
  - rewrite <- (numbered_count l f M lo' hi' N) by auto. apply Nat2Z.inj_le. apply filter_length_le.
    intros x Hx. rewrite andb_true_iff, Z.ltb_lt, Z.leb_le. auto.
Qed.

(** ** States of the generator *)
Definition states (A : Arith) : list (rst (Minstd A)) :=
  map (fun i => after_raw (Minstd A) (N.of_nat i) (ms_seed 1)) (seq 0 (N.to_nat cycle)).
Opaque N.to_nat.
Lemma states_all A s : In s (states A).
Proof.
  destruct (C60_every_state_proof A (ms_seed 1) s) as (n & Hn & E).
  unfold states. apply in_map_iff. exists (N.to_nat n). split.
  - rewrite N2Nat.id. exact E.
  - apply in_seq. unfold cycle. lia.
Qed.
Lemma ms_range (s : mstate) : 1 <= ms_val s <= zcycle.
Proof. destruct s as [x Hx]. now apply minstd_in_spec. Qed.
Lemma states_nodup A : NoDup (states A).
Proof.
  unfold states. apply NoDup_map_on; [|apply seq_NoDup].
  assert (K : forall i j, (i <= j)%nat -> (j < N.to_nat cycle)%nat ->
    after_raw (Minstd A) (N.of_nat i) (ms_seed 1) = after_raw (Minstd A) (N.of_nat j) (ms_seed 1) ->
    i = j).
  { intros i j L Hj E. apply (f_equal ms_val) in E. rewrite !after_raw_val in E.
    set (x := ms_val (ms_seed 1)) in *. assert (Hx : 1 <= x <= zcycle) by apply ms_range.
    replace (N.of_nat j) with (N.of_nat i + N.of_nat (j - i))%N in E by lia.
    rewrite iterated_add in E.
    apply iterated_inj in E; [|exact Hx|now apply iterated_in].
    symmetry in E. apply period in E; [|exact Hx]. destruct E as (c & Ec).
    unfold cycle in Hj. nia. }
  intros i j Hi Hj E. apply in_seq in Hi, Hj.
  destruct (Nat.le_ge_cases i j); [|symmetry]; apply K; auto; lia.
Qed.
Lemma states_numbered A n : numbered (states A) (fun s => iterated n (ms_val s)) zcycle.
Proof.
  constructor.
  - apply states_nodup.
  - intros s t _ _ E. apply iterated_inj in E; [|apply ms_range..]. now apply ms_eq.
  - intros s _. apply iterated_in, ms_range.
  - intros z Hz. destruct (C60_every_state_proof A (ms_seed 1) (mkMs z (proj2 (minstd_in_spec z) Hz)))
      as (k & _ & E).
    (* the state [n] steps before [z]: the cycle has a multiple of its length left *)
    exists (after_raw (Minstd A) (k + n * 2147483645) (ms_seed 1)). split; [apply states_all|].
    rewrite after_raw_val, <- iterated_add.
    replace (n + (k + n * 2147483645))%N with (n * 2147483646 + k)%N by lia.
    rewrite iterated_add. apply (f_equal ms_val) in E. rewrite after_raw_val in E. rewrite E.
    apply period; [exact Hz|]. now exists n.
Qed.

(** The uniform numbers of the generator. *)
Lemma advance_val A k : forall s : rst (Minstd A),
  ms_val (advance (Minstd A) k s) = iterated (2 * N.of_nat k) (ms_val s).
Proof.
  induction k as [|k IH]; intros s; [reflexivity|]. cbn [advance]. rewrite IH.
  cbn [runif Minstd snd ms_next ms_val].
  change (minstd_next (minstd_next (ms_val s))) with (iterated 2 (ms_val s)).
  rewrite <- iterated_add. f_equal. lia.
Qed.
Lemma draw_scale k (s : rst (Minstd XRa)) : exists u, draw (Minstd XRa) k s = Fin u
  /\ (IZR (iterated (2 * N.of_nat k + 2) (ms_val s) - 1) / IZR zcycle <= u
      < IZR (iterated (2 * N.of_nat k + 2) (ms_val s)) / IZR zcycle)%R.
Proof.
  unfold draw. set (s' := advance (Minstd XRa) k s).
  assert (E2 : iterated (2 * N.of_nat k + 2) (ms_val s) = minstd_next (minstd_next (ms_val s'))).
  { unfold s'. rewrite advance_val. rewrite N.add_comm, iterated_add. reflexivity. }
  rewrite E2. cbn [runif Minstd fst].
  assert (R1 : 1 <= minstd_next (ms_val s') <= zcycle).
  { apply minstd_in_spec, minstd_next_in, ms_in. }
  assert (R2 : 1 <= minstd_next (minstd_next (ms_val s')) <= zcycle).
  { apply minstd_in_spec, minstd_next_in, minstd_next_in, ms_in. }
  unfold minstd_canonical. set (x1 := minstd_next (ms_val s')) in *.
  set (x2 := minstd_next x1) in *. unfold minstd_range.
  assert (B1 : (1 <= IZR x1 <= 2147483646)%R) by (split; apply IZR_le; lia).
  assert (B2 : (1 <= IZR x2 <= 2147483646)%R) by (split; apply IZR_le; lia).
  set (r := IZR zcycle). assert (Hr : r = 2147483646%R) by reflexivity.
  set (sum := (IZR (x1 - 1) + IZR (x2 - 1) * r)%R).
  assert (Es : sum = (IZR x1 - 1 + (IZR x2 - 1) * r)%R) by (unfold sum; now rewrite !minus_IZR).
  assert (Q : (sum / (r * r) * (r * r) = sum)%R) by (field; lra).
  assert (E : nleb XRa (nofZ XRa 1) (Fin (sum / (r * r))) = false).
  { cbn. apply Rleb_false. apply (Rmult_lt_reg_r (r * r)); [nra|]. rewrite Q. nra. }
  cbn -[IZR]. fold r. rewrite Reqb_false by nra. cbn -[IZR] in E. fold r in E. fold sum. rewrite E.
  exists (sum / (r * r))%R. split; [reflexivity|]. rewrite minus_IZR.
  assert (Q1 : ((IZR x2 - 1) / r * (r * r) = (IZR x2 - 1) * r)%R) by (field; lra).
  assert (Q2 : (IZR x2 / r * (r * r) = IZR x2 * r)%R) by (field; lra).
  split.
  - apply (Rmult_le_reg_r (r * r)); [nra|]. rewrite Q, Q1. nra.
  - apply (Rmult_lt_reg_r (r * r)); [nra|]. rewrite Q, Q2. nra.
Qed.

(** ** Shares of the states *)
Lemma counts_filter {T : Type} (l : list T) (test : T -> bool) :
  NoDup l -> counts (fun x => In x l /\ test x = true) (N.of_nat (length (filter test l))).
Proof.
  intros N. exists (filter test l). split; [now apply NoDup_filter|]. split; [|reflexivity].
  intros x. now rewrite filter_In.
Qed.
Lemma counts_iff {T : Type} (P Q : T -> Prop) n : (forall x, P x <-> Q x) -> counts P n -> counts Q n.
Proof. intros H (l & N & E & L). exists l. split; auto. split; auto. intros x. now rewrite E. Qed.
Lemma share_iff {T : Type} (P Q : T -> Prop) x err :
  (forall t, P t <-> Q t) -> frequency P x err -> frequency Q x err.
Proof. intros H (n & C & E). exists n. split; auto. now apply (counts_iff P). Qed.
Lemma counts_unique {T : Type} (P : T -> Prop) n n' : counts P n -> counts P n' -> n = n'.
Proof.
  intros (l & N & E & <-) (l' & N' & E' & <-). f_equal. apply Permutation_length.
  apply NoDup_Permutation; auto. intros x. now rewrite E, E'.
Qed.

Lemma floor_spec x : exists n : Z, (IZR n <= x < IZR n + 1)%R.
Proof. exists (Int_part x). pose proof (base_Int_part x). lra. Qed.
Lemma IZR_lt_inv n m : (IZR n < IZR m)%R -> n < m.
Proof. apply lt_IZR. Qed.

Section Interval.
  Context (k : nat) (test : R -> bool).
  Local Open Scope R_scope.
  Let r := IZR zcycle.
  Let passes (s : rst (Minstd XRa)) : bool :=
    match draw (Minstd XRa) k s with Fin u => test u | _ => false end.
  Let place (s : rst (Minstd XRa)) : Z := iterated (2 * N.of_nat k + 2) (ms_val s).

  (** The number drawn is between [place - 1] and [place], scaled. *)
  Lemma draw_place s : exists u, draw (Minstd XRa) k s = Fin u /\ passes s = test u
    /\ IZR (place s) - 1 <= u * r < IZR (place s) /\ (1 <= place s <= zcycle)%Z /\ 0 <= u < 1.
  Proof.
    destruct (draw_scale k s) as (u & E & L & U). exists u. split; [exact E|].
    split; [unfold passes; now rewrite E|]. fold (place s) in L, U. fold r in L, U.
    assert (Hr : r = 2147483646) by reflexivity.
    assert (P : (1 <= place s <= zcycle)%Z) by (apply iterated_in, ms_range).
    apply (Rmult_le_compat_r r) in L; [|lra]. apply (Rmult_lt_compat_r r) in U; [|lra].
    unfold Rdiv in L, U. rewrite Rmult_assoc, Rinv_l, Rmult_1_r in L by lra.
    rewrite Rmult_assoc, Rinv_l, Rmult_1_r in U by lra. rewrite minus_IZR in L.
    assert (1 <= IZR (place s) <= r) by (unfold r; split; apply IZR_le; lia).
    split; [lra|]. split; [exact P|]. split; nra.
  Qed.

  Lemma passing_between a b : 0 <= a -> a <= b -> b <= r ->
    (forall u, 0 <= u < 1 -> a < u * r < b -> test u = true) ->
    (forall u, 0 <= u < 1 -> test u = true -> a <= u * r <= b) ->
    Rabs (IZR (Z.of_nat (length (filter passes (states XRa)))) - (b - a)) <= 2.
  Proof.
    intros H1 H2 H3 In1 In2. destruct (floor_spec a) as (fa & Ha). destruct (floor_spec b) as (fb & Hb).
    assert (A0 : (0 <= fa)%Z) by (enough (-1 < fa)%Z by lia; apply IZR_lt_inv; lra).
    assert (AB : (fa <= fb)%Z) by (enough (fa < fb + 1)%Z by lia; apply IZR_lt_inv; rewrite plus_IZR; lra).
    assert (BM : (fb <= zcycle)%Z) by (apply le_IZR; fold r; lra).
    destruct (Z.eq_dec fa fb) as [Eab|Nab].
    - assert (K : (Z.of_nat (length (filter passes (states XRa))) <= Z.min (fb + 1) zcycle - Z.min fa 2147483645)%Z).
      { apply (numbered_between (states XRa) place zcycle passes 0 (-1) (Z.min fa 2147483645)
                 (Z.min (fb + 1) zcycle)); try lia.
        - apply states_numbered.
        - intros s _ T. destruct (draw_place s) as (u & _ & E & P & Q & B). rewrite E in T.
          apply In2 in T; [|exact B]. split.
          + apply Z.le_lt_trans with fa; [lia|]. apply IZR_lt_inv. lra.
          + enough (place s < fb + 2)%Z by lia. apply IZR_lt_inv. rewrite plus_IZR. lra. }
      assert (0 <= Z.of_nat (length (filter passes (states XRa))))%Z by lia.
      set (n := Z.of_nat (length (filter passes (states XRa)))) in *.
      assert (n <= 1)%Z by lia.
      assert (0 <= IZR n <= 1) by (split; apply IZR_le; lia).
      apply Rabs_le. subst fb. lra.
    - assert (K : (fb - (fa + 1) <= Z.of_nat (length (filter passes (states XRa)))
                   <= Z.min (fb + 1) zcycle - fa)%Z).
      { apply (numbered_between (states XRa) place zcycle passes (fa + 1) fb fa
                 (Z.min (fb + 1) zcycle)); try lia.
        - apply states_numbered.
        - intros s _ P1. destruct (draw_place s) as (u & _ & E & P & Q & B). rewrite E.
          apply In1; [exact B|]. destruct P1 as [P1 P2].
          assert (P3 : (fa + 2 <= place s)%Z) by lia. apply IZR_le in P2, P3.
          rewrite plus_IZR in P3. lra.
        - intros s _ T. destruct (draw_place s) as (u & _ & E & P & Q & B). rewrite E in T.
          apply In2 in T; [|exact B]. split.
          + apply IZR_lt_inv. lra.
          + enough (place s < fb + 2)%Z by lia. apply IZR_lt_inv. rewrite plus_IZR. lra. }
      set (n := Z.of_nat (length (filter passes (states XRa)))) in *.
      destruct K as [K1 K2].
      assert (K3 : (n <= fb + 1 - fa)%Z) by lia. apply IZR_le in K1, K3.
      rewrite ?minus_IZR, ?plus_IZR, ?minus_IZR, ?plus_IZR in K1, K3. apply Rabs_le. lra.
  Qed.
  Lemma passing_below b : 0 <= b -> b <= r ->
    (forall u, 0 <= u < 1 -> u * r < b -> test u = true) ->
    (forall u, 0 <= u < 1 -> test u = true -> u * r <= b) ->
    Rabs (IZR (Z.of_nat (length (filter passes (states XRa)))) - b) <= 1.
  Proof.
    intros H2 H3 In1 In2. destruct (floor_spec b) as (fb & Hb).
    assert (AB : (0 <= fb)%Z) by (enough (0 < fb + 1)%Z by lia; apply IZR_lt_inv; rewrite plus_IZR; lra).
    assert (BM : (fb <= zcycle)%Z) by (apply le_IZR; fold r; lra).
    assert (K : (fb - 0 <= Z.of_nat (length (filter passes (states XRa)))
                 <= Z.min (fb + 1) zcycle - 0)%Z).
    { apply (numbered_between (states XRa) place zcycle passes 0 fb 0 (Z.min (fb + 1) zcycle)); try lia.
      - apply states_numbered.
      - intros s _ P1. destruct (draw_place s) as (u & _ & E & P & Q & B). rewrite E.
        apply In1; [exact B|]. destruct P1 as [P1 P2]. apply IZR_le in P2. lra.
      - intros s _ T. destruct (draw_place s) as (u & _ & E & P & Q & B). rewrite E in T.
        apply In2 in T; [|exact B]. split; [lia|].
        enough (place s < fb + 2)%Z by lia. apply IZR_lt_inv. rewrite plus_IZR. lra. }
    set (n := Z.of_nat (length (filter passes (states XRa)))) in *. destruct K as [K1 K2].
    assert (K3 : (n <= fb + 1)%Z) by lia. assert (K4 : (fb <= n)%Z) by lia.
    apply IZR_le in K3, K4. rewrite plus_IZR in K3. apply Rabs_le. lra.
  Qed.
  Lemma passing_above a : 0 <= a -> a <= r ->
    (forall u, 0 <= u < 1 -> a < u * r -> test u = true) ->
    (forall u, 0 <= u < 1 -> test u = true -> a <= u * r) ->
    Rabs (IZR (Z.of_nat (length (filter passes (states XRa)))) - (r - a)) <= 1.
  Proof.
    intros H2 H3 In1 In2. destruct (floor_spec a) as (fa & Ha).
    assert (AB : (0 <= fa)%Z) by (enough (0 < fa + 1)%Z by lia; apply IZR_lt_inv; rewrite plus_IZR; lra).
    assert (BM : (fa <= zcycle)%Z) by (apply le_IZR; fold r; lra).
    assert (K : (zcycle - (fa + 1) <= Z.of_nat (length (filter passes (states XRa)))
                 <= zcycle - fa)%Z).
    { apply (numbered_between (states XRa) place zcycle passes (fa + 1) zcycle fa zcycle); try lia.
      - apply states_numbered.
      - intros s _ P1. destruct (draw_place s) as (u & _ & E & P & Q & B). rewrite E.
        apply In1; [exact B|]. destruct P1 as [P1 P2].
        assert (P3 : (fa + 2 <= place s)%Z) by lia. apply IZR_le in P3. rewrite plus_IZR in P3. lra.
      - intros s _ T. destruct (draw_place s) as (u & _ & E & P & Q & B). rewrite E in T.
        apply In2 in T; [|exact B]. split; [apply IZR_lt_inv; lra|apply Q]. }
    set (n := Z.of_nat (length (filter passes (states XRa)))) in *. destruct K as [K1 K2].
    apply IZR_le in K1, K2.
    rewrite minus_IZR, ?plus_IZR in K1. rewrite minus_IZR in K2. fold r in K1, K2.
    apply Rabs_le. lra.
  Qed.
End Interval.

(** ** Histories *)
Lemma filter_perm {T : Type} (f : T -> bool) l l' :
  Permutation l l' -> length (filter f l) = length (filter f l').
Proof.
  induction 1 as [|x l l' _ IH|x y l|]; cbn; auto.
  - destruct (f x); cbn; lia.
  - destruct (f x), (f y); reflexivity.
  - congruence.
Qed.
Lemma complement {T : Type} (k : list T) : forall l, NoDup k -> incl k l ->
  exists rest, Permutation l (k ++ rest).
Proof.
  induction k as [|x k IH]; intros l N I; [exists l; reflexivity|].
  inversion N as [|? ? Hx N']; subst.
  destruct (in_split x l) as (l1 & l2 & ->); [apply I; now left|].
  destruct (IH (l1 ++ l2)%list) as (rest & P); auto.
  - intros y Hy. assert (In y (l1 ++ x :: l2)%list) as H by (apply I; now right).
    apply in_app_or in H as [H|[H|H]]; [apply in_or_app; auto| |apply in_or_app; auto].
    congruence.
  - exists rest. cbn. rewrite <- Permutation_middle. now constructor.
Qed.
Lemma filter_app_length {T : Type} (f : T -> bool) l l' :
  length (filter f (l ++ l')) = (length (filter f l) + length (filter f l'))%nat.
Proof. induction l as [|x l IH]; cbn; auto. destruct (f x); cbn; lia. Qed.
Lemma filter_split {T : Type} (f g : T -> bool) l :
  length (filter f l) = (length (filter f (filter g l))
                         + length (filter f (filter (fun x => negb (g x)) l)))%nat.
Proof. induction l as [|x l IH]; cbn; auto. destruct (f x) eqn:F, (g x); cbn; rewrite ?F; cbn; lia. Qed.
Lemma filter_le {T : Type} (f : T -> bool) l : (length (filter f l) <= length l)%nat.
Proof. induction l as [|x l IH]; cbn; auto. destruct (f x); cbn; lia. Qed.
Lemma at_most_one {T : Type} (l : list T) :
  NoDup l -> (forall x y, In x l -> In y l -> x = y) -> (length l <= 1)%nat.
Proof.
  intros N H. destruct l as [|x [|y l]]; cbn; try lia. exfalso.
  inversion N as [|? ? Hx _]; subst. apply Hx. left. apply H; cbn; auto.
Qed.

Lemma count_close {S T : Type} (l : list S) (l' : list T) st (test : T -> bool) good :
  NoDup l -> (forall i j, In i (filter good l) -> In j (filter good l) -> st i = st j -> i = j) ->
  (length (filter (fun i => negb (good i)) l) <= 1)%nat -> (forall i, In (st i) l') ->
  length l' = length l ->
  Z.abs (Z.of_nat (length (filter (fun i => test (st i)) l))
         - Z.of_nat (length (filter test l'))) <= 1.
Proof.
  intros N Inj One All' Len. set (K := filter good l) in *.
  assert (All : forall T (l : list T), length (filter (fun _ => true) l) = length l).
  { intros T0 l0. induction l0; cbn; auto. }
  destruct (complement (map st K) l') as (rest & P).
  { apply NoDup_map_on; [exact Inj|]. now apply NoDup_filter. }
  { intros s H. apply in_map_iff in H as (i & <- & _). apply All'. }
  assert (Rest : (length rest <= 1)%nat).
  { apply Permutation_length in P. rewrite app_length, map_length in P.
    pose proof (filter_split (fun _ => true) good l) as Q. rewrite !All in Q. fold K in Q. lia. }
  rewrite (filter_perm _ _ _ P), filter_app_length, filter_map, map_length.
  rewrite (filter_split (fun i => test (st i)) good l). fold K.
  pose proof (filter_le test rest).
  pose proof (filter_le (fun i => test (st i)) (filter (fun i => negb (good i)) l)). lia.
Qed.

Definition indices : list N := map N.of_nat (seq 0 (N.to_nat cycle)).
Lemma indices_in i : In i indices <-> (i < cycle)%N.
Proof.
  unfold indices. rewrite in_map_iff. split.
  - intros (k & <- & Hk). apply in_seq in Hk. lia.
  - intros Hi. exists (N.to_nat i). split; [lia|]. apply in_seq. lia.
Qed.
Lemma indices_nodup : NoDup indices.
Proof. apply NoDup_map_on; [intros; lia|apply seq_NoDup]. Qed.

Lemma states_length A : length (states A) = length indices.
Proof. unfold states, indices. now rewrite !map_length. Qed.
Opaque states indices.

Lemma histories_count (A : Arith) (dr : @driver A) (test : rst (Minstd A) -> bool) :
  (dr_seed dr + cycle <= 2 ^ 64)%N ->
  Z.abs (Z.of_nat (length (filter (fun i => test (p_rng (history_start (G := Minstd A) dr i))) indices))
         - Z.of_nat (length (filter test (states A)))) <= 1.
Proof.
  intros S. set (st := fun i => p_rng (history_start (G := Minstd A) dr i)).
  change (fun i => test (p_rng (history_start (G := Minstd A) dr i))) with (fun i => test (st i)).
  set (good := fun i => negb ((dr_seed dr + i) mod 2147483647 =? 0)%N).
  set (K := filter good indices).
  assert (Dist : forall i j, (i < j)%N -> (j < cycle)%N ->
    ((dr_seed dr + i) mod 2147483647 = (dr_seed dr + j) mod 2147483647)%N -> False).
  { intros i j L Hj E. unfold cycle in *.
    pose proof (N.div_mod (dr_seed dr + i) 2147483647 ltac:(discriminate)).
    pose proof (N.div_mod (dr_seed dr + j) 2147483647 ltac:(discriminate)). nia. }
  assert (Inj : forall i j, In i K -> In j K -> st i = st j -> i = j).
  { intros i j Hi Hj E. unfold st in E. rewrite start_same in E.
    unfold K in Hi, Hj. apply filter_In in Hi as [Hi Gi]. apply filter_In in Hj as [Hj Gj].
    apply indices_in in Hi, Hj. unfold good in Gi, Gj.
    rewrite negb_true_iff, N.eqb_neq in Gi, Gj.
    unfold history_seed, wrap64 in E. unfold cycle in *. rewrite !N.mod_small in E by lia.
    unfold minstd_seed, minstd_m in E. change 2147483647%Z with (Z.of_N 2147483647) in E.
    rewrite <- !N2Z.inj_mod in E.
    destruct (Z.eqb_spec (Z.of_N ((dr_seed dr + i) mod 2147483647)) 0); [lia|].
    destruct (Z.eqb_spec (Z.of_N ((dr_seed dr + j) mod 2147483647)) 0); [lia|].
    apply N2Z.inj in E.
    destruct (N.lt_trichotomy i j) as [L|[L|L]]; auto; exfalso.
    - exact (Dist i j L Hj E).
    - exact (Dist j i L Hi (eq_sym E)). }
  assert (One : (length (filter (fun i => negb (good i)) indices) <= 1)%nat).
  { apply at_most_one; [apply NoDup_filter, indices_nodup|].
    intros i j Hi Hj. apply filter_In in Hi as [Hi Gi]. apply filter_In in Hj as [Hj Gj].
    apply indices_in in Hi, Hj. unfold good in Gi, Gj.
    rewrite negb_involutive, N.eqb_eq in Gi, Gj.
    destruct (N.lt_trichotomy i j) as [L|[L|L]]; auto; exfalso.
    - apply (Dist i j L Hj). congruence.
    - apply (Dist j i L Hi). congruence. }
  apply (count_close indices (states A) st test good).
  - apply indices_nodup.
  - exact Inj.
  - exact One.
  - intros i. apply states_all.
  - apply states_length.
Qed.

(** ** C84 *)
Local Open Scope R_scope.
Definition passing (k : nat) (test : R -> bool) (s : rst (Minstd XRa)) : bool :=
  match draw (Minstd XRa) k s with Fin u => test u | _ => false end.
Lemma passing_true k test s : passing k test s = true <->
  exists u, draw (Minstd XRa) k s = Fin u /\ test u = true.
Proof.
  unfold passing. destruct (draw (Minstd XRa) k s) as [u| | |] eqn:E;
    (split; [intros H|intros (v & Ev & Hv)]; try discriminate; try (injection Ev as <-; exact Hv)).
  eauto.
Qed.
Lemma draw_real k (s : rst (Minstd XRa)) : exists u, draw (Minstd XRa) k s = Fin u /\ 0 < u < 1.
Proof. apply minstd_open. Qed.

Lemma abs_bounds v e : Rabs v <= e -> - e <= v <= e.
Proof. unfold Rabs. destruct (Rcase_abs v); lra. Qed.

Lemma share_of_states (test : rst (Minstd XRa) -> bool) x err :
  Rabs (IZR (Z.of_nat (length (filter test (states XRa)))) - x * IZR zcycle) <= err ->
  frequency (fun s => test s = true) x err.
Proof.
  intros H. exists (N.of_nat (length (filter test (states XRa)))). split.
  - apply (counts_iff (fun s => In s (states XRa) /\ test s = true)).
    + intros s. split; [tauto|]. intros. split; [apply states_all|assumption].
    + apply counts_filter, states_nodup.
  - rewrite nat_N_Z. exact H.
Qed.
Lemma share_of_histories (dr : @driver XRa) (test : rst (Minstd XRa) -> bool) x err :
  (dr_seed dr + cycle <= 2 ^ 64)%N ->
  Rabs (IZR (Z.of_nat (length (filter test (states XRa)))) - x * IZR zcycle) <= err ->
  frequency (fun i => (i < cycle)%N /\ test (p_rng (history_start (G := Minstd XRa) dr i)) = true)
        x (err + 1).
Proof.
  intros S H. set (f := fun i => test (p_rng (history_start (G := Minstd XRa) dr i))).
  exists (N.of_nat (length (filter f indices))). split.
  - apply (counts_iff (fun i => In i indices /\ f i = true)).
    + intros i. rewrite indices_in. reflexivity.
    + apply counts_filter, indices_nodup.
  - rewrite nat_N_Z. pose proof (histories_count XRa dr test S) as D. fold f in D.
    set (n := Z.of_nat (length (filter f indices))) in *.
    set (n' := Z.of_nat (length (filter test (states XRa)))) in *.
    assert (D1 : (n <= n' + 1)%Z) by lia. assert (D2 : (n' <= n + 1)%Z) by lia.
    apply IZR_le in D1, D2. rewrite plus_IZR in D1, D2. clearbody n n'.
    change (IZR (Z.of_N cycle)) with (IZR zcycle).
    apply abs_bounds in H. apply Rabs_le. lra.
Qed.

Lemma share_between k x y : 0 <= x -> x <= y -> y <= 1 ->
  Rabs (IZR (Z.of_nat (length (filter (passing k (fun u => Rleb x u && Rltb u y)) (states XRa))))
        - (y - x) * IZR zcycle) <= 2.
Proof.
  intros H1 H2 H3. rewrite Rmult_minus_distr_r. apply passing_between; try nra; intros u Hu.
  - intros H. rewrite Rleb_true, Rltb_true by nra. reflexivity.
  - rewrite andb_true_iff. intros [L U]. destruct (Rleb_spec x u); [|discriminate].
    destruct (Rltb_spec u y); [|discriminate]. nra.
Qed.
Lemma share_below k y : 0 <= y -> y <= 1 ->
  Rabs (IZR (Z.of_nat (length (filter (passing k (fun u => Rltb u y)) (states XRa))))
        - y * IZR zcycle) <= 1.
Proof.
  intros H1 H2. apply passing_below; try nra; intros u Hu.
  - intros H. rewrite Rltb_true by nra. reflexivity.
  - intros U. destruct (Rltb_spec u y); [|discriminate]. nra.
Qed.
Lemma share_above k x : 0 <= x -> x <= 1 ->
  Rabs (IZR (Z.of_nat (length (filter (passing k (fun u => Rltb x u)) (states XRa))))
        - (1 - x) * IZR zcycle) <= 1.
Proof.
  intros H1 H2. replace ((1 - x) * IZR zcycle) with (IZR zcycle - x * IZR zcycle) by ring.
  apply passing_above; try nra; intros u Hu.
  - intros H. rewrite Rltb_true by nra. reflexivity.
  - intros U. destruct (Rltb_spec x u); [|discriminate]. nra.
Qed.
Lemma between_true x y u : Rleb x u && Rltb u y = true <-> x <= u < y.
Proof.
  rewrite andb_true_iff. destruct (Rleb_spec x u), (Rltb_spec u y); split; intros; intuition; lra.
Qed.

Lemma C84_uniform_proof :
  forall (k : nat) (x y : R), 0 <= x <= y -> y <= 1 ->
  frequency (fun s : rst (Minstd XRa) =>
           exists u, draw (Minstd XRa) k s = Fin u /\ x <= u < y) (y - x) 2.
Proof.
  intros k x y H1 H2. eapply share_iff; [|apply share_of_states, (share_between k x y); lra].
  intros s. rewrite passing_true. split; intros (u & E & H); exists u; (split; [exact E|]);
    now apply between_true.
Qed.
Lemma C84_histories_proof :
  forall (dr : @driver XRa) (k : nat) (x y : R),
  (dr_seed dr + cycle <= 2 ^ 64)%N -> 0 <= x <= y -> y <= 1 ->
  frequency (fun i : N => (i < cycle)%N /\
           exists u, draw (Minstd XRa) k (p_rng (history_start (G := Minstd XRa) dr i)) = Fin u
                     /\ x <= u < y) (y - x) 3.
Proof.
  intros dr k x y S H1 H2. replace 3 with (2 + 1) by lra.
  eapply share_iff; [|apply share_of_histories; [exact S|apply (share_between k x y); lra]].
  intros s. cbv beta. rewrite passing_true. split; (intros (Hi & u & E & H); split; [exact Hi|]; exists u;
    (split; [exact E|])); now apply between_true.
Qed.
Lemma C84_flight_proof :
  forall (dr : @driver XRa) (k : nat) (rate y : R),
  (dr_seed dr + cycle <= 2 ^ 64)%N -> 0 < rate -> 0 <= y ->
  frequency (fun i : N => (i < cycle)%N /\
           exists d, fst (exponential (Minstd XRa) (Fin rate : num XRa)
                            (advance (Minstd XRa) k
                               (p_rng (history_start (G := Minstd XRa) dr i)))) = Fin d
                     /\ y < d) (exp (- (rate * y))) 2.
Proof.
  intros dr k rate y S H1 H2. replace 2 with (1 + 1) by lra.
  pose proof (exp_pos (- (rate * y))) as X0.
  assert (X1 : exp (- (rate * y)) <= 1).
  { rewrite <- exp_0. destruct (Req_dec (- (rate * y)) 0) as [->|]; [lra|].
    left. apply exp_increasing. nra. }
  set (x := 1 - exp (- (rate * y))). assert (Hx : 0 <= x <= 1) by (unfold x; lra).
  replace (exp (- (rate * y))) with (1 - x) by (unfold x; ring).
  eapply share_iff; [|apply share_of_histories with (test := passing k (fun u => Rltb x u));
    [exact S|apply share_above; lra]].
  cbv beta.
  intros i. set (s := p_rng (history_start dr i)).
  assert (K : forall u, draw (Minstd XRa) k s = Fin u -> 0 < u < 1 ->
    fst (exponential (Minstd XRa) (Fin rate : num XRa) (advance (Minstd XRa) k s))
    = Fin (- ln (1 - u) / rate)).
  { intros u E Hu. unfold draw in E. unfold exponential.
    destruct (runif (Minstd XRa) (advance (Minstd XRa) k s)) as [w s']. cbn [fst] in *. subst w.
    cbn -[IZR]. rewrite Rltb_true by lra. cbn -[IZR]. rewrite Reqb_false by lra. reflexivity. }
  destruct (draw_real k s) as (u & E & Hu). specialize (K u E Hu).
  rewrite passing_true. split; intros (Hi & w & Ew & H); (split; [exact Hi|]).
  - rewrite E in Ew. injection Ew as <-. eexists. split; [exact K|].
    apply flight_exceeds; [lra|lra|]. destruct (Rltb_spec x u); [unfold x in *; lra|discriminate].
  - rewrite K in Ew. injection Ew as <-. exists u. split; [exact E|]. apply Rltb_true.
    apply flight_exceeds in H; unfold x; lra.
Qed.

Lemma scaled_between t lo hi u : 0 < t -> lo / t <= u < hi / t <-> lo <= u * t < hi.
Proof.
  intros Ht. unfold Rdiv.
  assert (A : lo * / t * t = lo) by (field; lra). assert (B : hi * / t * t = hi) by (field; lra).
  set (x := lo * / t) in *. set (y := hi * / t) in *. split; intros; nra.
Qed.
Lemma C84_reactions_proof :
  forall (X : Ext XRa) n m (p : particle XRa (Minstd XRa)) g,
  multigroup_create X n = Ok m -> sensible_data X n ->
  In g (groups (written_groups X n)) -> p_energy p = Group g ->
  let c := sigma X n Rcapture g in
  let s := sigma X n Rscatter g in
  let f := sigma X n Rfission g in
  0 < c + s + f ->
  let happens (ev : event) (x : rst (Minstd XRa)) : Prop :=
    exists q, mg_interact m (set_rng p x) = Ok q /\ p_event q = ev in
  frequency (happens capture) (c / (c + s + f)) 2
  /\ frequency (happens scatter) (s / (c + s + f)) 2
  /\ frequency (happens fission) (f / (c + s + f)) 2.
Proof.
  intros X n m p g Hm Hs Hg Ep c s f Hp happens.
  assert (Pos : 0 <= c /\ 0 <= s /\ 0 <= f).
  { unfold c, s, f. pose proof (multigroup_built _ _ _ Hm) as B.
    repeat split; eapply sigma_written; eauto. }
  set (t := c + s + f) in *.
  assert (K : forall ev lo hi, 0 <= lo -> lo <= hi -> hi <= t ->
    (forall x, happens ev x <-> exists u, draw (Minstd XRa) 0 x = Fin u /\ lo <= u * t < hi) ->
    frequency (happens ev) ((hi - lo) / t) 2).
  { intros ev lo hi H1 H2 H3 H.
    eapply share_iff; [|apply share_of_states;
      replace ((hi - lo) / t) with (hi / t - lo / t) by (field; lra);
      apply (share_between 0 (lo / t) (hi / t))].
    - intros x. rewrite H, passing_true. split; intros (u & E & L); exists u; (split; [exact E|]).
      + apply between_true in L. now apply scaled_between.
      + apply between_true. now apply scaled_between.
    - apply Rmult_le_pos; [lra|]. left. apply Rinv_0_lt_compat. lra.
    - apply Rmult_le_compat_r; [|lra]. left. apply Rinv_0_lt_compat. lra.
    - apply (Rmult_le_reg_r t); [lra|]. unfold Rdiv. rewrite Rmult_assoc, Rinv_l, Rmult_1_r by lra. lra. }
  assert (Choice : forall x, exists u q, draw (Minstd XRa) 0 x = Fin u /\ mg_interact m (set_rng p x) = Ok q
    /\ (p_event q = capture <-> 0 <= u * t < c)
    /\ (p_event q = scatter <-> c <= u * t < c + s)
    /\ (p_event q = fission <-> c + s <= u * t < t)).
  { intros x. destruct (C24_reaction_choice_proof (Minstd XRa) X n m (set_rng p x) g minstd_valid
      Hm Hs Hg Ep Hp) as (u & q & Eu & _ & Eq & E1 & E2 & E3 & _).
    exists u, q. repeat split; auto; try apply E1; try apply E2; try apply E3; auto. }
  assert (H : forall ev lo hi, (forall x u q, draw (Minstd XRa) 0 x = Fin u -> mg_interact m (set_rng p x) = Ok q ->
     (p_event q = ev <-> lo <= u * t < hi)) ->
    forall x, happens ev x <-> exists u, draw (Minstd XRa) 0 x = Fin u /\ lo <= u * t < hi).
  { intros ev lo hi E x. destruct (Choice x) as (u & q & Eu & Eq & _). split.
    - intros (q' & Eq' & Ev). exists u. split; [exact Eu|]. now apply (E x u q').
    - intros (u' & Eu' & L). exists q. split; [exact Eq|]. apply (E x u' q); auto. }
  assert (Same : forall x u q, draw (Minstd XRa) 0 x = Fin u -> mg_interact m (set_rng p x) = Ok q ->
    (p_event q = capture <-> 0 <= u * t < c)
    /\ (p_event q = scatter <-> c <= u * t < c + s)
    /\ (p_event q = fission <-> c + s <= u * t < t)).
  { intros x u q Eu Eq. destruct (Choice x) as (u' & q' & Eu' & Eq' & R).
    rewrite Eu in Eu'. injection Eu' as <-. rewrite Eq in Eq'. injection Eq' as <-. exact R. }
  split; [|split].
  - replace (c / t) with ((c - 0) / t) by (now rewrite Rminus_0_r).
    apply K; try (unfold t; lra). apply H. intros. now apply (Same x u q).
  - replace (s / t) with ((c + s - c) / t) by (f_equal; ring).
    apply K; try (unfold t; lra). apply H. intros. now apply (Same x u q).
  - replace (f / t) with ((t - (c + s)) / t) by (f_equal; unfold t; ring).
    apply K; try (unfold t; lra). apply H. intros. now apply (Same x u q).
Qed.

(** ** Nuclides *)
Lemma two_places {T : Type} (pre : list T) : forall x post pre' x' post',
  (pre ++ x :: post = pre' ++ x' :: post')%list ->
  (pre = pre' /\ x = x' /\ post = post')
  \/ (exists mid, pre' = (pre ++ x :: mid)%list) \/ (exists mid, pre = (pre' ++ x' :: mid)%list).
Proof.
  induction pre as [|y pre IH]; intros x post [|y' pre'] x' post' E; cbn in E; injection E as E1 E2.
  - auto.
  - subst. right. left. exists pre'. reflexivity.
  - subst. right. right. exists pre. reflexivity.
  - subst y'. destruct (IH _ _ _ _ _ E2) as [(-> & -> & ->)|[(mid & ->)|(mid & ->)]]; auto.
    + right. left. now exists mid.
    + right. right. now exists mid.
Qed.
Lemma weighted_app f l l' :
  weighted f (l ++ l') = weighted f l + weighted f l'.
Proof.
  unfold weighted. induction l as [|x l IH]; cbn [app map Rsum]; [lra|]. rewrite IH. ring.
Qed.
Lemma weighted_cons f x l : weighted f (x :: l) = fraction x * f x + weighted f l.
Proof. reflexivity. Qed.

Lemma C84_nuclides_proof :
  forall (p : particle XRa (Minstd XRa)) c m pre nu a post,
  p_cell p = Some c -> c_material c = Some m ->
  List.Forall (plain p) (m_afracs m) -> 0 < weighted (total_at p) (m_afracs m) ->
  m_afracs m = (pre ++ (nu, a) :: post)%list ->
  ~ In nu (map fst (pre ++ post)) ->
  frequency (fun x : rst (Minstd XRa) => exists q, sample_nuclide (set_rng p x) = Ok (nu, q))
    (fraction (nu, a) * total_at p (nu, a) / weighted (total_at p) (m_afracs m)) 2.
Proof.
  intros p c m pre nu a post Ec Em Pl Hw El Once.
  set (f := total_at p) in *. set (T := weighted f (m_afracs m)) in *.
  set (w := fraction (nu, a) * f (nu, a)). set (lo := weighted f pre).
  assert (Nn : forall l, incl l (m_afracs m) -> 0 <= weighted f l).
  { rewrite Forall_forall in Pl. induction l as [|x l IH]; intros I; [unfold weighted; cbn; lra|].
    rewrite weighted_cons.
    assert (0 <= weighted f l) by (apply IH; intros y Hy; apply I; now right).
    destruct (Pl x (I x (or_introl eq_refl))) as [_ _ _ [F0 T0]]. fold f in T0. nra. }
  assert (Split : T = lo + (w + weighted f post)).
  { unfold T. rewrite El, weighted_app, weighted_cons. reflexivity. }
  assert (Lo0 : 0 <= lo).
  { apply Nn. intros x Hx. rewrite El. apply in_or_app. now left. }
  assert (Post0 : 0 <= weighted f post).
  { apply Nn. intros x Hx. rewrite El. apply in_or_app. right. now right. }
  assert (W0 : 0 <= w).
  { assert (0 <= weighted f [(nu, a)]) as H.
    { apply Nn. intros x [<-|[]]. rewrite El. apply in_elt. }
    rewrite weighted_cons in H. change (weighted f []) with 0 in H. fold w in H. lra. }
  assert (Choice : forall x, exists u nu' q pre' a' post', draw (Minstd XRa) 0 x = Fin u
    /\ sample_nuclide (set_rng p x) = Ok (nu', q)
    /\ m_afracs m = (pre' ++ (nu', a') :: post')%list
    /\ weighted f pre' <= u * T < weighted f pre' + fraction (nu', a') * f (nu', a')).
  { intros x.
    assert (Sh : same_here p (set_rng p x)) by (constructor; reflexivity).
    assert (Ft : forall y, total_at (set_rng p x) y = f y).
    { intros y. unfold f, total_at. now rewrite (same_nu_total _ _ _ Sh). }
    assert (Fw : forall l, weighted (total_at (set_rng p x)) l = weighted f l).
    { intros l. unfold weighted. f_equal. apply map_ext. intros y. now rewrite Ft. }
    assert (Pl' : List.Forall (plain (set_rng p x)) (m_afracs m)).
    { revert Pl. apply Forall_impl. intros y [P1 P2 P3 P4].
      assert (Fm : majorant_at (set_rng p x) y = majorant_at p y).
      { unfold majorant_at. now rewrite (same_nu_majorant _ _ _ Sh). }
      constructor; rewrite ?Ft, ?Fm, ?(same_nu_total _ _ _ Sh), ?(same_nu_majorant _ _ _ Sh); auto. }
    destruct (C30_collided_nuclide_proof (Minstd XRa) (set_rng p x) c m minstd_valid Ec Em
      Pl') as (u & nu' & pre' & a' & post' & Eu & _ & Es & El' & B & _).
    { rewrite Fw. exact Hw. }
    rewrite !Fw, Ft in B.
    eexists u, nu', _, pre', a', post'. repeat split; [exact Eu|exact Es|exact El'|apply B|apply B]. }
  assert (H : forall x, (exists q, sample_nuclide (set_rng p x) = Ok (nu, q))
    <-> exists u, draw (Minstd XRa) 0 x = Fin u /\ lo <= u * T < lo + w).
  { intros x. destruct (Choice x) as (u & nu' & q & pre' & a' & post' & Eu & Es & El' & B).
    assert (El2 := El'). rewrite El in El2.
    destruct (two_places _ _ _ _ _ _ El2) as [(E1 & E2 & E3)|[(mid & E)|(mid & E)]].
    - injection E2 as <- <-. subst pre'. split; intros _; eauto.
    - (* after it *)
      assert (Lo' : lo + w <= weighted f pre').
      { subst pre'. rewrite weighted_app, weighted_cons. fold lo w.
        assert (0 <= weighted f mid); [|lra].
        apply Nn. intros y Hy. rewrite El'. apply in_or_app. left. apply in_or_app. right. now right. }
      split.
      + intros (q' & Eq). rewrite Es in Eq. injection Eq as -> _. exfalso. apply Once.
        rewrite map_app. apply in_or_app. right. rewrite El' in El. rewrite E, <- app_assoc in El.
        apply app_inv_head in El. injection El as El. rewrite <- El, map_app. cbn.
        apply in_or_app. right. now left.
      + intros (u' & Eu' & B'). rewrite Eu in Eu'. injection Eu' as <-. lra.
    - (* before it *)
      assert (Lo' : weighted f pre' + fraction (nu', a') * f (nu', a') <= lo).
      { unfold lo. rewrite E, weighted_app, weighted_cons.
        assert (0 <= weighted f mid); [|lra].
        apply Nn. intros y Hy. rewrite El, E. apply in_or_app. left. apply in_or_app. right. now right. }
      split.
      + intros (q' & Eq). rewrite Es in Eq. injection Eq as -> _. exfalso. apply Once.
        rewrite map_app. apply in_or_app. left. rewrite E, map_app. cbn. apply in_or_app. right. now left.
      + intros (u' & Eu' & B'). rewrite Eu in Eu'. injection Eu' as <-. lra. }
  replace (w / T) with ((lo + w) / T - lo / T) by (field; lra).
  eapply share_iff; [|apply share_of_states, (share_between 0 (lo / T) ((lo + w) / T))].
  - intros x. rewrite H, passing_true. split; intros (u & E & L); exists u; (split; [exact E|]).
    + apply between_true in L. now apply scaled_between.
    + apply between_true. now apply scaled_between.
  - apply Rmult_le_pos; [lra|]. left. apply Rinv_0_lt_compat. lra.
  - apply Rmult_le_compat_r; [|lra]. left. apply Rinv_0_lt_compat. lra.
  - apply (Rmult_le_reg_r T); [lra|]. unfold Rdiv. rewrite Rmult_assoc, Rinv_l, Rmult_1_r by lra. lra.
Qed.
