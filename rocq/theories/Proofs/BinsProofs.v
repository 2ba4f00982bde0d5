From Coq Require Import Bool String List ZArith NArith Reals Lra Lia.
From Coquelicot Require Import Coquelicot.
From Verif Require Import Model.Num Model.Outcome Model.Xml Model.Std Model.Point Model.Types
  Model.Bins Spec.Vec Spec.BinsSpec Proofs.RealLib.
Import ListNotations.
Local Open Scope R_scope.

(** ** size_t arithmetic *)
Lemma wrap64_small n : (n < 2 ^ 64)%N -> wrap64 n = n.
Proof. intros; unfold wrap64; apply N.mod_small; auto. Qed.
Lemma sub64_small n k : (k <= n)%N -> (n < 2 ^ 64)%N -> sub64 n k = (n - k)%N.
Proof.
  intros H H0; unfold sub64, wrap64.
  change (2 ^ 64)%N with 18446744073709551616%N in *.
  replace (n + (18446744073709551616 - k))%N with ((n - k) + 1 * 18446744073709551616)%N by lia.
  rewrite N.mod_add by lia. apply N.mod_small; lia.
Qed.

Lemma INR_N n : INR (N.to_nat n) = IZR (Z.of_N n).
Proof. rewrite INR_IZR_INZ; f_equal; lia. Qed.

(** ** Counting *)
Lemma count_le_split f m k v :
  (k <= m)%nat ->
  (forall i, (i < k)%nat -> f i <= v) ->
  (forall i, (k <= i < m)%nat -> v < f i) ->
  count_le f m v = k.
Proof.
  revert k; induction m as [|m IH]; intros k Hk Hlo Hhi; cbn.
  - lia.
  - destruct (Rle_dec (f m) v) as [H|H].
    + assert (k = S m).
      { destruct (Nat.eq_dec k (S m)); auto.
        assert (v < f m) by (apply Hhi; lia); lra. }
      subst k; rewrite (IH m); try lia; intros; apply Hlo; lia.
    + destruct (Nat.eq_dec k (S m)) as [->|E].
      * exfalso; apply H, Hlo; lia.
      * rewrite (IH k); try lia; intros; [apply Hlo | apply Hhi]; lia.
Qed.

Lemma count_le_mono f m v w : v <= w -> (count_le f m v <= count_le f m w)%nat.
Proof.
  intros H; induction m; cbn; auto.
  destruct (Rle_dec (f m) v), (Rle_dec (f m) w); try lia; lra.
Qed.

Lemma count_le_bound f m v : (count_le f m v <= m)%nat.
Proof. induction m; cbn; auto; destruct (Rle_dec _ _); lia. Qed.

Lemma count_le_ext f g m v w :
  (forall i, (i < m)%nat -> f i <= v <-> g i <= w) -> count_le f m v = count_le g m w.
Proof.
  induction m as [|m IH]; intros H; cbn; auto.
  rewrite IH by (intros; apply H; lia).
  destruct (Rle_dec (f m) v), (Rle_dec (g m) w); try lia;
    exfalso; pose proof (H m (Nat.lt_succ_diag_r _)); tauto.
Qed.

(** ** Equal bins *)
Lemma to_index_fin x : 0 <= x < IZR (2 ^ 64) ->
  to_index (A := XRa) (Fin x) = Ok (Z.to_N (Int_part x)).
Proof.
  intros H; unfold to_index; xr; cbn [xtoN].
  rewrite Rleb_false, Rleb_false by lra; reflexivity.
Qed.

Lemma Int_part_lower x z : IZR z <= x -> (z <= Int_part x)%Z.
Proof.
  intros H; pose proof (base_Int_part x) as [_ H2].
  apply le_IZR; destruct (Z.le_gt_cases z (Int_part x)) as [L|L]; [now apply IZR_le|].
  assert (IZR (Int_part x + 1) <= IZR z) by (apply IZR_le; lia).
  rewrite plus_IZR in H0; lra.
Qed.

(** Index of a value in the equal-width structure, as a count. *)
Lemma lin_index lo hi n v :
  lo < hi -> (1 <= n)%N -> (n + 2 < 2 ^ 64)%N ->
  let w := (hi - lo) / IZR (Z.of_N n) in
  (if Rltb v lo then Ok 0%N
   else if Rleb hi v then Ok (sub64 (n + 2) 1)
   else to_index (A := XRa) (Fin ((v - lo) / w + 1)))
  = Ok (N.of_nat (count_le (lin_boundary lo hi n) (S (N.to_nat n)) v)).
Proof.
  intros Hlt Hn Hmax w.
  assert (Pn : 1 <= IZR (Z.of_N n)) by (apply (IZR_le 1); lia).
  assert (Pw : 0 < w) by (apply Rdiv_lt_0_compat; lra).
  assert (B : forall i, lin_boundary lo hi n i = lo + INR i * w)
    by (intros; unfold lin_boundary; rewrite INR_N; reflexivity).
  assert (Ew : IZR (Z.of_N n) * w = hi - lo) by (unfold w; field; lra).
  destruct (Rltb_spec v lo) as [H1|H1].
  - f_equal. rewrite (count_le_split _ _ 0); auto; try lia.
    intros i _; rewrite B; pose proof (pos_INR i); nra.
  - destruct (Rleb_spec hi v) as [H2|H2].
    + rewrite sub64_small by lia. f_equal.
      rewrite (count_le_split _ _ (S (N.to_nat n))); try lia.
      intros i Hi; rewrite B.
      assert (INR i <= IZR (Z.of_N n)).
      { rewrite <- INR_N; apply le_INR; lia. }
      nra.
    + assert (Q : 0 <= (v - lo) / w) by (apply Rdiv_le_0_compat; lra).
      assert (Q2 : (v - lo) / w < IZR (Z.of_N n)).
      { apply Rmult_lt_reg_r with w; auto. unfold Rdiv; rewrite Rmult_assoc, Rinv_l; lra. }
      assert (Q3 : IZR (Z.of_N n) + 2 < IZR (2 ^ 64)).
      { rewrite <- (plus_IZR _ 2); apply IZR_lt; lia. }
      rewrite to_index_fin by lra. f_equal.
      set (q := (v - lo) / w) in *.
      pose proof (base_Int_part (q + 1)) as [I1 I2].
      set (z := Int_part (q + 1)) in *.
      assert (Z1 : (1 <= z)%Z) by (apply Int_part_lower; lra).
      assert (Z2 : (z <= Z.of_N n)%Z).
      { apply Z.lt_succ_r, lt_IZR; unfold Z.succ; rewrite plus_IZR; lra. }
      rewrite (count_le_split _ _ (Z.to_nat z)); try lia.
      * intros i Hi; rewrite B.
        assert (INR i + 1 <= IZR z).
        { rewrite INR_IZR_INZ, <- (plus_IZR _ 1); apply IZR_le; lia. }
        assert (INR i <= q) by lra.
        assert (q * w = v - lo) by (unfold q; field; lra). nra.
      * intros i Hi; rewrite B.
        assert (IZR z <= INR i).
        { rewrite INR_IZR_INZ; apply IZR_le; lia. }
        assert (q < INR i) by lra.
        assert (q * w = v - lo) by (unfold q; field; lra). nra.
Qed.

Lemma linspace_index path n lo hi b :
  lo < hi -> (1 <= n)%N -> (n + 2 < 2 ^ 64)%N ->
  make_linspace (A := XRa) path n (Fin lo) (Fin hi) = Ok b ->
  forall v, bins_index b (Fin v)
            = Ok (N.of_nat (count_le (lin_boundary lo hi n) (S (N.to_nat n)) v)).
Proof.
  intros Hlt Hn Hmax E v. unfold make_linspace in E; xr.
  rewrite Rleb_false in E by lra.
  rewrite wrap64_small in E by lia.
  rewrite sub64_small in E by lia.
  replace (n + 2 - 2)%N with n in E by lia.
  assert (Pn : 1 <= IZR (Z.of_N n)) by (apply (IZR_le 1); lia).
  unfold nofN in E; xr. rewrite xdiv_fin in E by lra.
  injection E as <-. cbn [bins_index]; xr.
  replace (hi + - lo) with (hi - lo) by ring.
  rewrite xdiv_fin.
  2:{ apply Rgt_not_eq, Rdiv_lt_0_compat; lra. }
  xr. apply lin_index; auto.
Qed.

Lemma linspace_make path n lo hi :
  lo < hi -> (1 <= n)%N -> (n + 2 < 2 ^ 64)%N ->
  exists b, make_linspace (A := XRa) path n (Fin lo) (Fin hi) = Ok b
            /\ bins_size b = (n + 2)%N
            /\ bins_boundaries b
               = map (fun i => Fin (lin_boundary lo hi n i)) (seq 0 (S (N.to_nat n))).
Proof.
  intros Hlt Hn Hmax. unfold make_linspace; xr. rewrite Rleb_false by lra.
  rewrite wrap64_small by lia. rewrite sub64_small by lia.
  replace (n + 2 - 2)%N with n by lia.
  assert (Pn : 1 <= IZR (Z.of_N n)) by (apply (IZR_le 1); lia).
  unfold nofN; xr. rewrite xdiv_fin by lra.
  eexists; split; [reflexivity|split; [reflexivity|]].
  cbn [bins_boundaries]. replace (N.to_nat (n + 2 - 1)) with (S (N.to_nat n)) by lia.
  apply map_ext; intros i. xr. unfold lin_boundary. rewrite INR_N, INR_IZR_INZ. reflexivity.
Qed.

(** ** Logarithmic bins *)
Lemma logspace_index path n base lo hi b :
  1 < base -> lo < hi -> (1 <= n)%N -> (n + 2 < 2 ^ 64)%N ->
  make_logspace (A := XRa) path n (Fin base) (Fin lo) (Fin hi) = Ok b ->
  forall v, 0 < v ->
  bins_index b (Fin v)
  = Ok (N.of_nat (count_le (log_boundary base lo hi n) (S (N.to_nat n)) v)).
Proof.
  intros Hb Hlt Hn Hmax E v Hv. unfold make_logspace in E; xr.
  rewrite Rleb_false in E by lra.
  rewrite wrap64_small in E by lia.
  rewrite sub64_small in E by lia.
  replace (n + 2 - 2)%N with n in E by lia.
  assert (Pn : 1 <= IZR (Z.of_N n)) by (apply (IZR_le 1); lia).
  unfold nofN in E; xr. rewrite xdiv_fin in E by lra.
  injection E as <-. cbn [bins_index]; xr.
  assert (Lb : 0 < ln base) by (rewrite <- ln_1; apply ln_increasing; lra).
  rewrite !xlog_fin by lra. rewrite xdiv_fin by lra. xr.
  replace (hi + - lo) with (hi - lo) by ring.
  rewrite xdiv_fin.
  2:{ apply Rgt_not_eq, Rdiv_lt_0_compat; lra. }
  xr. pose proof (lin_index lo hi n (ln v / ln base) Hlt Hn Hmax) as L.
  cbv zeta in L.
  transitivity (Ok (N.of_nat (count_le (lin_boundary lo hi n) (S (N.to_nat n))
                                (ln v / ln base)))).
  - exact L.
  - do 2 f_equal; apply count_le_ext. intros i _. unfold log_boundary, Rpower.
    set (x := lin_boundary lo hi n i).
    rewrite <- (exp_ln v) at 2 by auto.
    split; intros H.
    + apply Rmult_le_compat_r with (r := ln base) in H; [|lra].
      unfold Rdiv in H; rewrite Rmult_assoc, Rinv_l, Rmult_1_r in H by lra.
      destruct H as [H|H]; [left; now apply exp_increasing | right; now rewrite H].
    + assert (x * ln base <= ln v).
      { destruct H as [H|H]; [left; now apply exp_lt_inv | right; now apply exp_inv]. }
      apply Rmult_le_reg_r with (ln base); auto.
      unfold Rdiv; rewrite Rmult_assoc, Rinv_l; lra.
Qed.

Lemma logspace_make path n base lo hi :
  1 < base -> lo < hi -> (1 <= n)%N -> (n + 2 < 2 ^ 64)%N ->
  exists b, make_logspace (A := XRa) path n (Fin base) (Fin lo) (Fin hi) = Ok b
            /\ bins_size b = (n + 2)%N
            /\ bins_boundaries b
               = map (fun i => Fin (log_boundary base lo hi n i)) (seq 0 (S (N.to_nat n))).
Proof.
  intros Hb Hlt Hn Hmax. unfold make_logspace; xr. rewrite Rleb_false by lra.
  rewrite wrap64_small by lia. rewrite sub64_small by lia.
  replace (n + 2 - 2)%N with n by lia.
  assert (Pn : 1 <= IZR (Z.of_N n)) by (apply (IZR_le 1); lia).
  unfold nofN; xr. rewrite xdiv_fin by lra.
  eexists; split; [reflexivity|split; [reflexivity|]].
  cbn [bins_boundaries]. replace (N.to_nat (n + 2 - 1)) with (S (N.to_nat n)) by lia.
  apply map_ext; intros i. xr. cbn [xpow]. rewrite Rltb_true by lra.
  unfold log_boundary, lin_boundary. rewrite INR_N, INR_IZR_INZ. reflexivity.
Qed.

(** ** upper_bound *)
Lemma upper_bound_loop_spec (less : nat -> bool) fuel : forall first len,
  (len <= fuel)%nat ->
  (forall i j, (first <= i <= j)%nat -> (j < first + len)%nat -> less i = true -> less j = true) ->
  exists k, upper_bound_loop fuel (fun i => Ok (less i)) first len = Ok k
            /\ (first <= k <= first + len)%nat
            /\ (forall i, (first <= i < k)%nat -> less i = false)
            /\ (forall i, (k <= i < first + len)%nat -> less i = true).
Proof.
  induction fuel as [|fuel IH]; intros first len Hf Hm; cbn [upper_bound_loop].
  - assert (len = O) by lia; subst; cbn. exists first; repeat split; intros; lia.
  - destruct (Nat.eqb_spec len 0) as [->|Hl].
    + exists first; repeat split; intros; lia.
    + cbn [bind]. pose proof (Nat.div2_decr len (pred len)) as D.
      assert (Hd : (Nat.div2 len < len)%nat) by (apply Nat.lt_div2; lia).
      destruct (less (first + Nat.div2 len)%nat) eqn:E.
      * destruct (IH first (Nat.div2 len)) as (k & -> & Hk & K1 & K2); try lia.
        { intros i j Hij Hj; apply Hm; lia. }
        exists k; repeat split; try lia; auto.
        intros i Hi. destruct (Nat.lt_ge_cases i (first + Nat.div2 len)).
        -- apply K2; lia.
        -- apply Hm with (first + Nat.div2 len)%nat; auto; lia.
      * destruct (IH (first + Nat.div2 len + 1)%nat (len - Nat.div2 len - 1)%nat)
          as (k & -> & Hk & K1 & K2); try lia.
        { intros i j Hij Hj; apply Hm; lia. }
        exists k; repeat split; try lia.
        -- intros i Hi. destruct (Nat.lt_ge_cases i (first + Nat.div2 len + 1)).
           ++ destruct (less i) eqn:Ei; auto.
              rewrite (Hm i (first + Nat.div2 len)%nat) in E; auto; lia.
           ++ apply K1; lia.
        -- intros i Hi; apply K2; lia.
Qed.

Lemma upper_bound_loop_ext f g fuel : forall first len,
  (forall i, (first <= i < first + len)%nat -> f i = g i) ->
  upper_bound_loop fuel f first len = upper_bound_loop fuel g first len.
Proof.
  induction fuel as [|fuel IH]; intros first len H; cbn [upper_bound_loop]; auto.
  destruct (Nat.eqb_spec len 0); auto.
  assert (Hd : (Nat.div2 len < len)%nat) by (apply Nat.lt_div2; lia).
  rewrite H by lia. destruct (g _); cbn [bind]; auto.
  destruct x; apply IH; intros; apply H; lia.
Qed.

Lemma upper_bound_gen_spec (less : nat -> bool) f len :
  (forall i, (i < len)%nat -> f i = Ok (less i)) ->
  (forall i j, (i <= j)%nat -> (j < len)%nat -> less i = true -> less j = true) ->
  exists k, upper_bound_gen f len = Ok k /\ (k <= len)%nat
            /\ (forall i, (i < k)%nat -> less i = false)
            /\ (forall i, (k <= i < len)%nat -> less i = true).
Proof.
  intros Hf Hm. unfold upper_bound_gen.
  rewrite (upper_bound_loop_ext f (fun i => Ok (less i))) by (intros; apply Hf; lia).
  destruct (upper_bound_loop_spec less len 0 len) as (k & -> & Hk & K1 & K2); try lia.
  - intros i j Hij Hj; apply Hm; lia.
  - exists k; repeat split; try lia; intros; [apply K1 | apply K2]; lia.
Qed.

Lemma filter_split {X} (f : X -> bool) (l : list X) d k :
  (k <= length l)%nat ->
  (forall i, (i < k)%nat -> f (nth i l d) = true) ->
  (forall i, (k <= i < length l)%nat -> f (nth i l d) = false) ->
  length (filter f l) = k.
Proof.
  revert k; induction l as [|x l IH]; intros k Hk H1 H2; cbn in *.
  - lia.
  - destruct k as [|k].
    + rewrite (H2 0%nat) by lia. apply (IH 0%nat); try lia.
      intros i Hi; apply (H2 (S i)); lia.
    + rewrite (H1 0%nat) by lia. cbn; f_equal. apply IH; try lia.
      * intros i Hi; apply (H1 (S i)); lia.
      * intros i Hi; apply (H2 (S i)); lia.
Qed.

(** Number systems whose comparisons are a total order on the numbers [P]. *)
Record total_order {A : Arith} (P : num A -> Prop) : Prop := {
  to_trans : forall x y z, P x -> P y -> P z ->
               nltb A x y = true -> nltb A y z = true -> nltb A x z = true;
  to_le : forall x y, P x -> P y -> nleb A x y = negb (nltb A y x);
  to_irrefl : forall x, P x -> nltb A x x = false;
  to_ge_trans : forall x y z, P x -> P y -> P z ->
               nltb A x y = false -> nltb A y z = false -> nltb A x z = false
}.

Lemma upper_bound_count {A : Arith} (P : num A -> Prop) (T : total_order P) v l :
  P v -> List.Forall P l ->
  (forall i j d, (i < j < length l)%nat -> nltb A (nth i l d) (nth j l d) = true) ->
  upper_bound v l = Ok (length (filter (fun b => nleb A b v) l)).
Proof.
  intros Pv Pl Inc. unfold upper_bound.
  assert (Pn : forall i, (i < length l)%nat -> P (nth i l v)).
  { intros i Hi; rewrite Forall_forall in Pl; apply Pl, nth_In; auto. }
  destruct (upper_bound_gen_spec (fun i => nltb A v (nth i l v))
              (fun i => match nth_error l i with Some x => Ok (nltb A v x) | None => UB end)
              (length l)) as (k & -> & Hk & K1 & K2).
  - intros i Hi. rewrite (nth_error_nth' l v Hi); reflexivity.
  - intros i j Hij Hj Hi. destruct (Nat.eq_dec i j) as [->|N]; auto.
    apply (to_trans P T v (nth i l v) (nth j l v)); auto.
    + apply Pn; lia.
    + apply Inc; lia.
  - f_equal; symmetry; apply (filter_split _ l v); auto.
    + intros i Hi. rewrite (to_le P T) by (auto; apply Pn; lia).
      rewrite K1 by lia; reflexivity.
    + intros i Hi. rewrite (to_le P T) by (auto; apply Pn; lia).
      rewrite K2 by lia; reflexivity.
Qed.

(** Boundaries accepted by the constructor are strictly increasing. *)
Lemma check_boundaries_ok {A : Arith} show path (l : list (num A)) : forall prev r,
  check_boundaries show path prev l = Ok r ->
  r = l /\ (forall i d, (i < length l)%nat ->
              nleb A (nth i l d) (match i with O => prev | S i' => nth i' l d end) = false).
Proof.
  induction l as [|b t IH]; intros prev r; cbn.
  - intros [= <-]; split; auto; intros; lia.
  - destruct (nleb A b prev) eqn:E; [discriminate|].
    destruct (check_boundaries show path b t) eqn:C; cbn; try discriminate.
    intros [= <-]. destruct (IH _ _ C) as [-> H]; split; auto.
    intros [|i] d Hi; auto. specialize (H i d ltac:(lia)).
    destruct i; auto.
Qed.

Lemma adjacent_increasing {A : Arith} (P : num A -> Prop) (T : total_order P) l :
  List.Forall P l ->
  (forall i d, (S i < length l)%nat -> nleb A (nth (S i) l d) (nth i l d) = false) ->
  forall i j d, (i < j < length l)%nat -> nltb A (nth i l d) (nth j l d) = true.
Proof.
  intros Pl H i j d [Hij Hj].
  assert (Pn : forall i, (i < length l)%nat -> P (nth i l d)).
  { intros k Hk; rewrite Forall_forall in Pl; apply Pl, nth_In; auto. }
  induction j as [|j IH]; [lia|].
  assert (S1 : nltb A (nth j l d) (nth (S j) l d) = true).
  { specialize (H j d Hj). rewrite (to_le P T) in H by (apply Pn; lia).
    now apply negb_false_iff in H. }
  destruct (Nat.eq_dec i j) as [->|N]; auto.
  apply (to_trans P T _ (nth j l d)); auto; try (apply Pn; lia).
  apply IH; lia.
Qed.

Lemma boundaries_index {A : Arith} (P : num A -> Prop) (T : total_order P) show path l b :
  List.Forall P l -> make_boundaries show path l = Ok b ->
  forall v, P v ->
  bins_index b v = Ok (N.of_nat (length (filter (fun x => nleb A x v) l)))
  /\ bins_size b = N.of_nat (length l + 1)
  /\ bins_boundaries b = l.
Proof.
  intros Pl E v Pv. unfold make_boundaries in E.
  destruct (check_boundaries _ _ _ l) eqn:C; cbn in E; try discriminate.
  injection E as <-. destruct (check_boundaries_ok _ _ _ _ _ C) as [-> H].
  cbn [bins_index bins_size bins_boundaries].
  rewrite (upper_bound_count P T v l Pv Pl).
  - cbn; repeat split; lia.
  - apply (adjacent_increasing P T); auto.
    intros i d Hi; apply (H (S i) d Hi).
Qed.

(** ** The two number systems are totally ordered away from NaN *)
Lemma xr_total : total_order (A := XRa) (fun x => x <> NaN).
Proof.
  constructor.
  - intros x y z; destruct x, y, z; cbn; try congruence; auto.
    intros _ _ _; repeat rcase; auto; try discriminate; lra.
  - intros x y; destruct x, y; cbn; try congruence; auto.
    intros; repeat rcase; auto; lra.
  - intros x; destruct x; cbn; try congruence; auto. intros; rcase; auto; lra.
  - intros x y z; destruct x, y, z; cbn; try congruence; auto.
    intros _ _ _; repeat rcase; auto; try discriminate; lra.
Qed.

(** ** Binary64 *)
From Coq Require Import SpecFloat.

Definition sf_key (f : spec_float) : Z * Z * Z :=
  match f with
  | S754_infinity true => (-2, 0, 0)
  | S754_finite true m e => (-1, - e, - Zpos m)
  | S754_zero _ => (0, 0, 0)
  | S754_finite false m e => (1, e, Zpos m)
  | S754_infinity false => (2, 0, 0)
  | S754_nan => (3, 0, 0)
  end%Z.
Definition key_lt (a b : Z * Z * Z) : Prop :=
  let '(a1, a2, a3) := a in let '(b1, b2, b3) := b in
  (a1 < b1 \/ (a1 = b1 /\ (a2 < b2 \/ (a2 = b2 /\ a3 < b3))))%Z.

Lemma sf_compare_key x y : x <> S754_nan -> y <> S754_nan ->
  match SFcompare x y with
  | Some Lt => key_lt (sf_key x) (sf_key y)
  | Some Gt => key_lt (sf_key y) (sf_key x)
  | Some Eq => sf_key x = sf_key y
  | None => False
  end.
Proof.
  intros Hx Hy.
  destruct x as [sx|sx| |sx mx ex], y as [sy|sy| |sy my ey]; try congruence;
    try (destruct sx; destruct sy; cbn; try lia; auto; fail);
    try (destruct sx; cbn; try lia; auto; fail);
    try (destruct sy; cbn; try lia; auto; fail).
  destruct sx, sy; cbn; try lia;
    destruct (Z.compare_spec ex ey); cbn; try lia; subst;
    change (Pos.compare_cont Eq mx my) with (Pos.compare mx my);
    destruct (Pos.compare_spec mx my); cbn; subst; try lia; auto.
Qed.

Lemma sf_ltb_key x y : x <> S754_nan -> y <> S754_nan ->
  SFltb x y = true <-> key_lt (sf_key x) (sf_key y).
Proof.
  intros Hx Hy; pose proof (sf_compare_key x y Hx Hy) as C. unfold SFltb.
  destruct (SFcompare x y) as [[]|]; try tauto; split; auto; try discriminate; intros K;
    revert C K; destruct (sf_key x) as [[a1 a2] a3], (sf_key y) as [[b1 b2] b3]; cbn.
  - intros [= -> -> ->]; lia.
  - lia.
Qed.

Lemma f64_total L : total_order (A := F64 L) (fun x => x <> S754_nan).
Proof.
  constructor; cbn [nltb nleb F64].
  - intros x y z Hx Hy Hz. rewrite !sf_ltb_key by auto.
    destruct (sf_key x) as [[a1 a2] a3], (sf_key y) as [[b1 b2] b3],
      (sf_key z) as [[c1 c2] c3]; cbn; lia.
  - intros x y Hx Hy. pose proof (sf_compare_key x y Hx Hy) as C1.
    pose proof (sf_compare_key y x Hy Hx) as C2. unfold SFleb, SFltb.
    destruct (SFcompare x y) as [[]|], (SFcompare y x) as [[]|]; try tauto; auto;
      exfalso; revert C1 C2;
      destruct (sf_key x) as [[a1 a2] a3], (sf_key y) as [[b1 b2] b3]; cbn;
      intros; try lia; try (injection C1; lia); try (injection C2; lia).
  - intros x Hx. destruct (SFltb x x) eqn:E; auto. apply sf_ltb_key in E; auto.
    destruct (sf_key x) as [[a1 a2] a3]; cbn in E; lia.
  - intros x y z Hx Hy Hz. rewrite <- !not_true_iff_false, !sf_ltb_key by auto.
    destruct (sf_key x) as [[a1 a2] a3], (sf_key y) as [[b1 b2] b3],
      (sf_key z) as [[c1 c2] c3]; cbn; lia.
Qed.

(** ** Malformed input *)
Lemma linspace_rejects {A : Arith} path n (lo hi : num A) :
  (exists msg, make_linspace path n lo hi = Throw msg) <-> nleb A hi lo = true.
Proof.
  unfold make_linspace. destruct (nleb A hi lo); split; try discriminate; eauto.
  intros [? ?]; discriminate.
Qed.

Lemma logspace_rejects {A : Arith} path n (base lo hi : num A) :
  (exists msg, make_logspace path n base lo hi = Throw msg) <-> nleb A hi lo = true.
Proof.
  unfold make_logspace. destruct (nleb A hi lo); split; try discriminate; eauto.
  intros [? ?]; discriminate.
Qed.

Lemma check_boundaries_cases {A : Arith} show path (l : list (num A)) : forall prev,
  (check_boundaries show path prev l = Ok l
   /\ forall i d, (i < length l)%nat ->
        nleb A (nth i l d) (match i with O => prev | S i' => nth i' l d end) = false)
  \/ ((exists msg, check_boundaries show path prev l = Throw msg)
      /\ exists i, (i < length l)%nat /\ forall d,
        nleb A (nth i l d) (match i with O => prev | S i' => nth i' l d end) = true).
Proof.
  induction l as [|b t IH]; intros prev; cbn.
  - left; split; auto; intros; lia.
  - destruct (nleb A b prev) eqn:E.
    + right; split; [eexists; reflexivity|]. exists 0%nat; split; auto; lia.
    + destruct (IH b) as [[-> H]|[[msg ->] (i & Hi & H)]]; cbn.
      * left; split; auto. intros [|i] d Hi; auto.
        specialize (H i d ltac:(lia)); destruct i; auto.
      * right; split; [eexists; reflexivity|]. exists (S i); split; [lia|].
        intros d; specialize (H d); destruct i; auto.
Qed.

Lemma increasing_nth l : increasing l <->
  forall i, (S i < length l)%nat -> nth i l 0 < nth (S i) l 0.
Proof.
  induction l as [|a t IH]; cbn [increasing length].
  - split; auto; intros; lia.
  - split.
    + intros [H1 H2] [|i] Hi; cbn.
      * destruct t; cbn in *; [lia|auto].
      * apply IH; auto; lia.
    + intros H; split.
      * destruct t; auto. apply (H 0%nat); cbn; lia.
      * apply IH; intros i Hi; apply (H (S i)); lia.
Qed.

Lemma boundaries_real show path (l : list R) :
  ((exists msg, make_boundaries (A := XRa) show path (map Fin l) = Throw msg)
   <-> ~ increasing l)
  /\ (increasing l -> make_boundaries (A := XRa) show path (map Fin l)
                      = Ok (BoundaryBins (A := XRa) (map Fin l))).
Proof.
  assert (N : forall i d, (S i < length l)%nat ->
     nleb XRa (nth (S i) (map Fin l) d) (nth i (map Fin l) d)
     = negb (Rltb (nth i l 0) (nth (S i) l 0))).
  { intros i d Hi. rewrite (nth_indep _ d (Fin 0)) by (rewrite map_length; lia).
    rewrite (nth_indep (map Fin l) d (Fin 0)) by (rewrite map_length; lia).
    rewrite !map_nth; xr. repeat rcase; auto; lra. }
  unfold make_boundaries.
  destruct (check_boundaries_cases (A := XRa) show path (map Fin l) (nopp XRa (ninf XRa)))
    as [[E H]|[[msg E] (i & Hi & H)]]; rewrite map_length in *; rewrite E; cbn [bind].
  - assert (I : increasing l).
    { apply increasing_nth; intros i Hi. specialize (H (S i) NaN Hi). cbn -[nth] in H.
      rewrite N in H by auto. destruct (Rltb_spec (nth i l 0) (nth (S i) l 0)); auto.
      discriminate. }
    split; auto. split; [intros [? ?]; discriminate | tauto].
  - assert (I : ~ increasing l).
    { intros I. specialize (H NaN). destruct i as [|i].
      - destruct l; cbn in *; [lia|discriminate].
      - rewrite N in H by auto. apply negb_true_iff in H.
        rewrite Rltb_true in H; [discriminate|]. now apply increasing_nth. }
    split; [split; eauto|tauto].
Qed.

(** ** Phase-space bins *)
Lemma filter_length_le {X} (f : X -> bool) l : (length (filter f l) <= length l)%nat.
Proof. induction l; cbn; auto. destruct (f a); cbn; lia. Qed.

Lemma proper_total b v : proper_bins b -> in_domain b v ->
  exists i, bins_index b (Fin v) = Ok i /\ (i < bins_size b)%N.
Proof.
  intros [|path n lo hi b' H1 H2 H3 E|path n base lo hi b' H0 H1 H2 H3 E|show path l b' E] D.
  - exists 0%N; cbn; split; auto; lia.
  - eexists; split; [eapply linspace_index; eauto|].
    destruct (linspace_make path n lo hi H1 H2 H3) as (b2 & E2 & Sz & _).
    rewrite E in E2; injection E2 as <-. rewrite Sz.
    pose proof (count_le_bound (lin_boundary lo hi n) (S (N.to_nat n)) v); lia.
  - destruct (logspace_make path n base lo hi H0 H1 H2 H3) as (b2 & E2 & Sz & _).
    rewrite E in E2; injection E2 as <-. rewrite Sz.
    eexists; split; [eapply logspace_index; eauto|].
    + assert (exists a b c d e, b' = LogspaceBins a b c d e) as (? & ? & ? & ? & ? & ->).
      { unfold make_logspace in E; destruct (nleb XRa _ _); [discriminate|].
        injection E as <-; eauto 10. }
      exact D.
    + pose proof (count_le_bound (log_boundary base lo hi n) (S (N.to_nat n)) v).
      lia.
  - assert (F : List.Forall (fun x : xr => x <> NaN) (map Fin l)).
    { apply Forall_forall; intros x Hx; apply in_map_iff in Hx as (? & <- & _); discriminate. }
    destruct (boundaries_index (A := XRa) _ xr_total show path (map Fin l) b' F E (Fin v))
      as (I & Sz & _); [discriminate|].
    eexists; split; [exact I|]. rewrite Sz.
    pose proof (filter_length_le (fun x => nleb XRa x (Fin v)) (map Fin l)). cbn [num XRa] in *.
    lia.
Qed.

Lemma proper_size b : proper_bins b -> (1 <= bins_size b)%N.
Proof.
  intros [|path n lo hi b' H1 H2 H3 E|path n base lo hi b' H0 H1 H2 H3 E|show path l b' E].
  - cbn; lia.
  - destruct (linspace_make path n lo hi H1 H2 H3) as (b2 & E2 & Sz & _).
    rewrite E in E2; injection E2 as <-; lia.
  - destruct (logspace_make path n base lo hi H0 H1 H2 H3) as (b2 & E2 & Sz & _).
    rewrite E in E2; injection E2 as <-; lia.
  - unfold make_boundaries in E. destruct (check_boundaries _ _ _ _); try discriminate.
    injection E as <-; cbn; lia.
Qed.

Lemma energy_visit en v : energy_value en v -> visit_energy en = Fin v.
Proof.
  destruct en as [x|g]; cbn.
  - intros ->; reflexivity.
  - intros ->; unfold nofN; xr. now rewrite INR_N.
Qed.

Lemma pbins_flat X n pb :
  pbins_create (A := XRa) X n = Ok pb ->
  proper_bins (pb_cosine pb) -> proper_bins (pb_energy pb) ->
  (bins_size (pb_cosine pb) * bins_size (pb_energy pb) < 2 ^ 64)%N ->
  pbins_size pb = (bins_size (pb_cosine pb) * bins_size (pb_energy pb))%N
  /\ (forall dir en c e, cosine_bin pb dir c -> energy_bin pb en e ->
        (c < bins_size (pb_cosine pb))%N /\ (e < bins_size (pb_energy pb))%N
        /\ pbins_index pb (pt dir) en = Ok (c * bins_size (pb_energy pb) + e)%N
        /\ (c * bins_size (pb_energy pb) + e < pbins_size pb)%N)
  /\ (pb_direction pb = None -> bins_size (pb_cosine pb) = 1%N).
Proof.
  intros E Pc Pe Hs.
  assert (St : pb_stride pb = bins_size (pb_energy pb)
               /\ (pb_direction pb = None -> pb_cosine pb = NoBins)).
  { unfold pbins_create in E.
    destruct (is_null (n_child n "cosine")) eqn:Nu.
    - destruct (n_child n "cosine"); [discriminate|]. cbn [n_first_child n_children] in E.
      unfold bins_create at 1 in E. cbn [n_name String.eqb bind] in E.
      destruct (bins_create X (n_first_child (n_child n "energy"))); try discriminate.
      injection E as <-; auto.
    - destruct (bins_create X (n_first_child (n_child n "cosine"))); try discriminate.
      cbn [bind] in E.
      destruct (bins_create X (n_first_child (n_child n "energy"))); try discriminate.
      injection E as <-; split; auto; discriminate. }
  destruct St as [St Dn].
  assert (Sz : pbins_size pb = (bins_size (pb_cosine pb) * bins_size (pb_energy pb))%N).
  { unfold pbins_size; rewrite St; apply wrap64_small; auto. }
  split; [auto|split].
  - intros dir en c e Hc (v & Hv & Dv & He).
    assert (Lc : (c < bins_size (pb_cosine pb))%N).
    { unfold cosine_bin in Hc. destruct (pb_direction pb) as [d|].
      - destruct Hc as (dv & _ & D & I). destruct (proper_total _ _ Pc D) as (i & J & L).
        rewrite I in J; injection J as <-; auto.
      - subst; pose proof (proper_size _ Pc); lia. }
    assert (Le : (e < bins_size (pb_energy pb))%N).
    { destruct (proper_total _ _ Pe Dv) as (i & J & L). rewrite He in J; injection J as <-; auto. }
    assert (B : (c * bins_size (pb_energy pb) + e < pbins_size pb)%N) by (rewrite Sz; nia).
    repeat split; auto.
    unfold pbins_index. rewrite (energy_visit _ _ Hv), He, St.
    assert (Ec : match pb_direction pb with
                 | Some d => bins_index (pb_cosine pb) (pdot d (pt dir))
                 | None => Ok 0%N end = Ok c).
    { unfold cosine_bin in Hc. destruct (pb_direction pb) as [d|].
      - destruct Hc as (dv & -> & _ & I). rewrite pdot_pt; auto.
      - subst; auto. }
    rewrite Ec. cbn [bind].
    rewrite wrap64_small by nia. do 2 f_equal; lia.
  - intros H; rewrite (Dn H); reflexivity.
Qed.

Lemma flat_inj se c1 e1 c2 e2 :
  (e1 < se)%N -> (e2 < se)%N -> (c1 * se + e1 = c2 * se + e2)%N -> c1 = c2 /\ e1 = e2.
Proof.
  intros H1 H2 E.
  assert (c1 = c2).
  { destruct (N.lt_trichotomy c1 c2) as [L|[L|L]]; auto; exfalso.
    - assert ((c1 + 1) * se <= c2 * se)%N by (apply N.mul_le_mono_r; lia). lia.
    - assert ((c2 + 1) * se <= c1 * se)%N by (apply N.mul_le_mono_r; lia). lia. }
  subst; split; auto; lia.
Qed.

(** ** Property lemmas *)
Local Open Scope string_scope.

Lemma Ok_inj {X} (a b : X) : Ok a = Ok b -> a = b.
Proof. congruence. Qed.

Lemma count_le_filter l v :
  length (filter (fun x : xr => nleb XRa x (Fin v)) (map Fin l))
  = count_le (fun i => nth i l 0) (length l) v.
Proof.
  induction l as [|a l IH] using rev_ind; auto.
  rewrite map_app, filter_app, !app_length, IH. cbn [length filter map].
  rewrite Nat.add_1_r. cbn [count_le].
  rewrite app_nth2, Nat.sub_diag by lia. cbn [nth].
  rewrite (count_le_ext (fun i => nth i (l ++ [a]) 0) (fun i => nth i l 0) (length l) v v).
  - xr. destruct (Rle_dec a v); [rewrite Rleb_true|rewrite Rleb_false]; auto; lra.
  - intros i Hi; rewrite app_nth1; tauto.
Qed.

Lemma C01_linspace_bins_proof :
  forall (X : Ext XRa) (nd : node) (n : N) (lo hi : R),
    n_name nd = "linspace" ->
    as_ullong X (n_attr nd "bins") = n ->
    as_double X (n_attr nd "min") = Fin lo ->
    as_double X (n_attr nd "max") = Fin hi ->
    (1 <= n)%N -> (n + 2 < 2 ^ 64)%N -> lo < hi ->
    exists b,
      bins_create X nd = Ok b
      /\ bins_size b = (n + 2)%N
      /\ bins_boundaries b = map (fun i => Fin (lin_boundary lo hi n i)) (seq 0 (S (N.to_nat n)))
      /\ (forall v, exists i,
            bins_index b (Fin v) = Ok i
            /\ i = N.of_nat (count_le (lin_boundary lo hi n) (S (N.to_nat n)) v)
            /\ (i < bins_size b)%N)
      /\ (forall v w i j, v <= w -> bins_index b (Fin v) = Ok i ->
            bins_index b (Fin w) = Ok j -> (i <= j)%N).
Proof.
  intros X nd n lo hi Hn Hb Hlo Hhi H1 H2 H3.
  destruct (linspace_make (n_path nd) n lo hi H3 H1 H2) as (b & E & Sz & B).
  exists b. pose proof (linspace_index _ _ _ _ _ H3 H1 H2 E) as I.
  repeat split; auto.
  - unfold bins_create. rewrite Hn, Hb. cbn [String.eqb Ascii.eqb Bool.eqb]. rewrite Hlo, Hhi; auto.
  - intros v; eexists; split; [apply I|split; [reflexivity|]]. rewrite Sz.
    pose proof (count_le_bound (lin_boundary lo hi n) (S (N.to_nat n)) v); lia.
  - intros v w i j L. rewrite !I. intros Ei Ej; apply Ok_inj in Ei, Ej; subst i j.
    pose proof (count_le_mono (lin_boundary lo hi n) (S (N.to_nat n)) v w L); lia.
Qed.

Lemma C02_logspace_bins_proof :
  forall (X : Ext XRa) (nd : node) (n : N) (base lo hi : R),
    n_name nd = "logspace" ->
    as_ullong X (n_attr nd "bins") = n ->
    as_double_def X (n_attr nd "base") (Fin 10) = Fin base ->
    as_double X (n_attr nd "min") = Fin lo ->
    as_double X (n_attr nd "max") = Fin hi ->
    1 < base -> (1 <= n)%N -> (n + 2 < 2 ^ 64)%N -> lo < hi ->
    exists b,
      bins_create X nd = Ok b
      /\ bins_size b = (n + 2)%N
      /\ bins_boundaries b
         = map (fun i => Fin (log_boundary base lo hi n i)) (seq 0 (S (N.to_nat n)))
      /\ (forall v, 0 < v -> exists i,
            bins_index b (Fin v) = Ok i
            /\ i = N.of_nat (count_le (log_boundary base lo hi n) (S (N.to_nat n)) v)
            /\ (i < bins_size b)%N)
      /\ (forall v w i j, 0 < v -> v <= w -> bins_index b (Fin v) = Ok i ->
            bins_index b (Fin w) = Ok j -> (i <= j)%N).
Proof.
  intros X nd n base lo hi Hn Hb Hbase Hlo Hhi H0 H1 H2 H3.
  destruct (logspace_make (n_path nd) n base lo hi H0 H3 H1 H2) as (b & E & Sz & B).
  exists b. pose proof (logspace_index _ _ _ _ _ _ H0 H3 H1 H2 E) as I.
  repeat split; auto.
  - unfold bins_create. rewrite Hn, Hb. cbn [String.eqb Ascii.eqb Bool.eqb].
    cbn [nofZ XRa]. rewrite Hbase, Hlo, Hhi; auto.
  - intros v Hv; eexists; split; [apply I; auto|split; [reflexivity|]]. rewrite Sz.
    pose proof (count_le_bound (log_boundary base lo hi n) (S (N.to_nat n)) v); lia.
  - intros v w i j Hv L. rewrite !I by lra. intros Ei Ej; apply Ok_inj in Ei, Ej; subst i j.
    pose proof (count_le_mono (log_boundary base lo hi n) (S (N.to_nat n)) v w L); lia.
Qed.

(** For every double that is not NaN: the boundaries are those accepted by the
    constructor, compared as doubles. *)
Lemma C03_boundary_bins_binary64_proof :
  forall (L : Libm) (X : Ext (F64 L)) (nd : node) (b : bins (F64 L)),
    n_name nd = "boundaries" ->
    List.Forall (fun x => x <> S754_nan) (to_reals X (n_text nd)) ->
    bins_create X nd = Ok b ->
    bins_boundaries b = to_reals X (n_text nd)
    /\ forall v, v <> S754_nan -> exists i,
         bins_index b v = Ok i
         /\ i = N.of_nat (length (filter (fun x => SFleb x v) (to_reals X (n_text nd))))
         /\ (i < bins_size b)%N.
Proof.
  intros L X nd b Hn Hf E.
  unfold bins_create in E; rewrite Hn in E. cbn [String.eqb Ascii.eqb Bool.eqb] in E.
  pose proof (boundaries_index _ (f64_total L) _ _ _ _ Hf E) as I. split.
  - apply (I (S754_zero false)); discriminate.
  - intros v Hv. destruct (I v Hv) as (I1 & I2 & _).
    eexists; split; [exact I1|split; [reflexivity|]]. rewrite I2.
    pose proof (filter_length_le (fun x => SFleb x v) (to_reals X (n_text nd))).
    cbn [nleb F64 num] in *. lia.
Qed.

Lemma C03_boundary_bins_proof :
  forall (X : Ext XRa) (nd : node) (l : list R),
    n_name nd = "boundaries" ->
    to_reals X (n_text nd) = map Fin l -> increasing l ->
    exists b,
      bins_create X nd = Ok b
      /\ bins_size b = N.of_nat (length l + 1)
      /\ bins_boundaries b = map Fin l
      /\ forall v, bins_index b (Fin v)
                   = Ok (N.of_nat (count_le (fun i => nth i l 0) (length l) v)).
Proof.
  intros X nd l Hn Hl Inc.
  destruct (boundaries_real (show_real X) (n_path nd) l) as [_ Mk]. specialize (Mk Inc).
  assert (F : List.Forall (fun x : xr => x <> NaN) (map Fin l)).
  { apply Forall_forall; intros x Hx; apply in_map_iff in Hx as (? & <- & _); discriminate. }
  pose proof (boundaries_index (A := XRa) _ xr_total _ _ _ _ F Mk) as I.
  exists (BoundaryBins (A := XRa) (map Fin l)). split; [|split; [|split]].
  - unfold bins_create; rewrite Hn; cbn [String.eqb Ascii.eqb Bool.eqb]. now rewrite Hl.
  - destruct (I (Fin 0)) as (_ & I2 & _); [discriminate|]. rewrite I2, map_length; reflexivity.
  - reflexivity.
  - intros v. destruct (I (Fin v)) as (-> & _ & _); [discriminate|]. do 2 f_equal.
    apply count_le_filter.
Qed.

Lemma C04_particle_bins_proof :
  forall (X : Ext XRa) (nd : node) (pb : particle_bins XRa),
    pbins_create X nd = Ok pb ->
    proper_bins (pb_cosine pb) -> proper_bins (pb_energy pb) ->
    (bins_size (pb_cosine pb) * bins_size (pb_energy pb) < 2 ^ 64)%N ->
    pbins_size pb = (bins_size (pb_cosine pb) * bins_size (pb_energy pb))%N
    (* every particle has a slot inside the score array *)
    /\ (forall dir en c e, cosine_bin pb dir c -> energy_bin pb en e ->
          exists i, pbins_index pb (pt dir) en = Ok i /\ (i < pbins_size pb)%N)
    (* the same slot iff the same pair of bins *)
    /\ (forall dir1 en1 c1 e1 i1 dir2 en2 c2 e2 i2,
          cosine_bin pb dir1 c1 -> energy_bin pb en1 e1 ->
          cosine_bin pb dir2 c2 -> energy_bin pb en2 e2 ->
          pbins_index pb (pt dir1) en1 = Ok i1 ->
          pbins_index pb (pt dir2) en2 = Ok i2 ->
          (i1 = i2 <-> c1 = c2 /\ e1 = e2))
    (* every slot belongs to a pair of bins *)
    /\ (forall i, (i < pbins_size pb)%N ->
          exists c e, (c < bins_size (pb_cosine pb))%N /\ (e < bins_size (pb_energy pb))%N
            /\ forall dir en, cosine_bin pb dir c -> energy_bin pb en e ->
                 pbins_index pb (pt dir) en = Ok i)
    (* without a cosine node the direction does not matter *)
    /\ (n_child nd "cosine" = None ->
          bins_size (pb_cosine pb) = 1%N
          /\ forall dir1 dir2 en, pbins_index pb dir1 en = pbins_index pb dir2 en).
Proof.
  intros X nd pb E Pc Pe Hs.
  destruct (pbins_flat X nd pb E Pc Pe Hs) as (Sz & F & D).
  split; [auto|split; [|split; [|split]]].
  - intros dir en c e Hc He. destruct (F _ _ _ _ Hc He) as (_ & _ & I & L). eauto.
  - intros dir1 en1 c1 e1 i1 dir2 en2 c2 e2 i2 Hc1 He1 Hc2 He2 I1 I2.
    destruct (F _ _ _ _ Hc1 He1) as (_ & L1 & J1 & _).
    destruct (F _ _ _ _ Hc2 He2) as (_ & L2 & J2 & _).
    rewrite I1 in J1; rewrite I2 in J2; apply Ok_inj in J1, J2; subst i1 i2. split.
    + apply flat_inj; auto.
    + now intros [-> ->].
  - intros i Hi. pose proof (proper_size _ Pe) as Se.
    exists (i / bins_size (pb_energy pb))%N, (i mod bins_size (pb_energy pb))%N.
    split; [|split].
    + apply N.div_lt_upper_bound; [lia|]. rewrite N.mul_comm, <- Sz; auto.
    + apply N.mod_lt; lia.
    + intros dir en Hc He. destruct (F _ _ _ _ Hc He) as (_ & _ & -> & _). f_equal.
      rewrite N.mul_comm; symmetry; apply N.div_mod; lia.
  - intros Nu. assert (Dn : pb_direction pb = None).
    { unfold pbins_create in E. rewrite Nu in E. cbn [is_null n_first_child n_children] in E.
      unfold bins_create at 1 in E; cbn [n_name String.eqb bind] in E.
      destruct (bins_create X (n_first_child (n_child nd "energy"))); try discriminate.
      injection E as <-; auto. }
    split; auto. intros; unfold pbins_index. now rewrite Dn.
Qed.

Lemma C05_linspace_validation_proof :
  forall (A : Arith) (X : Ext A) (nd : node),
    n_name nd = "linspace" \/ n_name nd = "logspace" ->
    let lo := as_double X (n_attr nd "min") in
    let hi := as_double X (n_attr nd "max") in
    ((exists msg, bins_create X nd = Throw msg) <-> nleb A hi lo = true)
    /\ (nleb A hi lo = false -> exists b, bins_create X nd = Ok b).
Proof.
  intros A X nd Hn lo hi. unfold bins_create.
  destruct Hn as [-> | ->]; cbn [String.eqb Ascii.eqb Bool.eqb]; split;
    try apply linspace_rejects; try apply logspace_rejects;
    unfold make_linspace, make_logspace; fold hi lo; intros ->; eauto.
Qed.

(** For every number system, in particular for doubles: the list is accepted
    unchanged iff no boundary is [<=] its predecessor (the first one is compared
    with minus infinity). *)
Lemma C05_boundaries_validation_proof :
  forall (A : Arith) (X : Ext A) (nd : node),
    n_name nd = "boundaries" ->
    let l := to_reals X (n_text nd) in
    let bad := exists i a b, nth_error (nopp A (ninf A) :: l) i = Some a
                             /\ nth_error l i = Some b /\ nleb A b a = true in
    ((exists msg, bins_create X nd = Throw msg) <-> bad)
    /\ (~ bad -> bins_create X nd = Ok (BoundaryBins l)).
Proof.
  intros A X nd Hn l bad. unfold bins_create. rewrite Hn.
  cbn [String.eqb Ascii.eqb Bool.eqb]. fold l. unfold make_boundaries.
  destruct (check_boundaries_cases (show_real X) (n_path nd) l (nopp A (ninf A)))
    as [[E H]|[[msg E] H]]; rewrite E; cbn [bind].
  - assert (G : ~ bad).
    { intros (i & a & b & Ha & Hb & C).
      assert (Hi : (i < length l)%nat) by (apply nth_error_Some; congruence).
      specialize (H i a Hi). rewrite (nth_error_nth _ _ _ Hb) in H.
      enough (a = match i with O => nopp A (ninf A) | S i' => nth i' l a end) by congruence.
      destruct i; cbn in Ha; [congruence|]. symmetry; apply nth_error_nth; auto. }
    split; auto. split; [intros [? ?]; discriminate|tauto].
  - assert (G : bad).
    { destruct H as (i & Hi & C).
      destruct (nth_error l i) as [b|] eqn:Hb; [|apply nth_error_None in Hb; lia].
      exists i, (match i with O => nopp A (ninf A) | S i' => nth i' l b end), b.
      split; [|split; auto].
      - destruct i; cbn; auto. apply nth_error_nth'; lia.
      - rewrite <- (C b). f_equal. symmetry; apply nth_error_nth; auto. }
    split; [|tauto]. split; eauto.
Qed.

Lemma C05_boundaries_validation_reals_proof :
  forall (X : Ext XRa) (nd : node) (l : list R),
    n_name nd = "boundaries" -> to_reals X (n_text nd) = map Fin l ->
    ((exists msg, bins_create X nd = Throw msg) <-> ~ increasing l)
    /\ (increasing l ->
        exists b, bins_create X nd = Ok b /\ bins_boundaries b = map Fin l).
Proof.
  intros X nd l Hn Hl. unfold bins_create. rewrite Hn, Hl.
  cbn [String.eqb Ascii.eqb Bool.eqb].
  destruct (boundaries_real (show_real X) (n_path nd) l) as [H1 H2].
  split; auto. intros I; eexists; split; [apply H2; auto|reflexivity].
Qed.

(** The constructor of an estimator's bins is marked noexcept, so what is an
    error for one bin structure ends the program there. *)
Lemma C05_estimator_bins_abort_proof :
  forall (A : Arith) (X : Ext A) (nd : node) msg,
    bins_create X (n_first_child (n_child nd "cosine")) = Throw msg
    \/ ((exists c, bins_create X (n_first_child (n_child nd "cosine")) = Ok c)
        /\ bins_create X (n_first_child (n_child nd "energy")) = Throw msg) ->
    pbins_create X nd = Terminate.
Proof.
  intros A X nd msg [E|[[c E] E2]]; unfold pbins_create; rewrite E; cbn [bind]; auto.
  now rewrite E2.
Qed.
