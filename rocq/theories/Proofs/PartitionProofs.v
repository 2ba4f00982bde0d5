(** Thermal tables as a whole: C72 and C73. *)
From Coq Require Import Bool String List Reals ZArith NArith Lra Lia.
From Verif Require Import Model.Num Model.Outcome Model.Rng Model.Xml Model.Std Model.Surface Model.Bins
  Model.Types Model.Field Model.Tables Model.Particle Model.Thermal
  Spec.SumSpec Spec.RngSpec Spec.BinsSpec Spec.TablesSpec Spec.ContinuousSpec Spec.ThermalSpec
  Proofs.RealLib Proofs.OutcomeLib Proofs.RngProofs Proofs.BinsProofs Proofs.TablesProofs Proofs.ThermalProofs
  Proofs.ContinuousProofs Proofs.ThermalSampleProofs.
Import ListNotations.
Local Open Scope R_scope.

(** ** C72 *)

Lemma mapM_forall2 {X Y} (f : X -> outcome Y) l r : mapM f l = Ok r ->
  Forall2 (fun x y => f x = Ok y) l r.
Proof.
  revert r. induction l as [|x l IH]; intros r H; cbn in H.
  - injection H as <-. constructor.
  - apply bind_ok in H as (y & E & H). apply bind_ok in H as (r' & E' & H). injection H as <-.
    constructor; auto.
Qed.

Lemma running_nth sizes : forall n k, (k < length sizes)%nat ->
  nth_error (running_ends n sizes) k = Some (n + fold_right N.add 0 (firstn (S k) sizes))%N.
Proof.
  induction sizes as [|s sizes IH]; intros n [|k] Hk; cbn in Hk; try lia.
  - cbn. f_equal. lia.
  - cbn [running_ends nth_error]. rewrite IH by lia. cbn [firstn fold_right]. f_equal. lia.
Qed.
Lemma running_length sizes : forall n, length (running_ends n sizes) = length sizes.
Proof. induction sizes; intros; cbn; auto. Qed.

Definition sizes_of {X} (axes : list (list X)) : list N := map (fun a => N.of_nat (length a)) axes.
Lemma sum_sizes {X} (axes : list (list X)) :
  fold_right N.add 0%N (sizes_of axes) = N.of_nat (length (concat axes)).
Proof.
  induction axes as [|a axes IH]; auto. cbn [sizes_of map fold_right concat]. fold (sizes_of axes).
  rewrite IH, app_length. lia.
Qed.
Lemma firstn_sizes {X} k (axes : list (list X)) : firstn k (sizes_of axes) = sizes_of (firstn k axes).
Proof. unfold sizes_of. now rewrite firstn_map. Qed.
Lemma concat_firstn_mono {X} (gs : list (list X)) k k' : (k <= k')%nat ->
  (length (concat (firstn k gs)) <= length (concat (firstn k' gs)))%nat.
Proof.
  revert k k'. induction gs as [|g gs IH]; intros [|k] [|k'] H; cbn; try lia.
  rewrite !app_length. specialize (IH k k' ltac:(lia)). lia.
Qed.
Lemma nth_concat {X} (gs : list (list X)) k g local : nth_error gs k = Some g ->
  (local < length g)%nat ->
  nth_error (concat gs) (length (concat (firstn k gs)) + local) = nth_error g local.
Proof.
  revert k. induction gs as [|a gs IH]; intros [|k] E H; cbn in E; try discriminate.
  - injection E as ->. cbn. rewrite nth_error_app1; auto.
  - cbn [firstn concat]. rewrite app_length. rewrite nth_error_app2 by lia.
    rewrite <- (IH k E H). f_equal. lia.
Qed.

Lemma locate_whole {A : Arith} (ps : list (partition A)) axes i :
  mapM (fun pa => ds_axis (pa_grid pa) 0) ps = Ok axes ->
  (N.of_nat (length (concat axes)) < 2 ^ 64)%N -> (N.of_nat (length ps) < 2 ^ 64)%N ->
  (i < length (concat axes))%nat ->
  exists pa local,
    locate_partition ps (running_ends 0 (sizes_of axes)) (N.of_nat i) = Ok (pa, N.of_nat local)
    /\ holds_point ps (concat axes) i pa local.
Proof.
  intros Hm Sz Ct Hi. apply mapM_forall2 in Hm.
  assert (Ll : length ps = length axes) by (eapply forall2_length; eauto).
  set (f := fun k => (N.of_nat i <? N.of_nat (length (concat (firstn (S k) axes))))%N).
  assert (Ln : length (sizes_of axes) = length axes) by (unfold sizes_of; now rewrite map_length).
  assert (En : forall k, (k < length axes)%nat ->
    nth_error (running_ends 0 (sizes_of axes)) k = Some (N.of_nat (length (concat (firstn (S k) axes))))).
  { intros k Hk. rewrite running_nth by lia. rewrite firstn_sizes, sum_sizes. reflexivity. }
  unfold locate_partition, upper_bound_N. rewrite running_length, Ln.
  destruct (upper_bound_gen_spec f (fun k => match nth_error (running_ends 0 (sizes_of axes)) k with
      | Some x => Ok (N.of_nat i <? x)%N | None => UB end) (length axes)) as (k & -> & Hk & K1 & K2).
  - intros k Hk. rewrite En by auto. reflexivity.
  - intros a b Hab Hb. unfold f. rewrite !N.ltb_lt.
    pose proof (concat_firstn_mono axes (S a) (S b) ltac:(lia)). lia.
  - cbn [bind].
    assert (Kn : (k < length axes)%nat).
    { destruct (Nat.eq_dec k (length axes)) as [->|]; [|lia]. exfalso. destruct axes as [|g gs'].
      { cbn in Hi. lia. }
      specialize (K1 (length gs') ltac:(cbn; lia)). unfold f in K1. rewrite N.ltb_ge in K1.
      rewrite firstn_all2 in K1 by (cbn; lia). lia. }
    pose proof (K2 k ltac:(lia)) as Hf. unfold f in Hf. rewrite N.ltb_lt in Hf.
    destruct (nth_error ps k) as [pa|] eqn:Ex; [|apply nth_error_None in Ex; lia].
    destruct (nth_error axes k) as [g|] eqn:Eg; [|apply nth_error_None in Eg; lia].
    rewrite (vec_at_nth ps k pa Ex). cbn [bind].
    assert (Ef : length (concat (firstn (S k) axes)) = (length (concat (firstn k axes)) + length g)%nat).
    { clear - Eg. revert k Eg. induction axes as [|a gs IH]; intros [|k] Eg; cbn in Eg; try discriminate.
      - injection Eg as ->. cbn. rewrite app_nil_r. lia.
      - cbn [firstn concat]. rewrite !app_length. specialize (IH k Eg). cbn [firstn] in IH. rewrite IH. lia. }
    assert (Hp : forall local, i = (length (concat (firstn k axes)) + local)%nat ->
       (local < length g)%nat -> holds_point ps (concat axes) i pa local).
    { intros local -> Hl. destruct (nth_error_split _ _ Ex) as (before & after & -> & Lb).
      exists before, after, (firstn k axes), g. split; [reflexivity|].
      apply Forall2_app_inv_l in Hm as (e1 & e2 & F1 & F2 & Ea). subst axes.
      assert (length e1 = k) by (rewrite <- Lb; symmetry; eapply forall2_length; eauto).
      assert (Fn : firstn k (e1 ++ e2) = e1).
      { rewrite firstn_app, firstn_all2 by lia. replace (k - length e1)%nat with O by lia. cbn.
        now rewrite app_nil_r. }
      rewrite Fn. split; [exact F1|]. inversion F2; subst.
      rewrite nth_error_app2 in Eg by lia. replace (length before - length e1)%nat with O in Eg by lia. injection Eg as ->.
      split; auto. split; auto. split; auto. rewrite <- Fn at 2. apply nth_concat; auto.
      rewrite nth_error_app2 by lia. replace (length before - length e1)%nat with O by lia. reflexivity. }
    destruct (N.eqb_spec (N.of_nat k) 0) as [Z|Z].
    + assert (k = O) by lia. subst k. exists pa, i. cbn [bind]. split; [reflexivity|].
      apply Hp; cbn [firstn concat length] in *; lia.
    + pose proof (K1 (k - 1)%nat ltac:(lia)) as Hq. unfold f in Hq. rewrite N.ltb_ge in Hq.
      replace (S (k - 1)) with k in Hq by lia.
      assert (Lc : (length (concat (firstn k axes)) <= length (concat axes))%nat).
      { pose proof (concat_firstn_mono axes k (length axes) ltac:(lia)) as Q. now rewrite firstn_all in Q. }
      pose proof (En (k - 1)%nat ltac:(lia)) as Ee. replace (S (k - 1)) with k in Ee by lia.
      exists pa, (i - length (concat (firstn k axes)))%nat.
      rewrite (sub64_small (N.of_nat k) 1) by lia.
      replace (N.of_nat k - 1)%N with (N.of_nat (k - 1)) by lia.
      rewrite (vec_at_nth _ (k - 1) _ Ee). cbn [bind].
      rewrite sub64_small by lia. split.
      * do 2 f_equal. lia.
      * apply Hp; lia.
Qed.

Lemma C72_partitions_proof :
  forall (A : Arith) (X : Ext A) n t, thermal_create X n = Ok t ->
  (* the partitions are the listed ones, in order *)
  Forall2 (fun c pa => partition_create X "E_T" c = Ok pa)
    (n_children (n_child n "beta_partitions")) (th_beta_partitions t)
  /\ Forall2 (fun c pa => partition_create X "beta_T" c = Ok pa)
    (n_children (n_child n "alpha_partitions")) (th_alpha_partitions t)
  (* every point of the energy grid is looked up where it is stored *)
  /\ ((N.of_nat (length (th_Es t)) < 2 ^ 64)%N ->
      (N.of_nat (length (th_beta_partitions t)) < 2 ^ 64)%N ->
      forall i, (i < length (th_Es t))%nat -> exists pa local,
      locate_partition (th_beta_partitions t) (th_beta_ends t) (N.of_nat i) = Ok (pa, N.of_nat local)
      /\ holds_point (th_beta_partitions t) (th_Es t) i pa local)
  (* and so is every point of the grid of energy transfers *)
  /\ ((N.of_nat (length (th_betas t)) < 2 ^ 64)%N ->
      (N.of_nat (length (th_alpha_partitions t)) < 2 ^ 64)%N ->
      forall i, (i < length (th_betas t))%nat -> exists pa local,
      locate_partition (th_alpha_partitions t) (th_alpha_ends t) (N.of_nat i) = Ok (pa, N.of_nat local)
      /\ holds_point (th_alpha_partitions t) (th_betas t) i pa local).
Proof.
  intros A X n t H. unfold thermal_create in H. apply -> @noexcept_ok in H.
  do 4 apply bind_ok in H as (? & _ & H).
  apply bind_ok in H as (bp & Eb & H). apply bind_ok in H as (Es & EEs & H).
  apply bind_ok in H as (be & Ebe & H). apply bind_ok in H as (ap & Ea & H).
  apply bind_ok in H as (bs & Ebs & H). apply bind_ok in H as (ae & Eae & H).
  apply bind_ok in H as (ax & _ & H). destruct (rev ax) as [|cut rest]; [discriminate|].
  injection H as <-. cbn.
  unfold concat_axes in EEs, Ebs. unfold partition_ends in Ebe, Eae.
  apply bind_ok in EEs as (a1 & M1 & EEs). rewrite M1 in Ebe. cbn [bind] in Ebe.
  apply bind_ok in Ebs as (a2 & M2 & Ebs). rewrite M2 in Eae. cbn [bind] in Eae.
  injection EEs as <-. injection Ebs as <-. injection Ebe as <-. injection Eae as <-.
  split; [now apply mapM_forall2|]. split; [now apply mapM_forall2|].
  split; intros; now apply locate_whole.
Qed.

(** ** C73 *)

Lemma interpolated_unique l f x y z : increasing l -> interpolated l f x y -> interpolated l f x z -> y = z.
Proof.
  intros Inc H1 H2. pose proof (increasing_nth_lt l) as M.
  assert (F : forall i, (i < length l)%nat -> nth 0 l 0 <= nth i l 0).
  { intros [|i] Hi; [lra|]. left. apply M; auto. lia. }
  assert (La : forall i, (i < length l)%nat -> nth i l 0 <= last l 0).
  { intros i Hi. rewrite last_nth. destruct (Nat.eq_dec i (length l - 1)) as [->|]; [lra|].
    left. apply M; auto. lia. }
  assert (Ne : l <> [] -> (0 < length l)%nat) by (destruct l; cbn; [congruence|lia]).
  destruct H1 as [N1 L1|i Hi Bi|N1 L1], H2 as [N2 L2|j Hj Bj|N2 L2]; auto.
  - specialize (F j ltac:(lia)). lra.
  - specialize (La O (Ne N1)). lra.
  - specialize (F i ltac:(lia)). lra.
  - assert (i = j) as ->; auto. destruct (Nat.lt_trichotomy i j) as [L|[E|L]]; auto.
    + destruct (Nat.eq_dec (S i) j) as [<-|]; [lra|]. specialize (M (S i) j Inc ltac:(lia)). lra.
    + destruct (Nat.eq_dec (S j) i) as [<-|]; [lra|]. specialize (M (S j) i Inc ltac:(lia)). lra.
  - specialize (La (S i) Hi). lra.
  - specialize (La O (Ne N1)). lra.
  - specialize (La (S j) Hj). lra.
Qed.

Lemma evaluate_at pa Fs grid Ts W k T vs i : partition_table pa Fs grid Ts W -> increasing Ts ->
  nth 0 Ts 0 <= T < last Ts 0 -> (k < length grid)%nat -> values_at W Fs Ts k T vs ->
  (i < length Fs)%nat ->
  partition_evaluate (A := XRa) pa (N.of_nat i) (N.of_nat k) (Fin T) = Ok (Fin (nth i vs 0)).
Proof.
  intros P I B Hk [_ V] Hi.
  assert (N : Ts <> []) by (intros ->; cbn in B; lra).
  destruct (C68_temperature_interpolation_partial_proof pa Fs grid Ts W i k T P I N Hi Hk)
    as (v & E & H & _). destruct (H B) as (x & -> & Hx). rewrite E. do 2 f_equal.
  eapply interpolated_unique; eauto.
Qed.

(** Searching the inner points of a completed list. *)
Lemma completed_nth (lo : R) l hi j d : (S j <= length l)%nat -> nth (S j) (lo :: l ++ [hi]) d = nth j l d.
Proof. intros H. cbn. apply app_nth1. lia. Qed.
Lemma completed_last (lo : R) l hi d : nth (S (length l)) (lo :: l ++ [hi]) d = hi.
Proof. cbn. rewrite app_nth2 by lia. rewrite Nat.sub_diag. reflexivity. Qed.
Lemma completed_search (less : nat -> outcome bool) lo l hi x j :
  increasing (lo :: l ++ [hi]) ->
  (forall i, (i < length l)%nat -> less i = Ok (Rltb x (nth i l 0))) ->
  (j <= length l)%nat ->
  nth j (lo :: l ++ [hi]) 0 <= x < nth (S j) (lo :: l ++ [hi]) 0 ->
  upper_bound_gen less (length l) = Ok j.
Proof.
  intros Inc Hl Hj B. pose proof increasing_nth_lt as M.
  assert (Len : length (lo :: l ++ [hi]) = S (S (length l))) by (cbn; rewrite app_length; cbn; lia).
  assert (Mi : forall a b, (a < b < length l)%nat -> nth a l 0 < nth b l 0).
  { intros a b Hab. specialize (M (lo :: l ++ [hi]) (S a) (S b) Inc).
    rewrite !completed_nth in M by lia. apply M. lia. }
  destruct (upper_bound_gen_spec (fun i => Rltb x (nth i l 0)) less (length l)) as (k & -> & Hk & K1 & K2).
  - exact Hl.
  - intros a b Hab Hb H. destruct (Rltb_spec x (nth a l 0)); [|discriminate].
    apply Rltb_true. destruct (Nat.eq_dec a b) as [->|]; auto. specialize (Mi a b ltac:(lia)). lra.
  - f_equal. destruct (Nat.lt_trichotomy k j) as [L|[E|L]]; auto.
    + exfalso. destruct j as [|j]; [lia|]. rewrite completed_nth in B by lia.
      specialize (K2 j ltac:(lia)). destruct (Rltb_spec x (nth j l 0)); [lra|discriminate].
    + exfalso. rewrite completed_nth in B by lia.
      specialize (K1 j L). destruct (Rltb_spec x (nth j l 0)); [discriminate|lra].
Qed.

Section Curve.
  Context (pa : partition XRa) (Fs grid Ts : list R) (W : nat -> nat -> nat -> R).
  Context (P : partition_table pa Fs grid Ts W) (IT : increasing Ts).
  Context (k : nat) (Hk : (k < length grid)%nat) (T : R) (BT : nth 0 Ts 0 <= T < last Ts 0).
  Context (vs : list R) (V : values_at W Fs Ts k T vs).

  Lemma fs_axis : ds_axis (pa_cdf pa) 0 = Ok (map Fin Fs : list (num XRa))
    /\ (N.of_nat (length Fs) < 2 ^ 64)%N.
  Proof.
    destruct P as (o & o' & o'' & c & s & gr & L1 & L2 & B1 & B2 & Ac & As & Ag & Ew).
    split; auto. exact (array_axis _ _ _ 0%N Fs Ac eq_refl).
  Qed.

  (** The four numbers read around the j-th interval. *)
  Lemma around (lo hi : R) j (ev : N -> outcome xr) : (j <= length Fs)%nat ->
    (forall i, (i < length Fs)%nat -> ev (N.of_nat i) = Ok (Fin (nth i vs 0))) ->
    (if (N.of_nat j =? 0)%N then Ok (Fin 0 : xr) else vec_at (map Fin Fs : list xr) (sub64 (N.of_nat j) 1))
      = Ok (Fin (nth j (0 :: Fs ++ [1]) 0))
    /\ (if (N.of_nat j =? N.of_nat (length Fs))%N then Ok (Fin 1 : xr) else vec_at (map Fin Fs : list xr) (N.of_nat j))
      = Ok (Fin (nth (S j) (0 :: Fs ++ [1]) 0))
    /\ (if (N.of_nat j =? 0)%N then Ok (Fin lo : xr) else ev (sub64 (N.of_nat j) 1))
      = Ok (Fin (nth j (lo :: vs ++ [hi]) 0))
    /\ (if (N.of_nat j =? N.of_nat (length Fs))%N then Ok (Fin hi : xr) else ev (N.of_nat j))
      = Ok (Fin (nth (S j) (lo :: vs ++ [hi]) 0)).
  Proof.
    intros Hj He. destruct fs_axis as [_ Sz]. destruct V as [Lv _].
    assert (Lo : N.of_nat j <> 0%N -> sub64 (N.of_nat j) 1 = N.of_nat (j - 1))
      by (intros; rewrite sub64_small by lia; lia).
    assert (X1 : forall i, (i < length Fs)%nat -> vec_at (map Fin Fs : list xr) (N.of_nat i) = Ok (Fin (nth i Fs 0)))
      by exact (vec_fin Fs).
    split; [|split; [|split]].
    - destruct (N.eqb_spec (N.of_nat j) 0) as [Z|Z].
      + assert (j = O) by lia. subst j. reflexivity.
      + rewrite Lo, X1 by lia. replace j with (S (j - 1)) at 2 by lia. rewrite completed_nth by lia. reflexivity.
    - destruct (N.eqb_spec (N.of_nat j) (N.of_nat (length Fs))) as [Z|Z].
      + assert (j = length Fs) by lia. subst j. rewrite completed_last. reflexivity.
      + rewrite X1, completed_nth by lia. reflexivity.
    - destruct (N.eqb_spec (N.of_nat j) 0) as [Z|Z].
      + assert (j = O) by lia. subst j. reflexivity.
      + rewrite Lo, He by lia. replace j with (S (j - 1)) at 2 by lia. rewrite completed_nth by lia. reflexivity.
    - destruct (N.eqb_spec (N.of_nat j) (N.of_nat (length Fs))) as [Z|Z].
      + assert (j = length Fs) by lia. subst j. rewrite <- Lv, completed_last. reflexivity.
      + rewrite He, completed_nth by lia. reflexivity.
  Qed.

  Lemma evaluate_here i : (i < length Fs)%nat ->
    partition_evaluate (A := XRa) pa (N.of_nat i) (N.of_nat k) (Fin T) = Ok (Fin (nth i vs 0)).
  Proof. intros. eapply evaluate_at; eauto. Qed.

  Lemma fs_search F j : increasing (0 :: Fs ++ [1]) -> (j <= length Fs)%nat ->
    nth j (0 :: Fs ++ [1]) 0 <= F < nth (S j) (0 :: Fs ++ [1]) 0 ->
    upper_bound (A := XRa) (Fin F) (map Fin Fs) = Ok j.
  Proof.
    intros Inc Hj B. unfold upper_bound. rewrite map_length. apply (completed_search _ 0 Fs 1 F j); auto.
    intros i Hi. rewrite nth_error_map, (nth_error_nth' Fs 0 Hi). reflexivity.
  Qed.

  Lemma completed_length : length (0 :: Fs ++ [1]) = S (S (length Fs)).
  Proof. cbn. rewrite app_length. cbn. lia. Qed.

  (** ** Values from probabilities *)

  Lemma alpha_curve (t : thermal XRa) cut F y : th_alpha_cutoff t = Fin cut ->
    increasing (0 :: Fs ++ [1]) -> joined (0 :: Fs ++ [1]) (0 :: vs ++ [cut]) F y ->
    sample_alpha_candidate (A := XRa) t pa (N.of_nat k) (Fin T) (Fin F) = Ok (Fin y).
  Proof.
    intros Ec Inc (j & Hj & B & ->). rewrite completed_length in Hj.
    unfold sample_alpha_candidate. destruct fs_axis as [-> _]. cbn [bind].
    rewrite (fs_search F j) by (auto; lia). cbn [bind]. rewrite map_length, Ec.
    destruct (around 0 cut j (fun i => partition_evaluate (A := XRa) pa i (N.of_nat k) (Fin T)))
      as (A1 & A2 & A3 & A4); [lia|exact evaluate_here|].
    change (num XRa) with xr in *. change (nofZ XRa 0) with (Fin 0). change (nofZ XRa 1) with (Fin 1).
    rewrite A1. cbn [bind]. rewrite A2. cbn [bind]. rewrite A3. cbn [bind]. rewrite A4. cbn [bind].
    set (f0 := nth j (0 :: Fs ++ [1]) 0) in *. set (f1 := nth (S j) (0 :: Fs ++ [1]) 0) in *.
    set (w0 := nth j (0 :: vs ++ [cut]) 0). set (w1 := nth (S j) (0 :: vs ++ [cut]) 0).
    clear A1 A2 A3 A4. clearbody f0 f1 w0 w1.
    cbn. unfold xsub. cbn. rewrite Reqb_false by lra. cbn. unfold chord. do 2 f_equal. field. lra.
  Qed.

  Lemma beta_curve (t : thermal XRa) cut E_s F y : th_beta_cutoff t = Fin cut -> 0 < T ->
    increasing (0 :: Fs ++ [1]) ->
    joined (0 :: Fs ++ [1]) (- E_s / (k_B * T) :: vs ++ [cut]) F y ->
    sample_beta_candidate (A := XRa) t pa (N.of_nat k) (Fin E_s) (Fin T) (Fin F) = Ok (Fin y).
  Proof.
    intros Ec HT Inc (j & Hj & B & ->). rewrite completed_length in Hj.
    unfold sample_beta_candidate. destruct fs_axis as [-> _]. cbn [bind].
    rewrite (fs_search F j) by (auto; lia). cbn [bind]. rewrite map_length, Ec.
    destruct (around (- E_s / (k_B * T)) cut j
      (fun i => beta_evaluate (A := XRa) pa i (N.of_nat k) (Fin T))) as (A1 & A2 & A3 & A4); [lia| |].
    { intros i Hi. unfold beta_evaluate. rewrite evaluate_here by auto. reflexivity. }
    change (num XRa) with xr in *. change (nofZ XRa 0) with (Fin 0). change (nofZ XRa 1) with (Fin 1).
    assert (Eb : ndiv XRa (nopp XRa (Fin E_s)) (nmul XRa boltzmann (Fin T)) = Fin (- E_s / (k_B * T))).
    { assert (K : 0 < k_B) by apply k_B_pos. rewrite boltzmann_real.
      change (xdiv (Fin (- E_s)) (Fin (k_B * T)) = Fin (- E_s / (k_B * T))).
      unfold xdiv. rewrite Reqb_false by nra. reflexivity. }
    rewrite Eb.
    rewrite A1. cbn [bind]. rewrite A2. cbn [bind]. rewrite A3. cbn [bind]. rewrite A4. cbn [bind].
    set (f0 := nth j (0 :: Fs ++ [1]) 0) in *. set (f1 := nth (S j) (0 :: Fs ++ [1]) 0) in *.
    set (w0 := nth j (- E_s / (k_B * T) :: vs ++ [cut]) 0). set (w1 := nth (S j) (- E_s / (k_B * T) :: vs ++ [cut]) 0).
    clear A1 A2 A3 A4. clearbody f0 f1 w0 w1.
    cbn. unfold xsub. cbn. rewrite Reqb_false by lra. cbn. unfold chord. do 2 f_equal. field. lra.
  Qed.

  (** ** Probabilities from values *)

  Lemma cdf_curve (t : thermal XRa) cut a F : th_alpha_cutoff t = Fin cut ->
    increasing (0 :: vs ++ [cut]) -> joined (0 :: vs ++ [cut]) (0 :: Fs ++ [1]) a F ->
    find_cdf (A := XRa) t pa (N.of_nat k) (Fin T) (Fin a) = Ok (Fin F).
  Proof.
    intros Ec Inc (j & Hj & B & ->). destruct V as [Lv _].
    assert (Hj' : (j <= length Fs)%nat) by (cbn in Hj; rewrite app_length in Hj; cbn in Hj; lia).
    unfold find_cdf. destruct fs_axis as [-> _]. cbn [bind]. rewrite map_length, Ec.
    rewrite <- Lv at 1. rewrite (completed_search _ 0 vs cut a j); auto; [|intros|lia].
    2: { rewrite evaluate_here by lia. reflexivity. }
    cbn [bind].
    destruct (around 0 cut j (fun i => partition_evaluate (A := XRa) pa i (N.of_nat k) (Fin T)))
      as (A1 & A2 & A3 & A4); [lia|exact evaluate_here|].
    change (num XRa) with xr in *. change (nofZ XRa 0) with (Fin 0). change (nofZ XRa 1) with (Fin 1).
    rewrite A1. cbn [bind]. rewrite A2. cbn [bind]. rewrite A3. cbn [bind]. rewrite A4. cbn [bind].
    set (a0 := nth j (0 :: vs ++ [cut]) 0) in *. set (a1 := nth (S j) (0 :: vs ++ [cut]) 0) in *.
    set (w0 := nth j (0 :: Fs ++ [1]) 0). set (w1 := nth (S j) (0 :: Fs ++ [1]) 0).
    clear A1 A2 A3 A4. clearbody a0 a1 w0 w1.
    cbn. unfold xsub. cbn. rewrite Reqb_false by lra. cbn. unfold chord. do 2 f_equal. field. lra.
  Qed.
End Curve.

(** ** Curves through points *)

Lemma segment xs x : nth 0 xs 0 <= x < last xs 0 ->
  exists j, (S j < length xs)%nat /\ nth j xs 0 <= x < nth (S j) xs 0.
Proof.
  induction xs as [|a xs IH]; intros H; [cbn in H; lra|]. destruct xs as [|b xs]; [cbn in H; lra|].
  destruct (Rlt_dec x b) as [L|L].
  - exists O. cbn in *. split; [lia|lra].
  - destruct IH as (j & Hj & Bj). { cbn in *. lra. }
    exists (S j). split; [cbn in *; lia|exact Bj].
Qed.
Lemma joined_total xs ys x : nth 0 xs 0 <= x < last xs 0 -> exists y, joined xs ys x y.
Proof. intros H. destruct (segment xs x H) as (j & Hj & B). eexists. exists j. eauto. Qed.

Lemma nth_le l i j : increasing l -> (i <= j)%nat -> (j < length l)%nat -> nth i l 0 <= nth j l 0.
Proof.
  intros I H L. destruct (Nat.eq_dec i j) as [->|]; [lra|]. left. apply increasing_nth_lt; auto. lia.
Qed.
Lemma chord_between k0 v0 k1 v1 k : v0 < v1 -> k0 <= k < k1 -> v0 <= chord k0 v0 k1 v1 k < v1.
Proof.
  intros V K. unfold chord. set (w := (k - k0) / (k1 - k0)).
  assert (0 <= w < 1).
  { unfold w. split.
    - apply Rmult_le_pos; [lra|]. left. apply Rinv_0_lt_compat. lra.
    - apply (Rmult_lt_reg_r (k1 - k0)); [lra|]. unfold Rdiv. rewrite Rmult_assoc, Rinv_l by lra. lra. }
  nra.
Qed.

Section Joined.
  Context (xs ys : list R) (L : length xs = length ys) (Ix : increasing xs) (Iy : increasing ys).

  Lemma joined_inverse x y : joined xs ys x y -> joined ys xs y x.
  Proof.
    intros (j & Hj & B & ->). exists j.
    pose proof (increasing_nth_lt ys j (S j) Iy ltac:(lia)) as V. split; [lia|].
    split; [now apply chord_between|]. unfold chord. field. lra.
  Qed.
  Lemma joined_lt x y x' y' : joined xs ys x y -> joined xs ys x' y' -> x < x' -> y < y'.
  Proof.
    intros (j & Hj & B & ->) (j' & Hj' & B' & ->) Lt.
    pose proof (increasing_nth_lt ys j (S j) Iy ltac:(lia)) as V.
    pose proof (increasing_nth_lt ys j' (S j') Iy ltac:(lia)) as V'.
    destruct (Nat.lt_trichotomy j j') as [J|[<-|J]].
    - pose proof (chord_between _ _ _ _ x V B). pose proof (chord_between _ _ _ _ x' V' B').
      pose proof (nth_le ys (S j) j' Iy ltac:(lia) ltac:(lia)). lra.
    - unfold chord. apply Rplus_lt_compat_l, Rmult_lt_compat_l; [lra|].
      apply Rmult_lt_compat_r; [apply Rinv_0_lt_compat; lra|lra].
    - exfalso. pose proof (nth_le xs (S j') j Ix ltac:(lia) ltac:(lia)). lra.
  Qed.
  Lemma joined_range x y : joined xs ys x y -> nth 0 ys 0 <= y < last ys 0.
  Proof.
    intros (j & Hj & B & ->). pose proof (increasing_nth_lt ys j (S j) Iy ltac:(lia)) as V.
    pose proof (chord_between _ _ _ _ x V B). rewrite last_nth.
    pose proof (nth_le ys O j Iy ltac:(lia) ltac:(lia)).
    pose proof (nth_le ys (S j) (length ys - 1) Iy ltac:(lia) ltac:(lia)). lra.
  Qed.
End Joined.

Lemma last_completed (a : R) l b d : last (a :: l ++ [b]) d = b.
Proof. change (a :: l ++ [b]) with ((a :: l) ++ [b]). apply last_last. Qed.

Lemma C73_beta_proof :
  forall (G : Rng XRa) (t : thermal XRa) pa Fs grid Ts W k (T : R) vs (cut E_s : R) (s : rst G) n,
  valid_rng G ->
  (* a partition with the cumulative probabilities Fs, and its values at the k-th
     energy E_s and temperature T *)
  partition_table pa Fs grid Ts W -> (k < length grid)%nat -> increasing Ts -> 0 < T ->
  nth 0 Ts 0 <= T < last Ts 0 -> values_at W Fs Ts k T vs -> increasing (0 :: Fs ++ [1]) ->
  th_beta_cutoff t = Fin cut ->
  (* the candidate of C41 for the n-th random number u is the value of the completed
     curve at u *)
  exists u b, draw G n s = Fin u
    /\ joined (0 :: Fs ++ [1]) (- E_s / (k_B * T) :: vs ++ [cut]) u b
    /\ sample_beta_candidate (A := XRa) t pa (N.of_nat k) (Fin E_s) (Fin T) (draw G n s) = Ok (Fin b).
Proof.
  intros G t pa Fs grid Ts W k T vs cut E_s s n Hg P Hk IT HT BT V IF Ec.
  destruct (Hg (advance G n s)) as (u & Eu & Bu).
  destruct (joined_total (0 :: Fs ++ [1]) (- E_s / (k_B * T) :: vs ++ [cut]) u) as (b & J).
  { rewrite last_completed. cbn. lra. }
  exists u, b. split; [exact Eu|]. split; [exact J|]. unfold draw. rewrite Eu.
  eapply beta_curve; eauto.
Qed.

Lemma C73_alpha_proof :
  forall (G : Rng XRa) (t : thermal XRa) (p p1 : particle XRa G) pa Fs grid Ts W i k
    (awr T E b g b_s : R) vs cut u,
  valid_rng G -> th_awr t = Fin awr -> 0 < awr -> 0 < E -> 0 < T -> 0 <= E + b * k_B * T ->
  (* the grid transfer drawn, with the sign of b, and its tables *)
  choose_beta_index (A := XRa) t p (Fin b) (Fin E) (Fin T) = Ok (i, p1) ->
  vec_at (th_betas t) i = Ok (Fin g : num XRa) ->
  (0 < b /\ b_s = g) \/ (b < 0 /\ b_s = - g) \/ (b = 0 /\ b_s = 0) ->
  locate_partition (th_alpha_partitions t) (th_alpha_ends t) i = Ok (pa, N.of_nat k) ->
  partition_table pa Fs grid Ts W -> (k < length grid)%nat -> increasing Ts ->
  nth 0 Ts 0 <= T < last Ts 0 -> values_at W Fs Ts k T vs ->
  th_alpha_cutoff t = Fin cut ->
  increasing (0 :: Fs ++ [1]) -> increasing (0 :: vs ++ [cut]) ->
  (* the grid transfer is possible and its momentum transfers are tabulated *)
  0 < E + b_s * k_B * T ->
  let lo := alpha_min awr T E (E + b_s * k_B * T) in
  let hi := alpha_max awr T E (E + b_s * k_B * T) in
  hi < cut ->
  (* the next random number *)
  draw G 0 (p_rng p1) = Fin u -> 0 < u ->
  let cdf := joined (0 :: vs ++ [cut]) (0 :: Fs ++ [1]) in
  exists F_lo F_hi a, cdf lo F_lo /\ cdf hi F_hi
    (* picks a momentum transfer from the part of the distribution between the limits *)
    /\ lo < a < hi /\ cdf a (F_lo + u * (F_hi - F_lo))
    (* which is moved in proportion to the limits at b *)
    /\ let lo' := alpha_min awr T E (E + b * k_B * T) in
       let hi' := alpha_max awr T E (E + b * k_B * T) in
       sample_alpha (A := XRa) t p (Fin b) (Fin E) (Fin T)
       = Ok (Fin (lo' + (a - lo) * (hi' - lo') / (hi - lo)), set_rng p1 (advance G 1 (p_rng p1))).
Proof.
  intros G t p p1 pa Fs grid Ts W i k awr T E b g b_s vs cut u Hg Hw Pw PE PT Hb Ei Eg Hs El P Hk IT
    BT V Ec IF IV Hbs lo hi Hc Eu Pu cdf. cbv zeta.
  pose proof (akT_pos awr T Pw PT) as Pk. pose proof V as [Lv _].
  assert (Ls : length (0 :: vs ++ [cut]) = length (0 :: Fs ++ [1])) by (cbn; rewrite !app_length; cbn; lia).
  assert (U1 : u < 1) by (destruct (Hg (advance G 0 (p_rng p1))) as (v & Ev & Bv);
                          unfold draw in Eu; rewrite Ev in Eu; injection Eu as ->; lra).
  set (E' := E + b_s * k_B * T) in *.
  assert (SE : 0 < sqrt E) by now apply sqrt_lt_R0. assert (SE' : 0 < sqrt E') by now apply sqrt_lt_R0.
  assert (Blo : 0 <= lo).
  { unfold lo, alpha_min. apply Rmult_le_pos; [apply pow2_ge_0|]. left. now apply Rinv_0_lt_compat. }
  assert (Blh : lo < hi).
  { unfold lo, hi, alpha_min, alpha_max. apply Rmult_lt_compat_r; [now apply Rinv_0_lt_compat|]. nra. }
  destruct (joined_total (0 :: vs ++ [cut]) (0 :: Fs ++ [1]) lo) as (F0 & J0).
  { rewrite last_completed. cbn. lra. }
  destruct (joined_total (0 :: vs ++ [cut]) (0 :: Fs ++ [1]) hi) as (F1 & J1).
  { rewrite last_completed. cbn. lra. }
  pose proof (joined_lt _ _ Ls IV IF _ _ _ _ J0 J1 Blh) as LF.
  pose proof (joined_range _ _ Ls IF _ _ J0) as R0. pose proof (joined_range _ _ Ls IF _ _ J1) as R1.
  rewrite last_completed in R0, R1. cbn [nth] in R0, R1.
  set (F := F0 + u * (F1 - F0)). assert (BF : F0 < F < F1) by (unfold F; nra).
  destruct (joined_total (0 :: Fs ++ [1]) (0 :: vs ++ [cut]) F) as (a & Ja).
  { rewrite last_completed. cbn [nth]. lra. }
  pose proof (joined_inverse _ _ Ls IF _ _ J0) as K0. pose proof (joined_inverse _ _ Ls IF _ _ J1) as K1.
  assert (Ba : lo < a < hi).
  { split.
    - apply (joined_lt _ _ (eq_sym Ls) IF IV _ _ _ _ K0 Ja). lra.
    - apply (joined_lt _ _ (eq_sym Ls) IF IV _ _ _ _ Ja K1). lra. }
  exists F0, F1, a. split; [exact J0|]. split; [exact J1|]. split; [exact Ba|].
  split; [exact (joined_inverse _ _ (eq_sym Ls) IV _ _ Ja)|].
  unfold sample_alpha. rewrite Ei. cbn [bind]. rewrite Eg. cbn [bind].
  assert (Es : nmul XRa (nofZ XRa (sign_of (A := XRa) (Fin b))) (Fin g) = Fin b_s).
  { destruct Hs as [[S1 ->]|[[S1 ->]|[-> ->]]].
    - rewrite sign_pos by auto. change (Fin (1 * g) = Fin g). f_equal. lra.
    - rewrite sign_neg by auto. change (Fin (-1 * g) = Fin (- g)). f_equal. lra.
    - rewrite sign_zero. change (Fin (0 * g) = Fin 0). f_equal. lra. }
  rewrite Es, (alpha_limits_real t awr E T Hw Pw ltac:(lra) PT b_s) by (fold E'; lra).
  fold E'. fold lo hi. rewrite El. cbn [bind].
  rewrite (cdf_curve pa Fs grid Ts W P IT k Hk T BT vs V t cut lo F0 Ec IV J0). cbn [bind].
  rewrite (cdf_curve pa Fs grid Ts W P IT k Hk T BT vs V t cut hi F1 Ec IV J1). cbn [bind].
  change alpha_resample_limit with 10%nat. cbn [sample_alpha_loop].
  unfold p_unif. unfold draw in Eu. cbn [advance] in Eu. destruct (runif G (p_rng p1)) as [u' s'] eqn:Er.
  cbn [fst] in Eu. subst u'.
  change (nadd XRa (Fin F0) (nmul XRa (Fin u) (nsub XRa (Fin F1) (Fin F0)))) with (Fin F).
  rewrite (alpha_curve pa Fs grid Ts W P IT k Hk T BT vs V t cut F a Ec IF Ja). cbn [bind].
  change (nltb XRa (Fin lo) (Fin a)) with (Rltb lo a). change (nltb XRa (Fin a) (Fin hi)) with (Rltb a hi).
  rewrite !Rltb_true by lra. cbn [andb].
  rewrite (alpha_limits_real t awr E T Hw Pw ltac:(lra) PT b Hb).
  set (l' := alpha_min awr T E (E + b * k_B * T)). set (h' := alpha_max awr T E (E + b * k_B * T)).
  cbn [advance]. rewrite Er. cbn [snd].
  change (Ok (xadd (Fin l') (xdiv (Fin ((a - lo) * (h' - l'))) (Fin (hi - lo))), set_rng p1 s')
    = Ok (Fin (l' + (a - lo) * (h' - l') / (hi - lo)), set_rng p1 s')).
  rewrite xdiv_fin by lra. reflexivity.
Qed.

Lemma toy_choice : choose_beta_index (A := XRa) (toy 0 [0; 1]) toy_particle (Fin 0) (Fin (1 / 2)) (Fin T_one)
  = Ok (0%N, toy_particle).
Proof.
  destruct (C43_beta_grid_point_partial_proof half_rng (toy 0 [0; 1]) toy_particle [0; 1] 0 (1 / 2) T_one 0
    eq_refl ltac:(cbn; lra) ltac:(cbn; lia) (open_valid _ half_open) T_one_pos ltac:(cbn; lia)
    ltac:(rewrite Rabs_R0; cbn; lra)) as (u & i & q & Eu & _ & Ec & _ & _ & H & _).
  rewrite half_draw in Eu. apply Fin_inj in Eu. subst u.
  assert (i = O) as ->.
  { apply H; [|rewrite Rabs_R0; cbn; lra]. intros [[]|[]]; lra. }
  assert (q = toy_particle) as ->; auto.
  unfold choose_beta_index in Ec. apply bind_ok in Ec as (x & _ & Ec). apply bind_ok in Ec as (y & _ & Ec).
  rewrite half_unif in Ec. congruence.
Qed.
