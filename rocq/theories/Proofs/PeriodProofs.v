(** The period of the random number generator and the generators of histories:
    C59 and C60. *)
From Coq Require Import List Bool ZArith NArith Reals Lra Lia Psatz Znumtheory Zpow_facts FinFun.
From Verif Require Import Model.Num Model.Outcome Model.Rng Model.Std Model.Types Model.Point
  Model.Particle Model.Driver Spec.RngSpec Proofs.RealLib Proofs.RngProofs.
Import ListNotations.
Local Open Scope Z_scope.

(** ** Powers of the multiplier *)
Definition order : Z := 2147483646.
Lemma order_factors : order = 2 * 3 * 3 * 7 * 11 * 31 * 151 * 331.
Proof. reflexivity. Qed.
Definition factors : list Z := [2; 3; 7; 11; 31; 151; 331].

Lemma small_prime p : 1 < p ->
  forallb (fun k => Z.gcd (Z.of_nat k) p =? 1) (seq 1 (Z.to_nat p - 1)) = true -> prime p.
Proof.
  intros H F. constructor; [lia|]. intros n Hn. apply Zgcd_1_rel_prime.
  rewrite forallb_forall in F. specialize (F (Z.to_nat n)).
  rewrite Z2Nat.id in F by lia. apply Z.eqb_eq, F. apply in_seq. lia.
Qed.
Lemma factors_prime q : In q factors -> prime q.
Proof.
  unfold factors. cbn [In]. intros H.
  repeat (destruct H as [<-|H]; [apply small_prime; [lia|vm_compute; reflexivity]|]). easy.
Qed.
Lemma power_not_one q : In q factors -> minstd_a ^ (order / q) mod minstd_m <> 1.
Proof.
  unfold factors. cbn [In]. intros H.
  repeat (destruct H as [<-|H];
    [rewrite <- Zpow_mod_correct by (unfold minstd_m; lia); vm_compute; discriminate|]). easy.
Qed.
Lemma power_order : minstd_a ^ order mod minstd_m = 1.
Proof. rewrite <- Zpow_mod_correct by (unfold minstd_m; lia). vm_compute. reflexivity. Qed.

Lemma a_divisor c : (c | order) -> 1 < c -> exists q, In q factors /\ (q | c).
Proof.
  intros D H.
  destruct (Exists_dec (fun q => (q | c)) factors (fun q => Zdivide_dec q c)) as [E|E].
  - apply Exists_exists in E as (q & Hq & D'). eauto.
  - exfalso. assert (R : forall q, In q factors -> rel_prime c q).
    { intros q Hq. apply rel_prime_sym. apply prime_rel_prime; [now apply factors_prime|].
      intros D'. apply E. apply Exists_exists. eauto. }
    assert (R' : rel_prime c order).
    { rewrite order_factors. repeat apply rel_prime_mult; apply R; unfold factors; cbn; tauto. }
    assert (c | 1).
    { apply R'; [apply Z.divide_refl|exact D]. }
    apply Z.divide_1_r in H0. lia.
Qed.

(** Exponents that give one. *)
Definition unit_exp (n : Z) : Prop := minstd_a ^ n mod minstd_m = 1.
Lemma unit_order : unit_exp order.
Proof. exact power_order. Qed.
Opaque Z.pow.
Lemma unit_zero : unit_exp 0.
Proof. unfold unit_exp. rewrite Z.pow_0_r. reflexivity. Qed.
Lemma unit_add n k : 0 <= n -> 0 <= k -> unit_exp n -> unit_exp (n + k) <-> unit_exp k.
Proof.
  unfold unit_exp. intros Hn Hk E. rewrite Z.pow_add_r by lia.
  rewrite Z.mul_mod, E, Z.mul_1_l, Z.mod_mod by (unfold minstd_m; lia). tauto.
Qed.
Lemma unit_mul n k : 0 <= n -> 0 <= k -> unit_exp n -> unit_exp (k * n).
Proof.
  intros Hn Hk E. revert k Hk. apply natlike_ind.
  - apply unit_zero.
  - intros k Hk IH. replace (Z.succ k * n) with (n + k * n) by lia. apply unit_add; auto. lia.
Qed.
Lemma unit_gcd n : 0 < n -> unit_exp n -> unit_exp (Z.gcd n order).
Proof.
  intros Hn E. set (g := Z.gcd n order).
  assert (Hg : 0 <= g) by apply Z.gcd_nonneg.
  assert (Hgn : g <= n) by (apply Z.divide_pos_le; [lia|apply Z.gcd_divide_l]).
  destruct (Zis_gcd_bezout n order g) as [u v Euv]. 
  { apply Zgcd_is_gcd. }
  set (u' := u mod order + order).
  assert (Hu : order <= u') by (unfold u'; pose proof (Z.mod_pos_bound u order eq_refl); lia).
  assert (Hw : exists w, u' * n = w * order + g).
  { exists (n - v - (u / order) * n). unfold u'.
    pose proof (Z.div_mod u order ltac:(discriminate)).
    replace (u mod order) with (u - order * (u / order)) by lia. nia. }
  destruct Hw as (w & Ew).
  assert (0 < order) by reflexivity.
  assert (Hw : 0 <= w) by nia.
  assert (Eu : unit_exp (u' * n)) by (apply unit_mul; auto; lia).
  rewrite Ew in Eu. apply unit_add in Eu; auto; try nia.
  apply unit_mul; [lia|exact Hw|exact unit_order].
Qed.

Lemma unit_exp_order n : 0 <= n -> unit_exp n <-> (order | n).
Proof.
  intros Hn. split.
  - intros E. destruct (Z.eq_dec n 0) as [->|Nz]; [apply Z.divide_0_r|].
    apply unit_gcd in E; [|lia].
    destruct (Z.gcd_divide_r n order) as (c & Ec). set (g := Z.gcd n order) in *.
    assert (Hg : 0 <= g) by apply Z.gcd_nonneg.
    assert (0 < order) by reflexivity.
    assert (Hc : 0 < c) by nia.
    destruct (Z.eq_dec c 1) as [->|Nc].
    + replace order with g by lia. apply Z.gcd_divide_l.
    + exfalso. destruct (a_divisor c) as (q & Hq & (d & Ed)); [exists g; lia|lia|].
      apply (power_not_one q Hq).
      pose proof (factors_prime q Hq) as Pq. destruct Pq as [Pq _].
      assert (order / q = d * g) as ->.
      { rewrite Ec, Ed. replace (d * q * g) with (d * g * q) by ring. apply Z.div_mul. lia. }
      apply unit_mul; auto. nia.
  - intros (k & ->). assert (0 < order) by reflexivity.
    apply unit_mul; [lia|nia|exact unit_order].
Qed.

(** ** Counting *)
Lemma onto_range (M : N) (f : N -> Z) :
  (forall i, (i < M)%N -> 1 <= f i <= Z.of_N M) ->
  (forall i j, (i < M)%N -> (j < M)%N -> f i = f j -> i = j) ->
  forall x, 1 <= x <= Z.of_N M -> exists i, (i < M)%N /\ f i = x.
Proof.
  intros R I x Hx.
  set (dom := map N.of_nat (seq 0 (N.to_nat M))).
  assert (Dom : forall i, In i dom <-> (i < M)%N).
  { intros i. unfold dom. rewrite in_map_iff. split.
    - intros (k & <- & Hk). apply in_seq in Hk. lia.
    - intros Hi. exists (N.to_nat i). split; [lia|]. apply in_seq. lia. }
  set (cod := map (fun k => Z.of_nat k) (seq 1 (N.to_nat M))).
  assert (Nd : NoDup (map f dom)).
  { assert (Nd0 : NoDup dom).
    { unfold dom. apply FinFun.Injective_map_NoDup; [intros a b; lia|apply seq_NoDup]. }
    clear - I Dom Nd0.
    assert (S : forall i, In i dom -> (i < M)%N) by (intros; now apply Dom). clear Dom.
    induction Nd0 as [|i l Hi Nl IH]; cbn; constructor.
    - intros Hin. apply in_map_iff in Hin as (j & E & Hj).
      apply I in E; [|apply S; now right|apply S; now left]. congruence.
    - apply IH. intros; apply S; now right. }
  assert (Inc : incl (map f dom) cod).
  { intros y Hy. apply in_map_iff in Hy as (i & <- & Hi). apply Dom in Hi. specialize (R i Hi).
    unfold cod. apply in_map_iff. exists (Z.to_nat (f i)). split; [lia|]. apply in_seq. lia. }
  assert (Len : (length cod <= length (map f dom))%nat).
  { unfold cod, dom. rewrite !map_length, !seq_length. lia. }
  pose proof (NoDup_length_incl Nd Len Inc) as Back.
  destruct (proj1 (in_map_iff f dom x)) as (i & E & Hi).
  { apply Back. unfold cod. apply in_map_iff. exists (Z.to_nat x). split; [lia|]. apply in_seq. lia. }
  exists i. split; auto. now apply Dom.
Qed.

(** ** States *)
Definition iterated (n : N) (x : Z) : Z := N.iter n minstd_next x.
Lemma iterated_power n : forall x, 1 <= x <= 2147483646 ->
  iterated n x = (minstd_a ^ Z.of_N n * x) mod minstd_m.
Proof.
  unfold iterated. induction n as [|n IH] using N.peano_ind; intros x Hx.
  - cbn [N.iter]. change (Z.of_N 0) with 0. rewrite Z.pow_0_r, Z.mul_1_l.
    rewrite Z.mod_small by (unfold minstd_m; lia). reflexivity.
  - rewrite N.iter_succ, IH by auto. unfold minstd_next at 1.
    rewrite N2Z.inj_succ, Z.pow_succ_r by lia.
    rewrite Z.mul_mod_idemp_r by (unfold minstd_m; lia). f_equal. ring.
Qed.
Lemma iterated_in n x : 1 <= x <= 2147483646 -> 1 <= iterated n x <= 2147483646.
Proof.
  intros Hx. unfold iterated. induction n as [|n IH] using N.peano_ind; [exact Hx|].
  rewrite N.iter_succ. apply minstd_in_spec, minstd_next_in. now apply minstd_in_spec.
Qed.
Lemma iterated_inj n x y : 1 <= x <= 2147483646 -> 1 <= y <= 2147483646 ->
  iterated n x = iterated n y -> x = y.
Proof.
  intros Hx Hy. unfold iterated. induction n as [|n IH] using N.peano_ind; [auto|].
  rewrite !N.iter_succ. intros E. apply IH.
  apply minstd_next_inj; auto; now apply iterated_in.
Qed.
Lemma iterated_add n k x : iterated (n + k) x = iterated n (iterated k x).
Proof. unfold iterated. now rewrite N.iter_add. Qed.

Lemma power_reaches x : 1 <= x <= 2147483646 -> exists n, (n < 2147483646)%N /\ iterated n 1 = x.
Proof.
  assert (O : order = 2147483646) by reflexivity.
  intros Hx. apply (onto_range 2147483646 (fun n => iterated n 1)).
  - intros i _. apply iterated_in. lia.
  - assert (K : forall i j, (i <= j)%N -> (j < 2147483646)%N -> iterated i 1 = iterated j 1 -> i = j).
    { intros i j Lij Hj E.
      assert (E' : iterated (j - i) 1 = 1).
      { apply (iterated_inj i); [apply iterated_in; lia|lia|].
        rewrite <- iterated_add. replace (i + (j - i))%N with j by lia. auto. }
      rewrite iterated_power, Z.mul_1_r in E' by lia.
      apply unit_exp_order in E'; [|lia]. destruct E' as (c & Ec). rewrite O in Ec. nia. }
    intros i j Hi Hj E. destruct (N.le_ge_cases i j); [|symmetry]; apply K; auto.
  - lia.
Qed.

Lemma period x n : 1 <= x <= 2147483646 -> iterated n x = x <-> (2147483646 | n)%N.
Proof.
  intros Hx. destruct (power_reaches x Hx) as (k & Hk & <-).
  rewrite <- iterated_add, N.add_comm, iterated_add.
  split.
  - intros E. apply iterated_inj in E; [|apply iterated_in; lia|lia].
    rewrite iterated_power, Z.mul_1_r in E by lia.
    apply unit_exp_order in E; [|lia]. destruct E as (c & Ec).
    exists (Z.to_N c). change order with 2147483646 in Ec. nia.
  - intros (c & ->). f_equal. rewrite iterated_power, Z.mul_1_r by lia.
    apply unit_exp_order; [lia|]. exists (Z.of_N c). change order with 2147483646. lia.
Qed.

(** ** C60 *)
Lemma C60_range_proof :
  forall (seed : Z) (n : N), (1 <= N.iter n minstd_next (minstd_seed seed) <= 2147483646)%Z.
Proof.
  intros seed n. apply iterated_in. apply minstd_in_spec, minstd_seed_in.
Qed.
Lemma after_raw_val (A : Arith) n (s : rst (Minstd A)) :
  ms_val (after_raw (Minstd A) n s) = iterated n (ms_val s).
Proof.
  unfold after_raw, iterated. induction n as [|n IH] using N.peano_ind; [reflexivity|].
  rewrite !N.iter_succ, <- IH. reflexivity.
Qed.
Lemma C60_injective_proof :
  forall (A : Arith) (s t : rst (Minstd A)),
  snd (rraw (Minstd A) s) = snd (rraw (Minstd A) t) -> s = t.
Proof.
  intros A [x Hx] [y Hy] E. apply ms_eq. cbn in *. apply (f_equal ms_val) in E. cbn in E.
  apply minstd_next_inj; auto; now apply minstd_in_spec.
Qed.
Lemma C60_period_proof :
  forall (A : Arith) (s : rst (Minstd A)) (n : N),
  after_raw (Minstd A) n s = s <-> (2147483646 | n)%N.
Proof.
  intros A [x Hx] n. rewrite <- (period x n) by now apply minstd_in_spec.
  split.
  - intros E. apply (f_equal ms_val) in E. rewrite after_raw_val in E. exact E.
  - intros E. apply ms_eq. rewrite after_raw_val. exact E.
Qed.
Lemma C60_every_state_proof :
  forall (A : Arith) (s t : rst (Minstd A)), exists n : N,
  (n < 2147483646)%N /\ after_raw (Minstd A) n s = t.
Proof.
  intros A [x Hx] [y Hy]. apply minstd_in_spec in Hx as Rx. apply minstd_in_spec in Hy as Ry.
  destruct (power_reaches x Rx) as (i & Hi & Ei). destruct (power_reaches y Ry) as (j & Hj & Ej).
  set (n := ((j + (2147483646 - i)) mod 2147483646)%N).
  assert (Hn : (n < 2147483646)%N) by (apply N.mod_lt; discriminate).
  exists n. split; [exact Hn|]. apply ms_eq. rewrite after_raw_val. cbn [ms_val].
  rewrite <- Ei, <- iterated_add, <- Ej.
  assert (Q : exists c, (n + i + c * 2147483646 = j + 2147483646)%N).
  { exists ((j + (2147483646 - i)) / 2147483646)%N. unfold n.
    pose proof (N.div_mod (j + (2147483646 - i)) 2147483646 ltac:(discriminate)). lia. }
  destruct Q as (c & Ec).
  assert (P1 : forall z, 1 <= z <= 2147483646 -> forall d, iterated (d * 2147483646) z = z).
  { intros z Hz d. apply period; auto. exists d. reflexivity. }
  rewrite <- (P1 (iterated (n + i) 1)) with (d := c) by (apply iterated_in; lia).
  rewrite <- iterated_add.
  rewrite <- (P1 (iterated j 1)) with (d := 1%N) by (apply iterated_in; lia).
  rewrite <- iterated_add. f_equal. lia.
Qed.
Lemma C60_uniform_proof :
  forall s : rst (Minstd XRa), exists u, fst (runif (Minstd XRa) s) = Fin u /\ (0 < u < 1)%R.
Proof. exact minstd_open. Qed.

(** ** C59 *)
Lemma start_state (A : Arith) (so : source A) : exists k : N, forall seed : Z,
  ms_val (p_rng (source_sample (G := Minstd A) so seed)) = iterated k (minstd_seed seed).
Proof.
  assert (Seed : forall x, minstd_in x = true -> minstd_seed x = x).
  { intros x Hx. apply minstd_in_spec in Hx. unfold minstd_seed, minstd_m.
    rewrite Z.mod_small by lia. destruct (Z.eqb_spec x 0); lia. }
  destruct so as [pos [d| |r] e t].
  - exists 1%N. intros seed. unfold source_sample. cbn [so_direction sample_direction rraw Minstd fst snd].
    cbn [new_particle p_rng rseed Minstd ms_val ms_seed]. apply Seed, minstd_next_in, minstd_seed_in.
  - exists 5%N. intros seed. unfold source_sample. cbn [so_direction sample_direction].
    unfold dir_isotropic, uniform. cbn [runif rraw Minstd fst snd].
    cbn [new_particle p_rng rseed Minstd ms_val ms_seed ms_next]. apply Seed.
    repeat apply minstd_next_in. apply minstd_seed_in.
  - exists 5%N. intros seed. unfold source_sample. cbn [so_direction sample_direction].
    unfold uniform. cbn [runif rraw Minstd fst snd].
    cbn [new_particle p_rng rseed Minstd ms_val ms_seed ms_next]. apply Seed.
    repeat apply minstd_next_in. apply minstd_seed_in.
Qed.

Lemma start_same (A : Arith) (dr : @driver A) i j :
  p_rng (history_start (G := Minstd A) dr i) = p_rng (history_start (G := Minstd A) dr j)
  <-> minstd_seed (Z.of_N (history_seed dr i)) = minstd_seed (Z.of_N (history_seed dr j)).
Proof.
  destruct (start_state A (dr_source dr)) as (k & Hk). unfold history_start. split.
  - intros E. apply (f_equal ms_val) in E. rewrite !Hk in E.
    apply iterated_inj in E; auto; apply minstd_in_spec, minstd_seed_in.
  - intros E. apply ms_eq. rewrite !Hk. congruence.
Qed.

Lemma C59_collisions_proof :
  forall (A : Arith) (dr : @driver A) (i j : N),
  (dr_seed dr + dr_batchsize dr <= 2 ^ 64)%N -> (dr_batchsize dr <= 2147483646)%N ->
  (i < j)%N -> (j < dr_batchsize dr)%N ->
  p_rng (history_start (G := Minstd A) dr i) = p_rng (history_start (G := Minstd A) dr j)
  <-> (j = i + 1 /\ (dr_seed dr + i) mod 2147483647 = 0)%N.
Proof.
  intros A dr i j S B Lij Hj. rewrite start_same. unfold history_seed, wrap64.
  rewrite !N.mod_small by lia. set (s := dr_seed dr) in *.
  unfold minstd_seed, minstd_m. change 2147483647 with (Z.of_N 2147483647).
  rewrite <- (N2Z.inj_mod (s + i) 2147483647).
  rewrite <- (N2Z.inj_mod (s + j) 2147483647).
  pose proof (N.div_mod (s + i) 2147483647 ltac:(discriminate)) as Di.
  pose proof (N.div_mod (s + j) 2147483647 ltac:(discriminate)) as Dj.
  pose proof (N.mod_lt (s + i) 2147483647 ltac:(discriminate)) as Mi.
  pose proof (N.mod_lt (s + j) 2147483647 ltac:(discriminate)) as Mj.
  remember ((s + i) mod 2147483647)%N as ri. remember ((s + j) mod 2147483647)%N as rj.
  remember ((s + i) / 2147483647)%N as qi. remember ((s + j) / 2147483647)%N as qj.
  clear Heqri Heqrj Heqqi Heqqj.
  destruct (Z.eqb_spec (Z.of_N ri) 0); destruct (Z.eqb_spec (Z.of_N rj) 0); nia.
Qed.

Lemma C59_distinct_partial_proof :
  forall (A : Arith) (dr : @driver A) (i j : N),
  (1 <= dr_seed dr)%N -> (dr_seed dr + dr_batchsize dr <= 2147483647)%N ->
  (i < dr_batchsize dr)%N -> (j < dr_batchsize dr)%N -> i <> j ->
  p_rng (history_start (G := Minstd A) dr i) <> p_rng (history_start (G := Minstd A) dr j).
Proof.
  intros A dr i j S B Hi Hj Nij E.
  assert (K : forall i j, (i < j)%N -> (j < dr_batchsize dr)%N ->
    p_rng (history_start (G := Minstd A) dr i) <> p_rng (history_start (G := Minstd A) dr j)).
  { clear i j Hi Hj Nij E. intros i j Lij Hj E. apply C59_collisions_proof in E as [_ E]; try lia.
    rewrite N.mod_small in E by lia. lia. }
  destruct (N.lt_trichotomy i j) as [L|[L|L]]; [|contradiction|].
  - exact (K i j L Hj E).
  - exact (K j i L Hi (eq_sym E)).
Qed.

Lemma C59_lockstep_proof :
  forall (A : Arith) (dr : @driver A),
  (1 <= dr_seed dr)%N -> (dr_seed dr + dr_batchsize dr <= 2147483647)%N ->
  let raw (n : N) (i : N) : Z :=
    fst (rraw (Minstd A) (after_raw (Minstd A) n (p_rng (history_start (G := Minstd A) dr i)))) in
  forall n : N, exists step : Z, (1 <= step < 2147483647)%Z
  /\ forall i j : N, (i < dr_batchsize dr)%N -> (j < dr_batchsize dr)%N ->
     ((raw n j - raw n i) mod 2147483647 = (step * (Z.of_N j - Z.of_N i)) mod 2147483647)%Z.
Proof.
  intros A dr S B raw n. destruct (start_state A (dr_source dr)) as (k & Hk).
  exists (iterated (1 + n + k) 1).
  assert (R1 : 1 <= iterated (1 + n + k) 1 <= 2147483646) by (apply iterated_in; lia).
  split; [lia|].
  assert (P : forall i, (i < dr_batchsize dr)%N ->
    raw n i = (iterated (1 + n + k) 1 * Z.of_N (dr_seed dr + i)) mod 2147483647).
  { intros i Hi. unfold raw. cbn [rraw Minstd fst].
    change (minstd_next ?x) with (iterated 1 x). rewrite after_raw_val. unfold history_start.
    rewrite Hk, <- !iterated_add. unfold history_seed, wrap64. rewrite N.mod_small by lia.
    unfold minstd_seed, minstd_m. rewrite Z.mod_small by lia.
    destruct (Z.eqb_spec (Z.of_N (dr_seed dr + i)) 0); [lia|].
    replace (1 + (n + k))%N with (1 + n + k)%N by lia.
    rewrite !iterated_power by lia. rewrite Z.mul_1_r.
    rewrite Z.mul_mod_idemp_l by lia. reflexivity. }
  intros i j Hi Hj. rewrite (P i Hi), (P j Hj). rewrite <- Zminus_mod. f_equal. lia.
Qed.
