(** The workers of the fixed-source solver: C56 and C57. *)
From Coq Require Import Bool String List Reals ZArith NArith Lra Lia Permutation.
From Verif Require Import Model.Num Model.Outcome Model.Rng Model.Xml Model.Std Model.Types
  Model.Bins Model.Particle Model.World Model.Perturbation Model.Estimator Model.Transport
  Model.Driver Spec.SumSpec Spec.HistorySpec Spec.EstimatorSpec Spec.SolverSpec
  Proofs.OutcomeLib Proofs.RealLib Proofs.FuelProofs Proofs.HistoryProofs Proofs.EstimatorProofs
  Proofs.TallyProofs Proofs.MergeProofs Proofs.BinsProofs.
Import ListNotations.

Lemma below_succ n : below (N.succ n) = (below n ++ [n])%list.
Proof.
  unfold below. rewrite N2Nat.inj_succ, seq_S, map_app. cbn. now rewrite N2Nat.id.
Qed.
Lemma in_below n x : In x (below n) <-> (x < n)%N.
Proof.
  unfold below. rewrite in_map_iff. split.
  - intros (i & <- & H). apply in_seq in H. lia.
  - intros H. exists (N.to_nat x). split; [apply N2Nat.id|]. apply in_seq. lia.
Qed.

(** ** Lists *)
Lemma update_length {V} (v : V) : forall l i, length (update_nth i v l) = length l.
Proof. induction l as [|x l IH]; intros [|i]; cbn; auto. Qed.
Lemma update_same {V} (v x : V) : forall l i, nth_error l i = Some x ->
  nth_error (update_nth i v l) i = Some v.
Proof. induction l as [|y l IH]; intros [|i] H; try discriminate; cbn in *; auto. Qed.
Lemma update_other {V} (v : V) : forall l i j, i <> j ->
  nth_error (update_nth i v l) j = nth_error l j.
Proof. induction l as [|y l IH]; intros [|i] [|j] H; cbn; auto; congruence. Qed.
Lemma update_Forall2 {V W} (Q : V -> W -> Prop) v' w' : forall l l' i v w,
  Forall2 Q l l' -> nth_error l i = Some v -> nth_error l' i = Some w -> Q v' w' ->
  Forall2 Q (update_nth i v' l) (update_nth i w' l').
Proof.
  intros l l' i v w H. revert i. induction H; intros [|i] E E' Hq; try discriminate; cbn in *;
    constructor; eauto.
Qed.
Lemma update_id {V} (v : V) : forall l i, nth_error l i = Some v -> update_nth i v l = l.
Proof. induction l as [|y l IH]; intros [|i] H; try discriminate; cbn in *; f_equal; auto; congruence. Qed.
Lemma Forall2_nth {V W} (Q : V -> W -> Prop) : forall l l' i v,
  Forall2 Q l l' -> nth_error l i = Some v -> exists w, nth_error l' i = Some w /\ Q v w.
Proof.
  intros l l' i v H. revert i. induction H; intros [|i] E; try discriminate; cbn in *; eauto.
  injection E as <-. eauto.
Qed.
Lemma concat_update {V} (h : V) : forall ls i l, nth_error ls i = Some l ->
  Permutation (concat (update_nth i (l ++ [h])%list ls)) (concat ls ++ [h])%list.
Proof.
  induction ls as [|x ls IH]; intros [|i] l E; try discriminate; cbn in *.
  - injection E as <-. rewrite <- !app_assoc. apply Permutation_app_head, Permutation_app_comm.
  - rewrite <- app_assoc. apply Permutation_app_head. auto.
Qed.

Section Invariant.
  Context {A : Arith} {G : Rng A}.
  Variable dr : @driver A.
  Variable fuel : nat.
  (** [P e l]: the estimators [e] hold the histories [l]. *)
  Variable P : estimator_set A -> list N -> Prop.
  Hypothesis P_init : P (dr_init dr) [].
  Hypothesis P_run : forall e l h e', P e l -> run_history (G := G) dr fuel e h = Ok e' ->
    P e' (l ++ [h])%list.
  Hypothesis few : (dr_batchsize dr + dr_threads dr <= 2 ^ 64)%N.
  Notation step := (solver_step (G := G) dr fuel).

  Definition holds (wk : @worker A) (l : list N) : Prop :=
    match wk with
    | Idle e | Done e => P e l
    | Busy e h => exists l', l = (l' ++ [h])%list /\ P e l'
    | Failed o => exists e l' h, l = (l' ++ [h])%list /\ P e l'
                   /\ run_history (G := G) dr fuel e h = o /\ forall r, o <> Ok r
    end.
  Definition is_done (wk : @worker A) : bool := match wk with Done _ => true | _ => false end.
  Definition dones (ws : list (@worker A)) : nat := length (filter is_done ws).

  Lemma dones_update wk' : forall ws i wk, nth_error ws i = Some wk -> is_done wk = false ->
    dones (update_nth i wk' ws) = (dones ws + if is_done wk' then 1 else 0)%nat.
  Proof.
    unfold dones. induction ws as [|x ws IH]; intros [|i] wk E F; try discriminate; cbn in *.
    - injection E as ->. rewrite F. destruct (is_done wk'); cbn; lia.
    - specialize (IH i wk E F). destruct (is_done x); cbn; lia.
  Qed.
  Lemma dones_lt : forall ws i wk, nth_error ws i = Some wk -> is_done wk = false ->
    (dones ws < length ws)%nat.
  Proof.
    unfold dones. induction ws as [|x ws IH]; intros [|i] wk E F; try discriminate; cbn in *.
    - injection E as ->. rewrite F. pose proof (filter_length_le is_done ws). lia.
    - specialize (IH i wk E F). destruct (is_done x); cbn; lia.
  Qed.

  Record inv (sv : @solver A) (k : N) (ls : list (list N)) : Prop := mkInv {
    iv_holds : Forall2 holds (sv_workers sv) ls;
    iv_perm : Permutation (concat ls) (below k);
    iv_le : (k <= dr_batchsize dr)%N;
    iv_done : (0 < dones (sv_workers sv))%nat -> k = dr_batchsize dr;
    iv_counter : sv_counter sv = (k + N.of_nat (dones (sv_workers sv)))%N \/
      (k + N.of_nat (dones (sv_workers sv)) = 2 ^ 64)%N;
    iv_length : length (sv_workers sv) = N.to_nat (dr_threads dr)
  }.

  Lemma holds_repeat n : Forall2 holds (repeat (Idle (dr_init dr)) n) (repeat [] n).
  Proof. induction n; cbn; constructor; auto. Qed.
  Lemma concat_repeat n : concat (repeat (@nil N) n) = [].
  Proof. induction n; cbn; auto. Qed.
  Lemma dones_repeat n : dones (repeat (Idle (dr_init dr)) n) = 0%nat.
  Proof. unfold dones. induction n; cbn; auto. Qed.

  Lemma inv_start : exists ls, inv (solver_start dr 0) 0 ls.
  Proof.
    exists (repeat [] (N.to_nat (dr_threads dr))). constructor; cbn [sv_workers sv_counter solver_start].
    - apply holds_repeat.
    - now rewrite concat_repeat.
    - lia.
    - rewrite dones_repeat. lia.
    - rewrite dones_repeat. left. reflexivity.
    - apply repeat_length.
  Qed.

  Lemma inv_step sv k ls i : inv sv k ls ->
    exists k' ls', inv (step sv i) k' ls' /\
      below k' = (below k ++ start_of i sv (step sv i))%list.
  Proof.
    intros I. unfold solver_step, start_of.
    destruct (nth_error (sv_workers sv) i) as [wk|] eqn:E.
    2: { exists k, ls. split; [exact I|]. now rewrite app_nil_r. }
    destruct (Forall2_nth holds _ _ _ _ (iv_holds _ _ _ I) E) as (l & El & H).
    assert (L : (i < length (sv_workers sv))%nat) by (apply nth_error_Some; congruence).
    pose proof (iv_length _ _ _ I) as Len.
    destruct wk as [e|e h|e|o]; cbn [worker_step].
    - pose proof (dones_lt _ _ _ E eq_refl) as D. rewrite Len in D.
      destruct (iv_counter _ _ _ I) as [C|C]; [|pose proof (iv_le _ _ _ I); lia].
      pose proof (iv_le _ _ _ I) as K.
      destruct (N.leb_spec (dr_batchsize dr) (sv_counter sv)) as [B|B]; cbn [sv_workers].
      + exists k, ls. rewrite update_same with (x := Idle e) by exact E.
        split; [|now rewrite app_nil_r].
        assert (k = dr_batchsize dr) as Ek.
        { destruct (Nat.eq_dec (dones (sv_workers sv)) 0) as [Z|Z].
          - rewrite Z in C. lia.
          - apply (iv_done _ _ _ I). lia. }
        constructor; cbn [sv_workers sv_counter]; try (apply I).
        * rewrite <- (update_id l ls i El). eapply update_Forall2; eauto. apply (iv_holds _ _ _ I).
        * intros _. exact Ek.
        * rewrite (dones_update _ _ _ _ E) by reflexivity. cbn [is_done].
          rewrite C. unfold wrap64.
          destruct (N.eq_dec (k + N.of_nat (dones (sv_workers sv)) + 1) (2 ^ 64)) as [W|W].
          -- right. lia.
          -- left. rewrite N.mod_small by lia. lia.
        * now rewrite update_length.
      + assert (D0 : dones (sv_workers sv) = 0%nat).
        { destruct (Nat.eq_dec (dones (sv_workers sv)) 0) as [Z|Z]; auto.
          assert (k = dr_batchsize dr) by (apply (iv_done _ _ _ I); lia). lia. }
        rewrite D0 in C. assert (sv_counter sv = k) as Ck by lia. rewrite Ck in *.
        exists (N.succ k), (update_nth i (l ++ [k])%list ls).
        rewrite update_same with (x := Idle e) by exact E.
        split; [|apply below_succ].
        constructor; cbn [sv_workers sv_counter].
        * eapply update_Forall2; eauto; [apply (iv_holds _ _ _ I)|]. cbn. eauto.
        * rewrite below_succ, concat_update by exact El.
          apply Permutation_app_tail, (iv_perm _ _ _ I).
        * lia.
        * rewrite (dones_update _ _ _ _ E) by reflexivity. cbn. lia.
        * rewrite (dones_update _ _ _ _ E) by reflexivity. cbn [is_done]. left.
          unfold wrap64. rewrite N.mod_small by lia. lia.
        * now rewrite update_length.
    - cbn in H. destruct H as (l' & -> & H).
      exists k, ls. split.
      2: { now rewrite app_nil_r. }
      constructor; cbn [sv_workers sv_counter]; try (apply I).
      + rewrite <- (update_id _ ls i El). eapply update_Forall2; eauto; [apply (iv_holds _ _ _ I)|].
        destruct (run_history dr fuel e h) eqn:R; cbn; eauto;
          exists e, l', h; rewrite R; (split; [reflexivity|split; [exact H|split; [reflexivity|]]]);
          intros r0; discriminate.
      + rewrite (dones_update _ _ _ _ E) by reflexivity. 
        destruct (run_history dr fuel e h); cbn [is_done]; rewrite Nat.add_0_r; apply I.
      + rewrite (dones_update _ _ _ _ E) by reflexivity. 
        destruct (run_history dr fuel e h); cbn [is_done]; rewrite Nat.add_0_r; apply I.
      + now rewrite update_length; apply I.
    - rewrite (update_id _ _ _ E). exists k, ls. split; [destruct sv; exact I|].
      now rewrite app_nil_r.
    - rewrite (update_id _ _ _ E). exists k, ls. split; [destruct sv; exact I|].
      now rewrite app_nil_r.
  Qed.

  Lemma inv_run schedule : forall sv k ls, inv sv k ls ->
    exists k' ls', inv (run_schedule (G := G) dr fuel sv schedule) k' ls' /\
      below k' = (below k ++ started (G := G) dr fuel sv schedule)%list.
  Proof.
    induction schedule as [|i rest IH]; intros sv k ls I.
    - exists k, ls. split; [exact I|]. cbn. now rewrite app_nil_r.
    - destruct (inv_step sv k ls i I) as (k1 & ls1 & I1 & E1).
      destruct (IH _ _ _ I1) as (k2 & ls2 & I2 & E2).
      exists k2, ls2. split; [exact I2|]. cbn [started]. rewrite E2, E1. now rewrite <- app_assoc.
  Qed.

  (** After any schedule: the histories started, and the shares of the workers. *)
  Lemma after schedule : let sv := run_schedule (G := G) dr fuel (solver_start dr 0) schedule in
    exists k ls, inv sv k ls /\ started (G := G) dr fuel (solver_start dr 0) schedule = below k.
  Proof.
    destruct inv_start as (ls0 & I0). destruct (inv_run schedule _ _ _ I0) as (k & ls & I & E).
    exists k, ls. split; [exact I|]. symmetry. exact E.
  Qed.
End Invariant.

(** ** C56 *)
Lemma below_length n : length (below n) = N.to_nat n.
Proof. unfold below. now rewrite map_length, seq_length. Qed.
Lemma below_inj n m : below n = below m -> n = m.
Proof. intros H. apply (f_equal (@length N)) in H. rewrite !below_length in H. lia. Qed.
Lemma below_nodup n : NoDup (below n).
Proof.
  unfold below. apply FinFun.Injective_map_NoDup; [|apply seq_NoDup].
  intros a b H. now apply Nat2N.inj.
Qed.

Lemma dones_in {A : Arith} (ws : list (@worker A)) wk :
  In wk ws -> succeeded wk -> (0 < dones ws)%nat.
Proof.
  unfold dones. induction ws as [|x ws IH]; intros Hin Hs; cbn in *; [easy|].
  destruct Hin as [->|Hin].
  - destruct wk; try easy. cbn. lia.
  - specialize (IH Hin Hs). destruct (is_done x); cbn; lia.
Qed.

Lemma C56_once_proof :
  forall (A : Arith) (G : Rng A) (dr : @driver A) fuel schedule,
  (dr_batchsize dr + dr_threads dr <= 2 ^ 64)%N ->
  let sv := run_schedule (G := G) dr fuel (solver_start dr 0) schedule in
  let ids := started (G := G) dr fuel (solver_start dr 0) schedule in
  (exists k, (k <= dr_batchsize dr)%N /\ ids = below k)
  /\ NoDup ids
  /\ (forall h, In h ids -> (h < dr_batchsize dr)%N)
  /\ ((exists wk, In wk (sv_workers sv) /\ succeeded wk) -> ids = below (dr_batchsize dr)).
Proof.
  intros A G dr fuel schedule few sv ids.
  destruct (after (G := G) dr fuel (fun _ _ => True) I (fun _ _ _ _ _ _ => I) few schedule)
    as (k & ls & V & E).
  pose proof (iv_le _ _ _ _ _ _ V) as K. fold ids in E. parts.
  - eauto.
  - rewrite E. apply below_nodup.
  - intros h H. rewrite E in H. apply in_below in H. lia.
  - intros (wk & Hin & Hs). rewrite E. f_equal. apply (iv_done _ _ _ _ _ _ V).
    eapply dones_in; eauto.
Qed.

(** *** Every worker ends *)
Section Ends.
  Context {A : Arith} {G : Rng A}.
  Variable dr : @driver A.
  Variable fuel : nat.
  Hypothesis few : (dr_batchsize dr + dr_threads dr <= 2 ^ 64)%N.
  Notation iv := (inv (G := G) dr fuel (fun _ _ => True)).
  Definition left_over (k : N) (wk : @worker A) : nat :=
    match wk with
    | Idle _ => 2 * N.to_nat (dr_batchsize dr - k) + 1
    | Busy _ _ => 2 * N.to_nat (dr_batchsize dr - k) + 2
    | _ => 0
    end.

  Lemma left_over_step sv k ls i j wk : iv sv k ls -> nth_error (sv_workers sv) i = Some wk ->
    exists k' ls' wk', iv (solver_step (G := G) dr fuel sv j) k' ls'
      /\ nth_error (sv_workers (solver_step (G := G) dr fuel sv j)) i = Some wk'
      /\ (left_over k' wk' <= left_over k wk - if Nat.eq_dec i j then 1 else 0)%nat.
  Proof.
    intros V E.
    destruct (inv_step (G := G) dr fuel (fun _ _ => True) (fun _ _ _ _ _ _ => I) few sv k ls j V)
      as (k' & ls' & V' & Eb).
    apply (f_equal (@length N)) in Eb. rewrite app_length, !below_length in Eb.
    pose proof (iv_le _ _ _ _ _ _ V). pose proof (iv_le _ _ _ _ _ _ V').
    exists k', ls'. unfold start_of in Eb. unfold solver_step in *.
    destruct (Nat.eq_dec i j) as [<-|Nij].
    - rewrite E in *. destruct wk as [e|e h|e|o]; cbn [worker_step] in *.
      + destruct (dr_batchsize dr <=? sv_counter sv)%N; cbn [sv_workers] in *;
          rewrite (update_same _ _ _ _ E) in *; eexists; (split; [exact V'|split; [reflexivity|]]);
          cbn in *; lia.
      + cbn [sv_workers] in *. rewrite (update_same _ _ _ _ E) in *. eexists.
        split; [exact V'|split; [reflexivity|]].
        destruct (run_history dr fuel e h); cbn in *; lia.
      + cbn [sv_workers] in *. rewrite (update_same _ _ _ _ E) in *. eexists.
        split; [exact V'|split; [reflexivity|]]. cbn. lia.
      + cbn [sv_workers] in *. rewrite (update_same _ _ _ _ E) in *. eexists.
        split; [exact V'|split; [reflexivity|]]. cbn. lia.
    - exists wk. split; [exact V'|]. split.
      + destruct (nth_error (sv_workers sv) j) as [wj|] eqn:Ej; [|exact E].
        destruct (worker_step dr fuel (sv_counter sv) wj). cbn [sv_workers].
        rewrite update_other; auto.
      + destruct wk; cbn; lia.
  Qed.

  Lemma left_over_run schedule : forall sv k ls i wk, iv sv k ls ->
    nth_error (sv_workers sv) i = Some wk ->
    exists k' ls' wk', iv (run_schedule (G := G) dr fuel sv schedule) k' ls'
      /\ nth_error (sv_workers (run_schedule (G := G) dr fuel sv schedule)) i = Some wk'
      /\ (left_over k' wk' <= left_over k wk - count_occ Nat.eq_dec schedule i)%nat.
  Proof.
    induction schedule as [|j rest IH]; intros sv k ls i wk V E.
    - exists k, ls, wk. split; [exact V|]. split; [exact E|]. cbn. lia.
    - destruct (left_over_step sv k ls i j wk V E) as (k1 & ls1 & wk1 & V1 & E1 & L1).
      destruct (IH _ _ _ _ _ V1 E1) as (k2 & ls2 & wk2 & V2 & E2 & L2).
      exists k2, ls2, wk2. split; [exact V2|]. split; [exact E2|].
      cbn [count_occ]. destruct (Nat.eq_dec i j) as [->|N]; destruct (Nat.eq_dec j _) ; try congruence; lia.
  Qed.
End Ends.

Lemma nth_error_repeat' {V} (v : V) n : forall i, (i < n)%nat -> nth_error (repeat v n) i = Some v.
Proof. induction n; intros [|i] H; cbn; auto; try lia. apply IHn. lia. Qed.

Lemma C56_ends_proof :
  forall (A : Arith) (G : Rng A) (dr : @driver A) fuel schedule i,
  (dr_batchsize dr + dr_threads dr <= 2 ^ 64)%N ->
  (i < N.to_nat (dr_threads dr))%nat ->
  (2 * N.to_nat (dr_batchsize dr) + 1 <= count_occ Nat.eq_dec schedule i)%nat ->
  exists wk,
    nth_error (sv_workers (run_schedule (G := G) dr fuel (solver_start dr 0) schedule)) i = Some wk
    /\ finished wk.
Proof.
  intros A G dr fuel schedule i few Hi Hc.
  destruct (inv_start (G := G) dr fuel (fun _ _ => True) I few) as (ls & V).
  destruct (left_over_run (G := G) dr fuel few schedule _ _ _ i (Idle (dr_init dr)) V) as (k & ls' & wk & _ & E & L).
  { cbn [solver_start sv_workers]. now apply nth_error_repeat'. }
  exists wk. split; [exact E|].
  destruct wk; cbn in *; auto; lia.
Qed.
