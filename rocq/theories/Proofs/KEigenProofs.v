(** The source bank of a k-eigenvalue problem: C63, C64. *)
From Coq Require Import Bool String List Reals ZArith NArith Lra Lia Permutation.
From Verif Require Import Model.Num Model.Outcome Model.Rng Model.Xml Model.Std Model.Types
  Model.Bins Model.Field Model.Particle Model.World Model.Perturbation Model.Estimator
  Model.Transport Model.Driver Spec.SumSpec Spec.EstimatorSpec Spec.SolverSpec Spec.KEigenSpec
  Spec.TextExt
  Proofs.OutcomeLib Proofs.RealLib Proofs.RngProofs Proofs.SolverProofs Proofs.CrossingProofs
  Proofs.SampleProblem Proofs.SampleTally Proofs.SampleSolve Proofs.SampleDocument.
Import ListNotations.
Local Open Scope string_scope.

(** ** C63 *)
Lemma C63_initial_proof :
  forall (A : Arith) (G : Rng A) (X : Ext A) (root : node) (ke : @keigen A G),
  keigen_create X root = Ok ke ->
  exists dr,
    driver_create X root
      (n_child (n_child (n_child root "problemtype") "keigenvalue") "initialsource") = Ok dr
    /\ ke_solve ke = dr_init dr
    (* the bank of the first cycle: one particle of the source per history, with the
       seeds 1, 2, ... whatever seed the document gives *)
    /\ length (ke_source_bank ke) = N.to_nat (dr_batchsize dr)
    /\ forall i p, nth_error (ke_source_bank ke) i = Some p ->
         p = source_sample (dr_source dr) (Z.of_nat i + 1).
Proof.
  intros A G X root ke E. unfold keigen_create in E.
  apply bind_ok in E as (dr & Ed & E). exists dr. split; auto.
  injection E as <-. cbn [ke_source_bank]. unfold ke_initial_bank. split; cycle 1.
  { rewrite map_length, seq_length. split; [reflexivity|]. intros i p H.
    rewrite nth_error_map in H. destruct (nth_error (seq 1 _) i) as [k|] eqn:Ek; [|discriminate].
    cbn in H. injection H as <-. f_equal. apply nth_error_split in Ek as (l1 & l2 & Es & <-).
    assert (Hl : (length l1 < N.to_nat (dr_batchsize dr))%nat).
    { rewrite <- (seq_length (N.to_nat (dr_batchsize dr)) 1), Es, app_length. cbn. lia. }
    pose proof (seq_nth 1 O Hl) as Hn. rewrite Es, nth_middle in Hn. subst k. lia. }
  unfold ke_solve. cbn.
  set (n := as_uint X _). induction n using N.peano_ind; auto.
  rewrite N.iter_succ. unfold ke_cycle at 1. exact IHn.
Qed.

Definition slab_keigen (active inactive : string) : node :=
  slab_problem (Elem "keigenvalue" [("active", active); ("inactive", inactive)]
                  [slab_source "initialsource"] "").
Lemma slab_keigen_driver a i :
  driver_create slab_ext (slab_keigen a i)
    (n_child (n_child (n_child (slab_keigen a i) "problemtype") "keigenvalue") "initialsource")
  = Ok slab_driver.
Proof. apply driver_read. reflexivity. Qed.

Lemma C63_cycles_refuted_proof :
  exists (G : Rng XRa) (X : Ext XRa) (root : node) (ke : keigen) (dr : @driver XRa) fuel r,
  keigen_create (G := G) X root = Ok ke
  /\ driver_create X root
      (n_child (n_child (n_child root "problemtype") "keigenvalue") "initialsource") = Ok dr
  /\ (0 < ke_last_inactive ke < ke_last_active ke)%N
  /\ ke_source_bank ke <> []
  /\ transported dr fuel (dr_init dr) (ke_source_bank ke) = Ok r
  /\ r <> dr_init dr
  /\ ke_solve ke = dr_init dr.
Proof.
  destruct nudge_fin as (k & Ek & _).
  exists half_rng, slab_ext, (slab_keigen "5" "3"), (mkKeigen (dr_init slab_driver) 3 8
    (ke_initial_bank (dr_source slab_driver) 2)), slab_driver, 2%nat, (both_done k).
  split. { unfold keigen_create. rewrite slab_keigen_driver. reflexivity. }
  split. { apply slab_keigen_driver. }
  split. { cbn. lia. }
  split. { discriminate. }
  split.
  { pose proof (slab_serial k Ek) as E. unfold serial in E.
    change (below (dr_batchsize slab_driver)) with [0; 1]%N in E.
    unfold transported. exact E. }
  split. { unfold both_done, tallies, tally. cbn. intros [= E _]. lra. }
  reflexivity.
Qed.

(** ** C64 *)
Section Np.
  Context {A : Arith} {G : Rng A}.
  Notation particle := (particle A G).
  Notation np_state := (@np_state A G).
  Notation np_thread := (@np_thread A G).

  Lemma bank_back_spec (bank : list particle) :
    match bank_back bank with
    | None => bank = []
    | Some (p, rest) => bank = (rest ++ [p])%list
    end.
  Proof.
    unfold bank_back. destruct (rev bank) as [|p l] eqn:E.
    - rewrite <- (rev_involutive bank), E. reflexivity.
    - rewrite <- (rev_involutive bank), E. reflexivity.
  Qed.

  (** What the holder of the lock may know. *)
  Definition knows (bank : list particle) (t : np_thread) : Prop :=
    match t with
    | NpOut | NpBroken => False
    | NpTest => True
    | NpBack => bank <> []
    | NpPop p => exists rest, bank = (rest ++ [p])%list
    | NpReturn None => bank = []
    | NpReturn (Some _) => True
    end.
  (** An answer decided but not given. *)
  Definition due (t : np_thread) : list (option particle) :=
    match t with NpReturn a => [a] | _ => [] end.

  Record np_inv (original : list particle) (n : nat) (st : np_state) : Prop := {
    ni_length : length (np_threads st) = n;
    ni_lock : forall i t, nth_error (np_threads st) i = Some t ->
                t = NpOut \/ np_lock st = Some i;
    ni_holder : forall i, np_lock st = Some i ->
                exists t, nth_error (np_threads st) i = Some t /\ knows (np_bank st) t;
    ni_taken : exists taken j,
                original = (np_bank st ++ rev taken)%list
                /\ (map snd (np_answers st) ++ flat_map due (np_threads st))%list
                   = (map Some taken ++ repeat None j)%list
                /\ (j <> 0%nat -> np_bank st = [])
  }.

  Lemma flat_due (l : list np_thread) i :
    (forall j t, nth_error l j = Some t -> j <> i -> t = NpOut) ->
    flat_map due l = match nth_error l i with Some t => due t | None => [] end.
  Proof.
    revert i. induction l as [|a l IH]; intros i H.
    - now destruct i.
    - destruct i; cbn.
      + rewrite (IH (length l)).
        * replace (nth_error l (length l)) with (@None np_thread)
            by (symmetry; apply nth_error_None; lia). apply app_nil_r.
        * intros j t Ej _. now apply (H (S j) t).
      + rewrite (H 0%nat a eq_refl) by lia. cbn. apply IH.
        intros j t Ej Nj. apply (H (S j) t); auto.
  Qed.
  Lemma np_start_inv n bank : np_inv bank n (np_start n bank).
  Proof.
    constructor; cbn.
    - apply repeat_length.
    - intros i t E. left. apply nth_error_In in E. now apply repeat_spec in E.
    - discriminate.
    - exists [], 0%nat. cbn. rewrite app_nil_r. repeat split; [|lia].
      induction n; auto.
  Qed.

  Lemma np_step_inv original n st i : np_inv original n st -> np_inv original n (np_step st i).
  Proof.
    intros V. unfold np_step.
    destruct (nth_error (np_threads st) i) as [t|] eqn:Et; auto.
    assert (Li : (i < length (np_threads st))%nat) by (apply nth_error_Some; congruence).
    assert (Len : forall t', length (update_nth i t' (np_threads st)) = n).
    { intros t'. rewrite update_length. apply (ni_length _ _ _ V). }
    assert (Others : np_lock st = Some i \/ np_lock st = None ->
              forall j t', nth_error (np_threads st) j = Some t' -> j <> i -> t' = NpOut).
    { intros L j t' Ej Nj. destruct (ni_lock _ _ _ V j t' Ej) as [|E]; auto.
      destruct L; congruence. }
    assert (Due : np_lock st = Some i \/ np_lock st = None ->
      forall t', flat_map due (update_nth i t' (np_threads st)) = due t').
    { intros L t'. rewrite (flat_due _ i).
      - now rewrite (update_same _ _ _ _ Et).
      - intros j t0 Ej Nj. rewrite update_other in Ej by auto. now apply (Others L j). }
    assert (Due0 : np_lock st = Some i \/ np_lock st = None ->
      flat_map due (np_threads st) = due t).
    { intros L. rewrite (flat_due _ i); [now rewrite Et|]. intros j t0 Ej Nj.
      now apply (Others L j). }
    destruct (ni_taken _ _ _ V) as (taken & k & T1 & T2 & T3).
    destruct t.
    - (* outside *)
      destruct (np_lock st) as [h|] eqn:El; auto. specialize (Due (or_intror eq_refl)).
      specialize (Due0 (or_intror eq_refl)).
      constructor; cbn; auto.
      + intros j t' Ej. destruct (Nat.eq_dec j i) as [->|Nj]; [now right|left].
        rewrite update_other in Ej by auto. now apply (Others (or_intror eq_refl) j).
      + intros j [= <-]. exists NpTest. split; [exact (update_same _ _ _ _ Et)|exact I].
      + exists taken, k. rewrite Due. rewrite Due0 in T2. auto.
    - (* inside: test *)
      assert (L : np_lock st = Some i).
      { destruct (ni_lock _ _ _ V i _ Et) as [|]; [discriminate|auto]. }
      specialize (Due (or_introl L)). specialize (Due0 (or_introl L)). rewrite Due0 in T2.
      constructor; cbn; auto.
      + intros j t' Ej. destruct (Nat.eq_dec j i) as [->|Nj]; [now right|left].
        rewrite update_other in Ej by auto. now apply (Others (or_introl L) j).
      + intros j Ej. rewrite L in Ej. injection Ej as <-. eexists.
        split; [exact (update_same _ _ _ _ Et)|]. now destruct (np_bank st).
      + rewrite Due. destruct (np_bank st) eqn:Eb.
        * exists taken, (S k). cbn. split; auto. split; auto. cbn in T2. rewrite app_nil_r in T2.
          rewrite T2, <- app_assoc. f_equal. now rewrite <- repeat_cons.
        * exists taken, k. auto.
    - (* back *)
      assert (L : np_lock st = Some i).
      { destruct (ni_lock _ _ _ V i _ Et) as [|]; [discriminate|auto]. }
      specialize (Due (or_introl L)). specialize (Due0 (or_introl L)). rewrite Due0 in T2.
      destruct (ni_holder _ _ _ V i L) as (t & Et' & K). rewrite Et in Et'. injection Et' as <-.
      cbn in K. pose proof (bank_back_spec (np_bank st)) as Bb.
      destruct (bank_back (np_bank st)) as [[p rest]|] eqn:Eb; [|contradiction].
      constructor; cbn; auto.
      + intros j t' Ej. destruct (Nat.eq_dec j i) as [->|Nj]; [now right|left].
        rewrite update_other in Ej by auto. now apply (Others (or_introl L) j).
      + intros j Ej. rewrite L in Ej. injection Ej as <-. eexists.
        split; [exact (update_same _ _ _ _ Et)|]. cbn. eauto.
      + rewrite Due. exists taken, k. auto.
    - (* pop *)
      assert (L : np_lock st = Some i).
      { destruct (ni_lock _ _ _ V i _ Et) as [|]; [discriminate|auto]. }
      specialize (Due (or_introl L)). specialize (Due0 (or_introl L)). rewrite Due0 in T2.
      destruct (ni_holder _ _ _ V i L) as (t & Et' & K). rewrite Et in Et'. injection Et' as <-.
      cbn in K. destruct K as (rest0 & K). pose proof (bank_back_spec (np_bank st)) as Bb.
      destruct (bank_back (np_bank st)) as [[p' rest]|] eqn:Eb.
      2: { rewrite Bb in K. now destruct rest0. }
      rewrite Bb in K. apply app_inj_tail in K as [-> ->].
      constructor; cbn; auto.
      + intros j t' Ej. destruct (Nat.eq_dec j i) as [->|Nj]; [now right|left].
        rewrite update_other in Ej by auto. now apply (Others (or_introl L) j).
      + intros j Ej. rewrite L in Ej. injection Ej as <-. eexists.
        split; [exact (update_same _ _ _ _ Et)|]. exact I.
      + rewrite Due. cbn in T2. rewrite app_nil_r in T2.
        assert (k = 0%nat) as ->.
        { destruct k; auto. rewrite Bb in T3. specialize (T3 ltac:(lia)). now destruct rest0. }
        cbn in T2. rewrite app_nil_r in T2. exists (taken ++ [p])%list, 0%nat. cbn.
        rewrite T1, Bb, T2, rev_app_distr, <- app_assoc, map_app, app_nil_r. cbn.
        repeat split; auto. lia.
    - (* return *)
      assert (L : np_lock st = Some i).
      { destruct (ni_lock _ _ _ V i _ Et) as [|]; [discriminate|auto]. }
      specialize (Due (or_introl L)). specialize (Due0 (or_introl L)). rewrite Due0 in T2.
      constructor; cbn; auto.
      + intros j t' Ej. left. destruct (Nat.eq_dec j i) as [->|Nj].
        * rewrite (update_same _ _ _ _ Et) in Ej. congruence.
        * rewrite update_other in Ej by auto. now apply (Others (or_introl L) j).
      + discriminate.
      + rewrite Due. exists taken, k. cbn in *. rewrite map_app. cbn. rewrite app_nil_r. auto.
    - exact V.
  Qed.

  Lemma np_run_inv original n st schedule :
    np_inv original n st -> np_inv original n (np_run st schedule).
  Proof.
    unfold np_run. revert st. induction schedule; cbn; auto using np_step_inv.
  Qed.
  Lemma np_reach n bank schedule : np_inv bank n (np_run (np_start n bank) schedule).
  Proof. apply np_run_inv, np_start_inv. Qed.

  Lemma broken_never original n st i : np_inv original n st ->
    nth_error (np_threads st) i <> Some NpBroken.
  Proof.
    intros V E. destruct (ni_lock _ _ _ V i _ E) as [|L]; [discriminate|].
    destruct (ni_holder _ _ _ V i L) as (t & Et & K). rewrite E in Et. now injection Et as <-.
  Qed.

  Lemma flying (l : list np_thread) :
    flat_map (fun t => match t with NpReturn (Some p) => [p] | _ => [] end) l
    = particles_of (flat_map due l).
  Proof.
    unfold particles_of. induction l as [|t l IH]; auto.
    cbn [flat_map]. rewrite flat_map_app, IH. f_equal. now destruct t as [| | | |[|]|].
  Qed.
  Lemma particles_app a b :
    particles_of (A := A) (G := G) (a ++ b) = (particles_of a ++ particles_of b)%list.
  Proof. apply flat_map_app. Qed.
  Lemma particles_cons a l :
    particles_of (A := A) (G := G) (a :: l) = (particles_of [a] ++ particles_of l)%list.
  Proof. exact (particles_app [a] l). Qed.
  Lemma particles_some (l : list particle) : particles_of (map Some l) = l.
  Proof. induction l; cbn; auto. unfold particles_of in IHl. now rewrite IHl. Qed.
  Lemma particles_none n : particles_of (A := A) (G := G) (repeat None n) = [].
  Proof. induction n; auto. Qed.

  (** The answers of all threads are the answers. *)
  Lemma by_thread n (l : list (nat * option particle)) :
    (forall a, In a l -> (fst a < n)%nat) ->
    Permutation (particles_of (map snd l))
      (flat_map (fun i => particles_of (map snd (filter (fun a => Nat.eqb (fst a) i) l)))
         (seq 0 n)).
  Proof.
    induction l as [|[i a] l IH]; intros H.
    - cbn. clear. induction (seq 0 n); auto.
    - assert (Hi : (i < n)%nat) by apply (H (i, a) (or_introl eq_refl)).
      specialize (IH (fun a Ha => H a (or_intror Ha))). cbn [map filter fst].
      rewrite (particles_cons (snd (i, a)) (map snd l)). cbn [snd].
      assert (E : forall s, NoDup s ->
        Permutation
          (flat_map (fun j => particles_of (map snd
             (if Nat.eqb i j then (i, a) :: filter (fun a0 => Nat.eqb (fst a0) j) l
              else filter (fun a0 => Nat.eqb (fst a0) j) l))) s)
          ((if in_dec Nat.eq_dec i s then particles_of [a] else []) ++
             flat_map (fun j => particles_of (map snd (filter (fun a0 => Nat.eqb (fst a0) j) l))) s)).
      { intros s ND. induction s as [|j s IHs]; [reflexivity|].
        apply NoDup_cons_iff in ND as [Nj ND]. specialize (IHs ND). cbn [flat_map].
        destruct (Nat.eqb_spec i j) as [->|Nij].
        - destruct (in_dec Nat.eq_dec j (j :: s)) as [_|Bad]; [|exfalso; apply Bad; now left].
          destruct (in_dec Nat.eq_dec j s) as [Bad|_]; [contradiction|].
          change (map snd ((j, a) :: ?l0)) with (a :: map snd l0).
          rewrite particles_cons.
          rewrite <- app_assoc. apply Permutation_app_head, Permutation_app_head. exact IHs.
        - rewrite IHs. destruct (in_dec Nat.eq_dec i s) as [Hs|Hs];
            destruct (in_dec Nat.eq_dec i (j :: s)) as [Hjs|Hjs].
          + rewrite !app_assoc. apply Permutation_app_tail, Permutation_app_comm.
          + exfalso. apply Hjs. now right.
          + destruct Hjs as [->|Hjs]; contradiction.
          + reflexivity. }
      rewrite (E (seq 0 n) (seq_NoDup n 0)).
      destruct (in_dec Nat.eq_dec i (seq 0 n)) as [_|Bad].
      + now apply Permutation_app_head.
      + exfalso. apply Bad, in_seq. lia.
  Qed.

  Lemma answer_threads (st : np_state) schedule :
    (forall a, In a (np_answers st) -> (fst a < length (np_threads st))%nat) ->
    forall a, In a (np_answers (np_run st schedule)) ->
      (fst a < length (np_threads st))%nat.
  Proof.
    unfold np_run. revert st. induction schedule as [|i s IH]; intros st H a Ha; auto.
    cbn in Ha.
    assert (L : length (np_threads (np_step st i)) = length (np_threads st)).
    { unfold np_step. destruct (nth_error (np_threads st) i) as [[]|]; cbn; auto using update_length.
      - destruct (np_lock st); cbn; auto using update_length.
      - destruct (bank_back (np_bank st)) as [[]|]; cbn; auto using update_length. }
    rewrite <- L. apply (IH (np_step st i)); auto. rewrite L. clear IH a Ha s L.
    intros a Ha. unfold np_step in Ha.
    destruct (nth_error (np_threads st) i) as [[| | | |r|]|] eqn:Et; cbn in Ha; auto.
    - destruct (np_lock st); cbn in Ha; auto.
    - destruct (bank_back (np_bank st)) as [[]|]; cbn in Ha; auto.
    - apply in_app_or in Ha as [Ha|[<-|[]]]; auto. cbn. apply nth_error_Some. congruence.
  Qed.
End Np.

Lemma C64_once_proof :
  forall (A : Arith) (G : Rng A) (bank : list (particle A G)) (threads : nat)
    (schedule : list nat),
  let st := np_run (np_start threads bank) schedule in
  Permutation bank
    (flat_map (fun i => particles_of (answers_of i st)) (seq 0 threads)
     ++ in_flight st ++ np_bank st)
  /\ ~ In NpBroken (np_threads st).
Proof.
  intros A G bank n schedule st. pose proof (np_reach n bank schedule) as V. fold st in V.
  split.
  - destruct (ni_taken _ _ _ V) as (taken & k & T1 & T2 & T3).
    rewrite <- (by_thread n (np_answers st)).
    2: { intros a Ha. replace n with (length (np_threads (np_start (A := A) (G := G) n bank)))
           by apply repeat_length.
         apply (answer_threads (np_start n bank) schedule); auto. intros ? []. }
    unfold in_flight. rewrite flying, app_assoc, <- particles_app, T2, particles_app,
      particles_some, particles_none, app_nil_r.
    rewrite T1 at 1. rewrite Permutation_app_comm. apply Permutation_app_tail.
    symmetry. apply Permutation_rev.
  - intros H. apply In_nth_error in H as (i & E). now apply (broken_never bank n st i).
Qed.

Lemma C64_order_proof :
  forall (A : Arith) (G : Rng A) (bank : list (particle A G)) (threads : nat)
    (schedule : list nat) (k : nat) (i : nat) (answer : option (particle A G)),
  let st := np_run (np_start threads bank) schedule in
  nth_error (np_answers st) k = Some (i, answer) ->
  answer = nth_error (rev bank) k.
Proof.
  intros A G bank n schedule k i a st E.
  pose proof (np_reach n bank schedule) as V. fold st in V.
  destruct (ni_taken _ _ _ V) as (taken & j & T1 & T2 & T3).
  assert (E' : nth_error (map Some taken ++ repeat None j) k = Some a).
  { rewrite <- T2, nth_error_app1.
    - rewrite nth_error_map, E. reflexivity.
    - rewrite map_length. apply nth_error_Some. congruence. }
  rewrite T1, rev_app_distr, rev_involutive.
  destruct (Nat.lt_ge_cases k (length taken)) as [Hk|Hk].
  - rewrite nth_error_app1 in E' by (rewrite map_length; lia).
    rewrite nth_error_app1 by lia. rewrite nth_error_map in E'.
    destruct (nth_error taken k); [|discriminate]. now injection E' as <-.
  - rewrite nth_error_app2 in E' by (rewrite map_length; lia).
    rewrite nth_error_app2 by lia. rewrite map_length in E'.
    assert (j <> 0%nat) as Hj.
    { intros ->. cbn in E'. now destruct (k - length taken)%nat. }
    rewrite (T3 Hj). cbn. apply nth_error_In, repeat_spec in E'. subst a.
    now destruct (k - length taken)%nat.
Qed.

Lemma C64_empty_proof :
  forall (A : Arith) (G : Rng A) (bank : list (particle A G)) (threads : nat)
    (schedule : list nat) (i : nat),
  let st := np_run (np_start threads bank) schedule in
  In (i, None) (np_answers st) ->
  np_bank st = [] /\ in_flight st = []
  /\ Permutation bank (flat_map (fun j => particles_of (answers_of j st)) (seq 0 threads)).
Proof.
  intros A G bank n schedule i st H.
  pose proof (np_reach n bank schedule) as V. fold st in V.
  destruct (ni_taken _ _ _ V) as (taken & j & T1 & T2 & T3).
  destruct (C64_once_proof A G bank n schedule) as [P _]. cbv zeta in P. fold st in P.
  assert (Hk : exists k, nth_error (np_answers st) k = Some (i, None)) by now apply In_nth_error.
  destruct Hk as (k & Ek).
  assert (Lk : (k < length (np_answers st))%nat) by (apply nth_error_Some; congruence).
  assert (E' : nth_error (map Some taken ++ repeat None j) k = Some None).
  { rewrite <- T2, nth_error_app1.
    - rewrite nth_error_map, Ek. reflexivity.
    - rewrite map_length. lia. }
  assert (Hk : (length taken <= k)%nat).
  { destruct (Nat.lt_ge_cases k (length taken)) as [Hk|Hk]; auto.
    rewrite nth_error_app1, nth_error_map in E' by (rewrite map_length; lia).
    destruct (nth_error taken k); discriminate. }
  assert (Eb : np_bank st = []).
  { apply T3. intros ->. rewrite nth_error_app2 in E' by (rewrite map_length; lia).
    cbn in E'. now destruct (k - length (map Some taken))%nat. }
  assert (Ef : in_flight st = []).
  { unfold in_flight. rewrite flying.
    assert (P1 : forall p, ~ In (Some p) (flat_map due (np_threads st))).
    { intros p Hp. apply In_nth_error in Hp as (m & Em).
      assert (E2 : nth_error (map Some taken ++ repeat None j)
                     (length (np_answers st) + m) = Some (Some p)).
      { rewrite <- T2, nth_error_app2 by (rewrite map_length; lia). rewrite map_length.
        now replace (length (np_answers st) + m - length (np_answers st))%nat with m by lia. }
      rewrite nth_error_app2 in E2 by (rewrite map_length; lia).
      apply nth_error_In, repeat_spec in E2. discriminate. }
    clear -P1. induction (flat_map due (np_threads st)) as [|[p|] l IH]; auto.
    - exfalso. apply (P1 p). now left.
    - cbn. apply IH. intros p Hp. apply (P1 p). now right. }
  split; auto. split; auto. rewrite Eb, Ef in P. cbn in P. now rewrite app_nil_r in P.
Qed.

(** Somebody can always be answered. *)
Lemma C64_progress_proof :
  forall (A : Arith) (G : Rng A) (bank : list (particle A G)) (threads : nat)
    (schedule : list nat),
  (0 < threads)%nat ->
  let st := np_run (np_start threads bank) schedule in
  exists i steps, (steps <= 5)%nat
    /\ length (np_answers (np_run st (repeat i steps))) = S (length (np_answers st)).
Proof.
  intros A G bank n schedule Hn st.
  pose proof (np_reach n bank schedule) as V. fold st in V. clearbody st.
  set (h := match np_lock st with Some i => i | None => 0%nat end).
  assert (Step : forall st0 : @np_state A G, np_inv bank n st0 ->
    (forall i, np_lock st0 = Some i -> i = h) -> (h < n)%nat ->
    forall t, nth_error (np_threads st0) h = Some t ->
    let st1 := np_step st0 h in
    match t with
    | NpOut => nth_error (np_threads st1) h = Some NpTest /\ np_lock st1 = Some h
               /\ np_answers st1 = np_answers st0
    | NpTest => exists t', nth_error (np_threads st1) h = Some t'
                 /\ match t' with NpBack | NpReturn _ => True | _ => False end
                 /\ np_lock st1 = Some h /\ np_answers st1 = np_answers st0
    | NpBack => exists p, nth_error (np_threads st1) h = Some (NpPop p)
                 /\ np_lock st1 = Some h /\ np_answers st1 = np_answers st0
    | NpPop p => exists r, nth_error (np_threads st1) h = Some (NpReturn r)
                 /\ np_lock st1 = Some h /\ np_answers st1 = np_answers st0
    | NpReturn r => length (np_answers st1) = S (length (np_answers st0))
    | NpBroken => False
    end).
  { intros st0 V0 L Hh t Et st1.
    assert (Li : (h < length (np_threads st0))%nat) by (rewrite (ni_length _ _ _ V0); auto).
    unfold st1, np_step. rewrite Et.
    assert (Lk : t <> NpOut -> np_lock st0 = Some h /\ knows (np_bank st0) t).
    { intros N. destruct (ni_lock _ _ _ V0 h t Et) as [|E]; [contradiction|]. split; auto.
      destruct (ni_holder _ _ _ V0 h E) as (t' & Et' & K). rewrite Et in Et'. now injection Et' as <-. }
    destruct t.
    - destruct (np_lock st0) as [i|] eqn:El.
      + rewrite (L i eq_refl) in El. destruct (ni_holder _ _ _ V0 h El) as (t & Et' & K).
        rewrite Et in Et'. injection Et' as <-. destruct K.
      + cbn. rewrite (update_same _ _ _ _ Et). auto.
    - destruct Lk as [El K]; [discriminate|]. cbn. rewrite (update_same _ _ _ _ Et).
      eexists. split; [reflexivity|]. now destruct (np_bank st0).
    - destruct Lk as [El K]; [discriminate|]. cbn in *. pose proof (bank_back_spec (np_bank st0)) as Bb.
      destruct (bank_back (np_bank st0)) as [[p rest]|]; [|contradiction].
      rewrite (update_same _ _ _ _ Et). eauto.
    - destruct Lk as [El (rest0 & K)]; [discriminate|]. pose proof (bank_back_spec (np_bank st0)) as Bb.
      destruct (bank_back (np_bank st0)) as [[p' rest]|].
      + cbn. rewrite (update_same _ _ _ _ Et). eauto.
      + rewrite Bb in K. now destruct rest0.
    - cbn. rewrite app_length. cbn. lia.
    - now apply (broken_never bank n st0 h V0). }
  assert (Hh : (h < n)%nat).
  { unfold h. destruct (np_lock st) as [i|] eqn:El; auto.
    destruct (ni_holder _ _ _ V i El) as (t & Et & _). rewrite <- (ni_length _ _ _ V).
    apply nth_error_Some. congruence. }
  assert (Lh : forall i, np_lock st = Some i -> i = h).
  { intros i E. unfold h. now rewrite E. }
  clearbody h.
  assert (Ex : exists m, (m <= 5)%nat
    /\ length (np_answers (np_run st (repeat h m))) = S (length (np_answers st))).
  { assert (R5 : forall st0 : @np_state A G, np_inv bank n st0 ->
      forall r, np_lock st0 = Some h -> nth_error (np_threads st0) h = Some (NpReturn r) ->
      length (np_answers (np_run st0 (repeat h 1))) = S (length (np_answers st0))).
    { intros st0 V0 r L0 E0. exact (Step st0 V0 ltac:(congruence) Hh _ E0). }
    assert (R4 : forall st0 : @np_state A G, np_inv bank n st0 ->
      forall p, np_lock st0 = Some h -> nth_error (np_threads st0) h = Some (NpPop p) ->
      length (np_answers (np_run st0 (repeat h 2))) = S (length (np_answers st0))).
    { intros st0 V0 p L0 E0. destruct (Step st0 V0 ltac:(congruence) Hh _ E0) as (r & E1 & L1 & A1).
      rewrite <- A1. apply (R5 (np_step st0 h) (np_step_inv _ _ _ _ V0) r); auto. }
    assert (R3 : forall st0 : @np_state A G, np_inv bank n st0 ->
      np_lock st0 = Some h -> nth_error (np_threads st0) h = Some NpBack ->
      length (np_answers (np_run st0 (repeat h 3))) = S (length (np_answers st0))).
    { intros st0 V0 L0 E0. destruct (Step st0 V0 ltac:(congruence) Hh _ E0) as (p & E1 & L1 & A1).
      rewrite <- A1. apply (R4 (np_step st0 h) (np_step_inv _ _ _ _ V0) p); auto. }
    assert (R2 : forall st0 : @np_state A G, np_inv bank n st0 ->
      np_lock st0 = Some h -> nth_error (np_threads st0) h = Some NpTest -> exists m, (m <= 4)%nat /\
      length (np_answers (np_run st0 (repeat h m))) = S (length (np_answers st0))).
    { intros st0 V0 L0 E0. destruct (Step st0 V0 ltac:(congruence) Hh _ E0) as (t' & E1 & K & L1 & A1).
      rewrite <- A1. destruct t'; try contradiction.
      - exists 4%nat. split; [lia|]. apply (R3 (np_step st0 h) (np_step_inv _ _ _ _ V0)); auto.
      - exists 2%nat. split; [lia|]. apply (R5 (np_step st0 h) (np_step_inv _ _ _ _ V0) answer); auto. }
    destruct (nth_error (np_threads st) h) as [t|] eqn:Et.
    2: { apply nth_error_None in Et. rewrite (ni_length _ _ _ V) in Et. lia. }
    assert (Lk : t <> NpOut -> np_lock st = Some h).
    { intros N. destruct (ni_lock _ _ _ V h t Et) as [|E]; [contradiction|auto]. }
    destruct t.
    - destruct (Step st V Lh Hh _ Et) as (E1 & L1 & A1).
      destruct (R2 (np_step st h) (np_step_inv _ _ _ _ V) L1 E1) as (m & Hm & E).
      exists (S m). split; [lia|]. rewrite <- A1. exact E.
    - destruct (R2 st V (Lk ltac:(discriminate)) Et) as (m & Hm & E). exists m. split; [lia|exact E].
    - exists 3%nat. split; [lia|]. apply R3; auto. apply Lk. discriminate.
    - exists 2%nat. split; [lia|]. apply (R4 st V p); auto. apply Lk. discriminate.
    - exists 1%nat. split; [lia|]. apply (R5 st V answer); auto. apply Lk. discriminate.
    - exfalso. now apply (broken_never bank n st h V). }
  destruct Ex as (m & Hm & E). now exists h, m.
Qed.
