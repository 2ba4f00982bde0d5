(** The random number generator. *)
From Coq Require Import List Bool ZArith NArith Reals Lra Lia Psatz Eqdep_dec.
From Verif Require Import Model.Num Model.Rng Spec.RngSpec Proofs.RealLib.
Import ListNotations.

Lemma minstd_inverse x : ((1899818559 * (minstd_a * x)) mod minstd_m = x mod minstd_m)%Z.
Proof.
  unfold minstd_a, minstd_m.
  replace (1899818559 * (48271 * x))%Z with (x + (42704 * x) * 2147483647)%Z by ring.
  apply Z.mod_add; lia.
Qed.

Lemma minstd_next_inj x y :
  (1 <= x <= 2147483646)%Z -> (1 <= y <= 2147483646)%Z ->
  minstd_next x = minstd_next y -> x = y.
Proof.
  intros Hx Hy E. unfold minstd_next in E.
  rewrite <- (Z.mod_small x minstd_m), <- (Z.mod_small y minstd_m) by (unfold minstd_m; lia).
  rewrite <- (minstd_inverse x), <- (minstd_inverse y).
  rewrite Z.mul_mod, E, <- Z.mul_mod by (unfold minstd_m; lia). reflexivity.
Qed.

Lemma ms_eq (s t : mstate) : ms_val s = ms_val t -> s = t.
Proof.
  destruct s as [x Hx], t as [y Hy]; cbn; intros ->. f_equal. apply UIP_dec, bool_dec.
Qed.

Local Open Scope R_scope.

Lemma minstd_canonical_range x : minstd_in x = true ->
  exists u, fst (minstd_canonical XRa x) = Fin u /\ 0 <= u < 1.
Proof.
  intros Hx. unfold minstd_canonical.
  pose proof (minstd_next_in _ Hx) as H1. pose proof (minstd_next_in _ H1) as H2.
  set (x1 := minstd_next x) in *. set (x2 := minstd_next x1) in *.
  apply minstd_in_spec in H1, H2. cbn [fst]. unfold minstd_range. xr.

  assert (B1 : 0 <= IZR (x1 - 1) <= 2147483645) by (split; apply IZR_le; lia).
  assert (B2 : 0 <= IZR (x2 - 1) <= 2147483645) by (split; apply IZR_le; lia).
  rewrite xdiv_fin by lra. xr.
  assert (B : 0 <= (IZR (x1 - 1) + IZR (x2 - 1) * 2147483646) / (2147483646 * 2147483646) < 1).
  { split.
    - apply Rmult_le_pos; [nra|]. left; apply Rinv_0_lt_compat; lra.
    - apply Rmult_lt_reg_r with (2147483646 * 2147483646); [lra|].
      unfold Rdiv. rewrite Rmult_assoc, Rinv_l by lra. nra. }
  rewrite Rleb_false by lra. eauto.
Qed.

Lemma minstd_valid : valid_rng (Minstd XRa).
Proof. intros [x Hx]. cbn [runif Minstd fst]. now apply minstd_canonical_range. Qed.

(** Never exactly zero: one draw of two is not the least. *)
Lemma minstd_canonical_open x : minstd_in x = true ->
  exists u, fst (minstd_canonical XRa x) = Fin u /\ 0 < u < 1.
Proof.
  intros Hx. destruct (minstd_canonical_range x Hx) as (u & E & B). exists u. split; auto.
  split; [|lra]. destruct (Req_dec u 0) as [->|]; [exfalso|lra].
  unfold minstd_canonical in E.
  pose proof (minstd_next_in _ Hx) as H1. pose proof (minstd_next_in _ H1) as H2.
  set (x1 := minstd_next x) in *. remember (minstd_next x1) as x2 eqn:E2.
  apply minstd_in_spec in H1, H2. cbn [fst] in E. unfold minstd_range in E.
  assert (N : (x1 - 1 <> 0 \/ x2 - 1 <> 0)%Z).
  { destruct (Z.eq_dec x1 1) as [Q|]; [|lia]. right. rewrite E2, Q. vm_compute. discriminate. }
  assert (P : 0 < IZR (x1 - 1) + IZR (x2 - 1) * 2147483646).
  { rewrite <- mult_IZR, <- plus_IZR. apply IZR_lt. lia. }
  change (nadd XRa) with xadd in E. change (nmul XRa) with xmul in E.
  change (ndiv XRa) with xdiv in E. cbn [nofZ XRa xadd xmul] in E.
  rewrite xdiv_fin in E by lra.
  assert (P2 : 0 < (IZR (x1 - 1) + IZR (x2 - 1) * 2147483646) / (2147483646 * 2147483646))
    by (apply Rdiv_lt_0_compat; lra).
  revert E. destruct (nleb XRa (Fin 1) (Fin _)).
  - change (nsub XRa) with xsub. change (neps XRa) with (Fin (/ IZR (2 ^ 52))).
    rewrite xdiv_fin by lra. cbn [xsub xadd xopp]. intros [= E].
    assert (0 < / IZR (2 ^ 52) < 1).
    { split; [apply Rinv_0_lt_compat|rewrite <- Rinv_1; apply Rinv_lt_contravar]; cbn; lra. }
    lra.
  - intros [= E]. lra.
Qed.

Lemma minstd_open : open_rng (Minstd XRa).
Proof. intros [x Hx]. cbn [runif Minstd fst]. now apply minstd_canonical_open. Qed.

Lemma open_valid G : open_rng G -> valid_rng G.
Proof. intros H s. destruct (H s) as (u & E & B). exists u. split; auto; lra. Qed.

(** A generator for examples: every uniform number is 1/2. *)
Definition half_rng : Rng XRa :=
  mkRng XRa Datatypes.unit (fun _ => tt) (fun s => (1%Z, s)) (fun s => (Fin (1 / 2), s)).
Lemma half_open : open_rng half_rng.
Proof. intros s. exists (1 / 2). split; [reflexivity|lra]. Qed.
Lemma half_draw n s : draw half_rng n s = Fin (1 / 2).
Proof. reflexivity. Qed.
