(** Computing with the exact-real instance. *)
From Coq Require Import ZArith NArith Reals Lra Lia Bool.
From Coquelicot Require Import Coquelicot.
From Verif Require Import Model.Num Model.Point Spec.Vec.
Local Open Scope R_scope.

Lemma Rltb_spec a b : reflect (a < b) (Rltb a b).
Proof. unfold Rltb; destruct (Rlt_dec a b); constructor; auto. Qed.
Lemma Rleb_spec a b : reflect (a <= b) (Rleb a b).
Proof. unfold Rleb; destruct (Rle_dec a b); constructor; auto. Qed.
Lemma Reqb_spec a b : reflect (a = b) (Reqb a b).
Proof. unfold Reqb; destruct (Req_EM_T a b); constructor; auto. Qed.

Lemma Rltb_true a b : a < b -> Rltb a b = true.
Proof. destruct (Rltb_spec a b); auto; lra. Qed.
Lemma Rltb_false a b : b <= a -> Rltb a b = false.
Proof. destruct (Rltb_spec a b); auto; lra. Qed.
Lemma Rleb_true a b : a <= b -> Rleb a b = true.
Proof. destruct (Rleb_spec a b); auto; lra. Qed.
Lemma Rleb_false a b : b < a -> Rleb a b = false.
Proof. destruct (Rleb_spec a b); auto; lra. Qed.
Lemma Reqb_true a b : a = b -> Reqb a b = true.
Proof. destruct (Reqb_spec a b); auto; lra. Qed.
Lemma Reqb_false a b : a <> b -> Reqb a b = false.
Proof. destruct (Reqb_spec a b); auto; lra. Qed.

Lemma xdiv_fin x y : y <> 0 -> xdiv (Fin x) (Fin y) = Fin (x / y).
Proof. intros H; cbn; rewrite Reqb_false; auto. Qed.
Lemma xsqrt_fin x : 0 <= x -> xsqrt (Fin x) = Fin (sqrt x).
Proof. intros H; cbn; rewrite Rltb_false; auto. Qed.
Lemma xlog_fin x : 0 < x -> xlog (Fin x) = Fin (ln x).
Proof. intros H; cbn; rewrite Rltb_true; auto. Qed.

(** Unfold the operations of [XRa] on literal [Fin]s. *)
Ltac xr :=
  cbn [nofZ ndec nadd nsub nmul ndiv nopp nabs nsqrt nltb nleb neqb ninf ntoN ncos nsin
       nlog nexp nerf npow npi neps XRa xadd xsub xopp xmul xabs xltb xleb xeqb xcos xsin
       xexp xerf] in *.

(** Case analysis on the first real comparison of the goal. *)
Ltac rcase :=
  match goal with
  | |- context [Rltb ?a ?b] => destruct (Rltb_spec a b)
  | |- context [Rleb ?a ?b] => destruct (Rleb_spec a b)
  | |- context [Reqb ?a ?b] => destruct (Reqb_spec a b)
  end.

(** Split conjunctions only. *)
Ltac parts := repeat match goal with |- _ /\ _ => split end.

(** Evaluate written decimals. *)
Ltac decs :=
  repeat match goal with
  | |- context [Rdec ?m ?e] =>
      let e' := eval vm_compute in e in
      let m' := eval vm_compute in m in
      lazymatch e' with
      | Z.neg ?k => let d := eval vm_compute in (10 ^ (Zpos k))%Z in
                    change (Rdec m e) with (IZR m' / IZR d)%R
      | _ => let v := eval vm_compute in (m * 10 ^ e)%Z in change (Rdec m e) with (IZR v)
      end
  end.

Lemma Fin_inj a b : Fin a = Fin b -> a = b.
Proof. now injection 1. Qed.

Lemma pt_eta p x y z :
  p = mkPoint (A := XRa) (Fin x) (Fin y) (Fin z) -> p = pt (V3 x y z).
Proof. intros ->; reflexivity. Qed.

Lemma padd_pt a b : padd (pt a) (pt b) = pt (vadd a b).
Proof. reflexivity. Qed.
Lemma psub_pt a b : psub (pt a) (pt b) = pt (vsub a b).
Proof. reflexivity. Qed.
Lemma pscale_pt a t : pscale (A := XRa) (pt a) (Fin t) = pt (vscale t a).
Proof. unfold pscale, pt; cbn; rewrite !(Rmult_comm _ t); reflexivity. Qed.
Lemma pdot_pt a b : pdot (pt a) (pt b) = Fin (dot a b).
Proof. reflexivity. Qed.
Lemma pdiv_pt a t : t <> 0 -> pdiv (A := XRa) (pt a) (Fin t) = pt (vscale (/ t) a).
Proof.
  intros H; unfold pdiv, pt; cbn [px py pz]; xr; rewrite !xdiv_fin by auto.
  unfold vscale, Rdiv; cbn; rewrite !(Rmult_comm _ (/ t)); reflexivity.
Qed.
Lemma pt_inj a b : pt a = pt b -> a = b.
Proof. destruct a, b; unfold pt; cbn; injection 1; intros; subst; reflexivity. Qed.

Lemma dot_nonneg a : 0 <= dot a a.
Proof. unfold dot; nra. Qed.
Lemma dot_zero a : dot a a = 0 -> a = zero_vec.
Proof.
  destruct a as [x y z]; unfold dot, zero_vec; cbn; intros H.
  assert (x = 0) by nra; assert (y = 0) by nra; assert (z = 0) by nra; subst; reflexivity.
Qed.
Lemma dot_pos a : a <> zero_vec -> 0 < dot a a.
Proof.
  intros H; destruct (Req_dec (dot a a) 0) as [E|E].
  - now apply dot_zero in E.
  - pose proof (dot_nonneg a); lra.
Qed.
Lemma unit_dot a : unit a <-> dot a a = 1.
Proof.
  unfold unit, norm; split; intros H.
  - rewrite <- (sqrt_sqrt (dot a a)) by apply dot_nonneg. rewrite H; lra.
  - rewrite H; apply sqrt_1.
Qed.
Lemma pnormalize_pt a : a <> zero_vec -> pnormalize (pt a) = pt (vscale (/ norm a) a).
Proof.
  intros H; pose proof (dot_pos a H) as P.
  unfold pnormalize; rewrite pdot_pt; xr; rewrite xsqrt_fin by lra.
  apply pdiv_pt; fold (norm a); unfold norm.
  pose proof (sqrt_lt_R0 _ P); lra.
Qed.
Lemma norm_pos a : a <> zero_vec -> 0 < norm a.
Proof. intros H; apply sqrt_lt_R0, dot_pos, H. Qed.
Lemma unit_normalized a : a <> zero_vec -> unit (vscale (/ norm a) a).
Proof.
  intros H; apply unit_dot.
  pose proof (norm_pos a H) as P.
  assert (E : dot (vscale (/ norm a) a) (vscale (/ norm a) a) = / norm a * / norm a * dot a a)
    by (unfold dot, vscale; cbn; ring).
  rewrite E; replace (dot a a) with (norm a * norm a)
    by (apply sqrt_sqrt, dot_nonneg).
  field; lra.
Qed.
Lemma unit_nonzero a : unit a -> a <> zero_vec.
Proof. intros H ->; apply unit_dot in H; unfold dot in H; cbn in H; lra. Qed.
Lemma unit_norm1 a : unit a -> pnormalize (pt a) = pt a.
Proof.
  intros H; rewrite pnormalize_pt by (now apply unit_nonzero).
  red in H; rewrite H, Rinv_1; destruct a; unfold vscale; cbn; rewrite !Rmult_1_l; reflexivity.
Qed.

(** Evaluate comparisons that linear arithmetic decides. *)
Ltac decide_reals :=
  repeat match goal with
  | |- context [Rltb ?a ?b] =>
      first [rewrite (Rltb_true a b) by lra | rewrite (Rltb_false a b) by lra]
  | |- context [Rleb ?a ?b] =>
      first [rewrite (Rleb_true a b) by lra | rewrite (Rleb_false a b) by lra]
  | |- context [Reqb ?a ?b] =>
      first [rewrite (Reqb_true a b) by lra | rewrite (Reqb_false a b) by lra]
  end.
