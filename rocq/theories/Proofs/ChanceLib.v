(** Integrals and probabilities. *)
From Coq Require Import List Reals Lra Lia.
From Coquelicot Require Import Coquelicot.
From Verif Require Import Model.Num Model.Rng Spec.RngSpec Spec.ChanceSpec.
Import ListNotations.
Local Open Scope R_scope.

(** ** Integrals *)

Notation integral f a b x := (is_RInt (V := R_NormedModule) f a b x).

Lemma integral_const a b c : integral (fun _ => c) a b ((b - a) * c).
Proof. exact (is_RInt_const (V := R_NormedModule) a b c). Qed.
Lemma integral_is a b c x : x = (b - a) * c -> integral (fun _ => c) a b x.
Proof. intros ->. apply integral_const. Qed.

Lemma integral_chasles f a m b x y :
  integral f a m x -> integral f m b y -> integral f a b (x + y).
Proof. exact (is_RInt_Chasles (V := R_NormedModule) f a m b x y). Qed.

Lemma integral_ext f g a b x : a <= b ->
  (forall u, a < u < b -> f u = g u) -> integral f a b x -> integral g a b x.
Proof.
  intros Hab E. apply is_RInt_ext. rewrite Rmin_left, Rmax_right by auto. exact E.
Qed.

Lemma integral_zero l : forall a b h, a <= b ->
  (forall u, a < u < b -> ~ In u l -> h u = 0) -> integral h a b 0.
Proof.
  induction l as [|y l IH]; intros a b h Hab E.
  - apply (integral_ext (fun _ => 0)); auto.
    + intros u Hu. symmetry. now apply E.
    + apply integral_is. ring.
  - destruct (Rle_lt_dec y a) as [Ya|Ya]; [|destruct (Rle_lt_dec b y) as [Yb|Yb]].
    + apply IH; auto. intros u Hu N. apply E; auto. intros [->|I]; [lra|auto].
    + apply IH; auto. intros u Hu N. apply E; auto. intros [->|I]; [lra|auto].
    + replace 0 with (0 + 0) by ring. apply integral_chasles with y; (apply IH; [lra|]);
        intros u Hu N; (apply E; [lra|]); intros [->|I]; [lra|auto|lra|auto].
Qed.

Lemma integral_but l f g a b x : a <= b ->
  (forall u, a < u < b -> ~ In u l -> f u = g u) -> integral f a b x -> integral g a b x.
Proof.
  intros Hab E If.
  assert (Z : integral (fun u => g u - f u) a b 0).
  { apply (integral_zero l); auto. intros u Hu N. rewrite (E u Hu N). change (g u - g u = 0). ring. }
  pose proof (is_RInt_plus (V := R_NormedModule) _ _ _ _ _ _ If Z) as P.
  change (integral (fun u => f u + (g u - f u)) a b (x + 0)) in P. rewrite Rplus_0_r in P.
  revert P. apply integral_ext; auto. intros u _. change (f u + (g u - f u) = g u). ring.
Qed.

Lemma integral_unique f a b x y : integral f a b x -> integral f a b y -> x = y.
Proof.
  intros X Y.
  rewrite <- (is_RInt_unique (V := R_CompleteNormedModule) f a b x X).
  exact (is_RInt_unique (V := R_CompleteNormedModule) f a b y Y).
Qed.

(** ** Chances *)

Lemma inside_is u : 0 < u < 1 -> inside u = u.
Proof.
  intros H. unfold inside. destruct (Rlt_dec 0 u); [|lra]. destruct (Rlt_dec u 1); lra.
Qed.

Lemma inside_range u : 0 < inside u < 1.
Proof. unfold inside. destruct (Rlt_dec 0 u); [destruct (Rlt_dec u 1)|]; lra. Qed.

Lemma given_open : open_rng Given.
Proof. intros s. exists (inside (hd (/ 2) s)). split; [reflexivity|apply inside_range]. Qed.

Lemma C98_unique_proof :
  forall (n : nat) (E : list R -> bool) (x y : R), chance n E x -> chance n E y -> x = y.
Proof.
  induction n as [|n IH]; intros E x y; cbn [chance].
  - congruence.
  - intros (g1 & b1 & G1 & I1) (g2 & b2 & G2 & I2).
    apply (integral_unique g2 0 1); auto.
    revert I1. apply (integral_but (b1 ++ b2)); [lra|].
    intros u Hu N. rewrite in_app_iff in N.
    apply (IH (fun l => E (u :: l))); [apply G1|apply G2]; tauto.
Qed.

Lemma chance_ext n : forall E F x, (forall l, E l = F l) -> chance n E x -> chance n F x.
Proof.
  induction n as [|n IH]; intros E F x EF; cbn [chance].
  - now rewrite EF.
  - intros (g & but & Hg & I). exists g, but. split; auto. intros u Hu N.
    apply (IH (fun l => E (u :: l))); auto.
Qed.

Lemma chance_const n b : chance n (fun _ => b) (if b then 1 else 0).
Proof.
  induction n as [|n IH]; cbn [chance]; auto.
  exists (fun _ => if b then 1 else 0), []. split; auto.
  apply integral_is. ring.
Qed.

Lemma chance_bounds n : forall E x, chance n E x -> 0 <= x <= 1.
Proof.
  induction n as [|n IH]; intros E x; cbn [chance].
  - intros ->. destruct (E []); lra.
  - intros (g & but & Hg & I).
    assert (B : forall u, 0 < u < 1 -> ~ In u but -> 0 <= g u <= 1) by (intros; eapply IH; eauto).
    set (h := fun u => Rmax 0 (Rmin (g u) 1)).
    assert (Ih : integral h 0 1 x).
    { revert I. apply (integral_but but); [lra|]. intros u Hu N. unfold h.
      destruct (B u Hu N). rewrite Rmin_left, Rmax_right by auto. reflexivity. }
    split.
    + apply (is_RInt_le (fun _ => 0) h 0 1 0 x); [lra| |auto|].
      * apply integral_is. ring.
      * intros u _. apply Rmax_l.
    + apply (is_RInt_le h (fun _ => 1) 0 1 x 1); [lra|auto| |].
      * apply integral_is. ring.
      * intros u _. unfold h. apply Rmax_lub; [lra|apply Rmin_r].
Qed.

(** ** Bounds of chances *)

Lemma at_most_mono n : forall (E F : list R -> Prop) x y,
  (forall l, length l = n -> List.Forall (fun u => 0 < u < 1) l -> E l -> F l) -> x <= y ->
  at_most n F x -> at_most n E y.
Proof.
  induction n as [|n IH]; intros E F x y EF Hxy; cbn [at_most].
  - intros [H1 H2]. split; [lra|]. intros H. specialize (H2 (EF [] eq_refl (List.Forall_nil _) H)). lra.
  - intros (g & but & z & Hg & I & Hz). exists g, but, z. split; [|split; [auto|lra]].
    intros u Hu N. apply (IH _ (fun l => F (u :: l)) (g u)); [|lra|auto].
    intros l Hl Fl. apply EF; [cbn; auto|auto].
Qed.

Lemma at_most_nonneg n : forall E x, at_most n E x -> 0 <= x.
Proof.
  induction n as [|n IH]; intros E x; cbn [at_most]; [tauto|].
  intros (g & but & y & Hg & I & Hy).
  assert (B : forall u, 0 < u < 1 -> ~ In u but -> 0 <= g u) by (intros; eapply IH; eauto).
  set (h := fun u => Rmax 0 (g u)).
  assert (Ih : integral h 0 1 y).
  { revert I. apply (integral_but but); [lra|]. intros u Hu N. unfold h.
    rewrite Rmax_right by auto. reflexivity. }
  enough (0 <= y) by lra.
  apply (is_RInt_le (fun _ => 0) h 0 1 0 y); [lra| |auto|].
  - apply integral_is. ring.
  - intros u _. apply Rmax_l.
Qed.

(** An event that has a probability has at most that one. *)
Lemma chance_at_most n : forall E x, chance n E x -> at_most n (fun l => E l = true) x.
Proof.
  induction n as [|n IH]; intros E x; cbn [chance at_most].
  - intros ->. destruct (E []); (split; [lra|]); [intros; lra|discriminate].
  - intros (g & but & Hg & I). exists g, but, x. split; [|split; [auto|lra]].
    intros u Hu N. apply (IH (fun l => E (u :: l))). auto.
Qed.

Lemma at_most_const n (E : list R -> Prop) x : 0 <= x -> (forall l, E l -> 1 <= x) -> at_most n E x.
Proof.
  revert E. induction n as [|n IH]; intros E Hx H; cbn [at_most]; [split; [auto|exact (H [])]|].
  exists (fun _ => x), [], x. split; [|split; [apply integral_is; ring|lra]].
  intros u _ _. apply (IH (fun l => E (u :: l)) Hx). intros l; apply H.
Qed.

(** One more draw: a bound for every value of it. *)
Lemma at_most_draw n (E : list R -> Prop) x :
  (forall u, 0 < u < 1 -> at_most n (fun l => E (u :: l)) x) -> at_most (S n) E x.
Proof.
  intros H. exists (fun _ => x), [], x. split; [auto|split; [apply integral_is; ring|lra]].
Qed.

(** One more draw, below or above [c]. *)
Lemma at_most_split n (E : list R -> Prop) c x y : 0 <= c <= 1 ->
  (forall u, 0 < u < c -> at_most n (fun l => E (u :: l)) x) ->
  (forall u, c < u < 1 -> at_most n (fun l => E (u :: l)) y) ->
  at_most (S n) E (c * x + (1 - c) * y).
Proof.
  intros Hc Hx Hy.
  exists (fun u => if Rlt_dec u c then x else y), [c], (c * x + (1 - c) * y).
  split; [|split; [|lra]].
  - intros u Hu N. assert (u <> c) by (intros ->; apply N; now left).
    destruct (Rlt_dec u c); [apply Hx|apply Hy]; lra.
  - apply (integral_chasles _ 0 c 1).
    + apply (integral_ext (fun _ => x)); [lra| |apply integral_is; ring].
      intros u Hu. destruct (Rlt_dec u c); [auto|lra].
    + apply (integral_ext (fun _ => y)); [lra| |apply integral_is; ring].
      intros u Hu. destruct (Rlt_dec u c); [lra|auto].
Qed.
