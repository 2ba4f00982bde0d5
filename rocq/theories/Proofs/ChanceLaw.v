(** Chances are probabilities: property C98. *)
From Coq Require Import Bool List Reals Lra Lia.
From Coquelicot Require Import Coquelicot.
From Verif Require Import Model.Num Model.Rng Spec.ChanceSpec Spec.BoxSpec Proofs.ChanceLib.
Import ListNotations.
Local Open Scope R_scope.

Lemma integral_plus f g a b x y : integral f a b x -> integral g a b y -> integral (fun u => f u + g u) a b (x + y).
Proof. exact (is_RInt_plus (V := R_NormedModule) f g a b x y). Qed.

Lemma chance_not n : forall E x, chance n E x -> chance n (fun l => negb (E l)) (1 - x).
Proof.
  induction n as [|n IH]; intros E x; cbn [chance].
  - intros ->. destruct (E []); cbn; lra.
  - intros (g & but & Hg & I). exists (fun u => 1 - g u), but. split; [intros u Hu N; exact (IH _ _ (Hg u Hu N))|].
    pose proof (is_RInt_minus (V := R_NormedModule) _ _ _ _ _ _ (integral_is 0 1 1 1 ltac:(ring)) I) as P.
    exact P.
Qed.

Lemma chance_or n : forall E F x y, (forall l, E l && F l = false) -> chance n E x -> chance n F y ->
  chance n (fun l => E l || F l) (x + y).
Proof.
  induction n as [|n IH]; intros E F x y Ds; cbn [chance].
  - intros -> ->. specialize (Ds []). destruct (E []), (F []); cbn in *; try discriminate; lra.
  - intros (g & b1 & Hg & I1) (h & b2 & Hh & I2). exists (fun u => g u + h u), (b1 ++ b2)%list.
    split; [|now apply integral_plus]. intros u Hu N. rewrite in_app_iff in N.
    apply (IH (fun l => E (u :: l)) (fun l => F (u :: l))); [intros l; apply Ds|apply Hg|apply Hh]; tauto.
Qed.

Lemma chance_box bs : List.Forall (fun b => 0 <= fst b /\ fst b <= snd b <= 1) bs ->
  chance (length bs) (in_box bs) (volume bs).
Proof.
  induction bs as [|[a b] bs IH]; intros F; cbn [length chance volume]; [reflexivity|].
  apply Forall_cons_iff in F as [Hab F]. cbn [fst snd] in Hab.
  exists (fun u => if Rlt_dec u a then 0 else if Rlt_dec u b then volume bs else 0), []. split.
  - intros u Hu _. cbn [in_box]. destruct (Rlt_dec u a); [|destruct (Rlt_dec u b)].
    + apply (chance_ext _ (fun _ => false)); [reflexivity|apply (chance_const _ false)].
    + exact (IH F).
    + apply (chance_ext _ (fun _ => false)); [reflexivity|apply (chance_const _ false)].
  - replace ((b - a) * volume bs) with (0 + ((b - a) * volume bs + 0)) by ring.
    apply integral_chasles with a; [|apply integral_chasles with b].
    + apply (integral_ext (fun _ => 0)); [lra| |apply integral_is; ring].
      intros u Hu. destruct (Rlt_dec u a); [reflexivity|lra].
    + apply (integral_ext (fun _ => volume bs)); [lra| |apply integral_is; ring].
      intros u Hu. destruct (Rlt_dec u a); [lra|]. destruct (Rlt_dec u b); [reflexivity|lra].
    + apply (integral_ext (fun _ => 0)); [lra| |apply integral_is; ring].
      intros u Hu. destruct (Rlt_dec u a); [lra|]. destruct (Rlt_dec u b); [lra|reflexivity].
Qed.

Lemma C98_probability_proof :
  (* between nought and one *)
  (forall n E x, chance n E x -> 0 <= x <= 1)
  (* the contrary *)
  /\ (forall n E x, chance n E x -> chance n (fun l => negb (E l)) (1 - x))
  (* one or the other of two that exclude each other *)
  /\ (forall n E F x y, (forall l, E l && F l = false) -> chance n E x -> chance n F y ->
        chance n (fun l => E l || F l) (x + y))
  (* independent and uniform *)
  /\ (forall bs, List.Forall (fun b => 0 <= fst b /\ fst b <= snd b <= 1) bs ->
        chance (length bs) (in_box bs) (volume bs)).
Proof. split; [exact chance_bounds|]. split; [exact chance_not|]. split; [exact chance_or|exact chance_box]. Qed.
