(** Reasoning about outcomes. *)
From Coq Require Import List String NArith Permutation.
From Verif Require Import Model.Num Model.Outcome Model.Std.
Import ListNotations.

Lemma insert_perm {X} (address : X -> N) x l : Permutation (insert_at address x l) (x :: l).
Proof.
  induction l as [|y l IH]; cbn; [reflexivity|]. destruct (N.ltb _ _); [reflexivity|].
  etransitivity; [apply perm_skip, IH|apply perm_swap].
Qed.
Lemma insert_in {X} (address : X -> N) x y l : In y (insert_at address x l) <-> y = x \/ In y l.
Proof.
  split; intros H.
  - apply (Permutation_in _ (insert_perm address x l)) in H. destruct H as [H|H]; auto.
  - apply (Permutation_in _ (Permutation_sym (insert_perm address x l))). destruct H as [H|H]; [left|right]; auto.
Qed.

Lemma bind_ok {X Y} (o : outcome X) (f : X -> outcome Y) y :
  bind o f = Ok y <-> exists x, o = Ok x /\ f x = Ok y.
Proof.
  destruct o; cbn; split; try discriminate; try (intros [? [? ?]]; discriminate); eauto.
  intros [z [E F]]; injection E as <-; auto.
Qed.

Lemma noexcept_ok {X} (o : outcome X) x : noexcept o = Ok x <-> o = Ok x.
Proof. destruct o; cbn; split; auto; discriminate. Qed.

Lemma noexcept_no_throw {X} (o : outcome X) m : noexcept o <> Throw m.
Proof. destruct o; cbn; discriminate. Qed.

Lemma mapM_ok {X Y} (f : X -> outcome Y) l : forall r,
  mapM f l = Ok r <-> Forall2 (fun x y => f x = Ok y) l r.
Proof.
  induction l as [|x l IH]; intros r; cbn.
  - split; [intros [= <-]; constructor|inversion 1; reflexivity].
  - rewrite bind_ok. split.
    + intros (y & E & H). apply bind_ok in H as (ys & E2 & [= <-]).
      constructor; auto. now apply IH.
    + inversion 1; subst. exists y; split; auto. apply bind_ok.
      exists l'; split; auto. now apply IH.
Qed.

Lemma foldM_app {X S} (f : S -> X -> outcome S) l1 l2 : forall s,
  foldM f (l1 ++ l2) s = bind (foldM f l1 s) (foldM f l2).
Proof. induction l1; intros s; cbn; auto. destruct (f s a); cbn; auto. Qed.

Lemma foldM_ext {X S} (f g : S -> X -> outcome S) l : forall s,
  (forall s x, In x l -> f s x = g s x) -> foldM f l s = foldM g l s.
Proof.
  induction l as [|x l IH]; intros s H; cbn; auto. rewrite H by now left.
  destruct (g s x); cbn; auto. apply IH. intros; apply H; now right.
Qed.

(** An invariant of a loop that succeeds. *)
Lemma foldM_inv {X S} (f : S -> X -> outcome S) (P : S -> Prop) l : forall s r,
  (forall s x s', In x l -> P s -> f s x = Ok s' -> P s') ->
  P s -> foldM f l s = Ok r -> P r.
Proof.
  induction l as [|a l IH]; intros s r Hf Hs; cbn.
  - now intros [= <-].
  - intros H. apply bind_ok in H as (s1 & E & F).
    apply (IH s1 r); auto.
    + intros; eapply Hf; eauto; now right.
    + eapply Hf; eauto; now left.
Qed.

(** Invert one [Ok] equation of binds. *)
Ltac oinv H :=
  lazymatch type of H with
  | bind _ _ = Ok _ =>
      let x := fresh "x" in let E := fresh "E" in
      apply (proj1 (bind_ok _ _ _)) in H as (x & E & H); oinv E; oinv H
  | noexcept _ = Ok _ => apply (proj1 (noexcept_ok _ _)) in H; oinv H
  | Ok _ = Ok _ => injection H as H
  | Throw _ = Ok _ => discriminate H
  | Terminate = Ok _ => discriminate H
  | UB = Ok _ => discriminate H
  | OutOfFuel = Ok _ => discriminate H
  | _ => idtac
  end.
