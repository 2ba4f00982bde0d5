(** More fuel changes nothing once a computation ends. *)
From Coq Require Import Bool String List ZArith NArith Lia.
From Verif Require Import Model.Num Model.Outcome Model.Rng Model.Xml Model.Std Model.Point
  Model.Surface Model.Types Model.Bins Model.Field Model.Tables Model.Particle Model.Thermal
  Model.Multigroup Model.Continuous Model.Material Model.World Model.Perturbation
  Model.Estimator Model.Transport Model.Driver Proofs.OutcomeLib.
Import ListNotations.

(** [o] ran out of fuel or is already [o']. *)
Definition upto {X} (o o' : outcome X) : Prop := o = OutOfFuel \/ o = o'.

Lemma upto_refl {X} (o : outcome X) : upto o o.
Proof. now right. Qed.
Lemma upto_ok {X} (o o' : outcome X) x : upto o o' -> o = Ok x -> o' = Ok x.
Proof. intros [-> | ->]; congruence. Qed.
Lemma upto_bind {X Y} (o o' : outcome X) (f f' : X -> outcome Y) :
  upto o o' -> (forall x, o = Ok x -> upto (f x) (f' x)) -> upto (bind o f) (bind o' f').
Proof. intros [-> | <-] H; [now left|]. destruct o; cbn; auto; now right. Qed.
Lemma upto_noexcept {X} (o o' : outcome X) : upto o o' -> upto (noexcept o) (noexcept o').
Proof. intros [-> | <-]; [now left|now right]. Qed.
Lemma upto_if {X} (b : bool) (o1 o2 p1 p2 : outcome X) :
  upto o1 p1 -> upto o2 p2 -> upto (if b then o1 else o2) (if b then p1 else p2).
Proof. destruct b; auto. Qed.

Ltac upto_step :=
  first [ apply upto_refl
        | apply upto_noexcept
        | apply upto_bind; [|let x := fresh "x" in let E := fresh "E" in intros x E]
        | apply upto_if
        | match goal with |- upto (let (_, _) := ?v in _) _ => destruct v end
        | match goal with |- upto (match ?v with _ => _ end) _ => destruct v end ].
Ltac upto := repeat upto_step.

Section Fuel.
  Context {A : Arith} {G : Rng A}.
  Notation particle := (particle A G).
  Implicit Types p : particle.

  Lemma free_gas_target_fuel f : forall f' y p, (f <= f')%nat ->
    upto (free_gas_target f y p) (free_gas_target f' y p).
  Proof.
    induction f as [|f IH]; intros f' y p L; [now left|]. destruct f' as [|f']; [lia|].
    cbn [free_gas_target].
    destruct (p_unif p) as [xi1 p1]. destruct (p_unif p1) as [xi2 p2].
    destruct (p_unif p2) as [test p3].
    match goal with |- upto (let (_, _) := ?v in _) _ => destruct v as [x p4] end.
    destruct (p_unif p4) as [u p5]. destruct (p_unif p5) as [acc p6].
    apply upto_if; [apply IH; lia|apply upto_refl].
  Qed.

  Lemma free_gas_scatter_fuel f f' awr p : (f <= f')%nat ->
    upto (free_gas_scatter f awr p) (free_gas_scatter f' awr p).
  Proof.
    intros L. unfold free_gas_scatter. apply upto_bind; [apply upto_refl|intros E0 _].
    apply upto_bind; [apply upto_refl|intros c _].
    apply upto_bind; [now apply free_gas_target_fuel|intros; apply upto_refl].
  Qed.

  Lemma cr_interact_fuel f f' r p : (f <= f')%nat ->
    upto (cr_interact f r p) (cr_interact f' r p).
  Proof.
    intros L. unfold cr_interact. apply upto_noexcept. destruct r; try apply upto_refl.
    apply upto_bind; [apply upto_refl|intros b _].
    destruct b; [destruct tsl; [apply upto_refl|]|]; now apply free_gas_scatter_fuel.
  Qed.

  Lemma co_interact_fuel f : forall f' co p, (f <= f')%nat ->
    upto (co_interact f co p) (co_interact f' co p).
  Proof.
    induction f as [|f IH]; intros f' co p L; [now left|]. destruct f' as [|f']; [lia|].
    cbn [co_interact]. apply upto_noexcept. destruct (p_unif p) as [u p1].
    apply upto_bind; [apply upto_refl|intros total _].
    apply upto_bind; [apply upto_refl|intros sel _].
    destruct sel; [apply cr_interact_fuel|apply IH]; lia.
  Qed.

  Lemma nu_interact_fuel f f' nu p : (f <= f')%nat ->
    upto (nu_interact f nu p) (nu_interact f' nu p).
  Proof.
    intros L. unfold nu_interact. upto. now apply co_interact_fuel.
  Qed.

  Lemma collide_fuel f f' t d p : (f <= f')%nat -> upto (collide f t d p) (collide f' t d p).
  Proof.
    intros L. unfold collide. apply upto_bind; [apply upto_refl|intros p1 _].
    apply upto_bind; [apply upto_refl|intros [nu p2] _]. now apply nu_interact_fuel.
  Qed.

  Lemma step_fuel t f f' w p : (f <= f')%nat ->
    upto (transport_step t f w p) (transport_step t f' w p).
  Proof.
    intros L. destruct t; cbn [transport_step].
    - unfold surface_step. apply upto_bind; [apply upto_refl|intros [d p1] _].
      apply upto_bind; [apply upto_refl|intros c _].
      apply upto_bind; [apply upto_refl|intros [s ds] _].
      apply upto_if; [now apply collide_fuel|apply upto_refl].
    - unfold delta_step. apply upto_bind; [apply upto_refl|intros [d p1] _].
      apply upto_bind; [apply upto_refl|intros c _].
      apply upto_bind; [apply upto_refl|intros [s ds] _].
      apply upto_if; [apply upto_refl|].
      apply upto_bind; [apply upto_refl|intros m _].
      apply upto_bind; [apply upto_refl|intros tot _].
      apply upto_bind; [apply upto_refl|intros maj _].
      destruct (bernoulli G _ _) as [real s']. apply upto_if; [now apply collide_fuel|apply upto_refl].
  Qed.

  Lemma loop_fuel {E} (score : E -> particle -> outcome E) t w f : forall f' e p, (f <= f')%nat ->
    upto (transport_loop score t f w e p) (transport_loop score t f' w e p).
  Proof.
    induction f as [|f IH]; intros f' e p L; cbn [transport_loop].
    - destruct f'; cbn [transport_loop]; destruct (is_alive p); auto using upto_refl; now left.
    - destruct f' as [|f']; [lia|]. cbn [transport_loop]. apply upto_if; [|apply upto_refl].
      apply upto_bind; [apply step_fuel; lia|intros p1 _].
      apply upto_bind; [apply upto_refl|intros e1 _]. apply IH. lia.
  Qed.

  Lemma transport_fuel {E} (score : E -> particle -> outcome E) t w f f' e p : (f <= f')%nat ->
    upto (transport score t f w e p) (transport score t f' w e p).
  Proof.
    intros L. unfold transport. apply upto_noexcept.
    apply upto_bind; [apply upto_refl|intros c _]. now apply loop_fuel.
  Qed.

  Lemma bank_loop_fuel {E} (score : E -> particle -> outcome E) (dr : driver) f : forall f' e bank,
    (f <= f')%nat -> upto (bank_loop score dr f e bank) (bank_loop score dr f' e bank).
  Proof.
    induction f as [|f IH]; intros f' e bank L.
    - destruct f'; cbn [bank_loop]; destruct (rev bank); auto using upto_refl; now left.
    - destruct f' as [|f']; [lia|]. cbn [bank_loop]. destruct (rev bank) as [|back front]; [apply upto_refl|].
      apply upto_bind; [apply transport_fuel; lia|intros [e1 p1] _]. apply IH. lia.
  Qed.

  Lemma run_history_fuel (dr : driver) f f' ests i : (f <= f')%nat ->
    upto (run_history (G := G) dr f ests i) (run_history (G := G) dr f' ests i).
  Proof.
    intros L. unfold run_history. apply upto_bind; [now apply bank_loop_fuel|].
    intros px _. apply upto_refl.
  Qed.
End Fuel.
