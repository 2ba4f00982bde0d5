(** Particle::Stream. *)
From Coq Require Import List Bool ZArith NArith Reals Lra.
From Verif Require Import Model.Num Model.Outcome Model.Rng Model.Xml Model.Std Model.Point
  Model.Types Model.Particle Model.Perturbation Spec.Vec Proofs.RealLib Proofs.OutcomeLib.
Import ListNotations.
Local Open Scope R_scope.

Lemma stream_ok {A : Arith} {G : Rng A} t (p : particle A G) d p' :
  stream t p d = Ok p' ->
  p' = set_position (set_indirect p (p_indirect p'))
         (padd (p_position p) (pscale (p_direction p) d)).
Proof.
  unfold stream; intros H; oinv H. subst. reflexivity.
Qed.

Lemma along_add o u s t : along (along o u s) u t = along o u (s + t).
Proof. unfold along, vadd, vscale; cbn; f_equal; ring. Qed.

Lemma C16_streaming_proof :
  forall (G : Rng XRa) (method : tracking) (p p' : particle XRa G) (o u : vec) (s : R),
    p_position p = pt o -> p_direction p = pt u ->
    stream method p (Fin s) = Ok p' ->
    p_position p' = pt (along o u s)
    /\ (unit u -> dist (along o u s) o = Rabs s)
    /\ p_direction p' = p_direction p /\ p_energy p' = p_energy p /\ p_type p' = p_type p
    /\ p_cell p' = p_cell p /\ p_event p' = p_event p /\ p_surface p' = p_surface p
    /\ p_rng p' = p_rng p /\ p_secondaries p' = p_secondaries p
    /\ (forall t p1 p2, stream method p' (Fin t) = Ok p1 ->
          stream method p (Fin (s + t)) = Ok p2 ->
          p1 = set_indirect p2 (p_indirect p1)).
Proof.
  intros G method p p' o u s Ho Hu E.
  pose proof (stream_ok _ _ _ _ E) as F.
  assert (Pos : p_position p' = pt (along o u s)).
  { rewrite F; cbn. rewrite Ho, Hu, pscale_pt, padd_pt; reflexivity. }
  split; [auto|split].
  - intros U. unfold dist, norm, along. apply unit_dot in U.
    replace (dot _ _) with (s * s * dot u u)
      by (destruct o, u; unfold dot, vsub, vadd, vscale; cbn; ring).
    rewrite U, Rmult_1_r. apply sqrt_Rsqr_abs.
  - repeat (split; [rewrite F; reflexivity|]).
    intros t p1 p2 E1 E2. apply stream_ok in E1, E2.
    rewrite E1, Pos. rewrite E2. rewrite F. cbn.
    rewrite Ho, Hu, !pscale_pt, !padd_pt. fold (along o u (s + t)).
    rewrite <- along_add. reflexivity.
Qed.

(** Without perturbations to follow, streaming always succeeds. *)
Lemma C16_streaming_succeeds_proof :
  forall (A : Arith) (G : Rng A) (method : tracking) (p : particle A G) (s : num A),
    p_indirect p = [] -> exists p', stream method p s = Ok p' /\ p_indirect p' = [].
Proof.
  intros A G method p s H. unfold stream. rewrite H. cbn. eauto.
Qed.
