(** The number of histories that are counted: property C112. *)
From Coq Require Import Bool List Reals Arith NArith Lra Lia.
From Coquelicot Require Import Coquelicot.
From Verif Require Import Model.Num Model.Outcome Model.Rng Model.Xml Model.Point Model.Types Model.Field
  Model.Particle Model.Multigroup Model.Material Model.World Model.Perturbation Model.Transport
  Spec.Vec Spec.MultigroupSpec Spec.ChanceSpec Spec.CollisionSpec Spec.AbsorbSpec Spec.BallSpec Spec.HitsSpec
  Proofs.ChanceLib Proofs.CollisionLaw Proofs.BirthLaw Proofs.SampleProblem Proofs.BallLaw.
Import ListNotations.
Local Open Scope R_scope.

(** What comes after an event, with further random numbers. *)
Lemma chance_then m (H : bool -> list R -> bool) y1 y0 : chance m (H true) y1 -> chance m (H false) y0 ->
  forall k E x, chance k E x ->
  chance (k + m) (fun l => H (E (firstn k l)) (skipn k l)) (x * y1 + (1 - x) * y0).
Proof.
  intros H1 H0. induction k as [|k IH]; intros E x HE.
  - cbn [chance] in HE. cbn [Nat.add firstn skipn]. destruct (E []); subst x.
    + replace (1 * y1 + (1 - 1) * y0) with y1 by ring. exact H1.
    + replace (0 * y1 + (1 - 0) * y0) with y0 by ring. exact H0.
  - destruct HE as (g & but & Hg & I). cbn [Nat.add].
    exists (fun u => g u * y1 + (1 - g u) * y0), but. split.
    + intros u Hu Nu. exact (IH _ _ (Hg u Hu Nu)).
    + pose proof (is_RInt_plus (V := R_NormedModule) _ _ _ _ _ _
        (is_RInt_scal (V := R_NormedModule) _ _ _ (y1 - y0) _ I) (integral_is 0 1 y0 y0 ltac:(ring))) as P.
      replace (x * y1 + (1 - x) * y0) with ((y1 - y0) * x + y0) by ring.
      eapply integral_ext; [lra| |exact P]. intros u _. cbv beta. unfold scal, plus. cbn. unfold mult. cbn. ring.
Qed.

Lemma choose_none n : forall j, (n < j)%nat -> choose n j = 0%nat.
Proof.
  induction n as [|n IH]; intros [|j] L; cbn; try lia. rewrite !IH by lia. reflexivity.
Qed.
Lemma choose_first n : choose n 0 = 1%nat.
Proof. now destruct n. Qed.
Lemma binomial_next n j x : binomial (S n) (S j) x = x * binomial n j x + (1 - x) * binomial n (S j) x.
Proof.
  unfold binomial. cbn [choose]. rewrite plus_INR.
  destruct (le_lt_dec (S j) n) as [L|L].
  - replace (S n - S j)%nat with (n - j)%nat by lia. replace (n - j)%nat with (S (n - S j)) by lia.
    rewrite <- !tech_pow_Rmult. ring.
  - rewrite (choose_none n (S j)) by lia. replace (S n - S j)%nat with (n - j)%nat by lia.
    rewrite <- !tech_pow_Rmult. cbn [INR]. ring.
Qed.
Lemma binomial_first n x : binomial (S n) 0 x = (1 - x) * binomial n 0 x.
Proof. unfold binomial. rewrite !choose_first, !Nat.sub_0_r. cbn [pow INR]. ring. Qed.

Lemma C112_independent_proof :
  forall (k : nat) (E : list R -> bool) (x : R), chance k E x ->
  forall n j, chance (n * k) (fun l => Nat.eqb (hits k E n l) j) (binomial n j x).
Proof.
  intros k E x HE. induction n as [|n IH]; intros j.
  - cbn [Nat.mul chance hits]. unfold binomial. destruct j as [|j]; cbn; ring.
  - cbn [Nat.mul]. destruct j as [|j].
    + replace (binomial (S n) 0 x) with (x * 0 + (1 - x) * binomial n 0 x) by (rewrite binomial_first; ring).
      eapply chance_ext;
        [|exact (chance_then (n * k) (fun b l => if b then false else Nat.eqb (hits k E n l) 0) 0 (binomial n 0 x)
            (chance_never _ _ (fun _ => eq_refl)) (IH 0%nat) k E x HE)].
      intros l. cbv beta. cbn [hits]. now destruct (E (firstn k l)).
    + rewrite binomial_next.
      eapply chance_ext;
        [|exact (chance_then (n * k) (fun b l => Nat.eqb (hits k E n l) (if b then j else S j))
            (binomial n j x) (binomial n (S j) x) (IH j) (IH (S j)) k E x HE)].
      intros l. cbv beta. cbn [hits]. now destruct (E (firstn k l)).
Qed.

Lemma C112_ball_proof :
  forall (X : Ext XRa) (Gs : list N) (doc : nuclide XRa -> node) (m : material XRa) (w : world XRa) (c : cell XRa)
    (g : N) (a : vec) (d r : R) (s : surf XRa) (t : tracking) (fuel : nat),
  mixture X Gs doc m -> absorbs X doc m g -> In g Gs ->
  c_material c = Some m -> m_density m = Fin d -> ball w c a r -> c_senses c = [(s, true)] ->
  forall n j,
  chance (n * 3)
    (fun l => Nat.eqb (hits 3 (fun l' => tallied t (1 + fuel) w (su_id s) 1 (isotropic_neutron a g l')) n l) j)
    (binomial n j (exp (- (d * mixed_sum doc m (fun n => sigma X n Rcapture g) * r)))).
Proof.
  intros X Gs doc m w c g a d r s t fuel M Ab Hg Em Hd B Cs n j.
  apply C112_independent_proof.
  exact (proj1 (C108_tally_proof X Gs doc m w c g a d r s t fuel 0 M Ab Hg Em Hd B Cs)).
Qed.

Lemma C112_example : forall t,
  chance 9
    (fun l => Nat.eqb (hits 3 (fun l' => tallied t 1 ball_world 0 1 (isotropic_neutron (V3 0 0 0) 1 l')) 3 l) 2)
    (3 * exp (-1) ^ 2 * (1 - exp (-1))).
Proof.
  intros t. destruct C108_example as (Mx & Ab & Hg & Em & Hd & B & Cs & S1).
  pose proof (C112_ball_proof slab_ext [1]%N (fun _ => slab_node) slab_material ball_world ball_cell 1 (V3 0 0 0) 1 1
    sphere t 0 Mx Ab Hg Em Hd B Cs 3 2) as H.
  rewrite S1 in H.
  assert (V : binomial 3 2 (exp (- (1))) = 3 * exp (-1) ^ 2 * (1 - exp (-1))).
  { unfold binomial. cbn [choose Nat.add Nat.sub INR]. replace (- (1)) with (-1) by ring. ring. }
  rewrite V in H. exact H.
Qed.
