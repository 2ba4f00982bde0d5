(** Continuous-energy fission over the reals. *)
From Coq Require Import Bool String List Reals ZArith NArith Lra Lia.
From Coquelicot Require Import Coquelicot.
From Verif Require Import Model.Num Model.Outcome Model.Rng Model.Xml Model.Std Model.Point
  Model.Surface Model.Types Model.Tables Model.Particle Model.Multigroup Model.Continuous
  Spec.Vec Spec.RngSpec Spec.DirectionSpec Spec.SumSpec Spec.MultigroupSpec Proofs.RealLib
  Proofs.OutcomeLib Proofs.BinsProofs Proofs.DirectionProofs Proofs.MultigroupProofs
  Proofs.MultigroupReal.
Import ListNotations.
Local Open Scope R_scope.

Lemma co_fission_loop_real (G : Rng XRa) : forall k (p : particle XRa G), valid_rng G ->
  exists new, p_secondaries (co_fission_loop k p) = (p_secondaries p ++ new)%list
    /\ length new = k
    /\ List.Forall (fun s => born_at p s /\ p_energy s = p_energy p) new
    /\ same_place p (co_fission_loop k p) /\ p_event (co_fission_loop k p) = p_event p
    /\ p_energy (co_fission_loop k p) = p_energy p
    /\ p_direction (co_fission_loop k p) = p_direction p.
Proof.
  induction k as [|k IH]; intros p V.
  - exists []. cbn. parts; auto; try (now rewrite app_nil_r). constructor; auto.
  - cbn [co_fission_loop]. pose proof (isotropic_unit G (p_rng p) V) as U.
    destruct (dir_isotropic G (p_rng p)) as [d s] eqn:Ed. cbn [fst] in U.
    destruct (IH (bank_secondary (set_rng p s) d (p_energy p)) V)
      as (new & H1 & H2 & H4 & [H5 H6 H7 H8 H9] & H10 & H11 & H12).
    unfold bank_secondary in *. cbn [p_rng set_rng] in *.
    destruct (rraw G s) as [seed s'] eqn:Er.
    exists (new_particle (p_position p) d (p_energy p) neutron seed (p_cell p) :: new)%list.
    cbn [p_position p_cell p_energy p_event p_direction p_secondaries set_rng] in *. parts; auto.
    + rewrite H1. cbn. now rewrite <- app_assoc.
    + cbn. now f_equal.
    + constructor.
      * split; [|reflexivity]. constructor; auto; try reflexivity.
        exists (p_rng p). rewrite Ed. cbn. rewrite Er. auto.
      * rewrite Forall_forall in *. intros x Hx. destruct (H4 x Hx) as [[] Hxh].
        split; [constructor|]; auto.
    + constructor; auto.
Qed.

Lemma C27_continuous_secondaries_proof :
  forall (G : Rng XRa) fuel ev (nubar : cmap XRa 1) (p : particle XRa G) E nu,
  valid_rng G -> p_energy p = ContinuousE (A := XRa) (Fin E) ->
  cm1_at nubar (Fin E) = Ok (Fin nu) -> 0 <= nu -> nu < IZR (2 ^ 63) ->
  exists u q new, fst (runif G (p_rng p)) = Fin u
    /\ cr_interact fuel (CFission ev (Some nubar)) p = Ok q
    /\ p_secondaries q = (p_secondaries p ++ new)%list
    /\ INR (length new) <= nu + u < INR (length new) + 1
    /\ List.Forall (fun s => born_at p s /\ p_energy s = ContinuousE (A := XRa) (Fin E)) new
    /\ p_event q = fission /\ is_alive q = false /\ same_place p q.
Proof.
  intros G fuel ev nubar p E nu V Ep El N0 N1.
  unfold cr_interact. cbn [of_option bind].
  change (p_energy (set_event p fission)) with (p_energy p). rewrite Ep.
  cbn [get_continuous bind]. rewrite El. cbn [bind].
  destruct (unif_fin G (set_event p fission) V) as (u & Hu & Eu & Euu). rewrite Euu.
  assert (N2 : nu < IZR (2 ^ 64) - 1).
  { eapply Rlt_trans; [exact N1|]. rewrite <- minus_IZR. apply IZR_lt. reflexivity. }
  destruct (to_yield_bracket nu u N0 N2 Hu) as (y & Ey & _ & _ & _ & Hy).
  rewrite Ey. cbn [bind noexcept].
  destruct (co_fission_loop_real G (N.to_nat y)
             (set_rng (set_event p fission) (snd (runif G (p_rng (set_event p fission))))) V)
    as (new & H1 & H2 & H4 & [H5 H6 H7 H8 H9] & H10 & H11 & H12).
  exists u. eexists. exists new. split; [exact Eu|]. split; [reflexivity|].
  cbn [p_secondaries p_event p_energy p_direction set_rng set_event] in *.
  rewrite H2, INR_IZR_INZ, N_nat_Z. parts; auto; try lra.
  - rewrite Forall_forall in *. intros s Hs. destruct (H4 s Hs) as [[] Hh].
    split; [constructor; auto|congruence].
  - unfold is_alive. now rewrite H10.
  - constructor; auto.
Qed.

(** ** C26 *)
Lemma floor_unique x n : IZR n <= x < IZR n + 1 -> Int_part x = n.
Proof.
  intros H. destruct (base_Int_part x) as [C1 C2].
  assert (Int_part x - 1 < n < Int_part x + 1)%Z; [|lia].
  split; apply lt_IZR; rewrite ?minus_IZR, ?plus_IZR; lra.
Qed.

Lemma C26_emitted_neutrons_proof :
  (* multigroup *)
  (forall (G : Rng XRa) (X : Ext XRa) n m (p q : particle XRa G) g,
   valid_rng G -> multigroup_create X n = Ok m -> sensible_data X n ->
   In g (groups (written_groups X n)) -> p_energy p = Group g ->
   0 < sigma X n Rcapture g + sigma X n Rscatter g + sigma X n Rfission g ->
   0 < column_sum X n (chi_node n) g ->
   mg_interact m p = Ok q -> p_event q = fission ->
   exists u, draw G 1 (p_rng p) = Fin u /\ 0 <= u < 1
     /\ Z.of_nat (length (p_secondaries q))
        = (Z.of_nat (length (p_secondaries p))
           + Int_part (real_of (vector_entry X (nubar_node n) g) + u))%Z)
  (* continuous energy *)
  /\ (forall (G : Rng XRa) fuel ev (nubar : cmap XRa 1) (p : particle XRa G) E nu,
      valid_rng G -> p_energy p = ContinuousE (A := XRa) (Fin E) ->
      cm1_at nubar (Fin E) = Ok (Fin nu) -> 0 <= nu -> nu < IZR (2 ^ 63) ->
      exists u q, draw G 0 (p_rng p) = Fin u /\ 0 <= u < 1
        /\ cr_interact fuel (CFission ev (Some nubar)) p = Ok q
        /\ Z.of_nat (length (p_secondaries q))
           = (Z.of_nat (length (p_secondaries p)) + Int_part (nu + u))%Z).
Proof.
  split.
  - intros G X n m p q g V C S Hg Eg Ps Pc H Hf.
    destruct (C27_multigroup_secondaries_proof G X n m p q g V C S Hg Eg Ps H Hf)
      as (u & new & Eu & Es & Hn & _).
    exists u. split; [exact Eu|]. destruct (V (snd (runif G (p_rng p)))) as (u' & Eu' & Bu).
    rewrite Eu in Eu'. apply Fin_inj in Eu'. subst u'. split; [exact Bu|].
    rewrite Es, app_length, Nat2Z.inj_add. f_equal. symmetry. apply floor_unique.
    rewrite <- INR_IZR_INZ. now apply Hn.
  - intros G fuel ev nubar p E nu V Ep En N0 N1.
    destruct (C27_continuous_secondaries_proof G fuel ev nubar p E nu V Ep En N0 N1)
      as (u & q & new & Eu & Eq & Es & Hn & _).
    exists u, q. split; [exact Eu|]. destruct (V (p_rng p)) as (u' & Eu' & Bu).
    rewrite Eu in Eu'. apply Fin_inj in Eu'. subst u'. split; [exact Bu|]. split; [exact Eq|].
    rewrite Es, app_length, Nat2Z.inj_add. f_equal. symmetry. apply floor_unique.
    rewrite <- INR_IZR_INZ. exact Hn.
Qed.

Lemma C26_mean_yield_proof :
  forall nu, 0 <= nu ->
  (forall u, 0 <= u < 1 -> let k := Int_part nu in
     (Int_part (nu + u) = k \/ Int_part (nu + u) = (k + 1)%Z)
     /\ (Int_part (nu + u) = (k + 1)%Z <-> 1 - (nu - IZR k) <= u))
  /\ is_RInt (fun u => IZR (Int_part (nu + u))) 0 1 nu.
Proof.
  intros nu Hn. split; [|now apply yield_mean]. intros u Hu. cbv zeta.
  destruct (base_Int_part nu) as [C1 C2].
  destruct (Rle_dec (1 - (nu - IZR (Int_part nu))) u) as [L|L].
  - assert (E : Int_part (nu + u) = (Int_part nu + 1)%Z)
      by (apply floor_unique; rewrite plus_IZR; lra).
    split; [auto|]. split; auto.
  - assert (E : Int_part (nu + u) = Int_part nu) by (apply floor_unique; lra).
    split; [auto|]. split; intros; [lia|lra].
Qed.
