(** Proofs about the transport loop: C45, C46. *)
From Coq Require Import Bool String List Reals ZArith NArith Lra Lia.
From Verif Require Import Model.Num Model.Outcome Model.Rng Model.Xml Model.Std Model.Point
  Model.Surface Model.Types Model.Field Model.Particle Model.Multigroup Model.Thermal
  Model.Continuous Model.Material Model.World Model.Perturbation Model.Estimator Model.Transport
  Spec.Vec Spec.GeometrySpec Spec.CellSpec Spec.DirectionSpec Spec.RngSpec Spec.SumSpec
  Spec.MultigroupSpec Spec.MaterialSpec Spec.TransportSpec
  Proofs.OutcomeLib Proofs.RealLib Proofs.RngProofs Proofs.GeometryProofs Proofs.CellProofs
  Proofs.StreamProofs Proofs.StepLib Proofs.DirectionProofs Proofs.MultigroupProofs
  Proofs.MultigroupReal Proofs.MaterialProofs.
Import ListNotations.

Section Walk.
  Context {A : Arith} {G : Rng A}.
  Notation particle := (particle A G).
  Implicit Types p q : particle.

  Lemma sample_distance_ok t p d p1 : sample_distance t p = Ok (d, p1) ->
    drew p p1 /\ exists c m, in_material p c m.
  Proof.
    unfold sample_distance. intros H. oinv H. unfold get_material in E. oinv E.
    unfold get_cell in E1. destruct (p_cell p) as [c|] eqn:Ec; [|discriminate].
    injection E1 as <-. destruct (c_material c) as [m|] eqn:Em; [|discriminate].
    destruct (exponential G _ _) as [y s] eqn:Ee. injection H as _ <-.
    split; [reflexivity|]. exists c, m. split; auto.
  Qed.

  Lemma find_cell_first (w : world A) x c : find_cell w x = Ok c -> first_cell w x c.
  Proof. intros H. now apply C13_point_location_proof in H. Qed.

  Lemma nearest_surface_of (c : cell A) x u s d : nearest_surface c x u = Ok (s, d) -> surface_of c s.
  Proof.
    unfold nearest_surface, surface_of. destruct (c_senses c) as [|[s0 b] l]; [discriminate|].
    intros [= <- _].
    assert (K : forall l best, min_surface best l x u = best
                \/ exists b, In (min_surface best l x u, b) l).
    { clear. induction l as [|[s b] l IH]; intros best; cbn; auto.
      destruct (nltb A _ _).
      - destruct (IH s) as [->|[b' H]]; right; [exists b|exists b']; cbn; auto.
      - destruct (IH best) as [->|[b' H]]; auto. right. exists b'. auto. }
    destruct (K l s0) as [->|[b' H]]; [exists b|exists b']; cbn; auto.
  Qed.

  Lemma in_material_drew p q c m : drew p q -> in_material p c m -> in_material q c m.
  Proof. intros ->. auto. Qed.

  Lemma cross_ok t w s d p p1 q c m :
    drew p p1 -> in_material p c m -> surface_of c s ->
    cross_surface t w s d p1 = Ok q -> one_event t w p q.
  Proof.
    intros D M S H. unfold cross_surface in H. oinv H. apply stream_ok in E.
    apply find_cell_first in E0. subst q.
    assert (F : flew p x).
    { rewrite E, D. eexists. reflexivity. }
    assert (Q : same_flight p x) by (rewrite E, D; repeat split).
    apply Crossing with c m s x0; auto.
  Qed.

  Lemma collide_ok fuel t w d p p1 q c m :
    drew p p1 -> in_material p c m -> collide fuel t d p1 = Ok q -> one_event t w p q.
  Proof.
    intros D M H. unfold collide in H. oinv H. apply stream_ok in E. destruct x0 as [nu p2].
    apply sample_nuclide_ok in E0 as (D2 & c' & m' & a & Ec & Em & Hin).
    apply nu_interact_place in H as [[P1 P2 P3 P4 _] H].
    assert (F : flew p q).
    { eexists. rewrite P1, D2. cbn. rewrite E, D. cbn. reflexivity. }
    assert (C : p_cell q = Some c).
    { rewrite P2, D2. cbn. rewrite E, D. cbn. apply M. }
    assert (S : p_surface q = p_surface p).
    { rewrite P4, D2. cbn. rewrite E, D. reflexivity. }
    assert (T : p_type q = p_type p).
    { rewrite P3, D2. cbn. rewrite E, D. reflexivity. }
    destruct H as [H|[H|[H|[H (mg & Hm)]]]].
    1-3: apply Collision with c m; auto.
    apply NoReaction with c m nu a; auto.
    - rewrite E, D in Ec. cbn in Ec. destruct M as [M1 M2]. rewrite M1 in Ec.
      injection Ec as <-. rewrite M2 in Em. injection Em as <-. exact Hin.
    - exists mg. unfold nu_at in Hm.
      destruct (find _ (nu_xs nu)) as [[t' i]|] eqn:Ef; [|discriminate].
      injection Hm as ->. rewrite D2 in Ef. cbn in Ef. rewrite E, D in Ef. cbn in Ef.
      unfold data_for. pose proof Ef as Ef'. apply find_some in Ef' as [_ E1].
      cbn in E1. destruct t', (p_type p); try discriminate; exact Ef.
    - rewrite H, D2. cbn. rewrite E, D. reflexivity.
  Qed.

  Lemma step_event t fuel w p q : transport_step t fuel w p = Ok q -> one_event t w p q.
  Proof.
    destruct t; cbn [transport_step]; intros H.
    - unfold surface_step in H. oinv H. destruct x as [d p1].
      apply sample_distance_ok in E as (D & c & m & M).
      apply bind_ok in H as (c' & Ec & H). rewrite D in Ec. unfold get_cell in Ec. cbn in Ec.
      rewrite (proj1 M) in Ec. injection Ec as <-.
      apply bind_ok in H as ([s ds] & En & H). apply nearest_surface_of in En.
      destruct (nltb A d ds).
      + eapply collide_ok; eauto.
      + eapply cross_ok; eauto.
    - unfold delta_step in H. oinv H. destruct x as [d p1].
      apply sample_distance_ok in E as (D & c & m & M).
      apply bind_ok in H as (c' & Ec & H). rewrite D in Ec. unfold get_cell in Ec. cbn in Ec.
      rewrite (proj1 M) in Ec. injection Ec as <-.
      apply bind_ok in H as ([s ds] & En & H). apply nearest_surface_of in En.
      destruct (nltb A ds d).
      + eapply cross_ok; eauto.
      + oinv H. destruct (bernoulli G _ _) as [[|] s'].
        * apply (collide_ok fuel _ w d p (set_rng p1 s') q c m); auto.
          eapply drew_trans; [exact D|]. reflexivity.
        * oinv H. apply stream_ok in E2. subst q.
          apply Virtual with c m; auto; cbn.
          -- eexists. cbn. rewrite E2, D. reflexivity.
          -- rewrite E2, D. repeat split.
          -- rewrite E2, D. apply M.
          -- rewrite E2, D. reflexivity.
  Qed.

  (** The loop as a list of states. *)
  Lemma loop_chain {E : Type} (score : E -> particle -> outcome E) t w (I : particle -> Prop)
      (R : particle -> particle -> Prop) :
    (forall fuel p q, I p -> is_alive p = true -> transport_step t fuel w p = Ok q ->
       I q /\ R p q) ->
    forall fuel e p e' q, I p -> transport_loop score t fuel w e p = Ok (e', q) ->
    exists visited, chain R p visited /\ last visited p = q
      /\ foldM score visited e = Ok e' /\ is_alive q = false /\ List.Forall I visited
      /\ List.Forall (fun x => is_alive x = true) (removelast (p :: visited))
      /\ (is_alive p = true -> visited <> []).
  Proof.
    intros Hs. induction fuel as [|fuel IH]; intros e p e' q Ip H; cbn [transport_loop] in H.
    - destruct (is_alive p) eqn:Al; [discriminate|]. injection H as <- <-.
      exists []. cbn. repeat split; auto; congruence.
    - destruct (is_alive p) eqn:Al.
      + apply bind_ok in H as (p1 & E1 & H). apply bind_ok in H as (e1 & E2 & H).
        destruct (Hs _ _ _ Ip Al E1) as [I1 R1].
        destruct (IH _ _ _ _ I1 H) as (l & C & L & F & Dq & Fo & Fa & _).
        exists (p1 :: l). cbn [chain foldM]. rewrite E2. cbn [bind]. repeat split; auto.
        * destruct l; auto. cbn [last] in L |- *. rewrite <- L. clear. revert p0.
          induction l; intros; cbn; auto.
        * cbn [removelast] in *. constructor; auto.
        * discriminate.
      + injection H as <- <-. exists []. cbn. repeat split; auto; congruence.
  Qed.
End Walk.

(** ** C45 and C46 for every arithmetic *)

Section Any.
  Context {A : Arith} {G : Rng A}.
  Notation particle := (particle A G).
  Implicit Types p q : particle.

  Lemma alive_ended p : is_alive p = false <-> ended p.
  Proof. unfold is_alive, ended. destruct (p_event p); split; auto; intuition discriminate. Qed.

  Lemma alive_not_ended p : is_alive p = true <-> ~ ended p.
  Proof. rewrite <- alive_ended. destruct (is_alive p); split; auto; congruence. Qed.

  Lemma first_cell_in (w : world A) x c : first_cell w x c -> In c (w_cells w).
  Proof. intros (b & a & -> & _). apply in_elt. Qed.

  Lemma event_leak t w p q : is_alive p = true -> one_event t w p q ->
    (p_event q = leak <-> in_void q).
  Proof.
    intros Al [c m s c' M F Q S Sq Fc Cq Ev|c m M F Cq Sq T Ev|c m _ M F Q Cq Sq Ev
              |c m nu a M Hin Mg F Cq Sq T Ev]; unfold in_void.
    - rewrite Cq, Ev. split.
      + destruct (c_material c') eqn:E; [discriminate|]. eauto.
      + intros (c0 & [= <-] & ->). reflexivity.
    - destruct M as [_ M]. rewrite Cq. split.
      + destruct Ev as [->|[->| ->]]; discriminate.
      + intros (c0 & [= <-] & E). congruence.
    - destruct M as [_ M]. rewrite Cq, Ev. split; [discriminate|].
      intros (c0 & [= <-] & E). congruence.
    - destruct M as [_ M]. rewrite Cq, Ev. split.
      + intros E. unfold is_alive in Al. rewrite E in Al. discriminate.
      + intros (c0 & [= <-] & E). congruence.
  Qed.

  (** The recorded cell is one of the world's. *)
  Definition in_world (w : world A) p : Prop :=
    exists c, p_cell p = Some c /\ In c (w_cells w).

  Lemma event_world t w p q : in_world w p -> one_event t w p q ->
    in_world w q /\ p_type q = p_type p.
  Proof.
    intros (c0 & E0 & I0) [c m s c' M F Q S Sq Fc Cq Ev|c m M F Cq Sq T Ev|c m _ M F Q Cq Sq Ev
              |c m nu a M Hin Mg F Cq Sq T Ev].
    1: split; [exists c'; split; auto; now apply first_cell_in in Fc|apply Q].
    all: destruct M as [M _]; rewrite M in E0; injection E0 as ->.
    - split; auto. exists c0. auto.
    - split; [exists c0; auto|apply Q].
    - split; auto. exists c0. auto.
  Qed.

  Lemma event_goes_on t w p q : in_world w p -> no_multigroup w (p_type p) -> one_event t w p q ->
    ended q \/ goes_on q.
  Proof.
    intros (c0 & E0 & I0) Nm [c m s c' M F Q S Sq Fc Cq Ev|c m M F Cq Sq T Ev|c m _ M F Q Cq Sq Ev
              |c m nu a M Hin Mg F Cq Sq T Ev]; unfold ended, goes_on.
    - destruct (c_material c'); rewrite Ev; tauto.
    - tauto.
    - tauto.
    - exfalso. destruct M as [M1 M2]. rewrite M1 in E0. injection E0 as ->.
      apply (Nm c0 m nu a I0 M2 Hin Mg).
  Qed.

  Lemma removelast_cons {V} (x : V) l : l <> [] -> removelast (x :: l) = x :: removelast l.
  Proof. destruct l; [congruence|reflexivity]. Qed.

  Lemma chain_impl (P : particle -> Prop) (R Q : particle -> particle -> Prop) :
    (forall p q, P p -> R p q -> Q p q) -> forall l p, List.Forall P (removelast (p :: l)) ->
    chain R p l -> chain Q p l.
  Proof.
    intros H. induction l as [|x l IH]; intros p Hp C; cbn in *; auto. destruct C as [C1 C2].
    inversion Hp; subst. split; auto.
  Qed.

  Lemma chain_In (R : particle -> particle -> Prop) : forall l p x, chain R p l -> In x l ->
    exists y, R y x /\ (y = p \/ In y (removelast l)).
  Proof.
    induction l as [|a l IH]; intros p x C Hin; [destruct Hin|]. destruct C as [C1 C2].
    destruct Hin as [<-|Hin]; [eauto|]. destruct (IH _ _ C2 Hin) as (y & Ry & Hy).
    exists y. split; auto. right. rewrite removelast_cons by (destruct l; [destruct Hin|discriminate]).
    destruct Hy as [->|Hy]; cbn; auto.
  Qed.

  (** The whole walk. *)
  Lemma transport_walk {E : Type} (score : E -> particle -> outcome E) t fuel w e p e' q :
    is_alive p = true -> transport score t fuel w e p = Ok (e', q) ->
    exists c visited, first_cell w (p_position p) c
      /\ chain (one_event t w) (set_cell p c) visited /\ visited <> [] /\ last visited p = q
      /\ foldM score visited e = Ok e' /\ ended q
      /\ List.Forall (fun x => ~ ended x) (set_cell p c :: removelast visited)
      /\ List.Forall (fun x => in_world w x /\ p_type x = p_type p) (set_cell p c :: visited).
  Proof.
    intros Al H. unfold transport in H. apply -> @noexcept_ok in H.
    apply bind_ok in H as (c & Ec & H). apply find_cell_first in Ec.
    set (p0 := set_cell p c) in *.
    assert (I0 : in_world w p0 /\ p_type p0 = p_type p).
    { split; auto. exists c. split; auto. now apply first_cell_in in Ec. }
    apply (loop_chain score t w (fun x => in_world w x /\ p_type x = p_type p)
             (one_event t w)) in H; auto.
    - destruct H as (l & C & L & F & Dq & Fo & Fa & Nn).
      assert (Ne : l <> []) by (apply Nn; exact Al).
      exists c, l. repeat split; auto.
      + destruct l as [|a l]; [congruence|]. rewrite <- L. clear. revert a.
        induction l; intros; cbn in *; auto.
      + now apply alive_ended.
      + rewrite removelast_cons in Fa by auto. eapply Forall_impl; [|exact Fa].
        intros x. apply alive_not_ended.
    - intros f x y [Ix Tx] _ Hs. apply step_event in Hs.
      destruct (event_world t w x y Ix Hs) as [Iy Ty]. repeat split; auto. congruence.
  Qed.
End Any.

Lemma C45_walk_proof :
  forall (A : Arith) (G : Rng A) (E : Type) (score : E -> particle A G -> outcome E)
    t fuel w e (p : particle A G) e' q,
  p_event p = birth -> transport score t fuel w e p = Ok (e', q) ->
  exists c visited,
    (* one step after another from the first cell containing the particle *)
    first_cell w (p_position p) c
    /\ chain (one_event t w) (set_cell p c) visited
    /\ visited <> [] /\ last visited p = q
    (* one call of Score for each event, seeing the state after it *)
    /\ foldM score visited e = Ok e'
    (* only the last event ends the walk *)
    /\ ended q /\ List.Forall (fun x => ~ ended x) (removelast visited)
    /\ (forall x, In x visited -> (p_event x = leak <-> in_void x))
    /\ (no_multigroup w (p_type p) -> List.Forall goes_on (removelast visited)).
Proof.
  intros A G E score t fuel w e p e' q B H.
  assert (Al : is_alive p = true) by (unfold is_alive; now rewrite B).
  apply transport_walk in H as (c & l & Fc & C & Ne & L & F & Eq & Fa & Fw); auto.
  exists c, l. inversion Fa as [|? ? Fa1 Fa2]; subst. inversion Fw as [|? ? Fw1 Fw2]; subst.
  repeat split; auto.
  - intros El. destruct (chain_In _ _ _ _ C H) as (y & Ry & Hy).
    apply (event_leak t w y x); auto.
    apply alive_not_ended. destruct Hy as [->|Hy]; auto. rewrite Forall_forall in Fa2; auto.
  - intros El. destruct (chain_In _ _ _ _ C H) as (y & Ry & Hy).
    apply (event_leak t w y x); auto.
    apply alive_not_ended. destruct Hy as [->|Hy]; auto. rewrite Forall_forall in Fa2; auto.
  - intros Nm. rewrite Forall_forall in *. intros x Hx.
    assert (Hx' : In x l).
    { destruct (exists_last Ne) as (l' & z & ->). rewrite removelast_last in Hx.
      apply in_app_iff; auto. }
    destruct (chain_In _ _ _ _ C Hx') as (y & Ry & Hy).
    assert (Wy : in_world w y /\ p_type y = p_type p).
    { destruct Hy as [->|Hy]; auto. apply Fw2.
      destruct (exists_last Ne) as (l' & z & ->). rewrite removelast_last in Hy.
      apply in_app_iff; auto. }
    destruct (event_goes_on t w y x) as [K|K]; auto.
    + apply Wy.
    + rewrite (proj2 Wy). exact Nm.
    + exfalso. exact (Fa2 x Hx K).
Qed.

Lemma C46_recorded_cell_proof :
  forall (A : Arith) (G : Rng A) (E : Type) (score : E -> particle A G -> outcome E)
    t fuel w e (p : particle A G) e' q,
  p_event p = birth -> transport score t fuel w e p = Ok (e', q) ->
  exists c visited, first_cell w (p_position p) c
    /\ foldM score visited e = Ok e' /\ last visited p = q
    /\ chain (fun x y =>
         (* there is material before every step *)
         (exists d m, in_material x d m /\ In d (w_cells w))
         (* a crossing puts the particle into the first cell containing it *)
         /\ (p_event y = surface_cross \/ p_event y = leak ->
             (exists d, p_cell y = Some d /\ first_cell w (p_position y) d)
             (* or no reaction was selected and nothing but the position changed *)
             \/ (~ no_multigroup w (p_type x) /\ p_event y = p_event x /\ p_cell y = p_cell x))
         (* and nothing else changes the recorded cell *)
         /\ (p_cell y = p_cell x
             \/ exists d, p_cell y = Some d /\ first_cell w (p_position y) d))
       (set_cell p c) visited.
Proof.
  intros A G E score t fuel w e p e' q B H.
  assert (Al : is_alive p = true) by (unfold is_alive; now rewrite B).
  apply transport_walk in H as (c & l & Fc & C & Ne & L & F & Eq & Fa & Fw); auto.
  exists c, l. repeat split; auto.
  refine (chain_impl (fun x => in_world w x) _ _ _ l _ _ C).
  - intros x y (c0 & E0 & I0) [d m s c' M Fl Q S Sq Fd Cq Ev|d m M Fl Cq Sq T Ev
       |d m _ M Fl Q Cq Sq Ev|d m nu a M Hin Mg Fl Cq Sq T Ev];
      (split; [exists d, m; split; auto; destruct M as [M _]; rewrite M in E0;
               injection E0 as ->; exact I0|]).
    + split; eauto.
    + split; [|left; rewrite Cq; symmetry; apply M].
      intros [K|K]; rewrite K in Ev; intuition discriminate.
    + split; [|left; rewrite Cq; symmetry; apply M]. rewrite Ev. intros [K|K]; discriminate.
    + destruct M as [M1 M2]. split; [|left; congruence]. intros _. right.
      rewrite M1 in E0. injection E0 as ->. split; [|split; congruence].
      intros Nm. exact (Nm c0 m nu a I0 M2 Hin Mg).
  - destruct (exists_last Ne) as (l' & z & ->). rewrite removelast_cons by auto.
    rewrite removelast_last. inversion Fw as [|? ? F1 F2]; subst. constructor; [apply F1|].
    apply Forall_app in F2 as [F2 _]. eapply Forall_impl; [|exact F2]. intros ? [? _]; auto.
Qed.
