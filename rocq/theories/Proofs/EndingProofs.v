(** Loops that end with probability one: property C99. *)
From Coq Require Import Bool String List Reals ZArith NArith Lra Lia.
From Coquelicot Require Import Coquelicot.
From Verif Require Import Model.Num Model.Outcome Model.Rng Model.Xml Model.Std Model.Point
  Model.Surface Model.Types Model.Bins Model.Field Model.Tables Model.Particle Model.Multigroup Model.Thermal
  Model.Continuous Model.Material
  Spec.Vec Spec.RngSpec Spec.SumSpec Spec.TablesSpec Spec.ContinuousSpec Spec.FreeGasSpec Spec.ChanceSpec
  Proofs.OutcomeLib Proofs.RealLib Proofs.RngProofs Proofs.ContinuousProofs Proofs.FreeGasProofs
  Proofs.CrossingProofs Proofs.ChanceLib.
Import ListNotations.
Local Open Scope R_scope.

(** ** The speed and direction of the target *)

Lemma likely x y mu : 0 <= x -> 0 < y -> -1 <= mu <= 0 -> / 2 < acceptance x y mu.
Proof.
  intros Hx Hy Hm. unfold acceptance. apply (Rmult_lt_reg_r (x + y)); [lra|].
  unfold Rdiv. rewrite Rmult_assoc, Rinv_l, Rmult_1_r by lra.
  rewrite <- (sqrt_square (/ 2 * (x + y))) by lra. apply sqrt_lt_1_alt.
  pose proof (Rle_0_sqr (x - y)) as Q. unfold Rsqr in Q.
  assert (0 <= x * y) by nra. assert (0 <= x * y * - mu) by (apply Rmult_le_pos; lra).
  split; nra.
Qed.

Lemma target_first (p : particle XRa Given) y k a b t v e l :
  0 < y -> List.Forall (fun u => 0 < u < 1) [a; b; t; v; e] -> t < 2 / (sqrt PI * y + 2) ->
  exists x, 0 <= x /\
    free_gas_target (S k) (Fin y : num XRa) (set_rng p (a :: b :: t :: v :: e :: l))
    = if Rlt_dec e (acceptance x y (2 * v - 1)) then Ok (Fin x, Fin (2 * v - 1), set_rng p l)
      else free_gas_target k (Fin y : num XRa) (set_rng p l).
Proof.
  intros Hy Hl Ht.
  destruct (C38_target_sampling_proof Given (set_rng p (a :: b :: t :: v :: e :: l)) y k given_open Hy)
    as (xi1 & xi2 & t' & xi3 & v' & e' & n & x & mu & ac & _ & _ & _ & E3 & _ & En & E5 & E6 & _
        & Hx & Em & _ & Ea & _ & E).
  repeat match goal with H : List.Forall _ (_ :: _) |- _ => inversion H; clear H; subst end.
  cbn in E3. rewrite inside_is in E3 by auto. injection E3 as <-.
  destruct (Rlt_dec t (2 / (sqrt PI * y + 2))); [|lra].
  cbn in E5, E6. rewrite inside_is in E5, E6 by auto. injection E5 as <-. injection E6 as <-.
  exists x. split; auto.
Qed.

Lemma target_second (p : particle XRa Given) y k a b t c v e l :
  0 < y -> List.Forall (fun u => 0 < u < 1) [a; b; t; c; v; e] -> 2 / (sqrt PI * y + 2) <= t ->
  exists x, 0 <= x /\
    free_gas_target (S k) (Fin y : num XRa) (set_rng p (a :: b :: t :: c :: v :: e :: l))
    = if Rlt_dec e (acceptance x y (2 * v - 1)) then Ok (Fin x, Fin (2 * v - 1), set_rng p l)
      else free_gas_target k (Fin y : num XRa) (set_rng p l).
Proof.
  intros Hy Hl Ht.
  destruct (C38_target_sampling_proof Given (set_rng p (a :: b :: t :: c :: v :: e :: l)) y k given_open Hy)
    as (xi1 & xi2 & t' & xi3 & v' & e' & n & x & mu & ac & _ & _ & _ & E3 & _ & En & E5 & E6 & _
        & Hx & Em & _ & Ea & _ & E).
  repeat match goal with H : List.Forall _ (_ :: _) |- _ => inversion H; clear H; subst end.
  cbn in E3. rewrite inside_is in E3 by auto. injection E3 as <-.
  destruct (Rlt_dec t (2 / (sqrt PI * y + 2))); [lra|].
  cbn in E5, E6. rewrite inside_is in E5, E6 by auto. injection E5 as <-. injection E6 as <-.
  exists x. split; auto.
Qed.

(** Half of the cosines are accepted at least half of the time. *)
Lemma try_again n (E : R -> R -> list R -> Prop) (F : list R -> Prop) z :
  (forall v e l, 0 < v < 1 -> 0 < e < 1 -> E v e l -> F l) ->
  (forall v e l, 0 < v < / 2 -> 0 < e < / 2 -> ~ E v e l) ->
  at_most n F z ->
  at_most (S (S n)) (fun l => match l with v :: e :: l' => E v e l' | _ => False end) (3 / 4 * z).
Proof.
  intros EF NE HF.
  replace (3 / 4 * z) with (/ 2 * (/ 2 * 0 + (1 - / 2) * z) + (1 - / 2) * z) by field.
  apply at_most_split; [lra| |].
  - intros v Hv. apply at_most_split; [lra| |].
    + intros e He. apply at_most_const; [lra|]. intros l H. now apply NE in H.
    + intros e He. apply (at_most_mono n _ F z); [|lra|auto]. intros l _ _. apply EF; lra.
  - intros v Hv. apply at_most_draw. intros e He.
    apply (at_most_mono n _ F z); [|lra|auto]. intros l _ _. apply EF; lra.
Qed.

Lemma C99_target_proof :
  forall (p : particle XRa Given) (y : R) (k n : nat), 0 < y -> (6 * k <= n)%nat ->
    at_most n (fun l => free_gas_target k (Fin y : num XRa) (set_rng p l) = OutOfFuel)
      ((3 / 4) ^ k).
Proof.
  intros p y k. induction k as [|k IH]; intros n Hy Hn.
  - apply at_most_const; cbn; intros; lra.
  - destruct n as [|[|[|[|[|[|n]]]]]]; try lia.
    change ((3 / 4) ^ S k) with (3 / 4 * (3 / 4) ^ k).
    apply at_most_draw. intros a Ha. apply at_most_draw. intros b Hb.
    apply at_most_draw. intros t Ht.
    destruct (Rlt_le_dec t (2 / (sqrt PI * y + 2))) as [L|L].
    + eapply at_most_mono; [|apply Rle_refl|].
      2:{ apply (try_again (S n) (fun v e l => 0 < v < 1 /\ 0 < e < 1 /\
            free_gas_target (S k) (Fin y : num XRa) (set_rng p (a :: b :: t :: v :: e :: l)) = OutOfFuel)
            (fun l => free_gas_target k (Fin y : num XRa) (set_rng p l) = OutOfFuel)); [| |apply IH; [auto|lia]].
          - intros v e l Hv He (_ & _ & H).
            destruct (target_first p y k a b t v e l Hy) as (x & Hx & E); [repeat constructor; lra|auto|].
            rewrite E in H. destruct (Rlt_dec _ _); [discriminate|auto].
          - intros v e l Hv He (_ & _ & H).
            destruct (target_first p y k a b t v e l Hy) as (x & Hx & E); [repeat constructor; lra|auto|].
            rewrite E in H. pose proof (likely x y (2 * v - 1) Hx Hy).
            destruct (Rlt_dec _ _); [discriminate|lra]. }
      intros [|v [|e l]] Hl Fl H; cbn in Hl; try lia.
      inversion Fl as [|? ? Hv Fl']. inversion Fl'. auto.
    + apply at_most_draw. intros c Hc.
      eapply at_most_mono; [|apply Rle_refl|].
      2:{ apply (try_again n (fun v e l => 0 < v < 1 /\ 0 < e < 1 /\
            free_gas_target (S k) (Fin y : num XRa) (set_rng p (a :: b :: t :: c :: v :: e :: l)) = OutOfFuel)
            (fun l => free_gas_target k (Fin y : num XRa) (set_rng p l) = OutOfFuel)); [| |apply IH; [auto|lia]].
          - intros v e l Hv He (_ & _ & H).
            destruct (target_second p y k a b t c v e l Hy) as (x & Hx & E); [repeat constructor; lra|auto|].
            rewrite E in H. destruct (Rlt_dec _ _); [discriminate|auto].
          - intros v e l Hv He (_ & _ & H).
            destruct (target_second p y k a b t c v e l Hy) as (x & Hx & E); [repeat constructor; lra|auto|].
            rewrite E in H. pose proof (likely x y (2 * v - 1) Hx Hy).
            destruct (Rlt_dec _ _); [discriminate|lra]. }
      intros [|v [|e l]] Hl Fl H; cbn in Hl; try lia.
      inversion Fl as [|? ? Hv Fl']. inversion Fl'. auto.
Qed.

(** ** Everything else ends *)

Definition definite {X} (o : outcome X) : Prop := o <> OutOfFuel.

Lemma definite_bind {X Y} (o : outcome X) (f : X -> outcome Y) :
  definite o -> (forall x, definite (f x)) -> definite (bind o f).
Proof. unfold definite. destruct o; cbn; auto; discriminate. Qed.
Lemma definite_noexcept {X} (o : outcome X) : definite o -> definite (noexcept o).
Proof. unfold definite. destruct o; cbn; auto; discriminate. Qed.
Lemma definite_foldM {X Y} (f : Y -> X -> outcome Y) l : (forall y x, definite (f y x)) ->
  forall y, definite (foldM f l y).
Proof.
  intros H. induction l as [|x l IH]; intros y; cbn [foldM]; [discriminate|].
  apply definite_bind; auto.
Qed.
Lemma definite_upper (less : nat -> outcome bool) fuel : (forall i, definite (less i)) ->
  forall first len, (len <= fuel)%nat -> definite (upper_bound_loop fuel less first len).
Proof.
  intros H. induction fuel as [|fuel IH]; intros first len Hl; cbn [upper_bound_loop].
  - destruct (Nat.eqb_spec len 0); [discriminate|lia].
  - destruct (Nat.eqb_spec len 0); [discriminate|]. apply definite_bind; auto.
    assert (Nat.div2 len < len)%nat by (apply Nat.lt_div2; lia).
    intros b. destruct b; apply IH; lia.
Qed.
Lemma definite_upper_gen (less : nat -> outcome bool) len : (forall i, definite (less i)) ->
  definite (upper_bound_gen less len).
Proof. intros H. now apply definite_upper. Qed.

Create HintDb ends.
Ltac ends :=
  repeat first
    [ discriminate
    | solve [eauto with ends]
    | match goal with
      | |- definite (noexcept _) => apply definite_noexcept
      | |- definite (bind _ _) => apply definite_bind; [|intros ?]
      | |- definite (foldM _ _ _) => apply definite_foldM; intros ? ?
      | |- definite (upper_bound_gen _ _) => apply definite_upper_gen; intros ?
      | |- definite (if ?b then _ else _) => destruct b
      | |- definite (match ?x with _ => _ end) => destruct x
      end ].

Section Definite.
  Context {A : Arith} {G : Rng A}.
  Implicit Types p : particle A G.

  Lemma ends_get_continuous (e : energy A) : definite (get_continuous e).
  Proof. unfold get_continuous. ends. Qed.
  Lemma ends_get_cell p : definite (get_cell p).
  Proof. unfold get_cell. ends. Qed.
  Lemma ends_of_option {X} (o : option X) e : definite e -> definite (of_option o e).
  Proof. unfold of_option. intros. ends. Qed.
  Lemma ends_to_yield (x : num A) : definite (to_yield x).
  Proof. unfold to_yield. apply ends_of_option. discriminate. Qed.
  Lemma ends_cm1 (m : cmap A 1) k : definite (cm1_at m k).
  Proof. unfold cm1_at. cbn [cm_at]. ends. Qed.
  Lemma ends_vec_at {X} (l : list X) i : definite (vec_at l i).
  Proof. unfold vec_at. ends. Qed.
  Hint Resolve ends_get_continuous ends_get_cell ends_to_yield ends_cm1 ends_vec_at : ends.

  Lemma ends_upper (v : num A) l : definite (upper_bound v l).
  Proof. unfold upper_bound. ends. Qed.
  Lemma ends_upper_N v l : definite (upper_bound_N v l).
  Proof. unfold upper_bound_N. ends. Qed.
  Lemma ends_axis (ds : dataset A) i : definite (ds_axis ds i).
  Proof. unfold ds_axis. ends. Qed.
  Lemma ends_base (ds : dataset A) l : forall i j, definite (at_from_base ds i j l).
  Proof. induction l as [|x l IH]; intros i j; cbn [at_from_base]; ends. Qed.
  Lemma ends_ds_at (ds : dataset A) l : definite (ds_at ds l).
  Proof. unfold ds_at. pose proof (ends_base ds l). ends. Qed.
  Hint Resolve ends_upper ends_upper_N ends_axis ends_ds_at : ends.

  Lemma ends_temperature (T : num A) Ts : definite (temperature_indices T Ts).
  Proof. unfold temperature_indices. ends. Qed.
  Hint Resolve ends_temperature : ends.
  Lemma ends_evaluate (pa : partition A) i j T : definite (partition_evaluate pa i j T).
  Proof. unfold partition_evaluate. ends. Qed.
  Hint Resolve ends_evaluate : ends.
  Lemma ends_locate (ps : list (partition A)) e i : definite (locate_partition ps e i).
  Proof. unfold locate_partition. ends. Qed.
  Lemma ends_beta_candidate (t : thermal A) pa local E T F :
    definite (sample_beta_candidate t pa local E T F).
  Proof. unfold sample_beta_candidate, beta_evaluate. ends. Qed.
  Lemma ends_alpha_candidate (t : thermal A) pa local T F :
    definite (sample_alpha_candidate t pa local T F).
  Proof. unfold sample_alpha_candidate. ends. Qed.
  Lemma ends_find (t : thermal A) pa local T a : definite (find_cdf t pa local T a).
  Proof. unfold find_cdf. ends. Qed.
  Lemma ends_factor (t : thermal A) b E T i : definite (beta_grid_factor t b E T i).
  Proof. unfold beta_grid_factor. ends. Qed.
  Hint Resolve ends_locate ends_beta_candidate ends_alpha_candidate ends_find ends_factor : ends.
  Lemma ends_beta_loop n (t : thermal A) pa local E E_s T :
    forall p, definite (sample_beta_loop n t pa local E E_s T p).
  Proof. induction n as [|n IH]; intros p; cbn [sample_beta_loop]; ends. Qed.
  Lemma ends_alpha_loop n (t : thermal A) pa local b E T a_min a_max F_min F_max :
    forall p, definite (sample_alpha_loop n t pa local b E T a_min a_max F_min F_max p).
  Proof. induction n as [|n IH]; intros p; cbn [sample_alpha_loop]; ends. Qed.
  Hint Resolve ends_beta_loop ends_alpha_loop : ends.
  Lemma ends_thermal (t : thermal A) p : definite (th_scatter t p).
  Proof.
    unfold th_scatter, sample_beta, choose_energy_index, sample_alpha, choose_beta_index. ends.
  Qed.
  Hint Resolve ends_thermal : ends.
  Lemma ends_applies tsl p : definite (tsl_applies (A := A) tsl p).
  Proof. unfold tsl_applies, th_is_valid. ends. Qed.

  (** A reaction that does not end is a free-gas scatter that finds no target. *)
  Lemma endless k r p : cr_interact k r p = OutOfFuel ->
    exists ev tsl awr E c, r = CScatter ev tsl awr /\ p_energy p = ContinuousE E
      /\ p_cell p = Some c
      /\ free_gas_target k
           (nmul A (nsqrt A (ndiv A (nmul A awr neutron_mass)
                      (nmul A (nmul A (nofZ A 2) boltzmann)
                         (field_at (c_temperature c) (p_position p)))))
                   (nsqrt A (ndiv A (nmul A (nofZ A 2) E) neutron_mass)))
           (set_event p scatter) = OutOfFuel.
  Proof.
    intros H. unfold cr_interact in H. destruct r as [ev|ev tsl awr|ev nubar].
    - discriminate.
    - assert (F : free_gas_scatter k awr (set_event p scatter) = OutOfFuel).
      { pose proof (ends_applies tsl (set_event p scatter)) as D.
        destruct (tsl_applies tsl (set_event p scatter)) as [b| | | |]; try discriminate;
          [|exfalso; exact (D eq_refl)].
        cbn [bind] in H. destruct b; [destruct tsl as [t|]|].
        - pose proof (ends_thermal t (set_event p scatter)) as D'.
          destruct (th_scatter t (set_event p scatter)); try discriminate. exfalso; exact (D' eq_refl).
        - destruct (free_gas_scatter _ _ _); try discriminate; auto.
        - destruct (free_gas_scatter _ _ _); try discriminate; auto. }
      unfold free_gas_scatter in F. cbn [p_energy set_event] in F.
      destruct (p_energy p) as [E|g] eqn:Ee; [|discriminate]. cbn [get_continuous bind] in F.
      unfold get_cell in F. cbn [p_cell set_event] in F.
      destruct (p_cell p) as [c|] eqn:Ec; [|discriminate]. cbn [bind] in F.
      exists ev, tsl, awr, E, c. repeat split; auto.
      change (p_position (set_event p scatter)) with (p_position p) in F.
      destruct (free_gas_target _ _ _) as [[[x mu] p1]| | | |]; try discriminate; auto.
      exfalso. revert F. cbn [bind]. destruct (p_unif p1) as [u1 p2]. destruct (p_unif p2) as [u2 p3].
      destruct (p_unif p3) as [u3 p4]. destruct (free_gas_outgoing _ _ _ _ _ _ _ _). discriminate.
    - exfalso. revert H. match goal with |- ?o = OutOfFuel -> False => change (definite o) end.
      cbv zeta. apply definite_noexcept. apply definite_bind; [destruct nubar; discriminate|intros].
      ends.
  Qed.
End Definite.

(** ** Collisions *)

Lemma same_set_rng (p : particle XRa Given) l : same_here p (set_rng p l).
Proof. constructor; auto. Qed.

Section Collision.
  Variables (p : particle XRa Given) (co : continuous XRa) (c : cell XRa) (E T total : R).
  Hypotheses (Ee : p_energy p = ContinuousE (A := XRa) (Fin E)) (HE : 0 < E)
    (Ec : p_cell p = Some c) (Et : field_at (c_temperature c) (p_position p) = Fin T) (HT : 0 < T)
    (Ha : forall ev tsl awr, In (CScatter ev tsl awr) (co_reactions co) ->
            exists a, awr = Fin a /\ 0 < a).

  Lemma reaction_ends r k n : In r (co_reactions co) -> (6 * k <= n)%nat ->
    at_most n (fun l => cr_interact k r (set_rng p l) = OutOfFuel) ((3 / 4) ^ k).
  Proof.
    intros Hr Hn. destruct r as [ev|ev tsl awr|ev nubar].
    1,3: apply at_most_const; [apply pow_le; lra|]; intros l H; exfalso;
      apply endless in H as (? & ? & ? & ? & ? & H & _); discriminate.
    destruct (Ha ev tsl awr Hr) as (a & -> & Pa).
    assert (Py : 0 < inverse_speed a T * speed E).
    { pose proof m_n_pos. pose proof k_B_pos. unfold inverse_speed, speed.
      apply Rmult_lt_0_compat; apply sqrt_lt_R0; apply Rdiv_lt_0_compat;
        repeat apply Rmult_lt_0_compat; lra. }
    eapply at_most_mono; [|apply Rle_refl|
      apply (C99_target_proof (set_event p scatter) (inverse_speed a T * speed E) k n Py Hn)].
    intros l _ _ H. apply endless in H as (ev' & tsl' & awr' & E' & c' & Er & Ee' & Ec' & H).
    injection Er as <- <- <-. cbn [p_energy set_rng] in Ee'. rewrite Ee in Ee'. injection Ee' as <-.
    cbn [p_cell set_rng] in Ec'. rewrite Ec in Ec'. injection Ec' as <-.
    change (p_position (set_rng p l)) with (p_position p) in H.
    change (num XRa) with xr in *. rewrite Et in H.
    rewrite neutron_mass_real, boltzmann_real, speed_real, inverse_speed_real in H by auto.
    exact H.
  Qed.

  Hypotheses (Pl : plain_reactions p (co_reactions co))
    (Tt : co_get_total co p = Ok (Fin total)) (Pt : 0 < total)
    (Ps : 0 < sum_xs p (co_reactions co)).

  Lemma collision_ends q : 3 / 4 <= q -> 1 - sum_xs p (co_reactions co) / (2 * total) <= q ->
    forall k n, (7 * k <= n)%nat ->
      at_most n (fun l => co_interact k co (set_rng p l) = OutOfFuel)
        (2 * q ^ k).
  Proof.
    intros Hq Hr. induction k as [|k IH]; intros n Hn.
    - apply at_most_const; cbn; intros; lra.
    - destruct n as [|n]; [lia|].
      set (s := sum_xs p (co_reactions co)) in *.
      set (f := Rmin 1 (s / total)).
      assert (F0 : 0 < s / total) by (apply Rdiv_lt_0_compat; auto).
      assert (Hf : 0 <= f <= 1) by (unfold f, Rmin; destruct (Rle_dec 1 (s / total)); lra).
      assert (Hf' : 1 - f / 2 <= q).
      { replace (s / (2 * total)) with (s / total / 2) in Hr by (field; lra).
        unfold f, Rmin; destruct (Rle_dec 1 (s / total)); lra. }
      assert (Pq : 0 < q ^ k) by (apply pow_lt; lra).
      assert (Step : forall u, 0 < u < 1 ->
        (u * total < s -> exists r, In r (co_reactions co)
           /\ forall l, co_interact (S k) co (set_rng p (u :: l)) = cr_interact k r (set_rng p l))
        /\ (s <= u * total -> forall l,
             co_interact (S k) co (set_rng p (u :: l)) = co_interact k co (set_rng p l))).
      { intros u Hu.
        assert (Rx : forall l r, reaction_xs (set_rng p (u :: l)) r = reaction_xs p r)
          by (intros l r; unfold reaction_xs; now rewrite cr_xs_rng).
        assert (Sx : forall l rs, sum_xs (set_rng p (u :: l)) rs = sum_xs p rs)
          by (intros l rs; unfold sum_xs; f_equal; apply map_ext, Rx).
        assert (Q : forall l, let p0 := set_rng p (u :: l) in
          (forall before r after, co_reactions co = before ++ r :: after ->
             sum_xs p before <= u * total < sum_xs p before + reaction_xs p r ->
             co_interact (S k) co p0 = cr_interact k r (set_rng p l))
          /\ (u * total < s -> exists before r after, co_reactions co = before ++ r :: after
               /\ sum_xs p before <= u * total < sum_xs p before + reaction_xs p r)
          /\ (s <= u * total -> co_interact (S k) co p0 = co_interact k co (set_rng p l))).
        { intros l p0.
          assert (Pl0 : plain_reactions p0 (co_reactions co)).
          { unfold plain_reactions in *. rewrite List.Forall_forall in *. intros r Hin.
            unfold p0. rewrite Rx, cr_xs_rng. now apply Pl. }
          assert (Tt0 : co_get_total co p0 = Ok (Fin total)) by (unfold p0; now rewrite co_total_rng).
          destruct (C36_reaction_choice_proof Given p0 co total k (open_valid _ given_open) Pl0 Tt0 ltac:(lra))
            as (u' & Eu & _ & C1 & C2 & C3).
          cbn in Eu. rewrite inside_is in Eu by auto. injection Eu as <-.
          unfold p0 in C2, C3. rewrite Sx in C2, C3. fold s in C2, C3. split; [|split].
          - intros before r after El B. apply (C1 before r after El). unfold p0. now rewrite Sx, Rx.
          - intros L. destruct (C2 L) as (before & r & after & El & B & _).
            exists before, r, after. rewrite Sx, Rx in B. auto.
          - intros L. apply (C3 L). }
        split.
        - intros L. destruct (proj1 (proj2 (Q [])) L) as (before & r & after & El & B).
          exists r. split; [rewrite El; apply in_elt|]. intros l. apply (proj1 (Q l) before r after El B).
        - intros L l. apply (proj2 (proj2 (Q l)) L). }
      assert (B : f * (q ^ k) + (1 - f) * (2 * q ^ k) <= 2 * q ^ S k).
      { cbn [pow]. replace (f * q ^ k + (1 - f) * (2 * q ^ k)) with (2 * ((1 - f / 2) * q ^ k)) by field.
        apply Rmult_le_compat_l; [lra|]. apply Rmult_le_compat_r; lra. }
      eapply at_most_mono; [intros l _ _ H; exact H|exact B|].
      apply at_most_split; [auto| |].
      + intros u Hu. assert (Hu1 : 0 < u < 1) by lra.
        assert (L : u * total < s).
        { assert (u < s / total) by (unfold f, Rmin in Hu; destruct (Rle_dec 1 (s / total)); lra).
          replace s with (s / total * total) by (field; lra). now apply Rmult_lt_compat_r. }
        destruct (proj1 (Step u Hu1) L) as (r & Hin & Er).
        eapply at_most_mono; [|apply pow_incr; split; [|exact Hq]; lra|apply (reaction_ends r k n Hin); lia].
        intros l _ _ H. rewrite Er in H. exact H.
      + intros u Hu. destruct (Rlt_le_dec (u * total) s) as [L|L].
        * exfalso. assert (u < s / total).
          { apply Rmult_lt_reg_r with total; [auto|]. unfold Rdiv.
            rewrite Rmult_assoc, Rinv_l by lra. lra. }
          unfold f, Rmin in Hu. destruct (Rle_dec 1 (s / total)); lra.
        * eapply at_most_mono; [|apply Rle_refl|apply (IH n); lia].
          intros l _ _ H. assert (Hu1 : 0 < u < 1) by lra.
          rewrite (proj2 (Step u Hu1) L l) in H. exact H.
  Qed.
End Collision.

Lemma C99_collision_proof :
  forall (p : particle XRa Given) (co : continuous XRa) (c : cell XRa) (E T total : R),
  p_energy p = ContinuousE (A := XRa) (Fin E) -> 0 < E ->
  p_cell p = Some c -> field_at (c_temperature c) (p_position p) = Fin T -> 0 < T ->
  (forall ev tsl awr, In (CScatter ev tsl awr) (co_reactions co) -> exists a, awr = Fin a /\ 0 < a) ->
  plain_reactions p (co_reactions co) ->
  co_get_total co p = Ok (Fin total) -> 0 < total -> 0 < sum_xs p (co_reactions co) ->
  let q := Rmax (3 / 4) (1 - sum_xs p (co_reactions co) / (2 * total)) in
  0 < q < 1 /\
  forall k n, (7 * k <= n)%nat ->
    at_most n (fun l => co_interact k co (set_rng p l) = OutOfFuel) (2 * q ^ k).
Proof.
  intros p co c E T total Ee HE Ec Et HT Ha Pl Tt Pt Ps q.
  assert (0 < sum_xs p (co_reactions co) / (2 * total)) by (apply Rdiv_lt_0_compat; lra).
  split.
  - unfold q, Rmax. destruct (Rle_dec _ _); lra.
  - intros k n. apply (collision_ends p co c E T total); auto; [apply Rmax_l|apply Rmax_r].
Qed.

(** ** An example: a nuclide whose table of totals exceeds the sum of its reactions *)

Definition level (x : R) : evaluation XRa := mkEval (A := XRa) (table [(1 / 2, x); (2, x)]) (Fin 300).
Definition gas_reactions : list (creaction XRa) :=
  [CCapture (A := XRa) (level 1); CScatter (A := XRa) (level 3) None (Fin 12 : num XRa)].
Definition gas : continuous XRa := mkContinuous (A := XRa) gas_reactions (level 5).
Definition gas_cell : cell XRa := mkCell 0 "gas" [] None (constant_field (Fin 300 : num XRa)).
Definition gas_neutron : particle XRa Given :=
  new_particle (G := Given) (pt (V3 0 0 0)) (pt (V3 1 0 0))
    (ContinuousE (A := XRa) (Fin 1)) neutron 1 (Some gas_cell).

Lemma level_valid x : ev_is_valid (level x) (Fin 300) = true.
Proof.
  rewrite (ev_is_valid_real (level x) 300 300 eq_refl) by lra. apply Rltb_true. lra.
Qed.
Lemma level_xs x : ev_xs_at (level x) gas_neutron = Ok (Fin x).
Proof.
  unfold ev_xs_at. cbn. decide_reals. cbn. decide_reals. cbn. do 2 f_equal. lra.
Qed.

Lemma C99_example :
  p_energy gas_neutron = ContinuousE (A := XRa) (Fin 1) /\ p_cell gas_neutron = Some gas_cell
  /\ field_at (c_temperature gas_cell) (p_position gas_neutron) = Fin 300
  /\ (forall ev tsl awr, In (CScatter ev tsl awr) (co_reactions gas) -> exists a, awr = Fin a /\ 0 < a)
  /\ plain_reactions gas_neutron (co_reactions gas)
  /\ co_get_total gas gas_neutron = Ok (Fin 5)
  /\ sum_xs gas_neutron (co_reactions gas) = 4
  /\ Rmax (3 / 4) (1 - sum_xs gas_neutron (co_reactions gas) / (2 * 5)) = 3 / 4.
Proof.
  assert (E1 : cr_xs (CCapture (A := XRa) (level 1)) gas_neutron = Ok (Fin 1)) by exact (level_xs 1).
  assert (E2 : cr_xs (CScatter (A := XRa) (level 3) None (Fin 12 : num XRa)) gas_neutron = Ok (Fin 3)).
  { unfold cr_xs. cbn [cr_evaluation tsl_applies bind].
    change (get_cell gas_neutron) with (Ok gas_cell). cbn [bind].
    change (field_at (c_temperature gas_cell) (p_position gas_neutron)) with (Fin 300 : num XRa).
    unfold scatter_xs_at. rewrite level_valid, level_xs. reflexivity. }
  assert (Es : sum_xs gas_neutron (co_reactions gas) = 4).
  { cbn [co_reactions gas]. unfold gas_reactions, sum_xs, reaction_xs. cbn [map Rsum].
    rewrite E1, E2. cbn. lra. }
  split; [reflexivity|]. split; [reflexivity|]. split; [reflexivity|]. split; [|split; [|split; [|split]]].
  - intros ev tsl awr [H|[H|[]]]; [discriminate|]. injection H as _ _ <-. exists 12. split; [reflexivity|lra].
  - cbn [co_reactions gas]. unfold gas_reactions, plain_reactions, reaction_xs.
    apply List.Forall_cons; [|apply List.Forall_cons; [|apply List.Forall_nil]].
    + rewrite E1. cbn. split; auto; lra.
    + rewrite E2. cbn. split; auto; lra.
  - unfold co_get_total. change (get_cell gas_neutron) with (Ok gas_cell). cbn [bind].
    unfold co_at_temperature. cbn [co_reactions gas gas_reactions any_modifies cr_modifies_total
      tsl_applies bind negb andb co_total].
    change (field_at (c_temperature gas_cell) (p_position gas_neutron)) with (Fin 300 : num XRa).
    rewrite level_valid. cbn [andb]. now rewrite level_xs.
  - exact Es.
  - rewrite Es, Rmax_left; lra.
Qed.
