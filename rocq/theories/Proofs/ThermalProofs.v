(** Thermal scattering. *)
From Coq Require Import Bool String List Reals ZArith NArith Lra Lia.
From Verif Require Import Model.Num Model.Outcome Model.Rng Model.Xml Model.Std Model.Point
  Model.Surface Model.Types Model.Bins Model.Field Model.Tables Model.Particle Model.Thermal
  Model.Continuous Spec.Vec Spec.RngSpec Spec.SumSpec Spec.BinsSpec Spec.TablesSpec
  Spec.ContinuousSpec Spec.FreeGasSpec Spec.ThermalSpec Proofs.RealLib Proofs.OutcomeLib
  Proofs.BinsProofs Proofs.TablesProofs Proofs.StepLib Proofs.ContinuousProofs
  Proofs.DirectionProofs Proofs.FreeGasProofs.
Import ListNotations.
Local Open Scope R_scope.

(** ** C39 *)

Lemma C39_thermal_cutoff_proof :
  forall (A : Arith) (G : Rng A) (X : Ext A) n t, thermal_create X n = Ok t ->
  exists Es cutoff,
    (* the tabulated energies of the total cross section *)
    dataset_load X 2 (as_string (n_attr n "total_E")) = Ok (th_xs_E t)
    /\ ds_axis (th_xs_E t) 0 = Ok (Es ++ [cutoff])%list
    /\ forall (p : particle A G) E ev awr fuel, p_energy p = ContinuousE E ->
       let with_thermal := CScatter ev (Some t) awr in
       let without := CScatter ev None awr in
       (p_type p = neutron /\ nltb A E cutoff = true ->
          cr_xs with_thermal p = th_get_total t p
          /\ cr_majorant with_thermal p = th_get_majorant t p
          /\ cr_interact fuel with_thermal p = noexcept (th_scatter t (set_event p scatter)))
       /\ (~ (p_type p = neutron /\ nltb A E cutoff = true) ->
          cr_xs with_thermal p = cr_xs without p
          /\ cr_majorant with_thermal p = cr_majorant without p
          /\ cr_interact fuel with_thermal p = cr_interact fuel without p).
Proof.
  intros A G X n t H. unfold thermal_create in H. oinv H.
  match goal with H : context [rev ?l] |- _ => set (E_axis := l) in * end.
  destruct (rev E_axis) as [|cutoff Es] eqn:Er; [discriminate|]. oinv H. subst t.
  exists (rev Es), cutoff.
  assert (Ea : E_axis = (rev Es ++ [cutoff])%list).
  { rewrite <- (rev_involutive E_axis), Er. reflexivity. }
  clearbody E_axis. subst E_axis. split; [assumption|]. split; [assumption|].
  intros p En ev awr fuel Ep. cbv zeta.
  match goal with |- context [CScatter ev (Some ?y) awr] => set (t := y) end.
  assert (Q : forall p' : particle A G, p_energy p' = ContinuousE En -> tsl_applies (Some t) p'
    = Ok (ptype_eqb (p_type p') neutron && nltb A En cutoff)).
  { intros p' Ep'. unfold tsl_applies, th_is_valid. rewrite Ep'. reflexivity. }
  assert (Q' := Q (set_event p scatter) Ep). cbn [p_type set_event] in Q'.
  specialize (Q p Ep).
  assert (D : (ptype_eqb (p_type p) neutron && nltb A En cutoff = true)
              <-> (p_type p = neutron /\ nltb A En cutoff = true)).
  { rewrite andb_true_iff. destruct (p_type p); cbn; intuition discriminate. }
  split; intros C.
  - apply D in C. unfold cr_xs, cr_majorant, cr_interact. rewrite Q, Q', C. cbn [bind].
    split; [|split; [|reflexivity]]; unfold th_get_total, th_get_majorant;
      match goal with |- noexcept (noexcept ?o) = _ => destruct o; reflexivity end.
  - assert (F : ptype_eqb (p_type p) neutron && nltb A En cutoff = false).
    { apply not_true_is_false. intros F. apply C, D, F. }
    unfold cr_xs, cr_majorant, cr_interact. rewrite Q, Q', F. cbn [bind tsl_applies].
    repeat split; reflexivity.
Qed.

(** ** Searching a grid *)

Lemma upper_bound_loop_total (f : nat -> outcome bool) fuel : forall first len,
  (len <= fuel)%nat -> (forall i, (first <= i < first + len)%nat -> exists b, f i = Ok b) ->
  exists k, upper_bound_loop fuel f first len = Ok k /\ (first <= k <= first + len)%nat.
Proof.
  induction fuel as [|fuel IH]; intros first len Hf H; cbn [upper_bound_loop].
  - assert (len = O) by lia; subst; cbn. exists first; split; auto; lia.
  - destruct (Nat.eqb_spec len 0) as [->|Hl]; [exists first; split; auto; lia|].
    assert (Hd : (Nat.div2 len < len)%nat) by (apply Nat.lt_div2; lia).
    destruct (H (first + Nat.div2 len)%nat) as [b ->]; [lia|]. cbn [bind]. destruct b.
    + destruct (IH first (Nat.div2 len)) as (k & -> & Hk); try lia.
      { intros i Hi. apply H. lia. }
      exists k. split; auto. lia.
    + destruct (IH (first + Nat.div2 len + 1)%nat (len - Nat.div2 len - 1)%nat)
        as (k & -> & Hk); try lia.
      { intros i Hi. apply H. lia. }
      exists k. split; auto. lia.
Qed.

Lemma upper_bound_total {A : Arith} (v : num A) l :
  exists k, upper_bound v l = Ok k /\ (k <= length l)%nat.
Proof.
  unfold upper_bound, upper_bound_gen.
  destruct (upper_bound_loop_total (fun i => match nth_error l i with
      | Some x => Ok (nltb A v x) | None => UB end) (length l) 0 (length l)) as (k & E & H); auto.
  - intros i Hi. destruct (nth_error l i) eqn:N; eauto. apply nth_error_None in N. lia.
  - exists k. split; auto. lia.
Qed.

Lemma increasing_nth_lt l i j : increasing l -> (i < j < length l)%nat -> nth i l 0 < nth j l 0.
Proof.
  intros H [H1 H2]. rewrite increasing_nth in H. induction H1 as [|j H1 IH].
  - apply H. lia.
  - specialize (IH ltac:(lia)). specialize (H j ltac:(lia)). lra.
Qed.

Lemma upper_bound_real l x : increasing l ->
  exists k, upper_bound (A := XRa) (Fin x) (map Fin l) = Ok k /\ (k <= length l)%nat
    /\ (forall i, (i < k)%nat -> nth i l 0 <= x)
    /\ (forall i, (k <= i < length l)%nat -> x < nth i l 0).
Proof.
  intros Inc. unfold upper_bound. rewrite map_length.
  destruct (upper_bound_gen_spec (fun i => Rltb x (nth i l 0))
     (fun i => match nth_error (map Fin l) i with
               | Some y => Ok (nltb XRa (Fin x) y) | None => UB end) (length l))
    as (k & E & Hk & K1 & K2).
  - intros i Hi. rewrite nth_error_map, (nth_error_nth' l 0 Hi). reflexivity.
  - intros i j Hij Hj Hl. destruct (Rltb_spec x (nth i l 0)); [|discriminate].
    apply Rltb_true. destruct (Nat.eq_dec i j) as [->|]; auto.
    pose proof (increasing_nth_lt l i j Inc ltac:(lia)). lra.
  - exists k. parts; auto.
    + intros i Hi. specialize (K1 i Hi). destruct (Rltb_spec x (nth i l 0)); [discriminate|lra].
    + intros i Hi. specialize (K2 i Hi). destruct (Rltb_spec x (nth i l 0)); [auto|discriminate].
Qed.

Lemma last_nth l : last l 0 = nth (length l - 1) l 0.
Proof.
  induction l as [|a l IH]; auto. destruct l as [|b l]; auto.
  transitivity (last (b :: l) 0); auto. rewrite IH. cbn [length].
  replace (S (S (length l)) - 1)%nat with (S (length l)) by lia.
  replace (S (length l) - 1)%nat with (length l) by lia. reflexivity.
Qed.

(** ** Arrays *)

Lemma array_axis ds axes f i a : array ds axes f -> nth_error axes (N.to_nat i) = Some a ->
  ds_axis ds i = Ok (map Fin a).
Proof.
  intros [E _] H. unfold ds_axis. rewrite <- (Nnat.N2Nat.id i).
  rewrite (vec_at_nth _ (N.to_nat i) (map Fin a)); [reflexivity|].
  rewrite E, nth_error_map, H. reflexivity.
Qed.

Lemma vec_fin l i : (i < length l)%nat -> vec_at (X := num XRa) (map Fin l) (N.of_nat i) = Ok (Fin (nth i l 0)).
Proof.
  intros H. apply vec_at_nth. rewrite nth_error_map, (nth_error_nth' l 0 H). reflexivity.
Qed.

Lemma foldM_sum {X} (g : X -> outcome xr) (h : X -> R) (l : list X) : forall acc,
  (forall o, In o l -> g o = Ok (Fin (h o))) ->
  foldM (fun a o => bind (g o) (fun x => Ok (xadd a x))) l (Fin acc)
  = Ok (Fin (acc + Rsum (map h l))).
Proof.
  induction l as [|o l IH]; intros acc H; cbn [foldM map Rsum].
  - do 2 f_equal. ring.
  - rewrite (H o) by now left. cbn [bind xadd]. rewrite IH by (intros; apply H; now right).
    do 2 f_equal. ring.
Qed.

Lemma map_indices {Y} (f : N -> Y) n : map f (indices n) = map (fun k => f (N.of_nat k)) (seq 0 n).
Proof. unfold indices. now rewrite map_map. Qed.

Lemma evaluate_inelastic_real t Es Ts V i j :
  cross_section_grid t Es Ts V -> (i < length Es)%nat -> (j < length Ts)%nat ->
  evaluate_inelastic t (N.of_nat i) (N.of_nat j) = Ok (Fin (V i j)).
Proof.
  intros (o & o' & o'' & s & e & x & L1 & L2 & B1 & B2 & As & Ae & Ax & Ev) Hi Hj.
  unfold evaluate_inelastic. rewrite (array_axis _ _ _ 0%N o As eq_refl). cbn [bind].
  rewrite map_length.
  assert (Q : foldM (fun a k => bind (bind (ds_at (th_xs_S t) [N.of_nat k]) (fun u =>
      bind (ds_at (th_xs_E t) [N.of_nat i; N.of_nat k]) (fun v =>
      bind (ds_at (th_xs_T t) [N.of_nat j; N.of_nat k]) (fun w => Ok (xmul (xmul u v) w)))))
      (fun y => Ok (xadd a y))) (seq 0 (length o)) (Fin 0) = Ok (Fin (V i j))).
  { rewrite (foldM_sum _ (fun k => s [N.of_nat k] * e [N.of_nat i; N.of_nat k]
                                   * x [N.of_nat j; N.of_nat k])).
    - rewrite Ev, map_indices. do 2 f_equal. ring.
    - intros k Hk. apply in_seq in Hk.
      destruct As as [_ As], Ae as [_ Ae], Ax as [_ Ax].
      rewrite As, Ae, Ax; [reflexivity| | |]; unfold shape_of; cbn [map];
        repeat (apply Forall2_cons; [lia|]); apply Forall2_nil. }
  rewrite <- Q. cbn [noexcept].
  match goal with |- noexcept ?a = ?b => assert (E : a = b) end.
  { apply foldM_ext. intros a k _. destruct (ds_at (th_xs_S t) [N.of_nat k]); cbn [bind]; auto.
    destruct (ds_at (th_xs_E t) [N.of_nat i; N.of_nat k]); cbn [bind]; auto.
    destruct (ds_at (th_xs_T t) [N.of_nat j; N.of_nat k]); cbn [bind]; auto. }
  rewrite E, Q. reflexivity.
Qed.

(** ** C40 *)

(** The position of [x] on an axis as the code finds it. *)
Lemma temperature_indices_real T Ts : increasing Ts -> Ts <> [] ->
  (N.of_nat (length Ts) < 2 ^ 64)%N ->
  exists above below hi lo,
    temperature_indices (A := XRa) (Fin T) (map Fin Ts) = Ok (above, N.of_nat hi, below, N.of_nat lo)
    /\ (hi < length Ts)%nat /\ (lo < length Ts)%nat
    /\ (below = true -> hi = O /\ lo = O)
    /\ (below = false -> hi = S lo)
    /\ (above = false -> T < nth hi Ts 0)
    /\ (above = true -> last Ts 0 <= T /\ hi = (length Ts - 1)%nat)
    /\ (below = false -> nth lo Ts 0 <= T).
Proof.
  intros Inc Ne B. unfold temperature_indices.
  destruct (upper_bound_real Ts T Inc) as (k & -> & Hk & K1 & K2). cbn [bind].
  rewrite map_length. assert (0 < length Ts)%nat by (destruct Ts; [congruence|cbn; lia]).
  destruct (N.eqb_spec (N.of_nat k) (N.of_nat (length Ts))) as [E|E].
  - assert (k = length Ts) by lia. subst k.
    rewrite (sub64_small (N.of_nat (length Ts)) 1) by lia.
    replace (N.of_nat (length Ts) - 1)%N with (N.of_nat (length Ts - 1)) by lia.
    assert (Hl : last Ts 0 <= T).
    { rewrite (last_nth Ts). apply K1. lia. }
    destruct (N.eqb_spec (N.of_nat (length Ts - 1)) 0) as [Z|Z].
    + exists true, true, (length Ts - 1)%nat, (length Ts - 1)%nat. parts; intros; try discriminate; auto; solve [lia|apply K1; lia|apply K2; lia].
    + rewrite sub64_small by lia.
      replace (N.of_nat (length Ts - 1) - 1)%N with (N.of_nat (length Ts - 2)) by lia.
      exists true, false, (length Ts - 1)%nat, (length Ts - 2)%nat. parts; intros; try discriminate; auto; solve [lia|apply K1; lia|apply K2; lia].
  - destruct (N.eqb_spec (N.of_nat k) 0) as [Z|Z].
    + assert (k = O) by lia. subst k. exists false, true, O, O.
      parts; intros; try discriminate; auto; solve [lia|apply K1; lia|apply K2; lia].
    + rewrite sub64_small by lia. replace (N.of_nat k - 1)%N with (N.of_nat (k - 1)) by lia.
      exists false, false, k, (k - 1)%nat. parts; intros; try discriminate; auto; solve [lia|apply K1; lia|apply K2; lia].
Qed.

Lemma th_get_total_real (G : Rng XRa) (p : particle XRa G) t c Es Ts V E T :
  cross_section_grid t Es Ts V -> increasing Es -> increasing Ts -> Es <> [] -> Ts <> [] ->
  p_energy p = ContinuousE (A := XRa) (Fin E) -> p_cell p = Some c ->
  field_at (c_temperature c) (p_position p) = Fin T ->
  E < last Es 0 ->
  exists g xs, th_get_total t p = Ok (Fin xs)
    /\ (forall j, (j < length Ts)%nat -> interpolated Es (fun i => V i j) E (g j))
    /\ (T < last Ts 0 \/ length Ts = 1%nat -> interpolated Ts g T xs)
    /\ (last Ts 0 <= T -> (1 < length Ts)%nat -> xs = g (length Ts - 2)%nat).
Proof.
  intros D IE IT NE NT Ep Ec Ef HE. pose proof D as D0.
  destruct D0 as (o & o' & o'' & s & e & x & L1 & L2 & B1 & B2 & As & Ae & Ax & Ev).
  unfold th_get_total. rewrite Ep. cbn [get_continuous bind].
  rewrite (array_axis _ _ _ 0%N Es Ae eq_refl). cbn [bind].
  destruct (upper_bound_real Es E IE) as (k & -> & Hk & K1 & K2). cbn [bind].
  unfold get_cell. rewrite Ec. cbn [bind]. rewrite Ef.
  rewrite (array_axis _ _ _ 0%N Ts Ax eq_refl). cbn [bind].
  destruct (temperature_indices_real T Ts IT NT B2)
    as (above & below & hi & lo & -> & Hhi & Hlo & T1 & T2 & T3 & T4 & T5). cbn [bind].
  assert (LE : (0 < length Es)%nat) by (destruct Es; [congruence|cbn; lia]).
  assert (LT : (0 < length Ts)%nat) by (destruct Ts; [congruence|cbn; lia]).
  assert (Kn : (k < length Es)%nat).
  { destruct (Nat.eq_dec k (length Es)) as [->|]; [|lia]. exfalso.
    rewrite last_nth in HE. specialize (K1 (length Es - 1)%nat ltac:(lia)). lra. }
  set (m := (if (N.of_nat k =? 0)%N then N.of_nat k else sub64 (N.of_nat k) 1)).
  assert (Em : m = N.of_nat (k - 1)).
  { unfold m. destruct (N.eqb_spec (N.of_nat k) 0); [lia|]. rewrite sub64_small by lia. lia. }
  rewrite Em. clear m Em.
  rewrite !(evaluate_inelastic_real t Es Ts V) by (auto; lia). cbn [bind].
  rewrite !vec_fin by lia. cbn [bind].
  (* energy *)
  set (rE := if (N.of_nat k =? 0)%N then nofZ XRa 1 else
     ndiv XRa (nsub XRa (Fin E) (Fin (nth (k - 1) Es 0)))
       (nsub XRa (Fin (nth k Es 0)) (Fin (nth (k - 1) Es 0)))).
  set (re := if (k =? 0)%nat then 1 else (E - nth (k - 1) Es 0) / (nth k Es 0 - nth (k - 1) Es 0)).
  assert (Er : rE = Fin re).
  { unfold rE, re. destruct (N.eqb_spec (N.of_nat k) 0); destruct (Nat.eqb_spec k 0); try lia.
    - reflexivity.
    - pose proof (increasing_nth_lt Es (k - 1) k IE ltac:(lia)).
      change (xdiv (Fin (E + - nth (k - 1) Es 0)) (Fin (nth k Es 0 + - nth (k - 1) Es 0))
        = Fin ((E - nth (k - 1) Es 0) / (nth k Es 0 - nth (k - 1) Es 0))).
      rewrite xdiv_fin by lra. reflexivity. }
  rewrite Er. clear rE Er.
  set (g := fun j => V (k - 1)%nat j + re * (V k j - V (k - 1)%nat j)).
  change (nadd XRa (Fin (V (k - 1)%nat lo)) (nmul XRa (Fin re)
    (nsub XRa (Fin (V k lo)) (Fin (V (k - 1)%nat lo))))) with (Fin (g lo)).
  change (nadd XRa (Fin (V (k - 1)%nat hi)) (nmul XRa (Fin re)
    (nsub XRa (Fin (V k hi)) (Fin (V (k - 1)%nat hi))))) with (Fin (g hi)).
  assert (Ig : forall j, (j < length Ts)%nat -> interpolated Es (fun i => V i j) E (g j)).
  { intros j _. unfold g, re. destruct (Nat.eqb_spec k 0) as [->|Z].
    - replace (V (0 - 1)%nat j + 1 * (V 0%nat j - V (0 - 1)%nat j)) with (V 0%nat j) by (cbn; ring).
      apply (in_below Es (fun i => V i j)); [exact NE|apply K2; lia].
    - pose proof (increasing_nth_lt Es (k - 1) k IE ltac:(lia)).
      pose proof (in_between Es (fun i => V i j) E (k - 1)%nat) as Q. unfold chord in Q.
      replace (S (k - 1)) with k in * by lia.
      replace (V (k - 1)%nat j + (E - nth (k - 1) Es 0) / (nth k Es 0 - nth (k - 1) Es 0)
         * (V k j - V (k - 1)%nat j)) with
       (V (k - 1)%nat j + (V k j - V (k - 1)%nat j) *
         ((E - nth (k - 1) Es 0) / (nth k Es 0 - nth (k - 1) Es 0))) by (field; lra).
      apply Q; [lia|]. split; [apply K1; lia|apply K2; lia]. }
  clearbody g.
  (* temperature *)
  destruct below.
  - destruct (T1 eq_refl) as [-> ->]. exists g, (g 0%nat). split.
    { cbn [noexcept]. do 2 f_equal. change (Fin (g 0%nat + 1 * (g 0%nat + - g 0%nat)) = Fin (g 0%nat)).
      f_equal. ring. }
    split; [exact Ig|]. split; [|intros Hl Ll].
    + intros _. destruct above.
      * destruct (T4 eq_refl) as [Hl Eh]. rewrite Eh. now apply (in_above Ts g).
      * apply (in_below Ts g); [exact NT|apply T3; reflexivity].
    + exfalso. destruct above.
      * destruct (T4 eq_refl). lia.
      * specialize (T3 eq_refl). rewrite last_nth in Hl.
        pose proof (increasing_nth_lt Ts 0 (length Ts - 1) IT ltac:(lia)). lra.
  - specialize (T2 eq_refl). subst hi. specialize (T5 eq_refl). destruct above.
    + destruct (T4 eq_refl) as [Hl Eh]. exists g, (g lo). split.
      { cbn [noexcept]. do 2 f_equal. change (Fin (g lo + 0 * (g (S lo) + - g lo)) = Fin (g lo)).
        f_equal. ring. }
      split; [exact Ig|]. split.
      * intros [Q|Q]; [lra|lia].
      * intros _ _. f_equal. lia.
    + specialize (T3 eq_refl). pose proof (increasing_nth_lt Ts lo (S lo) IT ltac:(lia)).
      exists g, (chord (nth lo Ts 0) (g lo) (nth (S lo) Ts 0) (g (S lo)) T). split.
      { cbn [noexcept]. f_equal.
        change (xadd (Fin (g lo)) (xmul (xdiv (Fin (T + - nth lo Ts 0))
          (Fin (nth (S lo) Ts 0 + - nth lo Ts 0))) (Fin (g (S lo) + - g lo)))
          = Fin (chord (nth lo Ts 0) (g lo) (nth (S lo) Ts 0) (g (S lo)) T)).
        rewrite xdiv_fin by lra. cbn [xmul xadd]. f_equal. unfold chord. field. lra. }
      split; [exact Ig|]. split.
      * intros _. apply (in_between Ts g T lo); auto; lra.
      * intros Hl _. exfalso. rewrite last_nth in Hl.
        destruct (Nat.eq_dec (S lo) (length Ts - 1)) as [Q|Q]; [rewrite Q in *; lra|].
        pose proof (increasing_nth_lt Ts (S lo) (length Ts - 1) IT ltac:(lia)). lra.
Qed.

Lemma C40_thermal_grid_partial_proof :
  forall (G : Rng XRa) (p : particle XRa G) t c Es Ts V (E T : R),
  cross_section_grid t Es Ts V -> increasing Es -> increasing Ts -> Es <> [] -> Ts <> [] ->
  p_energy p = ContinuousE (A := XRa) (Fin E) -> p_cell p = Some c ->
  field_at (c_temperature c) (p_position p) = Fin T ->
  E < last Es 0 ->
  exists g xs, th_get_total t p = Ok (Fin xs)
    (* interpolation in energy at each tabulated temperature *)
    /\ (forall j, (j < length Ts)%nat -> interpolated Es (fun i => V i j) E (g j))
    (* then in temperature *)
    /\ (T < last Ts 0 \/ length Ts = 1%nat -> interpolated Ts g T xs)
    (* but at or above the highest of several the last but one is used *)
    /\ (last Ts 0 <= T -> (1 < length Ts)%nat -> xs = g (length Ts - 2)%nat).
Proof. intros. now apply th_get_total_real with c. Qed.

(** Arrays made from lists. *)
Lemma array_make axes values : axes <> [] -> N.of_nat (length values) = volume (shape_of axes) ->
  array (make_dataset (A := XRa) (map (map Fin) axes) (map Fin values)) axes
    (fun is => nth (N.to_nat (row_major (shape_of axes) is)) values 0).
Proof.
  intros Ne Hv. split; [reflexivity|]. intros is H. now apply ds_at_F.
Qed.

Definition array1 (l vs : list R) : dataset XRa :=
  make_dataset (A := XRa) (map (map Fin) [l]) (map Fin vs).
Definition array2 (l l' vs : list R) : dataset XRa :=
  make_dataset (A := XRa) (map (map Fin) [l; l']) (map Fin vs).
Definition array3 (l l' l'' vs : list R) : dataset XRa :=
  make_dataset (A := XRa) (map (map Fin) [l; l'; l'']) (map Fin vs).

(** Cross section 1 at 200 degrees and 3 at 400. *)
Definition two_temperatures : thermal XRa :=
  mkThermal (A := XRa) [] (array2 [200; 400] [0] [1; 3]) (array1 [0] [1])
    (array2 [1; 10] [0] [1; 1]) [] [] [] [] [] [] (Fin 0) (Fin 0) (Fin 1) (Fin 10).
Lemma two_temperatures_grid :
  cross_section_grid two_temperatures [1; 10] [200; 400]
    (fun i j => Rsum (map (fun o => nth (N.to_nat (row_major (shape_of [[0]]) [o])) [1] 0
      * nth (N.to_nat (row_major (shape_of [[1; 10]; [0]]) [N.of_nat i; o])) [1; 1] 0
      * nth (N.to_nat (row_major (shape_of [[200; 400]; [0]]) [N.of_nat j; o])) [1; 3] 0)
      (indices 1))).
Proof.
  exists [0], [0], [0]. do 3 eexists.
  split; [reflexivity|]. split; [reflexivity|]. split; [reflexivity|]. split; [reflexivity|].
  split; [apply array_make; [discriminate|reflexivity]|].
  split; [apply array_make; [discriminate|reflexivity]|].
  split; [apply array_make; [discriminate|reflexivity]|].
  intros i j. reflexivity.
Qed.

Lemma C40_highest_temperature_refuted_proof :
  forall G : Rng XRa, exists (p : particle XRa G) t c Es Ts V (E T : R),
  cross_section_grid t Es Ts V /\ increasing Es /\ increasing Ts /\ Es <> [] /\ Ts <> []
  /\ p_energy p = ContinuousE (A := XRa) (Fin E) /\ p_cell p = Some c
  /\ field_at (c_temperature c) (p_position p) = Fin T /\ E < last Es 0
  /\ exists xs, th_get_total t p = Ok (Fin xs)
     /\ forall g, (forall j, (j < length Ts)%nat -> interpolated Es (fun i => V i j) E (g j)) ->
        ~ interpolated Ts g T xs.
Proof.
  intros G. set (c := mkCell (A := XRa) 0 "" [] None (constant_field (Fin 500 : num XRa))).
  exists (new_particle (G := G) (pt (V3 0 0 0)) (pt (V3 1 0 0)) (ContinuousE (A := XRa) (Fin 1))
            neutron 1 (Some c)), two_temperatures, c, [1; 10], [200; 400].
  eexists. exists 1, 500. split; [exact two_temperatures_grid|].
  split; [cbn; lra|]. split; [cbn; lra|]. split; [discriminate|]. split; [discriminate|].
  do 3 (split; [reflexivity|]). split; [cbn; lra|].
  destruct (th_get_total_real G (new_particle (G := G) (pt (V3 0 0 0)) (pt (V3 1 0 0))
     (ContinuousE (A := XRa) (Fin 1)) neutron 1 (Some c)) two_temperatures c [1; 10] [200; 400] _ 1 500
     two_temperatures_grid) as (g & xs & E & Hg & _ & Hx); try discriminate; try reflexivity;
    try (cbn; lra).
  exists xs. split; [exact E|]. intros g' Hg' I.
  specialize (Hx ltac:(cbn; lra) ltac:(cbn; lia)). cbn in Hx. subst xs.
  (* both interpolations in energy are of constant functions *)
  assert (Q : forall l x f y k, interpolated l f x y -> (forall i, (i < length l)%nat -> f i = k) -> y = k).
  { clear. intros l x f y k [Ne _|i Hi H|Ne _] Hf.
    - apply Hf. destruct l; [congruence|cbn; lia].
    - unfold chord. rewrite (Hf i), (Hf (S i)) by lia. ring.
    - apply Hf. destruct l; [congruence|cbn; lia]. }
  assert (Q0 : g 0%nat = 1).
  { apply (Q _ _ _ _ 1 (Hg 0%nat ltac:(cbn; lia))). intros [|[|i]] Hi; [| |cbn in Hi; lia];
    cbn; change (Pos.to_nat 1) with 1%nat; cbn; lra. }
  assert (Q1 : g' 1%nat = 3).
  { apply (Q _ _ _ _ 3 (Hg' 1%nat ltac:(cbn; lia))). intros [|[|i]] Hi; [| |cbn in Hi; lia];
    cbn; change (Pos.to_nat 1) with 1%nat; cbn; lra. }
  remember (g 0%nat) as y eqn:Ey. destruct I as [Ne L|i Hi L|Ne L].
  - cbn in L. lra.
  - cbn in Hi. assert (i = 0%nat) by lia. subst i. cbn in L. lra.
  - cbn in *. lra.
Qed.

(** ** C41 *)

Section Beta.
  Context {A : Arith} {G : Rng A}.
  Implicit Types p : particle A G.

  Definition unphysical (E T b : num A) : Prop :=
    nleb A (ndiv A (nopp A E) (nmul A boltzmann T)) b = false.

  Lemma sample_beta_loop_ok t pa local E E_s T n : forall p b q,
    sample_beta_loop n t pa local E E_s T p = Ok (b, q) ->
    exists k, (k < n)%nat
      /\ sample_beta_candidate t pa local E_s T (draw G k (p_rng p)) = Ok b
      /\ ~ unphysical E T b
      /\ (forall i, (i < k)%nat -> exists c,
            sample_beta_candidate t pa local E_s T (draw G i (p_rng p)) = Ok c
            /\ unphysical E T c)
      /\ q = set_rng p (advance G (S k) (p_rng p)).
  Proof.
    unfold unphysical.
    induction n as [|n IH]; intros p b q H; cbn [sample_beta_loop] in H; [discriminate|].
    unfold p_unif in H. destruct (runif G (p_rng p)) as [u s] eqn:Eu. apply bind_ok in H as (c & Ec & H).
    destruct (nleb A _ c) eqn:L.
    - injection H as <- <-. exists O. unfold draw. cbn [advance]. rewrite Eu. cbn [fst snd].
      split; [lia|]. split; [exact Ec|]. rewrite L. split; [discriminate|]. split; [intros; lia|reflexivity].
    - destruct (IH _ _ _ H) as (k & Hk & E1 & E2 & E3 & E4). cbn [p_rng set_rng] in *.
      exists (S k). split; [lia|]. unfold draw in *. cbn [advance]. rewrite Eu. cbn [snd].
      split; [exact E1|]. split; [exact E2|]. split.
      + intros [|i] Hi.
        * exists c. cbn [advance]. rewrite Eu. auto.
        * cbn [advance]. rewrite Eu. cbn [snd]. apply E3. lia.
      + exact E4.
  Qed.

  Lemma sample_beta_loop_limit t pa local E E_s T n : forall p,
    (forall i, (i < n)%nat -> exists c,
       sample_beta_candidate t pa local E_s T (draw G i (p_rng p)) = Ok c /\ unphysical E T c) ->
    sample_beta_loop n t pa local E E_s T p
    = Throw "Number of thermal scattering beta resamples exceeded limit: 10".
  Proof.
    induction n as [|n IH]; intros p H; cbn [sample_beta_loop]; [reflexivity|].
    unfold p_unif. destruct (runif G (p_rng p)) as [u s] eqn:Eu.
    destruct (H O ltac:(lia)) as (c & Ec & L). unfold draw in Ec. cbn [advance] in Ec.
    rewrite Eu in Ec. cbn [fst] in Ec. rewrite Ec. cbn [bind]. unfold unphysical in L. rewrite L.
    apply IH. intros i Hi. destruct (H (S i) ltac:(lia)) as (c' & Ec' & L').
    exists c'. unfold draw in *. cbn [advance p_rng set_rng] in *. rewrite Eu in Ec'. auto.
  Qed.
End Beta.

Lemma C41_ten_attempts_proof :
  forall (A : Arith) (G : Rng A) t (p p1 : particle A G) E T i E_s pa local,
  (* the grid energy drawn, and its tables *)
  choose_energy_index t p E = Ok (i, p1) -> vec_at (th_Es t) i = Ok E_s ->
  locate_partition (th_beta_partitions t) (th_beta_ends t) i = Ok (pa, local) ->
  let candidate k := sample_beta_candidate t pa local E_s T (draw G k (p_rng p1)) in
  let impossible b := nleb A (ndiv A (nopp A E) (nmul A boltzmann T)) b = false in
  (* the first possible candidate is returned *)
  (forall b q, sample_beta t p E T = Ok (b, q) ->
     exists k, (k < 10)%nat /\ candidate k = Ok b /\ ~ impossible b
       /\ (forall j, (j < k)%nat -> exists c, candidate j = Ok c /\ impossible c)
       /\ q = set_rng p1 (advance G (S k) (p_rng p1)))
  (* ten impossible candidates are an error *)
  /\ ((forall k, (k < 10)%nat -> exists c, candidate k = Ok c /\ impossible c) ->
      sample_beta t p E T
      = Throw "Number of thermal scattering beta resamples exceeded limit: 10").
Proof.
  intros A G t p p1 E T i E_s pa local Ei Ev El. cbv zeta. split.
  - intros b q H. unfold sample_beta in H. rewrite Ei in H. cbn [bind] in H.
    rewrite Ev in H. cbn [bind] in H. rewrite El in H. cbn [bind] in H.
    apply sample_beta_loop_ok in H. exact H.
  - intros H. unfold sample_beta. rewrite Ei. cbn [bind]. rewrite Ev. cbn [bind]. rewrite El.
    cbn [bind]. apply sample_beta_loop_limit. exact H.
Qed.

Lemma sample_beta_physical (G : Rng XRa) t (p q : particle XRa G) (E T : R) b : 0 < T ->
  sample_beta t p (Fin E : num XRa) (Fin T : num XRa) = Ok (b, q) ->
  b = PInf \/ exists r, b = Fin r /\ 0 <= E + r * k_B * T.
Proof.
  intros HT H. pose proof k_B_pos as K. unfold sample_beta in H.
  apply bind_ok in H as ([i p1] & Ei & H). apply bind_ok in H as (E_s & Ev & H).
  apply bind_ok in H as ([pa local] & El & H).
  apply sample_beta_loop_ok in H as (k & _ & _ & N & _). unfold unphysical in N.
  rewrite boltzmann_real in N. assert (P : 0 < k_B * T) by now apply Rmult_lt_0_compat.
  change (xleb (xdiv (Fin (- E)) (Fin (k_B * T))) b <> false) in N.
  rewrite xdiv_fin in N by lra. destruct b as [r| | |]; cbn in N; auto; try congruence.
  right. exists r. split; auto. destruct (Rleb_spec (- E / (k_B * T)) r) as [L|]; [|congruence].
  apply (Rmult_le_compat_r (k_B * T)) in L; [|lra]. unfold Rdiv in L.
  rewrite Rmult_assoc, Rinv_l in L by lra. lra.
Qed.

Lemma C41_energy_nonnegative_proof :
  forall (G : Rng XRa) t (p q : particle XRa G) c (E T : R),
  p_energy p = ContinuousE (A := XRa) (Fin E) -> p_cell p = Some c ->
  field_at (c_temperature c) (p_position p) = Fin T -> 0 < T ->
  th_scatter t p = Ok q ->
  exists E', p_energy q = ContinuousE E' /\ nleb XRa (Fin 0) E' = true
    /\ exists b p1, sample_beta t p (Fin E : num XRa) (Fin T : num XRa) = Ok (b, p1)
       /\ E' = nadd XRa (Fin E) (nmul XRa (nmul XRa b (Fin k_B)) (Fin T)).
Proof.
  intros G t p q c E T Ep Ec Ef HT H. pose proof k_B_pos as K. unfold th_scatter in H.
  rewrite Ep in H. cbn [get_continuous bind] in H. unfold get_cell in H. rewrite Ec in H.
  cbn [bind] in H. rewrite Ef in H. apply bind_ok in H as ([b p1] & Eb & H).
  apply bind_ok in H as ([a p2] & Ea & H). rewrite boltzmann_real in H. injection H as <-.
  eexists. split; [unfold p_scatter; destruct (p_unif _); reflexivity|]. split; [|eauto].
  destruct (sample_beta_physical G t p p1 E T b HT Eb) as [->|(r & -> & Hr)].
  - change (xleb (Fin 0) (xadd (Fin E) (xmul (xmul PInf (Fin k_B)) (Fin T))) = true).
    cbn [xmul]. unfold xsinf. rewrite Rltb_true by lra. cbn. unfold xsinf. rewrite Rltb_true by lra.
    reflexivity.
  - change (Rleb 0 (E + r * k_B * T) = true). now apply Rleb_true.
Qed.
