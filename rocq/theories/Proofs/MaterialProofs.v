(** Materials over the reals. *)
From Coq Require Import Bool String List Reals ZArith NArith Lra Lia Permutation.
From Verif Require Import Model.Num Model.Outcome Model.Rng Model.Xml Model.Std Model.Point
  Model.Surface Model.Types Model.Particle Model.Multigroup Model.Continuous Model.Material
  Model.World Model.Perturbation Model.Estimator Model.Transport Spec.Vec Spec.RngSpec
  Spec.SumSpec Spec.MultigroupSpec Spec.MaterialSpec Proofs.RealLib Proofs.OutcomeLib
  Proofs.BinsProofs Proofs.MultigroupProofs Proofs.MultigroupReal Proofs.StreamProofs
  Proofs.StepLib.
Import ListNotations.
Local Open Scope R_scope.

(** ** Construction *)
Lemma Rsum_perm l l' : Permutation l l' -> Rsum l = Rsum l'.
Proof. induction 1; cbn; lra. Qed.


Lemma find_name (all : list (nuclide XRa)) name : 
  (exists nu, In nu all /\ nu_name nu = name) ->
  exists nu, find (fun nu => String.eqb (nu_name nu) name) all = Some nu
    /\ In nu all /\ nu_name nu = name.
Proof.
  intros (nu & Hin & E). destruct (find (fun nu => String.eqb (nu_name nu) name) all) as [x|] eqn:F.
  - apply find_some in F as [F1 F2]. apply String.eqb_eq in F2. eauto.
  - apply find_none with (x := nu) in F; auto. apply String.eqb_neq in F. congruence.
Qed.

Lemma same_id (all : list (nuclide XRa)) a b : NoDup (map nu_id all) ->
  In a all -> In b all -> nu_id a = nu_id b -> a = b.
Proof.
  induction all as [|x l IH]; cbn; [tauto|]. intros D Ha Hb E. inversion D; subst.
  destruct Ha as [->|Ha], Hb as [->|Hb]; auto.
  - exfalso. apply H1. rewrite E. now apply in_map.
  - exfalso. apply H1. rewrite <- E. now apply in_map.
Qed.

(** The stored entry of a written one, before normalisation. *)
Definition entry_of (all : list (nuclide XRa)) (w : string * R) (x : nuclide XRa * num XRa) : Prop :=
  nu_name (fst x) = fst w /\ snd x = Fin (snd w) /\ In (fst x) all.

Definition entry_of' (all : list (nuclide XRa)) (x : nuclide XRa * num XRa) (w : string * R) : Prop :=
  entry_of all w x.
Lemma entry_flip all l r : Forall2 (entry_of all) l r -> Forall2 (entry_of' all) r l.
Proof. induction 1; constructor; auto. Qed.
Lemma entry_flip' all l r : Forall2 (entry_of' all) r l -> Forall2 (entry_of all) l r.
Proof. induction 1; constructor; auto. Qed.

Lemma collect_ok (X : Ext XRa) (all : list (nuclide XRa)) ns (l : list (string * R)) : NoDup (map nu_id all) ->
  Forall2 (fun c w => n_attr c "name"%string = Some (fst w)
                      /\ as_double X (n_attr c "afrac"%string) = Fin (snd w)) ns l ->
  (forall w, In w l -> exists nu, In nu all /\ nu_name nu = fst w) ->
  forall done acc, NoDup (map fst (done ++ l)) -> Forall2 (entry_of all) done acc ->
  exists r l', foldM (fun acc n =>
             let name := as_string (n_attr n "name"%string) in
             match find (fun nu => String.eqb (nu_name nu) name) all with
             | None => UB
             | Some nu =>
                 let afrac := as_double X (n_attr n "afrac"%string) in
                 Ok (if existsb (fun x => Nat.eqb (nu_id (fst x)) (nu_id nu)) acc
                     then acc
                     else insert_at (fun x => nuclide_address X (nu_id (fst x))) (nu, afrac) acc)
             end) ns acc = Ok r /\ Permutation (done ++ l) l' /\ Forall2 (entry_of all) l' r.
Proof.
  intros D F Hl. revert Hl. induction F as [|c w ns l [Ec Ew] F IH]; intros Hl done acc Dn Fd.
  - exists acc, done. rewrite app_nil_r. auto.
  - cbn [foldM]. rewrite Ec. cbn [as_string].
    destruct (find_name all (fst w)) as (nu & Ef & Hin & Hn). { apply Hl. now left. }
    rewrite Ef. cbn [bind].
    assert (Ex : existsb (fun x => Nat.eqb (nu_id (fst x)) (nu_id nu)) acc = false).
    { apply Bool.not_true_iff_false. intros T. apply existsb_exists in T as (x & Hx & Ei).
      apply Nat.eqb_eq in Ei. destruct (In_nth_error _ _ Hx) as (i & Hi).
      assert (Hd : exists v, In v done /\ entry_of all v x).
      { clear -Fd Hx. induction Fd as [|v y dn ac Hv _ IH]; [destruct Hx|].
        destruct Hx as [<-|Hx]; [exists v; split; auto; now left|].
        destruct (IH Hx) as (v' & ? & ?). exists v'. split; auto. now right. }
      destruct Hd as (v & Hv & (Nv & _ & Iv)).
      assert (fst x = nu) by (eapply same_id; eauto). subst nu.
      rewrite map_app in Dn. cbn in Dn. apply NoDup_remove_2 in Dn. apply Dn.
      apply in_or_app. left. rewrite <- Hn, Nv. now apply in_map. }
    rewrite Ex, Ew.
    set (acc' := insert_at (fun x => nuclide_address X (nu_id (fst x))) (nu, Fin (snd w) : num XRa) acc).
    destruct (Permutation_Forall2 (Permutation_sym (insert_perm (fun x => nuclide_address X (nu_id (fst x))) (nu, Fin (snd w) : num XRa) acc))
      (Forall2_cons _ _ (conj Hn (conj eq_refl Hin) : entry_of' all (nu, Fin (snd w) : num XRa) w) (entry_flip all done acc Fd)))
      as (done' & Pd & Fd').
    destruct (IH ltac:(intros; apply Hl; now right) done' acc') as (r & l' & E & Pl & Fr).
    + eapply Permutation_NoDup; [|exact Dn]. apply Permutation_map.
      etransitivity; [apply Permutation_sym, Permutation_middle|].
      exact (Permutation_app_tail l Pd).
    + exact (entry_flip' all _ _ Fd').
    + exists r, l'. split; [exact E|]. split; [|exact Fr]. etransitivity; [|exact Pl].
      etransitivity; [apply Permutation_sym, Permutation_middle|]. exact (Permutation_app_tail l Pd).
Qed.

Lemma normalize_sum (all : list (nuclide XRa)) l r : Forall2 (entry_of all) l r -> forall a,
  fold_left (fun acc x => nadd XRa acc (snd x)) r (Fin a) = Fin (a + Rsum (map snd l)).
Proof.
  induction 1 as [|w x l r (_ & E & _) _ IH]; intros a; cbn [fold_left map Rsum].
  - f_equal. cbn. lra.
  - rewrite E. cbn [nadd XRa xadd]. rewrite IH. f_equal. cbn. lra.
Qed.

Lemma fraction_fin (x : nuclide XRa * num XRa) r : snd x = Fin r -> fraction x = r.
Proof. unfold fraction. now intros ->. Qed.

Lemma C28_atom_fractions_proof :
  forall (X : Ext XRa) root name (all : list (nuclide XRa)) (l : list (string * R)),
  let n := material_element root name in
  n <> None -> written_fractions X n l -> l <> [] -> NoDup (map fst l) ->
  List.Forall (fun w => 0 < snd w) l ->
  NoDup (map nu_id all) -> (forall w, In w l -> exists nu, In nu all /\ nu_name nu = fst w) ->
  exists m, material_create X root name all = Ok m
    /\ m_name m = name /\ m_density m = as_double X (n_attr n "aden"%string)
    /\ (exists l', Permutation l l' /\ Forall2 (fun w x => In (fst x) all /\ nu_name (fst x) = fst w
                           /\ snd x = Fin (snd w / Rsum (map snd l))) l' (m_afracs m))
    /\ List.Forall (fun x => 0 < fraction x) (m_afracs m)
    /\ Rsum (map fraction (m_afracs m)) = 1.
Proof.
  intros X root name all l n Nn W L0 Dl Pos D Hl.
  unfold material_create, material_node. fold (material_element root name). fold n.
  rewrite (proj2 (is_null_false n) Nn). cbn [bind].
  destruct (collect_ok X all (n_children n) l D W Hl [] [] Dl (Forall2_nil _)) as (r & l' & E & Pl & F).
  assert (E' : collect_nuclides X all (n_children n) = Ok r) by exact E.
  cbn in F. rewrite E'. cbn [bind].
  eexists; split; [reflexivity|]. cbn [m_name m_density m_afracs].
  unfold normalize_afracs. pose proof (normalize_sum all l' r F 0) as Sm.
  change (nofZ XRa 0) with (Fin 0). rewrite Sm. rewrite Rplus_0_l. cbn [app] in Pl.
  rewrite <- (Rsum_perm _ _ (Permutation_map snd Pl)). set (T := Rsum (map snd l)) in *.
  assert (Tp : 0 < T).
  { unfold T. destruct l as [|w l]; [congruence|]. inversion Pos; subst. cbn.
    assert (0 <= Rsum (map snd l)); [|lra]. apply Rsum_nonneg. apply Forall_map.
    eapply Forall_impl; [|eassumption]. cbn. intros; lra. }
  assert (Fm : Forall2 (fun w x => In (fst x) all /\ nu_name (fst x) = fst w
                 /\ snd x = Fin (snd w / T)) l' (map (fun x => (fst x, ndiv XRa (snd x) (Fin T))) r)).
  { clear -F Tp. clearbody T. induction F as [|w x l' r (A & B & C) _ IH]; constructor; auto. cbn [fst snd].
    parts; auto. rewrite B. cbn. rewrite Reqb_false by lra. reflexivity. }
  assert (Pos' : List.Forall (fun w => 0 < snd w) l') by (eapply Permutation_Forall; eauto).
  parts; auto.
  - exists l'. auto.
  - clear -Fm Tp Pos'. rename Pos' into Pos. set (k := map _ r) in *. clearbody k. revert Pos.
    clearbody T.
    induction Fm as [|w x l0 k (A & B & C) _ IH]; intros Pos; inversion Pos; subst; constructor; auto.
    rewrite (fraction_fin _ _ C). apply Rdiv_lt_0_compat; lra.
  - replace 1 with (Rsum (map snd l') / T) by (rewrite <- (Rsum_perm _ _ (Permutation_map snd Pl)); unfold T; field; fold T; lra).
    clear -Fm. set (k := map _ r) in *. clearbody k. clearbody T.
    induction Fm as [|w x l0 k (A & B & C) _ IH]; cbn [map Rsum]; [unfold Rdiv; cbn; lra|].
    rewrite IH, (fraction_fin _ _ C). unfold Rdiv. lra.
Qed.

(** ** Sums over nuclides *)

Lemma sum_afracs_fin (f : nuclide XRa -> outcome xr) (v : nuclide XRa * num XRa -> R) l :
  List.Forall (fun x => snd x = Fin (fraction x) /\ f (fst x) = Ok (Fin (v x))) l ->
  forall a, foldM (fun acc x => bind (f (fst x)) (fun y => Ok (nadd XRa acc (nmul XRa (snd x) y))))
              l (Fin a) = Ok (Fin (a + weighted v l)).
Proof.
  induction 1 as [|x l [Ea Ev] _ IH]; intros a; cbn [foldM].
  - unfold weighted; cbn. do 2 f_equal. lra.
  - rewrite Ea, Ev. cbn [bind nadd nmul XRa xadd xmul]. rewrite IH. unfold weighted. cbn.
    do 2 f_equal. lra.
Qed.

Lemma mat_total_fin {G : Rng XRa} m (p : particle XRa G) : List.Forall (plain p) (m_afracs m) ->
  mat_total m p = Ok (Fin (weighted (total_at p) (m_afracs m))).
Proof.
  intros H. unfold mat_total, sum_afracs. change (nofZ XRa 0) with (Fin 0).
  rewrite (sum_afracs_fin (fun nu => nu_total nu p) (total_at p)).
  - cbn. do 2 f_equal. lra.
  - eapply Forall_impl; [|exact H]. intros x []. auto.
Qed.

Lemma mat_majorant_fin {G : Rng XRa} m (p : particle XRa G) : List.Forall (plain p) (m_afracs m) ->
  mat_majorant m p = Ok (Fin (weighted (majorant_at p) (m_afracs m))).
Proof.
  intros H. unfold mat_majorant, sum_afracs. change (nofZ XRa 0) with (Fin 0).
  rewrite (sum_afracs_fin (fun nu => nu_majorant nu p) (majorant_at p)).
  - cbn. do 2 f_equal. lra.
  - eapply Forall_impl; [|exact H]. intros x []. auto.
Qed.

Lemma weighted_perm f l l' : Permutation l l' -> weighted f l = weighted f l'.
Proof. intros P. apply Rsum_perm. now apply Permutation_map. Qed.

Lemma weighted_le {G : Rng XRa} (p : particle XRa G) f g l : List.Forall (plain p) l ->
  (forall x, In x l -> f x <= g x) -> weighted f l <= weighted g l.
Proof.
  induction 1 as [|x l [_ _ _ [Hp _]] _ IH]; intros H; unfold weighted; cbn; [lra|].
  apply Rplus_le_compat.
  - apply Rmult_le_compat_l; auto. apply H. now left.
  - apply IH. intros; apply H; now right.
Qed.

Lemma weighted_nonneg {G : Rng XRa} (p : particle XRa G) l : List.Forall (plain p) l ->
  0 <= weighted (total_at p) l.
Proof.
  intros H. apply Rsum_nonneg. apply Forall_map. eapply Forall_impl; [|exact H].
  intros x [_ _ _ [? ?]]. now apply Rmult_le_pos.
Qed.

Lemma C29_material_sums_proof :
  forall (G : Rng XRa) (m : material XRa) (p : particle XRa G),
  List.Forall (plain p) (m_afracs m) ->
  let T := weighted (total_at p) (m_afracs m) in
  let M := weighted (majorant_at p) (m_afracs m) in
  mat_total m p = Ok (Fin T) /\ mat_majorant m p = Ok (Fin M)
  /\ (forall m', Permutation (m_afracs m) (m_afracs m') ->
        mat_total m' p = Ok (Fin T) /\ mat_majorant m' p = Ok (Fin M))
  /\ ((forall x, In x (m_afracs m) -> total_at p x <= majorant_at p x) ->
      0 <= T <= M
      /\ (0 < M -> exists r, ndiv XRa (Fin T) (Fin M) = Fin r /\ 0 <= r <= 1)).
Proof.
  intros G m p H T M. split; [now apply mat_total_fin|]. split; [now apply mat_majorant_fin|].
  split.
  - intros m' P. assert (H' : List.Forall (plain p) (m_afracs m')).
    { rewrite Forall_forall in *. intros x Hx. apply H. eapply Permutation_in; [|exact Hx].
      now apply Permutation_sym. }
    rewrite (mat_total_fin m' p H'), (mat_majorant_fin m' p H').
    now rewrite <- !(weighted_perm _ _ _ P).
  - intros Hle.
    assert (T <= M) by (apply (weighted_le p); auto).
    assert (0 <= T) by (apply (weighted_nonneg p); auto).
    split; [lra|]. intros MP. cbn. rewrite Reqb_false by lra.
    eexists; split; [reflexivity|]. split.
    + apply Rmult_le_pos; auto. left. now apply Rinv_0_lt_compat.
    + apply Rmult_le_reg_r with M; auto. unfold Rdiv. rewrite Rmult_assoc, Rinv_l; lra.
Qed.

Lemma weighted_cons f x l : weighted f (x :: l) = fraction x * f x + weighted f l.
Proof. reflexivity. Qed.
Lemma weighted_nil f : weighted f [] = 0.
Proof. reflexivity. Qed.

(** ** Choosing the nuclide *)

Lemma pick_nuclide_fin {G : Rng XRa} (p : particle XRa G) l : List.Forall (plain p) l ->
  forall acc thr, acc <= thr ->
  exists sel, pick_nuclide l p (Fin acc) (Fin thr) = Ok sel
    /\ match sel with
       | Some nu => exists pre a post, l = (pre ++ (nu, a) :: post)%list
           /\ acc + weighted (total_at p) pre <= thr
              < acc + weighted (total_at p) (pre ++ [(nu, a)])
       | None => acc + weighted (total_at p) l <= thr
       end.
Proof.
  induction 1 as [|[nu a] l [Ea Et _ _] _ IH]; intros acc thr Ha; cbn [pick_nuclide].
  - exists None. split; auto. unfold weighted. cbn. lra.
  - cbn [fst snd] in Ea, Et. rewrite Et. cbn [bind]. destruct a as [r| | |]; try discriminate.
    set (c := fraction (nu, Fin r : num XRa) * total_at p (nu, Fin r : num XRa)).
    change (nltb XRa (Fin thr) (nadd XRa (Fin acc) (nmul XRa (Fin r)
             (Fin (total_at p (nu, Fin r)))))) with (Rltb thr (acc + c)).
    change (nadd XRa (Fin acc) (nmul XRa (Fin r)
             (Fin (total_at p (nu, Fin r))))) with (Fin (acc + c)).
    destruct (Rltb_spec thr (acc + c)) as [L|L].
    + exists (Some nu). split; auto. exists nil, (Fin r : num XRa), l. split; auto.
      cbn [app]. rewrite weighted_cons, weighted_nil. fold c. lra.
    + destruct (IH (acc + c) thr ltac:(lra)) as (sel & E & Hs). exists sel. split; [exact E|].
      destruct sel as [nu'|].
      * destruct Hs as (pre & a' & post & -> & Hs). exists ((nu, Fin r : num XRa) :: pre), a', post.
        split; auto. cbn [app]. rewrite !weighted_cons. fold c. lra.
      * rewrite weighted_cons. fold c. lra.
Qed.

(** Cross sections see only energy, position, cell and type of the particle. *)
Lemma any_modifies_sees {A : Arith} {G : Rng A} (p q : particle A G) rs :
  p_energy q = p_energy p -> p_position q = p_position p -> p_cell q = p_cell p ->
  p_type q = p_type p -> any_modifies rs q = any_modifies rs p.
Proof.
  intros H1 H2 H3 H4. induction rs as [|r rs IH]; auto. cbn [any_modifies]. rewrite IH.
  destruct p, q; cbn in H1, H2, H3, H4; subst; reflexivity.
Qed.

Lemma sees {A : Arith} {G : Rng A} (p q : particle A G) nu :
  p_energy q = p_energy p -> p_position q = p_position p -> p_cell q = p_cell p ->
  p_type q = p_type p ->
  nu_total nu q = nu_total nu p /\ nu_majorant nu q = nu_majorant nu p.
Proof.
  intros H1 H2 H3 H4. unfold nu_total, nu_majorant, nu_at. rewrite H4.
  destruct (find (fun x => ptype_eqb (fst x) (p_type p)) (nu_xs nu)) as [[t []]|]; cbn [bind snd].
  - unfold mg_get_total, mg_get_majorant, mg_get_total. now rewrite H1.
  - pose proof (fun rs => any_modifies_sees p q rs H1 H2 H3 H4) as R.
    unfold co_get_total, co_get_majorant, get_cell. rewrite H3.
    destruct (p_cell p) eqn:Ec; cbn [bind]; auto. unfold co_at_temperature.
    rewrite R, H2. clear R.
    destruct p, q; cbn in H1, H2, H3, H4, Ec; subst; split; reflexivity.
  - auto.
Qed.

Lemma plain_ext {G : Rng XRa} (p q : particle XRa G) l :
  p_energy q = p_energy p -> p_position q = p_position p -> p_cell q = p_cell p ->
  p_type q = p_type p ->
  List.Forall (plain p) l -> List.Forall (plain q) l.
Proof.
  intros H1 H2 H3 H4 H. eapply Forall_impl; [|exact H]. intros x [A B C D].
  destruct (sees p q (fst x) H1 H2 H3 H4) as [E1 E2].
  constructor; unfold total_at, majorant_at in *; rewrite ?E1, ?E2; auto.
Qed.

Lemma weighted_ext {G : Rng XRa} (p q : particle XRa G) l :
  p_energy q = p_energy p -> p_position q = p_position p -> p_cell q = p_cell p ->
  p_type q = p_type p -> weighted (total_at q) l = weighted (total_at p) l.
Proof.
  intros H1 H2 H3 H4. unfold weighted. f_equal. apply map_ext. intros x. unfold total_at.
  now rewrite (proj1 (sees p q (fst x) H1 H2 H3 H4)).
Qed.

Lemma sample_nuclide_fin (G : Rng XRa) (p : particle XRa G) c m :
  valid_rng G -> p_cell p = Some c -> c_material c = Some m ->
  List.Forall (plain p) (m_afracs m) -> 0 < weighted (total_at p) (m_afracs m) ->
  exists u nu pre a post, fst (runif G (p_rng p)) = Fin u /\ 0 <= u < 1
    /\ sample_nuclide p = Ok (nu, set_rng p (snd (runif G (p_rng p))))
    /\ m_afracs m = (pre ++ (nu, a) :: post)%list
    /\ weighted (total_at p) pre <= weighted (total_at p) (m_afracs m) * u
       < weighted (total_at p) (pre ++ [(nu, a)]).
Proof.
  intros V Ec Em H L. unfold sample_nuclide. rewrite Ec, Em, (mat_total_fin m p H). cbn [bind].
  destruct (unif_fin G p V) as (u & Hu & Eu & Euu). rewrite Euu.
  set (T := weighted (total_at p) (m_afracs m)) in *.
  change (nmul XRa (Fin T) (Fin u)) with (Fin (T * u)). change (nofZ XRa 0) with (Fin 0).
  destruct (pick_nuclide_fin _ _ (plain_ext p (set_rng p (snd (runif G (p_rng p)))) _ eq_refl eq_refl eq_refl eq_refl H) 0 (T * u))
    as (sel & E & Hs). { apply Rmult_le_pos; lra. }
  rewrite E. cbn [bind].
  assert (T * u < T) by nra.
  destruct sel as [nu|].
  - destruct Hs as (pre & a & post & El & Hs). exists u, nu, pre, a, post. parts; auto; try lra.
    + rewrite !(weighted_ext p (set_rng p (snd (runif G (p_rng p))))) in Hs by reflexivity. lra.
    + rewrite !(weighted_ext p (set_rng p (snd (runif G (p_rng p))))) in Hs by reflexivity. lra.
  - exfalso. rewrite (weighted_ext p (set_rng p (snd (runif G (p_rng p))))) in Hs by reflexivity. fold T in Hs. lra.
Qed.

Lemma C30_collided_nuclide_proof :
  forall (G : Rng XRa) (p : particle XRa G) c m,
  valid_rng G -> p_cell p = Some c -> c_material c = Some m ->
  List.Forall (plain p) (m_afracs m) -> 0 < weighted (total_at p) (m_afracs m) ->
  exists u nu pre a post, fst (runif G (p_rng p)) = Fin u /\ 0 <= u < 1
    /\ sample_nuclide p = Ok (nu, set_rng p (snd (runif G (p_rng p))))
    /\ m_afracs m = (pre ++ (nu, a) :: post)%list
    /\ weighted (total_at p) pre <= u * weighted (total_at p) (m_afracs m)
       < weighted (total_at p) pre + fraction (nu, a) * total_at p (nu, a)
    /\ 0 < fraction (nu, a) * total_at p (nu, a).
Proof.
  intros G p c m V Ec Em H L.
  destruct (sample_nuclide_fin G p c m V Ec Em H L) as (u & nu & pre & a & post & E1 & E2 & E3 & E4 & E5).
  exists u, nu, pre, a, post. rewrite (Rmult_comm u).
  assert (Ew : weighted (total_at p) (pre ++ [(nu, a)])
               = weighted (total_at p) pre + fraction (nu, a) * total_at p (nu, a)).
  { unfold weighted. rewrite map_app, Rsum_app. cbn. lra. }
  parts; auto; lra.
Qed.

(** ** Multigroup materials *)

Lemma nu_multigroup {A : Arith} {G : Rng A} (nu : nuclide A) (p : particle A G) mg :
  find (fun y => ptype_eqb (fst y) (p_type p)) (nu_xs nu) = Some (p_type p, IMultigroup mg) ->
  nu_at nu p = Ok (IMultigroup mg).
Proof. intros E. unfold nu_at. now rewrite E. Qed.

Lemma C31_multigroup_majorant_proof :
  forall (A : Arith) (G : Rng A) (m : material A) (p : particle A G),
  all_multigroup m (p_type p) -> mat_majorant m p = mat_total m p.
Proof.
  intros A G m p H. unfold mat_majorant, mat_total, sum_afracs. f_equal. generalize (nofZ A 0).
  unfold all_multigroup in H. revert H. induction (m_afracs m) as [|x l IH]; intros H z; auto.
  cbn [foldM]. unfold nu_majorant, nu_total.
  destruct (H x (or_introl eq_refl)) as (mg & E). rewrite (nu_multigroup _ _ _ E). cbn [bind].
  change (mg_get_majorant mg p) with (mg_get_total mg p).
  destruct (noexcept (mg_get_total mg p)); cbn [bind]; auto. apply IH. intros; apply H; now right.
Qed.

(** The multigroup nuclide a collision happens with. *)
Lemma collide_event {A : Arith} {G : Rng A} fuel t d (p q : particle A G) :
  collide fuel t d p = Ok q ->
  p_event q = capture \/ p_event q = scatter \/ p_event q = fission \/ p_event q = p_event p.
Proof.
  unfold collide. intros H. oinv H. destruct x0 as [nu p2].
  apply sample_nuclide_ok in E0 as [D _].
  apply nu_interact_place in H as [_ [H|[H|[H|[H _]]]]]; auto.
  rewrite D in H. cbn in H. rewrite (stream_ok _ _ _ _ E) in H. auto.
Qed.

Lemma cross_event {A : Arith} {G : Rng A} t w s d (p q : particle A G) :
  cross_surface t w s d p = Ok q -> p_event q = surface_cross \/ p_event q = leak.
Proof.
  unfold cross_surface. intros H. oinv H. subst q. destruct (c_material x0); auto.
Qed.

Lemma C31_no_virtual_collisions_proof :
  forall (G : Rng XRa) fuel (w : world XRa) (p q : particle XRa G) c m t,
  valid_rng G -> p_cell p = Some c -> c_material c = Some m ->
  all_multigroup m (p_type p) -> mat_total m p = Ok (Fin t) -> 0 < t ->
  p_event p <> virtual_collision ->
  transport_step CellDeltaTracking fuel w p = Ok q -> p_event q <> virtual_collision.
Proof.
  intros G fuel w p q c m t V Ec Em Hm Et Ht He H. cbn [transport_step] in H.
  unfold delta_step in H. oinv H. destruct x as [d p1].
  assert (D : drew p p1).
  { unfold sample_distance in E. oinv E. destruct (exponential G _ (p_rng p)) as [y s].
    injection E as _ <-. reflexivity. }
  oinv H. destruct x0 as [s ds]. destruct (nltb XRa ds d).
  - apply cross_event in H as [->| ->]; discriminate.
  - oinv H. unfold get_material, get_cell in E2. rewrite D in E2. cbn in E2. rewrite Ec in E2.
    cbn in E2. rewrite Em in E2. injection E2 as <-.
    assert (Et1 : mat_total m p1 = Ok (Fin t)).
    { rewrite <- Et. unfold mat_total, sum_afracs. f_equal. apply foldM_ext. intros s' y _.
      now rewrite (proj1 (sees p p1 (fst y) ltac:(now rewrite D) ltac:(now rewrite D)
                            ltac:(now rewrite D) ltac:(now rewrite D))). }
    rewrite C31_multigroup_majorant_proof in E4 by (rewrite D; exact Hm).
    rewrite Et1 in E3, E4. injection E3 as <-. injection E4 as <-.
    unfold bernoulli in H. destruct (V (p_rng p1)) as (u & Eu & Hu).
    destruct (runif G (p_rng p1)) as [u' s']. cbn in Eu. subst u'.
    replace (nltb XRa (Fin u) (ndiv XRa (Fin t) (Fin t))) with true in H.
    + apply collide_event in H as [->|[->|[->| ->]]]; try discriminate.
      rewrite D. exact He.
    + cbn. rewrite Reqb_false by lra. symmetry. apply Rltb_true. unfold Rdiv.
      rewrite Rinv_r by lra. lra.
Qed.
