(** Interpolating tables and data sets. *)
From Coq Require Import Bool String List Reals ZArith NArith Lra Lia Ranalysis1.
From Verif Require Import Model.Num Model.Outcome Model.Rng Model.Xml Model.Std Model.Point
  Model.Surface Model.Types Model.Tables Spec.BinsSpec Spec.TablesSpec Proofs.RealLib
  Proofs.OutcomeLib.
Import ListNotations.
Local Open Scope R_scope.

(** The interpolant, as a recursion on the table. *)
Fixpoint interp (k0 v0 : R) (l : list (R * R)) (k : R) : R :=
  match l with
  | [] => v0
  | (k1, v1) :: t =>
      if Rlt_dec k k1 then (if Rlt_dec k k0 then v0 else chord k0 v0 k1 v1 k)
      else interp k1 v1 t k
  end.

Lemma increasing_tail a l : increasing (a :: l) -> increasing l.
Proof. now intros [_ H]. Qed.

Lemma increasing_lt a l x : increasing (a :: l) -> In x l -> a < x.
Proof.
  revert a. induction l as [|b l IH]; intros a H Hx; [destruct Hx|].
  destruct H as [Hab Hl]. destruct Hx as [<-|Hx]; auto.
  apply Rlt_trans with b; auto.
Qed.

Lemma map_upper_interp (l : list (R * R)) k0 v0 k :
  k0 <= k -> increasing (map fst ((k0, v0) :: l)) ->
  match map_upper (A := XRa) (Some (Fin k0, Fin v0)) (Fin k) (table l) with
  | (None, None) => UB
  | (Some (_, v), None) => Ok v
  | (None, Some (_, v)) => Ok v
  | (Some (k_lo, v_lo), Some (k_hi, v_hi)) =>
      Ok (xadd v_lo (xmul (xdiv (xsub v_hi v_lo) (xsub k_hi k_lo)) (xsub (Fin k) k_lo)))
  end = Ok (Fin (interp k0 v0 l k)).
Proof.
  revert k0 v0. induction l as [|[k1 v1] l IH]; intros k0 v0 Hk Inc; [reflexivity|].
  destruct Inc as [Lt Inc]. cbn in Lt. cbn [table map map_upper fst snd interp].
  change (nltb XRa (Fin k) (Fin k1)) with (Rltb k k1).
  destruct (Rltb_spec k k1); destruct (Rlt_dec k k1); try lra.
  - destruct (Rlt_dec k k0); try lra. unfold xsub, xadd, xopp.
    rewrite xdiv_fin by lra. unfold xmul, chord. do 2 f_equal. field. lra.
  - apply IH; auto; lra.
Qed.

Lemma cm1_table (l : list (R * R)) k0 v0 k :
  increasing (map fst ((k0, v0) :: l)) ->
  cm1_at (A := XRa) (table ((k0, v0) :: l)) (Fin k) = Ok (Fin (interp k0 v0 l k)).
Proof.
  intros Inc. unfold cm1_at, cm_at. cbn [table map map_upper fst snd].
  change (nltb XRa (Fin k) (Fin k0)) with (Rltb k k0). destruct (Rltb_spec k k0).
  - destruct l as [|[k1 v1] l]; [reflexivity|]. cbn. destruct Inc as [Lt Inc]. cbn in Lt.
    destruct (Rlt_dec k k1); try lra. destruct (Rlt_dec k k0); try lra. reflexivity.
  - assert (k0 <= k) by lra. pose proof (map_upper_interp l k0 v0 k H Inc) as E.
    fold (table l).
    exact E.
Qed.

Lemma interp_below l k0 v0 k : increasing (map fst ((k0, v0) :: l)) -> k <= k0 ->
  interp k0 v0 l k = v0.
Proof.
  destruct l as [|[k1 v1] l]; intros Inc Hk; cbn; auto. destruct Inc as [Lt _]; cbn in Lt.
  destruct (Rlt_dec k k1); try lra. destruct (Rlt_dec k k0); try lra.
  unfold chord. replace k with k0 by lra. field. lra.
Qed.

Lemma interp_above l k0 v0 k e : increasing (map fst ((k0, v0) :: l)) ->
  hd_error (rev ((k0, v0) :: l)) = Some e -> fst e <= k -> interp k0 v0 l k = snd e.
Proof.
  revert k0 v0. induction l as [|[k1 v1] l IH]; intros k0 v0 Inc La Hk.
  - cbn in La. now injection La as <-.
  - cbn [interp]. destruct Inc as [Lt Inc].
    assert (La' : hd_error (rev ((k1, v1) :: l)) = Some e).
    { cbn [rev] in *. destruct (rev l); exact La. }
    assert (Hin : In e ((k1, v1) :: l)).
    { apply in_rev. destruct (rev ((k1, v1) :: l)); [discriminate|].
      cbn in La'. injection La' as <-. now left. }
    assert (k1 <= k).
    { destruct Hin as [<-|Hin]; [exact Hk|].
      apply (in_map fst) in Hin. pose proof (increasing_lt _ _ _ Inc Hin). cbn in *. lra. }
    destruct (Rlt_dec k k1); try lra. apply IH; auto.
Qed.

Lemma interp_chord l k0 v0 a va b vb k : increasing (map fst ((k0, v0) :: l)) ->
  neighbours ((k0, v0) :: l) a va b vb -> a <= k <= b ->
  interp k0 v0 l k = chord a va b vb k.
Proof.
  intros Inc (pre & post & E) Hk. revert k0 v0 l Inc E.
  induction pre as [|p pre IH]; intros k0 v0 l Inc E; cbn in E.
  - injection E as -> -> ->. cbn [interp]. destruct Inc as [Lt Inc]; cbn in Lt.
    destruct (Rlt_dec k b); [destruct (Rlt_dec k a); auto; lra|].
    replace k with b by lra. rewrite interp_below; auto; try lra.
    unfold chord. field. lra.
  - injection E as <- El. destruct l as [|[k1 v1] l]; [destruct pre; discriminate|].
    cbn [interp]. destruct Inc as [Lt Inc].
    assert (Hin : In (a, va) ((k1, v1) :: l)).
    { rewrite El. apply in_or_app; right; now left. }
    assert (k1 <= a).
    { destruct Hin as [[= <- <-]|Hin]; [lra|]. apply (in_map fst) in Hin.
      pose proof (increasing_lt _ _ _ Inc Hin). cbn in *. lra. }
    destruct (Rlt_dec k k1); try lra. apply IH; auto.
Qed.

Lemma interp_stored l k0 v0 k v : increasing (map fst ((k0, v0) :: l)) ->
  In (k, v) ((k0, v0) :: l) -> interp k0 v0 l k = v.
Proof.
  revert k0 v0. induction l as [|[k1 v1] l IH]; intros k0 v0 Inc Hin.
  - destruct Hin as [[= <- <-]|[]]. reflexivity.
  - destruct Hin as [[= <- <-]|Hin]; [apply interp_below; auto; lra|].
    cbn [interp]. destruct Inc as [Lt Inc].
    assert (k1 <= k).
    { destruct Hin as [[= <- <-]|Hin]; [lra|]. apply (in_map fst) in Hin.
      pose proof (increasing_lt _ _ _ Inc Hin). cbn in *. lra. }
    destruct (Rlt_dec k k1); try lra. apply IH; auto.
Qed.

(** Gluing two continuous functions that agree at a point. *)
Lemma glue_continuous (f g : R -> R) c : continuity f -> continuity g -> f c = g c ->
  continuity (fun x => if Rlt_dec x c then f x else g x).
Proof.
  intros Cf Cg E x eps He.
  destruct (Cf x eps He) as (d1 & Hd1 & F). destruct (Cg x eps He) as (d2 & Hd2 & G).
  unfold limit1_in, limit_in in *. cbn in F, G. unfold D_x, no_cond, R_dist in *.
  destruct (Rtotal_order x c) as [L|[Eq|Gt]].
  - exists (Rmin d1 (c - x)). split; [apply Rmin_pos; lra|].
    intros y [Dy Hy]. cbn in *. unfold R_dist in *.
    pose proof (Rmin_l d1 (c - x)); pose proof (Rmin_r d1 (c - x)).
    assert (y < c) by (apply Rabs_def2 in Hy; lra).
    destruct (Rlt_dec y c), (Rlt_dec x c); try lra. apply F. split; [exact Dy|lra].
  - subst c. exists (Rmin d1 d2). split; [apply Rmin_pos; auto|].
    intros y [Dy Hy]. cbn in *. unfold R_dist in *.
    pose proof (Rmin_l d1 d2); pose proof (Rmin_r d1 d2).
    destruct (Rlt_dec x x); try lra.
    destruct (Rlt_dec y x).
    + rewrite <- E. apply F. split; [exact Dy|lra].
    + apply G. split; [exact Dy|lra].
  - exists (Rmin d2 (x - c)). split; [apply Rmin_pos; lra|].
    intros y [Dy Hy]. cbn in *. unfold R_dist in *.
    pose proof (Rmin_l d2 (x - c)); pose proof (Rmin_r d2 (x - c)).
    assert (c < y) by (apply Rabs_def2 in Hy; lra).
    destruct (Rlt_dec y c), (Rlt_dec x c); try lra. apply G. split; [exact Dy|lra].
Qed.

Lemma chord_continuous k0 v0 k1 v1 : continuity (chord k0 v0 k1 v1).
Proof. unfold chord. intros x. apply derivable_continuous_pt. reg. Qed.

Lemma const_continuous v : continuity (fun _ => v).
Proof. intros x. apply derivable_continuous_pt. reg. Qed.

Lemma interp_continuous l : forall k0 v0, increasing (map fst ((k0, v0) :: l)) ->
  continuity (interp k0 v0 l).
Proof.
  induction l as [|[k1 v1] l IH]; intros k0 v0 Inc; cbn [interp].
  - apply const_continuous.
  - destruct Inc as [Lt Inc]. cbn in Lt.
    apply (glue_continuous
             (fun k => if Rlt_dec k k0 then v0 else chord k0 v0 k1 v1 k) (interp k1 v1 l) k1).
    + apply (glue_continuous (fun _ => v0) (chord k0 v0 k1 v1)).
      * apply const_continuous.
      * apply chord_continuous.
      * unfold chord. field. lra.
    + apply IH; auto.
    + destruct (Rlt_dec k1 k0); try lra. rewrite interp_below; auto; try lra.
      unfold chord. field. lra.
Qed.

Lemma chord_between a va b vb k : a < b -> a <= k <= b ->
  Rmin va vb <= chord a va b vb k <= Rmax va vb.
Proof.
  intros Hab Hk. unfold chord. set (t := (k - a) / (b - a)).
  assert (0 <= t <= 1).
  { unfold t. split.
    - apply Rmult_le_pos; [lra|]. apply Rlt_le, Rinv_0_lt_compat; lra.
    - apply Rmult_le_reg_r with (b - a); [lra|].
      unfold Rdiv. rewrite Rmult_assoc, Rinv_l; lra. }
  unfold Rmin, Rmax. destruct (Rle_dec va vb); nra.
Qed.

Lemma neighbours_lt l a va b vb : increasing (map fst l) -> neighbours l a va b vb -> a < b.
Proof.
  intros Inc (pre & post & ->). revert Inc. induction pre; cbn; intros [H1 H2]; auto.
Qed.

Lemma C17_table_lookup_proof :
  forall (l : list (R * R)) (first final : R * R),
  hd_error l = Some first -> hd_error (rev l) = Some final -> increasing (map fst l) ->
  exists f : R -> R,
    (forall k, cm1_at (A := XRa) (table l) (Fin k) = Ok (Fin (f k)))
    /\ (forall k v, In (k, v) l -> f k = v)
    /\ (forall k, k <= fst first -> f k = snd first)
    /\ (forall k, fst final <= k -> f k = snd final)
    /\ (forall k0 v0 k1 v1 k, neighbours l k0 v0 k1 v1 -> k0 <= k <= k1 ->
          f k = chord k0 v0 k1 v1 k /\ Rmin v0 v1 <= f k <= Rmax v0 v1)
    /\ continuity f.
Proof.
  intros l [k0 v0] e Hd La Inc. destruct l as [|p l]; [discriminate|].
  injection Hd as ->. exists (interp k0 v0 l). parts.
  - intros k. now apply cm1_table.
  - intros k v. now apply interp_stored.
  - intros k Hk. now apply interp_below.
  - intros k Hk. now apply interp_above.
  - intros a va b vb k N Hk. rewrite (interp_chord _ _ _ a va b vb); auto.
    split; auto. apply chord_between; auto. eapply neighbours_lt; eauto.
  - now apply interp_continuous.
Qed.

(** ** Nested tables *)

Fixpoint nested_value (d : nat) : nested d -> list R -> R :=
  match d return nested d -> list R -> R with
  | O => fun v _ => v
  | S d' => fun m ks =>
      match ks with
      | [] => 0
      | k :: ks' =>
          match map (fun e => (fst e, nested_value d' (snd e) ks')) m with
          | [] => 0
          | (k0, v0) :: l => interp k0 v0 l k
          end
      end
  end.

Definition lift_fst {V W} (g : V -> W) (o : option (num XRa * V)) : option (num XRa * W) :=
  match o with Some (k, v) => Some (k, g v) | None => None end.

Lemma map_upper_map {V W} (g : V -> W) (l : list (num XRa * V)) prev k :
  map_upper (lift_fst g prev) k (map (fun e => (fst e, g (snd e))) l) =
  (lift_fst g (fst (map_upper prev k l)), lift_fst g (snd (map_upper prev k l))).
Proof.
  revert prev. induction l as [|[k' v'] l IH]; intros prev; cbn [map map_upper fst snd]; auto.
  destruct (nltb XRa k k'); cbn [fst snd]; auto.
  apply (IH (Some (k', v'))).
Qed.

Lemma map_upper_in {V} (l : list (num XRa * V)) prev k e :
  fst (map_upper prev k l) = Some e \/ snd (map_upper prev k l) = Some e ->
  prev = Some e \/ In e l.
Proof.
  revert prev. induction l as [|[k' v'] l IH]; intros prev; cbn [map_upper].
  - cbn. intros [H|H]; [now left|discriminate].
  - destruct (nltb XRa k k'); cbn [fst snd].
    + intros [H|[= <-]]; [now left|right; now left].
    + intros H. destruct (IH _ H) as [[= <-]|Hin]; right; [now left|now right].
Qed.

Lemma cm_at_S d (m : list (num XRa * cmap XRa d)) k ks :
  cm_at (A := XRa) (S d) m (k :: ks) =
  match map_upper None k m with
  | (None, None) => UB
  | (Some (_, v), None) => cm_at d v ks
  | (None, Some (_, v)) => cm_at d v ks
  | (Some (k_lo, m_lo), Some (k_hi, m_hi)) =>
      bind (cm_at d m_hi ks) (fun v_hi => bind (cm_at d m_lo ks) (fun v_lo =>
        Ok (xadd v_lo (xmul (xdiv (xsub v_hi v_lo) (xsub k_hi k_lo)) (xsub k k_lo)))))
  end.
Proof. reflexivity. Qed.

(** A nested lookup is a lookup in the table of inner lookups. *)
Lemma cm_at_level d (m : list (num XRa * cmap XRa d)) (g : cmap XRa d -> num XRa) k ks :
  (forall e, In e m -> cm_at d (snd e) ks = Ok (g (snd e))) ->
  cm_at (A := XRa) (S d) m (k :: ks) = cm1_at (map (fun e => (fst e, g (snd e))) m) k.
Proof.
  intros H. unfold cm1_at. rewrite !cm_at_S.
  change (@None (num XRa * cmap XRa 0)) with (lift_fst g None).
  rewrite (map_upper_map g).
  assert (Hin : forall e, fst (map_upper None k m) = Some e \/
                          snd (map_upper None k m) = Some e -> In e m).
  { intros e He. destruct (map_upper_in m None k e He); [discriminate|auto]. }
  destruct (map_upper None k m) as [[[a va]|] [[b vb]|]]; cbn [lift_fst fst snd] in *; auto.
  - pose proof (H _ (Hin _ (or_introl eq_refl))) as E1.
    pose proof (H _ (Hin _ (or_intror eq_refl))) as E2. cbn [snd] in E1, E2.
    rewrite E1, E2. reflexivity.
  - exact (H _ (Hin _ (or_introl eq_refl))).
  - exact (H _ (Hin _ (or_intror eq_refl))).
Qed.

Lemma nested_value_ok d : forall (m : nested d) ks, well_formed d m -> length ks = d ->
  cm_at (A := XRa) d (stored_table d m) (map Fin ks) = Ok (Fin (nested_value d m ks)).
Proof.
  induction d as [|d IH]; intros m ks Wf Len.
  - destruct ks; [reflexivity|discriminate].
  - destruct ks as [|k ks]; [discriminate|]. injection Len as Len.
    destruct Wf as (Ne & Inc & Wf). cbn [map].
    set (g := fun v : cmap XRa d =>
                match cm_at d v (map Fin ks) with Ok x => x | _ => NaN end).
    rewrite (cm_at_level d _ g).
    2: { intros e He. cbn [stored_table] in He. apply in_map_iff in He as (e0 & <- & He0).
         cbn [snd]. unfold g. rewrite IH; auto. }
    cbn [stored_table nested_value]. rewrite map_map.
    replace (map _ m) with (table (map (fun e => (fst e, nested_value d (snd e) ks)) m)).
    2: { unfold table. rewrite map_map. apply map_ext_in. intros e He. cbn [fst snd].
         unfold g. rewrite IH; auto. }
    destruct m as [|e m]; [now elim Ne|]. cbn [map]. apply cm1_table.
    cbn [map] in *. rewrite map_map. cbn [fst]. exact Inc.
Qed.

Lemma C18_nested_lookup_proof :
  exists value : forall d, nested d -> list R -> R,
    (forall d m ks, well_formed d m -> length ks = d ->
       cm_at (A := XRa) d (stored_table d m) (map Fin ks) = Ok (Fin (value d m ks)))
    /\ (forall v, value 0%nat v [] = v)
    /\ (forall d (m : nested (S d)) k ks, well_formed (S d) m -> length ks = d ->
          cm1_at (A := XRa) (table (map (fun e => (fst e, value d (snd e) ks)) m)) (Fin k)
          = Ok (Fin (value (S d) m (k :: ks))))
    /\ (forall d m ks v, well_formed d m -> stored_at d m ks v -> value d m ks = v).
Proof.
  exists nested_value. parts.
  - intros. now apply nested_value_ok.
  - reflexivity.
  - intros d m k ks (Ne & Inc & Wf) Len. cbn [nested_value].
    destruct m as [|e m]; [now elim Ne|]. cbn [map]. apply cm1_table.
    cbn [map] in *. rewrite map_map. exact Inc.
  - induction d as [|d IH]; intros m ks v Wf St.
    + destruct St as [_ ->]. reflexivity.
    + destruct St as (k & m' & ks' & -> & Hin & St). destruct Wf as (Ne & Inc & Wf).
      cbn [nested_value].
      assert (E : nested_value d m' ks' = v) by (apply IH; auto; exact (Wf _ Hin)).
      apply (in_map (fun e => (fst e, nested_value d (snd e) ks'))) in Hin.
      cbn [fst snd] in Hin. rewrite E in Hin.
      assert (Inc' : increasing (map fst (map (fun e => (fst e, nested_value d (snd e) ks')) m))).
      { rewrite map_map. exact Inc. }
      destruct (map (fun e => (fst e, nested_value d (snd e) ks')) m) as [|[k0 v0] l];
        [destruct Hin|].
      now apply interp_stored.
Qed.

(** ** Data sets *)

Lemma volume_app a b : volume (a ++ b) = (volume a * volume b)%N.
Proof. induction a; cbn [volume app]; [lia|rewrite IHa; lia]. Qed.

Lemma volume_rev l : volume (rev l) = volume l.
Proof. induction l; cbn [rev]; auto. rewrite volume_app, IHl. cbn [volume]. lia. Qed.

Lemma partial_products_app acc a b :
  partial_products acc (a ++ b) =
  partial_products acc a ++ partial_products (acc * volume a) b.
Proof.
  revert acc. induction a as [|x a IH]; intros acc; cbn [app partial_products volume].
  - now rewrite N.mul_1_r.
  - rewrite IH. now rewrite N.mul_assoc.
Qed.

Lemma strides_nth l i : (i < length l)%nat ->
  nth_error (rev (partial_products 1 (rev l))) i = Some (volume (skipn i l)).
Proof.
  revert i. induction l as [|x l IH]; intros i Hi; cbn in Hi; [lia|].
  cbn [rev]. rewrite partial_products_app, rev_app_distr. cbn [partial_products rev app].
  destruct i as [|i]; cbn [nth_error skipn].
  - rewrite volume_rev. cbn [volume]. f_equal. lia.
  - apply IH. lia.
Qed.

Lemma axis_stride {A} (pre rest : list (list (num A))) a :
  nth_error (axis_strides (pre ++ a :: rest)) (length pre) = Some (volume (shape_of rest)).
Proof.
  unfold axis_strides. rewrite strides_nth.
  2: { rewrite app_length, map_length. destruct pre; cbn; [lia|].
       rewrite app_length. cbn. lia. }
  f_equal. destruct pre as [|p pre]; cbn [app tl length].
  - cbn [skipn]. rewrite volume_app. cbn [volume]. unfold shape_of. lia.
  - rewrite map_app. cbn [map].
    replace ((map _ pre ++ _) ++ _)%list
      with ((shape_of pre ++ [N.of_nat (length a)]) ++ shape_of rest ++ [1%N])%list
      by (unfold shape_of; rewrite <- !app_assoc; reflexivity).
    rewrite skipn_app.
    replace (S (length pre)) with (length (shape_of pre ++ [N.of_nat (length a)]))
      by (unfold shape_of; rewrite app_length, map_length; cbn; lia).
    rewrite skipn_all, Nat.sub_diag. cbn [skipn app]. rewrite volume_app. cbn [volume]. lia.
Qed.

Lemma vec_at_nth {X} (l : list X) i x : nth_error l i = Some x -> vec_at l (N.of_nat i) = Ok x.
Proof.
  intros E. unfold vec_at. rewrite Nnat.Nat2N.id, E.
  assert (i < length l)%nat by (apply nth_error_Some; congruence).
  replace (N.of_nat i <? N.of_nat (length l))%N with true; auto.
  symmetry. apply N.ltb_lt. lia.
Qed.

Lemma nth_mid {X} (pre rest : list X) a : nth_error (pre ++ a :: rest) (length pre) = Some a.
Proof. rewrite nth_error_app2, Nat.sub_diag; auto. Qed.

Lemma row_major_lt shape : forall is, in_shape shape is ->
  (row_major shape is < volume shape)%N.
Proof.
  induction shape as [|n shape IH]; intros is H; inversion H; subst; cbn [row_major volume].
  - lia.
  - specialize (IH _ H4). nia.
Qed.

Lemma row_major_inj shape : forall is js, in_shape shape is -> in_shape shape js ->
  row_major shape is = row_major shape js -> is = js.
Proof.
  induction shape as [|n shape IH]; intros is js Hi Hj E; inversion Hi; inversion Hj; subst; auto.
  cbn [row_major] in E.
  pose proof (row_major_lt _ _ H3). pose proof (row_major_lt _ _ H8).
  assert (x = x0) by nia. subst x0. f_equal. apply IH; auto. nia.
Qed.

Lemma row_major_onto shape : forall n, (n < volume shape)%N ->
  exists is, in_shape shape is /\ row_major shape is = n.
Proof.
  induction shape as [|a shape IH]; intros n Hn; cbn [volume] in Hn.
  - exists []. split; [constructor|cbn; lia].
  - assert (V : (volume shape <> 0)%N) by nia.
    destruct (IH (n mod volume shape)%N) as (is & Hi & E); [now apply N.mod_lt|].
    exists ((n / volume shape)%N :: is). split.
    + constructor; auto. apply N.div_lt_upper_bound; nia.
    + cbn [row_major]. rewrite E. pose proof (N.div_mod n _ V). nia.
Qed.

Lemma at_from_base_cons {A} (ds : dataset A) base level index inner :
  at_from_base ds base level (index :: inner) =
  bind (vec_at (ds_axes ds) level) (fun axis =>
  if (N.of_nat (length axis) <=? index)%N then
    Throw ("Out-of-range (level, index): (" ++ show_N level ++ ", " ++ show_N index ++ ")")%string
  else
    match inner with
    | [] => vec_at (ds_values ds) (base + index)%N
    | _ => bind (vec_at (ds_strides ds) level) (fun stride =>
             at_from_base ds (base + index * stride)%N (level + 1)%N inner)
    end).
Proof. reflexivity. Qed.

Lemma at_from_base_ok {A} (values : list (num A)) : forall rest pre base is,
  rest <> [] -> in_shape (shape_of rest) is ->
  at_from_base (make_dataset (pre ++ rest) values) base (N.of_nat (length pre)) is =
  vec_at values (base + row_major (shape_of rest) is).
Proof.
  induction rest as [|a rest IH]; intros pre base is Ne H; [congruence|].
  inversion H; subst. rewrite at_from_base_cons. cbn [ds_axes ds_values ds_strides make_dataset].
  rewrite (vec_at_nth _ _ a) by apply nth_mid. cbn [bind].
  replace (N.of_nat (length a) <=? x)%N with false by (symmetry; apply N.leb_gt; auto).
  cbn [row_major shape_of map]. fold (shape_of rest).
  destruct l as [|j l].
  - inversion H4; subst. destruct rest; [|discriminate]. cbn [row_major volume map shape_of].
    f_equal. cbn. lia.
  - rewrite (vec_at_nth _ _ (volume (shape_of rest))) by apply axis_stride. cbn [bind].
    assert (Ne' : rest <> []) by (intros ->; inversion H4).
    specialize (IH (pre ++ [a]) (base + x * volume (shape_of rest))%N (j :: l) Ne' H4).
    rewrite <- app_assoc in IH. cbn [app] in IH. rewrite app_length in IH. cbn [length] in IH.
    replace (N.of_nat (length pre) + 1)%N with (N.of_nat (length pre + 1)) by lia.
    rewrite IH. f_equal. fold (shape_of rest). lia.
Qed.

Lemma at_from_base_bad {A} (values : list (num A)) : forall is0 rest pre base i is1 a,
  length (is0 ++ i :: is1) = length rest ->
  in_shape (firstn (length is0) (shape_of rest)) is0 ->
  nth_error rest (length is0) = Some a -> (N.of_nat (length a) <= i)%N ->
  at_from_base (make_dataset (pre ++ rest) values) base (N.of_nat (length pre)) (is0 ++ i :: is1)
  = Throw ("Out-of-range (level, index): (" ++ show_N (N.of_nat (length pre + length is0))
           ++ ", " ++ show_N i ++ ")")%string.
Proof.
  induction is0 as [|i0 is0 IH]; intros rest pre base i is1 a Len Hin Ha Hi.
  - destruct rest as [|a' rest]; [discriminate|]. injection Ha as ->.
    cbn [app]. rewrite at_from_base_cons. cbn [make_dataset ds_axes].
    rewrite (vec_at_nth _ _ a) by apply nth_mid. cbn [bind].
    replace (N.of_nat (length a) <=? i)%N with true by (symmetry; now apply N.leb_le).
    cbn [length]. now rewrite Nat.add_0_r.
  - destruct rest as [|a' rest]; [discriminate|].
    cbn [length firstn shape_of map] in Hin. inversion Hin; subst. clear Hin. rename H2 into Lt.
    cbn [app]. rewrite at_from_base_cons. cbn [make_dataset ds_axes ds_strides].
    rewrite (vec_at_nth _ _ a') by apply nth_mid. cbn [bind].
    replace (N.of_nat (length a') <=? i0)%N with false by (symmetry; apply N.leb_gt; auto).
    rewrite (vec_at_nth _ _ (volume (shape_of rest))) by apply axis_stride.
    remember (is0 ++ i :: is1)%list as is eqn:Eis.
    destruct is as [|j is]; [now destruct is0|]. rewrite Eis in *. cbn [bind].
    cbn [length] in Len. injection Len as Len. cbn in Ha.
    specialize (IH rest (pre ++ [a'])%list (base + i0 * volume (shape_of rest))%N i is1 a Len H4 Ha Hi).
    rewrite <- app_assoc in IH. cbn [app] in IH. rewrite app_length in IH. cbn [length] in IH.
    replace (N.of_nat (length pre) + 1)%N with (N.of_nat (length pre + 1)) by lia.
    rewrite IH. cbn [length].
    now replace (length pre + 1 + length is0)%nat with (length pre + S (length is0))%nat by lia.
Qed.

Lemma in_shape_length shape is : in_shape shape is -> length is = length shape.
Proof. induction 1; cbn; auto. Qed.

Lemma ds_at_ok {A} (axes : list (list (num A))) values is :
  axes <> [] -> in_shape (shape_of axes) is ->
  ds_at (make_dataset axes values) is = vec_at values (row_major (shape_of axes) is).
Proof.
  intros Ne H. unfold ds_at. cbn [make_dataset ds_axes].
  pose proof (in_shape_length _ _ H) as L. unfold shape_of in L. rewrite map_length in L.
  rewrite L, Nat.eqb_refl.
  apply (at_from_base_ok values axes [] 0%N is Ne H).
Qed.

Lemma C19_dataset_row_major_proof :
  forall (A : Arith) (X : Ext A) path axes values,
  h5_file X path = Some (axes, values) -> axes <> [] ->
  N.of_nat (length values) = volume (shape_of axes) ->
  exists ds, dataset_load X (length axes) path = Ok ds
    (* indices in range: the element in row-major position *)
    /\ (forall is, in_shape (shape_of axes) is ->
          exists v, ds_at ds is = Ok v
                    /\ nth_error values (N.to_nat (row_major (shape_of axes) is)) = Some v)
    (* distinct indices address distinct positions, every position is addressed *)
    /\ (forall is js, in_shape (shape_of axes) is -> in_shape (shape_of axes) js ->
          row_major (shape_of axes) is = row_major (shape_of axes) js -> is = js)
    /\ (forall n, (n < N.of_nat (length values))%N ->
          exists is, in_shape (shape_of axes) is /\ row_major (shape_of axes) is = n)
    (* the first index out of range is reported with its level *)
    /\ (forall ok i others axis,
          length (ok ++ i :: others) = length axes ->
          in_shape (firstn (length ok) (shape_of axes)) ok ->
          nth_error axes (length ok) = Some axis -> (N.of_nat (length axis) <= i)%N ->
          ds_at ds (ok ++ i :: others) =
          Throw ("Out-of-range (level, index): (" ++ show_N (N.of_nat (length ok)) ++ ", "
                 ++ show_N i ++ ")")%string).
Proof.
  intros A X path axes values Hf Ne Hv. exists (make_dataset axes values). parts.
  - unfold dataset_load. rewrite Hf, Nat.eqb_refl. reflexivity.
  - intros is H. rewrite ds_at_ok by auto. pose proof (row_major_lt _ _ H) as L.
    destruct (nth_error values (N.to_nat (row_major (shape_of axes) is))) as [v|] eqn:E.
    + exists v; split; auto. rewrite <- (Nnat.N2Nat.id (row_major _ _)). now apply vec_at_nth.
    + apply nth_error_None in E. lia.
  - intros is js. apply row_major_inj.
  - intros n Hn. apply row_major_onto. lia.
  - intros ok i others axis Len Hok Ha Hi. unfold ds_at. cbn [make_dataset ds_axes].
    rewrite Len, Nat.eqb_refl.
    apply (at_from_base_bad values ok axes [] 0%N i others axis); auto.
Qed.

(** ** From data sets to tables *)

Fixpoint indexed {X} (i : N) (l : list X) : list (N * X) :=
  match l with [] => [] | x :: t => (i, x) :: indexed (i + 1) t end.

Fixpoint nested_of (axes : list (list R)) : (list N -> R) -> nested (length axes) :=
  match axes return (list N -> R) -> nested (length axes) with
  | [] => fun f => f []
  | a :: rest => fun f =>
      map (fun ik => (snd ik, nested_of rest (fun is => f (fst ik :: is)))) (indexed 0 a)
  end.

Lemma nested_of_ext axes : forall f g, (forall is, f is = g is) ->
  nested_of axes f = nested_of axes g.
Proof.
  induction axes as [|a axes IH]; intros f g H; cbn [nested_of]; auto.
  apply map_ext. intros ik. f_equal. apply IH. intros; apply H.
Qed.

Lemma indexed_snd {X} (l : list X) : forall i, map snd (indexed i l) = l.
Proof. induction l; intros; cbn; f_equal; auto. Qed.

Lemma indexed_app {X} (l r : list X) : forall i,
  indexed i (l ++ r) = (indexed i l ++ indexed (i + N.of_nat (length l)) r)%list.
Proof.
  induction l as [|x l IH]; intros i; cbn [app indexed length].
  - now rewrite N.add_0_r.
  - rewrite IH. do 3 f_equal. lia.
Qed.

Lemma indexed_in {X} (l : list X) : forall i j x, nth_error l j = Some x ->
  In ((i + N.of_nat j)%N, x) (indexed i l).
Proof.
  induction l as [|y l IH]; intros i [|j] x E; cbn in E; try discriminate.
  - injection E as ->. left. f_equal. lia.
  - right. replace (i + N.of_nat (S j))%N with (i + 1 + N.of_nat j)%N by lia. now apply IH.
Qed.

Lemma map_set_last {V} (acc : list (R * V)) k v :
  (forall e, In e acc -> fst e < k) ->
  map_set (A := XRa) (Fin k) v (map (fun e => (Fin (fst e), snd e)) acc) =
  map (fun e => (Fin (fst e), snd e)) (acc ++ [(k, v)]).
Proof.
  induction acc as [|[k' v'] acc IH]; intros H; cbn [map app map_set fst snd]; auto.
  pose proof (H _ (or_introl eq_refl)) as Lt. cbn in Lt.
  change (nltb XRa (Fin k) (Fin k')) with (Rltb k k').
  change (nltb XRa (Fin k') (Fin k)) with (Rltb k' k).
  rewrite Rltb_false, Rltb_true by lra. f_equal. apply IH. intros; apply H; now right.
Qed.

Lemma increasing_app_lt l1 k l2 x : increasing (l1 ++ k :: l2) -> In x l1 -> x < k.
Proof.
  induction l1 as [|a l1 IH]; intros H Hin; [destruct Hin|].
  cbn [app] in H. destruct Hin as [<-|Hin].
  - eapply increasing_lt; eauto. apply in_or_app; right; now left.
  - apply IH; auto. eapply increasing_tail; eauto.
Qed.

Section ToMap.
  Variables (axes : list (list R)) (values : list R).
  Let ds := make_dataset (A := XRa) (map (map Fin) axes) (map Fin values).
  Hypothesis Ne : axes <> [].
  Hypothesis Hinc : forall a, In a axes -> increasing a.
  Hypothesis Hv : N.of_nat (length values) = volume (shape_of axes).

  Let F (is : list N) : R := nth (N.to_nat (row_major (shape_of axes) is)) values 0.

  Lemma shape_fin : shape_of (X := num XRa) (map (map Fin) axes) = shape_of axes.
  Proof. unfold shape_of. rewrite map_map. apply map_ext. intros; now rewrite map_length. Qed.

  Lemma ds_at_F is : in_shape (shape_of axes) is -> ds_at ds is = Ok (Fin (F is)).
  Proof.
    intros H. unfold ds. rewrite ds_at_ok.
    2: { intros E. apply map_eq_nil in E. contradiction. }
    2: { now rewrite shape_fin. }
    rewrite shape_fin. pose proof (row_major_lt _ _ H) as L.
    rewrite <- (Nnat.N2Nat.id (row_major _ _)). apply vec_at_nth.
    unfold F. rewrite nth_error_map, (nth_error_nth' _ 0) by lia. reflexivity.
  Qed.

  Lemma to_cmap_nested : forall rest pre outer, axes = (pre ++ rest)%list ->
    in_shape (shape_of pre) outer ->
    to_cmap ds (length rest) outer =
    Ok (stored_table (length rest) (nested_of rest (fun is => F (outer ++ is)))).
  Proof.
    induction rest as [|a rest IH]; intros pre outer E Ho.
    - cbn [length to_cmap nested_of stored_table]. rewrite !app_nil_r in *. subst pre.
      now apply ds_at_F.
    - cbn [length to_cmap nested_of stored_table].
      pose proof (in_shape_length _ _ Ho) as Lo. unfold shape_of in Lo. rewrite map_length in Lo.
      unfold ds_axis.
      assert (Ea : vec_at (ds_axes ds) (N.of_nat (length outer)) = Ok (map Fin a)).
      { apply vec_at_nth. cbn [ds ds_axes make_dataset]. rewrite nth_error_map, E, Lo, nth_mid.
        reflexivity. }
      rewrite Ea. cbn [noexcept bind].
      assert (Hinca : increasing a).
      { apply Hinc. rewrite E. apply in_or_app; right; now left. }
      set (g := fun i : N => nested_of rest (fun is => F (outer ++ i :: is))).
      set (loop := fix loop (i : N) (ks : list xr) (acc : list (xr * cmap XRa (length rest))) :=
             match ks with
             | [] => Ok acc
             | k :: t => bind (to_cmap ds (length rest) (outer ++ [i]))
                         (fun v => loop (i + 1)%N t (map_set (A := XRa) k v acc))
             end).
      assert (L : forall ks done, a = (done ++ ks)%list ->
        loop (N.of_nat (length done)) (map Fin ks)
          (map (fun e => (Fin (fst e), snd e))
             (map (fun ik => (snd ik, stored_table _ (g (fst ik)))) (indexed 0 done))) =
        Ok (map (fun e => (Fin (fst e), snd e))
             (map (fun ik => (snd ik, stored_table _ (g (fst ik)))) (indexed 0 a)))).
      { induction ks as [|k ks IHk]; intros done Ed.
        - rewrite app_nil_r in Ed. subst done. reflexivity.
        - cbn [map loop].
          rewrite (IH (pre ++ [a])%list (outer ++ [N.of_nat (length done)])%list).
          2: { now rewrite <- app_assoc. }
          2: { unfold in_shape, shape_of in *. rewrite map_app. apply Forall2_app; auto.
               constructor; [|constructor]. rewrite Ed, app_length. cbn [length]. lia. }
          cbn [bind].
          rewrite map_set_last.
          2: { intros e He. apply in_map_iff in He as (ik & <- & Hik). cbn [fst].
               apply (increasing_app_lt done k ks); [now rewrite <- Ed|].
               rewrite <- (indexed_snd done 0). now apply in_map. }
          assert (Ed' : a = ((done ++ [k]) ++ ks)%list) by now rewrite <- app_assoc.
          specialize (IHk _ Ed').
          rewrite indexed_app, map_app, app_length in IHk. cbn [indexed map length] in IHk.
          replace (N.of_nat (length done + 1)) with (N.of_nat (length done) + 1)%N in IHk by lia.
          rewrite <- IHk. f_equal. f_equal. f_equal. f_equal. cbn [snd fst].
          f_equal. f_equal. unfold g. rewrite N.add_0_l.
          apply nested_of_ext. intros is. now rewrite <- app_assoc. }
      specialize (L a [] eq_refl). cbn [length indexed map] in L.
      fold loop. etransitivity; [exact L|].
      rewrite !map_map. reflexivity.
  Qed.
End ToMap.

Lemma nested_of_well_formed axes : forall f,
  (forall a, In a axes -> a <> [] /\ increasing a) -> well_formed (length axes) (nested_of axes f).
Proof.
  induction axes as [|a axes IH]; intros f H; cbn [length nested_of well_formed]; auto.
  destruct (H a (or_introl eq_refl)) as [Na Inc]. parts.
  - intros E. apply map_eq_nil in E. destruct a; [congruence|discriminate].
  - rewrite map_map. cbn [fst]. change (fun x : N * R => snd x) with (@snd N R).
    now rewrite indexed_snd.
  - intros e He. apply in_map_iff in He as (ik & <- & _). cbn [snd].
    apply IH. intros b Hb. apply H. now right.
Qed.

Lemma nested_of_stored axes : forall f is ks,
  Forall2 (fun i (ak : list R * R) => nth_error (fst ak) (N.to_nat i) = Some (snd ak)) is
    (combine axes ks) -> length ks = length axes ->
  stored_at (length axes) (nested_of axes f) ks (f is).
Proof.
  induction axes as [|a axes IH]; intros f is ks H L.
  - destruct ks; [|discriminate]. inversion H; subst. cbn. auto.
  - destruct ks as [|k ks]; [discriminate|]. cbn [combine] in H. inversion H; subst.
    cbn [length nested_of stored_at].
    exists k, (nested_of axes (fun js => f (x :: js))), ks. parts; auto.
    + apply in_map_iff. exists (x, k). split; auto.
      pose proof (indexed_in a 0 (N.to_nat x) k H3) as Hin.
      now rewrite N.add_0_l, Nnat.N2Nat.id in Hin.
    + apply (IH (fun js => f (x :: js)) l ks); auto.
Qed.

Lemma C20_dataset_to_table_proof :
  forall (axes : list (list R)) (values : list R) (is : list N) (keys : list R),
  axes <> [] -> (forall a, In a axes -> increasing a) ->
  N.of_nat (length values) = volume (shape_of axes) ->
  length keys = length axes ->
  (* keys are the axis values at the indices *)
  Forall2 (fun i (ak : list R * R) => nth_error (fst ak) (N.to_nat i) = Some (snd ak)) is
    (combine axes keys) ->
  let ds := make_dataset (A := XRa) (map (map Fin) axes) (map Fin values) in
  exists m v, to_cmap ds (length axes) [] = Ok m
    /\ cm_at (length axes) m (map Fin keys) = Ok (Fin v)
    /\ ds_at ds is = Ok (Fin v).
Proof.
  intros axes values is keys Ne Inc Hv Lk Hk ds.
  assert (Hs : in_shape (shape_of axes) is /\ forall a, In a axes -> a <> []).
  { clear -Lk Hk. revert is keys Lk Hk.
    induction axes as [|a axes IH]; intros is keys Lk Hk.
    - destruct keys; [|discriminate]. inversion Hk. split; [constructor|intros a []].
    - destruct keys as [|k keys]; [discriminate|]. cbn [combine] in Hk.
      inversion Hk as [|x ? l ? Hx0 Hrest]; subst.
      injection Lk as Lk. destruct (IH _ _ Lk Hrest) as [I1 I2]. cbn [fst snd] in Hx0.
      assert (Hx : (N.to_nat x < length a)%nat) by (apply nth_error_Some; congruence).
      split.
      + constructor; auto. lia.
      + intros b [<-|Hb]; auto. intros ->. cbn in Hx. lia. }
  destruct Hs as [Hs Hn].
  set (F := fun is : list N => nth (N.to_nat (row_major (shape_of axes) is)) values 0).
  exists (stored_table (length axes) (nested_of axes F)), (F is).
  assert (Wf : well_formed (length axes) (nested_of axes F)).
  { apply nested_of_well_formed. auto. }
  parts.
  - apply (to_cmap_nested axes values Ne Inc Hv axes [] [] eq_refl). constructor.
  - destruct C18_nested_lookup_proof as (value & V1 & _ & _ & V4).
    rewrite V1; auto. do 2 f_equal. apply V4; auto.
    now apply nested_of_stored.
  - apply (ds_at_F axes values Ne Hv is Hs).
Qed.
