(** Multigroup data: construction and collisions. *)
From Coq Require Import Bool String List Reals ZArith NArith Lra Lia.
From Coquelicot Require Import Coquelicot.
From Verif Require Import Model.Num Model.Outcome Model.Rng Model.Xml Model.Std Model.Point
  Model.Surface Model.Types Model.Particle Model.Multigroup Spec.Vec Spec.RngSpec
  Spec.DirectionSpec Spec.SumSpec Spec.MultigroupSpec Proofs.RealLib Proofs.OutcomeLib
  Proofs.BinsProofs Proofs.DirectionProofs.
Import ListNotations.
Local Open Scope R_scope.

(** ** Handles *)

Lemma root_root n : n_root (n_root n) = n_root n.
Proof. destruct n as [[e a]|]; reflexivity. Qed.

Lemma last_default {T} (l : list T) d d' : l <> [] -> last l d = last l d'.
Proof. induction l as [|x [|y l] IH]; intros H; [congruence|reflexivity|apply IH; discriminate]. Qed.

Lemma root_child n c : In c (n_children n) -> n_root c = n_root n.
Proof.
  destruct n as [[e anc]|]; cbn; [|tauto]. intros H. apply in_map_iff in H as (x & <- & _).
  unfold n_root. cbn [h_elem h_anc]. do 2 f_equal. destruct anc as [|a anc]; [reflexivity|].
  change (last (e :: a :: anc) x) with (last (a :: anc) x). apply last_default. discriminate.
Qed.

Lemma child_in n nm : n_child n nm <> None -> In (n_child n nm) (n_children n) /\
  n_name (n_child n nm) = nm.
Proof.
  unfold n_child. destruct (find _ _) eqn:E; [|congruence]. intros _.
  apply find_some in E as [E1 E2]. split; auto. now apply String.eqb_eq.
Qed.

Lemma root_named n nm : n_child n nm <> None -> n_root (n_child n nm) = n_root n.
Proof. intros H. apply root_child. now apply child_in. Qed.

Lemma groups_root {A} (X : Ext A) n n' : n_root n = n_root n' ->
  group_structure_size X (n_root n) = written_groups X n'.
Proof.
  intros E. unfold group_structure_size, written_groups. now rewrite root_root, E.
Qed.

Lemma child_not_null n c : In c (n_children n) -> c <> None.
Proof.
  destruct n as [h|]; cbn; [|tauto]. intros H. apply in_map_iff in H as (x & <- & _). discriminate.
Qed.

Lemma is_null_false n : is_null n = false <-> n <> None.
Proof. destruct n; cbn; split; congruence. Qed.

(** ** Vectors *)

Lemma vec_at_nat {V} (l : list V) i d : (N.to_nat i < length l)%nat ->
  vec_at l i = Ok (nth (N.to_nat i) l d).
Proof.
  intros H. unfold vec_at. replace (i <? N.of_nat (length l))%N with true
    by (symmetry; apply N.ltb_lt; lia).
  now rewrite (nth_error_nth' _ d).
Qed.

Lemma group_at_nth {V} (l : list V) g d : (1 <= g)%N -> (g < 2 ^ 64)%N ->
  (N.to_nat (g - 1) < length l)%nat -> group_at l g = Ok (nth (N.to_nat (g - 1)) l d).
Proof. intros. unfold group_at. rewrite sub64_small by auto. now apply vec_at_nat. Qed.

Lemma one_dimensional_ok {A} (X : Ext A) n v :
  one_dimensional X n = Ok v <->
  v = numbers X n /\ N.of_nat (length (numbers X n)) = group_structure_size X (n_root n).
Proof.
  unfold one_dimensional, make_one, numbers. destruct (N.eqb_spec (N.of_nat (length (to_reals X (n_text n))))
    (group_structure_size X (n_root n))).
  - split; [intros [= <-]; auto|intros [-> _]; auto].
  - split; [discriminate|intros [_ ?]; contradiction].
Qed.

Definition column {A} (l : list (num A)) (G g : N) : list (num A) :=
  map (fun h => nth (N.to_nat (G * (h - 1) + (g - 1))) l (nofZ A 0)) (groups G).

Lemma mapM_pure {X Y} (f : X -> outcome Y) (h : X -> Y) l :
  (forall x, In x l -> f x = Ok (h x)) -> mapM f l = Ok (map h l).
Proof.
  intros H. apply mapM_ok. induction l; cbn; constructor.
  - apply H; now left.
  - apply IHl. intros; apply H; now right.
Qed.

Lemma in_groups G g : In g (groups G) <-> (1 <= g <= G)%N.
Proof.
  unfold groups. rewrite in_map_iff. split.
  - intros (k & <- & H). apply in_seq in H. lia.
  - intros H. exists (N.to_nat g). split; [lia|]. apply in_seq. lia.
Qed.

Lemma make_two_ok {A} (X : Ext A) path G l :
  N.of_nat (length l) = (G * G)%N ->
  make_two X path G l = Ok (map (column l G) (groups G)).
Proof.
  intros L. unfold make_two. rewrite (proj2 (N.eqb_eq _ _) L).
  assert (E : map (column l G) (groups G) = map (fun g => column l G (N.of_nat g)) (seq 1 (N.to_nat G))).
  { unfold groups at 1. now rewrite map_map. }
  rewrite E. apply mapM_pure. intros gp Hgp. apply in_seq in Hgp.
  unfold column, groups. rewrite map_map. apply mapM_pure. intros g Hg. apply in_seq in Hg.
  apply vec_at_nat. nia.
Qed.

Lemma two_dimensional_ok {A} (X : Ext A) n v :
  two_dimensional X n = Ok v <->
  N.of_nat (length (numbers X n)) =
    (group_structure_size X (n_root n) * group_structure_size X (n_root n))%N /\
  v = map (column (numbers X n) (group_structure_size X (n_root n)))
        (groups (group_structure_size X (n_root n))).
Proof.
  unfold two_dimensional. fold (numbers X n).
  set (G := group_structure_size X (n_root n)).
  destruct (N.eq_dec (N.of_nat (length (numbers X n))) (G * G)%N) as [E|E].
  - rewrite make_two_ok by auto. split; [intros H; injection H as <-; auto|intros [_ ->]; auto].
  - unfold make_two. rewrite (proj2 (N.eqb_neq _ _) E). split; [discriminate|intros [? _]; contradiction].
Qed.

(** ** Reactions *)

Definition opt_list (r : reaction) {V} (o : option V) : list (reaction * V) :=
  match o with Some v => [(r, v)] | None => [] end.
Definition assemble {V} (c s f : option V) : list (reaction * V) :=
  opt_list Rcapture c ++ opt_list Rscatter s ++ opt_list Rfission f.

Definition keep {V} (o : option V) (v : V) : option V :=
  match o with Some w => Some w | None => Some v end.

Lemma emplace_assemble {A : Arith} r (v : list (num A)) c s f :
  reaction_emplace r v (assemble c s f) =
  match r with
  | Rcapture => assemble (keep c v) s f
  | Rscatter => assemble c (keep s v) f
  | Rfission => assemble c s (keep f v)
  end.
Proof. destruct r, c, s, f; reflexivity. Qed.

Definition read_reaction {A} (X : Ext A) (r : reaction) (c : node) : outcome (list (num A)) :=
  match r with
  | Rscatter => create_scatter_xs X c
  | Rfission => one_dimensional X (n_child c "xs")
  | Rcapture => one_dimensional X c
  end.

Definition reaction_name (r : reaction) : string :=
  match r with Rcapture => "capture" | Rscatter => "scatter" | Rfission => "fission" end.

Lemma to_reaction_ok s r : to_reaction s = Ok r <-> s = reaction_name r.
Proof.
  unfold to_reaction.
  destruct (String.eqb_spec s "capture"); [subst; split; [intros [= <-]; auto|destruct r; cbn; auto; discriminate]|].
  destruct (String.eqb_spec s "scatter"); [subst; split; [intros [= <-]; auto|destruct r; cbn; auto; discriminate]|].
  destruct (String.eqb_spec s "fission"); [subst; split; [intros [= <-]; auto|destruct r; cbn; auto; discriminate]|].
  split; [discriminate|]. destruct r; cbn; congruence.
Qed.

(** What the fold leaves for one reaction. *)
Definition got {A} (X : Ext A) (r : reaction) (l : list node) (before after : option (list (num A))) : Prop :=
  match before with
  | Some v => after = Some v
  | None =>
      match find (fun c => String.eqb (n_name c) (reaction_name r)) l with
      | Some c => exists v, read_reaction X r c = Ok v /\ after = Some v
      | None => after = None
      end
  end.

Lemma create_reactions_fold {A} (X : Ext A) l : forall c s f rs,
  foldM (fun acc n =>
           bind (to_reaction (n_name n)) (fun r =>
           bind (read_reaction X r n) (fun v => Ok (reaction_emplace r v acc)))) l
        (assemble c s f) = Ok rs ->
  exists c' s' f', rs = assemble c' s' f' /\ got X Rcapture l c c' /\ got X Rscatter l s s'
    /\ got X Rfission l f f'.
Proof.
  induction l as [|n l IH]; intros c s f rs H.
  - cbn in H. injection H as <-. exists c, s, f. repeat split; unfold got; cbn;
      [destruct c|destruct s|destruct f]; auto.
  - cbn [foldM] in H. oinv H. subst. apply to_reaction_ok in E0.
    rewrite emplace_assemble in H.
    destruct x0.
    + destruct (IH _ _ _ _ H) as (c' & s' & f' & -> & G1 & G2 & G3). exists c', s', f'.
      unfold got in *. cbn [find]. rewrite E0. cbn [reaction_name String.eqb Ascii.eqb Bool.eqb].
      parts; auto; destruct c; cbn in *; auto. exists x1; auto.
    + destruct (IH _ _ _ _ H) as (c' & s' & f' & -> & G1 & G2 & G3). exists c', s', f'.
      unfold got in *. cbn [find]. rewrite E0. cbn [reaction_name String.eqb Ascii.eqb Bool.eqb].
      parts; auto; destruct s; cbn in *; auto. exists x1; auto.
    + destruct (IH _ _ _ _ H) as (c' & s' & f' & -> & G1 & G2 & G3). exists c', s', f'.
      unfold got in *. cbn [find]. rewrite E0. cbn [reaction_name String.eqb Ascii.eqb Bool.eqb].
      parts; auto; destruct f; cbn in *; auto. exists x1; auto.
Qed.

Lemma add_onto_ok {A : Arith} (acc : list (num A)) : forall xs r, add_onto acc xs = Ok r ->
  (length acc <= length xs)%nat /\ length r = length acc /\
  forall i, (i < length acc)%nat ->
    nth i r (nofZ A 0) = nadd A (nth i acc (nofZ A 0)) (nth i xs (nofZ A 0)).
Proof.
  induction acc as [|a acc IH]; intros xs r H.
  - cbn in H. injection H as <-. cbn. parts; auto; lia.
  - destruct xs as [|x xs]; [discriminate|]. cbn [add_onto] in H. oinv H. subst.
    destruct (IH _ _ E) as (L1 & L2 & L3). cbn [length]. parts; try lia.
    intros [|i] Hi; cbn; auto. apply L3. lia.
Qed.

Lemma add_onto_make {A : Arith} (acc : list (num A)) : forall xs,
  (length acc <= length xs)%nat -> exists r, add_onto acc xs = Ok r.
Proof.
  induction acc as [|a acc IH]; intros xs L; cbn; [eauto|].
  destruct xs as [|x xs]; cbn in L; [lia|].
  destruct (IH xs) as [r ->]; [lia|]. cbn. eauto.
Qed.

Lemma totals_ok {A : Arith} (rs : list (reaction * list (num A))) : forall acc total,
  foldM (fun acc rx => add_onto acc (snd rx)) rs acc = Ok total ->
  List.Forall (fun rx => (length acc <= length (snd rx))%nat) rs /\ length total = length acc /\
  forall i, (i < length acc)%nat ->
    nth i total (nofZ A 0) =
    fold_left (nadd A) (map (fun rx => nth i (snd rx) (nofZ A 0)) rs) (nth i acc (nofZ A 0)).
Proof.
  induction rs as [|rx rs IH]; intros acc total H.
  - cbn in H. injection H as <-. cbn. parts; auto.
  - cbn [foldM] in H. oinv H. apply add_onto_ok in E as (L1 & L2 & L3).
    destruct (IH _ _ H) as (M1 & M2 & M3). rewrite L2 in *. parts; auto.
    intros i Hi. cbn [map fold_left]. rewrite M3, L3; auto.
Qed.

Lemma create_total_ok {A : Arith} G (rs : list (reaction * list (num A))) total :
  create_total G rs = Ok total ->
  List.Forall (fun rx => (N.to_nat G <= length (snd rx))%nat) rs /\ length total = N.to_nat G /\
  forall i, (i < N.to_nat G)%nat ->
    nth i total (nofZ A 0) = sum_left (map (fun rx => nth i (snd rx) (nofZ A 0)) rs).
Proof.
  unfold create_total. intros H. apply totals_ok in H. rewrite repeat_length in H.
  destruct H as (H1 & H2 & H3). parts; auto. intros i Hi. rewrite H3 by auto.
  unfold sum_left. f_equal. apply nth_repeat.
Qed.

(** What a constructed object holds. *)
Record built {A} (X : Ext A) (n : node) (m : multigroup A) : Prop := mkBuilt {
  bu_groups : mg_max_group m = written_groups X n;
  bu_nubar : match nubar_node n with
             | None => mg_nubar m = None
             | c => mg_nubar m = Some (numbers X c)
                    /\ N.of_nat (length (numbers X c)) = written_groups X n
             end;
  bu_chi : match chi_node n with
           | None => mg_chi m = None
           | c => mg_chi m = Some (map (fun g => normalize_column (column (numbers X c) (written_groups X n) g))
                                       (groups (written_groups X n)))
                  /\ N.of_nat (length (numbers X c)) = (written_groups X n * written_groups X n)%N
           end;
  bu_scatter : match scatter_node n with
           | None => mg_scatter_probs m = None
           | c => mg_scatter_probs m = Some (map (fun g => normalize_column (column (numbers X c) (written_groups X n) g))
                                       (groups (written_groups X n)))
                  /\ N.of_nat (length (numbers X c)) = (written_groups X n * written_groups X n)%N
           end;
  bu_reactions : exists c s f, mg_reactions m = assemble c s f
    /\ c = present (n_child n "capture") (numbers X (n_child n "capture"))
    /\ (n_child n "capture" <> None ->
        N.of_nat (length (numbers X (n_child n "capture"))) = written_groups X n)
    /\ s = present (scatter_node n)
             (map (fun g => sum_left (column (numbers X (scatter_node n)) (written_groups X n) g))
                  (groups (written_groups X n)))
    /\ f = present (fission_node n) (numbers X (n_child (fission_node n) "xs"))
    /\ (fission_node n <> None ->
        N.of_nat (length (numbers X (n_child (fission_node n) "xs"))) =
        match n_child (fission_node n) "xs" with None => 0%N | _ => written_groups X n end);
  bu_total : create_total (written_groups X n) (mg_reactions m) = Ok (mg_total m)
}.

Lemma nested_root n a b : n_child (n_child n a) b <> None -> n_root (n_child (n_child n a) b) = n_root n.
Proof.
  intros H. rewrite root_named by auto. apply root_named. intros E. rewrite E in H. now apply H.
Qed.

Lemma normalized_two_ok {A} (X : Ext A) n c v : n_root c = n_root n ->
  normalized_two X c = Ok v ->
  v = map (fun g => normalize_column (column (numbers X c) (written_groups X n) g)) (groups (written_groups X n))
  /\ N.of_nat (length (numbers X c)) = (written_groups X n * written_groups X n)%N.
Proof.
  intros R H. unfold normalized_two in H. oinv H. subst.
  apply two_dimensional_ok in E as [L ->]. rewrite (groups_root X c n R) in *. split; auto.
  now rewrite map_map.
Qed.

Lemma multigroup_built {A} (X : Ext A) n m : multigroup_create X n = Ok m -> built X n m.
Proof.
  unfold multigroup_create. intros H. oinv H. subst m.
  assert (Gn : group_structure_size X (n_root n) = written_groups X n) by now apply groups_root.
  rewrite Gn in *.
  constructor; cbn [mg_max_group mg_nubar mg_chi mg_scatter_probs mg_reactions mg_total].
  - reflexivity.
  - fold (fission_node n) in E. fold (nubar_node n) in E. unfold when_node in E.
    destruct (nubar_node n) as [c|] eqn:Ec; cbn [is_null] in E; oinv E; subst; auto.
    apply one_dimensional_ok in E4 as [-> L]. split; auto.
    rewrite L, <- Ec. apply groups_root. apply nested_root. fold (fission_node n).
    fold (nubar_node n). congruence.
  - fold (fission_node n) in E0. fold (chi_node n) in E0. unfold when_node in E0.
    destruct (chi_node n) as [c|] eqn:Ec; cbn [is_null] in E0; oinv E0; subst; auto.
    apply (normalized_two_ok X n) in E4 as [-> L]; auto.
    rewrite <- Ec. apply nested_root. fold (fission_node n). fold (chi_node n). congruence.
  - fold (scatter_node n) in E1. unfold when_node in E1.
    destruct (scatter_node n) as [c|] eqn:Ec; cbn [is_null] in E1; oinv E1; subst; auto.
    apply (normalized_two_ok X n) in E4 as [-> L]; auto.
    rewrite <- Ec. apply root_named. fold (scatter_node n). congruence.
  - unfold create_reactions in E2.
    change (foldM _ (n_children n) []) with
      (foldM (fun acc n => bind (to_reaction (n_name n)) (fun r =>
         bind (read_reaction X r n) (fun v => Ok (reaction_emplace r v acc)))) (n_children n)
         (assemble None None None)) in E2.
    apply create_reactions_fold in E2 as (c & s & f & -> & G1 & G2 & G3).
    exists c, s, f. unfold got in *. cbn [reaction_name] in *.
    assert (K : forall nm, match find (fun c => String.eqb (n_name c) nm) (n_children n) with
              | Some c => n_child n nm = c /\ n_child n nm <> None
              | None => n_child n nm = None end).
    { intros nm. unfold n_child.
      destruct (find (fun c => String.eqb (n_name c) nm) (n_children n)) eqn:F; auto. split; auto.
      apply find_some in F as [F _]. eapply child_not_null; eauto. }
    split; [reflexivity|].
    assert (Hc : c = present (n_child n "capture") (numbers X (n_child n "capture"))
       /\ (n_child n "capture" <> None ->
        N.of_nat (length (numbers X (n_child n "capture"))) = written_groups X n)).
    { specialize (K "capture"%string). destruct (find (fun c => String.eqb (n_name c) "capture") (n_children n)) as [c0|].
      - destruct K as [<- Kn]. destruct G1 as (v & G1 & ->). cbn [read_reaction] in G1.
        apply one_dimensional_ok in G1 as [-> L]. unfold present.
        rewrite (proj2 (is_null_false _) Kn). split; auto. intros _. rewrite L.
        apply groups_root. now apply root_named.
      - rewrite K, G1. split; auto. congruence. }
    assert (Hs : s = present (scatter_node n)
             (map (fun g => sum_left (column (numbers X (scatter_node n)) (written_groups X n) g))
                  (groups (written_groups X n)))).
    { specialize (K "scatter"%string). fold (scatter_node n) in K. destruct (find (fun c => String.eqb (n_name c) "scatter") (n_children n)) as [c0|].
      - destruct K as [<- Kn]. destruct G2 as (v & G2 & ->). cbn [read_reaction] in G2.
        unfold create_scatter_xs in G2. oinv G2. subst.
        apply two_dimensional_ok in E2 as [L ->]. unfold present.
        rewrite (proj2 (is_null_false _) Kn), map_map.
        rewrite (groups_root X (scatter_node n) n) by now apply root_named.
        reflexivity.
      - rewrite K, G2. auto. }
    assert (Hf : f = present (fission_node n) (numbers X (n_child (fission_node n) "xs"))
       /\ (fission_node n <> None ->
        N.of_nat (length (numbers X (n_child (fission_node n) "xs"))) =
        match n_child (fission_node n) "xs" with None => 0%N | _ => written_groups X n end)).
    { specialize (K "fission"%string). fold (fission_node n) in K. destruct (find (fun c => String.eqb (n_name c) "fission") (n_children n)) as [c0|].
      - destruct K as [<- Kn]. destruct G3 as (v & G3 & ->). cbn [read_reaction] in G3.
        apply one_dimensional_ok in G3 as [-> L]. unfold present.
        rewrite (proj2 (is_null_false _) Kn). split; auto. intros _. rewrite L.
        destruct (n_child (fission_node n) "xs") as [x9|] eqn:Ex; [|reflexivity].
        rewrite <- Ex. apply groups_root. apply nested_root. fold (fission_node n). congruence.
      - rewrite K, G3. split; auto. cbn. congruence. }
    tauto.
  - exact E3.
Qed.

Lemma column_nth {A} (l : list (num A)) G g h : In h (groups G) ->
  nth (N.to_nat (h - 1)) (column l G g) (nofZ A 0) =
  nth (N.to_nat (G * (h - 1) + (g - 1))) l (nofZ A 0).
Proof.
  intros H. apply in_groups in H. unfold column, groups. rewrite map_map.
  set (f := fun x : nat => nth (N.to_nat (G * (N.of_nat x - 1) + (g - 1))) l (nofZ A 0)).
  rewrite (nth_indep _ _ (f 0%nat)) by (rewrite map_length, seq_length; lia).
  rewrite map_nth, seq_nth by lia. unfold f. do 2 f_equal. lia.
Qed.

Lemma nth_groups {V} (f : N -> V) G g d : In g (groups G) ->
  nth (N.to_nat (g - 1)) (map f (groups G)) d = f g.
Proof.
  intros H. apply in_groups in H. unfold groups. rewrite map_map.
  set (k := fun x : nat => f (N.of_nat x)).
  rewrite (nth_indep _ _ (k 0%nat)) by (rewrite map_length, seq_length; lia).
  rewrite map_nth, seq_nth by lia. unfold k. f_equal. lia.
Qed.

Lemma groups_length G : length (groups G) = N.to_nat G.
Proof. unfold groups. now rewrite map_length, seq_length. Qed.

(** The entry of each reaction at [g]. *)
Lemma reactions_at {A} (X : Ext A) n m g : built X n m -> In g (groups (written_groups X n)) ->
  map (fun rx => (fst rx, nth (N.to_nat (g - 1)) (snd rx) (nofZ A 0))) (mg_reactions m) =
  somes (map (fun r => option_map (pair r) (written_xs X n r g)) [Rcapture; Rscatter; Rfission]).
Proof.
  intros B Hg. destruct (bu_reactions _ _ _ B) as (c & s & f & -> & -> & Lc & -> & -> & Lf).
  unfold assemble, present, written_xs, present. fold (scatter_node n). fold (fission_node n).
  destruct (is_null (n_child n "capture")), (is_null (scatter_node n)), (is_null (fission_node n));
    cbn [opt_list app map option_map somes flat_map fst snd];
    try rewrite (nth_groups _ _ _ _ Hg); reflexivity.
Qed.

Lemma C21_total_is_sum_proof :
  forall (A : Arith) (G : Rng A) (X : Ext A) n m (p : particle A G) g,
  multigroup_create X n = Ok m ->
  In g (groups (written_groups X n)) -> (g < 2 ^ 64)%N -> p_energy p = Group g ->
  mg_get_total m p =
  Ok (sum_left (somes (map (fun r => written_xs X n r g) [Rcapture; Rscatter; Rfission]))).
Proof.
  intros A G X n m p g H Hg Hl E. apply multigroup_built in H.
  unfold mg_get_total. rewrite E. cbn [get_group bind].
  destruct (create_total_ok _ _ _ (bu_total _ _ _ H)) as (_ & L & T).
  pose proof (proj1 (in_groups _ _) Hg) as Hg'.
  rewrite (group_at_nth _ _ (nofZ A 0)) by (try rewrite L; lia). cbn [noexcept]. f_equal.
  rewrite T by lia.
  pose proof (reactions_at X n m g H Hg) as R.
  apply (f_equal (map snd)) in R. rewrite map_map in R. cbn [snd] in R. rewrite R.
  f_equal. cbn [map somes flat_map].
  destruct (written_xs X n Rcapture g), (written_xs X n Rscatter g), (written_xs X n Rfission g);
    reflexivity.
Qed.

Lemma C23_group_lists_proof :
  forall (A : Arith) (X : Ext A) (c : node),
  let G := written_groups X c in
  let found := N.of_nat (length (numbers X c)) in
  (one_dimensional X c = if (found =? G)%N then Ok (numbers X c)
     else Throw (n_path c ++ ": Expected " ++ show_N G ++ " entries but got " ++ show_N found))
  /\ (found <> (G * G)%N ->
      two_dimensional X c =
        Throw (n_path c ++ ": Expected " ++ show_N (G * G) ++ " entries but got " ++ show_N found))
  /\ (found = (G * G)%N ->
      exists v, two_dimensional X c = Ok v /\ length v = N.to_nat G
        /\ forall g h, In g (groups G) -> In h (groups G) ->
             nth (N.to_nat (h - 1)) (nth (N.to_nat (g - 1)) v []) (nofZ A 0) = matrix_entry X c G h g).
Proof.
  intros A X c G found.
  assert (EG : group_structure_size X (n_root c) = G) by now apply groups_root.
  parts.
  - unfold one_dimensional, make_one. rewrite EG. reflexivity.
  - intros H. unfold two_dimensional, make_two. rewrite EG. fold (numbers X c). fold found.
    now rewrite (proj2 (N.eqb_neq _ _) H).
  - intros H. exists (map (column (numbers X c) G) (groups G)). parts.
    + apply two_dimensional_ok. rewrite EG. auto.
    + now rewrite map_length, groups_length.
    + intros g h Hg Hh. rewrite (nth_groups _ _ _ _ Hg). now apply column_nth.
Qed.

Lemma C23_rejected_proof :
  forall (A : Arith) (X : Ext A) (n : node) (m : multigroup A),
  multigroup_create X n = Ok m ->
  let G := written_groups X n in
  let size c := N.of_nat (length (numbers X c)) in
  (n_child n "capture" <> None -> size (n_child n "capture") = G)
  /\ (scatter_node n <> None -> size (scatter_node n) = (G * G)%N)
  /\ (fission_node n <> None -> (0 < G)%N -> size (n_child (fission_node n) "xs") = G)
  /\ (nubar_node n <> None -> size (nubar_node n) = G)
  /\ (chi_node n <> None -> size (chi_node n) = (G * G)%N).
Proof.
  intros A X n m H G size. apply multigroup_built in H. unfold size, G. parts.
  - destruct (bu_reactions _ _ _ H) as (c & s & f & _ & _ & L & _). exact L.
  - pose proof (bu_scatter _ _ _ H) as B. destruct (scatter_node n); [intros _; exact (proj2 B)|congruence].
  - intros Hf HG. destruct (bu_reactions _ _ _ H) as (c & s & f & E & _ & _ & _ & -> & L).
    destruct (create_total_ok _ _ _ (bu_total _ _ _ H)) as (T & _).
    specialize (L Hf). destruct (n_child (fission_node n) "xs") as [x|] eqn:Ex; [exact L|].
    exfalso. rewrite E in T. unfold assemble, present in T.
    rewrite (proj2 (is_null_false _) Hf) in T.
    apply Forall_app in T as [_ T]. apply Forall_app in T as [_ T]. inversion T; subst.
    cbn [snd] in *. lia.
  - pose proof (bu_nubar _ _ _ H) as B. destruct (nubar_node n); [intros _; exact (proj2 B)|congruence].
  - pose proof (bu_chi _ _ _ H) as B. destruct (chi_node n); [intros _; exact (proj2 B)|congruence].
Qed.
