(** Building a world from a document: C66. *)
From Coq Require Import Bool String List NArith Arith Lia Permutation.
From Verif Require Import Model.Num Model.Outcome Model.Rng Model.Xml Model.Std Model.Point
  Model.Surface Model.Types Model.Field Model.Particle Model.Material Model.World
  Spec.WorldSpec Proofs.OutcomeLib.
Import ListNotations.
Local Open Scope string_scope.

(** ** Looking up names *)
Lemma find_first {X} (f : X -> bool) l x : find f l = Some x ->
  exists before after, l = (before ++ x :: after)%list /\ f x = true
    /\ forall b, In b before -> f b = false.
Proof.
  induction l as [|a l IH]; cbn; [discriminate|]. destruct (f a) eqn:E.
  - intros [= <-]. exists [], l. split; auto. split; auto. intros ? [].
  - intros H. destruct (IH H) as (b & c & -> & Fx & Hb). exists (a :: b), c.
    split; auto. split; auto. intros y [<-|Hy]; auto.
Qed.
Lemma lookup group name :
  match n_find_by_attr group "name" name with
  | Some h => first_named group name (Some h)
  | None => ~ declares group name
  end.
Proof.
  unfold n_find_by_attr.
  destruct (find _ (n_children group)) as [c|] eqn:E.
  - assert (Nc : c <> None).
    { intros ->. apply find_some in E as [_ E]. discriminate. }
    destruct c as [h|]; [|contradiction].
    apply find_first in E as (b & a & El & Ec & Hb). exists b, a. split; auto.
    destruct (n_attr (Some h) "name") as [v|]; [|discriminate].
    apply String.eqb_eq in Ec as ->. split; auto.
    intros y Hy Ey. specialize (Hb y Hy). rewrite Ey, String.eqb_refl in Hb. discriminate.
  - intros (c & Hc & Ec). apply (find_none _ _ E) in Hc. rewrite Ec, String.eqb_refl in Hc.
    discriminate.
Qed.
Lemma first_declared group name c : first_named group name c -> declares group name.
Proof.
  intros (b & a & El & Ec & _). exists c. split; auto. rewrite El. apply in_or_app. right. now left.
Qed.
Lemma lookup_null group name :
  is_null (n_find_by_attr group "name" name) = false <-> declares group name.
Proof.
  pose proof (lookup group name) as L. destruct (n_find_by_attr group "name" name); cbn.
  - split; auto. intros _. now apply first_declared in L.
  - split; [discriminate|contradiction].
Qed.
Lemma first_unique group name c c' :
  first_named group name c -> first_named group name c' -> c = c'.
Proof.
  intros (b & a & El & Ec & Hb) (b' & a' & El' & Ec' & Hb'). rewrite El in El'. clear El.
  revert b' El' Hb'. induction b as [|x b IH]; intros [|x' b'] El' Hb'; cbn in El'.
  - now injection El'.
  - injection El' as -> _. exfalso. apply (Hb' x'); auto. now left.
  - injection El' as -> _. exfalso. apply (Hb c'); auto. now left.
  - injection El' as _ El'. apply (IH (fun y Hy => Hb y (or_intror Hy)) b'); auto.
    intros y Hy. apply Hb'. now right.
Qed.
Lemma lookup_is group name c : first_named group name c ->
  n_find_by_attr group "name" name = c /\ is_null c = false.
Proof.
  intros H. pose proof (lookup group name) as L.
  destruct (n_find_by_attr group "name" name) as [h|].
  - rewrite (first_unique _ _ _ _ H L). auto.
  - exfalso. now apply L, (first_declared _ _ c).
Qed.

Lemma nodup_snoc {V} (l : list V) x : NoDup l -> ~ In x l -> NoDup (l ++ [x]).
Proof.
  intros N H. apply (Permutation_NoDup (Permutation_cons_append l x)). now constructor.
Qed.

(** ** Collecting objects by name *)
Section Grow.
  Context {V : Type} (name : V -> string) (made : nat -> string -> V -> Prop).
  Hypothesis made_name : forall i k x, made i k x -> name x = k.

  Inductive grows : list V -> list string -> list V -> Prop :=
    | grows_nil acc : grows acc [] acc
    | grows_old acc k ks r : In k (map name acc) -> grows acc ks r -> grows acc (k :: ks) r
    | grows_new acc k ks x r : ~ In k (map name acc) -> made (length acc) k x ->
        grows (acc ++ [x])%list ks r -> grows acc (k :: ks) r.

  Lemma grows_app acc ks r ks' r' : grows acc ks r -> grows r ks' r' -> grows acc (ks ++ ks') r'.
  Proof. induction 1; intros; cbn; auto; [apply grows_old|eapply grows_new]; eauto. Qed.

  Definition sound (acc : list V) : Prop :=
    NoDup (map name acc)
    /\ forall i x, nth_error acc i = Some x -> made i (name x) x.
  Lemma grows_sound acc ks r : grows acc ks r -> sound acc ->
    sound r /\ (forall k, In k (map name r) <-> In k (map name acc) \/ In k ks)
    /\ exists more, r = (acc ++ more)%list.
  Proof.
    induction 1 as [acc|acc k ks r Hk _ IH|acc k ks x r Hk Mx _ IH]; intros S0.
    - split; auto. split; [|exists []; now rewrite app_nil_r]. intros k. cbn. tauto.
    - destruct (IH S0) as (S1 & K & M). split; auto. split; auto.
      intros k'. rewrite K. cbn. split; [tauto|]. intros [?|[<-|?]]; auto.
    - destruct IH as (S1 & K & more & M).
      { destruct S0 as [N1 N2]. split.
        - rewrite map_app. cbn. rewrite (made_name _ _ _ Mx). now apply nodup_snoc.
        - intros i y E. destruct (Nat.lt_ge_cases i (length acc)) as [L|L].
          + rewrite nth_error_app1 in E by auto. auto.
          + rewrite nth_error_app2 in E by auto.
            destruct (i - length acc)%nat as [|j] eqn:Ej; cbn in E; [|now destruct j].
            injection E as <-. replace i with (length acc) by lia.
            now rewrite (made_name _ _ _ Mx). }
      split; auto. split.
      + intros k'. rewrite K, map_app, in_app_iff. cbn. rewrite (made_name _ _ _ Mx). tauto.
      + exists (x :: more). now rewrite M, <- app_assoc.
  Qed.
End Grow.

Lemma foldM_grows {V} name made (step : list V -> node -> outcome (list V)) keys l :
  (forall acc n r, In n l -> step acc n = Ok r -> grows name made acc (keys n) r) ->
  forall acc r, foldM step l acc = Ok r -> grows name made acc (flat_map keys l) r.
Proof.
  induction l as [|n l IH]; intros H acc r E; cbn in *.
  - injection E as <-. constructor.
  - apply bind_ok in E as (acc1 & E1 & E). eapply grows_app; [apply H; [left; reflexivity|exact E1]|].
    apply IH; auto.
Qed.

Lemma flat_single {V W} (f : V -> W) l : flat_map (fun x => [f x]) l = map f l.
Proof. induction l; cbn; congruence. Qed.

(** A loop that throws at the first bad item. *)
Lemma foldM_checked {X S} (f : S -> X -> outcome S) (I : S -> Prop) (good : X -> Prop) l :
  (forall s x, In x l -> I s -> good x -> exists s', f s x = Ok s' /\ I s') ->
  (forall s x, In x l -> I s -> ~ good x -> exists m, f s x = Throw m) ->
  (forall x, In x l -> good x \/ ~ good x) ->
  forall s, I s ->
    ((forall x, In x l -> good x) -> exists r, foldM f l s = Ok r /\ I r)
    /\ ((exists x, In x l /\ ~ good x) -> exists m, foldM f l s = Throw m).
Proof.
  induction l as [|a l IH]; intros Hg Hb Hd s Hs; cbn.
  - split; [eauto|]. intros (x & [] & _).
  - destruct (Hd a (or_introl eq_refl)) as [Ga|Ba].
    + destruct (Hg s a (or_introl eq_refl) Hs Ga) as (s' & -> & Is'). cbn.
      destruct (IH (fun s x H => Hg s x (or_intror H)) (fun s x H => Hb s x (or_intror H))
        (fun x H => Hd x (or_intror H)) s' Is') as [K1 K2]. split.
      * intros H. apply K1. auto.
      * intros (x & [<-|Hx] & Bx); [contradiction|]. apply K2. eauto.
    + destruct (Hb s a (or_introl eq_refl) Hs Ba) as (m & ->). cbn. split; [|eauto].
      intros H. exfalso. apply Ba, H. now left.
Qed.

(** Entries for the first mention of each name. *)
Section Collect.
  Context {V W : Type} (name : V -> string) (id : V -> nat) (key : node -> string)
    (val : node -> outcome W) (address : V * W -> N) (all : list V).
  Hypothesis identity : forall x y, In x all -> In y all -> id x = id y <-> name x = name y.

  Definition collect_step (acc : list (V * W)) (n : node) : outcome (list (V * W)) :=
    match find (fun s => String.eqb (name s) (key n)) all with
    | None => UB
    | Some s =>
        bind (val n) (fun v =>
        Ok (if existsb (fun x => Nat.eqb (id (fst x)) (id s)) acc
            then acc else insert_at address (s, v) acc))
    end.
  Definition collect (ns : list node) : outcome (list (V * W)) := foldM collect_step ns [].

  Lemma collect_ok ns r : collect ns = Ok r ->
    (forall s v, In (s, v) r -> In s all /\ exists n, In n ns /\ name s = key n)
    /\ (forall before n after, ns = (before ++ n :: after)%list ->
          (forall b, In b before -> key b <> key n) ->
          exists s v, In (s, v) r /\ In s all /\ name s = key n /\ val n = Ok v)
    /\ NoDup (map (fun x => name (fst x)) r).
  Proof.
    revert r. induction ns as [|n ns IH] using rev_ind; intros r E.
    - injection E as <-. split; [intros ? ? []|]. split; [|constructor].
      intros [|] ? ? H; discriminate.
    - unfold collect in E. rewrite foldM_app in E. apply bind_ok in E as (acc & Ea & E).
      destruct (IH acc Ea) as (K1 & K2 & K3). clear IH Ea. cbn [foldM] in E. unfold collect_step in E.
      destruct (find (fun s => String.eqb (name s) (key n)) all) as [s|] eqn:F; [|discriminate].
      apply find_some in F as [Hs Fs]. apply String.eqb_eq in Fs.
      apply bind_ok in E as (r' & E' & E). injection E as <-.
      apply bind_ok in E' as (v & Ev & E). injection E as <-.
      destruct (existsb (fun x => Nat.eqb (id (fst x)) (id s)) acc) eqn:X.
      + split; [|split; auto].
        * intros s0 v0 H. destruct (K1 s0 v0 H) as (H1 & n0 & H2 & H3). split; auto.
          exists n0. split; auto. apply in_or_app. now left.
        * intros before n0 after El Hb.
          destruct after as [|z after _] using rev_ind.
          -- apply app_inj_tail in El as [-> ->]. exfalso.
             apply existsb_exists in X as ([s0 v0] & Hs0 & Eid). apply Nat.eqb_eq in Eid.
             cbn in Eid. destruct (K1 s0 v0 Hs0) as (H1 & n1 & H2 & H3).
             apply (identity s0 s H1 Hs) in Eid. apply (Hb n1 H2). congruence.
          -- rewrite app_comm_cons, app_assoc in El. apply app_inj_tail in El as [-> ->].
             apply (K2 before n0 after eq_refl Hb).
      + split; [|split].
        * intros s0 v0 H. apply insert_in in H as [[= -> ->]|H].
          -- split; auto. exists n. split; auto. apply in_or_app. right. now left.
          -- destruct (K1 s0 v0 H) as (H1 & n0 & H2 & H3). split; auto.
             exists n0. split; auto. apply in_or_app. now left.
        * intros before n0 after El Hb.
          destruct after as [|z after _] using rev_ind.
          -- apply app_inj_tail in El as [-> ->]. exists s, v. split; auto.
             apply insert_in. now left.
          -- rewrite app_comm_cons, app_assoc in El. apply app_inj_tail in El as [-> ->].
             destruct (K2 before n0 after eq_refl Hb) as (s0 & v0 & H1 & H2).
             exists s0, v0. split; auto. apply insert_in. now right.
        * eapply Permutation_NoDup; [apply Permutation_map, Permutation_sym, insert_perm|].
          cbn [map fst]. constructor; auto.
          intros H. apply in_map_iff in H as ([s0 v0] & En & H). cbn in En.
          destruct (K1 s0 v0 H) as (H1 & _). apply (identity s0 s H1 Hs) in En.
          assert (existsb (fun x => Nat.eqb (id (fst x)) (id s)) acc = true); [|congruence].
          apply existsb_exists. exists (s0, v0). split; auto. now apply Nat.eqb_eq.
  Qed.

  Lemma collect_total ns :
    (forall n, In n ns -> In (key n) (map name all)) ->
    (forall n, In n ns -> exists v, val n = Ok v) -> exists r, collect ns = Ok r.
  Proof.
    unfold collect. generalize (@nil (V * W)) as acc.
    induction ns as [|n ns IH]; intros acc H1 H2; cbn; [eauto|]. unfold collect_step at 1.
    destruct (find (fun s => String.eqb (name s) (key n)) all) as [s|] eqn:F.
    - destruct (H2 n (or_introl eq_refl)) as (v & ->). cbn. apply IH; auto.
      + intros m Hm. apply H1. now right.
      + intros m Hm. apply H2. now right.
    - exfalso. specialize (H1 n (or_introl eq_refl)). apply in_map_iff in H1 as (s & En & Hs).
      apply (find_none _ _ F) in Hs. rewrite En, String.eqb_refl in Hs. discriminate.
  Qed.
End Collect.

(** ** The world *)
Section World.
  Context {A : Arith} (X : Ext A) (root : node).

  Definition surface_made (i : nat) (k : string) (s : surf A) : Prop :=
    exists c, first_named (surface_group root) k c
      /\ s = mkSurf i (mkSurface k (shape_of_node X c)).
  Definition nuclide_made (i : nat) (k : string) (nu : nuclide A) : Prop :=
    exists c, first_named (nuclide_group root) k c /\ nuclide_create X i c = Ok nu.
  Definition material_made (nuclides : list (nuclide A)) (_ : nat) (k : string)
      (m : material A) : Prop :=
    exists c l, first_named (material_group root) k c
      /\ collect_nuclides X nuclides (n_children c) = Ok l
      /\ m = mkMaterial k (normalize_afracs l) (as_double X (n_attr c "aden")).

  Lemma surface_made_name i k s : surface_made i k s -> su_name s = k.
  Proof. intros (c & _ & ->). reflexivity. Qed.
  Lemma nuclide_made_is i k nu : nuclide_made i k nu -> nu_id nu = i /\ nu_name nu = k.
  Proof.
    intros (c & (b & a & _ & Ec & _) & E). unfold nuclide_create in E.
    apply bind_ok in E as (xs & _ & E). injection E as <-. cbn. now rewrite Ec.
  Qed.
  Lemma nuclide_made_name i k nu : nuclide_made i k nu -> nu_name nu = k.
  Proof. apply nuclide_made_is. Qed.
  Lemma material_made_name nus i k m : material_made nus i k m -> m_name m = k.
  Proof. intros (c & l & _ & _ & ->). reflexivity. Qed.

  Lemma existsb_name {V} (name : V -> string) k l :
    existsb (fun s => String.eqb (name s) k) l = true <-> In k (map name l).
  Proof.
    rewrite existsb_exists, in_map_iff. split; intros (x & H1 & H2); exists x.
    - split; auto. now apply String.eqb_eq.
    - split; auto. now apply String.eqb_eq.
  Qed.

  (** *** Surfaces *)
  Definition surface_nodes : list node := flat_map n_children (cell_nodes root).
  Lemma surface_create_ok k s :
    surface_create X root k = Ok s ->
    exists c, first_named (surface_group root) k c /\ s = mkSurface k (shape_of_node X c).
  Proof.
    unfold surface_create. fold (surface_group root).
    pose proof (lookup (surface_group root) k) as L.
    destruct (n_find_by_attr (surface_group root) "name" k) as [h|]; cbn; [|discriminate].
    intros [= <-]. exists (Some h). split; auto. destruct L as (b & a & _ & Ec & _).
    cbn in Ec. rewrite Ec. reflexivity.
  Qed.
  Lemma surfaces_grow r : create_surfaces X root = Ok r ->
    grows su_name surface_made [] (map name_of surface_nodes) r.
  Proof.
    intros E. rewrite <- (flat_single name_of).
    revert E. apply foldM_grows. intros acc n r' _ E. cbv beta zeta in E. fold (name_of n) in E.
    destruct (existsb (fun s => String.eqb (su_name s) (name_of n)) acc) eqn:Ex.
    - injection E as <-. apply grows_old; [now apply existsb_name|constructor].
    - apply bind_ok in E as (s & Es & E). injection E as <-.
      eapply grows_new; [|apply surface_create_ok in Es as (c & Hc & ->); now exists c|constructor].
      rewrite <- (existsb_name su_name). congruence.
  Qed.

  (** *** Nuclides *)
  Definition material_keys (c : node) : list string :=
    map name_of (n_children (n_find_by_attr (material_group root) "name"
                               (as_string (n_attr c "material")))).
  Definition nonvoid : list node := material_cells root.
  Lemma nonvoid_in c : In c nonvoid <-> material_cell root c.
  Proof.
    unfold nonvoid, material_cells. rewrite filter_In. unfold material_cell, cell_nodes.
    destruct (String.eqb_spec (n_name c) "void"); cbn; intuition congruence.
  Qed.
  Lemma nuclide_step_ok acc n r : create_nuclide_step X root acc n = Ok r ->
    grows nu_name nuclide_made acc [name_of n] r.
  Proof.
    unfold create_nuclide_step. cbv zeta. fold (name_of n). fold (nuclide_group root). intros E.
    destruct (existsb (fun s => String.eqb (nu_name s) (name_of n)) acc) eqn:Ex.
    - injection E as <-. apply grows_old; [now apply existsb_name|constructor].
    - pose proof (lookup (nuclide_group root) (name_of n)) as L.
      destruct (n_find_by_attr (nuclide_group root) "name" (name_of n)) as [h|];
        cbn [is_null] in E; [|discriminate].
      apply bind_ok in E as (nu & En & E). injection E as <-.
      eapply grows_new; [|exists (Some h); split; [exact L|exact En]|constructor].
      rewrite <- (existsb_name nu_name). congruence.
  Qed.
  Lemma nuclides_grow r : create_nuclides X root = Ok r ->
    grows nu_name nuclide_made [] (flat_map material_keys nonvoid) r.
  Proof.
    apply foldM_grows. intros acc c r' _ E.
    apply bind_ok in E as (m & Em & E). unfold material_node in Em.
    fold (material_group root) in Em. unfold material_keys.
    destruct (n_find_by_attr (material_group root) "name" _) as [h|]; cbn [is_null] in Em;
      [|discriminate]. injection Em as <-.
    rewrite <- (flat_single name_of).
    revert E. apply foldM_grows. intros acc' n r'' _. apply nuclide_step_ok.
  Qed.

  (** *** Materials *)
  Lemma material_create_ok nus k m : material_create X root k nus = Ok m ->
    material_made nus 0 k m.
  Proof.
    unfold material_create. intros E. apply bind_ok in E as (c & Ec & E).
    apply bind_ok in E as (l & El & E). injection E as <-. unfold material_node in Ec.
    fold (material_group root) in Ec. pose proof (lookup (material_group root) k) as L.
    destruct (n_find_by_attr (material_group root) "name" k) as [h|]; cbn [is_null] in Ec;
      [|discriminate]. injection Ec as <-. now exists (Some h), l.
  Qed.
  Lemma materials_grow nus r : create_materials X root nus = Ok r ->
    grows m_name (material_made nus) [] (map (fun c => as_string (n_attr c "material")) nonvoid) r.
  Proof.
    rewrite <- (flat_single (fun c => as_string (n_attr c "material"))).
    apply foldM_grows. intros acc c r' _ E. cbv beta zeta in E.
    destruct (existsb (fun s => String.eqb (m_name s) (as_string (n_attr c "material"))) acc) eqn:Ex.
    - injection E as <-. apply grows_old; [now apply existsb_name|constructor].
    - apply bind_ok in E as (m & Em & E). injection E as <-.
      eapply grows_new; [|exact (material_create_ok nus _ m Em)|constructor].
      rewrite <- (existsb_name m_name). congruence.
  Qed.

  Lemma world_parts w : world_create X root = Ok w ->
    create_surfaces X root = Ok (w_surfaces w)
    /\ create_nuclides X root = Ok (w_nuclides w)
    /\ create_materials X root (w_nuclides w) = Ok (w_materials w)
    /\ create_temperature X (n_child root "temperature") = Ok (w_temperature w)
    /\ create_cells X root (w_surfaces w) (w_materials w) (w_temperature w) = Ok (w_cells w).
  Proof.
    unfold world_create. intros E.
    apply bind_ok in E as (a & Ea & E). apply bind_ok in E as (b & Eb & E).
    apply bind_ok in E as (c & Ec & E). apply bind_ok in E as (d & Ed & E).
    apply bind_ok in E as (e & Ee & E). injection E as <-. cbn. auto.
  Qed.

  Lemma empty_sound {V} name made : sound (V := V) name made [].
  Proof. split; [constructor|]. intros [|i] x H; discriminate. Qed.

  Lemma surfaces_sound r : create_surfaces X root = Ok r ->
    sound su_name surface_made r /\ forall k, In k (map su_name r) <-> uses_surface root k.
  Proof.
    intros E. apply surfaces_grow in E.
    apply (grows_sound _ _ surface_made_name) in E as (S0 & K & _); [|apply empty_sound].
    split; auto. intros k. rewrite K. cbn. unfold uses_surface, surface_nodes.
    rewrite in_map_iff. split.
    - intros [[]|(n & <- & H)]. apply in_flat_map in H as (c & Hc & Hn). eauto.
    - intros (c & n & Hc & Hn & <-). right. exists n. split; auto. apply in_flat_map. eauto.
  Qed.
  Lemma material_keys_in k :
    In k (flat_map material_keys nonvoid) <-> uses_nuclide root k.
  Proof.
    rewrite in_flat_map. unfold uses_nuclide, material_keys. split.
    - intros (c & Hc & Hk). apply nonvoid_in in Hc.
      pose proof (lookup (material_group root) (as_string (n_attr c "material"))) as L.
      destruct (n_find_by_attr (material_group root) "name" _) as [h|]; [|destruct Hk].
      apply in_map_iff in Hk as (n & Ek & Hn).
      exists (as_string (n_attr c "material")), (Some h), n. split; [now exists c|auto].
    - intros (mat & m & n & (c & Hc & <-) & Hm & Hn & <-). exists c. split; [now apply nonvoid_in|].
      apply lookup_is in Hm as [-> _]. now apply in_map.
  Qed.
  Lemma nuclides_sound r : create_nuclides X root = Ok r ->
    sound nu_name nuclide_made r /\ forall k, In k (map nu_name r) <-> uses_nuclide root k.
  Proof.
    intros E. apply nuclides_grow in E.
    apply (grows_sound _ _ nuclide_made_name) in E as (S0 & K & _); [|apply empty_sound].
    split; auto. intros k. rewrite K, material_keys_in. cbn. tauto.
  Qed.
  Lemma materials_sound nus r : create_materials X root nus = Ok r ->
    sound m_name (material_made nus) r /\ forall k, In k (map m_name r) <-> uses_material root k.
  Proof.
    intros E. apply materials_grow in E.
    apply (grows_sound _ _ (material_made_name nus)) in E as (S0 & K & _); [|apply empty_sound].
    split; auto. intros k. rewrite K. cbn [map In]. rewrite in_map_iff. unfold uses_material. split.
    - intros [[]|(c & <- & Hc)]. apply nonvoid_in in Hc. eauto.
    - intros (c & Hc & <-). right. exists c. split; auto. now apply nonvoid_in.
  Qed.

  Lemma same_index {V} name made (l : list V) (id : V -> nat) :
    sound name made l -> (forall i k x, made i k x -> id x = i) ->
    forall x y, In x l -> In y l -> id x = id y <-> name x = name y.
  Proof.
    intros [N M] Hid x y Hx Hy. apply In_nth_error in Hx as (i & Ei), Hy as (j & Ej).
    pose proof (Hid _ _ _ (M i x Ei)) as Ii. pose proof (Hid _ _ _ (M j y Ej)) as Ij.
    split; intros E.
    - assert (i = j) by congruence. subst j. congruence.
    - assert (i = j); [|congruence].
      apply (proj1 (NoDup_nth_error (map name l)) N).
      + rewrite map_length. apply nth_error_Some. congruence.
      + rewrite !nth_error_map, Ei, Ej. cbn. now rewrite E.
  Qed.
  Lemma surface_identity r : create_surfaces X root = Ok r ->
    forall x y, In x r -> In y r -> su_id x = su_id y <-> su_name x = su_name y.
  Proof.
    intros E. apply surfaces_sound in E as [S0 _]. apply (same_index _ surface_made); auto.
    intros i k x (c & _ & ->). reflexivity.
  Qed.
  Lemma nuclide_identity r : create_nuclides X root = Ok r ->
    forall x y, In x r -> In y r -> nu_id x = nu_id y <-> nu_name x = nu_name y.
  Proof.
    intros E. apply nuclides_sound in E as [S0 _]. apply (same_index _ nuclide_made); auto.
    intros i k x H. now apply nuclide_made_is in H.
  Qed.

  (** *** Cells *)
  Definition sense_of (n : node) : outcome bool :=
    let sense := as_string (n_attr n "sense") in
    if String.eqb sense "-1" then Ok true
    else if String.eqb sense "+1" then Ok false else UB.
  Lemma assign_is (surfaces : list (surf A)) ns :
    assign_senses X surfaces ns
    = collect su_name su_id name_of sense_of (fun x => surface_address X (su_id (fst x))) surfaces ns.
  Proof. reflexivity. Qed.
  Lemma collect_is nus ns :
    collect_nuclides X nus ns
    = collect nu_name nu_id name_of (fun n => Ok (as_double X (n_attr n "afrac")))
        (fun x => nuclide_address X (nu_id (fst x))) nus ns.
  Proof. reflexivity. Qed.
  Lemma sense_written n b : sense_of n = Ok b ->
    n_attr n "sense" = Some (if b then "-1" else "+1").
  Proof.
    unfold sense_of. destruct (n_attr n "sense") as [s|]; cbn [as_string].
    - destruct (String.eqb_spec s "-1") as [->|_]; [now intros [= <-]|].
      destruct (String.eqb_spec s "+1") as [->|_]; [now intros [= <-]|discriminate].
    - discriminate.
  Qed.

  Lemma cell_created (surfaces : list (surf A)) materials temperature id n c :
    (forall x y, In x surfaces -> In y surfaces -> su_id x = su_id y <-> su_name x = su_name y) ->
    cell_create X id n surfaces materials temperature = Ok c ->
    cell_of X surfaces materials temperature n c /\ c_id c = id.
  Proof.
    intros Id E. unfold cell_create in E. apply -> @noexcept_ok in E.
    apply bind_ok in E as (senses & Es & E). apply bind_ok in E as (m & Em & E).
    injection E as <-. split; [|reflexivity]. rewrite assign_is in Es.
    apply (collect_ok _ _ _ _ _ _ Id) in Es as (K1 & K2 & K3).
    constructor; cbn.
    - reflexivity.
    - intros before s after El Hb. destruct (K2 before s after El Hb) as (sf & b & H1 & H2 & H3 & H4).
      exists sf, b. apply sense_written in H4. auto.
    - exact K1.
    - exact K3.
    - unfold assign_material in Em. destruct (n_attr n "name").
      + destruct (find _ materials) as [m'|] eqn:F; [|discriminate]. injection Em as <-.
        apply find_some in F as [H1 H2]. apply String.eqb_eq in H2. split; [discriminate|auto].
      + now injection Em as <-.
    - unfold assign_temperature. now destruct (n_attr n "temperature").
  Qed.
  Lemma cells_created (surfaces : list (surf A)) materials temperature r :
    (forall x y, In x surfaces -> In y surfaces -> su_id x = su_id y <-> su_name x = su_name y) ->
    create_cells X root surfaces materials temperature = Ok r ->
    Forall2 (cell_of X surfaces materials temperature) (cell_nodes root) r
    /\ map c_id r = seq 0 (length r).
  Proof.
    intros Id. unfold create_cells. fold (cell_nodes root).
    enough (G : forall done acc l, Forall2 (cell_of X surfaces materials temperature) done acc ->
      map c_id acc = seq 0 (length acc) ->
      foldM (fun acc n => bind (cell_create X (length acc) n surfaces materials temperature)
              (fun c => Ok (acc ++ [c])%list)) l acc = Ok r ->
      Forall2 (cell_of X surfaces materials temperature) (done ++ l) r
      /\ map c_id r = seq 0 (length r)).
    { intros E. apply (G [] [] (cell_nodes root)); auto. }
    intros done acc l. revert done acc. induction l as [|n l IH]; intros done acc F I E; cbn in E.
    - injection E as <-. now rewrite app_nil_r.
    - apply bind_ok in E as (acc' & E1 & E). apply bind_ok in E1 as (c & Ec & E1).
      injection E1 as <-. apply (cell_created _ _ _ _ _ _ Id) in Ec as [Hc Ic].
      replace (done ++ n :: l)%list with ((done ++ [n]) ++ l)%list by now rewrite <- app_assoc.
      apply (IH (done ++ [n])%list (acc ++ [c])%list); auto.
      + apply Forall2_app; auto.
      + rewrite map_app, I, app_length. cbn. rewrite Ic, Nat.add_1_r, seq_S. reflexivity.
  Qed.
End World.

Lemma C66_shared_proof :
  forall (A : Arith) (X : Ext A) (root : node) (w : world A),
  world_create X root = Ok w ->
  let names := map (fun s => s_name (su_surface s)) (w_surfaces w) in
  NoDup names /\ NoDup (map nu_name (w_nuclides w)) /\ NoDup (map m_name (w_materials w))
  /\ (forall name, In name names <-> uses_surface root name)
  /\ (forall name, In name (map nu_name (w_nuclides w)) <-> uses_nuclide root name)
  /\ (forall name, In name (map m_name (w_materials w)) <-> uses_material root name).
Proof.
  intros A X root w E names. apply world_parts in E as (E1 & E2 & E3 & _ & _).
  apply surfaces_sound in E1 as [[N1 _] K1]. apply nuclides_sound in E2 as [[N2 _] K2].
  apply materials_sound in E3 as [[N3 _] K3]. auto 10.
Qed.

Lemma C66_described_proof :
  forall (A : Arith) (X : Ext A) (root : node) (w : world A),
  world_create X root = Ok w ->
  (forall s, In s (w_surfaces w) -> exists n,
     first_named (surface_group root) (s_name (su_surface s)) n
     /\ s_shape (su_surface s)
        = (if String.eqb (n_name n) "planex" then PlaneX (as_double X (n_attr n "x"))
           else if String.eqb (n_name n) "cylinderx" then CylinderX (as_double X (n_attr n "r"))
           else let c := n_child n "center" in
                Sphere (mkPoint (as_double X (n_attr c "x")) (as_double X (n_attr c "y"))
                                (as_double X (n_attr c "z")))
                       (as_double X (n_attr (n_child n "radius") "r"))))
  /\ (forall i nu, nth_error (w_nuclides w) i = Some nu -> exists n,
        first_named (nuclide_group root) (nu_name nu) n /\ nuclide_create X i n = Ok nu)
  /\ (forall m, In m (w_materials w) -> exists n,
        first_named (material_group root) (m_name m) n
        /\ m_density m = as_double X (n_attr n "aden")
        /\ NoDup (map (fun x => nu_name (fst x)) (m_afracs m))
        /\ (forall x, In x (m_afracs m) -> In (fst x) (w_nuclides w))
        /\ (forall name, In name (map (fun x => nu_name (fst x)) (m_afracs m))
             <-> exists c, In c (n_children n) /\ name_of c = name)).
Proof.
  intros A X root w E. apply world_parts in E as (E1 & E2 & E3 & _ & _).
  pose proof (nuclide_identity X root _ E2) as Id.
  apply surfaces_sound in E1 as [[_ K1] _]. apply nuclides_sound in E2 as [[_ K2] _].
  apply materials_sound in E3 as [[_ K3] _]. split; [|split].
  - intros s Hs. apply In_nth_error in Hs as (i & Ei). destruct (K1 i s Ei) as (n & Hn & Es).
    exists n. split; auto. rewrite Es. reflexivity.
  - intros i nu Ei. destruct (K2 i nu Ei) as (n & Hn & En). eauto.
  - intros m Hm. apply In_nth_error in Hm as (i & Ei).
    destruct (K3 i m Ei) as (n & l & Hn & El & Em). exists n. split; auto.
    rewrite Em. cbn [m_density m_afracs]. split; auto.
    rewrite collect_is in El. apply (collect_ok _ _ _ _ _ _ Id) in El as (C1 & C2 & C3).
    unfold normalize_afracs. rewrite map_map. cbn [fst]. split; auto. split.
    + intros x Hx. apply in_map_iff in Hx as ([nu f] & <- & Hx). cbn. now apply (C1 nu f).
    + intros name. rewrite in_map_iff. split.
      * intros ([nu f] & <- & Hx). destruct (C1 nu f Hx) as (_ & c & Hc & Ec). eauto.
      * intros (c & Hc & Ec).
        assert (F : exists before c' after, n_children n = (before ++ c' :: after)%list
          /\ name_of c' = name /\ forall b, In b before -> name_of b <> name).
        { clear -Hc Ec. induction (n_children n) as [|a l IH]; [destruct Hc|].
          destruct (String.string_dec (name_of a) name) as [Ea|Na].
          - exists [], a, l. split; [reflexivity|]. split; [exact Ea|]. intros ? [].
          - destruct Hc as [->|Hc]; [contradiction|]. destruct (IH Hc) as (b & c' & d & -> & H1 & H2).
            exists (a :: b), c', d. split; [reflexivity|]. split; [exact H1|].
            intros x [<-|Hx]; auto. }
        destruct F as (before & c' & after & El & Ec' & Hb).
        destruct (C2 before c' after El) as (nu & f & H1 & _ & H2 & _).
        { intros b Hb'. rewrite Ec'. now apply Hb. }
        exists (nu, f). split; auto. cbn. congruence.
Qed.

Lemma C66_cells_proof :
  forall (A : Arith) (X : Ext A) (root : node) (w : world A),
  world_create X root = Ok w ->
  Forall2 (cell_of X (w_surfaces w) (w_materials w) (w_temperature w))
    (cell_nodes root) (w_cells w).
Proof.
  intros A X root w E. apply world_parts in E as (E1 & _ & _ & _ & E5).
  apply (cells_created X root _ _ _ _ (surface_identity X root _ E1)) in E5. apply E5.
Qed.

(** ** Missing names *)
Lemma all_or_some {V} (good : V -> Prop) l : (forall x, In x l -> good x \/ ~ good x) ->
  (forall x, In x l -> good x) \/ (exists x, In x l /\ ~ good x).
Proof.
  induction l as [|a l IH]; intros H.
  - left. intros ? [].
  - destruct (H a (or_introl eq_refl)) as [Ga|Ba]; [|right; exists a; split; [now left|auto]].
    destruct IH as [IH|(x & Hx & Bx)]; [intros; apply H; now right| |].
    + left. intros x [<-|Hx]; auto.
    + right. exists x. split; [now right|auto].
Qed.
Lemma declares_dec group name : declares group name \/ ~ declares group name.
Proof.
  pose proof (lookup group name) as L. destruct (n_find_by_attr group "name" name) as [h|].
  - left. now apply first_declared in L.
  - now right.
Qed.
Lemma foldM_total {X S} (f : S -> X -> outcome S) l :
  (forall s x, In x l -> exists s', f s x = Ok s') -> forall s, exists r, foldM f l s = Ok r.
Proof.
  induction l as [|a l IH]; intros H s; cbn; [eauto|].
  destruct (H s a (or_introl eq_refl)) as (s' & ->). cbn. apply IH. intros; apply H; now right.
Qed.

Section Missing.
  Context {A : Arith} (X : Ext A) (root : node).
  Hypothesis WF : well_formed root X.

  Lemma surfaces_checked :
    ((forall n, In n (surface_nodes root) -> declares (surface_group root) (name_of n)) ->
     exists r, create_surfaces X root = Ok r)
    /\ ((exists n, In n (surface_nodes root) /\ ~ declares (surface_group root) (name_of n)) ->
        exists m, create_surfaces X root = Throw m).
  Proof.
    unfold create_surfaces. fold (cell_nodes root). fold (surface_nodes root).
    match goal with |- context [foldM ?f _ _] => set (step := f) end.
    destruct (foldM_checked step
      (fun acc => forall k, In k (map su_name acc) -> declares (surface_group root) k)
      (fun n => declares (surface_group root) (name_of n)) (surface_nodes root)) with (s := @nil (surf A))
      as [K1 K2].
    - intros acc n _ I D. unfold step. cbv zeta. fold (name_of n).
      destruct (existsb _ acc); [eauto|].
      unfold surface_create. fold (surface_group root).
      pose proof (lookup (surface_group root) (name_of n)) as L.
      destruct (n_find_by_attr (surface_group root) "name" (name_of n)) as [h|]; [|contradiction].
      cbn [is_null bind]. eexists. split; [reflexivity|]. intros k. rewrite map_app, in_app_iff.
      intros [Hk|[<-|[]]]; auto. unfold su_name. cbn. destruct L as (b & a & _ & Ec & _).
      cbn in Ec. rewrite Ec. exact D.
    - intros acc n _ I D. unfold step. cbv zeta. fold (name_of n).
      destruct (existsb (fun s => String.eqb (su_name s) (name_of n)) acc) eqn:Ex.
      { exfalso. apply D, I. now apply existsb_name. }
      unfold surface_create. fold (surface_group root).
      pose proof (lookup (surface_group root) (name_of n)) as L.
      destruct (n_find_by_attr (surface_group root) "name" (name_of n)) as [h|].
      { exfalso. now apply first_declared in L. }
      cbn [is_null bind]. eauto.
    - intros n _. apply declares_dec.
    - intros k [].
    - split; [|exact K2]. intros H. destruct (K1 H) as (r & E & _). eauto.
  Qed.

  (** The nuclides of a list of nodes of a material in use. *)
  Definition declared_nuclides (acc : list (nuclide A)) : Prop :=
    forall k, In k (map nu_name acc) -> declares (nuclide_group root) k.
  Lemma nuclides_checked ns : (forall n, In n ns -> uses_nuclide root (name_of n)) ->
    forall acc, declared_nuclides acc ->
    ((forall n, In n ns -> declares (nuclide_group root) (name_of n)) ->
     exists r, foldM (create_nuclide_step X root) ns acc = Ok r /\ declared_nuclides r)
    /\ ((exists n, In n ns /\ ~ declares (nuclide_group root) (name_of n)) ->
        exists m, foldM (create_nuclide_step X root) ns acc = Throw m).
  Proof.
    intros U. apply foldM_checked.
    - intros acc n Hn I D. unfold create_nuclide_step. cbv zeta. fold (name_of n).
      fold (nuclide_group root). destruct (existsb _ acc); [eauto|].
      pose proof (lookup (nuclide_group root) (name_of n)) as L.
      destruct (n_find_by_attr (nuclide_group root) "name" (name_of n)) as [h|]; [|contradiction].
      cbn [is_null].
      destruct (wf_nuclide _ _ WF (name_of n) (Some h) (length acc) (U n Hn) L) as (nu & En).
      rewrite En. cbn [bind]. eexists. split; [reflexivity|]. intros k. rewrite map_app, in_app_iff.
      intros [Hk|[<-|[]]]; auto.
      destruct (nuclide_made_is X root (length acc) (name_of n) nu) as [_ ->]; auto. now exists (Some h).
    - intros acc n Hn I D. unfold create_nuclide_step. cbv zeta. fold (name_of n).
      fold (nuclide_group root).
      destruct (existsb (fun s => String.eqb (nu_name s) (name_of n)) acc) eqn:Ex.
      { exfalso. apply D, I. now apply existsb_name. }
      pose proof (lookup (nuclide_group root) (name_of n)) as L.
      destruct (n_find_by_attr (nuclide_group root) "name" (name_of n)) as [h|].
      { exfalso. now apply first_declared in L. }
      cbn [is_null]. eauto.
    - intros n _. apply declares_dec.
  Qed.
  Definition good_cell (c : node) : Prop :=
    declares (material_group root) (as_string (n_attr c "material"))
    /\ forall k, In k (material_keys root c) -> declares (nuclide_group root) k.
  Lemma good_cell_dec c : good_cell c \/ ~ good_cell c.
  Proof.
    destruct (declares_dec (material_group root) (as_string (n_attr c "material"))) as [D|D];
      [|right; intros [D' _]; contradiction].
    destruct (all_or_some (declares (nuclide_group root)) (material_keys root c)
      (fun k _ => declares_dec _ k)) as [H|(k & Hk & Bk)].
    - left. now split.
    - right. intros [_ H]. auto.
  Qed.
  Lemma all_nuclides_checked :
    ((forall c, In c (nonvoid root) -> good_cell c) -> exists r, create_nuclides X root = Ok r)
    /\ ((exists c, In c (nonvoid root) /\ ~ good_cell c) ->
        exists m, create_nuclides X root = Throw m).
  Proof.
    unfold create_nuclides. fold (nonvoid root).
    match goal with |- context [foldM ?f _ _] => set (step := f) end.
    destruct (foldM_checked step declared_nuclides good_cell (nonvoid root))
      with (s := @nil (nuclide A)) as [K1 K2].
    - intros acc c Hc I [D1 D2]. unfold step, material_node. fold (material_group root).
      unfold material_keys in D2.
      pose proof (lookup (material_group root) (as_string (n_attr c "material"))) as L.
      destruct (n_find_by_attr (material_group root) "name" _) as [h|] eqn:Eh; [|contradiction].
      cbn [is_null bind]. apply nuclides_checked; auto.
      + intros n Hn. exists (as_string (n_attr c "material")), (Some h), n. split; auto.
        exists c. split; auto. now apply nonvoid_in.
      + intros n Hn. apply D2. now apply in_map.
    - intros acc c Hc I D. unfold step, material_node. fold (material_group root).
      unfold good_cell, material_keys in D.
      pose proof (lookup (material_group root) (as_string (n_attr c "material"))) as L.
      destruct (n_find_by_attr (material_group root) "name" _) as [h|] eqn:Eh; cbn [is_null bind];
        [|eauto].
      destruct (nuclides_checked (n_children (Some h))) with (acc := acc) as [_ K2]; auto.
      + intros n Hn. exists (as_string (n_attr c "material")), (Some h), n. split; auto.
        exists c. split; auto. now apply nonvoid_in.
      + apply K2.
        destruct (all_or_some (fun n => declares (nuclide_group root) (name_of n))
          (n_children (Some h)) (fun n _ => declares_dec _ _)) as [H|H]; auto.
        exfalso. apply D. split; [now apply first_declared in L|].
        intros k Hk. apply in_map_iff in Hk as (n & <- & Hn). auto.
    - intros c _. apply good_cell_dec.
    - intros k [].
    - split; [|exact K2]. intros H. destruct (K1 H) as (r & E & _). eauto.
  Qed.

  Lemma rest_total surfaces nuclides :
    create_surfaces X root = Ok surfaces -> create_nuclides X root = Ok nuclides ->
    (forall c, In c (nonvoid root) -> good_cell c) ->
    exists materials temperature cells,
      create_materials X root nuclides = Ok materials
      /\ create_temperature X (n_child root "temperature") = Ok temperature
      /\ create_cells X root surfaces materials temperature = Ok cells.
  Proof.
    intros Es En Good.
    destruct (surfaces_sound X root _ Es) as [_ Us]. destruct (nuclides_sound X root _ En) as [_ Un].
    assert (Em : exists materials, create_materials X root nuclides = Ok materials).
    { unfold create_materials. fold (nonvoid root). apply foldM_total. intros acc c Hc. cbv zeta.
      destruct (existsb _ acc); [eauto|].
      unfold material_create, material_node. fold (material_group root).
      destruct (Good c Hc) as [D1 D2]. unfold material_keys in D2.
      pose proof (lookup (material_group root) (as_string (n_attr c "material"))) as L.
      destruct (n_find_by_attr (material_group root) "name" _) as [h|] eqn:Eh; [|contradiction].
      cbn [is_null bind]. rewrite collect_is.
      destruct (collect_total nu_name nu_id name_of (fun n => Ok (as_double X (n_attr n "afrac")))
        (fun x => nuclide_address X (nu_id (fst x)))
        nuclides (n_children (Some h))) as (l & ->); [| |cbn [bind]; eauto].
      - intros n Hn. apply Un. exists (as_string (n_attr c "material")), (Some h), n. split; auto.
        exists c. split; auto. now apply nonvoid_in.
      - eauto. }
    destruct Em as (materials & Em). exists materials.
    assert (Et : exists temperature, create_temperature X (n_child root "temperature") = Ok temperature).
    { unfold create_temperature. destruct (wf_temperature _ _ WF) as [E|[E|E]].
      - rewrite E. cbn. eauto.
      - destruct (is_null (n_child root "temperature")); [eauto|]. unfold field_create.
        rewrite E. cbn. eauto.
      - destruct (is_null (n_child root "temperature")); [eauto|]. unfold field_create.
        rewrite E. cbn. eauto. }
    destruct Et as (temperature & Et). exists temperature.
    assert (Ec : exists cells, create_cells X root surfaces materials temperature = Ok cells).
    { unfold create_cells. fold (cell_nodes root). apply foldM_total. intros acc c Hc.
      unfold cell_create. rewrite assign_is.
      destruct (collect_total su_name su_id name_of sense_of (fun x => surface_address X (su_id (fst x))) surfaces (n_children c)) as (l & ->).
      - intros n Hn. apply Us. now exists c, n.
      - intros n Hn. unfold sense_of. destruct (wf_sense _ _ WF c n Hc Hn) as [-> | ->]; cbn; eauto.
      - cbn [bind]. unfold assign_material. destruct (n_attr c "name") as [nm|] eqn:Ea.
        + destruct (find _ materials) as [m|] eqn:F.
          * cbn. eauto.
          * exfalso. destruct (materials_sound X root nuclides _ Em) as [_ Um].
            assert (U : uses_material root (as_string (n_attr c "material"))).
            { exists c. split; auto. split; auto. intros V.
              apply (wf_name _ _ WF c Hc) in V. congruence. }
            apply Um, in_map_iff in U as (m & E1 & Hm).
            apply (find_none _ _ F) in Hm. rewrite E1, String.eqb_refl in Hm. discriminate.
        + cbn. eauto. }
    destruct Ec as (cells & Ec). eauto 10.
  Qed.

  Lemma world_or_error :
    (complete root /\ exists w, world_create X root = Ok w)
    \/ (~ complete root /\ exists m, world_create X root = Throw m).
  Proof.
    unfold world_create.
    destruct (all_or_some (fun n => declares (surface_group root) (name_of n)) (surface_nodes root)
      (fun n _ => declares_dec _ _)) as [Hs|Hs].
    2: { right. destruct (proj2 surfaces_checked Hs) as (m & ->). cbn. split; [|eauto].
         intros (C & _). destruct Hs as (n & Hn & B). apply B, C.
         apply in_flat_map in Hn as (c & Hc & Hn). now exists c, n. }
    destruct (proj1 surfaces_checked Hs) as (surfaces & Es). rewrite Es. cbn [bind].
    destruct (all_or_some good_cell (nonvoid root) (fun c _ => good_cell_dec c)) as [Hc|Hc].
    2: { right. destruct (proj2 all_nuclides_checked Hc) as (m & ->). cbn. split; [|eauto].
         intros (_ & C2 & C3). destruct Hc as (c & Hc & B). apply B. split.
         - apply C2. exists c. split; auto. now apply nonvoid_in.
         - intros k Hk. apply C3, material_keys_in, in_flat_map. eauto. }
    destruct (proj1 all_nuclides_checked Hc) as (nuclides & En). rewrite En. cbn [bind].
    left. destruct (rest_total surfaces nuclides Es En Hc) as (ms & t & cs & -> & E2 & E3).
    cbn [bind]. rewrite E2. cbn [bind]. rewrite E3. cbn [bind]. split; [|eauto].
    split; [|split].
    - intros name (c & n & H1 & H2 & <-). apply Hs, in_flat_map. eauto.
    - intros name (c & H1 & <-). apply Hc. now apply nonvoid_in.
    - intros name U. apply material_keys_in, in_flat_map in U as (c & H1 & H2).
      now apply (Hc c H1).
  Qed.
End Missing.

Lemma C66_missing_proof :
  forall (A : Arith) (X : Ext A) (root : node),
  well_formed root X ->
  ((exists w, world_create X root = Ok w) <-> complete root)
  /\ ((exists message, world_create X root = Throw message) <-> ~ complete root).
Proof.
  intros A X root WF. destruct (world_or_error X root WF) as [(C & w & E)|(C & m & E)].
  - rewrite E. split; split; auto; try (intros; eauto; fail).
    + intros (m & H). discriminate.
    + intros H. contradiction.
  - rewrite E. split; split; auto; try (intros; eauto; fail).
    + intros (w & H). discriminate.
    + intros H. contradiction.
Qed.
