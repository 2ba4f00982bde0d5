(** A two-group nuclide in binary64, and collisions with it. *)
From Coq Require Import Bool String List ZArith NArith Reals Lra Lia SpecFloat.
From Flocq Require Import Core.
From Verif Require Import Model.Num Model.Outcome Model.Rng Model.Xml Model.Std Model.Point
  Model.Surface Model.Types Model.Particle Model.Multigroup Spec.TextExt Spec.SumSpec Spec.DoubleSpec
  Spec.MultigroupSpec Spec.DoubleGroupSpec Proofs.OutcomeLib Proofs.FloatLib Proofs.FloatReal
  Proofs.DoubleRandom Proofs.SampleDouble.
Import ListNotations.
Local Open Scope string_scope.
Local Open Scope R_scope.

Definition fuel_neutron : xml :=
  Elem "neutron" [] [text_node "capture" "1.1 2.7"; text_node "scatter" "3.3 0.0 0.1 0.9";
    Elem "fission" [] [text_node "xs" "1.6 0.2"; text_node "nubar" "2.43 2.4";
                       text_node "chi" "1.7 1.0 0.1 0.0"] ""] "".
Definition fuel_node : node :=
  n_child (n_child (n_child (n_child
    (document [Elem "nuclides" [] [Elem "multigroup" [("groups", "2")]
      [Elem "nuclide" [("name", "fuel")] [fuel_neutron] ""] ""] ""])
    "nuclides") "multigroup") "nuclide") "neutron".
Definition fuel_ext : Ext D64 := text_ext D64 [].

(** Non-negative doubles up to a bound. *)
Definition in_range (e : Z) (x : spec_float) : bool :=
  (valid_binary prec64 emax64 x && SFleb (f64_ofZ 0) x && SFleb x (f64_ofZ (2 ^ e)))%bool.
Lemma in_range_spec e x : (0 <= e <= 53)%Z -> in_range e x = true ->
  is_double x /\ finite x /\ 0 <= value x <= powerRZ 2 e.
Proof.
  intros He H. unfold in_range in H. apply andb_prop in H as [H H3]. apply andb_prop in H as [H1 H2].
  assert (P : (0 < 2 ^ e <= 2 ^ 53)%Z) by (split; [apply Z.pow_pos_nonneg; lia|apply Z.pow_le_mono_r; lia]).
  assert (F : finite x).
  { pose proof (is64_int (2 ^ e) ltac:(lia)) as I.
    destruct x as [b|b| |b m k]; cbn; auto.
    - destruct b; [discriminate H2|]. destruct (is64_double _ _ I) as [_ Fi].
      destruct (f64_ofZ (2 ^ e)); cbn in Fi; try contradiction; discriminate H3.
    }
  pose proof (double_is64 x H1 F) as I.
  rewrite (is64_leb _ _ _ _ (is64_int 0 ltac:(lia)) I) in H2.
  rewrite (is64_leb _ _ _ _ I (is64_int (2 ^ e) ltac:(lia))) in H3.
  assert (K : forall a b, Rle_bool a b = true -> a <= b)
    by (intros a b; destruct (Rle_bool_spec a b); [auto|discriminate]).
  apply K in H2, H3. split; [exact H1|]. split; [exact F|]. split; [exact H2|].
  rewrite pow_bpow. rewrite <- IZR_Zpower by lia. exact H3.
Qed.

Definition fuel_check : bool :=
  (forallb (fun c => forallb (in_range 2) (numbers fuel_ext c))
     [n_child fuel_node "capture"; scatter_node fuel_node; n_child (fission_node fuel_node) "xs";
      chi_node fuel_node]
   && forallb (in_range 16) (numbers fuel_ext (nubar_node fuel_node)))%bool.

(** Each kind of collision, by the seed of the colliding neutron. *)
Definition struck (seed : Z) : particle D64 (Minstd D64) :=
  new_particle (G := Minstd D64) (mkPoint (A := D64) (f64_ofZ 0) (f64_ofZ 0) (f64_ofZ 0))
    (mkPoint (A := D64) (f64_ofZ 1) (f64_ofZ 0) (f64_ofZ 0)) (Group 1) neutron seed None.
Definition outcome_of (seed : Z) : option (event * nat) :=
  match multigroup_create fuel_ext fuel_node with
  | Ok m => match mg_interact m (struck seed) with
            | Ok q => Some (p_event q, length (p_secondaries q))
            | _ => None
            end
  | _ => None
  end.
Definition all_kinds : bool :=
  match outcome_of 1, outcome_of 3, outcome_of 100000000 with
  | Some (capture, O), Some (scatter, O), Some (fission, 3%nat) => true
  | _, _, _ => false
  end.

Ltac checked := match goal with |- _ = ?r => vm_cast_no_check (eq_refl r) end.
Lemma fuel_checked : fuel_check = true.
Proof. checked. Qed.
Lemma all_happen : all_kinds = true.
Proof. checked. Qed.

Lemma fuel_sensible : sensible_doubles fuel_ext fuel_node.
Proof.
  pose proof fuel_checked as K. unfold fuel_check in K. apply andb_prop in K as [K1 K2].
  constructor.
  - intros c Hc _. rewrite forallb_forall in K1. specialize (K1 c Hc). rewrite forallb_forall in K1.
    apply Forall_forall. intros x Hx. destruct (in_range_spec 2 x ltac:(lia) (K1 x Hx)) as (D & F & B).
    split; [exact D|]. split; [exact F|]. split; [lra|]. apply Rle_trans with (1 := proj2 B).
    rewrite !pow_bpow. apply bpow_le. lia.
  - intros _. split; discriminate.
  - intros _. rewrite forallb_forall in K2. apply Forall_forall. intros x Hx.
    exact (in_range_spec 16 x ltac:(lia) (K2 x Hx)).
  - change (2 <= 65536)%N. lia.
Qed.

Definition one_or_more (x : spec_float) : bool := (in_range 16 x && SFleb (f64_ofZ 1) x)%bool.
Lemma one_or_more_spec x : one_or_more x = true -> 1 <= value x.
Proof.
  intros H. apply andb_prop in H as [H1 H2]. destruct (in_range_spec 16 x ltac:(lia) H1) as (D & F & _).
  rewrite (is64_leb _ _ _ _ (is64_int 1 ltac:(lia)) (double_is64 x D F)) in H2.
  destruct (Rle_bool_spec 1 (value x)); [auto|discriminate].
Qed.
Lemma fuel_entries :
  (one_or_more (vector_entry fuel_ext (n_child fuel_node "capture") 1)
   && one_or_more (matrix_entry fuel_ext (chi_node fuel_node) 2 1 1))%bool = true.
Proof. checked. Qed.

Lemma fuel_groups : groups (written_groups fuel_ext fuel_node) = [1; 2]%N.
Proof. reflexivity. Qed.

Lemma fuel_heavy :
  powerRZ 2 (-900) <= sigma64 fuel_ext fuel_node Rcapture 1 + sigma64 fuel_ext fuel_node Rscatter 1
                      + sigma64 fuel_ext fuel_node Rfission 1
  /\ 0 < column_sum64 fuel_ext fuel_node (chi_node fuel_node) 1.
Proof.
  pose proof fuel_entries as K. apply andb_prop in K as [K1 K2]. apply one_or_more_spec in K1, K2.
  pose proof fuel_sensible as S.
  assert (P : powerRZ 2 (-900) <= 1).
  { rewrite pow_bpow. change 1 with (bpow radix2 0). apply bpow_le. lia. }
  assert (Nn : forall c i, In c [scatter_node fuel_node; n_child (fission_node fuel_node) "xs"; chi_node fuel_node] ->
    c <> None -> 0 <= value (nth i (numbers fuel_ext c) (nofZ D64 0))).
  { intros c i Hc Nc. pose proof (s64_data _ _ S c (or_intror Hc) Nc) as D. unfold doubles_up_to in D.
    rewrite Forall_forall in D. destruct (Nat.lt_ge_cases i (length (numbers fuel_ext c))) as [Hi|Hi].
    - apply (D _ (nth_In _ (nofZ D64 0) Hi)).
    - rewrite nth_overflow by exact Hi. change (nofZ D64 0) with (f64_ofZ 0). rewrite (is64_value _ 0); [lra|].
      apply is64_int. lia. }
  assert (W : forall c h, In c [scatter_node fuel_node; n_child (fission_node fuel_node) "xs"; chi_node fuel_node] ->
    c <> None -> 0 <= weight64 fuel_ext fuel_node c h 1).
  { intros c h Hc Nc. apply Nn; auto. }
  split.
  - unfold sigma64. cbn [is_null]. change (is_null (n_child fuel_node "capture")) with false.
    change (is_null (scatter_node fuel_node)) with false. change (is_null (fission_node fuel_node)) with false.
    cbv iota. unfold column_sum64. rewrite fuel_groups. cbn [map Rsum].
    pose proof (W (scatter_node fuel_node) 1%N ltac:(now left) ltac:(discriminate)).
    pose proof (W (scatter_node fuel_node) 2%N ltac:(now left) ltac:(discriminate)).
    pose proof (Nn (n_child (fission_node fuel_node) "xs") 0%nat ltac:(right; now left) ltac:(discriminate)) as F.
    change (nth 0 (numbers fuel_ext (n_child (fission_node fuel_node) "xs")) (nofZ D64 0))
      with (vector_entry fuel_ext (n_child (fission_node fuel_node) "xs") 1) in F. lra.
  - unfold column_sum64. rewrite fuel_groups. cbn [map Rsum].
    pose proof (W (chi_node fuel_node) 2%N ltac:(do 2 right; now left) ltac:(discriminate)).
    change (weight64 fuel_ext fuel_node (chi_node fuel_node) 1 1)
      with (value (matrix_entry fuel_ext (chi_node fuel_node) 2 1 1)). lra.
Qed.

Lemma fuel_collisions : exists m, multigroup_create fuel_ext fuel_node = Ok m
  /\ (exists p q : particle D64 (Minstd D64), p_energy p = Group 1 /\ mg_interact m p = Ok q /\ p_event q = capture)
  /\ (exists p q : particle D64 (Minstd D64), p_energy p = Group 1 /\ mg_interact m p = Ok q /\ p_event q = scatter)
  /\ (exists p q : particle D64 (Minstd D64), p_energy p = Group 1 /\ mg_interact m p = Ok q
        /\ p_event q = fission /\ p_secondaries p = [] /\ length (p_secondaries q) = 3%nat).
Proof.
  pose proof all_happen as K. unfold all_kinds, outcome_of in K.
  destruct (multigroup_create fuel_ext fuel_node) as [m| | | |]; try discriminate K.
  exists m. split; [reflexivity|].
  destruct (mg_interact m (struck 1)) as [q1| | | |] eqn:E1; try discriminate K.
  destruct (p_event q1) eqn:V1; try discriminate K. destruct (length (p_secondaries q1)); try discriminate K.
  destruct (mg_interact m (struck 3)) as [q2| | | |] eqn:E2; try discriminate K.
  destruct (p_event q2) eqn:V2; try discriminate K. destruct (length (p_secondaries q2)); try discriminate K.
  destruct (mg_interact m (struck 100000000)) as [q3| | | |] eqn:E3; try discriminate K.
  destruct (p_event q3) eqn:V3; try discriminate K.
  destruct (length (p_secondaries q3)) as [|[|[|[|k]]]] eqn:L3; try discriminate K.
  split; [exists (struck 1), q1; auto|]. split; [exists (struck 3), q2; auto|].
  exists (struck 100000000), q3. auto.
Qed.
