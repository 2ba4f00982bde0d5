(** Choices between nuclides and between continuous-energy reactions in binary64: C91. *)
From Coq Require Import Bool String List ZArith NArith Reals Lra Lia SpecFloat.
From Flocq Require Import Core BinarySingleNaN Relative.
From Verif Require Import Model.Num Model.Outcome Model.Rng Model.Xml Model.Std Model.Point
  Model.Surface Model.Types Model.Field Model.Particle Model.Multigroup Model.Continuous Model.Material
  Spec.SumSpec Spec.RngSpec Spec.MultigroupSpec
  Spec.DoubleSpec Spec.DoubleGroupSpec Spec.DoubleChoiceSpec Proofs.RealLib Proofs.OutcomeLib
  Proofs.FloatLib Proofs.FloatReal Proofs.DoubleBins Proofs.DoubleRandom Proofs.DoubleStats
  Proofs.MultigroupProofs Proofs.StepLib Proofs.CrossingProofs Proofs.ContinuousProofs Proofs.MultigroupReal Proofs.DoubleGroups.
Import ListNotations.
Local Open Scope R_scope.

Lemma up_to_is64 most x : double_up_to most x -> is64 x (value x) /\ 0 <= value x <= most.
Proof. intros (D & F & B). split; [now apply double_is64|exact B]. Qed.

(** Lists whose entries are the exact ones, rounded: relatively, or absolutely when tiny. *)
Definition rounded (r' r : R) : Prop :=
  (r = 0 -> r' = 0) /\ 0 <= r /\ 0 <= r' /\ Rabs (r' - r) <= u53 * r + tiny64.
Lemma rounded_sum rs' rs : Forall2 rounded rs' rs ->
  Rabs (Rsum rs' - Rsum rs) <= u53 * Rsum rs + INR (length rs) * tiny64.
Proof.
  induction 1 as [|r' r rs' rs (_ & _ & _ & H) Hl IH]; cbn [Rsum length].
  - cbn. rewrite Rabs_pos_eq; lra.
  - rewrite S_INR. replace (r' + Rsum rs' - (r + Rsum rs)) with ((r' - r) + (Rsum rs' - Rsum rs)) by ring.
    apply Rle_trans with (1 := Rabs_triang _ _). lra.
Qed.
Lemma rounded_nonneg rs' rs : Forall2 rounded rs' rs -> nonneg rs' /\ nonneg rs.
Proof. induction 1 as [|r' r rs' rs (_ & H1 & H2 & _) Hl [IH1 IH2]]; split; constructor; auto. Qed.

Lemma choose_threshold L xs rs' tau v thr :
  are64 xs rs' -> nonneg rs' -> Rsum rs' <= huge -> (Z.of_nat (length xs) <= 65536)%Z ->
  bpow radix2 (-901) <= tau -> bpow radix2 (-32) <= v ->
  is64 thr (rnd (v * tau)) ->
  match choose (A := F64 L) xs (nofZ (F64 L) 0) thr with
  | Some i => (i < length xs)%nat /\ 0 < nth i rs' 0
      /\ (1 - / 100000000000) * Rsum (firstn i rs') <= v * tau
         <= (1 + / 100000000000) * Rsum (firstn (S i) rs')
  | None => (1 - / 100000000000) * Rsum rs' <= v * tau
  end.
Proof.
  intros Hx Hn Hh Hl Ht Hv It.
  assert (R : bpow radix2 (-1022) <= v * tau).
  { apply Rle_trans with (bpow radix2 (-32) * bpow radix2 (-901)).
    - rewrite <- bpow_plus. apply bpow_le. lia.
    - apply Rmult_le_compat; auto; apply bpow_ge_0. }
  assert (P22 : 0 < bpow radix2 (-1022)) by apply bpow_gt_0.
  pose proof (rnd_rel (v * tau)) as Re. rewrite Rabs_pos_eq in Re by lra. specialize (Re R).
  apply Rabs_le_inv in Re. rewrite u53_val in Re. set (w := v * tau) in *. set (t := rnd w) in *.
  pose proof (choose_spec L _ _ It xs rs' Hx Hn 0 _ 0 0 zero64) as C.
  change (f64_ofZ 0) with (nofZ (F64 L) 0) in C.
  specialize (C ltac:(lra) ltac:(cbn; lra) ltac:(lra) ltac:(lia) ltac:(lra)).
  destruct (choose (A := F64 L) xs _ thr) as [i|].
  - destruct C as (C1 & C2 & C3). split; [exact C1|]. split; [exact C2|]. rewrite !Rplus_0_l in C3.
    pose proof (firstn_sum i rs' Hn) as F1. pose proof (firstn_sum (S i) rs' Hn) as F2.
    destruct (many (0 + i)) as [M1 M2]; [lia|]. destruct (many (0 + S i)) as [M3 M4]; [lia|].
    assert ((1 - / 120000000000) * Rsum (firstn i rs') <= t).
    { apply Rle_trans with (2 := proj1 C3). apply Rmult_le_compat_r; lra. }
    assert (t <= (1 + / 110000000000) * Rsum (firstn (S i) rs')).
    { apply Rle_trans with (1 := Rlt_le _ _ (proj2 C3)). apply Rmult_le_compat_r; lra. }
    split; lra.
  - rewrite Rplus_0_l in C. cbn [Nat.add] in C. destruct (many (length xs)) as [M1 _]; [lia|].
    pose proof (Rsum_nonneg _ Hn).
    assert ((1 - / 120000000000) * Rsum rs' <= t).
    { apply Rle_trans with (2 := C). apply Rmult_le_compat_r; lra. }
    lra.
Qed.

(** ** The nuclide *)
Section Nuclide.
  Context {L : Libm}.
  Notation A := (F64 L).
  Notation G64 := (Minstd (F64 L)).
  Notation entry := (nuclide A * num A)%type.

  Lemma pick_nuclide_choose (p : particle A G64) (thr : num A) : forall (l : list entry) vs acc,
    mapM (fun e => nu_total (fst e) p) l = Ok vs ->
    pick_nuclide l p acc thr =
    Ok (match choose (A := A) (map (fun ev => nmul A (snd (fst ev)) (snd ev)) (combine l vs)) acc thr with
        | Some i => nth_error (map fst l) i
        | None => None
        end).
  Proof.
    induction l as [|[nu a] l IH]; intros vs acc H; cbn [mapM] in H.
    - reflexivity.
    - apply bind_ok in H as (x & Ex & H). apply bind_ok in H as (vs' & Ev & H). injection H as <-.
      cbn [pick_nuclide fst] in *. rewrite Ex. cbn [bind combine map choose fst snd].
      destruct (nltb A thr _); [reflexivity|]. rewrite (IH _ _ Ev).
      destruct (choose _ _ _); reflexivity.
  Qed.
  Lemma sum_afracs_sum (p : particle A G64) : forall (l : list entry) vs acc,
    mapM (fun e => nu_total (fst e) p) l = Ok vs ->
    foldM (fun acc x => bind (nu_total (fst x) p) (fun v => Ok (nadd A acc (nmul A (snd x) v)))) l acc =
    Ok (fold_left (nadd A) (map (fun ev => nmul A (snd (fst ev)) (snd ev)) (combine l vs)) acc).
  Proof.
    induction l as [|[nu a] l IH]; intros vs acc H; cbn [mapM] in H.
    - reflexivity.
    - apply bind_ok in H as (x & Ex & H). apply bind_ok in H as (vs' & Ev & H). injection H as <-.
      cbn [foldM fst snd] in *. rewrite Ex. cbn [bind combine map fold_left fst snd]. exact (IH _ _ Ev).
  Qed.

  Lemma products (p : particle A G64) : forall l : list entry, List.Forall (usable_entry p) l ->
    exists vs rs', mapM (fun e => nu_total (fst e) p) l = Ok vs
      /\ are64 (map (fun ev => nmul A (snd (fst ev)) (snd ev)) (combine l vs)) rs'
      /\ Forall2 rounded rs' (map (exact_rate p) l)
      /\ length vs = length l
      /\ Rsum rs' <= INR (length l) * bpow radix2 801.
  Proof.
    induction 1 as [|[nu a] l [Ha (x & Ex & Hx)] _ (vs & rs' & IH1 & IH2 & IH3 & IH4 & IH5)].
    - exists [], []. split; [reflexivity|]. split; [constructor|]. split; [constructor|].
      split; [reflexivity|]. change (0 <= 0 * bpow radix2 801). lra.
    - cbn [fst snd] in *. apply up_to_is64 in Ha as [Ia Ba]. apply up_to_is64 in Hx as [Ix Bx].
      rewrite pow_bpow in *. set (w := value a * value x).
      assert (W : 0 <= w <= bpow radix2 800).
      { unfold w. split; [apply Rmult_le_pos; lra|]. change 800%Z with (400 + 400)%Z. rewrite bpow_plus.
        apply Rmult_le_compat; lra. }
      assert (R0 : 0 <= rnd w) by (apply rnd_nonneg; lra).
      assert (Rb : rnd w <= bpow radix2 801).
      { assert (E801 : bpow radix2 801 = 2 * bpow radix2 800).
        { change 801%Z with (1 + 800)%Z. rewrite bpow_plus. reflexivity. }
        pose proof (rnd_any w) as K. rewrite (Rabs_pos_eq w) in K by lra. apply Rabs_le_inv in K.
        rewrite u53_val in K. assert (tiny64 <= bpow radix2 790) by (apply bpow_le; lia).
        assert (bpow radix2 800 = 1024 * bpow radix2 790).
        { change 800%Z with (10 + 790)%Z. rewrite bpow_plus. reflexivity. }
        lra. }
      exists (x :: vs), (rnd w :: rs'). cbn [mapM fst]. rewrite Ex. cbn [bind]. rewrite IH1. cbn [bind].
      split; [reflexivity|]. cbn [combine map fst snd]. split; [|split; [|split]].
      + constructor; [|exact IH2]. change (nmul A a x) with (SFmul prec64 emax64 a x).
        apply is64_mul; auto. fold w. rewrite Rabs_pos_eq by exact R0.
        apply Rle_lt_trans with (1 := Rb). apply bpow_lt. lia.
      + constructor; [|exact IH3]. unfold exact_rate. cbn [fst snd]. rewrite Ex. cbn [returned]. fold w.
        split; [intros ->; apply rnd_0|]. split; [lra|]. split; [exact R0|].
        pose proof (rnd_any w) as K. rewrite (Rabs_pos_eq w) in K by lra. exact K.
      + cbn [length]. change (num A) with spec_float in *. now rewrite IH4.
      + cbn [Rsum length]. rewrite S_INR. lra.
  Qed.

  Lemma c91_nuclide (p : particle A G64) c m :
    p_cell p = Some c -> c_material c = Some m ->
    (N.of_nat (length (m_afracs m)) <= 65536)%N ->
    List.Forall (usable_entry p) (m_afracs m) ->
    let T := exact_rates p (m_afracs m) in
    let u := value (draw G64 0 (p_rng p)) in
    powerRZ 2 (-900) <= T ->
    exists before nu a after, m_afracs m = (before ++ (nu, a) :: after)%list
      /\ sample_nuclide p = Ok (nu, set_rng p (advance G64 1 (p_rng p)))
      /\ 0 < exact_rate p (nu, a)
      /\ exact_rates p before - slack * T <= u * T <= exact_rates p before + exact_rate p (nu, a) + slack * T.
  Proof.
    intros Ec Em Hl Hu T u HT.
    destruct (products p _ Hu) as (vs & rs' & Ev & Hx & Hr & Lv & Hb).
    set (l := m_afracs m) in *. set (xs := map (fun ev => nmul A (snd (fst ev)) (snd ev)) (combine l vs)) in *.
    destruct (rounded_nonneg _ _ Hr) as [Hn' Hn].
    pose proof (Forall2_len _ _ _ Hx) as L1. pose proof (Forall2_len _ _ _ Hr) as L2. rewrite map_length in L2.
    assert (Lx : length xs = length l).
    { unfold xs. rewrite map_length, combine_length. change (num A) with spec_float in *. lia. }
    assert (Lr : length rs' = length l) by exact L2.
    assert (Lz : @length spec_float xs = length l) by exact Lx.
    assert (Hi : 0 <= INR (length l) <= 65536).
    { split; [apply pos_INR|]. rewrite INR_IZR_INZ. apply IZR_le. lia. }
    assert (Hh : Rsum rs' <= huge).
    { apply Rle_trans with (1 := Hb). apply Rle_trans with (bpow radix2 16 * bpow radix2 801).
      - apply Rmult_le_compat_r; [apply bpow_ge_0|]. change (bpow radix2 16) with 65536. lra.
      - rewrite <- bpow_plus. apply bpow_le. lia. }
    destruct (sum_left64 L xs rs' Hx Hn' Hh) as (tau & It & Bt); [rewrite Lz; lia|].
    destruct (many (@length spec_float xs)) as [M1 M2]; [rewrite Lz; lia|].
    rewrite pow_bpow in HT. change (Rsum (map (exact_rate p) l)) with T in *.
    assert (Lp : 0 < bpow radix2 (-900)) by apply bpow_gt_0.
    assert (Tiny : 65536 * tiny64 <= bpow radix2 (-60) * bpow radix2 (-900)).
    { change 65536 with (bpow radix2 16). rewrite <- !bpow_plus. apply bpow_le. lia. }
    assert (V60 : bpow radix2 (-60) = / 1152921504606846976) by reflexivity. rewrite V60 in Tiny.
    assert (Tp : 0 < tiny64) by apply bpow_gt_0.
    assert (Cl : forall i, Rabs (Rsum (firstn i rs') - Rsum (firstn i (map (exact_rate p) l))) <= / 1000000000000000 * T).
    { intros i. pose proof (rounded_sum _ _ (Forall2_firstn _ i _ _ Hr)) as K.
      apply Rle_trans with (1 := K). pose proof (firstn_sum i _ Hn) as F. change (Rsum (map (exact_rate p) l)) with T in F.
      pose proof (firstn_length i (map (exact_rate p) l)) as Fl. rewrite map_length in Fl.
      assert (INR (length (firstn i (map (exact_rate p) l))) <= 65536).
      { rewrite INR_IZR_INZ. apply IZR_le. lia. }
      assert (INR (length (firstn i (map (exact_rate p) l))) * tiny64 <= 65536 * tiny64)
        by (apply Rmult_le_compat_r; lra).
      rewrite u53_val. lra. }
    assert (Call : Rabs (Rsum rs' - T) <= / 1000000000000000 * T).
    { specialize (Cl (length rs')). rewrite firstn_all in Cl. rewrite firstn_all2 in Cl by (rewrite map_length; lia).
      exact Cl. }
    apply Rabs_le_inv in Call.
    assert (Bt' : near tau (Rsum rs')) by (unfold near; nra). destruct Bt' as [Bt1 Bt2].
    destruct (unif64 L (p_rng p)) as (v & Iu & Bv).
    assert (Uv : u = v). { unfold u, draw. cbn. apply is64_value. exact Iu. }
    assert (H32 : bpow radix2 (-32) = / 4294967296) by reflexivity.
    assert (T1 : bpow radix2 (-901) <= tau).
    { change (-901)%Z with (-1 + -900)%Z. rewrite bpow_plus. change (bpow radix2 (-1)) with (/ 2). lra. }
    assert (Hs : tau <= bpow radix2 900).
    { apply Rle_trans with (2 * (65536 * bpow radix2 801)).
      - assert (INR (length l) * bpow radix2 801 <= 65536 * bpow radix2 801)
          by (apply Rmult_le_compat_r; [apply bpow_ge_0|lra]).
        pose proof (Rsum_nonneg _ Hn'). lra.
      - change (2 * (65536 * bpow radix2 801)) with (bpow radix2 1 * (bpow radix2 16 * bpow radix2 801)).
        rewrite <- !bpow_plus. apply bpow_le. lia. }
    assert (Ithr : is64 (SFmul prec64 emax64 (sum_left (A := A) xs) (fst (runif G64 (p_rng p)))) (rnd (v * tau))).
    { rewrite (Rmult_comm v). apply is64_mul; auto. apply rnd_small with 900%Z; [lia|].
      rewrite Rabs_pos_eq by (apply Rmult_le_pos; lra). rewrite <- (Rmult_1_r (bpow radix2 900)).
      apply Rmult_le_compat; lra. }
    pose proof (choose_threshold L xs rs' tau v _ Hx Hn' Hh ltac:(rewrite Lz; lia) T1 ltac:(lra) Ithr) as C.
    assert (Es : sample_nuclide p = noexcept
      (match (match choose (A := A) xs (nofZ A 0) (nmul A (sum_left (A := A) xs) (fst (runif G64 (p_rng p)))) with
              | Some i => nth_error (map fst l) i | None => None end) with
       | Some nu => Ok (nu, set_rng p (snd (runif G64 (p_rng p)))) | None => UB end)).
    { unfold sample_nuclide. rewrite Ec, Em. unfold mat_total, sum_afracs. fold l.
      rewrite (sum_afracs_sum p l vs _ Ev). fold xs. cbn [bind noexcept].
      rewrite unif_pair. cbv beta iota.
      erewrite (pick_nuclide_choose _ _ l vs).
      2:{ rewrite <- Ev. clear. induction l as [|[nu a] l IH]; cbn [mapM]; [reflexivity|]. cbn [fst].
          rewrite (same_nu_total nu p); [|repeat split]. now rewrite IH. }
      cbn [bind]. reflexivity. }
    change (nmul A (sum_left (A := A) xs) (fst (runif G64 (p_rng p)))) with
      (SFmul prec64 emax64 (sum_left (A := A) xs) (fst (runif G64 (p_rng p)))) in Es.
    assert (Vt : v * (1 - / 100000000000) * T <= v * tau <= v * (1 + / 100000000000) * T).
    { rewrite !Rmult_assoc. split; apply Rmult_le_compat_l; lra. }
    assert (V2 : 0 <= v * T <= (1 - / 4294967296) * T).
    { split; [apply Rmult_le_pos; lra|apply Rmult_le_compat_r; lra]. }
    replace (v * (1 - / 100000000000) * T) with ((1 - / 100000000000) * (v * T)) in Vt by ring.
    replace (v * (1 + / 100000000000) * T) with ((1 + / 100000000000) * (v * T)) in Vt by ring.
    destruct (choose (A := A) xs _ _) as [i|].
    - destruct C as (C1 & C2 & C3).
      assert (Hil : (i < length l)%nat) by (rewrite <- Lz; exact C1).
      destruct (nth_error l i) as [[nu a]|] eqn:En; [|apply nth_error_None in En; lia].
      destruct (nth_error_split _ _ En) as (before & after & El & Lb).
      exists before, nu, a, after. split; [exact El|].
      rewrite (map_nth_error fst _ _ En) in Es. split; [exact Es|].
      assert (Nth : nth i (map (exact_rate p) l) 0 = exact_rate p (nu, a)).
      { apply nth_error_nth. now apply map_nth_error. }
      assert (Pos : 0 < exact_rate p (nu, a)).
      { destruct (Forall2_nth rounded i 0 0 _ _ Hr ltac:(rewrite Lr; lia)) as (Z & Z1 & _). rewrite Nth in Z, Z1.
        destruct (Req_dec (exact_rate p (nu, a)) 0) as [E|E]; [rewrite (Z E) in C2|]; lra. }
      split; [exact Pos|].
      pose proof (Cl i) as K1. pose proof (Cl (S i)) as K2.
      assert (F1 : Rsum (firstn i (map (exact_rate p) l)) = exact_rates p before).
      { rewrite El, map_app, firstn_app, map_length, Lb, Nat.sub_diag. cbn [firstn].
        rewrite app_nil_r, firstn_all2 by (rewrite map_length; lia). reflexivity. }
      assert (F2 : Rsum (firstn (S i) (map (exact_rate p) l)) = exact_rates p before + exact_rate p (nu, a)).
      { rewrite El, map_app, firstn_app, map_length, Lb.
        replace (S i - i)%nat with 1%nat by lia.
        rewrite (firstn_all2 (n := S i)) by (rewrite map_length; lia). cbn [map firstn]. rewrite Rsum_app. cbn [Rsum]. unfold exact_rates. lra. }
      rewrite F1 in K1. rewrite F2 in K2. apply Rabs_le_inv in K1, K2.
      pose proof (firstn_sum i rs' Hn') as G1. pose proof (firstn_sum (S i) rs' Hn') as G2.
      rewrite Uv, slack_val. split; lra.
    - exfalso. lra.
  Qed.
End Nuclide.

(** ** The reaction *)
Lemma noexcept_twice {X} (o : outcome X) : noexcept (noexcept o) = noexcept o.
Proof. destruct o; reflexivity. Qed.
Section Reaction.
  Context {L : Libm}.
  Notation A := (F64 L).
  Notation G64 := (Minstd (F64 L)).
  Notation top := (powerRZ 2 900).
  Implicit Types p : particle A G64.

  Lemma pick_creaction_choose p (thr : num A) : forall rs vs acc,
    mapM (fun r => cr_xs r p) rs = Ok vs ->
    pick_creaction rs p acc thr =
    Ok (match choose (A := A) vs acc thr with Some i => nth_error rs i | None => None end).
  Proof.
    induction rs as [|r rs IH]; intros vs acc H; cbn [mapM] in H.
    - injection H as <-. reflexivity.
    - apply bind_ok in H as (x & Ex & H). apply bind_ok in H as (vs' & Ev & H). injection H as <-.
      cbn [pick_creaction]. rewrite Ex. cbn [bind choose].
      destruct (nltb A thr _); [reflexivity|]. rewrite (IH _ _ Ev).
      destruct (choose _ _ _); reflexivity.
  Qed.
  Lemma sum_reactions_sum p : forall rs vs acc, mapM (fun r => cr_xs r p) rs = Ok vs ->
    foldM (fun acc r => bind (cr_xs r p) (fun x => Ok (nadd A acc x))) rs acc =
    Ok (fold_left (nadd A) vs acc).
  Proof.
    induction rs as [|r rs IH]; intros vs acc H; cbn [mapM] in H.
    - injection H as <-. reflexivity.
    - apply bind_ok in H as (x & Ex & H). apply bind_ok in H as (vs' & Ev & H). injection H as <-.
      cbn [foldM]. rewrite Ex. cbn [bind fold_left]. exact (IH _ _ Ev).
  Qed.

  Lemma reaction_values p : forall rs, List.Forall (fun r => returns_up_to top (cr_xs r p)) rs ->
    exists vs, mapM (fun r => cr_xs r p) rs = Ok vs /\ are64 vs (map (exact_xs p) rs)
      /\ nonneg (map (exact_xs p) rs) /\ Rsum (map (exact_xs p) rs) <= INR (length rs) * bpow radix2 900.
  Proof.
    induction 1 as [|r rs (x & Ex & Hx) _ (vs & IH1 & IH2 & IH3 & IH4)].
    - exists []. split; [reflexivity|]. split; [constructor|]. split; [constructor|].
      change (0 <= 0 * bpow radix2 900). lra.
    - apply up_to_is64 in Hx as [Ix Bx]. rewrite pow_bpow in Bx.
      assert (E : exact_xs p r = value x) by (unfold exact_xs; rewrite Ex; reflexivity).
      exists (x :: vs). cbn [mapM map Rsum length]. rewrite Ex. cbn [bind]. rewrite IH1. cbn [bind].
      rewrite E. split; [reflexivity|]. split; [constructor; auto|]. split; [constructor; [lra|auto]|].
      rewrite S_INR. lra.
  Qed.

  Lemma c91_reaction p co total fuel :
    co_get_total co p = Ok total -> double_up_to top total -> powerRZ 2 (-900) <= value total ->
    (N.of_nat (length (co_reactions co)) <= 65536)%N ->
    List.Forall (fun r => returns_up_to top (cr_xs r p)) (co_reactions co) ->
    let T := value total in
    let S := exact_sum p (co_reactions co) in
    let u := value (draw G64 0 (p_rng p)) in
    let p1 := set_rng p (advance G64 1 (p_rng p)) in
    (exists before r after, co_reactions co = before ++ r :: after
       /\ co_interact (Datatypes.S fuel) co p = cr_interact fuel r p1
       /\ 0 < exact_xs p r
       /\ exact_sum p before - slack * S <= u * T <= exact_sum p before + exact_xs p r + slack * S)
    \/ (co_interact (Datatypes.S fuel) co p = co_interact fuel co p1 /\ S - slack * S <= u * T).
  Proof.
    intros Et Ht Hl Hn Hr T S u p1. apply up_to_is64 in Ht as [It Bt]. fold T in It, Bt.
    rewrite pow_bpow in Bt, Hl. fold T in Hl.
    destruct (reaction_values p _ Hr) as (vs & Ev & Hx & Hp & Hb). set (rs := co_reactions co) in *.
    change (Rsum (map (exact_xs p) rs)) with S in Hb.
    pose proof (Forall2_len _ _ _ Hx) as L1. rewrite map_length in L1.
    assert (Hi : 0 <= INR (length rs) <= 65536).
    { split; [apply pos_INR|]. rewrite INR_IZR_INZ. apply IZR_le. lia. }
    assert (Hh : S <= huge).
    { apply Rle_trans with (1 := Hb). apply Rle_trans with (bpow radix2 16 * bpow radix2 900).
      - apply Rmult_le_compat_r; [apply bpow_ge_0|]. change (bpow radix2 16) with 65536. lra.
      - rewrite <- bpow_plus. apply bpow_le. lia. }
    destruct (unif64 L (p_rng p)) as (v & Iu & Bv).
    assert (Uv : u = v). { unfold u, draw. cbn. apply is64_value. exact Iu. }
    assert (H32 : bpow radix2 (-32) = / 4294967296) by reflexivity.
    assert (Ithr : is64 (SFmul prec64 emax64 (fst (runif G64 (p_rng p))) total) (rnd (v * T))).
    { apply is64_mul; auto. apply rnd_small with 900%Z; [lia|].
      rewrite Rabs_pos_eq by (apply Rmult_le_pos; lra). rewrite <- (Rmult_1_l (bpow radix2 900)).
      apply Rmult_le_compat; lra. }
    assert (T1 : bpow radix2 (-901) <= T).
    { apply Rle_trans with (2 := Hl). apply bpow_le. lia. }
    pose proof (choose_threshold L vs _ T v _ Hx Hp Hh ltac:(lia) T1 ltac:(lra) Ithr) as C.
    assert (Es : co_interact (Datatypes.S fuel) co p = noexcept
      (match (match choose (A := A) vs (nofZ A 0) (SFmul prec64 emax64 (fst (runif G64 (p_rng p))) total) with
              | Some i => nth_error rs i | None => None end) with
       | Some r => cr_interact fuel r p1 | None => co_interact fuel co p1 end)).
    { cbn [co_interact]. rewrite unif_pair. cbv beta iota. rewrite co_total_rng, Et. cbn [bind].
      fold rs. rewrite (pick_creaction_choose _ _ rs vs).
      2:{ rewrite <- Ev. clear. induction rs as [|r rs IH]; cbn [mapM]; [reflexivity|].
          rewrite cr_xs_rng. now rewrite IH. }
      cbn [bind]. reflexivity. }
    rewrite Uv. destruct (choose (A := A) vs _ _) as [i|].
    - left. destruct C as (C1 & C2 & C3).
      destruct (nth_error rs i) as [r|] eqn:En; [|apply nth_error_None in En; lia].
      destruct (nth_error_split _ _ En) as (before & after & El & Lb).
      exists before, r, after. split; [exact El|]. split.
      { rewrite Es. unfold cr_interact. apply noexcept_twice. }
      assert (Nth : nth i (map (exact_xs p) rs) 0 = exact_xs p r).
      { apply nth_error_nth. now apply map_nth_error. }
      rewrite Nth in C2. split; [exact C2|].
      assert (F1 : Rsum (firstn i (map (exact_xs p) rs)) = exact_sum p before).
      { rewrite El, map_app, firstn_app, map_length, Lb, Nat.sub_diag. cbn [firstn].
        rewrite app_nil_r, firstn_all2 by (rewrite map_length; lia). reflexivity. }
      assert (F2 : Rsum (firstn (Datatypes.S i) (map (exact_xs p) rs)) = exact_sum p before + exact_xs p r).
      { rewrite El, map_app, firstn_app, map_length, Lb.
        replace (Datatypes.S i - i)%nat with 1%nat by lia.
        rewrite (firstn_all2 (n := Datatypes.S i)) by (rewrite map_length; lia). cbn [map firstn]. rewrite Rsum_app.
        cbn [Rsum]. unfold exact_sum. lra. }
      pose proof (firstn_sum i _ Hp) as G1. pose proof (firstn_sum (Datatypes.S i) _ Hp) as G2.
      change (Rsum (map (exact_xs p) rs)) with S in G1, G2.
      rewrite F1 in *. rewrite F2 in *. rewrite slack_val. split; lra.
    - right. split.
      { rewrite Es. destruct fuel; [reflexivity|]. cbn [co_interact]. apply noexcept_twice. }
      change (Rsum (map (exact_xs p) rs)) with S in C.
      pose proof (Rsum_nonneg _ Hp) as S0. change (Rsum (map (exact_xs p) rs)) with S in S0.
      rewrite slack_val. lra.
  Qed.

  (** A total that is not above the sum of the reactions, up to one part in 2^34, is enough. *)
  Lemma c91_first_time p co total fuel :
    co_get_total co p = Ok total -> double_up_to top total -> powerRZ 2 (-900) <= value total ->
    (N.of_nat (length (co_reactions co)) <= 65536)%N ->
    List.Forall (fun r => returns_up_to top (cr_xs r p)) (co_reactions co) ->
    let S := exact_sum p (co_reactions co) in
    value total <= S + slack * S ->
    exists r, In r (co_reactions co) /\ 0 < exact_xs p r
      /\ co_interact (Datatypes.S fuel) co p = cr_interact fuel r (set_rng p (advance G64 1 (p_rng p))).
  Proof.
    intros Et Ht Hl Hn Hr S Hs.
    destruct (c91_reaction p co total fuel Et Ht Hl Hn Hr) as [(before & r & after & El & Ei & Hx & _)|[_ B]].
    - exists r. rewrite El. split; [apply in_or_app; right; now left|]. auto.
    - exfalso. fold S in B. destruct (unif64 L (p_rng p)) as (v & Iu & Bv).
      assert (Uv : value (draw G64 0 (p_rng p)) = v). { unfold draw. cbn. apply is64_value. exact Iu. }
      rewrite Uv in B. assert (H32 : bpow radix2 (-32) = / 4294967296) by reflexivity.
      rewrite pow_bpow in Hl. assert (0 < bpow radix2 (-900)) by apply bpow_gt_0.
      assert (v * value total <= (1 - / 4294967296) * value total) by (apply Rmult_le_compat_r; lra).
      rewrite slack_val in *. lra.
  Qed.

  (** The total is such a sum when it is not looked up in a table of its own. *)
  Lemma c91_summed p co c modified :
    p_cell p = Some c -> any_modifies (co_reactions co) p = Ok modified ->
    modified = true \/ ev_is_valid (co_total co) (field_at (c_temperature c) (p_position p)) = false ->
    (N.of_nat (length (co_reactions co)) <= 65536)%N ->
    List.Forall (fun r => returns_up_to top (cr_xs r p)) (co_reactions co) ->
    let S := exact_sum p (co_reactions co) in
    exists total, co_get_total co p = Ok total /\ is_double total /\ finite total
      /\ S - slack * S <= value total <= S + slack * S.
  Proof.
    intros Ec Em Hm Hn Hr S.
    destruct (reaction_values p _ Hr) as (vs & Ev & Hx & Hp & Hb). set (rs := co_reactions co) in *.
    change (Rsum (map (exact_xs p) rs)) with S in Hb.
    pose proof (Forall2_len _ _ _ Hx) as L1. rewrite map_length in L1.
    assert (Hi : 0 <= INR (length rs) <= 65536).
    { split; [apply pos_INR|]. rewrite INR_IZR_INZ. apply IZR_le. lia. }
    assert (Hh : S <= huge).
    { apply Rle_trans with (1 := Hb). apply Rle_trans with (bpow radix2 16 * bpow radix2 900).
      - apply Rmult_le_compat_r; [apply bpow_ge_0|]. change (bpow radix2 16) with 65536. lra.
      - rewrite <- bpow_plus. apply bpow_le. lia. }
    destruct (sum_left64 L vs _ Hx Hp Hh) as (tau & It & Bt); [lia|].
    destruct (many (@length spec_float vs)) as [M1 M2]; [lia|].
    change (Rsum (map (exact_xs p) rs)) with S in Bt.
    pose proof (Rsum_nonneg _ Hp) as S0. change (Rsum (map (exact_xs p) rs)) with S in S0.
    exists (sum_left (A := A) vs). split; [|split; [|split]].
    - unfold co_get_total, get_cell. rewrite Ec. cbn [bind]. unfold co_at_temperature. fold rs. rewrite Em.
      cbn [bind]. assert (Q : negb modified && ev_is_valid (co_total co) (field_at (c_temperature c) (p_position p)) = false).
      { destruct Hm as [->| ->]; [reflexivity|apply andb_false_r]. }
      rewrite Q. unfold sum_reactions. rewrite (sum_reactions_sum p rs vs _ Ev). reflexivity.
    - exact (proj1 (is64_double _ _ It)).
    - exact (proj2 (is64_double _ _ It)).
    - rewrite (is64_value _ _ It), slack_val. split.
      + apply Rle_trans with (2 := proj1 Bt).
        assert ((1 - / 120000000000) * S <= dn ^ (@length spec_float vs) * S) by (apply Rmult_le_compat_r; lra). lra.
      + apply Rle_trans with (1 := proj2 Bt).
        assert (up ^ (@length spec_float vs) * S <= (1 + / 110000000000) * S) by (apply Rmult_le_compat_r; lra). lra.
  Qed.
End Reaction.

Lemma C91_nuclide_proof : forall (L : Libm) (p : particle (F64 L) (Minstd (F64 L))) c m,
  p_cell p = Some c -> c_material c = Some m ->
  (N.of_nat (length (m_afracs m)) <= 65536)%N ->
  List.Forall (usable_entry p) (m_afracs m) ->
  let T := exact_rates p (m_afracs m) in
  let u := value (draw (Minstd (F64 L)) 0 (p_rng p)) in
  powerRZ 2 (-900) <= T ->
  exists before nu a after, m_afracs m = (before ++ (nu, a) :: after)%list
    /\ sample_nuclide p = Ok (nu, set_rng p (advance (Minstd (F64 L)) 1 (p_rng p)))
    /\ 0 < exact_rate p (nu, a)
    /\ exact_rates p before - slack * T <= u * T <= exact_rates p before + exact_rate p (nu, a) + slack * T.
Proof. intros L. exact c91_nuclide. Qed.

Lemma C91_reaction_proof : forall (L : Libm) (p : particle (F64 L) (Minstd (F64 L))) co total fuel,
  co_get_total co p = Ok total ->
  double_up_to (powerRZ 2 900) total -> powerRZ 2 (-900) <= value total ->
  (N.of_nat (length (co_reactions co)) <= 65536)%N ->
  List.Forall (fun r => returns_up_to (powerRZ 2 900) (cr_xs r p)) (co_reactions co) ->
  let T := value total in
  let S := exact_sum p (co_reactions co) in
  let u := value (draw (Minstd (F64 L)) 0 (p_rng p)) in
  let p1 := set_rng p (advance (Minstd (F64 L)) 1 (p_rng p)) in
  (exists before r after, co_reactions co = (before ++ r :: after)%list
     /\ co_interact (Datatypes.S fuel) co p = cr_interact fuel r p1
     /\ 0 < exact_xs p r
     /\ exact_sum p before - slack * S <= u * T <= exact_sum p before + exact_xs p r + slack * S)
  \/ (co_interact (Datatypes.S fuel) co p = co_interact fuel co p1 /\ S - slack * S <= u * T).
Proof. intros L. exact c91_reaction. Qed.

Lemma C91_first_time_proof : forall (L : Libm) (p : particle (F64 L) (Minstd (F64 L))) co total fuel,
  co_get_total co p = Ok total ->
  double_up_to (powerRZ 2 900) total -> powerRZ 2 (-900) <= value total ->
  (N.of_nat (length (co_reactions co)) <= 65536)%N ->
  List.Forall (fun r => returns_up_to (powerRZ 2 900) (cr_xs r p)) (co_reactions co) ->
  let S := exact_sum p (co_reactions co) in
  value total <= S + slack * S ->
  exists r, In r (co_reactions co) /\ 0 < exact_xs p r
    /\ co_interact (Datatypes.S fuel) co p
       = cr_interact fuel r (set_rng p (advance (Minstd (F64 L)) 1 (p_rng p))).
Proof. intros L. exact c91_first_time. Qed.

Lemma C91_summed_proof : forall (L : Libm) (p : particle (F64 L) (Minstd (F64 L))) co c modified,
  p_cell p = Some c -> any_modifies (co_reactions co) p = Ok modified ->
  modified = true \/ ev_is_valid (co_total co) (field_at (c_temperature c) (p_position p)) = false ->
  (N.of_nat (length (co_reactions co)) <= 65536)%N ->
  List.Forall (fun r => returns_up_to (powerRZ 2 900) (cr_xs r p)) (co_reactions co) ->
  let S := exact_sum p (co_reactions co) in
  exists total, co_get_total co p = Ok total /\ is_double total /\ finite total
    /\ S - slack * S <= value total <= S + slack * S.
Proof. intros L. exact c91_summed. Qed.
