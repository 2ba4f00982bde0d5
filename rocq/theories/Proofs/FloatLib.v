(** Coq's specification of binary64 and Flocq's: the operations agree, so what Flocq
    proves about rounding holds for the model's doubles. *)
From Coq Require Import Bool ZArith NArith Reals Lra Lia SpecFloat.
From Flocq Require Import Core BinarySingleNaN.
From Verif Require Import Model.Num.

Definition b64 : Type := binary_float 53 1024.
Notation Hp := (eq_refl : (0 < 53)%Z).
Lemma prec_ok : Prec_gt_0 53.
Proof. reflexivity. Qed.
Lemma emax_ok : Prec_lt_emax 53 1024.
Proof. reflexivity. Qed.
#[global] Existing Instance prec_ok.
#[global] Existing Instance emax_ok.

Notation rnd := (round radix2 (SpecFloat.fexp 53 1024) ZnearestE).

Lemma nearest_even s m l : round_nearest_even m l = choice_mode mode_NE s m l.
Proof.
  case l; [reflexivity|intro c]. case c; [|reflexivity..].
  simpl. unfold Round.cond_incr. now case Z.even.
Qed.
Lemma sf_round_aux sx mx ex lx :
  SpecFloat.binary_round_aux 53 1024 sx mx ex lx = binary_round_aux 53 1024 mode_NE sx mx ex lx.
Proof.
  unfold SpecFloat.binary_round_aux, binary_round_aux. set (m := shr_fexp _ _ _ _ _).
  case m; intros m' e'; simpl. now rewrite (nearest_even sx).
Qed.
Lemma sf_round s m e : SpecFloat.binary_round 53 1024 s m e = binary_round 53 1024 mode_NE s m e.
Proof.
  unfold SpecFloat.binary_round, binary_round, shl_align_fexp.
  set (mez := shl_align _ _ _); case mez as [mz ez]. apply sf_round_aux.
Qed.
Lemma sf_normalize m e szero :
  SpecFloat.binary_normalize 53 1024 m e szero
  = B2SF (binary_normalize 53 1024 prec_ok emax_ok mode_NE m e szero).
Proof.
  case m as [|p|p]; [reflexivity| |]; simpl; rewrite B2SF_SF2B; apply sf_round.
Qed.
Lemma sf_mul (x y : b64) : SFmul 53 1024 (B2SF x) (B2SF y) = B2SF (Bmult mode_NE x y).
Proof.
  case x as [sx|sx| |sx mx ex Bx]; case y as [sy|sy| |sy my ey By]; [now trivial..|].
  simpl. rewrite B2SF_SF2B. apply sf_round_aux.
Qed.
Lemma sf_add (x y : b64) : SFadd 53 1024 (B2SF x) (B2SF y) = B2SF (Bplus mode_NE x y).
Proof.
  case x as [sx|sx| |sx mx ex Bx]; case y as [sy|sy| |sy my ey By];
    [now (trivial || simpl; case Bool.eqb)..|]. apply sf_normalize.
Qed.
Lemma sf_sub (x y : b64) : SFsub 53 1024 (B2SF x) (B2SF y) = B2SF (Bminus mode_NE x y).
Proof.
  case x as [sx|sx| |sx mx ex Bx]; case y as [sy|sy| |sy my ey By];
    [now (trivial || simpl; case Bool.eqb)..|].
  simpl. unfold Zminus. rewrite <- cond_Zopp_negb. apply sf_normalize.
Qed.
Lemma sf_div (x y : b64) : SFdiv 53 1024 (B2SF x) (B2SF y) = B2SF (Bdiv mode_NE x y).
Proof.
  case x as [sx|sx| |sx mx ex Bx]; case y as [sy|sy| |sy my ey By];
    [now (trivial || simpl; case Bool.eqb)..|].
  simpl. rewrite B2SF_SF2B. set (melz := SFdiv_core_binary _ _ _ _ _ _).
  case melz as [[mz ez] lz]. apply sf_round_aux.
Qed.

(** Integers. *)
Definition bz (z : Z) : b64 := binary_normalize 53 1024 prec_ok emax_ok mode_NE z 0 false.
Lemma ofZ_bz z : f64_ofZ z = B2SF (bz z).
Proof. apply sf_normalize. Qed.

Lemma int_format z : (Z.abs z <= 2 ^ 53)%Z -> generic_format radix2 (SpecFloat.fexp 53 1024) (IZR z).
Proof.
  intros H. change (SpecFloat.fexp 53 1024) with (FLT_exp (-1074) 53).
  destruct (Z.eq_dec (Z.abs z) (2 ^ 53)) as [E|E].
  - assert (K : generic_format radix2 (FLT_exp (-1074) 53) (bpow radix2 53)).
    { apply generic_format_bpow. unfold FLT_exp. lia. }
    change (bpow radix2 53) with (IZR (2 ^ 53)) in K. rewrite <- E in K.
    destruct (Z.abs_eq_or_opp z) as [Ez|Ez]; rewrite Ez in K; auto.
    rewrite opp_IZR in K. apply generic_format_opp in K. now rewrite Ropp_involutive in K.
  - apply generic_format_FLT. exists (Float radix2 z 0).
    + unfold F2R. cbn. lra.
    + cbn. change (Z.pow_pos 2 53) with (2 ^ 53)%Z. lia.
    + cbn. lia.
Qed.
Lemma int_small z : (Z.abs z <= 2 ^ 53)%Z -> (Rabs (IZR z) < bpow radix2 1024)%R.
Proof.
  intros H. rewrite <- abs_IZR. apply Rle_lt_trans with (IZR (2 ^ 53)); [now apply IZR_le|].
  change (IZR (2 ^ 53)) with (bpow radix2 53). now apply bpow_lt.
Qed.
Lemma rnd_int z : (Z.abs z <= 2 ^ 53)%Z -> rnd (IZR z) = IZR z.
Proof. intros H. apply round_generic; auto with typeclass_instances. now apply int_format. Qed.

Lemma bz_int z : (Z.abs z <= 2 ^ 53)%Z ->
  B2R (bz z) = IZR z /\ is_finite (bz z) = true /\ Bsign (bz z) = (z <? 0)%Z.
Proof.
  intros H. pose proof (binary_normalize_correct 53 1024 prec_ok emax_ok mode_NE z 0 false) as K.
  cbv zeta in K. replace (F2R (Float radix2 z 0)) with (IZR z) in K by (unfold F2R; cbn; lra).
  cbn [round_mode] in K. rewrite (rnd_int z H), (Rlt_bool_true _ _ (int_small z H)) in K.
  destruct K as (K1 & K2 & K3). split; [exact K1|]. split; [exact K2|]. unfold bz. rewrite K3.
  destruct (Z.ltb_spec z 0) as [Hz|Hz].
  - rewrite Rcompare_Lt; auto. now apply IZR_lt.
  - destruct (Z.eq_dec z 0) as [->|N].
    + now rewrite Rcompare_Eq.
    + rewrite Rcompare_Gt; auto. apply IZR_lt. lia.
Qed.

Lemma f64_add_int a b : (0 <= a)%Z -> (0 <= b)%Z -> (a + b <= 2 ^ 53)%Z ->
  SFadd 53 1024 (f64_ofZ a) (f64_ofZ b) = f64_ofZ (a + b).
Proof.
  intros Ha Hb H. rewrite !ofZ_bz, sf_add. f_equal.
  destruct (bz_int a) as (R1 & F1 & S1); [lia|]. destruct (bz_int b) as (R2 & F2 & S2); [lia|].
  destruct (bz_int (a + b)) as (R3 & F3 & S3); [lia|].
  pose proof (Bplus_correct 53 1024 prec_ok emax_ok mode_NE (bz a) (bz b) F1 F2) as K.
  rewrite R1, R2, <- plus_IZR in K. cbn [round_mode] in K.
  rewrite rnd_int, (Rlt_bool_true _ _ (int_small (a + b) ltac:(lia))) in K by lia.
  destruct K as (K1 & K2 & K3). apply B2R_Bsign_inj; auto; [congruence|].
  unfold b64 in *. rewrite K3, S3, S1, S2.
  destruct (Z.ltb_spec a 0); [lia|]. destruct (Z.ltb_spec b 0); [lia|].
  destruct (Z.ltb_spec (a + b) 0); [lia|].
  destruct (Z.eq_dec (a + b) 0) as [->|N]; [now rewrite Rcompare_Eq|].
  rewrite Rcompare_Gt; auto. apply IZR_lt. lia.
Qed.
Lemma f64_mul_int a b : (0 <= a)%Z -> (0 <= b)%Z -> (a <= 2 ^ 53)%Z -> (b <= 2 ^ 53)%Z ->
  (a * b <= 2 ^ 53)%Z -> SFmul 53 1024 (f64_ofZ a) (f64_ofZ b) = f64_ofZ (a * b).
Proof.
  intros Ha Hb La Lb H. rewrite !ofZ_bz, sf_mul. f_equal. assert (0 <= a * b)%Z by nia.
  destruct (bz_int a) as (R1 & F1 & S1); [lia|]. destruct (bz_int b) as (R2 & F2 & S2); [lia|].
  destruct (bz_int (a * b)) as (R3 & F3 & S3); [lia|].
  pose proof (Bmult_correct 53 1024 prec_ok emax_ok mode_NE (bz a) (bz b)) as K.
  rewrite R1, R2, <- mult_IZR in K. cbn [round_mode] in K.
  rewrite rnd_int, (Rlt_bool_true _ _ (int_small (a * b) ltac:(lia))) in K by lia.
  destruct K as (K1 & K2 & K3). rewrite F1, F2 in K2. cbn in K2.
  apply B2R_Bsign_inj; auto; [congruence|].
  unfold b64 in *. rewrite K3, S3, S1, S2.
  - destruct (Z.ltb_spec a 0); [lia|]. destruct (Z.ltb_spec b 0); [lia|].
    destruct (Z.ltb_spec (a * b) 0); [lia|]. reflexivity.
  - destruct (Bmult mode_NE (bz a) (bz b)); auto; discriminate.
Qed.
Lemma f64_eqb_int a b : (Z.abs a <= 2 ^ 53)%Z -> (Z.abs b <= 2 ^ 53)%Z ->
  SFeqb (f64_ofZ a) (f64_ofZ b) = (a =? b)%Z.
Proof.
  intros Ha Hb. rewrite !ofZ_bz. destruct (bz_int a Ha) as (R1 & F1 & _).
  destruct (bz_int b Hb) as (R2 & F2 & _).
  change (Beqb (bz a) (bz b) = (a =? b)%Z). rewrite Beqb_correct by auto. rewrite R1, R2.
  destruct (Z.eqb_spec a b) as [->|N]; [now apply Req_bool_true|].
  apply Req_bool_false. intros E. now apply eq_IZR in E.
Qed.
