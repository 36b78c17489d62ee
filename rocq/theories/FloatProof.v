(** Real-number meaning of the double operations of Float.v (Flocq). *)
From Coq Require Import Reals Lra Psatz.
From Flocq Require Import Core.Core IEEE754.BinarySingleNaN.
From Verif Require Import Float.
Local Open Scope Z_scope.

Definition dprec : Prec_gt_0 53 := eq_refl.
Definition demax : Prec_lt_emax 53 1024 := eq_refl.
Definition b64 := binary_float 53 1024.
Definition fexp64 := SpecFloat.fexp 53 1024.
Definition rnd (r : R) : R := round radix2 fexp64 ZnearestE r.

Lemma round_ne_equiv s m l : round_nearest_even m l = choice_mode mode_NE s m l.
Proof. destruct l as [|c]; [done|]. destruct c; [|done..]. simpl. unfold Round.cond_incr. by destruct (Z.even m). Qed.
Lemma round_aux_equiv sx mx ex lx :
  SpecFloat.binary_round_aux 53 1024 sx mx ex lx = BinarySingleNaN.binary_round_aux 53 1024 mode_NE sx mx ex lx.
Proof.
  unfold SpecFloat.binary_round_aux, BinarySingleNaN.binary_round_aux. set (q := shr_fexp _ _ _). destruct q as [m e]. simpl.
  by rewrite (round_ne_equiv sx).
Qed.
Lemma round_equiv s m e : SpecFloat.binary_round 53 1024 s m e = BinarySingleNaN.binary_round 53 1024 mode_NE s m e.
Proof.
  unfold SpecFloat.binary_round, BinarySingleNaN.binary_round, shl_align_fexp.
  set (mez := shl_align _ _ _). destruct mez as [mz ez]. apply round_aux_equiv.
Qed.
Lemma normalize_equiv m e s : SpecFloat.binary_normalize 53 1024 m e s
  = B2SF (BinarySingleNaN.binary_normalize 53 1024 dprec demax mode_NE m e s).
Proof. destruct m; simpl; [done|rewrite B2SF_SF2B; apply round_equiv..]. Qed.

(** [x] is finite with real value [r] *)
Definition repr (x : dbl) (r : R) : Prop := ∃ b : b64, x = B2SF b ∧ is_finite b = true ∧ B2R b = r.

Lemma rnd_le a b : (a <= b)%R → (rnd a <= rnd b)%R.
Proof. intros. apply round_le; [apply (fexp_correct 53 1024 dprec)|apply valid_rnd_N|done]. Qed.

Lemma rnd_id r : generic_format radix2 fexp64 r → rnd r = r.
Proof. intros. apply round_generic; [apply valid_rnd_N|done]. Qed.
Lemma rnd_IZR z : Z.abs z ≤ 2 ^ 53 → rnd (IZR z) = IZR z.
Proof.
  intros Hz. apply rnd_id. 
  apply generic_format_FLT. destruct (decide (Z.abs z = 2 ^ 53)) as [He|Hne].
  - apply (FLT_spec _ _ _ _ (Float radix2 (Z.sgn z) 53)); simpl.
    + unfold F2R. simpl. replace (IZR (Z.pow_pos 2 53)) with (IZR (2 ^ 53)) by done. rewrite <-mult_IZR. f_equal. lia.
    + change (2 ^ 53) with 9007199254740992. lia.
    + unfold emin. lia.
  - apply (FLT_spec _ _ _ _ (Float radix2 z 0)); simpl.
    + unfold F2R. simpl. by rewrite Rmult_1_r.
    + lia.
    + unfold emin. lia.
Qed.
Lemma rnd_0 : rnd 0 = 0%R.
Proof. apply (rnd_IZR 0). lia. Qed.
Lemma rnd_1 : rnd 1 = 1%R.
Proof. apply (rnd_IZR 1). lia. Qed.

Definition small (r : R) : Prop := (Rabs r <= bpow radix2 1023)%R.
Lemma fmt_bpow1023 : rnd (bpow radix2 1023) = bpow radix2 1023.
Proof. apply rnd_id, generic_format_bpow. unfold fexp64, SpecFloat.fexp, emin. lia. Qed.
Lemma rnd_opp r : rnd (- r) = (- rnd r)%R.
Proof. apply round_NE_opp. Qed.
Lemma small_rnd r : small r → (Rabs (rnd r) < bpow radix2 1024)%R.
Proof.
  intros Hr. apply Rle_lt_trans with (bpow radix2 1023); [|apply bpow_lt; lia].
  unfold small in Hr. apply Rabs_le_inv in Hr as [H1 H2]. apply Rabs_le. rewrite <-fmt_bpow1023. split.
  - rewrite <-rnd_opp. by apply rnd_le.
  - by apply rnd_le.
Qed.

Lemma repr_of_Z z : small (IZR z) → repr (d_of_Z z) (rnd (IZR z)).
Proof.
  intros Hs. unfold d_of_Z. rewrite normalize_equiv. eexists. split; [done|].
  pose proof (binary_normalize_correct 53 1024 dprec demax mode_NE z 0 false) as Hc. cbn zeta in Hc.
  rewrite Rlt_bool_true in Hc.
  - destruct Hc as (Hr & Hf & _). split; [done|]. rewrite Hr. unfold F2R, rnd, fexp64. simpl. by rewrite Rmult_1_r.
  - unfold F2R. simpl. rewrite Rmult_1_r. by apply (small_rnd (IZR z)).
Qed.
Lemma repr_of_Z_exact z : Z.abs z ≤ 2 ^ 53 → repr (d_of_Z z) (IZR z).
Proof.
  intros Hz. rewrite <-rnd_IZR at 1 by done. apply repr_of_Z. unfold small. rewrite <-abs_IZR.
  apply Rle_trans with (IZR (2 ^ 53)); [by apply IZR_le|]. rewrite (IZR_Zpower radix2) by lia. apply bpow_le. lia.
Qed.

Lemma repr_div x y a b : repr x a → repr y b → b ≠ 0%R → small (a / b) → repr (d_div x y) (rnd (a / b)).
Proof.
  intros (bx & -> & Fx & <-) (by_ & -> & Fy & <-) Hb Hs.
  exists (Bdiv mode_NE bx by_ (prec_gt_0_ := dprec) (prec_lt_emax_ := demax)). split.
  - unfold d_div. destruct bx as [sx|sx| |sx mx ex Bx], by_ as [sy|sy| |sy my ey By]; try done. simpl. rewrite B2SF_SF2B.
    set (melz := SFdiv_core_binary _ _ _ _ _ _). destruct melz as [[mz ez] lz]. apply round_aux_equiv.
  - pose proof (Bdiv_correct 53 1024 dprec demax mode_NE bx by_ Hb) as Hc. rewrite Rlt_bool_true in Hc by (by apply small_rnd).
    destruct Hc as (Hr & Hf & _). split; [by rewrite Hf|done].
Qed.
Lemma repr_mul x y a b : repr x a → repr y b → small (a * b) → repr (d_mul x y) (rnd (a * b)).
Proof.
  intros (bx & -> & Fx & <-) (by_ & -> & Fy & <-) Hs.
  exists (Bmult mode_NE bx by_ (prec_gt_0_ := dprec) (prec_lt_emax_ := demax)). split.
  - unfold d_mul. destruct bx as [sx|sx| |sx mx ex Bx], by_ as [sy|sy| |sy my ey By]; try done. simpl. rewrite B2SF_SF2B.
    apply round_aux_equiv.
  - pose proof (Bmult_correct 53 1024 dprec demax mode_NE bx by_) as Hc. rewrite Rlt_bool_true in Hc by (by apply small_rnd).
    destruct Hc as (Hr & Hf & _). split; [by rewrite Hf, Fx, Fy|done].
Qed.
Lemma repr_add x y a b : repr x a → repr y b → small (a + b) → repr (d_add x y) (rnd (a + b)).
Proof.
  intros (bx & -> & Fx & <-) (by_ & -> & Fy & <-) Hs.
  exists (Bplus mode_NE bx by_ (prec_gt_0_ := dprec) (prec_lt_emax_ := demax)). split.
  - unfold d_add. destruct bx as [sx|sx| |sx mx ex Bx], by_ as [sy|sy| |sy my ey By]; try done; [simpl; by destruct (Bool.eqb sx sy)|].
    apply normalize_equiv.
  - pose proof (Bplus_correct 53 1024 dprec demax mode_NE bx by_ Fx Fy) as Hc. rewrite Rlt_bool_true in Hc by (by apply small_rnd).
    destruct Hc as (Hr & Hf & _). split; [by rewrite Hf|done].
Qed.
Lemma repr_sub x y a b : repr x a → repr y b → small (a - b) → repr (d_sub x y) (rnd (a - b)).
Proof.
  intros (bx & -> & Fx & <-) (by_ & -> & Fy & <-) Hs.
  exists (Bminus mode_NE bx by_ (prec_gt_0_ := dprec) (prec_lt_emax_ := demax)). split.
  - unfold d_sub. destruct bx as [sx|sx| |sx mx ex Bx], by_ as [sy|sy| |sy my ey By]; try done; [simpl; by destruct sx, sy|].
    simpl. unfold Z.sub. rewrite <-cond_Zopp_negb. apply normalize_equiv.
  - pose proof (Bminus_correct 53 1024 dprec demax mode_NE bx by_ Fx Fy) as Hc. rewrite Rlt_bool_true in Hc by (by apply small_rnd).
    destruct Hc as (Hr & Hf & _). split; [by rewrite Hf|done].
Qed.

Lemma repr_le x y a b : repr x a → repr y b → d_le x y = true ↔ (a <= b)%R.
Proof.
  intros (bx & -> & Fx & <-) (by_ & -> & Fy & <-). unfold d_le, SFleb.
  pose proof (Bcompare_correct 53 1024 bx by_ Fx Fy) as Hc. unfold Bcompare in Hc. rewrite Hc.
  destruct (Rcompare_spec (B2R bx) (B2R by_)); split; try done; lra.
Qed.
Lemma repr_lt x y a b : repr x a → repr y b → d_lt x y = true ↔ (a < b)%R.
Proof.
  intros (bx & -> & Fx & <-) (by_ & -> & Fy & <-). unfold d_lt, SFltb.
  pose proof (Bcompare_correct 53 1024 bx by_ Fx Fy) as Hc. unfold Bcompare in Hc. rewrite Hc.
  destruct (Rcompare_spec (B2R bx) (B2R by_)); split; try done; lra.
Qed.

Lemma small_01 r : (0 <= r <= 1)%R → small r.
Proof.
  intros [? ?]. unfold small. rewrite Rabs_right by lra. apply Rle_trans with 1%R; [done|]. apply (bpow_le radix2 0). lia.
Qed.

(** a quotient of integers, 0 ≤ a ≤ b *)
Lemma repr_frac a b : 0 ≤ a ≤ b → 0 < b ≤ 2 ^ 53 → repr (d_div (d_of_Z a) (d_of_Z b)) (rnd (IZR a / IZR b)).
Proof.
  intros Ha Hb. assert (0 < IZR b)%R by (apply IZR_lt; lia). assert (0 <= IZR a <= IZR b)%R by (split; apply IZR_le; lia).
  apply repr_div; [apply repr_of_Z_exact; lia..|lra|]. apply small_01. split.
  - apply Rmult_le_pos; [lra|]. apply Rlt_le, Rinv_0_lt_compat. lra.
  - apply Rmult_le_reg_r with (IZR b); [done|]. unfold Rdiv. rewrite Rmult_assoc, Rinv_l; lra.
Qed.
Lemma frac_le_one a b c : 0 ≤ a ≤ b → 0 < b ≤ 2 ^ 53 → 0 < c ≤ 2 ^ 53 →
  d_le (d_div (d_of_Z a) (d_of_Z b)) (d_div (d_of_Z c) (d_of_Z c)) = true.
Proof.
  intros Ha Hb Hc. eapply repr_le; [apply repr_frac; lia..|].
  assert (0 < IZR b)%R by (apply IZR_lt; lia). assert (0 <= IZR a <= IZR b)%R by (split; apply IZR_le; lia).
  assert (0 < IZR c)%R by (apply IZR_lt; lia). apply rnd_le.
  replace (IZR c / IZR c)%R with 1%R by (field; lra). apply Rmult_le_reg_r with (IZR b); [done|]. unfold Rdiv. rewrite Rmult_assoc, Rinv_l; lra.
Qed.
Lemma rnd_div_le_lt a b c r : a ≤ b → 0 < c → (rnd (IZR b / IZR c) < r)%R → (rnd (IZR a / IZR c) < r)%R.
Proof.
  intros Hab Hc Hr. eapply Rle_lt_trans; [|exact Hr]. apply rnd_le. apply Rmult_le_compat_r.
  - apply Rlt_le, Rinv_0_lt_compat. by apply IZR_lt.
  - by apply IZR_le.
Qed.
