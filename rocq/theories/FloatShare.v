(** A share of a double is not greater than the double. *)
From Coq Require Import Reals Lra Psatz.
From Flocq Require Import Core.Core IEEE754.BinarySingleNaN.
From Verif Require Import Float FloatProof FloatPos FloatBig.
Local Open Scope Z_scope.

(** a double in canonical form *)
Definition canon (x : dbl) : Prop := ∃ b : b64, x = B2SF b.
Lemma canon_zero : canon d_zero.
Proof. by exists (B754_zero false). Qed.
Lemma canon_of_Z z : canon (d_of_Z z).
Proof. unfold d_of_Z. rewrite normalize_equiv. by eexists. Qed.
Lemma canon_add x y : canon x → canon y → canon (d_add x y).
Proof.
  intros [bx ->] [by_ ->]. exists (Bplus mode_NE bx by_ (prec_gt_0_ := dprec) (prec_lt_emax_ := demax)).
  unfold d_add. destruct bx as [sx|sx| |sx mx ex Bx], by_ as [sy|sy| |sy my ey By]; try done; simpl; try (by destruct (Bool.eqb sx sy)).
  apply normalize_equiv.
Qed.
Lemma canon_sub x y : canon x → canon y → canon (d_sub x y).
Proof.
  intros [bx ->] [by_ ->]. exists (Bminus mode_NE bx by_ (prec_gt_0_ := dprec) (prec_lt_emax_ := demax)).
  unfold d_sub. destruct bx as [sx|sx| |sx mx ex Bx], by_ as [sy|sy| |sy my ey By]; try done; simpl; try (by destruct sx, sy).
  unfold Z.sub. rewrite <-cond_Zopp_negb. apply normalize_equiv.
Qed.
Lemma canon_mul x y : canon x → canon y → canon (d_mul x y).
Proof.
  intros [bx ->] [by_ ->]. exists (Bmult mode_NE bx by_ (prec_gt_0_ := dprec) (prec_lt_emax_ := demax)).
  unfold d_mul. destruct bx as [sx|sx| |sx mx ex Bx], by_ as [sy|sy| |sy my ey By]; try done. simpl. rewrite B2SF_SF2B. apply round_aux_equiv.
Qed.
Lemma canon_div x y : canon x → canon y → canon (d_div x y).
Proof.
  intros [bx ->] [by_ ->]. exists (Bdiv mode_NE bx by_ (prec_gt_0_ := dprec) (prec_lt_emax_ := demax)).
  unfold d_div. destruct bx as [sx|sx| |sx mx ex Bx], by_ as [sy|sy| |sy my ey By]; try done. simpl. rewrite B2SF_SF2B.
  set (melz := SFdiv_core_binary _ _ _ _ _ _). destruct melz as [[mz ez] lz]. apply round_aux_equiv.
Qed.
Lemma canon_sum l x : canon x → Forall canon l → canon (foldl d_add x l).
Proof. intros Hx Hl. revert x Hx. induction Hl as [|y l Hy Hl IH]; intros x Hx; [done|]. simpl. by apply IH, canon_add. Qed.

Lemma share_le z deg : canon z → 1 ≤ deg ≤ 2 ^ 53 → d_lt d_zero (d_mul z (d_div d_one (d_of_Z deg))) = true →
  z ≠ SpecFloat.S754_nan ∧ d_lt z (d_mul z (d_div d_one (d_of_Z deg))) = false.
Proof.
  intros [bz ->] Hd.
  destruct (big_quot 1 deg ltac:(lia) Hd) as [Hb Hs].
  destruct (repr_div d_one (d_of_Z deg) _ _ (repr_of_Z_exact 1 ltac:(lia)) (repr_of_Z_exact deg ltac:(lia)) ltac:(apply not_0_IZR; lia) Hs) as (bc & -> & Hf & Hr).
  assert (bpow radix2 (-53) <= B2R bc)%R as Hlo by (by rewrite Hr).
  assert (B2R bc <= 1)%R as Hhi.
  { rewrite Hr. replace 1%R with (rnd 1) at 2 by (apply (rnd_IZR 1); lia). apply rnd_le. pose proof (IZR_le 1 deg ltac:(lia)).
    unfold Rdiv. rewrite Rmult_1_l, <-Rinv_1. apply Rinv_le; lra. }
  pose proof (bpow_gt_0 radix2 (-53)) as Hp.
  destruct (finite_pos bc Hf Hlo) as (m & e & Hme & Ec).
  destruct bz as [s|s| |s mz ez Hz]; [subst bc; by destruct s|subst bc; by destruct s|by subst bc|].
  set (bz := B754_finite s mz ez Hz : b64) in *. intros Hlt. split; [done|].
  assert (d_mul (B2SF bz) (B2SF bc) = B2SF (Bmult mode_NE bz bc (prec_gt_0_ := dprec) (prec_lt_emax_ := demax))) as Heq.
  { unfold d_mul. subst bc bz. simpl. rewrite B2SF_SF2B. apply round_aux_equiv. }
  rewrite Heq in *. pose proof (Bmult_correct 53 1024 dprec demax mode_NE bz bc) as Hc.
  assert (rnd (B2R bz) = B2R bz) as Hrz by (apply rnd_id, generic_format_B2R).
  assert (rnd 0 = 0%R) as Hr0 by (apply (rnd_IZR 0); lia).
  assert (Rabs (rnd (B2R bz * B2R bc)) < bpow radix2 1024)%R as Hno.
  { apply Rle_lt_trans with (Rabs (B2R bz)); [|apply abs_B2R_lt_emax].
    destruct (Rle_or_lt 0 (B2R bz)) as [H0|H0].
    - rewrite !Rabs_right; [|lra|rewrite <-Hr0; apply Rle_ge, rnd_le; nra]. rewrite <-Hrz at 2. apply rnd_le. nra.
    - rewrite !Rabs_left1; [|lra|rewrite <-Hr0; apply rnd_le; nra]. apply Ropp_le_contravar. rewrite <-Hrz at 1. apply rnd_le. nra. }
  rewrite Rlt_bool_true in Hc by exact Hno. destruct Hc as (Hr1 & Hf1 & _). rewrite Hf in Hf1.
  assert (repr (B2SF (Bmult mode_NE bz bc (prec_gt_0_ := dprec) (prec_lt_emax_ := demax))) (rnd (B2R bz * B2R bc))) as Hrep by (eexists; done).
  apply (repr_lt _ _ _ _ repr_zero Hrep) in Hlt.
  apply not_true_iff_false. intros Hgt. apply (repr_lt (B2SF bz) _ (B2R bz) (rnd (B2R bz * B2R bc))) in Hgt; [|by exists bz|exact Hrep].
  assert (0 < B2R bz)%R as Hpos. { apply Rnot_le_lt. intros Hn. apply (Rlt_not_le _ _ Hlt). rewrite <-Hr0. apply rnd_le. nra. }
  apply (Rlt_not_le _ _ Hgt). rewrite <-Hrz at 2. apply rnd_le. nra.
Qed.
