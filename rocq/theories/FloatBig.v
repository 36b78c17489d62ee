(** Doubles that are not too small: their sums and shares do not vanish. *)
From Coq Require Import Reals Lra Psatz.
From Flocq Require Import Core.Core IEEE754.BinarySingleNaN.
From Verif Require Import Float FloatProof FloatPos.
Local Open Scope Z_scope.

(** a double of at least 2^-53, or infinity *)
Definition bigd (x : dbl) : Prop := ∃ b : b64, x = B2SF b ∧ (b = B754_infinity false ∨ is_finite b = true ∧ (bpow radix2 (-53) <= B2R b)%R).

Lemma rnd_bpow e : -1074 <= e → rnd (bpow radix2 e) = bpow radix2 e.
Proof. intros He. apply rnd_id, generic_format_bpow. unfold fexp64, SpecFloat.fexp, emin. lia. Qed.
Lemma finite_pos (b : b64) : is_finite b = true → (bpow radix2 (-53) <= B2R b)%R → ∃ m e H, b = B754_finite false m e H.
Proof.
  intros Hf Hb. pose proof (bpow_gt_0 radix2 (-53)) as Hp. destruct b as [s|s| |s m e H]; try done.
  - simpl in Hb. lra.
  - destruct s; [|by exists m, e, H]. assert (B2R (B754_finite true m e H : b64) < 0)%R; [|lra]. apply F2R_lt_0. done.
Qed.
Lemma bigd_add x y : bigd x → bigd y → bigd (d_add x y).
Proof.
  intros (bx & -> & Hx) (by_ & -> & Hy). destruct Hx as [->|[Fx Px]].
  { exists (B754_infinity false). split; [|by left]. destruct Hy as [->|[Fy Py]]; [done|]. by destruct (finite_pos _ Fy Py) as (m & e & H & ->). }
  destruct Hy as [->|[Fy Py]].
  { exists (B754_infinity false). split; [|by left]. by destruct (finite_pos _ Fx Px) as (m & e & H & ->). }
  exists (Bplus mode_NE bx by_ (prec_gt_0_ := dprec) (prec_lt_emax_ := demax)). split.
  { unfold d_add. destruct bx as [sx|sx| |sx mx ex Bx], by_ as [sy|sy| |sy my ey By]; try done; [simpl; by destruct (Bool.eqb sx sy)|]. apply normalize_equiv. }
  pose proof (Bplus_correct 53 1024 dprec demax mode_NE bx by_ Fx Fy) as Hc. pose proof (bpow_gt_0 radix2 (-53)) as Hp.
  destruct (Rlt_bool _ _) eqn:Hlt.
  - right. destruct Hc as (Hr & Hf & _). split; [done|]. rewrite Hr. rewrite <-(rnd_bpow (-53)) by lia. apply rnd_le. lra.
  - left. destruct Hc as [Hc _]. destruct (finite_pos _ Fx Px) as (m & e & H & ->). revert Hc. generalize (Bplus mode_NE (B754_finite false m e H) by_ (prec_gt_0_ := dprec) (prec_lt_emax_ := demax)).
    intros b Hc. destruct b as [s|s| |s m' e' H']; try done. by destruct s.
Qed.
Lemma bigd_sum l x : bigd x → Forall bigd l → bigd (foldl d_add x l).
Proof. intros Hx Hl. revert x Hx. induction Hl as [|y l Hy Hl IH]; intros x Hx; [done|]. simpl. by apply IH, bigd_add. Qed.
Lemma bigd_sum_0 l : l ≠ [] → Forall bigd l → bigd (foldl d_add d_zero l).
Proof.
  intros Hne Hl. destruct Hl as [|y l Hy Hl]; [done|]. simpl. apply bigd_sum; [|done].
  destruct Hy as (b & -> & [->|[Hf Hp]]); [exists (B754_infinity false); split; [done|by left]|].
  pose proof (finite_pos _ Hf Hp) as (m & e & H & ->). exists (B754_finite false m e H). split; [done|]. by right.
Qed.
Lemma big_quot c g : 1 ≤ c ≤ 2 ^ 53 → 1 ≤ g ≤ 2 ^ 53 → (bpow radix2 (-53) <= rnd (IZR c / IZR g))%R ∧ small (IZR c / IZR g).
Proof.
  intros Hc Hg.
  assert (1 <= IZR g <= bpow radix2 53)%R as [Hg1 Hg2].
  { split; [apply (IZR_le 1); lia|]. rewrite <-(IZR_Zpower radix2) by lia. apply IZR_le. simpl. lia. }
  assert (1 <= IZR c <= bpow radix2 53)%R as [Hc1 Hc2].
  { split; [apply (IZR_le 1); lia|]. rewrite <-(IZR_Zpower radix2) by lia. apply IZR_le. simpl. lia. }
  assert (bpow radix2 (-53) <= IZR c / IZR g)%R as Hlo.
  { change (-53) with (- (53)). rewrite (bpow_opp radix2 53). unfold Rdiv. apply Rle_trans with (1 * / IZR g)%R.
    - rewrite Rmult_1_l. apply Rinv_le; lra.
    - apply Rmult_le_compat_r; [|lra]. left. apply Rinv_0_lt_compat. lra. }
  split; [rewrite <-(rnd_bpow (-53)) by lia; by apply rnd_le|].
  unfold small. rewrite Rabs_right by (pose proof (bpow_gt_0 radix2 (-53)); lra).
  apply Rle_trans with (bpow radix2 53); [|apply bpow_le; lia]. apply Rle_trans with (IZR c); [|done].
  unfold Rdiv. rewrite <-(Rmult_1_r (IZR c)) at 2. apply Rmult_le_compat_l; [lra|]. rewrite <-Rinv_1. apply Rinv_le; lra.
Qed.
Lemma bigd_quot c g x y : 1 ≤ c ≤ 2 ^ 53 → 1 ≤ g ≤ 2 ^ 53 → repr x (IZR c) → repr y (IZR g) → bigd (d_div x y).
Proof.
  intros Hc Hg Hx Hy. destruct (big_quot c g Hc Hg) as [Hb Hs].
  destruct (repr_div x y _ _ Hx Hy ltac:(apply not_0_IZR; lia) Hs) as (b & -> & Hf & Hr). exists b. split; [done|]. right. rewrite Hr. done.
Qed.
Lemma bigd_scaled c g : 1 ≤ c ≤ 2 ^ 53 → 2 ≤ g ≤ 2 ^ 53 → bigd (d_div (d_of_Z c) (d_sub (d_of_Z g) d_one)).
Proof.
  intros Hc Hg. apply (bigd_quot c (g - 1)); [done|lia|apply repr_of_Z_exact; lia|].
  rewrite <-(rnd_IZR (g - 1)) by lia. rewrite minus_IZR. apply repr_sub; [apply repr_of_Z_exact; lia|apply repr_of_Z_exact; lia|].
  rewrite <-minus_IZR. unfold small. rewrite <-abs_IZR. apply Rle_trans with (IZR (2 ^ 53)); [apply IZR_le; lia|]. rewrite (IZR_Zpower radix2) by lia. apply bpow_le. lia.
Qed.
Lemma big_share x deg : bigd x → 1 ≤ deg ≤ 2 ^ 53 → d_lt d_zero (d_mul x (d_div d_one (d_of_Z deg))) = true.
Proof.
  intros Hx Hd. assert (bigd (d_div d_one (d_of_Z deg))) as Hy by (apply (bigd_quot 1 deg); [lia|done|apply repr_of_Z_exact; lia|apply repr_of_Z_exact; lia]).
  revert Hy. generalize (d_div d_one (d_of_Z deg)). intros y Hy.
  destruct Hx as (bx & -> & Hx), Hy as (by_ & -> & Hy). destruct Hx as [->|[Fx Px]].
  { destruct Hy as [->|[Fy Py]]; [done|]. by destruct (finite_pos _ Fy Py) as (m & e & H & ->). }
  destruct Hy as [->|[Fy Py]].
  { by destruct (finite_pos _ Fx Px) as (m & e & H & ->). }
  assert (d_mul (B2SF bx) (B2SF by_) = B2SF (Bmult mode_NE bx by_ (prec_gt_0_ := dprec) (prec_lt_emax_ := demax))) as ->.
  { unfold d_mul. destruct bx as [sx|sx| |sx mx ex Bx], by_ as [sy|sy| |sy my ey By]; try done. simpl. rewrite B2SF_SF2B. apply round_aux_equiv. }
  pose proof (Bmult_correct 53 1024 dprec demax mode_NE bx by_) as Hc. pose proof (bpow_gt_0 radix2 (-53)) as Hp.
  destruct (Rlt_bool _ _) eqn:Hlt.
  - destruct Hc as (Hr & Hf & _). rewrite Fx, Fy in Hf. apply (repr_lt d_zero _ 0 (B2R (Bmult mode_NE bx by_ (prec_gt_0_ := dprec) (prec_lt_emax_ := demax))) repr_zero); [by eexists|].
    rewrite Hr. apply Rlt_le_trans with (bpow radix2 (-106)); [apply bpow_gt_0|]. rewrite <-(rnd_bpow (-106)) by lia. apply rnd_le.
    change (-106) with (-53 + -53). rewrite bpow_plus. apply Rmult_le_compat; lra.
  - destruct (finite_pos _ Fx Px) as (m & e & H & ->). destruct (finite_pos _ Fy Py) as (m' & e' & H' & ->). rewrite Hc. done.
Qed.
