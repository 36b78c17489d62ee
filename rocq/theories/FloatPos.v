(** Sums and quotients of positive doubles are positive. *)
From Coq Require Import Reals Lra Psatz.
From Flocq Require Import Core.Core IEEE754.BinarySingleNaN.
From Verif Require Import Float FloatProof.
Local Open Scope Z_scope.

(** a double (in canonical form) that is greater than 0 *)
Definition posd (x : dbl) : Prop := (∃ b : b64, x = B2SF b) ∧ d_lt d_zero x = true.

Lemma repr_zero : repr d_zero 0.
Proof. exists (B754_zero false : b64). done. Qed.
Lemma posd_cases (b : b64) : d_lt d_zero (B2SF b) = true → b = B754_infinity false ∨ is_finite b = true ∧ (0 < B2R b)%R.
Proof.
  intros Hl. destruct b as [s|s| |s m e Hb]; try done.
  - left. by destruct s.
  - right. split; [done|]. apply (repr_lt d_zero (B2SF (B754_finite s m e Hb)) 0 _ repr_zero); [|done]. eexists; done.
Qed.
Lemma posd_add x y : posd x → posd y → posd (d_add x y).
Proof.
  intros [[bx ->] Hx] [[by_ ->] Hy]. destruct (posd_cases bx Hx) as [->|[Fx Px]].
  { destruct (posd_cases by_ Hy) as [->|[Fy Py]]; [split; [by exists (B754_infinity false)|done]|].
    destruct by_ as [s|s| |s m e Hb]; try done. split; [by exists (B754_infinity false)|done]. }
  destruct (posd_cases by_ Hy) as [->|[Fy Py]].
  { destruct bx as [s|s| |s m e Hb]; try done; (split; [by exists (B754_infinity false)|done]). }
  assert (d_add (B2SF bx) (B2SF by_) = B2SF (Bplus mode_NE bx by_ (prec_gt_0_ := dprec) (prec_lt_emax_ := demax))) as Heq.
  { unfold d_add. destruct bx as [sx|sx| |sx mx ex Bx], by_ as [sy|sy| |sy my ey By]; try done.
    apply normalize_equiv. }
  rewrite Heq. split; [by eexists|].
  pose proof (Bplus_correct 53 1024 dprec demax mode_NE bx by_ Fx Fy) as Hc.
  destruct (Rlt_bool _ _) eqn:Hlt.
  - destruct Hc as (Hr & Hf & _). apply (repr_lt d_zero _ 0 (B2R (Bplus mode_NE bx by_ (prec_gt_0_ := dprec) (prec_lt_emax_ := demax))) repr_zero); [by eexists|].
    rewrite Hr. apply Rlt_le_trans with (B2R bx); [done|].
    rewrite <-(rnd_id (B2R bx)) at 1 by apply generic_format_B2R. apply rnd_le. lra.
  - destruct Hc as [Hc _]. rewrite Hc. assert (Bsign bx = false) as ->; [|done].
    clear -Hx. destruct bx as [s|s| |s m e Hb]; try done; by destruct s.
Qed.
Lemma posd_sum l x : posd x → Forall posd l → posd (foldl d_add x l).
Proof. intros Hx Hl. revert x Hx. induction Hl as [|y l Hy Hl IH]; intros x Hx; [done|]. simpl. by apply IH, posd_add. Qed.
Lemma posd_sum_0 l : l ≠ [] → Forall posd l → posd (foldl d_add d_zero l).
Proof.
  intros Hne Hl. destruct Hl as [|y l Hy Hl]; [done|]. simpl. apply posd_sum; [|done].
  destruct Hy as [[b ->] Hp]. destruct b as [s|s| |s m e Hb]; try done; (split; [|done]); by eexists.
Qed.
Lemma posd_not_zero x : posd x → d_eq x d_zero = false.
Proof. intros [_ Hp]. destruct x as [s|s| |s m e]; try done; by destruct s. Qed.

(** the scaled cost of a net with positive cost and at least two vertices *)
Lemma posd_scaled c g : 1 ≤ c ≤ 2 ^ 53 → 2 ≤ g ≤ 2 ^ 53 → posd (d_div (d_of_Z c) (d_sub (d_of_Z g) d_one)).
Proof.
  intros Hc Hg.
  assert (repr (d_sub (d_of_Z g) d_one) (IZR (g - 1))) as Hsub.
  { rewrite <-(rnd_IZR (g - 1)) by lia. rewrite minus_IZR. apply repr_sub; [apply repr_of_Z_exact; lia|apply repr_of_Z_exact; lia|].
    rewrite <-minus_IZR. unfold small. rewrite <-abs_IZR. apply Rle_trans with (IZR (2 ^ 53)); [apply IZR_le; lia|]. rewrite (IZR_Zpower radix2) by lia. apply bpow_le. lia. }
  assert (repr (d_of_Z c) (IZR c)) as Hcr by (apply repr_of_Z_exact; lia).
  assert (1 <= IZR (g - 1) <= bpow radix2 53)%R as [Hg1 Hg2].
  { split; [apply (IZR_le 1); lia|]. rewrite <-(IZR_Zpower radix2) by lia. apply IZR_le. simpl. lia. }
  assert (1 <= IZR c <= bpow radix2 53)%R as [Hc1 Hc2].
  { split; [apply (IZR_le 1); lia|]. rewrite <-(IZR_Zpower radix2) by lia. apply IZR_le. simpl. lia. }
  assert (bpow radix2 (-53) <= IZR c / IZR (g - 1))%R as Hlo.
  { change (-53) with (- (53)). rewrite (bpow_opp radix2 53). unfold Rdiv. apply Rle_trans with (1 * / IZR (g - 1))%R.
    - rewrite Rmult_1_l. apply Rinv_le; lra.
    - apply Rmult_le_compat_r; [|lra]. left. apply Rinv_0_lt_compat. lra. }
  assert (repr (d_div (d_of_Z c) (d_sub (d_of_Z g) d_one)) (rnd (IZR c / IZR (g - 1)))) as Hd.
  { apply repr_div; [done|done|lra|]. unfold small. rewrite Rabs_right by (pose proof (bpow_gt_0 radix2 (-53)); lra).
    apply Rle_trans with (bpow radix2 53); [|apply bpow_le; lia]. apply Rle_trans with (IZR c); [|done].
    unfold Rdiv. rewrite <-(Rmult_1_r (IZR c)) at 2. apply Rmult_le_compat_l; [lra|]. rewrite <-Rinv_1. apply Rinv_le; lra. }
  split; [destruct Hd as (b & -> & _); by exists b|]. apply (repr_lt _ _ _ _ repr_zero Hd).
  apply Rlt_le_trans with (bpow radix2 (-53)); [apply bpow_gt_0|].
  assert (rnd (bpow radix2 (-53)) = bpow radix2 (-53)) as <- by (apply rnd_id, generic_format_bpow; unfold fexp64, SpecFloat.fexp, emin; lia). by apply rnd_le.
Qed.
