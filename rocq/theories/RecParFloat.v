(** Proofs about the local limits and the number of processors of recursive bisection (RecursivePar.v). *)
From Coq Require Import Reals Lra.
From Flocq Require Import Core.Core IEEE754.BinarySingleNaN.
From Verif Require Export RecursivePar.
From Verif Require Import FloatProof LimitProof CollDef.
Local Open Scope Z_scope.

Lemma ceil_div m d : 0 < d → (m + d - 1) / d = - (- m / d).
Proof.
  intros Hd. pose proof (Z.div_mod (- m) d ltac:(lia)). pose proof (Z.mod_pos_bound (- m) d Hd).
  pose proof (Z.div_mod (m + d - 1) d ltac:(lia)). pose proof (Z.mod_pos_bound (m + d - 1) d Hd). nia.
Qed.
Lemma repr_ceil x r : repr x r → (0 <= r <= IZR (2 ^ 52))%R → repr (d_ceil x) (IZR (Zceil r)).
Proof.
  intros (b & -> & Hf & <-) Hr. destruct b as [s|s| |s m e Hb]; try done.
  - simpl in *. exists (B754_zero s). split; [done|]. split; [done|]. simpl. by rewrite (Zceil_IZR 0).
  - unfold B2SF, d_ceil, B2R in *. destruct s.
    { exfalso. assert (F2R (Float radix2 (cond_Zopp true (Zpos m)) e) < 0)%R; [|lra]. by apply F2R_lt_0. }
    case_decide as He.
    + exists (B754_finite false m e Hb). split; [done|]. split; [done|]. unfold B2R, F2R. cbn [Fnum Fexp cond_Zopp].
      rewrite <-(IZR_Zpower radix2) by done. rewrite <-mult_IZR. by rewrite Zceil_IZR.
    + assert (0 < 2 ^ (- e)) as Hd by (apply Z.pow_pos_nonneg; lia).
      assert (F2R (Float radix2 (cond_Zopp false (Zpos m)) e) = IZR (Zpos m) / IZR (2 ^ (- e)))%R as Hv.
      { unfold F2R. cbn [Fnum Fexp cond_Zopp]. change (2 ^ (- e)) with (radix2 ^ (- e)). rewrite (IZR_Zpower radix2) by lia. unfold Rdiv. f_equal.
        rewrite <-bpow_opp. f_equal. lia. }
      assert (Zceil (F2R (Float radix2 (cond_Zopp false (Zpos m)) e)) = (Zpos m + 2 ^ (- e) - 1) / 2 ^ (- e)) as Hc.
      { rewrite ceil_div by done. unfold Zceil. f_equal. rewrite Hv. replace (- (IZR (Zpos m) / IZR (2 ^ (- e))))%R with (IZR (- Zpos m) / IZR (2 ^ (- e)))%R.
        - apply Zfloor_div. lia.
        - rewrite opp_IZR. unfold Rdiv. ring. }
      rewrite Hc. apply repr_of_Z_exact. rewrite <-Hc.
      assert (0 ≤ Zceil (F2R (Float radix2 (cond_Zopp false (Zpos m)) e)) ≤ 2 ^ 52); [|lia]. split.
      * apply le_IZR. eapply Rle_trans; [|apply Zceil_ub]. lra.
      * apply Zceil_glb. lra.
Qed.
Lemma repr_trunc_some x r z : repr x r → (0 <= r)%R → d_trunc x = Some z → z = Zfloor r.
Proof.
  intros HR Hr Hz. destruct (Rlt_le_dec r (IZR (2 ^ 63))) as [Hlt|Hge].
  - rewrite (repr_trunc _ _ HR) in Hz; [congruence|done].
  - exfalso. destruct HR as (b & -> & Hf & <-). destruct b as [s|s| |s m e Hb]; try done.
    + simpl in Hge. assert (0 < IZR (2 ^ 63))%R by (apply (IZR_lt 0); lia). lra.
    + unfold B2SF, d_trunc, B2R in *. destruct s.
      { assert (F2R (Float radix2 (cond_Zopp true (Zpos m)) e) < 0)%R; [by apply F2R_lt_0|lra]. }
      set (a := if decide (0 ≤ e) then Zpos m * 2 ^ e else Zpos m / 2 ^ (- e)) in *.
      assert (Zfloor (F2R (Float radix2 (cond_Zopp false (Zpos m)) e)) = a) as Ha.
      { unfold a, F2R. cbn [Fnum Fexp cond_Zopp]. destruct (decide (0 ≤ e)) as [He|He].
        - rewrite <-(IZR_Zpower radix2) by done. rewrite <-mult_IZR. apply Zfloor_IZR.
        - rewrite <-(Zfloor_div (Zpos m) (2 ^ (- e))); [|pose proof (Z.pow_pos_nonneg 2 (- e)); lia]. f_equal.
          change (2 ^ (- e)) with (radix2 ^ (- e)). rewrite (IZR_Zpower radix2) by lia. unfold Rdiv. f_equal. rewrite <-bpow_opp. f_equal. lia. }
      assert (2 ^ 63 ≤ a) by (rewrite <-Ha; by apply Zfloor_lub). rewrite decide_False in Hz by lia. done.
Qed.

(** rounding does not lose the part of a quotient above an integer *)
Lemma rnd_quot_ceil a b : 0 ≤ a ≤ 2 ^ 50 → 0 < b ≤ 2 ^ 50 → (IZR a <= IZR (Zceil (rnd (IZR a / IZR b))) * IZR b)%R.
Proof.
  intros Ha Hb. set (x := (IZR a / IZR b)%R). assert (0 < IZR b)%R as Hb0 by (apply (IZR_lt 0); lia).
  pose proof (div_bounds a b Ha ltac:(lia)) as [X0 X1]. fold x in X0, X1.
  destruct (Z.le_gt_cases a (Zceil (rnd x) * b)) as [Hle|Hgt]; [rewrite <-mult_IZR; by apply IZR_le|]. exfalso.
  set (n := Zceil (rnd x)) in *. pose proof (Zceil_ub (rnd x)) as Hn. fold n in Hn.
  assert (IZR n * IZR b + 1 <= IZR a)%R as H1 by (rewrite <-mult_IZR, <-plus_IZR; apply IZR_le; lia).
  assert (x * IZR b = IZR a)%R as Hx by (unfold x; field; lra).
  pose proof (rnd_err x) as He. rewrite (Rabs_pos_eq x X0) in He. apply Rabs_le_inv in He. unfold uu in He.
  assert (1 <= (x - IZR n) * IZR b)%R as H2 by lra.
  assert (x - IZR n <= / 9007199254740992 * x + / 9007199254740992 * / 9007199254740992 * / 9007199254740992)%R as H3 by lra.
  assert ((x - IZR n) * IZR b <= (/ 9007199254740992 * x + / 9007199254740992 * / 9007199254740992 * / 9007199254740992) * IZR b)%R as H4 by (apply Rmult_le_compat_r; lra).
  pose proof (IZR_pow2_50 a ltac:(lia)). pose proof (IZR_pow2_50 b ltac:(lia)).
  assert ((/ 9007199254740992 * x + / 9007199254740992 * / 9007199254740992 * / 9007199254740992) * IZR b
    = / 9007199254740992 * IZR a + / 9007199254740992 * / 9007199254740992 * / 9007199254740992 * IZR b)%R as H5 by (rewrite <-Hx; ring). lra.
Qed.

(** the limit is enough for the share of a processor *)
Lemma wpe_local_limit (E : err → Prop) total procs eta (Q : Z → Prop) : 0 ≤ total ≤ 2 ^ 50 → 0 < procs ≤ 2 ^ 50 →
  valid_binary 53 1024 eta = true → d_le d_zero eta = true → d_le eta (d_of_Z (2 ^ 50)) = true → E UB ∨ d_le eta (d_of_Z 1024) = true →
  (∀ z, 0 ≤ z → total ≤ z * procs → Q z) → wpe E (local_limit total procs eta) Q.
Proof.
  intros Ht Hp Hv H0 H1 HE HQ. unfold local_limit.
  assert (∃ e, repr eta e ∧ (0 <= e <= IZR (2 ^ 50))%R) as (e & Re & He).
  { assert (∃ e, repr eta e) as [e Re].
    { exists (B2R (SF2B eta Hv)), (SF2B eta Hv). split; [by rewrite B2SF_SF2B|]. split; [|done].
      rewrite is_finite_SF2B. destruct eta as [s|s| |s m x]; try done. destruct s; [by vm_compute in H0|by vm_compute in H1]. }
    exists e. split; [done|]. split.
    - apply (repr_le d_zero eta 0 e); [|done|done]. apply (repr_of_Z_exact 0). lia.
    - apply (repr_le eta (d_of_Z (2 ^ 50)) e); [done| |done]. apply repr_of_Z_exact. lia. }
  pose proof (div_bounds total procs Ht ltac:(lia)) as [X0 X1]. set (x := (IZR total / IZR procs)%R) in *.
  assert (repr (d_div (d_of_Z total) (d_of_Z procs)) (rnd x)) as Rx.
  { apply repr_div; [apply repr_of_Z_exact; lia..|apply IZR_neq; lia|]. apply small_bound. fold x. rewrite Rabs_pos_eq by done. lra. }
  pose proof (rnd_pos x X0) as R0. pose proof (rnd_ub x X0) as R1. unfold uu in R1.
  pose proof (repr_ceil _ _ Rx) as Rc. change (IZR (2 ^ 52)) with 4503599627370496%R in Rc.
  specialize (Rc ltac:(lra)). pose proof (rnd_quot_ceil total procs Ht Hp) as Hq. fold x in Hq.
  assert (0 ≤ Zceil (rnd x) ≤ 2 ^ 52) as Hc.
  { split; [apply le_IZR; eapply Rle_trans; [exact R0|apply Zceil_ub]|]. apply Zceil_glb. change (2 ^ 52) with 4503599627370496. lra. }
  set (c := Zceil (rnd x)) in *.
  change (IZR (2 ^ 50)) with 1125899906842624%R in He.
  assert (repr (d_add d_one eta) (rnd (1 + e))) as R2.
  { apply repr_add; [apply (repr_of_Z_exact 1); lia|done|]. apply small_bound. rewrite Rabs_pos_eq by lra. lra. }
  assert (1 <= rnd (1 + e))%R as B0 by (rewrite <-rnd_1 at 1; apply rnd_le; lra). pose proof (rnd_ub (1 + e) ltac:(lra)) as B1. unfold uu in B1.
  assert (0 <= IZR c <= 4503599627370496)%R as Hc' by (split; [apply (IZR_le 0)|apply (IZR_le _ 4503599627370496)]; lia).
  assert (repr (d_mul (d_ceil (d_div (d_of_Z total) (d_of_Z procs))) (d_add d_one eta)) (rnd (IZR c * rnd (1 + e)))) as R3.
  { apply repr_mul; [done|done|]. apply small_bound. rewrite Rabs_pos_eq by nra. apply Rle_trans with (4503599627370496 * 9007199254740992)%R; [|lra].
    apply Rmult_le_compat; lra. }
  unfold d_to_Z. destruct (d_trunc _) as [z|] eqn:Hz.
  2: { destruct HE as [HE|HE]; [by apply wpe_fail|]. exfalso.
    assert (e <= 1024)%R as He' by (apply (repr_le eta (d_of_Z 1024) e 1024) in HE; [done|done|apply (repr_of_Z_exact 1024); lia]).
    assert (rnd x <= 1125899906842624)%R as Hr50. { rewrite <-(rnd_IZR 1125899906842624) by lia. by apply rnd_le. }
    assert (c ≤ 1125899906842624) as Hc50 by (apply Zceil_glb; done). apply IZR_le in Hc50.
    assert (rnd (1 + e) <= 1025)%R as Hb. { rewrite <-(rnd_IZR 1025) by lia. apply rnd_le. simpl. lra. }
    assert (IZR c * rnd (1 + e) <= 1125899906842624 * 1025)%R as Hpr by (apply Rmult_le_compat; lra).
    pose proof (rnd_ub (IZR c * rnd (1 + e)) ltac:(nra)) as Hu. unfold uu in Hu. pose proof (rnd_pos (IZR c * rnd (1 + e)) ltac:(nra)).
    rewrite (repr_trunc _ _ R3) in Hz; [done|]. split; [done|]. change (IZR (2 ^ 63)) with 9223372036854775808%R. lra. }
  apply wpe_of_option_Some with z; [done|].
  assert (IZR c <= rnd (IZR c * rnd (1 + e)))%R as Hge by (rewrite <-(rnd_IZR c) at 1 by lia; apply rnd_le; nra).
  apply (repr_trunc_some _ _ _ R3) in Hz; [|lra].
  assert (c ≤ z) as Hcz by (rewrite Hz; by apply Zfloor_lub).
  apply HQ; [lia|]. apply Z.le_trans with (c * procs); [apply le_IZR; by rewrite mult_IZR|nia].
Qed.

Lemma wpe_p_low (E : err → Prop) w0 w1 p kl kh (Q : Z → Prop) : 0 ≤ w0 → 0 ≤ w1 → w0 + w1 ≤ 2 ^ 50 → 1 ≤ p ≤ 2 ^ 50 → E UB →
  (∀ q, 0 ≤ q ≤ p → (kl = 1 → 1 < kh → q = 0) → (2 ≤ p → 1 < kl → q = 0 → 3 * w0 < w1) → Q q) → wpe E (p_low_par w0 w1 p kl kh) Q.
Proof.
  intros H0 H1 Hw Hp HE HQ. unfold p_low_par. destruct (decide (w0 + w1 = 0)) as [Hz|Hz].
  - assert (w0 = 0) as -> by lia. assert (w1 = 0) as -> by lia. unfold p_low_of. change (0 + 0) with 0.
    destruct (d_trunc _) as [q|] eqn:Hq; [|by apply wpe_fail]. exfalso. revert Hq. change (d_div (d_of_Z 0) (d_of_Z 0)) with S754_nan. by vm_compute.
  - destruct (p_low_range w0 w1 p kl kh) as (q & Hq & Hr & Hsm); [lia..|]. rewrite Hq. apply wpe_of_option_Some with q; [done|]. apply HQ; [done| |intros Hp' Hkl; apply Hsm; lia].
    intros -> Hk. unfold p_low_of in Hq. destruct (d_trunc _); [|done]. cbn [mbind option_bind] in Hq. rewrite decide_True in Hq by lia. congruence.
Qed.
Lemma d_le_1024 eta : valid_binary 53 1024 eta = true → d_le d_zero eta = true → d_le eta (d_of_Z 1024) = true → d_le eta (d_of_Z (2 ^ 50)) = true.
Proof.
  intros Hv H0 H1.
  assert (repr eta (B2R (SF2B eta Hv))) as Re.
  { exists (SF2B eta Hv). split; [by rewrite B2SF_SF2B|]. split; [|done].
    rewrite is_finite_SF2B. destruct eta as [s|s| |s m x]; try done. destruct s; [by vm_compute in H0|by vm_compute in H1]. }
  apply (repr_le _ _ _ _ Re (repr_of_Z_exact 1024 ltac:(lia))) in H1. apply (repr_le _ _ _ _ Re (repr_of_Z_exact (2 ^ 50) ltac:(lia))).
  eapply Rle_trans; [exact H1|]. apply IZR_le. lia.
Qed.
