(** Proofs about compute_max_global_weight in binary64 arithmetic. *)
From Coq Require Import Reals Lra Psatz.
From Flocq Require Import Core.Core Relative IEEE754.BinarySingleNaN.
From Verif Require Import FloatProof.
From Verif Require Export Recursive.
Local Open Scope Z_scope.

(** ** Rounding errors *)
Definition uu : R := (/ 9007199254740992)%R.
Lemma rnd_err r : (Rabs (rnd r - r) <= uu * Rabs r + uu * uu * uu)%R.
Proof.
  destruct (error_N_FLT radix2 (-1074) 53 ltac:(lia) (λ x, negb (Z.even x)) r) as (e & t & He & Ht & _ & Heq).
  assert (rnd r = r * (1 + e) + t)%R as ->.
  { rewrite <-Heq. unfold rnd, fexp64. apply round_ext. intros ?. done. }
  replace (r * (1 + e) + t - r)%R with (e * r + t)%R by ring.
  eapply Rle_trans; [apply Rabs_triang|]. rewrite Rabs_mult. apply Rplus_le_compat.
  - apply Rmult_le_compat_r; [apply Rabs_pos|]. eapply Rle_trans; [exact He|]. simpl (bpow _ _). unfold uu. lra.
  - eapply Rle_trans; [exact Ht|]. apply Rle_trans with (/ 2 * bpow radix2 (-160))%R.
    + apply Rmult_le_compat_l; [lra|]. apply bpow_le. lia.
    + simpl (bpow _ _). unfold uu. lra.
Qed.
Lemma rnd_ub r : (0 <= r)%R → (rnd r <= r + uu * r + uu * uu * uu)%R.
Proof. intros Hr. pose proof (rnd_err r) as He. apply Rabs_le_inv in He. rewrite (Rabs_pos_eq r Hr) in He. lra. Qed.
Lemma rnd_pos r : (0 <= r)%R → (0 <= rnd r)%R.
Proof. intros Hr. rewrite <-rnd_0. by apply rnd_le. Qed.
Lemma rnd_rnd r : rnd (rnd r) = rnd r.
Proof.
  apply rnd_id. apply generic_format_round; [apply (fexp_correct 53 1024 dprec)|apply valid_rnd_N].
Qed.
Lemma rnd_m1 : rnd (-1) = (-1)%R.
Proof. apply (rnd_IZR (-1)). lia. Qed.
Lemma small_bound r : (Rabs r <= 2 ^ 200)%R → small r.
Proof. intros Hr. eapply Rle_trans; [exact Hr|]. replace (2 ^ 200)%R with (bpow radix2 200) by (simpl; lra). apply bpow_le. lia. Qed.

(** truncation of a nonnegative double *)
Lemma repr_trunc x r : repr x r → (0 <= r < IZR (2 ^ 63))%R → d_trunc x = Some (Zfloor r).
Proof.
  intros (b & -> & Hf & <-) Hr. destruct b as [s|s| |s m e Hb]; try done.
  - simpl in *. change 0%R with (IZR 0). by rewrite Zfloor_IZR.
  - unfold B2SF, d_trunc, B2R in *. destruct s.
    { exfalso. assert (F2R (Float radix2 (cond_Zopp true (Zpos m)) e) < 0)%R; [|lra]. by apply F2R_lt_0. }
    set (a := if decide (0 ≤ e) then Zpos m * 2 ^ e else Zpos m / 2 ^ (- e)).
    assert (Zfloor (F2R (Float radix2 (cond_Zopp false (Zpos m)) e)) = a) as Ha.
    { unfold a, F2R. cbn [Fnum Fexp cond_Zopp]. case_decide as He.
      - change (bpow radix2 e) with (bpow radix2 e). rewrite <-(IZR_Zpower radix2) by done. rewrite <-mult_IZR. apply Zfloor_IZR.
      - rewrite <-(Zfloor_div (Zpos m) (2 ^ (- e))); [|pose proof (Z.pow_pos_nonneg 2 (- e)); lia]. f_equal.
        change (2 ^ (- e)) with (radix2 ^ (- e)). rewrite (IZR_Zpower radix2) by lia. unfold Rdiv. f_equal. rewrite <-bpow_opp. f_equal. lia. }
    rewrite Ha. cbv zeta. rewrite decide_True; [done|].
    assert (0 ≤ a < 2 ^ 63) by (rewrite <-Ha; split; [apply Zfloor_lub; lra|]; apply lt_IZR; eapply Rle_lt_trans; [apply Zfloor_lb|lra]).
    lia.
Qed.

(** ** Division by a part of weight 0 *)
Definition bad (x : dbl) : Prop := x = S754_nan ∨ ∃ s, x = S754_infinity s.
Definition fin (x : dbl) : Prop := ∃ r, repr x r.
Lemma bad_sub x y : bad x → fin y → bad (d_sub x y).
Proof. intros [->|[s ->]] (r & b & -> & Hf & _); [by left|]. destruct b; try done; right; by eexists. Qed.
Lemma bad_add x y : fin x → bad y → bad (d_add x y).
Proof. intros (r & b & -> & Hf & _) [->|[s ->]]; destruct b; try done; (left; done) || (right; by eexists). Qed.
Lemma bad_div x y : bad x → fin y → bad (d_div x y).
Proof. intros [->|[s ->]] (r & b & -> & Hf & _); [by left|]. destruct b; try done; right; by eexists. Qed.
Lemma bad_div0 x : fin x → bad (d_div x (S754_zero false)).
Proof. intros (r & b & -> & Hf & _). destruct b; try done; [by left|right; by eexists]. Qed.
Lemma bad_mul0 s y : bad y → d_mul (S754_zero s) y = S754_nan.
Proof. intros [->|[t ->]]; done. Qed.
Lemma fin_Z z : Z.abs z ≤ 2 ^ 53 → fin (d_of_Z z).
Proof. intros Hz. eexists. by apply repr_of_Z_exact. Qed.
Lemma zero_div y r : repr y r → r ≠ 0%R → ∃ s, d_div (S754_zero false) y = S754_zero s.
Proof. intros (b & -> & Hf & <-) Hr. destruct b; try done. simpl. by eexists. Qed.
Lemma zero_mul s y : fin y → ∃ s', d_mul (S754_zero s) y = S754_zero s'.
Proof. intros (r & b & -> & Hf & _). destruct b; try done; by eexists. Qed.

Lemma wpe_q_of E k (Q : Z → Prop) : 0 < k → Q (Z.log2 k + 1) → wpe E (q_of k) Q.
Proof. intros Hk HQ. unfold q_of. rewrite bool_decide_true by done. apply wpe_bind. simpl. by apply wpe_ret, wpe_ret. Qed.

Lemma log2_small k : 0 < k ≤ 2 ^ 50 → 0 ≤ Z.log2 k ≤ 50.
Proof. intros Hk. split; [apply Z.log2_nonneg|]. rewrite <-(Z.log2_pow2 50) by lia. apply Z.log2_le_mono. lia. Qed.

(** a part of weight 0 makes the limit undefined *)
Lemma side_limit_zero (E : err → Prop) k_ kx eps (Q : Z → Prop) : 0 < k_ ≤ 2 ^ 50 → 0 < kx ≤ 2 ^ 50 → bad eps → E UB → wpe E (side_limit 0 k_ kx eps) Q.
Proof.
  intros Hk Hx He HE. unfold side_limit. apply wpe_bind, wpe_q_of; [lia|]. pose proof (log2_small kx Hx).
  assert (bad (d_add d_one (d_div eps (d_of_Z (Z.log2 kx + 1))))) as Hb.
  { apply bad_add; [apply fin_Z; lia|]. apply bad_div; [done|]. apply fin_Z. lia. }
  change (d_of_Z 0) with (S754_zero false).
  destruct (zero_div (d_of_Z k_) (IZR k_)) as [s ->]; [apply repr_of_Z_exact; lia|apply IZR_neq; lia|].
  destruct (zero_mul s (d_of_Z kx)) as [s' ->]; [apply fin_Z; lia|]. rewrite bad_mul0 by done. by apply wpe_fail.
Qed.

(** ** The limits of a part of positive weight *)
Lemma IZR_pow2_50 z : z ≤ 2 ^ 50 → (IZR z <= 1125899906842624)%R.
Proof. intros Hz. apply (IZR_le _ 1125899906842624). lia. Qed.

Lemma div_bounds a b : 0 ≤ a ≤ 2 ^ 50 → 0 < b → (0 <= IZR a / IZR b <= 1125899906842624)%R.
Proof.
  intros Ha Hb. assert (1 <= IZR b)%R by (apply (IZR_le 1); lia). assert (0 <= IZR a)%R by (apply (IZR_le 0); lia). pose proof (IZR_pow2_50 a ltac:(lia)).
  split; [apply Rmult_le_pos; [done|]; apply Rlt_le, Rinv_0_lt_compat; lra|].
  apply Rmult_le_reg_r with (IZR b); [lra|]. unfold Rdiv. rewrite Rmult_assoc, Rinv_l, Rmult_1_r by lra. nra.
Qed.

Lemma eps_repr M k_ W : 0 ≤ M * k_ ≤ 2 ^ 50 → 0 < W ≤ 2 ^ 50 →
  ∃ e, repr (d_sub (d_div (d_of_Z (M * k_)) (d_of_Z W)) d_one) e ∧ (-1 <= e)%R ∧ rnd e = e ∧
    let x := (IZR (M * k_) / IZR W)%R in
    (1 + e <= x + 3 * uu * x + 2 * uu)%R ∧ (e <= 4503599627370496)%R.
Proof.
  intros HM HW. set (x := (IZR (M * k_) / IZR W)%R). pose proof (div_bounds (M * k_) W HM ltac:(lia)) as [X0 X1]. fold x in X0, X1.
  assert (0 < IZR W)%R by (apply (IZR_lt 0); lia).
  assert (repr (d_div (d_of_Z (M * k_)) (d_of_Z W)) (rnd x)) as Ha.
  { apply repr_div; [apply repr_of_Z_exact; lia..|lra|]. apply small_bound. fold x. rewrite Rabs_pos_eq by done. eapply Rle_trans; [exact X1|]. lra. }
  pose proof (rnd_ub x X0) as A1. pose proof (rnd_pos x X0) as A0. set (a := rnd x) in *.
  exists (rnd (a - 1)). assert (Rabs (a - 1) <= a + 1)%R as Habs by (apply Rabs_le; lra).
  pose proof (rnd_err (a - 1)) as He. apply Rabs_le_inv in He. unfold uu in *.
  split; [|split; [|split; [apply rnd_rnd|]]].
  - apply repr_sub; [done|apply (repr_of_Z_exact 1); lia|]. apply small_bound. eapply Rle_trans; [exact Habs|]. lra.
  - rewrite <-rnd_m1 at 1. apply rnd_le. lra.
  - cbv zeta. fold x. split; lra.
Qed.

Lemma side_limit_floor E k_ kx W eps e (Q : Z → Prop) : 0 < k_ ≤ 2 ^ 50 → 0 < kx ≤ k_ → 0 < W ≤ 2 ^ 50 →
  repr eps e → (-1 <= e <= 4503599627370496)%R → (IZR W * (1 + e) <= 2251799813685248)%R → rnd e = e →
  (let P := rnd (rnd (rnd (IZR W / IZR k_) * IZR kx) * rnd (1 + rnd (e / IZR (Z.log2 kx + 1)))) in
   (0 <= P)%R → (kx = 1 → P = rnd (rnd (IZR W / IZR k_) * rnd (1 + e))) → Q (Zfloor P)) →
  wpe E (side_limit W k_ kx eps) Q.
Proof.
  intros Hk Hx HW He Heb HWe Hre HQ. unfold side_limit. apply wpe_bind, wpe_q_of; [lia|]. pose proof (log2_small kx ltac:(lia)) as Hl.
  set (q := Z.log2 kx + 1) in *. assert (1 <= IZR q)%R as Hq by (apply (IZR_le 1); lia).
  pose proof (div_bounds W k_ ltac:(lia) ltac:(lia)) as [C0 C1]. set (w := (IZR W / IZR k_)%R) in *.
  pose proof (rnd_ub w C0) as C3. pose proof (rnd_pos w C0) as C2. set (c := rnd w) in *. unfold uu in *.
  assert (1 <= IZR kx <= 1125899906842624)%R as Hkx by (split; [apply (IZR_le 1); lia|apply IZR_pow2_50; lia]).
  assert (IZR kx <= IZR k_)%R as Hkk by (apply IZR_le; lia). assert (1 <= IZR k_)%R as Hk1 by (apply (IZR_le 1); lia).
  assert (1 <= IZR W <= 1125899906842624)%R as HWr by (split; [apply (IZR_le 1); lia|apply IZR_pow2_50; lia]).
  assert (repr (d_div (d_of_Z W) (d_of_Z k_)) c) as Rc.
  { apply repr_div; [apply repr_of_Z_exact; lia..|apply IZR_neq; lia|]. apply small_bound. fold w. rewrite Rabs_pos_eq by done. lra. }
  assert (w * IZR k_ = IZR W)%R as Hwk by (unfold w; field; lra).
  assert (0 <= c * IZR kx <= 2 * IZR W + 1)%R as Hck.
  { split; [nra|]. apply Rle_trans with ((w * 1.5 + / 1125899906842624) * IZR kx)%R; [apply Rmult_le_compat_r; lra|].
    assert (w * IZR kx <= IZR W)%R by (rewrite <-Hwk; apply Rmult_le_compat_l; lra). lra. }
  assert (repr (d_mul (d_div (d_of_Z W) (d_of_Z k_)) (d_of_Z kx)) (rnd (c * IZR kx))) as Rck.
  { apply repr_mul; [done|apply repr_of_Z_exact; lia|]. apply small_bound. rewrite Rabs_pos_eq by lra. lra. }
  assert (-1 <= e / IZR q <= 4503599627370496)%R as Hd.
  { split; apply Rmult_le_reg_r with (IZR q); try lra; unfold Rdiv; rewrite Rmult_assoc, Rinv_l, Rmult_1_r by lra; nra. }
  assert (e / IZR q <= e ∨ e / IZR q <= 0)%R as Hde.
  { destruct (Rle_dec 0 e) as [He0|He0].
    - left. apply Rmult_le_reg_r with (IZR q); [lra|]. unfold Rdiv; rewrite Rmult_assoc, Rinv_l, Rmult_1_r by lra. nra.
    - right. apply Rmult_le_reg_r with (IZR q); [lra|]. unfold Rdiv; rewrite Rmult_assoc, Rinv_l, Rmult_1_r by lra. lra. }
  assert (repr (d_div eps (d_of_Z q)) (rnd (e / IZR q))) as Rd.
  { apply repr_div; [done|apply repr_of_Z_exact; lia|lra|]. apply small_bound. apply Rabs_le. lra. }
  pose proof (rnd_le _ _ (proj1 Hd)) as D1. rewrite rnd_m1 in D1. pose proof (rnd_le _ _ (proj2 Hd)) as D2. rewrite (rnd_IZR 4503599627370496) in D2 by lia.
  assert (rnd (e / IZR q) <= e ∨ rnd (e / IZR q) <= 0)%R as D3.
  { destruct Hde as [Hde|Hde]; apply rnd_le in Hde; [rewrite Hre in Hde; by left|rewrite rnd_0 in Hde; by right]. }
  assert (kx = 1 → rnd (e / IZR q) = e) as D4.
  { intros ->. unfold q. change (Z.log2 1 + 1) with 1. unfold Rdiv. by rewrite Rinv_1, Rmult_1_r. }
  set (d := rnd (e / IZR q)) in *.
  assert (repr (d_add d_one (d_div eps (d_of_Z q))) (rnd (1 + d))) as Rb.
  { apply repr_add; [apply (repr_of_Z_exact 1); lia|done|]. apply small_bound. apply Rabs_le. lra. }
  pose proof (rnd_pos (1 + d) ltac:(lra)) as B0. pose proof (rnd_ub (1 + d) ltac:(lra)) as B1. unfold uu in *.
  assert (IZR W * (1 + d) <= 2251799813685248)%R as HWd by (destruct D3; nra).
  pose proof (rnd_pos _ (proj1 Hck)) as K0. pose proof (rnd_ub _ (proj1 Hck)) as K1. unfold uu in *.
  assert (rnd (c * IZR kx) <= 4 * IZR W)%R as K2 by lra.
  assert (0 <= rnd (c * IZR kx) * rnd (1 + d) <= 36028797018963968)%R as Hprod.
  { split; [nra|]. apply Rle_trans with ((4 * IZR W) * (2 * (1 + d) + 1))%R; [apply Rmult_le_compat; lra|]. lra. }
  pose proof (rnd_pos _ (proj1 Hprod)) as P0. pose proof (rnd_ub _ (proj1 Hprod)) as P1. unfold uu in *.
  assert (repr (d_mul (d_mul (d_div (d_of_Z W) (d_of_Z k_)) (d_of_Z kx)) (d_add d_one (d_div eps (d_of_Z q)))) (rnd (rnd (c * IZR kx) * rnd (1 + d)))) as RP.
  { apply repr_mul; [done|done|]. apply small_bound. rewrite Rabs_pos_eq by lra. lra. }
  unfold d_to_Z. rewrite (repr_trunc _ _ RP).
  2:{ split; [done|]. change (2 ^ 63) with 9223372036854775808. lra. }
  simpl. apply wpe_ret, HQ; [done|].
  intros Hkx1. change (IZR (Z.log2 kx + 1)) with (IZR q). fold w c d. rewrite (D4 Hkx1), Hkx1, Rmult_1_r. unfold c. by rewrite rnd_rnd.
Qed.
Lemma side_limit_bound E k_ kx W eps e (Q : Z → Prop) : 0 < k_ ≤ 2 ^ 50 → 0 < kx ≤ k_ → 0 < W ≤ 2 ^ 50 →
  repr eps e → (-1 <= e <= 4503599627370496)%R → (IZR W * (1 + e) <= 2251799813685248)%R → rnd e = e →
  (∀ z, 0 ≤ z → (kx = 1 → (IZR z <= rnd (rnd (IZR W / IZR k_) * rnd (1 + e)))%R) →
     (IZR z <= rnd (rnd (rnd (IZR W / IZR k_) * IZR kx) * rnd (1 + rnd (e / IZR (Z.log2 kx + 1)))))%R → Q z) →
  wpe E (side_limit W k_ kx eps) Q.
Proof.
  intros Hk Hx HW He Heb HWe Hre HQ. eapply side_limit_floor; [done..|]. cbv zeta. intros HP H1. apply HQ.
  - by apply Zfloor_lub.
  - intros Hkx. rewrite <-(H1 Hkx). apply Zfloor_lb.
  - apply Zfloor_lb.
Qed.

(** the limit of a side that gets one label does not exceed the limit of a part *)
Lemma leaf_limit M k_ W e z : 2 ≤ k_ ≤ 2 ^ 50 → 0 ≤ M → M * k_ ≤ 2 ^ 50 → 0 < W ≤ 2 ^ 50 →
  (-1 <= e)%R → (1 + e <= IZR (M * k_) / IZR W + 3 * uu * (IZR (M * k_) / IZR W) + 2 * uu)%R →
  (IZR z <= rnd (rnd (IZR W / IZR k_) * rnd (1 + e)))%R → z ≤ M.
Proof.
  intros Hk HM HMk HW He1 He2 Hz. pose proof (div_bounds (M * k_) W ltac:(lia) ltac:(lia)) as [X0 X1]. set (x := (IZR (M * k_) / IZR W)%R) in *.
  assert (2 <= IZR k_)%R as Hk2 by (apply (IZR_le 2); lia).
  assert (1 <= IZR W <= 1125899906842624)%R as HWr by (split; [apply (IZR_le 1); lia|apply IZR_pow2_50; lia]).
  pose proof (div_bounds W k_ ltac:(lia) ltac:(lia)) as [C0 _]. set (w := (IZR W / IZR k_)%R) in *.
  assert (w <= 562949953421312)%R as C1.
  { apply Rmult_le_reg_r with (IZR k_); [lra|]. unfold w. replace (IZR W / IZR k_ * IZR k_)%R with (IZR W) by (field; lra). nra. }
  assert (w * x = IZR M)%R as Hwx by (unfold w, x; rewrite mult_IZR; field; lra).
  assert (0 <= IZR M <= 562949953421312)%R as HMr by (split; [apply (IZR_le 0); lia|apply (IZR_le M 562949953421312); lia]).
  pose proof (rnd_ub w C0) as C3. pose proof (rnd_pos w C0) as C2. pose proof (rnd_ub (1 + e) ltac:(lra)) as B1. pose proof (rnd_pos (1 + e) ltac:(lra)) as B0.
  set (c := rnd w) in *. set (b := rnd (1 + e)) in *. unfold uu in *.
  set (u := (/ 9007199254740992)%R) in *.
  assert (c <= w * (1 + u) + u * u)%R as C4 by (unfold u in *; lra).
  assert (b <= x * (1 + 5 * u) + 4 * u)%R as B2 by (unfold u in *; lra).
  assert (c * b <= (w * (1 + u) + u * u) * (x * (1 + 5 * u) + 4 * u))%R as Hcb by (apply Rmult_le_compat; lra).
  assert ((w * (1 + u) + u * u) * (x * (1 + 5 * u) + 4 * u) = IZR M * ((1 + u) * (1 + 5 * u)) + w * ((1 + u) * (4 * u)) + x * (u * u * (1 + 5 * u)) + u * u * (4 * u))%R as Hexp.
  { rewrite <-Hwx. ring. }
  assert (0 <= c * b)%R as Hcb0 by nra. pose proof (rnd_ub _ Hcb0) as P1. unfold uu in P1. fold u in P1.
  assert (IZR z < IZR (M + 1))%R as Hlt.
  { rewrite plus_IZR. eapply Rle_lt_trans; [exact Hz|]. eapply Rle_lt_trans; [exact P1|].
    assert (c * b <= IZR M + IZR M * (7 * u) + w * (5 * u) + x * (2 * (u * u)) + 1 / 1000)%R as Hs.
    { rewrite Hexp in Hcb. unfold u in *. lra. }
    assert (IZR M * (7 * u) <= 0.4376)%R by (unfold u; lra). assert (w * (5 * u) <= 0.32)%R by (unfold u; lra).
    assert (x * (2 * (u * u)) <= 0.001)%R by (unfold u; lra). unfold u in *. lra. }
  apply lt_IZR in Hlt. lia.
Qed.

(** two labels on both sides: the limit of a side is the average of half of the weight and twice the limit of a part, rounded *)
Lemma pair_limit M W e z : 0 ≤ M → M * 4 ≤ 2 ^ 50 → 0 < W ≤ 2 ^ 50 →
  (-1 <= e)%R → (1 + e <= IZR (M * 4) / IZR W + 3 * uu * (IZR (M * 4) / IZR W) + 2 * uu)%R →
  (IZR z <= rnd (rnd (rnd (IZR W / 4) * 2) * rnd (1 + rnd (e / 2))))%R → 4 * z ≤ W + 4 * M + 3.
Proof.
  intros HM HMk HW He1 He2 Hz. pose proof (div_bounds (M * 4) W ltac:(lia) ltac:(lia)) as [X0 X1]. set (x := (IZR (M * 4) / IZR W)%R) in *.
  assert (1 <= IZR W <= 1125899906842624)%R as HWr by (split; [apply (IZR_le 1); lia|apply IZR_pow2_50; lia]).
  set (w := (IZR W / 4)%R) in *. assert (0 <= w <= 281474976710656)%R as [C0 C1] by (unfold w; lra).
  assert (w * x = IZR M)%R as Hwx by (unfold w, x; rewrite mult_IZR; field; lra).
  assert (0 <= IZR M <= 281474976710656)%R as HMr by (split; [apply (IZR_le 0); lia|apply (IZR_le M 281474976710656); lia]).
  pose proof (rnd_ub w C0) as C3. pose proof (rnd_pos w C0) as C2. set (c := rnd w) in *.
  pose proof (rnd_ub (c * 2) ltac:(lra)) as C5. pose proof (rnd_pos (c * 2) ltac:(lra)) as C4. set (c2 := rnd (c * 2)) in *.
  pose proof (rnd_err (e / 2)) as D1. assert (Rabs (e / 2) <= x + 1)%R as D2 by (apply Rabs_le; unfold uu in *; lra).
  set (d := rnd (e / 2)) in *. apply Rabs_le_inv in D1.
  assert (-1 <= d)%R as D3 by (rewrite <-rnd_m1; apply rnd_le; lra).
  pose proof (rnd_ub (1 + d) ltac:(lra)) as B1. pose proof (rnd_pos (1 + d) ltac:(lra)) as B0. set (b := rnd (1 + d)) in *.
  unfold uu in *. set (u := (/ 9007199254740992)%R) in *.
  assert (c2 <= 2 * w * (1 + 3 * u) + u * u)%R as C6 by (unfold u in *; lra).
  assert (b <= (x + 1) / 2 * (1 + 6 * u) + 3 * u)%R as B2 by (unfold u in *; lra).
  assert (c2 * b <= (2 * w * (1 + 3 * u) + u * u) * ((x + 1) / 2 * (1 + 6 * u) + 3 * u))%R as Hcb by (apply Rmult_le_compat; lra).
  assert ((2 * w * (1 + 3 * u) + u * u) * ((x + 1) / 2 * (1 + 6 * u) + 3 * u) =
    (IZR M + w) * ((1 + 3 * u) * (1 + 6 * u)) + w * (2 * (1 + 3 * u) * (3 * u)) + x * (u * u * (1 + 6 * u) / 2) + u * u * ((1 + 6 * u) / 2 + 3 * u))%R as Hexp.
  { rewrite <-Hwx. field. }
  assert (0 <= c2 * b)%R as Hcb0 by nra. pose proof (rnd_ub _ Hcb0) as P1. unfold uu in P1. fold u in P1.
  assert (IZR (4 * z) < IZR (W + 4 * M + 4))%R as Hlt.
  { rewrite mult_IZR, !plus_IZR, mult_IZR. assert (IZR W = 4 * w)%R as -> by (unfold w; field).
    assert (c2 * b <= (IZR M + w) * (1 + 10 * u) + w * (7 * u) + x * (u * u) + 1 / 1000)%R as Hs.
    { rewrite Hexp in Hcb. unfold u in *. lra. }
    unfold u in *. lra. }
  apply lt_IZR in Hlt. lia.
Qed.

(** compute_max_global_weight: undefined for a part of weight 0, otherwise nonnegative limits, and a
    side with one label gets at most the limit of a part *)
Lemma wpe_compute_max_pair (E : err → Prop) k_ kl kh W M (Q : Z * Z → Prop) : 2 ≤ k_ ≤ 2 ^ 50 → 0 < kl ≤ k_ → 0 < kh ≤ k_ → 0 ≤ M → M * k_ ≤ 2 ^ 50 → 0 ≤ W ≤ 2 ^ 50 →
  (W = 0 → E UB) →
  (∀ a b, 0 < W → 0 ≤ a → 0 ≤ b → (kl = 1 → a ≤ M) → (kh = 1 → b ≤ M) → (k_ = 4 → kh = 2 → 4 * b ≤ W + 4 * M + 3) → Q (a, b)) →
  wpe E (compute_max_global_weight k_ kl kh W M) Q.
Proof.
  intros Hk Hl Hh HM HMk HW HE HQ. unfold compute_max_global_weight. cbv zeta.
  destruct (decide (W = 0)) as [->|HW0].
  { apply wpe_bind, side_limit_zero; [lia|lia| |by apply HE]. change (d_of_Z 0) with (S754_zero false).
    apply bad_sub; [|apply (fin_Z 1); lia]. apply bad_div0. apply fin_Z. lia. }
  destruct (eps_repr M k_ W ltac:(nia) ltac:(lia)) as (e & Re & He1 & Hre & Hx). cbv zeta in Hx. destruct Hx as (He2 & He3).
  assert (IZR W * (1 + e) <= 2251799813685248)%R as HWe.
  { assert (1 <= IZR W <= 1125899906842624)%R as HWr by (split; [apply (IZR_le 1); lia|apply IZR_pow2_50; lia]).
    pose proof (div_bounds (M * k_) W ltac:(nia) ltac:(lia)) as [X0 X1].
    assert (IZR W * (IZR (M * k_) / IZR W) = IZR (M * k_))%R as Hwx by (field; lra). pose proof (IZR_pow2_50 (M * k_) ltac:(lia)).
    set (x := (IZR (M * k_) / IZR W)%R) in *. unfold uu in *.
    apply Rle_trans with (IZR W * (x * (1 + 3 * / 9007199254740992) + 2 * / 9007199254740992))%R; [apply Rmult_le_compat_l; lra|].
    replace (IZR W * (x * (1 + 3 * / 9007199254740992) + 2 * / 9007199254740992))%R with
      ((IZR W * x) * (1 + 3 * / 9007199254740992) + IZR W * (2 * / 9007199254740992))%R by ring. rewrite Hwx. lra. }
  apply wpe_bind. eapply side_limit_bound; [lia|lia|lia|exact Re|lra|exact HWe|exact Hre|]. intros a Ha HaM _.
  apply wpe_bind. eapply side_limit_bound; [lia|lia|lia|exact Re|lra|exact HWe|exact Hre|]. intros b Hb HbM HbP.
  apply wpe_ret, HQ; [lia|done|done| | |].
  - intros H1. apply (leaf_limit M k_ W e a); [lia|lia|lia|lia|exact He1|exact He2|by apply HaM].
  - intros H1. apply (leaf_limit M k_ W e b); [lia|lia|lia|lia|exact He1|exact He2|by apply HbM].
  - intros H4 H2. subst k_ kh. apply (pair_limit M W e b); [lia..|exact He1|exact He2|]. exact HbP.
Qed.
Lemma wpe_compute_max (E : err → Prop) k_ kl kh W M (Q : Z * Z → Prop) : 2 ≤ k_ ≤ 2 ^ 50 → 0 < kl ≤ k_ → 0 < kh ≤ k_ → 0 ≤ M → M * k_ ≤ 2 ^ 50 → 0 ≤ W ≤ 2 ^ 50 →
  (W = 0 → E UB) →
  (∀ a b, 0 < W → 0 ≤ a → 0 ≤ b → (kl = 1 → a ≤ M) → (kh = 1 → b ≤ M) → Q (a, b)) →
  wpe E (compute_max_global_weight k_ kl kh W M) Q.
Proof. intros Hk Hl Hh HM HMk HW HE HQ. apply wpe_compute_max_pair; [done..|]. intros. by apply HQ. Qed.
