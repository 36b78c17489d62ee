(** compute_max_global_weight, continued: how close the limits are to their exact values, and when
    they leave room for a bisection. *)
From Coq Require Import Reals Lra Psatz.
From Flocq Require Import Core.Core.
From Verif Require Import FloatProof.
From Verif Require Export LimitProof.
Local Open Scope Z_scope.

(** ** Relative errors *)
Definition rel (d r x : R) : Prop := (Rabs (r - x) <= d * x)%R.
Lemma rel_mul d e a x b y : (0 <= x)%R → (0 <= y)%R → (0 <= d)%R → (0 <= e)%R → rel d a x → rel e b y → rel (d + e + d * e) (a * b) (x * y).
Proof.
  unfold rel. intros Hx Hy Hd He Ha Hb. replace (a * b - x * y)%R with ((a - x) * (b - y) + (x * (b - y) + (a - x) * y))%R by ring.
  eapply Rle_trans; [apply Rabs_triang|]. eapply Rle_trans; [apply Rplus_le_compat_l, Rabs_triang|]. rewrite !Rabs_mult, (Rabs_pos_eq x Hx), (Rabs_pos_eq y Hy).
  replace ((d + e + d * e) * (x * y))%R with ((d * x) * (e * y) + (x * (e * y) + (d * x) * y))%R by ring.
  apply Rplus_le_compat; [apply Rmult_le_compat; try apply Rabs_pos; done|]. apply Rplus_le_compat; [by apply Rmult_le_compat_l|by apply Rmult_le_compat_r].
Qed.
Lemma rel_rnd d r x : (uu * uu <= x)%R → (0 <= d)%R → rel d r x → rel (d + 2 * uu + uu * d) (rnd r) x.
Proof.
  unfold rel. intros Hx Hd Hr. pose proof (rnd_err r) as He. assert (0 < uu)%R as Hu by (unfold uu; lra).
  replace (rnd r - x)%R with ((rnd r - r) + (r - x))%R by ring. eapply Rle_trans; [apply Rabs_triang|].
  assert (Rabs r <= (1 + d) * x)%R as Hra.
  { replace r with ((r - x) + x)%R by ring. eapply Rle_trans; [apply Rabs_triang|]. rewrite (Rabs_pos_eq x) by nra. lra. }
  assert (uu * Rabs r <= uu * ((1 + d) * x))%R by (apply Rmult_le_compat_l; lra).
  assert (uu * (uu * uu) <= uu * x)%R by (apply Rmult_le_compat_l; lra). lra.
Qed.
Lemma rel_mono d e r x : (d <= e)%R → (0 <= x)%R → rel d r x → rel e r x.
Proof. unfold rel. intros Hd Hx Hr. eapply Rle_trans; [exact Hr|]. by apply Rmult_le_compat_r. Qed.
Lemma rel_refl x : (0 <= x)%R → rel 0 x x.
Proof. unfold rel. intros Hx. replace (x - x)%R with 0%R by ring. rewrite Rabs_R0. lra. Qed.

(** the exact limit of a side with [kx] of [k_] labels is kx (W q + M k_ - W) / (k_ q); the computed one differs by at most 4 *)
Definition near (k_ kx W M z : Z) : Prop :=
  let q := Z.log2 kx + 1 in
  kx * (W * q + (M * k_ - W)) - 4 * k_ * q ≤ z * k_ * q ≤ kx * (W * q + (M * k_ - W)) + 4 * k_ * q.

Lemma limit_near M k_ kx W : 0 < k_ ≤ 2 ^ 50 → 0 < kx ≤ k_ → 0 < W → W ≤ M * k_ ≤ 2 ^ 50 →
  near k_ kx W M (Zfloor (rnd (rnd (rnd (IZR W / IZR k_) * IZR kx) * rnd (1 + rnd (rnd (rnd (IZR (M * k_) / IZR W) - 1) / IZR (Z.log2 kx + 1)))))).
Proof.
  intros Hk Hx HW HM. pose proof (log2_small kx ltac:(lia)) as Hl. unfold near. cbv zeta.
  set (q := Z.log2 kx + 1) in *. set (x := (IZR (M * k_) / IZR W)%R). set (w := (IZR W / IZR k_)%R).
  assert (1 <= IZR q <= 51)%R as Hq by (split; [apply (IZR_le 1); lia|apply (IZR_le _ 51); lia]).
  assert (1 <= IZR k_ <= 1125899906842624)%R as Hkr by (split; [apply (IZR_le 1); lia|apply IZR_pow2_50; lia]).
  assert (1 <= IZR kx <= IZR k_)%R as Hkx by (split; [apply (IZR_le 1); lia|apply IZR_le; lia]).
  assert (1 <= IZR W <= IZR (M * k_))%R as HWr by (split; [apply (IZR_le 1); lia|apply IZR_le; lia]).
  pose proof (IZR_pow2_50 (M * k_) ltac:(lia)) as HMr.
  assert (x * IZR W = IZR (M * k_))%R as Hxw by (unfold x; field; lra).
  assert (1 <= x <= 1125899906842624)%R as Hx1.
  { split; apply Rmult_le_reg_r with (IZR W); try lra; rewrite Hxw; nra. }
  assert (w * IZR k_ = IZR W)%R as Hwk by (unfold w; field; lra).
  assert (/ 1125899906842624 <= w)%R as Hw1.
  { apply Rmult_le_reg_r with (IZR k_); [lra|]. rewrite Hwk. nra. }
  (* the relative error of the limit for the imbalance *)
  set (y := (1 + (x - 1) / IZR q)%R).
  assert (1 <= y)%R as Hy1. { unfold y. assert (0 <= (x - 1) / IZR q)%R; [|lra]. apply Rmult_le_pos; [lra|]. apply Rlt_le, Rinv_0_lt_compat. lra. }
  assert (x / IZR q <= y)%R as Hxy.
  { unfold y. replace (x / IZR q)%R with ((x - 1) / IZR q + / IZR q)%R by (field; lra). assert (/ IZR q <= 1)%R; [|lra].
    rewrite <-Rinv_1. apply Rinv_le_contravar; lra. }
  pose proof (rnd_err x) as A1. rewrite (Rabs_pos_eq x) in A1 by lra. apply Rabs_le_inv in A1.
  assert (1 <= rnd x)%R as A0. { rewrite <-(rnd_IZR 1) by lia. apply rnd_le. lra. }
  set (a := rnd x) in *.
  pose proof (rnd_err (a - 1)) as E1. rewrite (Rabs_pos_eq (a - 1)) in E1 by lra. apply Rabs_le_inv in E1.
  pose proof (rnd_pos (a - 1) ltac:(lra)) as E0. set (e := rnd (a - 1)) in *.
  assert (Rabs (e - (x - 1)) <= 4 * uu * x)%R as E2 by (apply Rabs_le; unfold uu in *; lra).
  assert (0 < / IZR q <= 1)%R as Hiq by (split; [apply Rinv_0_lt_compat; lra|rewrite <-Rinv_1; apply Rinv_le_contravar; lra]).
  assert (Rabs (e / IZR q - (x - 1) / IZR q) <= 4 * uu * (x / IZR q))%R as D1.
  { replace (e / IZR q - (x - 1) / IZR q)%R with ((e - (x - 1)) * / IZR q)%R by (field; lra). rewrite Rabs_mult, (Rabs_pos_eq (/ IZR q)) by lra.
    replace (4 * uu * (x / IZR q))%R with ((4 * uu * x) * / IZR q)%R by (field; lra). apply Rmult_le_compat_r; lra. }
  assert (0 <= e / IZR q)%R as D0 by (apply Rmult_le_pos; lra).
  pose proof (rnd_err (e / IZR q)) as D2. rewrite (Rabs_pos_eq (e / IZR q)) in D2 by done. apply Rabs_le_inv in D1, D2.
  pose proof (rnd_pos _ D0) as D3. set (d := rnd (e / IZR q)) in *.
  assert (rel (6 * uu) (1 + d) y) as B1.
  { unfold rel. apply Rabs_le. unfold y in *. set (v := ((x - 1) / IZR q)%R) in *. set (t := (x / IZR q)%R) in *. set (f := (e / IZR q)%R) in *. unfold uu in *. lra. }
  assert (0 < uu)%R as Hu by (unfold uu; lra).
  apply rel_rnd in B1; [|unfold uu; lra|lra]. apply (rel_mono _ (9 * uu)) in B1; [|unfold uu; lra|lra].
  set (b := rnd (1 + d)) in *.
  (* the share of the weight *)
  pose proof (rel_rnd 0 w w ltac:(unfold uu; lra) ltac:(lra) (rel_refl w ltac:(lra))) as C1. set (c := rnd w) in *.
  apply (rel_mono _ (2 * uu)) in C1; [|unfold uu; lra|lra].
  pose proof (rel_mul (2 * uu) 0 c w (IZR kx) (IZR kx) ltac:(lra) ltac:(lra) ltac:(lra) ltac:(lra) C1 (rel_refl (IZR kx) ltac:(lra))) as C2.
  assert (/ 1125899906842624 <= w * IZR kx)%R as Hwkx by nra.
  apply rel_rnd in C2; [|unfold uu in *; lra|unfold uu; lra]. apply (rel_mono _ (5 * uu)) in C2; [|unfold uu; lra|lra].
  set (ck := rnd (c * IZR kx)) in *.
  pose proof (rel_mul (5 * uu) (9 * uu) ck (w * IZR kx) b y ltac:(lra) ltac:(lra) ltac:(lra) ltac:(lra) C2 B1) as P1.
  set (X := (w * IZR kx * y)%R) in *.
  assert (/ 1125899906842624 <= X)%R as HX0. { unfold X. nra. }
  apply rel_rnd in P1; [|unfold uu in *; lra|unfold uu; lra]. apply (rel_mono _ (17 * uu)) in P1; [|unfold uu; lra|lra].
  set (P := rnd (ck * b)) in *.
  assert (X * (IZR k_ * IZR q) = IZR (kx * (W * q + (M * k_ - W))))%R as HX.
  { rewrite mult_IZR, plus_IZR, minus_IZR, mult_IZR, <-Hxw, <-Hwk. unfold X, y. field. lra. }
  assert (X <= 1125899906842624)%R as HX1.
  { apply Rmult_le_reg_r with (IZR k_ * IZR q)%R; [nra|]. rewrite HX, <-!mult_IZR. apply IZR_le.
    change 1125899906842624 with (2 ^ 50). assert (W * q + (M * k_ - W) ≤ 2 ^ 50 * q) by nia. nia. }
  assert (Rabs (P - X) <= 3)%R as HPX. { unfold rel in P1. eapply Rle_trans; [exact P1|]. unfold uu. lra. }
  apply Rabs_le_inv in HPX. pose proof (Zfloor_lb P). pose proof (Zfloor_ub P). set (z := Zfloor P) in *.
  assert (0 <= IZR k_ * IZR q)%R as Hkq by nra.
  assert (IZR (z * k_ * q) = IZR z * (IZR k_ * IZR q))%R as Hz by (rewrite !mult_IZR; ring).
  assert (IZR (4 * k_ * q) = 4 * (IZR k_ * IZR q))%R as H4 by (rewrite !mult_IZR; ring).
  split; apply le_IZR; rewrite ?minus_IZR, ?plus_IZR, Hz, H4, <-HX.
  - replace (X * (IZR k_ * IZR q) - 4 * (IZR k_ * IZR q))%R with ((X - 4) * (IZR k_ * IZR q))%R by ring. apply Rmult_le_compat_r; lra.
  - replace (X * (IZR k_ * IZR q) + 4 * (IZR k_ * IZR q))%R with ((X + 4) * (IZR k_ * IZR q))%R by ring. apply Rmult_le_compat_r; lra.
Qed.

Lemma repr_fun x a b : repr x a → repr x b → a = b.
Proof.
  intros Ha Hb. assert (d_le x x = true) as Hx by (apply (repr_le x x a a Ha Ha); lra).
  apply Rle_antisym; [by apply (repr_le x x a b Ha Hb)|by apply (repr_le x x b a Hb Ha)].
Qed.
Lemma eps_exact M k_ W : 0 ≤ M * k_ ≤ 2 ^ 50 → 0 < W ≤ 2 ^ 50 →
  repr (d_sub (d_div (d_of_Z (M * k_)) (d_of_Z W)) d_one) (rnd (rnd (IZR (M * k_) / IZR W) - 1)).
Proof.
  intros HM HW. set (x := (IZR (M * k_) / IZR W)%R). pose proof (div_bounds (M * k_) W HM ltac:(lia)) as [X0 X1]. fold x in X0, X1.
  assert (0 < IZR W)%R by (apply (IZR_lt 0); lia).
  assert (repr (d_div (d_of_Z (M * k_)) (d_of_Z W)) (rnd x)) as Ha.
  { apply repr_div; [apply repr_of_Z_exact; lia..|lra|]. apply small_bound. fold x. rewrite Rabs_pos_eq by done. eapply Rle_trans; [exact X1|]. lra. }
  pose proof (rnd_ub x X0) as A1. pose proof (rnd_pos x X0) as A0. set (a := rnd x) in *. unfold uu in *.
  assert (Rabs (a - 1) <= a + 1)%R as Habs by (apply Rabs_le; lra).
  apply repr_sub; [done|apply (repr_of_Z_exact 1); lia|]. apply small_bound. eapply Rle_trans; [exact Habs|]. lra.
Qed.
Lemma scaled_weight M k_ W e : 0 ≤ M * k_ ≤ 2 ^ 50 → 0 < W ≤ 2 ^ 50 →
  (1 + e <= IZR (M * k_) / IZR W + 3 * uu * (IZR (M * k_) / IZR W) + 2 * uu)%R → (IZR W * (1 + e) <= 2251799813685248)%R.
Proof.
  intros HM HW He2. assert (1 <= IZR W <= 1125899906842624)%R as HWr by (split; [apply (IZR_le 1); lia|apply IZR_pow2_50; lia]).
  pose proof (div_bounds (M * k_) W ltac:(lia) ltac:(lia)) as [X0 X1].
  assert (IZR W * (IZR (M * k_) / IZR W) = IZR (M * k_))%R as Hwx by (field; lra). pose proof (IZR_pow2_50 (M * k_) ltac:(lia)).
  set (x := (IZR (M * k_) / IZR W)%R) in *. unfold uu in *.
  apply Rle_trans with (IZR W * (x * (1 + 3 * / 9007199254740992) + 2 * / 9007199254740992))%R; [apply Rmult_le_compat_l; lra|].
  replace (IZR W * (x * (1 + 3 * / 9007199254740992) + 2 * / 9007199254740992))%R with
    ((IZR W * x) * (1 + 3 * / 9007199254740992) + IZR W * (2 * / 9007199254740992))%R by ring. rewrite Hwx. lra.
Qed.

(** compute_max_global_weight: as before, and the limits are close to their exact values *)
Lemma wpe_compute_max_near (E : err → Prop) k_ kl kh W M (Q : Z * Z → Prop) : 2 ≤ k_ ≤ 2 ^ 50 → 0 < kl ≤ k_ → 0 < kh ≤ k_ → 0 ≤ M → M * k_ ≤ 2 ^ 50 → 0 ≤ W ≤ 2 ^ 50 →
  (W = 0 → E UB) →
  (∀ a b, 0 < W → 0 ≤ a → 0 ≤ b → (kl = 1 → a ≤ M) → (kh = 1 → b ≤ M) → (W ≤ M * k_ → near k_ kl W M a ∧ near k_ kh W M b) → Q (a, b)) →
  wpe E (compute_max_global_weight k_ kl kh W M) Q.
Proof.
  intros Hk Hl Hh HM HMk HW HE HQ. unfold compute_max_global_weight. cbv zeta.
  destruct (decide (W = 0)) as [->|HW0].
  { apply wpe_bind, side_limit_zero; [lia|lia| |by apply HE]. change (d_of_Z 0) with (S754_zero false).
    apply bad_sub; [|apply (fin_Z 1); lia]. apply bad_div0. apply fin_Z. lia. }
  destruct (eps_repr M k_ W ltac:(nia) ltac:(lia)) as (e & Re & He1 & Hre & Hx). cbv zeta in Hx. destruct Hx as (He2 & He3).
  assert (IZR W * (1 + e) <= 2251799813685248)%R as HWe by (eapply scaled_weight; [|lia|exact He2]; nia).
  assert (e = rnd (rnd (IZR (M * k_) / IZR W) - 1)) as Hee.
  { eapply repr_fun; [exact Re|]. apply eps_exact; [nia|lia]. }
  apply wpe_bind. eapply side_limit_floor; [lia|lia|lia|exact Re|lra|exact HWe|exact Hre|]. cbv zeta. intros Ha HaM.
  apply wpe_bind. eapply side_limit_floor; [lia|lia|lia|exact Re|lra|exact HWe|exact Hre|]. cbv zeta. intros Hb HbM.
  apply wpe_ret, HQ; [lia|by apply Zfloor_lub|by apply Zfloor_lub| | |].
  - intros H1. eapply (leaf_limit M k_ W e); [lia|lia|lia|lia|exact He1|exact He2|]. rewrite <-(HaM H1). apply Zfloor_lb.
  - intros H1. eapply (leaf_limit M k_ W e); [lia|lia|lia|lia|exact He1|exact He2|]. rewrite <-(HbM H1). apply Zfloor_lb.
  - intros HS. rewrite Hee. split; apply limit_near; lia.
Qed.

(** ** Room *)
(** the room that a set of [k_] labels needs so that all of its bisections can be balanced, in units of [c] *)
Definition gam (m : Z) : Z := if decide (m = 1) then 1 else 4 * m - 5.
Definition need (c k_ : Z) : Z := c * k_ * gam (Z.log2_up k_).

Lemma gam_pos m : 1 ≤ m → 1 ≤ gam m ≤ 4 * m.
Proof. unfold gam. case_decide; lia. Qed.
Lemma gam_mono m m' : 1 ≤ m ≤ m' → gam m ≤ gam m'.
Proof. unfold gam. repeat case_decide; lia. Qed.
Lemma gam_step m q : 1 ≤ m → q = m + 1 ∨ q = m ∧ 2 ≤ m → 1 ≤ gam (m + 1) * (q - 1) - gam m * q.
Proof. intros Hm Hq. unfold gam. rewrite (decide_False (P := m + 1 = 1)) by lia. destruct Hq as [->|[-> H2]]; [destruct (decide (m = 1)) as [->|H1]; [lia|]|rewrite decide_False by lia]; nia. Qed.

Lemma log2_up_pos k : 2 ≤ k → 1 ≤ Z.log2_up k.
Proof. intros Hk. pose proof (Z.log2_up_pos k ltac:(lia)). lia. Qed.
Lemma log2_q k : 2 ≤ k → let m := Z.log2_up k in Z.log2 k + 1 = m + 1 ∨ Z.log2 k + 1 = m ∧ 2 ≤ m.
Proof.
  intros Hk. cbv zeta. pose proof (Z.le_log2_log2_up k). pose proof (Z.le_log2_up_succ_log2 k). pose proof (log2_up_pos k Hk).
  pose proof (Z.log2_pos k ltac:(lia)). lia.
Qed.
Lemma log2_le_self k : 2 ≤ k → Z.log2 k + 1 ≤ k.
Proof. intros Hk. pose proof (Z.log2_lt_lin k ltac:(lia)). lia. Qed.
Lemma log2_up_half k kx : 2 ≤ kx → 2 * kx ≤ k + 1 → Z.log2_up kx + 1 ≤ Z.log2_up k.
Proof.
  intros Hx Hk. assert (2 ≤ k) by lia. pose proof (Z.log2_up_spec k ltac:(lia)) as [_ Hup]. pose proof (Z.log2_up_pos k ltac:(lia)).
  assert (kx ≤ 2 ^ (Z.log2_up k - 1)) as Hp.
  { replace (Z.log2_up k) with (Z.succ (Z.log2_up k - 1)) in Hup by lia. rewrite Z.pow_succ_r in Hup by lia. lia. }
  apply Z.log2_up_le_mono in Hp. rewrite Z.log2_up_pow2 in Hp by lia. lia.
Qed.

(** the limits leave room for a heaviest cluster of weight [B], and every side keeps enough room for its own bisections *)
Lemma room_split B M W k_ kl kh a b : 0 ≤ B → 2 ≤ k_ → 0 < kl ≤ kh → kl + kh = k_ → kh ≤ kl + 1 → 0 ≤ W →
  near k_ kl W M a → near k_ kh W M b → need (B + 8) k_ ≤ M * k_ - W →
  W + B ≤ a + b ∧ (∀ w, 2 ≤ kl → w ≤ a → need (B + 8) kl ≤ M * kl - w) ∧ (∀ w, 2 ≤ kh → w ≤ b → need (B + 8) kh ≤ M * kh - w).
Proof.
  intros HB Hk Hl Hs Hh HW Ha Hb Hn. set (S := M * k_ - W) in *. set (c := B + 8) in *.
  assert (1 ≤ gam (Z.log2_up k_)) as Hg by (apply gam_pos, log2_up_pos; lia).
  assert (c * k_ ≤ S) as HcS. { unfold need in Hn. assert (c * k_ * 1 ≤ c * k_ * gam (Z.log2_up k_)); [|lia]. apply Z.mul_le_mono_nonneg_l; nia. }
  assert (∀ kx z, 0 < kx → 2 * kx ≤ k_ + 1 → near k_ kx W M z → ∀ w, 2 ≤ kx → w ≤ z → need c kx ≤ M * kx - w) as Hside.
  { intros kx z Hx Hx2 [_ Hz] w Hx3 Hw. cbv zeta in Hz. fold S in Hz. set (q := Z.log2 kx + 1) in *.
    pose proof (log2_q kx Hx3) as Hq. cbv zeta in Hq. fold q in Hq. pose proof (log2_up_pos kx Hx3) as Hm1. pose proof (log2_up_half k_ kx Hx3 Hx2) as Hm2.
    pose proof (log2_le_self kx Hx3) as Hqk. fold q in Hqk. set (m := Z.log2_up kx) in *.
    pose proof (gam_step m q Hm1 Hq) as Hst. pose proof (gam_mono (m + 1) (Z.log2_up k_) ltac:(lia)) as Hmono.
    unfold need in Hn |- *. fold m. assert (1 < q) as Hq1 by lia.
    (* S >= c k_ gam (m + 1) *)
    assert (c * k_ * gam (m + 1) ≤ S) as HS. { etransitivity; [|exact Hn]. apply Z.mul_le_mono_nonneg_l; nia. }
    assert (kx * S * (q - 1) - 4 * k_ * q ≤ (M * kx - w) * (k_ * q)) as H1.
    { assert (kx * S * (q - 1) - 4 * k_ * q ≤ (M * kx - z) * (k_ * q)) as H1'.
      { replace ((M * kx - z) * (k_ * q)) with (kx * (M * k_) * q - z * k_ * q) by ring. replace (M * k_) with (S + W) by (unfold S; ring). nia. }
      etransitivity; [exact H1'|]. apply Z.mul_le_mono_nonneg_r; nia. }
    assert (c * kx * gam m * (k_ * q) ≤ kx * S * (q - 1) - 4 * k_ * q) as H2.
    { assert (kx * (c * k_ * gam (m + 1)) * (q - 1) ≤ kx * S * (q - 1)) as H3.
      { apply Z.mul_le_mono_nonneg_r; [lia|]. apply Z.mul_le_mono_nonneg_l; lia. }
      assert (4 * k_ * q ≤ c * kx * k_ * (gam (m + 1) * (q - 1) - gam m * q)) as H4.
      { transitivity (c * kx * k_ * 1); [|apply Z.mul_le_mono_nonneg_l; nia]. assert (4 * q ≤ c * kx) by (unfold c; nia). nia. }
      assert (c * kx * k_ * (gam (m + 1) * (q - 1) - gam m * q) = kx * (c * k_ * gam (m + 1)) * (q - 1) - c * kx * gam m * (k_ * q)) as H5 by ring. lia. }
    assert (0 < k_ * q) by nia. apply (Z.mul_le_mono_pos_r _ _ (k_ * q)); [done|]. lia. }
  split; [|split; intros w Hx Hw; [apply (Hside kl a); [lia|lia|done|lia|lia]|apply (Hside kh b); [lia|lia|done|lia|lia]]].
  destruct Ha as [Ha _], Hb as [Hb _]. cbv zeta in Ha, Hb. fold S in Ha, Hb.
  assert (Z.log2 kl ≤ Z.log2 kh) as Hll by (apply Z.log2_le_mono; lia). pose proof (Z.log2_nonneg kl). pose proof (Z.log2_nonneg kh).
  assert (Z.log2 kh + 1 ≤ k_) as Hqh. { destruct (decide (kh = 1)) as [->|]; [simpl; lia|]. pose proof (log2_le_self kh ltac:(lia)). lia. }
  set (ql := Z.log2 kl + 1) in *. set (qh := Z.log2 kh + 1) in *.
  assert (kl * S ≤ (a * k_ - kl * W + 4 * k_) * ql) as Ha' by lia. assert (kh * S ≤ (b * k_ - kh * W + 4 * k_) * qh) as Hb' by lia.
  assert (0 ≤ S) by nia. assert (0 ≤ kl * S) by nia.
  assert (0 ≤ a * k_ - kl * W + 4 * k_) as Hnn by nia.
  assert (kl * S ≤ (a * k_ - kl * W + 4 * k_) * qh) as Ha'' by nia.
  assert (k_ * S ≤ ((a + b - W + 8) * k_) * qh) as Hab by nia.
  assert (S ≤ (a + b - W + 8) * qh) as Hab'.
  { apply (Z.mul_le_mono_pos_r _ _ k_); [lia|]. lia. }
  assert (c * qh ≤ (a + b - W + 8) * qh) as Hc by nia. apply Z.mul_le_mono_pos_r in Hc; [|lia]. unfold c in Hc. lia.
Qed.
Lemma need_bound c k : 0 ≤ c → 2 ≤ k → need c k ≤ 4 * c * k * Z.log2_up k.
Proof. intros Hc Hk. unfold need. pose proof (gam_pos _ (log2_up_pos k Hk)). assert (0 ≤ c * k) by nia. nia. Qed.
