(** compute_max_global_weight, continued: when no side of a bisection can stay empty. *)
From Coq Require Import Psatz.
From Verif Require Export LimitRoom.
Local Open Scope Z_scope.

(** a set of [K] labels with weight [w]: enough room, and, if [calm], not so much room that a side can stay empty *)
Definition fits (calm : Prop) (B M K w : Z) : Prop :=
  need (B + 8) K ≤ M * K - w ∧ (calm → let m := Z.log2_up K in 2 * m * (m + 1) * (M * K - w) ≤ M * K).

(** the number of labels of the other side *)
Lemma log2_up_other k ko : 3 ≤ k → k - 1 ≤ 2 * ko → 0 < ko → Z.log2_up k - 1 ≤ Z.log2 ko + 1.
Proof.
  intros Hk Ho Hp. pose proof (Z.log2_nonneg ko) as H0. pose proof (Z.log2_spec ko Hp) as [_ Hs].
  assert (k ≤ 2 ^ (Z.log2 ko + 2)) as Hx.
  { replace (Z.log2 ko + 2) with (Z.succ (Z.succ (Z.log2 ko))) by lia. rewrite Z.pow_succ_r by lia. lia. }
  apply Z.log2_up_le_mono in Hx. rewrite Z.log2_up_pow2 in Hx by lia. lia.
Qed.

Lemma room_calm B M W k_ kx ko z w : 0 ≤ B → 0 < kx → 0 < ko → kx + ko = k_ → ko ≤ kx + 1 → kx ≤ ko + 1 → 0 ≤ W →
  near k_ ko W M z → need (B + 8) k_ ≤ M * k_ - W →
  (let m := Z.log2_up k_ in 2 * m * (m + 1) * (M * k_ - W) ≤ M * k_) → W - z ≤ w →
  0 < w ∧ (2 ≤ kx → let m := Z.log2_up kx in 2 * m * (m + 1) * (M * kx - w) ≤ M * kx).
Proof.
  intros HB Hx Ho Hs Ho1 Hx1 HW [_ Hz] Hn Hm Hw. cbv zeta in Hm, Hz |- *. set (S := M * k_ - W) in *. set (m := Z.log2_up k_) in *.
  assert (1 ≤ m) as Hm1 by (apply log2_up_pos; lia). assert (1 ≤ gam m) as Hg by (by apply gam_pos).
  assert (8 * k_ * gam m ≤ S) as HS8. { unfold need in Hn. fold m in Hn. assert (8 * (k_ * gam m) ≤ (B + 8) * (k_ * gam m)); [|lia]. apply Z.mul_le_mono_nonneg_r; nia. }
  assert (8 * k_ ≤ S) as HS by nia.
  assert (0 ≤ Z.log2 ko) as Hl by apply Z.log2_nonneg. set (q := Z.log2 ko + 1) in *.
  (* what the side keeps, times k_ q *)
  assert ((M * kx - w) * (k_ * q) ≤ kx * S * q + ko * S + 4 * k_ * q) as Hkeep.
  { assert ((M * kx - w) * (k_ * q) ≤ (M * kx - W + z) * (k_ * q)) as H1 by (apply Z.mul_le_mono_nonneg_r; nia).
    etransitivity; [exact H1|]. replace ((M * kx - W + z) * (k_ * q)) with (kx * (M * k_) * q - k_ * W * q + z * k_ * q) by ring.
    replace (M * k_) with (S + W) by (unfold S; ring). replace k_ with (kx + ko) at 1 by lia. nia. }
  split.
  - assert (4 * S ≤ M * k_) as H4. { transitivity (2 * m * (m + 1) * S); [|exact Hm]. apply Z.mul_le_mono_nonneg_r; [lia|]. clear -Hm1. nia. }
    assert (1 ≤ q) as Hq1 by lia. clear HS8 Hm Hn Hg Hl.
    assert (kx * (4 * S) * q ≤ kx * (M * k_) * q) as E1. { apply Z.mul_le_mono_nonneg_r; [lia|]. apply Z.mul_le_mono_nonneg_l; lia. }
    assert (ko * S ≤ 2 * (kx * S * q)) as E2.
    { transitivity (2 * (kx * S)); [|assert (0 ≤ kx * S) by (apply Z.mul_nonneg_nonneg; lia); clear -H Hq1; nia].
      rewrite Z.mul_assoc. apply Z.mul_le_mono_nonneg_r; lia. }
    assert (4 * k_ * q < kx * S * q) as E3. { apply Z.mul_lt_mono_pos_r; [lia|]. apply Z.lt_le_trans with (1 * S); [lia|]. apply Z.mul_le_mono_nonneg_r; lia. }
    assert (0 < w * (k_ * q)) as Hpos; [|apply Z.lt_0_mul in Hpos as [[? _]|[_ Hneg]]; [done|]; assert (0 < k_ * q) by (apply Z.mul_pos_pos; lia); lia].
    assert (w * (k_ * q) = kx * (M * k_) * q - (M * kx - w) * (k_ * q)) as -> by ring. lia.
  - intros Hx2. pose proof (log2_up_half k_ kx Hx2 ltac:(lia)) as Hh. pose proof (log2_up_pos kx Hx2) as Hm0. fold m in Hh. set (m' := Z.log2_up kx) in *.
    assert (m - 1 ≤ q) as Hq. { apply log2_up_other; lia. }
    assert (2 ≤ m) as Hm2 by lia. assert (gam m = 4 * m - 5) as Hgm by (unfold gam; by rewrite decide_False by lia).
    assert (0 ≤ M * kx - w ∨ M * kx - w < 0) as [Hp|Hp] by lia.
    2:{ assert (0 ≤ M) by nia. nia. }
    set (T := M * kx - w) in *.
    assert ((m - 1) * (ko * S + 4 * k_ * q) ≤ 2 * S * kx * q) as Hk1.
    { assert (2 * ko ≤ 3 * kx) by lia.
      assert (2 * ((m - 1) * (ko * S)) ≤ 3 * (q * (kx * S))) as E1.
      { assert ((m - 1) * ((2 * ko) * S) ≤ q * ((3 * kx) * S)); [|lia]. apply Z.mul_le_mono_nonneg; [lia|lia|nia|]. apply Z.mul_le_mono_nonneg_r; lia. }
      assert (8 * k_ * (m - 1) ≤ S) as E2. { rewrite Hgm in HS8. nia. }
      assert (2 * ((m - 1) * (4 * k_ * q)) ≤ q * (kx * S)) as E3.
      { replace (2 * ((m - 1) * (4 * k_ * q))) with (q * (8 * k_ * (m - 1))) by ring. apply Z.mul_le_mono_nonneg_l; [lia|]. nia. }
      lia. }
    assert (m' * (m' + 1) * T ≤ (m - 1) * m * T) as Ht. { apply Z.mul_le_mono_nonneg_r; [done|]. nia. }
    assert ((m - 1) * m * T * (k_ * q) ≤ m * (m + 1) * S * kx * q) as Ht2.
    { transitivity ((m - 1) * m * (kx * S * q + ko * S + 4 * k_ * q)).
      - rewrite <-Z.mul_assoc. apply Z.mul_le_mono_nonneg_l; [nia|]. exact Hkeep.
      - replace ((m - 1) * m * (kx * S * q + ko * S + 4 * k_ * q)) with (m * ((m - 1) * (kx * S * q) + (m - 1) * (ko * S + 4 * k_ * q))) by ring.
        replace (m * (m + 1) * S * kx * q) with (m * ((m - 1) * (kx * S * q) + 2 * S * kx * q)) by ring. apply Z.mul_le_mono_nonneg_l; [lia|]. lia. }
    assert (2 * (m * (m + 1) * S * kx * q) ≤ M * kx * (k_ * q)) as Ht3.
    { replace (2 * (m * (m + 1) * S * kx * q)) with ((2 * m * (m + 1) * S) * (kx * q)) by ring. replace (M * kx * (k_ * q)) with ((M * k_) * (kx * q)) by ring.
      apply Z.mul_le_mono_nonneg_r; [nia|done]. }
    assert (0 < k_ * q) by nia. apply (Z.mul_le_mono_pos_r _ _ (k_ * q)); [done|].
    replace (2 * m' * (m' + 1) * T * (k_ * q)) with (2 * (m' * (m' + 1) * T * (k_ * q))) by ring.
    assert (m' * (m' + 1) * T * (k_ * q) ≤ (m - 1) * m * T * (k_ * q)) by (apply Z.mul_le_mono_nonneg_r; lia). lia.
Qed.

Lemma fits_split calm B M W k_ kl kh a b : 0 ≤ B → 2 ≤ k_ → 0 < kl ≤ kh → kl + kh = k_ → kh ≤ kl + 1 → 0 ≤ W →
  fits calm B M k_ W → near k_ kl W M a → near k_ kh W M b →
  W + B ≤ a + b ∧ ∀ w0 w1, w0 + w1 = W → w0 ≤ a → w1 ≤ b →
    (2 ≤ kl → fits calm B M kl w0) ∧ (2 ≤ kh → fits calm B M kh w1) ∧ (calm → 0 < w0 ∧ 0 < w1).
Proof.
  intros HB Hk Hl Hs Hh HW [Hn Hc] Ha Hb. destruct (room_split B M W k_ kl kh a b) as (H1 & H2 & H3); [done..|].
  split; [done|]. intros w0 w1 Hw Hw0 Hw1. split; [|split].
  - intros Hl2. split; [by apply H2|]. intros Hcalm. destruct (room_calm B M W k_ kl kh b w0) as [_ Hx]; [lia..|done|done|by apply Hc|lia|]. by apply Hx.
  - intros Hh2. split; [by apply H3|]. intros Hcalm. destruct (room_calm B M W k_ kh kl a w1) as [_ Hx]; [lia..|done|done|by apply Hc|lia|]. by apply Hx.
  - intros Hcalm. split.
    + destruct (room_calm B M W k_ kl kh b w0) as [Hx _]; [lia..|done|done|by apply Hc|lia|done].
    + destruct (room_calm B M W k_ kh kl a w1) as [Hx _]; [lia..|done|done|by apply Hc|lia|done].
Qed.
Lemma fits_pos calm B M K w : 0 ≤ B → 2 ≤ K → fits calm B M K w → w ≤ M * K ∧ (calm → 0 < w).
Proof.
  intros HB HK [Hn Hc]. pose proof (gam_pos _ (log2_up_pos K HK)) as Hg. pose proof (log2_up_pos K HK). unfold need in Hn.
  assert (0 < (B + 8) * K * gam (Z.log2_up K)) by (apply Z.mul_pos_pos; nia). split; [lia|]. intros Hcalm. specialize (Hc Hcalm). cbv zeta in Hc. nia.
Qed.
