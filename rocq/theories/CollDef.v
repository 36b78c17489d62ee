(** The skeleton is defined: p_low is a number of processors, and the fuel suffices. *)
From Coq Require Import Reals Lra.
From Flocq Require Import Core.Core.
From Verif Require Export CollResult.
From Verif Require Import ListLemmas FloatProof LimitProof.
Local Open Scope Z_scope.

Lemma p_low_range w0 w1 p k_low k_high : 0 ≤ w0 → 0 ≤ w1 → 0 < w0 + w1 ≤ 2 ^ 53 → 1 ≤ p ≤ 2 ^ 50 →
  ∃ q, p_low_of w0 w1 p k_low k_high = Some q ∧ 0 ≤ q ≤ p ∧ (2 ≤ p → ¬ (k_low = 1 ∧ k_high > 1) → q = 0 → 3 * w0 < w1).
Proof.
  intros H0 H1 Hw Hp. unfold p_low_of.
  pose proof (repr_frac w0 (w0 + w1) ltac:(lia) ltac:(lia)) as R1.
  set (f := rnd (IZR w0 / IZR (w0 + w1))%R) in *.
  assert (0 < IZR (w0 + w1))%R as Hpos by (apply IZR_lt; lia).
  assert (0 <= IZR w0 / IZR (w0 + w1) <= 1)%R as Hfr.
  { assert (0 <= IZR w0 <= IZR (w0 + w1))%R by (split; apply IZR_le; lia). split.
    - apply Rmult_le_pos; [lra|]. apply Rlt_le, Rinv_0_lt_compat. lra.
    - apply Rmult_le_reg_r with (IZR (w0 + w1)); [done|]. unfold Rdiv. rewrite Rmult_assoc, Rinv_l; lra. }
  assert (0 <= f <= 1)%R as Hf.
  { subst f. split; [rewrite <- rnd_0|rewrite <- rnd_1]; apply rnd_le; lra. }
  assert (1 <= IZR p)%R as Hp1 by (apply IZR_le; lia).
  assert (∀ r, 0 <= r <= IZR (2 ^ 51) → small r)%R as Hsmall.
  { intros r Hr. unfold small. rewrite Rabs_right by lra. apply Rle_trans with (bpow radix2 51).
    - change (bpow radix2 51) with (IZR (2 ^ 51)). lra.
    - apply bpow_le. lia. }
  assert (IZR p <= IZR (2 ^ 50))%R as Hp2 by (apply IZR_le; lia).
  assert (IZR (2 ^ 51) = 2 * IZR (2 ^ 50))%R as E51 by (rewrite <- mult_IZR; f_equal; lia).
  assert (IZR (2 ^ 50) >= 1)%R as E50 by (apply Rle_ge, IZR_le; lia).
  pose proof (repr_of_Z_exact p ltac:(lia)) as Rp.
  assert (0 <= f * IZR p <= IZR p)%R as Hfp by (split; nra).
  pose proof (repr_mul _ _ _ _ R1 Rp (Hsmall (f * IZR p)%R ltac:(lra))) as R2.
  set (g := rnd (f * IZR p)%R) in *.
  assert (0 <= g <= IZR p)%R as Hg.
  { subst g. split; [rewrite <- rnd_0; apply rnd_le; lra|]. apply Rle_trans with (rnd (IZR p)); [apply rnd_le; lra|rewrite rnd_IZR by lia; lra]. }
  assert (repr (d_div d_one (d_of_Z 2)) (1 / 2)%R) as Rh.
  { replace (1 / 2)%R with (rnd (IZR 1 / IZR 2))%R; [apply repr_div; [apply repr_of_Z_exact; lia..|lra|apply Hsmall; lra]|].
    apply rnd_id. replace (IZR 1 / IZR 2)%R with (bpow radix2 (-1)) by (change (bpow radix2 (-1)) with (/ 2)%R; lra). apply generic_format_bpow. done. }
  pose proof (repr_add _ _ _ _ R2 Rh (Hsmall (g + 1 / 2)%R ltac:(lra))) as R3.
  set (h := rnd (g + 1 / 2)%R) in *.
  assert (0 <= h <= IZR p + 1 / 2)%R as Hh.
  { subst h. split; [rewrite <- rnd_0; apply rnd_le; lra|].
    assert (rnd (IZR p + 1 / 2) = IZR p + 1 / 2)%R as <-; [|apply rnd_le; lra].
    apply rnd_id. replace (IZR p + 1 / 2)%R with (F2R (Float radix2 (2 * p + 1) (-1))).
    2: { unfold F2R. cbn [Fnum Fexp]. rewrite plus_IZR, mult_IZR. change (bpow radix2 (-1)) with (/ 2)%R. lra. }
    apply generic_format_F2R. intros _. unfold cexp, fexp64, SpecFloat.fexp, SpecFloat.emin.
    assert (mag radix2 (F2R (Float radix2 (2 * p + 1) (-1))) <= 52) as Hm; [|lia].
    apply mag_le_bpow.
    - apply F2R_neq_0. cbn. lia.
    - rewrite <- F2R_Zabs. unfold F2R. cbn [Fnum Fexp]. rewrite Z.abs_eq by lia.
      rewrite plus_IZR, mult_IZR. change (bpow radix2 52) with (IZR (2 ^ 52)). change (bpow radix2 (-1)) with (/ 2)%R.
      assert (IZR (2 ^ 52) = 4 * IZR (2 ^ 50))%R as -> by (rewrite <- mult_IZR; f_equal; lia). lra. }
  rewrite (repr_trunc _ _ R3).
  2: { assert (IZR (2 ^ 63) = 8192 * IZR (2 ^ 50))%R as -> by (rewrite <- mult_IZR; f_equal; lia). lra. }
  cbn [mbind option_bind]. eexists. split; [done|].
  destruct (decide _) as [Hd|Hd]; [split; [lia|]; intros _ Hn; by destruct Hn|]. split; [split|].
  - apply Zfloor_lub. lra.
  - assert (Zfloor h < p + 1); [|lia]. apply lt_IZR. rewrite plus_IZR. pose proof (Zfloor_lb h). lra.
  - intros Hp' _ Hq. destruct (Z.lt_ge_cases (3 * w0) w1) as [|Hge]; [done|exfalso].
    assert (2 <= IZR p)%R as Hp3 by (apply IZR_le; lia).
    assert (rnd (/ 4) = / 4 ∧ rnd (/ 2) = / 2)%R as [E4 E2].
    { split; [change (/ 4)%R with (bpow radix2 (-2))|change (/ 2)%R with (bpow radix2 (-1))]; apply rnd_id, generic_format_bpow; done. }
    assert (/ 4 <= f)%R as F4.
    { subst f. rewrite <-E4. apply rnd_le. apply Rmult_le_reg_r with (IZR (w0 + w1)); [done|].
      replace (IZR w0 / IZR (w0 + w1) * IZR (w0 + w1))%R with (IZR w0) by (field; lra).
      assert (IZR (w0 + w1) <= IZR (4 * w0))%R as Hx by (apply IZR_le; lia). rewrite mult_IZR in Hx. lra. }
    assert (/ 2 <= g)%R as G2 by (subst g; rewrite <-E2; apply rnd_le; nra).
    assert (1 <= h)%R as H1' by (apply Rle_trans with (rnd 1); [rewrite rnd_1; lra|subst h; apply rnd_le; lra]).
    assert (1 ≤ Zfloor h) by (by apply Zfloor_lub). lia.
Qed.

Section defined.
  Context (W : wid → Z * Z) (m : metric) (k : Z).
  Hypothesis HW : ∀ G, 0 ≤ fst (W G) ∧ 0 ≤ snd (W G) ∧ 0 < fst (W G) + snd (W G) ≤ 2 ^ 53.

  Lemma seq_job_defined G : ∀ f low high jobs sp, low ≤ high → high - low ≤ Z.of_nat f → is_Some (seq_job m f G low high jobs sp).
  Proof.
    induction f as [|f IH]; intros low high jobs sp Hlh Hf; cbn [seq_job]; (destruct (decide (high - low > 0)) as [Hd|Hd]; [|by eexists]); [lia|].
    pose proof (k_low_high low high Hd) as (K1 & K2 & K3 & K4). unfold labels_0. cbn [fst snd].
      match goal with |- context [seq_job m f G ?l ?h ?j ?s] => destruct (IH l h j s ltac:(lia) ltac:(lia)) as [r ->] end.
      cbn [mbind option_bind]. by eexists.
  Qed.

  Definition labels_left (jobs : list (Z * Z)) : Z := tot jobs + Z.of_nat (length jobs).
  Lemma seq_job_labels G : ∀ f low high jobs sp e jobs' sp', low ≤ high → (∀ j, j ∈ jobs → fst j ≤ snd j) →
    seq_job m f G low high jobs sp = Some (e, (jobs', sp')) →
    (∀ j, j ∈ jobs' → fst j ≤ snd j) ∧ labels_left jobs' ≤ labels_left jobs + (high - low).
  Proof.
    induction f as [|f IH]; intros low high jobs sp e jobs' sp' Hlh Hj; cbn [seq_job]; destruct (decide (high - low > 0)) as [Hd|Hd]; try done.
    1, 3: intros [= <- <- <-]; split; [done|lia].
    pose proof (k_low_high low high Hd) as (K1 & K2 & K3 & K4).
    set (jobs1 := if decide (snd (labels_1 low high) - fst (labels_1 low high) > 0) then _ else _).
    assert (∀ j, j ∈ jobs1 → fst j ≤ snd j) as Hj1.
    { subst jobs1. destruct (decide (_ > 0)) as [H1|H1]; [|done]. intros j [->|Hin]%elem_of_cons; [lia|by apply Hj]. }
    assert (labels_left jobs1 ≤ labels_left jobs + k_high_of low high) as Ht1.
    { subst jobs1. unfold labels_1, labels_left in *. cbn [fst snd] in *. destruct (decide (_ > 0)) as [H1|H1]; [|lia].
      unfold tot. rewrite fmap_cons. cbn [fst snd length]. rewrite zsum_cons. lia. }
    clearbody jobs1.
    destruct (seq_job _ _ _ _ _ _ _) as [[e1 [jobs2 sp2]]|] eqn:Hr; cbn [mbind option_bind]; [|done].
    cbn [fst snd]. intros [= <- <- <-]. unfold labels_0 in Hr. cbn [fst snd] in Hr.
    apply IH in Hr as [R1 R2]; [|lia|done]. split; [done|lia].
  Qed.
  Lemma labels_left_nonneg jobs : (∀ j, j ∈ jobs → fst j ≤ snd j) → Z.of_nat (length jobs) ≤ labels_left jobs.
  Proof.
    intros H. unfold labels_left. assert (0 ≤ tot jobs); [|lia]. apply zsum_nonneg.
    intros x (j & -> & Hx)%elem_of_list_fmap. specialize (H j Hx). lia.
  Qed.
  Lemma seq_loop_defined G : ∀ f jobs sp, (∀ j, j ∈ jobs → fst j ≤ snd j) → labels_left jobs ≤ Z.of_nat f → is_Some (seq_loop m f G jobs sp).
  Proof.
    induction f as [|f IH]; intros [|j jobs] sp Hj Hf; cbn [seq_loop]; [by eexists| |by eexists|].
    - apply labels_left_nonneg in Hj. cbn [length] in Hj. lia.
    - pose proof (Hj j (elem_of_list_here _ _)) as Hjj.
      destruct (seq_job_defined G (Z.to_nat (snd j - fst j)) (fst j) (snd j) jobs sp ltac:(lia) ltac:(lia)) as [[e [jobs' sp']] Hr].
      rewrite Hr. cbn [mbind option_bind fst snd].
      apply seq_job_labels in Hr as [R1 R2]; [|lia|intros j' Hj'; by apply Hj, elem_of_list_further].
      destruct (IH jobs' sp' R1) as [r ->]; [|cbn [mbind option_bind]; by eexists].
      unfold labels_left in Hf, R2 at 2. unfold tot in Hf at 1. rewrite fmap_cons, zsum_cons in Hf. cbn [length] in Hf. unfold tot in R2. lia.
  Qed.

  Lemma par_loop_defined : ∀ f st, ranked st → cs_p st ≤ 2 ^ 50 → cs_high st - cs_low st ≤ Z.of_nat f →
    ∃ e st', par_loop W m f st = Some (e, st').
  Proof.
    induction f as [|f IH]; intros st Hrk Hp Hf; cbn [par_loop]; (destruct (decide (_ ∧ _)) as [Hd|Hd]; [|by do 2 eexists]).
    - lia.
    - destruct (HW (cs_G st)) as (W1 & W2 & W3).
      destruct (par_round W m st) as [[e1 st1]|] eqn:Hr.
      2: { exfalso. unfold par_round in Hr. unfold ranked in Hrk.
        edestruct (p_low_range (fst (W (cs_G st))) (snd (W (cs_G st))) (cs_p st)) as (q & Hq & _); [done..|lia|].
        rewrite Hq in Hr. cbn [mbind option_bind] in Hr. by destruct (decide (_ > 0)) in Hr. }
      cbn [mbind option_bind fst snd].
      assert (cs_p st1 ≤ cs_p st) as Hp1.
      { revert Hr. unfold par_round. destruct (p_low_of _ _ _ _ _) as [q|]; cbn -[app decide]; [|done].
        unfold ranked in *. destruct (decide (cs_s st < q)) as [Hq|Hq]; (destruct (decide (_ > 0)); intros [= _ <-]); cbn [cs_p];
          [destruct (decide (0 = 0)); [|done]; lia|lia|destruct (decide (1 = 0)); [done|]; lia|lia]. }
      destruct (par_round_full W m _ _ _ Hr Hrk ltac:(lia)) as (_ & R2 & R3 & _).
      destruct (IH st1 R2) as (e2 & st2 & ->); [lia|lia|]. cbn [mbind option_bind]. by do 2 eexists.
  Qed.

  Lemma rb_ops_defined p s : 1 ≤ k → 0 ≤ s < p → p ≤ 2 ^ 50 → is_Some (rb_ops W m k p s).
  Proof.
    intros Hk Hs Hp. unfold rb_ops. fold (st_init k p s).
    destruct (par_loop_defined (Z.to_nat k) (st_init k p s)) as (e & st & Hl); [done|done|cbn; lia|].
    rewrite Hl. cbn [mbind option_bind fst snd].
    assert ((∀ j, j ∈ cs_jobs st → fst j ≤ snd j) ∧ labels_left (cs_jobs st) ≤ k) as [J1 J2].
    { destruct (decide (k = 1)) as [->|Hk1].
      - change (Z.to_nat 1) with 1%nat in Hl. cbn [par_loop] in Hl. destruct (decide (cs_high (st_init 1 p s) - cs_low (st_init 1 p s) > 0 ∧ _)) as [[Hx _]|_] in Hl; [cbn in Hx; lia|].
        injection Hl as <- <-. cbn [st_init cs_jobs]. destruct (decide (p = 1)); split; try done.
        + by intros j ->%elem_of_list_singleton.
        + by intros j ?%elem_of_nil.
      - assert (∀ f a e' b, ranked a → stocked a → par_loop W m f a = Some (e', b) → 0 ≤ cs_high b - cs_low b → cs_high b - cs_low b ≤ cs_high a - cs_low a) as Hmono.
        { clear. induction f as [|f IH]; intros a e' b Ha Hs; cbn [par_loop]; (destruct (decide (_ ∧ _)) as [Hd|Hd]; [|intros [= <- <-]; lia]); [done|].
          destruct (par_round W m a) as [[e1 st1]|] eqn:Hr; cbn [mbind option_bind fst snd]; [|done].
          destruct (par_loop W m f st1) as [[e2 st2]|] eqn:Hl; cbn [mbind option_bind fst snd]; [|done]. intros [= <- <-] Hb.
          destruct (par_round_full W m _ _ _ Hr Ha ltac:(lia)) as (_ & R2 & R3 & R4).
          destruct R4 as [(_ & _ & R5 & _)|(c & _ & _ & R5 & R6)].
          - destruct f; cbn [par_loop] in Hl; (destruct (decide (_ ∧ _)) as [[]|] in Hl; [lia|]); injection Hl as <- <-; lia.
          - assert (cs_jobs a = []) as Hj. { unfold stocked in Hs. rewrite decide_False in Hs; [done|lia]. }
            rewrite Hj in R6. specialize (IH st1 e2 st2 R2 R6 Hl Hb). lia. }
        pose proof (par_loop_count W m _ (st_init k p s) e st ltac:(done) ltac:(done) ltac:(done) ltac:(cbn; lia) Hl) as (_ & _ & [(_ & P2 & P3 & _)|(_ & P2 & _)]); rewrite P2.
        + specialize (Hmono _ (st_init k p s) e st ltac:(done) ltac:(done) Hl ltac:(lia)). cbn [st_init cs_high cs_low] in Hmono.
          split; [intros j ->%elem_of_list_singleton; cbn; lia|]. unfold labels_left, tot. cbn. lia.
        + split; [by intros j ?%elem_of_nil|]. unfold labels_left, tot. cbn. lia. }
    destruct (seq_loop_defined (cs_G st) (Z.to_nat k) (cs_jobs st) (cs_splits st) J1 ltac:(lia)) as [r ->].
    cbn [mbind option_bind]. by eexists.
  Qed.

  Lemma traces_defined p : 1 ≤ k → p ≤ 2 ^ 50 → is_Some (traces W m k p).
  Proof.
    intros Hk Hp. unfold traces. apply mapM_is_Some. apply Forall_forall. intros s Hs%elem_of_seq.
    apply rb_ops_defined; lia.
  Qed.
End defined.
