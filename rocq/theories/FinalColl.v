(** C48: collective operations in recursive bisection over many processors. *)
From Verif Require Export CollDef.
From Verif Require Import ListLemmas.
Local Open Scope Z_scope.

(** ** C48 *)

(** the total weights after each bisection: not negative, not both zero, and exact as doubles *)
Definition good_weights (W : wid → Z * Z) : Prop :=
  ∀ G, 0 ≤ fst (W G) ∧ 0 ≤ snd (W G) ∧ 0 < fst (W G) + snd (W G) ≤ 2 ^ 53.
(** the number of bisections a processor takes part in *)
Definition bisections (e : list ev) : Z := Z.of_nat (length (filter (λ x : ev, snd x = OBisect) e)).

(** C48 for the lambda-1 metric.  Whatever the bisections return, any two processors take part in
    the same sequence of operations in every world both are members of, and no execution of all
    processors can get stuck.  Missing: the cut-net metric (refuted below). *)
Lemma C48_lambda_metric_partial_proof : ∀ W k p, good_weights W → 1 ≤ k → 1 ≤ p ≤ 2 ^ 50 →
  ∃ full, traces W LambdaMinusOne k p = Some full ∧
    (∀ e e' G, e ∈ full → e' ∈ full → G ∈ worlds e → G ∈ worlds e' → ops_of G e = ops_of G e') ∧
    deadlock_free full.
Proof.
  intros W k p HW Hk Hp. destruct (traces_defined W LambdaMinusOne k HW p Hk ltac:(lia)) as [full Ht]. exists full. split; [done|].
  assert (∃ Fs, agreeing full Fs) as [Fs Hag].
  { apply (traces_agreeing W LambdaMinusOne k p full Hk Ht). intros e e' (i & Hi)%elem_of_list_lookup (j & Hj)%elem_of_list_lookup.
    apply traces_lookup in Ht as [_ Hall]. destruct (Hall i e Hi) as [H1 H2], (Hall j e' Hj) as [H3 H4].
    destruct (decide (k = 1)) as [->|Hk1]; [by rewrite (rb_ops_one W _ 1 p _ _ e e' eq_refl H1 H3 H2 H4)|].
    rewrite (rb_ops_root W _ k p _ e ltac:(lia) H1 H2), (rb_ops_root W _ k p _ e' ltac:(lia) H3 H4). done. }
  split; [|by eapply agreeing_progress]. intros e e' G. by apply agreeing_ops with Fs.
Qed.

Lemma root_length_cut W k p s e : 2 ≤ k → 0 ≤ s < p → rb_ops W CutNet k p s = Some e → length (root e) = (2 * rounds_of k e + 5)%nat.
Proof.
  intros Hk Hs He. rewrite (rb_ops_root W _ k p _ e Hk Hs He). rewrite decide_True by done. rewrite !app_length. cbn [length add_ops].
  assert (∀ n, length (qs n) = 2 * n)%nat as ->; [|lia]. induction n as [|n IH]; [done|]. change (qs (Datatypes.S n)) with ([([], OQueue); ([], OSync)] ++ qs n : list ev).
  rewrite app_length, IH. cbn. lia.
Qed.
Lemma nb_pos W m k p s e : 2 ≤ k → 0 ≤ s < p → rb_ops W m k p s = Some e → nb e ≠ 0%nat.
Proof.
  intros Hk Hs. unfold rb_ops. fold (st_init k p s).
  destruct (par_loop _ _ _ _) as [[e1 st]|] eqn:Hp; cbn [mbind option_bind fst snd]; [|done].
  destruct (seq_loop _ _ _ _ _) as [[e2 sp]|] eqn:Hq; cbn [mbind option_bind fst snd]; [|done].
  intros [= <-]. pose proof (par_loop_shape _ _ _ _ _ _ Hp) as (HG & _ & _). cbn [cs_G st_init] in HG.
  apply par_loop_count in Hp as (P1 & P2 & P3); [|done|done|done|cbn; lia].
  assert (cs_G st ≠ []) as HGn. { destruct HG as [X ->]. done. }
  change (([], OSum) :: ([], OSplit 0) :: ?l) with ([([], OSum); ([], OSplit 0)] ++ l). rewrite !nb_app.
  destruct P3 as [(_ & P3 & P4 & _)|(_ & _ & P4 & _)]; [|lia]. rewrite P3 in Hq.
  apply seq_loop_count in Hq as (Q1 & Q2 & _); [|done|by intros j ->%elem_of_list_singleton]. unfold tot in Q2. cbn in Q2. lia.
Qed.

(** C48 for the cut-net metric: the run is free of deadlocks if and only if all processors take
    part in equally many operations of the initial world; and how many that are depends on how
    many bisections the processor takes part in, which need not be the same for all. *)
Lemma C48_cut_net_partial_proof : ∀ W k p, good_weights W → 1 ≤ k → 1 ≤ p ≤ 2 ^ 50 →
  ∃ full, traces W CutNet k p = Some full ∧
    (deadlock_free full ↔ ∀ e e', e ∈ full → e' ∈ full → length (ops_of [] e) = length (ops_of [] e')) ∧
    (2 ≤ k → ∀ e, e ∈ full → Z.of_nat (length (ops_of [] e)) = 2 * bisections e + 3 + if decide (2 * bisections e < k) then 2 else 0).
Proof.
  intros W k p HW Hk Hp. destruct (traces_defined W CutNet k HW p Hk ltac:(lia)) as [full Ht]. exists full. split; [done|].
  pose proof (traces_lookup _ _ _ _ _ Ht) as [_ Hall].
  assert (∀ l, length (ops_of [] l) = length (root l)) as Hlen by (intros l; by rewrite ops_of_root, fmap_length).
  split; [split|].
  - intros (cur & Hr & Hf)%deadlock_free_finishes e e' He He'.
    destruct (decide (length (ops_of [] e) = length (ops_of [] e'))) as [|Hne]; [done|].
    exfalso. by apply (differ_never full e e' He He' Hne cur).
  - intros Hall'. destruct (traces_agreeing W CutNet k p full Hk Ht) as [Fs Hag]; [|by eapply agreeing_progress].
    intros e e' He He'. specialize (Hall' e e' He He'). rewrite !Hlen in Hall'.
    apply elem_of_list_lookup in He as [i Hi]. apply elem_of_list_lookup in He' as [j Hj].
    destruct (Hall i e Hi) as [H1 H2], (Hall j e' Hj) as [H3 H4].
    destruct (decide (k = 1)) as [->|Hk1]; [by rewrite (rb_ops_one W _ 1 p _ _ e e' eq_refl H1 H3 H2 H4)|].
    rewrite (root_length_cut W k p _ e ltac:(lia) H1 H2), (root_length_cut W k p _ e' ltac:(lia) H3 H4) in Hall'.
    rewrite (rb_ops_root W _ k p _ e ltac:(lia) H1 H2), (rb_ops_root W _ k p _ e' ltac:(lia) H3 H4).
    replace (rounds_of k e') with (rounds_of k e) by lia. done.
  - intros Hk2 e (i & Hi)%elem_of_list_lookup. destruct (Hall i e Hi) as [H1 H2].
    rewrite Hlen, (root_length_cut W k p _ e Hk2 H1 H2). pose proof (nb_pos W _ k p _ e Hk2 H1 H2) as Hnb.
    unfold rounds_of, bisections. fold (nb e). destruct (decide _); lia.
Qed.

(** one round of two processors that part *)
Lemma rb_ops_pair W k s e : 4 ≤ k → 0 ≤ s < 2 → p_low_of (fst (W [0])) (snd (W [0])) 2 (k / 2) (k - k / 2) = Some 1 →
  rb_ops W CutNet k 2 s = Some e → Z.of_nat (nb e) = if decide (s = 0) then k / 2 else k - k / 2.
Proof.
  intros Hk Hs Hq. unfold rb_ops. destruct (decide (2 = 1)); [done|].
  replace (Z.to_nat k) with (Datatypes.S (Datatypes.S (Z.to_nat (k - 2)))) by lia.
  remember (Datatypes.S (Z.to_nat (k - 2))) as f eqn:Hf. cbn [par_loop cs_high cs_low cs_p].
  rewrite decide_True by lia. unfold par_round. cbn [cs_G cs_p cs_s cs_low cs_high cs_jobs cs_splits].
  unfold k_high_of, k_low_of. replace (k - 1 - 0 + 1) with k by lia. rewrite Hq. cbn [mbind option_bind].
  pose proof (Z.div_mod k 2 ltac:(done)) as Hdm. pose proof (Z.mod_pos_bound k 2 ltac:(done)) as Hmb.
  assert (2 ≤ k / 2) as Hk2 by lia.
  assert (∀ (e1 : list ev) G low high st, nb e1 = 1%nat → st = CS G 1 0 low high [(low, high)] (0 + 1) → high - low > 0 → G ≠ [] →
    (r ← (r ← par_loop W CutNet f st; Some (e1 ++ r.1, r.2));
      r' ← seq_loop CutNet (Datatypes.S f) (cs_G (snd r)) (cs_jobs (snd r)) (cs_splits (snd r));
      Some ([([], OSum); ([], OSplit 0)] ++ fst r ++ fst r' ++ end_ops CutNet k (cs_G (snd r)) (cs_p (snd r)) (snd r'))) = Some e →
    Z.of_nat (nb e) = high - low + 1) as Hgen.
  { intros e1 G low high st He1 -> Hlen HG.
    assert (par_loop W CutNet f (CS G 1 0 low high [(low, high)] (0 + 1)) = Some ([], CS G 1 0 low high [(low, high)] (0 + 1))) as ->.
    { subst f. cbn [par_loop]. rewrite decide_False; [done|]. cbn. lia. }
    cbn [mbind option_bind fst snd cs_G cs_jobs cs_splits cs_p].
    destruct (seq_loop _ _ _ _ _) as [[e2 sp2]|] eqn:Hsq; cbn [mbind option_bind fst snd]; [|done]. intros [= <-].
    apply seq_loop_count in Hsq as (Q1 & Q2 & _); [|done|by intros j ->%elem_of_list_singleton]. unfold tot in Q2. cbn in Q2.
    change (([], OSum) :: ([], OSplit 0) :: ?l) with ([([], OSum); ([], OSplit 0)] ++ l : list ev).
    rewrite !nb_app. change (nb [([], OSum); ([], OSplit 0)]) with 0%nat. change (nb []) with 0%nat.
    assert (nb (end_ops CutNet k G 1 sp2) = 0%nat) as ->.
    { unfold end_ops. rewrite nb_app, decide_True by done. rewrite nb_app. destruct (decide (_ < _)); [by rewrite nb_remove|done]. }
    rewrite He1. lia. }
  destruct (decide (s < 1)) as [Hs1|Hs1].
  - assert (s = 0) as -> by lia. rewrite decide_True by lia. rewrite (decide_True (P := 0 = 0)) by done.
    replace (if decide (Z.max 0 (Z.min 1 2) = 1) then [(0 + 0 * (k / 2), k - 1 - (1 - 0) * (k - k / 2))] else []) with [(0 + 0 * (k / 2), k - 1 - (1 - 0) * (k - k / 2))] by done.
    cbn [mbind option_bind]. intros He. eapply Hgen in He; [|reflexivity|reflexivity| |done].
    { rewrite He. destruct (decide _); lia. }
    lia.
  - assert (s = 1) as -> by lia. rewrite decide_True by lia. rewrite !(decide_False (P := 1 = 0)) by done.
    replace (if decide (2 - Z.max 0 (Z.min 1 2) = 1) then [(0 + 1 * (k / 2), k - 1 - (1 - 1) * (k - k / 2))] else []) with [(0 + 1 * (k / 2), k - 1 - (1 - 1) * (k - k / 2))] by done.
    cbn [mbind option_bind]. intros He. eapply Hgen in He; [|reflexivity|reflexivity| |done].
    { rewrite He. lia. }
    lia.
Qed.

(** C48 for the cut-net metric in two cases in which the counts agree: one processor, and two
    processors of which the first bisection gives one to each part. *)
Lemma C48_cut_net_small_partial_proof : ∀ W k p full, good_weights W → 1 ≤ k →
  (p = 1 ∨ (p = 2 ∧ p_low_of (fst (W [0])) (snd (W [0])) 2 (k / 2) (k - k / 2) = Some 1)) →
  traces W CutNet k p = Some full → deadlock_free full.
Proof.
  intros W k p full HW Hk Hp Ht. destruct (C48_cut_net_partial_proof W k p HW Hk ltac:(lia)) as (full' & Ht' & Hdf & Hcnt).
  rewrite Ht in Ht'. injection Ht' as <-. apply Hdf. intros e e' He He'.
  pose proof (traces_lookup _ _ _ _ _ Ht) as [_ Hall].
  pose proof He as Hi. pose proof He' as Hj. apply elem_of_list_lookup in Hi as [i Hi]. apply elem_of_list_lookup in Hj as [j Hj].
  destruct (Hall i e Hi) as [H1 H2], (Hall j e' Hj) as [H3 H4].
  destruct Hp as [->|[-> Hq]].
  { assert (i = j) as -> by lia. by simplify_eq. }
  destruct (decide (k = 1)) as [->|Hk1]; [by rewrite (rb_ops_one W _ 1 2 _ _ e e' eq_refl H1 H3 H2 H4)|].
  assert (k ≠ 3) as Hk3.
  { intros ->. unfold p_low_of in Hq. destruct (d_trunc _); [|done]. cbn [mbind option_bind] in Hq. by rewrite decide_True in Hq. }
  destruct (decide (k = 2)) as [->|Hk2].
  { assert (∀ s e, 0 ≤ s < 2 → rb_ops W CutNet 2 2 s = Some e → nb e = 1%nat) as H.
    { clear - Hq. intros s e Hs. unfold rb_ops. destruct (decide (2 = 1)); [done|]. change (Z.to_nat 2) with 2%nat. cbn [par_loop cs_high cs_low cs_p].
      rewrite decide_True by lia. unfold par_round. cbn [cs_G cs_p cs_s cs_low cs_high cs_jobs cs_splits].
      change (k_low_of 0 (2 - 1)) with (2 / 2). change (k_high_of 0 (2 - 1)) with (2 - 2 / 2). rewrite Hq. cbn [mbind option_bind].
      destruct (decide (s < 1)); cbn; intros [= <-]; done. }
    apply Nat2Z.inj. rewrite (Hcnt ltac:(lia) e He), (Hcnt ltac:(lia) e' He'). unfold bisections. fold (nb e) (nb e').
    by rewrite (H _ e H1 H2), (H _ e' H3 H4). }
  apply Nat2Z.inj. rewrite (Hcnt ltac:(lia) e He), (Hcnt ltac:(lia) e' He'). unfold bisections. fold (nb e) (nb e').
  rewrite (rb_ops_pair W k _ e ltac:(lia) H1 Hq H2), (rb_ops_pair W k _ e' ltac:(lia) H3 Hq H4).
  pose proof (Z.div_mod k 2 ltac:(done)). pose proof (Z.mod_pos_bound k 2 ltac:(done)).
  destruct (decide (Z.of_nat i = 0)), (decide (Z.of_nat j = 0)); repeat case_decide; lia.
Qed.

(** C48 is false for the cut-net metric: three processors, nine parts, and weights 30/60 and then
    28/32.  The processors do different numbers of bisections and so
    take part in different numbers of operations of the initial world: no execution comes to its
    end. *)
Lemma C48_cut_net_refuted_proof : ∃ W k p full, good_weights W ∧ traces W CutNet k p = Some full ∧ never_finishes full.
Proof.
  set (W := λ G : wid, if decide (G = [0]) then (30, 60) else (28, 32)).
  assert (good_weights W) as HW by (intros G; subst W; cbn; destruct (decide _); cbn; lia).
  exists W, 9, 3.
  destruct (traces W CutNet 9 3) as [full|] eqn:Ht; [|by vm_compute in Ht].
  exists full. split; [done|]. split; [done|].
  vm_compute in Ht. injection Ht as <-.
  eapply differ_never; [apply elem_of_list_here|apply elem_of_list_further, elem_of_list_here|]. vm_compute. lia.
Qed.

(** four processors and ten parts of equal weight: the hypotheses hold, and the processors part twice *)
Example C48_example : good_weights (λ _, (50, 50)) ∧
  match traces (λ _, (50, 50)) LambdaMinusOne 10 4 with
  | Some [a; b; c; d] =>
      worlds a = [[]; [0]; [0; 0]; [0; 0; 0]] ∧ worlds b = [[]; [0]; [0; 0]; [0; 0; 1]] ∧
      worlds c = [[]; [0]; [0; 1]; [0; 1; 0]] ∧ worlds d = [[]; [0]; [0; 1]; [0; 1; 1]] ∧
      ops_of [0; 1] c = [OSync; OBisect; OSum; OSum; OGather; OGather; OQueue; OQueue; OSync; OSplit 0] ∧
      bisections a = 3 ∧ bisections d = 4
  | _ => False
  end.
Proof. split; [by intros G; cbn; lia|]. vm_compute. done. Qed.
(** two processors, nine parts: the first bisection gives one processor to each part *)
Example C48_pair_example : p_low_of 50 50 2 (9 / 2) (9 - 9 / 2) = Some 1 ∧ is_Some (traces (λ _, (50, 50)) CutNet 9 2).
Proof. split; [by vm_compute|]. vm_compute. by eexists. Qed.
