(** Property theorems (generated by tools/gen_theorems.py from FinalColl.v: same
    statements, each closed by the lemma proved there). *)
From Verif Require Import FinalColl.

(** C48 for the lambda-1 metric.  Whatever the bisections return, any two processors take part in
    the same sequence of operations in every world both are members of, and no execution of all
    processors can get stuck.  Missing: the cut-net metric (refuted below). *)
Theorem C48_lambda_metric_partial : ∀ W k p, good_weights W → 1 ≤ k → 1 ≤ p ≤ 2 ^ 50 →
  ∃ full, traces W LambdaMinusOne k p = Some full ∧
    (∀ e e' G, e ∈ full → e' ∈ full → G ∈ worlds e → G ∈ worlds e' → ops_of G e = ops_of G e') ∧
    deadlock_free full.
Proof. exact C48_lambda_metric_partial_proof. Qed.
Print Assumptions C48_lambda_metric_partial.

(** C48 for the cut-net metric: the run is free of deadlocks if and only if all processors take
    part in equally many operations of the initial world; and how many that are depends on how
    many bisections the processor takes part in, which need not be the same for all. *)
Theorem C48_cut_net_partial : ∀ W k p, good_weights W → 1 ≤ k → 1 ≤ p ≤ 2 ^ 50 →
  ∃ full, traces W CutNet k p = Some full ∧
    (deadlock_free full ↔ ∀ e e', e ∈ full → e' ∈ full → length (ops_of [] e) = length (ops_of [] e')) ∧
    (2 ≤ k → ∀ e, e ∈ full → Z.of_nat (length (ops_of [] e)) = 2 * bisections e + 3 + if decide (2 * bisections e < k) then 2 else 0).
Proof. exact C48_cut_net_partial_proof. Qed.
Print Assumptions C48_cut_net_partial.

(** C48 for the cut-net metric in two cases in which the counts agree: one processor, and two
    processors of which the first bisection gives one to each part. *)
Theorem C48_cut_net_small_partial : ∀ W k p full, good_weights W → 1 ≤ k →
  (p = 1 ∨ (p = 2 ∧ p_low_of (fst (W [0])) (snd (W [0])) 2 (k / 2) (k - k / 2) = Some 1)) →
  traces W CutNet k p = Some full → deadlock_free full.
Proof. exact C48_cut_net_small_partial_proof. Qed.
Print Assumptions C48_cut_net_small_partial.

(** C48 is false for the cut-net metric: three processors, nine parts, and weights 30/60 and then
    28/32.  The processors do different numbers of bisections and so
    take part in different numbers of operations of the initial world: no execution comes to its
    end. *)
Theorem C48_cut_net_refuted : ∃ W k p full, good_weights W ∧ traces W CutNet k p = Some full ∧ never_finishes full.
Proof. exact C48_cut_net_refuted_proof. Qed.
Print Assumptions C48_cut_net_refuted.

(** four processors and ten parts of equal weight: the hypotheses hold, and the processors part twice *)
Example C48_example : good_weights (λ _, (50, 50)) ∧
  match traces (λ _, (50, 50)) LambdaMinusOne 10 4 with
  | Some [a; b; c; d] =>
      worlds a = [[]; [0]; [0; 0]; [0; 0; 0]] ∧ worlds b = [[]; [0]; [0; 0]; [0; 0; 1]] ∧
      worlds c = [[]; [0]; [0; 1]; [0; 1; 0]] ∧ worlds d = [[]; [0]; [0; 1]; [0; 1; 1]] ∧
      ops_of [0; 1] c = [OSync; OBisect; OSum; OSum; OGather; OGather; OQueue; OQueue; OSync; OSplit 0] ∧
      bisections a = 3 ∧ bisections d = 4
  | _ => False
  end.
Proof. split; [by intros G; cbn; lia|]. vm_compute. done. Qed.

(** two processors, nine parts: the first bisection gives one processor to each part *)
Example C48_pair_example : p_low_of 50 50 2 (9 / 2) (9 - 9 / 2) = Some 1 ∧ is_Some (traces (λ _, (50, 50)) CutNet 9 2).
Proof. split; [by vm_compute|]. vm_compute. by eexists. Qed.
