(** Property theorems (generated by tools/gen_theorems.py from FinalEmpty.v: same
    statements, each closed by the lemma proved there). *)
From Verif Require Import FinalEmpty.

(** C70, refuted.  Vertex weights by degree, two parts, one processor, the multilevel method, the lambda-minus-one metric.  If some column of the matrix has no nonzero, and every other column shares a row with
    another column, then the program has undefined behaviour, whatever the choices of the run: the column without nonzeros gets no part, and the computation
    of the imbalance reads the weight of part -1. *)
Theorem C70_empty_column_refuted : ∀ bp opens t sy E V L entries eps eta opts j w, lawful_family bp →
  listing t sy E V L entries → valid_listing sy E V L entries → NoDup (nonzeros sy entries) → L < 2 ^ 32 → E < 2 ^ 31 →
  matrix_weight V (nonzeros sy entries) weight_degree ≤ 2 ^ 50 →
  (∀ M, part_limit (matrix_weight V (nonzeros sy entries) weight_degree) 2 eps = Some M → 0 ≤ M ∧ M * 2 ≤ 2 ^ 50) →
  o_metric opts = LambdaMinusOne → o_bisection opts = BisMultilevel →
  0 ≤ j < V → column (nonzeros sy entries) j = [] →
  (∀ j, 0 ≤ j < V → column (nonzeros sy entries) j = [] ∨
     ∃ i j', i ∈ column (nonzeros sy entries) j ∧ 0 ≤ j' < V ∧ j' ≠ j ∧ i ∈ column (nonzeros sy entries) j') →
  program bp opens t ModeDegree 1 2 eps eta opts w = Err UB.
Proof. exact C70_empty_column_refuted_proof. Qed.
Print Assumptions C70_empty_column_refuted.

(** C70, what holds.  If every column has a positive weight (with weight one for every column, this is every matrix: columns may have no nonzeros), then the program on one processor
    with two parts and the lambda-minus-one metric always delivers a partitioning in which every column, with or without nonzeros, has a part, and whose output file lists every nonzero. *)
Theorem C70_two_parts_partial : ∀ bp opens t sy E V L entries mode weight eps eta opts M w, lawful_family bp → (∀ n, opens n = true) →
  matrix_input t sy E V L entries weight → (mode = ModeOne ∧ weight = weight_one) ∨ (mode = ModeDegree ∧ weight = weight_degree) → 0 < V →
  part_limit (matrix_weight V (nonzeros sy entries) weight) 2 eps = Some M → 0 ≤ M → M * 2 ≤ 2 ^ 50 → o_metric opts = LambdaMinusOne →
  ∃ r w' part, program bp opens t mode 1 2 eps eta opts w = Ok (Result r, w') ∧
    delivered E V 2 (nonzeros sy entries) weight LambdaMinusOne part (re_file r) (re_cut r) (re_weights r) (re_balance r).
Proof. exact C70_two_parts_partial_proof. Qed.
Print Assumptions C70_two_parts_partial.

Example C70_example : let t := matrix_text 3 4 c70_entries in let opts := default_opts LambdaMinusOne BisMultilevel in
  lawful_family blocks ∧ listing t MGeneral 3 4 6 c70_entries ∧ valid_listing MGeneral 3 4 6 c70_entries ∧ NoDup c70_entries ∧
  part_limit (matrix_weight 4 c70_entries weight_degree) 2 c69_eps = Some 3 ∧
  (∀ j, 0 ≤ j < 4 → column c70_entries j = [] ∨ ∃ i j', i ∈ column c70_entries j ∧ 0 ≤ j' < 4 ∧ j' ≠ j ∧ i ∈ column c70_entries j') ∧
  column c70_entries 3 = [] ∧ program blocks (λ _, true) t ModeDegree 1 2 c69_eps c61_eps opts w0 = Err UB ∧
  matrix_input t MGeneral 3 4 6 c70_entries weight_one ∧ part_limit (matrix_weight 4 c70_entries weight_one) 2 c69_eps = Some 2 ∧
  match program blocks (λ _, true) t ModeOne 1 2 c69_eps c61_eps opts w0 with
  | Ok (Result r, _) => re_weights r = [2; 2] ∧ re_cut r = 1
  | _ => False end.
Proof.
  cbv zeta.
  assert (matrix_input (matrix_text 3 4 c70_entries) MGeneral 3 4 6 c70_entries weight_one) as HI by (apply (matrix_text_input 3 4 c70_entries weight_one); vm_compute; congruence).
  split; [apply blocks_lawful|]. split; [apply HI|]. split; [apply HI|]. split; [apply HI|]. split; [vm_compute; reflexivity|]. split.
  { intros j Hj. assert (j = 0 ∨ j = 1 ∨ j = 2 ∨ j = 3) as [->|[->|[->| ->]]] by lia; [right; exists 0, 1|right; exists 0, 0|right; exists 2, 1|by left].
    all: split; [apply (bool_decide_eq_true_1 _); vm_compute; reflexivity|]; split; [lia|]; split; [lia|]; apply (bool_decide_eq_true_1 _); vm_compute; reflexivity. }
  split; [done|]. split; [vm_compute; reflexivity|]. split; [exact HI|]. split; [vm_compute; reflexivity|]. vm_compute. done.
Qed.
