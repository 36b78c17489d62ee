(** Property theorems (generated by tools/gen_theorems.py from FinalProgram.v: same
    statements, each closed by the lemma proved there). *)
From Verif Require Import FinalProgram.

(** C62, what holds.  For every valid matrix file without repeated nonzeros and with column weights that are
    positive, every number of processors, k of at least two, imbalance, random sequence and order of arrival, and options with the lambda-minus-one
    metric, or with any metric for k = 2: if the result file can be opened, the program either
    delivers a partitioning of the columns into k parts, with an output file that lists every nonzero of the matrix exactly once, sorted by part, and with the
    cut, part weights and imbalance of just this partitioning; or executes an undefined operation; or, with random samples only, fails the assertion that a
    processor has vertices.  It does not end with an error message, wait for ever, loop or throw.  Missing: k = 1 (C62_one_part_refuted), the cut-net
    metric with more parts (C62_cut_net_refuted) and the undefined runs (C59_undefined_refuted). *)
Theorem C62_program_partial : ∀ bp opens t sy E V L entries mode weight p k eps eta opts w, lawful_family bp → (∀ n, opens n = true) →
  matrix_input t sy E V L entries weight → (mode = ModeOne ∧ weight = weight_one) ∨ (mode = ModeDegree ∧ weight = weight_degree) →
  1 ≤ Z.of_nat p ≤ 2 ^ 50 → 2 ≤ k < 2 ^ 31 →
  (∀ M, part_limit (matrix_weight V (nonzeros sy entries) weight) k eps = Some M → 0 ≤ M ∧ M * k ≤ 2 ^ 50) →
  valid_binary 53 1024 eta = true → d_le d_zero eta = true → d_le eta (d_of_Z (2 ^ 50)) = true → o_metric opts = LambdaMinusOne ∨ k = 2 →
  (o_bisection opts = BisMultilevel → Z.of_nat p ≤ o_sample_size opts) →
  match program bp opens t mode p k eps eta opts w with
  | Ok (Result r, _) => ∃ part, delivered E V k (nonzeros sy entries) weight (o_metric opts) part (re_file r) (re_cut r) (re_weights r) (re_balance r)
  | Ok (Message, _) => False
  | Ok (Blocked, _) => False
  | Err e => e = UB ∨ e = Abort ∧ o_bisection opts = BisMultilevel ∧ o_sampling opts = SampRandom
  end.
Proof. exact C62_program_partial_proof. Qed.
Print Assumptions C62_program_partial.

(** C68.  With the cut-net metric, every number of processors and k of at least two: when the program ends with a result, the numbers it reports are the cut, the
    part weights and the imbalance of the partitioning by which the output file is sorted, every part number is in range, and the entries of the file are nonzeros of the matrix,
    each at most once.  The program does not end with an error message, loop or throw; processors wait for each other for ever only for k other than 2. *)
Theorem C68_program_cut_net : ∀ bp opens t sy E V L entries mode weight p k eps eta opts w, lawful_family bp → (∀ n, opens n = true) →
  matrix_input t sy E V L entries weight → (mode = ModeOne ∧ weight = weight_one) ∨ (mode = ModeDegree ∧ weight = weight_degree) →
  1 ≤ Z.of_nat p ≤ 2 ^ 50 → 2 ≤ k < 2 ^ 31 →
  (∀ M, part_limit (matrix_weight V (nonzeros sy entries) weight) k eps = Some M → 0 ≤ M ∧ M * k ≤ 2 ^ 50) →
  valid_binary 53 1024 eta = true → d_le d_zero eta = true → d_le eta (d_of_Z (2 ^ 50)) = true → o_metric opts = CutNet →
  (o_bisection opts = BisMultilevel → Z.of_nat p ≤ o_sample_size opts) →
  match program bp opens t mode p k eps eta opts w with
  | Ok (Result r, _) => ∃ part listed, listed ⊆+ nonzeros sy entries ∧
      delivered_listing E V k (nonzeros sy entries) listed weight CutNet part (re_file r) (re_cut r) (re_weights r) (re_balance r)
  | Ok (Message, _) => False
  | Ok (Blocked, _) => k ≠ 2
  | Err e => e = UB ∨ e = Abort ∧ o_bisection opts = BisMultilevel ∧ o_sampling opts = SampRandom
  end.
Proof. exact C68_program_cut_net_proof. Qed.
Print Assumptions C68_program_cut_net.

(** C62, refuted for one part.  With k = 1 nothing assigns the columns to part 0, and the computation of the imbalance reads the
    weight of part -1: for every matrix that has a column, the program has undefined behaviour. *)
Theorem C62_one_part_refuted : ∀ bp opens t sy E V L entries mode weight p eps eta opts w, lawful_family bp →
  matrix_input t sy E V L entries weight → (mode = ModeOne ∧ weight = weight_one) ∨ (mode = ModeDegree ∧ weight = weight_degree) →
  (0 < p)%nat → 0 < V → o_metric opts = LambdaMinusOne → program bp opens t mode p 1 eps eta opts w = Err UB.
Proof. exact C62_one_part_refuted_proof. Qed.
Print Assumptions C62_one_part_refuted.

(** C62, refuted for the cut-net metric.  One processor divides a 3 by 4 matrix with five nonzeros into 3 parts: the program ends
    normally, and reports a cut and weights, but the output file, whose header announces five nonzeros, lists none. *)
Theorem C62_cut_net_refuted : ∃ t entries k opts, matrix_input t MGeneral 3 4 5 entries weight_one ∧ length (nonzeros MGeneral entries) = 5%nat ∧
  k = 3 ∧ o_metric opts = CutNet ∧
  match program blocks (λ _, true) t ModeOne 1 k c29_eps c29_eps opts w0 with
  | Ok (Result r, _) => re_file r = concat (with_newline <$> (chars <$>
      ["%%MatrixMarket distributed-matrix coordinate pattern general"; "3 4 5 3"; "0"; "0"; "0"; "0"]%string)) ∧ re_weights r = [1; 2; 1] ∧ re_cut r = 2
  | _ => False end.
Proof. exact C62_cut_net_refuted_proof. Qed.
Print Assumptions C62_cut_net_refuted.

Example C62_example : lawful_family blocks ∧ matrix_input ex_text MGeneral 3 4 5 ex_entries weight_degree ∧
  part_limit (matrix_weight 4 (nonzeros MGeneral ex_entries) weight_degree) 2 c29_eps = Some 2 ∧
  match program blocks (λ _, true) ex_text ModeDegree 2 2 c29_eps c29_eps r_opts w0 with
  | Ok (Result r, _) => re_file r = concat (with_newline <$> (chars <$>
      ["%%MatrixMarket distributed-matrix coordinate pattern general"; "3 4 5 2"; "0"; "2"; "5"; "1 1"; "1 3"; "3 2"; "3 4"; "1 4"]%string)) ∧ re_weights r = [2; 3] ∧ re_cut r = 1
  | _ => False end.
Proof.
  split; [apply blocks_lawful|]. split; [apply (ex_input ModeDegree)|]. split; [vm_compute; reflexivity|].
  vm_compute. done.
Qed.

(** two processors, four parts: the file announces five nonzeros and lists two of them *)
Example C68_example : lawful_family blocks ∧ matrix_input ex_text MGeneral 3 4 5 ex_entries weight_degree ∧
  part_limit (matrix_weight 4 (nonzeros MGeneral ex_entries) weight_degree) 4 c61_eps = Some 1 ∧
  match program blocks (λ _, true) ex_text ModeDegree 2 4 c61_eps c61_eps (c29_opts CutNet BisMultilevel) w0 with
  | Ok (Result r, _) => re_file r = concat (with_newline <$> (chars <$>
      ["%%MatrixMarket distributed-matrix coordinate pattern general"; "3 4 5 4"; "0"; "0"; "1"; "1"; "2"; "1 3"; "3 2"]%string)) ∧ re_weights r = [1; 1; 2; 1] ∧ re_cut r = 2
  | _ => False end.
Proof.
  split; [apply blocks_lawful|]. split; [apply (ex_input ModeDegree)|]. split; [vm_compute; reflexivity|]. vm_compute. done.
Qed.

(** C63.  Whenever every bisection of a run of the program returns sides within the limits it was given (the program with
    bisections replaced by [checked] ones, which give up otherwise, ends with a result), the run of the program is that run, and no
    part of the partitioning it delivers weighs more than M, which is (1+eps)*W/k evaluated in double precision and rounded down.  This holds for both metrics;
    as in C62 and C68, the file is complete with the lambda-minus-one metric and for k = 2. *)
Theorem C63_program_imbalance : ∀ bp opens t sy E V L entries mode weight p k eps eta opts M w r w', lawful_family bp → (∀ n, opens n = true) →
  matrix_input t sy E V L entries weight → (mode = ModeOne ∧ weight = weight_one) ∨ (mode = ModeDegree ∧ weight = weight_degree) →
  1 ≤ Z.of_nat p ≤ 2 ^ 50 → 2 ≤ k < 2 ^ 31 →
  part_limit (matrix_weight V (nonzeros sy entries) weight) k eps = Some M → 0 ≤ M → M * k ≤ 2 ^ 50 →
  valid_binary 53 1024 eta = true → d_le d_zero eta = true → d_le eta (d_of_Z (2 ^ 50)) = true →
  (o_bisection opts = BisMultilevel → Z.of_nat p ≤ o_sample_size opts) →
  program_with bp (partition_with bp (checked (bisect1 bp)) (checked_par (bisect_par bp))) opens t mode p k eps eta opts w = Ok (Result r, w') →
  program bp opens t mode p k eps eta opts w = Ok (Result r, w') ∧
  ∃ part listed, listed ⊆+ nonzeros sy entries ∧ (o_metric opts = LambdaMinusOne ∨ k = 2 → listed = nonzeros sy entries) ∧
    delivered_listing E V k (nonzeros sy entries) listed weight (o_metric opts) part (re_file r) (re_cut r) (re_weights r) (re_balance r) ∧
    ∀ q, 0 ≤ q < k → columns_weight V (nonzeros sy entries) weight part q ≤ M.
Proof. exact C63_program_imbalance_proof. Qed.
Print Assumptions C63_program_imbalance.

Example C63_example : lawful_family blocks ∧ matrix_input ex_text MGeneral 3 4 5 ex_entries weight_degree ∧
  part_limit (matrix_weight 4 (nonzeros MGeneral ex_entries) weight_degree) 2 c61_eps = Some 3 ∧
  match program_with blocks (partition_with blocks (checked (bisect1 blocks)) (checked_par (bisect_par blocks))) (λ _, true) ex_text ModeDegree 2 2 c61_eps c29_eps r_opts w0 with
  | Ok (Result r, _) => re_weights r = [2; 3]
  | _ => False end.
Proof.
  split; [apply blocks_lawful|]. split; [apply (ex_input ModeDegree)|]. split; [vm_compute; reflexivity|]. vm_compute. done.
Qed.
