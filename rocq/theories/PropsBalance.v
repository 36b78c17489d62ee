(** Property theorems (generated by tools/gen_theorems.py from FinalBalance.v: same
    statements, each closed by the lemma proved there). *)
From Verif Require Import FinalBalance.

(** C69, refuted.  A 3 by 5 matrix with twelve nonzeros, columns weighted by their number of nonzeros, is divided into two parts with the default options (imbalance 0.03) on one
    processor.  Each part may weigh at most 6, and there is a partitioning with parts of just this weight; the program ends normally and delivers parts of weights 5 and 7. *)
Theorem C69_balance_refuted : ∃ t entries k opts M,
  matrix_input t MGeneral 3 5 12 entries weight_degree ∧ k = 2 ∧ o_metric opts = LambdaMinusOne ∧ o_bisection opts = BisMultilevel ∧
  part_limit (matrix_weight 5 (nonzeros MGeneral entries) weight_degree) k c69_eps = Some M ∧ M = 6 ∧
  (∃ part, (∀ j, 0 ≤ j < 5 → 0 ≤ part j < 2) ∧ ∀ q, 0 ≤ q < 2 → columns_weight 5 (nonzeros MGeneral entries) weight_degree part q ≤ M) ∧
  match program blocks (λ _, true) t ModeDegree 1 k c69_eps c69_eps opts w0 with Ok (Result r, _) => re_weights r = [5; 7] | _ => False end.
Proof. exact C69_balance_refuted_proof. Qed.
Print Assumptions C69_balance_refuted.

(** C69, what holds for the function on one processor and either metric.  If the parts have enough room for the whole weight, then every
    run that returns a result returns parts that are within the limit; the other runs execute an undefined operation. *)
Theorem C69_recursive_room_partial : ∀ bp H k eps opts b M w, lawful_family bp → rb_pre H → 2 ≤ k ≤ 2 ^ 50 →
  part_limit (tot_weight H) k eps = Some M → 0 ≤ M → M * k ≤ 2 ^ 50 → (∀ v, v ∈ h_verts H → v_weight v ≤ b) → 0 ≤ b →
  enough_room (room_needed opts (Z.of_nat (length (h_verts H))) b) k M (tot_weight H) →
  match recursive_bisect1 bp H k eps opts w with
  | Ok (H', _) => (∀ v, v ∈ h_verts H' → 0 ≤ v_part v < k) ∧ ∀ p, 0 ≤ p < k → part_weight H' p ≤ M
  | Err e => e = UB
  end.
Proof. exact C69_recursive_room_partial_proof. Qed.
Print Assumptions C69_recursive_room_partial.

(** C69, what holds for the function on one processor and the lambda-minus-one metric.  If moreover the room is moderate, then every run returns, and
    every part is within the limit and has a vertex. *)
Theorem C69_recursive_total_partial : ∀ bp H k eps opts b M w, lawful_family bp → rb_pre H → 2 ≤ k ≤ 2 ^ 50 →
  part_limit (tot_weight H) k eps = Some M → 0 ≤ M → M * k ≤ 2 ^ 50 → (∀ v, v ∈ h_verts H → v_weight v ≤ b) → 0 ≤ b → o_metric opts = LambdaMinusOne →
  enough_room (room_needed opts (Z.of_nat (length (h_verts H))) b) k M (tot_weight H) → moderate_room k M (tot_weight H) →
  ∃ H' w', recursive_bisect1 bp H k eps opts w = Ok (H', w') ∧ same_up_to_order_and_parts H H' ∧
    (∀ v, v ∈ h_verts H' → 0 ≤ v_part v < k) ∧ ∀ p, 0 ≤ p < k → 0 < part_weight H' p ≤ M.
Proof. exact C69_recursive_total_partial_proof. Qed.
Print Assumptions C69_recursive_total_partial.

(** C69, what holds for the program on one processor and the lambda-minus-one metric.  If the parts have enough room for the whole weight, then the
    program either delivers a partitioning in which no part weighs more than M, which is (1+eps)*W/k in double precision rounded down, or executes an undefined operation. *)
Theorem C69_program_room_partial : ∀ bp opens t sy E V L entries mode weight k eps eta opts b M w, lawful_family bp → (∀ n, opens n = true) →
  matrix_input t sy E V L entries weight → (mode = ModeOne ∧ weight = weight_one) ∨ (mode = ModeDegree ∧ weight = weight_degree) → 2 ≤ k < 2 ^ 31 →
  part_limit (matrix_weight V (nonzeros sy entries) weight) k eps = Some M → 0 ≤ M → M * k ≤ 2 ^ 50 → o_metric opts = LambdaMinusOne →
  (∀ j, 0 ≤ j < V → weight (column (nonzeros sy entries) j) ≤ b) → 0 ≤ b →
  enough_room (room_needed opts V b) k M (matrix_weight V (nonzeros sy entries) weight) →
  match program bp opens t mode 1 k eps eta opts w with
  | Ok (Result r, _) => ∃ part, delivered E V k (nonzeros sy entries) weight LambdaMinusOne part (re_file r) (re_cut r) (re_weights r) (re_balance r) ∧
      ∀ q, 0 ≤ q < k → columns_weight V (nonzeros sy entries) weight part q ≤ M
  | Ok _ => False
  | Err e => e = UB
  end.
Proof. exact C69_program_room_partial_proof. Qed.
Print Assumptions C69_program_room_partial.

(** C69, what holds for the program on one processor and the lambda-minus-one metric.  If moreover the room is moderate, then the program always delivers a
    partitioning, every part of it is within the limit, and none is empty. *)
Theorem C69_program_total_partial : ∀ bp opens t sy E V L entries mode weight k eps eta opts b M w, lawful_family bp → (∀ n, opens n = true) →
  matrix_input t sy E V L entries weight → (mode = ModeOne ∧ weight = weight_one) ∨ (mode = ModeDegree ∧ weight = weight_degree) → 2 ≤ k < 2 ^ 31 →
  part_limit (matrix_weight V (nonzeros sy entries) weight) k eps = Some M → 0 ≤ M → M * k ≤ 2 ^ 50 → o_metric opts = LambdaMinusOne →
  (∀ j, 0 ≤ j < V → weight (column (nonzeros sy entries) j) ≤ b) → 0 ≤ b →
  enough_room (room_needed opts V b) k M (matrix_weight V (nonzeros sy entries) weight) → moderate_room k M (matrix_weight V (nonzeros sy entries) weight) →
  ∃ r w' part, program bp opens t mode 1 k eps eta opts w = Ok (Result r, w') ∧
    delivered E V k (nonzeros sy entries) weight LambdaMinusOne part (re_file r) (re_cut r) (re_weights r) (re_balance r) ∧
    ∀ q, 0 ≤ q < k → 0 < columns_weight V (nonzeros sy entries) weight part q ≤ M.
Proof. exact C69_program_total_partial_proof. Qed.
Print Assumptions C69_program_total_partial.

Example C69_example : lawful_family blocks ∧ matrix_input (matrix_text 1 60 c69_row) MGeneral 1 60 60 c69_row weight_one ∧
  part_limit (matrix_weight 60 (nonzeros MGeneral c69_row) weight_one) 2 c69_eps2 = Some 39 ∧
  (∀ j, 0 ≤ j < 60 → weight_one (column (nonzeros MGeneral c69_row) j) ≤ 1) ∧
  room_needed (default_opts LambdaMinusOne BisMultilevel) 60 1 = 1 ∧ enough_room 1 2 39 60 ∧ moderate_room 2 39 60 ∧
  match program blocks (λ _, true) (matrix_text 1 60 c69_row) ModeOne 1 2 c69_eps2 c61_eps (default_opts LambdaMinusOne BisMultilevel) w0 with
  | Ok (Result r, _) => bool_decide (Forall (λ x, 0 < x ≤ 39) (re_weights r)) = true ∧ zsum (re_weights r) = 60
  | _ => False end.
Proof.
  split; [apply blocks_lawful|]. split; [apply (matrix_text_input 1 60 c69_row weight_one); vm_compute; congruence|]. split; [vm_compute; reflexivity|].
  split; [done|]. split; [vm_compute; reflexivity|]. split; [vm_compute; discriminate|]. split; [vm_compute; discriminate|]. vm_compute. split; reflexivity.
Qed.

(** C69, refuted for random bisection on two processors, also with enough and moderate room.  Both processors get half of the limits, but not half of the weight: a part weighs 120
    where 112 is allowed.  On one processor every run of the same program on the same input is within the limit. *)
Theorem C69_two_processors_refuted : ∃ t entries eps opts M b w, matrix_input t MGeneral 10 34 187 entries weight_degree ∧
  opts = default_opts LambdaMinusOne BisRandom ∧ part_limit (matrix_weight 34 entries weight_degree) 2 eps = Some M ∧
  (∀ j, 0 ≤ j < 34 → weight_degree (column entries j) ≤ b) ∧
  enough_room (room_needed opts 34 b) 2 M (matrix_weight 34 entries weight_degree) ∧ moderate_room 2 M (matrix_weight 34 entries weight_degree) ∧
  (∀ w, ∃ r w' part, program blocks (λ _, true) t ModeDegree 1 2 eps c61_eps opts w = Ok (Result r, w') ∧
     delivered 10 34 2 entries weight_degree LambdaMinusOne part (re_file r) (re_cut r) (re_weights r) (re_balance r) ∧
     ∀ q, 0 ≤ q < 2 → 0 < columns_weight 34 entries weight_degree part q ≤ M) ∧
  match program blocks (λ _, true) t ModeDegree 2 2 eps c61_eps opts w with
  | Ok (Result r, _) => ∃ x, x ∈ re_weights r ∧ M < x
  | _ => False end.
Proof. exact C69_two_processors_refuted_proof. Qed.
Print Assumptions C69_two_processors_refuted.
