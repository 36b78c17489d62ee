(** Property theorems (generated by tools/gen_theorems.py from FinalRecPar.v: same
    statements, each closed by the lemma proved there). *)
From Verif Require Import FinalRecPar.

(** C59, what holds.  For every number of processors, k of at least two, imbalance, options with the
    lambda-minus-one metric, random sequence and order of arrival, recursive bisection either ends with
    every vertex of every processor in a part in [0,k), the same vertices with their weights and nets, the same net
    costs and a consistent hypergraph on every processor; or executes an undefined operation (the conversion of a
    NaN to an integer, or an access of the refinement outside its buckets, C50_out_of_range_refuted); or, with random samples
    only, fails the assertion that a processor has vertices.  It does not loop or throw.  Missing: k = 1 and the
    undefined runs (C59_one_part_refuted, C59_undefined_refuted), and the cut-net metric. *)
Theorem C59_recursive_bisection_par_partial : ∀ bp gn Hs k eps eta opts w, lawful_family bp → spread_pre gn Hs → Hs ≠ [] →
  Z.of_nat (length Hs) ≤ 2 ^ 50 → 2 ≤ k ≤ 2 ^ 50 → (∀ M, part_limit (gweight Hs) k eps = Some M → 0 ≤ M ∧ M * k ≤ 2 ^ 50) →
  valid_binary 53 1024 eta = true → d_le d_zero eta = true → d_le eta (d_of_Z (2 ^ 50)) = true → o_metric opts = LambdaMinusOne →
  (o_bisection opts = BisMultilevel → Z.of_nat (length Hs) ≤ o_sample_size opts) →
  match recursive_bisect_par bp Hs k eps eta opts w with
  | Ok (Hs', _) => rearranged gn Hs Hs' ∧ ∀ v, v ∈ all_verts Hs' → 0 ≤ v_part v < k
  | Err e => e = UB ∨ e = Abort ∧ o_bisection opts = BisMultilevel ∧ o_sampling opts = SampRandom
  end.
Proof. exact C59_recursive_bisection_par_partial_proof. Qed.
Print Assumptions C59_recursive_bisection_par_partial.

(** C59, refuted for one part: on two or more processors too nothing is done for k = 1. *)
Theorem C59_one_part_refuted : ∀ bp Hs eps eta opts M w, (2 ≤ length Hs)%nat → part_limit (gweight Hs) 1 eps = Some M →
  recursive_bisect_par bp Hs 1 eps eta opts w = Ok (Hs, w).
Proof. exact C59_one_part_refuted_proof. Qed.
Print Assumptions C59_one_part_refuted.

(** C59, refuted: a run of two processors on eight vertices, with eta 0.1, that converts a NaN to an integer. *)
Theorem C59_undefined_refuted : ∃ Hs k eps opts, spread_pre 5 Hs ∧ length Hs = 2%nat ∧ length (all_verts Hs) = 8%nat ∧ k = 3 ∧
  part_limit (gweight Hs) k eps = Some 10 ∧ o_metric opts = LambdaMinusOne ∧ Z.of_nat (length Hs) ≤ o_sample_size opts ∧
  recursive_bisect_par blocks Hs k eps c29_eps opts w0 = Err UB.
Proof. exact C59_undefined_refuted_proof. Qed.
Print Assumptions C59_undefined_refuted.

Example C59_example : lawful_family blocks ∧ spread_pre 5 qs ∧ part_limit (gweight qs) 4 c29_eps = Some 2 ∧
  valid_binary 53 1024 c29_eps = true ∧ d_le d_zero c29_eps = true ∧ d_le c29_eps (d_of_Z (2 ^ 50)) = true ∧
  match recursive_bisect_par blocks qs 4 c29_eps c29_eps r_opts w0 with
  | Ok (Hs', _) => bool_decide ((λ H, (λ v, (v_id v, v_part v)) <$> h_verts H) <$> Hs' = [[(0, 1); (1, 1); (4, 1); (6, 0)]; [(5, 2); (7, 2); (2, 3); (3, 3)]])
  | Err _ => false end = true.
Proof.
  split; [apply blocks_lawful|]. split; [exact qs_spread|]. split; [vm_compute; reflexivity|]. split; [vm_compute; reflexivity|].
  split; [vm_compute; reflexivity|]. split; vm_compute; reflexivity.
Qed.

(** C60, what holds.  [rs]: the processors after a bisection into the labels [low] and [high], each with the weights
    of its two sides.  For every number [p_low] of processors that are to work on the low half, the redistribution ends
    normally and only moves vertices.  If both halves get processors, afterwards every low vertex is on one of the first p_low
    processors and every high vertex on one of the others, and all of their vertices are in the range they go on
    with.  If the low half gets none, exactly the low vertices are set aside, behind the range. *)
Theorem C60_halves_partial : ∀ gn rs low high p_low eta w, spread_pre gn (fst <$> rs) → Z.of_nat (length rs) ≤ 2 ^ 50 → low ≠ high →
  (∀ r, r ∈ rs → snd r = (part_weight (fst r) low, part_weight (fst r) high)) → 0 ≤ p_low ≤ Z.of_nat (length rs) →
  valid_binary 53 1024 eta = true → d_le d_zero eta = true → d_le eta (d_of_Z 1024) = true →
  ∃ G w', regroup eta rs low high (gpart_weight (fst <$> rs) low) (gpart_weight (fst <$> rs) high) p_low w = Ok (G, w') ∧
    rearranged gn (fst <$> rs) (fst <$> G) ∧ all_verts (fst <$> G) ≡ₚ all_verts (fst <$> rs) ∧
    (0 < p_low < Z.of_nat (length rs) → ∀ t g v, G !! t = Some g → v ∈ h_verts (fst g) →
       (v_part v = low → Z.of_nat t < p_low) ∧ (v_part v = high → p_low ≤ Z.of_nat t) ∧ snd g = Z.of_nat (length (h_verts (fst g)))) ∧
    (p_low = 0 → ∀ t g i v, G !! t = Some g → h_verts (fst g) !! i = Some v → (v_part v = low ↔ snd g ≤ Z.of_nat i)).
Proof. exact C60_halves_partial_proof. Qed.
Print Assumptions C60_halves_partial.

(** C60, the number of processors for the low half is between 0 and the number of processors of the group. *)
Theorem C60_processors_partial : ∀ w0 w1 p k_low k_high w, 0 ≤ w0 → 0 ≤ w1 → 0 < w0 + w1 ≤ 2 ^ 50 → 1 ≤ p ≤ 2 ^ 50 →
  ∃ q, p_low_par w0 w1 p k_low k_high w = Ok (q, w) ∧ 0 ≤ q ≤ p ∧ (k_low = 1 → 1 < k_high → q = 0) ∧
    (2 ≤ p → 1 < k_low → w1 ≤ 3 * w0 → 0 < q).
Proof. exact C60_processors_partial_proof. Qed.
Print Assumptions C60_processors_partial.

(** C60, refuted for the high half.  Two processors divide eight vertices into 4 parts; the first bisection, which keeps its limits,
    gives vertex 7 the label of the high half (parts 2 and 3).  Nobody works on the high half, since 7/8 of the weight is
    in the low one: vertex 7 is treated as a vertex of the low half and ends in part 1; parts 2 and 3 stay empty. *)
Theorem C60_high_half_refuted : ∃ Hs k eps M opts w, spread_pre 0 Hs ∧ length Hs = 2%nat ∧ k = 4 ∧ part_limit (gweight Hs) k eps = Some M ∧
  match first_bisection Hs k M opts w, recursive_bisect_par blocks Hs k eps c29_eps opts w with
  | Ok (rs, _), Ok (Hs', _) => gpart (fst <$> rs) 7 = 3 ∧ gpart Hs' 7 = 1 ∧ gpart_weight Hs' 2 = 0 ∧ gpart_weight Hs' 3 = 0
  | _, _ => False end.
Proof. exact C60_high_half_refuted_proof. Qed.
Print Assumptions C60_high_half_refuted.

(** C60, refuted for the low half.  Two processors divide 18 vertices into 16 parts; the first bisection, which keeps its limits,
    gives vertices 0, 1, 9 and 10 the label of the low half (parts 0 to 7).  Nobody works on the low half, with less than a quarter of the
    weight; the next redistribution moves these vertices among those of the high half, and they end in parts 8 and above, while
    parts 0 to 7 stay empty. *)
Theorem C60_low_half_refuted : ∃ Hs k eps M opts w, spread_pre 0 Hs ∧ length Hs = 2%nat ∧ k = 16 ∧ part_limit (gweight Hs) k eps = Some M ∧
  match first_bisection Hs k M opts w, recursive_bisect_par blocks Hs k eps c29_eps opts w with
  | Ok (rs, _), Ok (Hs', _) => gpart (fst <$> rs) <$> [0; 1; 9; 10] = [0; 0; 0; 0] ∧ gpart Hs' <$> [0; 1; 9; 10] = [10; 8; 14; 12] ∧
      gpart_weight Hs' <$> [0; 1; 2; 3; 4; 5; 6; 7] = [0; 0; 0; 0; 0; 0; 0; 0]
  | _, _ => False end.
Proof. exact C60_low_half_refuted_proof. Qed.
Print Assumptions C60_low_half_refuted.

Example C60_example : spread_pre 5 (fst <$> c60_rs) ∧ (∀ r, r ∈ c60_rs → snd r = (part_weight (fst r) 0, part_weight (fst r) 3)) ∧
  d_le c29_eps (d_of_Z 1024) = true ∧
  match first_bisection qs 4 3 r_opts w0 with
  | Ok (rs, _) => bool_decide ((λ r : hg * (Z * Z), (h_verts (fst r), snd r)) <$> rs = (λ r : hg * (Z * Z), (h_verts (fst r), snd r)) <$> c60_rs) | Err _ => false end = true ∧
  p_low_par 5 5 2 2 2 w0 = Ok (1, w0) ∧
  match regroup c29_eps c60_rs 0 3 5 5 1 w0 with
  | Ok (G, _) => bool_decide ((λ g : hg * Z, ((λ v, (v_id v, v_part v)) <$> h_verts (fst g), snd g)) <$> G =
      [([(0, 0); (4, 0); (6, 0); (7, 0)], 4); ([(5, 3); (1, 3); (2, 3); (3, 3)], 4)]) | Err _ => false end = true.
Proof.
  split; [|split; [|split; [vm_compute; reflexivity|split; [vm_compute; reflexivity|split; [vm_compute; reflexivity|]]]]].
  - dec_spread.
  - apply Forall_forall, (bool_decide_eq_true_1 _). vm_compute. reflexivity.
  - vm_compute. reflexivity.
Qed.

(** C61.  Whenever every bisection of a run on any number of processors returns sides within the limits it was given (the
    program with bisections replaced by [checked] ones, which give up otherwise, ends normally), the run of the program is
    that run, and every part weighs at most M, which is (1+eps)*W/k evaluated in double precision and rounded down.  This
    includes the runs of C60_high_half_refuted and C60_low_half_refuted. *)
Theorem C61_imbalance_par : ∀ bp gn Hs k eps eta opts M w Hs' w', lawful_family bp → spread_pre gn Hs → Hs ≠ [] →
  Z.of_nat (length Hs) ≤ 2 ^ 50 → 2 ≤ k ≤ 2 ^ 50 → part_limit (gweight Hs) k eps = Some M → 0 ≤ M → M * k ≤ 2 ^ 50 →
  valid_binary 53 1024 eta = true → d_le d_zero eta = true → d_le eta (d_of_Z (2 ^ 50)) = true → o_metric opts = LambdaMinusOne →
  (o_bisection opts = BisMultilevel → Z.of_nat (length Hs) ≤ o_sample_size opts) →
  recursive_bisect_par_with (checked (bisect1 bp)) (checked_par (bisect_par bp)) Hs k eps eta opts w = Ok (Hs', w') →
  recursive_bisect_par bp Hs k eps eta opts w = Ok (Hs', w') ∧ ∀ q, 0 ≤ q < k → gpart_weight Hs' q ≤ M.
Proof. exact C61_imbalance_par_proof. Qed.
Print Assumptions C61_imbalance_par.

Example C61_example : lawful_family blocks ∧ spread_pre 5 qs ∧ part_limit (gweight qs) 4 c61_eps = Some 3 ∧
  match recursive_bisect_par_with (checked (bisect1 blocks)) (checked_par (bisect_par blocks)) qs 4 c61_eps c29_eps r_opts w0 with
  | Ok (Hs', _) => bool_decide (gpart_weight Hs' <$> [0; 1; 2; 3] = [2; 3; 3; 2]) | Err _ => false end = true ∧
  part_limit (gweight l9) 16 r_eps = Some 31 ∧
  match recursive_bisect_par_with (checked (bisect1 blocks)) (checked_par (bisect_par blocks)) l9 16 r_eps c29_eps lone_opts l9_tape with
  | Ok (Hs', _) => bool_decide (gpart_weight Hs' <$> [0; 7; 8; 11; 15] = [0; 0; 19; 21; 21]) | Err _ => false end = true.
Proof.
  split; [apply blocks_lawful|]. split; [exact qs_spread|]. split; [vm_compute; reflexivity|]. split; [vm_compute; reflexivity|].
  split; vm_compute; reflexivity.
Qed.
