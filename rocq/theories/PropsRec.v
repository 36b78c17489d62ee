(** Property theorems (generated by tools/gen_theorems.py from FinalRec.v: same
    statements, each closed by the lemma proved there). *)
From Verif Require Import FinalRec.

(** C28, what holds.  If the range R, with both labels allowed, has a vertex labelled high, then
    reordering permutes R into its low vertices followed by its high vertices, returns the boundary,
    and changes nothing else; id lookup stays exact. *)
Theorem C28_reorder_partial : ∀ H A R B low high w, consistent H → h_verts H = A ++ R ++ B → low ≠ high →
  (∀ v, v ∈ R → v_part v = low ∨ v_part v = high) → (∃ v, v ∈ R ∧ v_part v = high) →
  ∃ H' R0 R1 w',
    reorder_hypergraph H (Z.of_nat (length A)) (Z.of_nat (length (A ++ R))) low high w = Ok ((H', Z.of_nat (length (A ++ R0))), w') ∧
    h_verts H' = A ++ R0 ++ R1 ++ B ∧ R0 ++ R1 ≡ₚ R ∧ (∀ v, v ∈ R0 → v_part v = low) ∧ (∀ v, v ∈ R1 → v_part v = high) ∧
    consistent H' ∧ h_nets H' = h_nets H ∧ h_gsize H' = h_gsize H ∧ h_gnets H' = h_gnets H ∧ h_nz H' = h_nz H ∧ h_dups H' = h_dups H.
Proof. exact C28_reorder_partial_proof. Qed.
Print Assumptions C28_reorder_partial.

(** C28, refuted.  If no vertex of the range is labelled high, and also if the range is empty, the
    vertices stay where they are and the returned boundary is one too small: the last vertex of the
    range falls on the high side, and for an empty range the boundary lies before its start. *)
Theorem C28_one_sided_refuted : ∀ H A R B low high w, h_verts H = A ++ R ++ B → low ≠ high →
  (∀ v, v ∈ R → v_part v = low) →
  ∃ H' w',
    reorder_hypergraph H (Z.of_nat (length A)) (Z.of_nat (length (A ++ R))) low high w = Ok ((H', Z.of_nat (length (A ++ R)) - 1), w') ∧
    h_verts H' = h_verts H.
Proof. exact C28_one_sided_refuted_proof. Qed.
Print Assumptions C28_one_sided_refuted.

Example C28_example :
  h_verts (c28_H [9; 4; 7; 4; 7; 7; 4; 9]) = take 1 (c28_vs [9; 4; 7; 4; 7; 7; 4; 9]) ++ take 6 (drop 1 (c28_vs [9; 4; 7; 4; 7; 7; 4; 9])) ++ drop 7 (c28_vs [9; 4; 7; 4; 7; 7; 4; 9]) ∧
  consistent (c28_H [9; 4; 7; 4; 7; 7; 4; 9]) ∧
  match reorder_hypergraph (c28_H [9; 4; 7; 4; 7; 7; 4; 9]) 1 7 4 7 w0 with
  | Ok ((H', e), _) => bool_decide (e = 4 ∧ v_part <$> h_verts H' = [9; 4; 4; 4; 7; 7; 7; 9]) | Err _ => false end = true ∧
  match reorder_hypergraph (c28_H [4; 4; 4; 4]) 1 3 4 7 w0 with Ok ((_, e), _) => bool_decide (e = 2) | Err _ => false end = true.
Proof. split; [reflexivity|]. split; [exact c28_H_cons|]. split; vm_compute; reflexivity. Qed.

(** C29, what holds.  For every k of at least two, every imbalance, options, random sequence and hash
    order, recursive bisection with one processor either ends with every vertex in a part in [0,k),
    or executes the conversion of a NaN to an integer (or looks at the first vertex of an empty net,
    with the cut-net metric).  It does not loop, fail an assertion or throw.  With the lambda-minus-one
    metric vertices, weights, nets and incidences are those of the input; with the cut-net metric the
    nets recorded at the vertices are not (C32_vertices_refuted).  Missing: k = 1 and the undefined
    runs (C29_one_part_refuted, C29_empty_side_refuted). *)
Theorem C29_recursive_bisection_partial : ∀ bp H k eps opts w, lawful_family bp → rb_pre H → 2 ≤ k ≤ 2 ^ 50 →
  (∀ M, part_limit (tot_weight H) k eps = Some M → 0 ≤ M ∧ M * k ≤ 2 ^ 50) →
  recursive_bisect1 bp H k eps opts w = Err UB ∨
  ∃ H' w', recursive_bisect1 bp H k eps opts w = Ok (H', w') ∧ (∀ v, v ∈ h_verts H' → 0 ≤ v_part v < k) ∧
    (o_metric opts = LambdaMinusOne → same_up_to_order_and_parts H H') ∧ same_nets_up_to_order H H'.
Proof. exact C29_recursive_bisection_partial_proof. Qed.
Print Assumptions C29_recursive_bisection_partial.

(** C29, two parts: the run always ends normally if there is a vertex at all. *)
Theorem C29_two_parts_partial : ∀ bp H eps opts M w, lawful_family bp → rb_pre H → h_verts H ≠ [] →
  part_limit (tot_weight H) 2 eps = Some M → 0 ≤ M → M * 2 ≤ 2 ^ 50 →
  ∃ H' w', recursive_bisect1 bp H 2 eps opts w = Ok (H', w') ∧ (∀ v, v ∈ h_verts H' → 0 ≤ v_part v < 2) ∧
    (o_metric opts = LambdaMinusOne → same_up_to_order_and_parts H H') ∧ same_nets_up_to_order H H'.
Proof. exact C29_two_parts_partial_proof. Qed.
Print Assumptions C29_two_parts_partial.

(** C29, refuted for one part.  Nothing is done for k = 1: all vertices keep their part, which is -1
    in a hypergraph as it is read. *)
Theorem C29_one_part_refuted : ∀ bp H eps opts M w, o_metric opts = LambdaMinusOne → part_limit (tot_weight H) 1 eps = Some M →
  recursive_bisect1 bp H 1 eps opts w = Ok (H, w).
Proof. exact C29_one_part_refuted_proof. Qed.
Print Assumptions C29_one_part_refuted.

(** C29, refuted for sides that get no vertex and must be split again: their weight is 0, the
    imbalance left to them is infinite, 0 * infinity is not a number, and the conversion of that to
    an integer is undefined. *)
Theorem C29_empty_side_refuted : ∃ H k eps opts, rb_pre H ∧ part_limit (tot_weight H) k eps = Some 1 ∧ h_verts H ≠ [] ∧ k = 4 ∧
  recursive_bisect1 blocks H k eps opts w0 = Err UB.
Proof. exact C29_empty_side_refuted_proof. Qed.
Print Assumptions C29_empty_side_refuted.

Example C29_example :
  lawful_family blocks ∧ rb_pre c27_G ∧ part_limit (tot_weight c27_G) 3 c29_eps = Some 3 ∧ 3 * 3 ≤ 2 ^ 50 ∧
  match recursive_bisect1 blocks c27_G 3 c29_eps (c29_opts LambdaMinusOne BisMultilevel) w0 with
  | Ok (H', _) => bool_decide ((λ v, (v_id v, v_part v)) <$> h_verts H' = [(5, 0); (4, 0); (2, 0); (3, 1); (1, 2); (0, 2)]) | Err _ => false end = true ∧
  match recursive_bisect1 blocks c27_G 4 c29_eps (c29_opts CutNet BisMultilevel) w0 with
  | Ok (H', _) => bool_decide ((λ v, (v_id v, v_part v)) <$> h_verts H' = [(0, 0); (1, 1); (2, 1); (3, 2); (4, 3); (5, 3)]) | Err _ => false end = true.
Proof.
  split; [apply blocks_lawful|]. split; [exact c27_G_rb_pre|]. split; [vm_compute; reflexivity|]. split; [lia|]. split; vm_compute; reflexivity.
Qed.

(** C30.  Splitting the labels low..high gives every label exactly once as a leaf, in order, after
    high - low splits; in particular [0,k-1] after k-1 splits.  Both sides of a split have labels. *)
Theorem C30_labels : ∀ low high, low ≤ high → ∀ L n, split_tree low high L n ↔ L = seqZ low (high - low + 1) ∧ n = high - low.
Proof. exact C30_labels_proof. Qed.
Print Assumptions C30_labels.

(** C30 for the runs of the program: every run that ends has made k - 1 splits. *)
Theorem C30_runs : ∀ bp H k M opts w s' w', lawful_family bp → rb_pre H → 2 ≤ k ≤ 2 ^ 50 → 0 ≤ M → M * k ≤ 2 ^ 50 →
  rb_loop (bisect1 bp) k M opts (RB H [Job 0 (Z.of_nat (length (h_verts H))) 0 (k - 1) (tot_weight H)] [] 0) w = Ok (s', w') →
  rb_splits s' = k - 1 ∧ rb_jobs s' = [].
Proof. exact C30_runs_proof. Qed.
Print Assumptions C30_runs.

Example C30_example : split_tree 0 2 [0; 1; 2] 2 ∧ labels_0 0 2 = (0, 0) ∧ labels_1 0 2 = (1, 2) ∧ labels_0 3 9 = (3, 5) ∧ labels_1 3 9 = (6, 9) ∧
  match rb_loop (bisect1 blocks) 4 3 (c29_opts LambdaMinusOne BisMultilevel) (RB c27_G [Job 0 6 0 3 9] [] 0) w0 with
  | Ok (s', _) => bool_decide (rb_splits s' = 3) | Err _ => false end = true.
Proof. split; [by apply C30_labels_proof|]. split; [reflexivity|]. split; [reflexivity|]. split; [reflexivity|]. split; [reflexivity|]. vm_compute. reflexivity. Qed.

(** C31, what holds: if no net is empty, exactly the nets with two or more vertices are taken out and
    stored, so every cut net is among them. *)
Theorem C31_remove_cut_nets_partial : ∀ H cut w, consistent H → (∀ n, n ∈ h_nets H → n_verts n ≠ []) →
  ∃ H' add w', remove_cut_nets H cut w = Ok ((H', cut ++ add), w') ∧ consistent H' ∧
    h_nets H' ≡ₚ filter (λ n, length (n_verts n) = 1%nat) (h_nets H) ∧
    net_data <$> add ≡ₚ net_data <$> filter (λ n, 2 ≤ length (n_verts n))%nat (h_nets H) ∧
    (∀ n u v, n ∈ h_nets H → u ∈ n_verts n → v ∈ n_verts n → part_of H u ≠ part_of H v → net_data n ∈ net_data <$> add ∧ n_id n ∉ n_id <$> h_nets H').
Proof. exact C31_remove_cut_nets_partial_proof. Qed.
Print Assumptions C31_remove_cut_nets_partial.

(** C31, refuted: vertex ids are compared, not parts, so a net that is not cut is taken out as well:
    here all vertices are in part 0 and no net is left. *)
Theorem C31_uncut_refuted : ∃ H H' cut w', consistent H ∧ (∀ v, v ∈ h_verts H → v_part v = 0) ∧ h_nets H ≠ [] ∧
  remove_cut_nets H [] w0 = Ok ((H', cut), w') ∧ h_nets H' = [] ∧ length cut = length (h_nets H).
Proof. exact C31_uncut_refuted_proof. Qed.
Print Assumptions C31_uncut_refuted.

(** C31, refuted: with an empty net the behaviour is undefined. *)
Theorem C31_empty_net_refuted : ∀ H cut w n, consistent H → n ∈ h_nets H → n_verts n = [] → remove_cut_nets H cut w = Err UB.
Proof. exact C31_empty_net_refuted_proof. Qed.
Print Assumptions C31_empty_net_refuted.

Example C31_example : consistent c31_H ∧ (∀ n, n ∈ h_nets c31_H → n_verts n ≠ []) ∧ part_of c31_H 0 ≠ part_of c31_H 1 ∧
  match remove_cut_nets c31_H [] w0 with
  | Ok ((H', cut), _) => bool_decide (h_nets H' = [Net 2 [2] 1 1] ∧ cut = [Net 0 [0; 1] 1 0; Net 1 [0; 2; 3] 4 0]) | Err _ => false end = true.
Proof.
  split; [exact c31_H_cons|]. split; [apply Forall_forall, (bool_decide_eq_true_1 _); vm_compute; reflexivity|].
  split; [vm_compute; discriminate|]. vm_compute. reflexivity.
Qed.

(** C32, what holds: removing and adding the cut nets restores all nets with their vertices and costs
    (in another order), and the vertices keep their order, ids, weights and parts.  Missing: the
    vertex side (C32_vertices_refuted). *)
Theorem C32_restore_nets_partial : ∀ H w, consistent H → (∀ n, n ∈ h_nets H → n_verts n ≠ []) →
  ∃ H' cut w', (c <- remove_cut_nets H [] ;; H' <- add_cut_nets (fst c) (snd c) ;; ret (H', snd c)) w = Ok ((H', cut), w') ∧
    net_data <$> h_nets H' ≡ₚ net_data <$> h_nets H ∧ (λ v, (v_id v, v_weight v, v_part v)) <$> h_verts H' = (λ v, (v_id v, v_weight v, v_part v)) <$> h_verts H.
Proof. exact C32_restore_nets_partial_proof. Qed.
Print Assumptions C32_restore_nets_partial.

(** C32, refuted for the vertex side: afterwards no vertex lists any of the nets with two or more vertices. *)
Theorem C32_vertices_refuted : ∀ H w H' cut w', consistent H → (∀ n, n ∈ h_nets H → n_verts n ≠ []) →
  (c <- remove_cut_nets H [] ;; H' <- add_cut_nets (fst c) (snd c) ;; ret (H', snd c)) w = Ok ((H', cut), w') →
  ∀ n v, n ∈ h_nets H → (2 ≤ length (n_verts n))%nat → v ∈ h_verts H' → n_id n ∉ v_nets v.
Proof. exact C32_vertices_refuted_proof. Qed.
Print Assumptions C32_vertices_refuted.

Example C32_example : consistent c31_H ∧ (∀ n, n ∈ h_nets c31_H → n_verts n ≠ []) ∧
  match (c <- remove_cut_nets c31_H [] ;; H' <- add_cut_nets (fst c) (snd c) ;; ret (H', snd c)) w0 with
  | Ok ((H', cut), _) => bool_decide (length cut = 2%nat ∧ n_id <$> h_nets H' = [2; 0; 1] ∧ v_nets <$> h_verts H' = [[]; []; [2]; []]) | Err _ => false end = true.
Proof. split; [exact c31_H_cons|]. split; [apply Forall_forall, (bool_decide_eq_true_1 _); vm_compute; reflexivity|]. vm_compute. reflexivity. Qed.

(** C47.  Whenever every bisection of a run returns sides within the limits it was given (the program
    with bisections replaced by [checked] ones, which give up otherwise, ends normally), the run of
    the program is that run, and every part weighs at most M, which is (1+eps)*W/k evaluated in
    double precision and rounded down. *)
Theorem C47_imbalance : ∀ bp H k eps opts M w H' w', lawful_family bp → rb_pre H → 2 ≤ k ≤ 2 ^ 50 →
  part_limit (tot_weight H) k eps = Some M → 0 ≤ M → M * k ≤ 2 ^ 50 →
  recursive_bisect_with (checked (bisect1 bp)) H k eps opts w = Ok (H', w') →
  recursive_bisect1 bp H k eps opts w = Ok (H', w') ∧ ∀ p, 0 ≤ p < k → part_weight H' p ≤ M.
Proof. exact C47_imbalance_proof. Qed.
Print Assumptions C47_imbalance.

Example C47_example :
  lawful_family blocks ∧ rb_pre c27_G ∧ part_limit (tot_weight c27_G) 3 c29_eps = Some 3 ∧
  match recursive_bisect_with (checked (bisect1 blocks)) c27_G 3 c29_eps (c29_opts LambdaMinusOne BisMultilevel) w0 with
  | Ok (H', _) => bool_decide (part_weight H' 0 = 3 ∧ part_weight H' 1 = 3 ∧ part_weight H' 2 = 3) | Err _ => false end = true.
Proof. split; [apply blocks_lawful|]. split; [exact c27_G_rb_pre|]. split; vm_compute; reflexivity. Qed.
