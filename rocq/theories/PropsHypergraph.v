(** Property theorems (generated by tools/gen_theorems.py from FinalHypergraph.v: same
    statements, each closed by the lemma proved there). *)
From Verif Require Import FinalHypergraph.

(** C01.  Whatever finite history of valid mutator calls is made, the representation stays
    consistent, every further valid call succeeds, and lookups by id find exactly the
    vertex or net with that id. *)
Theorem C01_history_consistent : ∀ H H', consistent H → reaches H H' →
  consistent H' ∧
  (∀ o w, op_ok o H' → ∃ H'' w', run_op o H' w = Ok (H'', w')) ∧
  (∀ v w, v ∈ h_verts H' → vert H' (v_id v) w = Ok (v, w)) ∧
  (∀ n w, n ∈ h_nets H' → get_net H' (n_id n) w = Ok (n, w)) ∧
  (∀ id, id ∉ v_id <$> h_verts H' → is_local H' id = false) ∧
  (∀ id, id ∉ n_id <$> h_nets H' → is_local_net H' id = false).
Proof. exact C01_history_consistent_proof. Qed.
Print Assumptions C01_history_consistent.

Example C01_example : ∃ H', reaches exH H' ∧ length (h_nets H') = 3%nat ∧ length (h_verts H') = 5%nat.
Proof.
  pose (H1 := hg_of (run_op (RemoveNet 12) exH w0)).
  pose (H2 := hg_of (run_op (RemoveFreeVertex 4) H1 w0)).
  pose (H3 := hg_of (run_op (AddVertex 7 [11; 13] 5) H2 w0)).
  exists H3. split; [|split; vm_compute; reflexivity].
  eapply (reaches_step _ H2 H3 (AddVertex 7 [11; 13] 5) w0); [| |vm_compute; reflexivity].
  - eapply (reaches_step _ H1 H2 (RemoveFreeVertex 4) w0); [| |vm_compute; reflexivity].
    + eapply (reaches_step _ exH H1 (RemoveNet 12) w0); [apply reaches_refl| |vm_compute; reflexivity].
      change (12 ∈ n_id <$> h_nets exH). apply (bool_decide_eq_true_1 _); vm_compute; reflexivity.
    + exists (Vertex 4 [] 1 0). split; [|done]. apply (bool_decide_eq_true_1 _); vm_compute; reflexivity.
  - split; [apply (bool_decide_eq_true_1 _); vm_compute; reflexivity|]. split; [apply (bool_decide_eq_true_1 _); vm_compute; reflexivity|].
    apply Forall_forall. apply (bool_decide_eq_true_1 _); vm_compute; reflexivity.
Qed.

(** C02.  remove_net deletes exactly the named net.  Missing for the full property: the
    guarantee that nothing outside the live vector is read, which fails for the last net
    (C02_stale_read_refuted). *)
Theorem C02_remove_net_partial : ∀ H n w, consistent H → n ∈ h_nets H →
  ∃ H' w', remove_net H (n_id n) w = Ok (H', w') ∧
    net_removed n H H' ∧ consistent H' ∧ n_id n ∉ n_id <$> h_nets H' ∧
    is_local_net H' (n_id n) = false ∧
    (last (h_nets H) ≠ Some n → w_log w' = w_log w).
Proof. exact C02_remove_net_partial_proof. Qed.
Print Assumptions C02_remove_net_partial.

(** C02, refuted part: removing the last net always reads past the end of the net vector. *)
Theorem C02_stale_read_refuted : ∀ H n w, consistent H → last (h_nets H) = Some n →
  ∃ H' w', remove_net H (n_id n) w = Ok (H', w') ∧ w_log w' = w_log w ++ [StaleNetRead].
Proof. exact C02_stale_read_refuted_proof. Qed.
Print Assumptions C02_stale_read_refuted.

Example C02_example : consistent exH ∧ Net 11 [3; 1; 2] 2 3 ∈ h_nets exH ∧
  last (h_nets exH) = Some (Net 13 [3] 1 1).
Proof. split; [apply exH_consistent|]. split; [vm_compute; set_solver|reflexivity]. Qed.

(** C03.  remove_free_vertex deletes exactly the named vertex.  Missing: as in C02. *)
Theorem C03_remove_free_vertex_partial : ∀ H v w, consistent H → v ∈ h_verts H → v_nets v = [] →
  ∃ H' w', remove_free_vertex H (v_id v) w = Ok (H', w') ∧
    vertex_removed v H H' ∧ consistent H' ∧ v_id v ∉ v_id <$> h_verts H' ∧
    (∀ u w, u ∈ h_verts H → v_id u ≠ v_id v → vert H' (v_id u) w = Ok (u, w)) ∧
    (last (h_verts H) ≠ Some v → w_log w' = w_log w).
Proof. exact C03_remove_free_vertex_partial_proof. Qed.
Print Assumptions C03_remove_free_vertex_partial.

(** C03, refuted part: removing the last vertex always reads past the end of the vertex vector. *)
Theorem C03_stale_read_refuted : ∀ H v w, consistent H → last (h_verts H) = Some v →
  ∃ H' w', remove_free_vertex H (v_id v) w = Ok (H', w') ∧ w_log w' = w_log w ++ [StaleVertexRead].
Proof. exact C03_stale_read_refuted_proof. Qed.
Print Assumptions C03_stale_read_refuted.

Example C03_example : consistent exH ∧ Vertex 4 [] 1 0 ∈ h_verts exH.
Proof. split; [apply exH_consistent|]. vm_compute. set_solver. Qed.

(** C04.  A copy has the same vertices (with parts, weights and net lists), the same nets
    with the same vertices and stored sizes, and is consistent.  Missing: the costs
    (C04_costs_refuted). *)
Theorem C04_copy_partial : ∀ H w, consistent H →
  ∃ H' w', copy_hg H w = Ok (H', w') ∧ consistent H' ∧ h_verts H' = h_verts H ∧
    h_gsize H' = h_gsize H ∧ h_gnets H' = h_gnets H ∧ h_nz H' = h_nz H ∧
    Forall2 (λ n n', n_id n = n_id n' ∧ n_verts n ≡ₚ n_verts n' ∧ n_gsize n = n_gsize n' ∧ n_cost n' = 1)
      (h_nets H) (h_nets H').
Proof. exact C04_copy_partial_proof. Qed.
Print Assumptions C04_copy_partial.

(** C04, refuted part: the copy of a hypergraph with a cost different from 1 has another
    cost for that net, and copying can change the cut. *)
Theorem C04_costs_refuted :
  (∀ H n i w, consistent H → h_nets H !! i = Some n → n_cost n ≠ 1 →
     ∃ H' w' n', copy_hg H w = Ok (H', w') ∧ h_nets H' !! i = Some n' ∧ n_cost n' ≠ n_cost n) ∧
  (∃ H, consistent H ∧ ∃ H' w', copy_hg H w0 = Ok (H', w') ∧ cut_net H' ≠ cut_net H).
Proof. exact C04_costs_refuted_proof. Qed.
Print Assumptions C04_costs_refuted.

(** C05.  Merging duplicate nets preserves every cut, for every assignment [σ] of parts and
    both metrics; vertices keep id, weight and part; no two remaining nets have the same
    vertices; the remaining nets are original nets (same id, vertices, stored size).
    [small_costs]: the total of the absolute costs fits into 31 bits. *)
Theorem C05_simplify_preserves_cuts : ∀ H w, consistent H → small_costs H →
  ∃ H' w', simplify_duplicate_nets H w = Ok (H', w') ∧ consistent H' ∧
    (∀ σ, cut_net_size (net_list H') σ = cut_net_size (net_list H) σ ∧
          lambda_size (net_list H') σ = lambda_size (net_list H) σ) ∧
    Forall2 (λ v v', v_id v' = v_id v ∧ v_weight v' = v_weight v ∧ v_part v' = v_part v)
      (h_verts H) (h_verts H') ∧
    (∀ n1 n2, n1 ∈ h_nets H' → n2 ∈ h_nets H' → n_verts n1 ≡ₚ n_verts n2 → n1 = n2) ∧
    (∀ n', n' ∈ h_nets H' → ∃ n, n ∈ h_nets H ∧ n_id n' = n_id n ∧ n_verts n' ≡ₚ n_verts n ∧ n_gsize n' = n_gsize n).
Proof. exact C05_simplify_preserves_cuts_proof. Qed.
Print Assumptions C05_simplify_preserves_cuts.

Theorem C05_cost_overflow_refuted :
  ∃ H, consistent H ∧ ∃ H' w', simplify_duplicate_nets H w0 = Ok (H', w') ∧ cut_net H' ≠ cut_net H.
Proof. exact C05_cost_overflow_refuted_proof. Qed.
Print Assumptions C05_cost_overflow_refuted.

Example C05_example : consistent exH ∧ small_costs exH ∧
  ∃ H' w', simplify_duplicate_nets exH w0 = Ok (H', w') ∧ length (h_nets H') = 3%nat.
Proof.
  split; [apply exH_consistent|]. split; [apply exH_small|]. eexists _, _. split; [vm_compute; reflexivity|reflexivity].
Qed.

(** C06.  simplify, then any relabelling or reordering inside nets, then reset: every net is
    back with its id, vertices and cost, nothing else is there, every vertex has its nets
    back, and parts are those set in between.  Missing: the stored global sizes, which become
    0 for restored nets (C06_sizes_refuted). *)
Theorem C06_reset_partial : ∀ H w H1 w1 H2, consistent H → small_costs H → h_dups H = [] →
  simplify_duplicate_nets H w = Ok (H1, w1) → same_shape H1 H2 → ∀ w2,
  ∃ H3 w3, reset_duplicate_nets H2 w2 = Ok (H3, w3) ∧ consistent H3 ∧
    (∀ n, n ∈ h_nets H → ∃ n', n' ∈ h_nets H3 ∧ n_id n' = n_id n ∧ n_verts n' ≡ₚ n_verts n ∧
      n_cost n' = n_cost n ∧ (n_gsize n' = n_gsize n ∨ n_gsize n' = 0)) ∧
    (∀ n', n' ∈ h_nets H3 → n_id n' ∈ n_id <$> h_nets H) ∧
    Forall2 (λ v v', v_id v' = v_id v ∧ v_weight v' = v_weight v ∧ v_nets v' ≡ₚ v_nets v) (h_verts H) (h_verts H3) ∧
    v_part <$> h_verts H3 = v_part <$> h_verts H2.
Proof. exact C06_reset_partial_proof. Qed.
Print Assumptions C06_reset_partial.

(** C06, refuted part: a restored net has stored size 0, not its size; and a second
    simplify/reset round on the same hypergraph hits a failing assertion, because the list of
    duplicates is never cleared. *)
Theorem C06_sizes_refuted :
  ∃ H, consistent H ∧ small_costs H ∧ h_dups H = [] ∧
    ∃ H1 w1 H2 w2 n n', simplify_duplicate_nets H w0 = Ok (H1, w1) ∧ reset_duplicate_nets H1 w1 = Ok (H2, w2) ∧
      n ∈ h_nets H ∧ n' ∈ h_nets H2 ∧ n_id n' = n_id n ∧ n_gsize n' ≠ n_gsize n ∧
      ∃ H3 w3, simplify_duplicate_nets H2 w2 = Ok (H3, w3) ∧ reset_duplicate_nets H3 w3 = Err Abort.
Proof. exact C06_sizes_refuted_proof. Qed.
Print Assumptions C06_sizes_refuted.

Example C06_example : ∃ H1 w1, simplify_duplicate_nets exH w0 = Ok (H1, w1) ∧ h_dups exH = [] ∧
  same_shape H1 (upd_vert 0 (set_part 1) H1).
Proof. eexists _, _. split; [vm_compute; reflexivity|]. split; [done|]. apply set_part_shape. Qed.

(** C07.  init_counts counts, for every net, its vertices in part 0 and in part 1. *)
Theorem C07_init_counts_exact : ∀ H w, consistent H → bisected H →
  ∃ C w', init_counts H w = Ok (C, w') ∧
    C = (λ n, (zcount (λ u, part_of H u = 0) (n_verts n), zcount (λ u, part_of H u = 1) (n_verts n))) <$> h_nets H.
Proof. exact C07_init_counts_exact_proof. Qed.
Print Assumptions C07_init_counts_exact.

Example C07_example : consistent exH ∧ bisected exH ∧ ∃ w', init_counts exH w0 = Ok ([(2, 0); (1, 2); (2, 0); (0, 1)], w').
Proof. split; [apply exH_consistent|]. split; [apply exH_bisected|]. eexists. vm_compute. reflexivity. Qed.

(** C08.  sort_vertices_on_part sorts every net by part and changes nothing else. *)
Theorem C08_sort_on_part : ∀ H C w, consistent H → bisected H → exact_counts H C →
  ∃ H' w', sort_vertices_on_part H C w = Ok (H', w') ∧
    part_sorted H' ∧ same_shape H H' ∧ h_verts H' = h_verts H.
Proof. exact C08_sort_on_part_proof. Qed.
Print Assumptions C08_sort_on_part.

Example C08_example : consistent exH ∧ bisected exH ∧ exact_counts exH [(2, 0); (1, 2); (2, 0); (0, 1)] ∧
  ∃ H' w', sort_vertices_on_part exH [(2, 0); (1, 2); (2, 0); (0, 1)] w0 = Ok (H', w') ∧
    n_verts <$> h_nets H' = [[0; 1]; [1; 3; 2]; [1; 0]; [3]].
Proof.
  split; [apply exH_consistent|]. split; [apply exH_bisected|]. split; [vm_compute; reflexivity|].
  eexists _, _. split; vm_compute; reflexivity.
Qed.

(** C09.  After any history of moves on part-sorted nets with exact counts: a vertex has
    changed side exactly if it was moved an odd number of times (so moving twice restores), nets are
    part-sorted, counts are exact, and only parts and orders inside nets differ. *)
Theorem C09_moves : ∀ ids H C w, consistent H → bisected H → part_sorted H → exact_counts H C →
  (∀ id, id ∈ ids → id ∈ v_id <$> h_verts H) →
  ∃ H' C' w', moves ids (H, C) w = Ok ((H', C'), w') ∧
    same_shape H H' ∧ bisected H' ∧ part_sorted H' ∧ exact_counts H' C' ∧
    ∀ u, part_of H' u = if decide (Z.odd (occ u ids) = true) then 1 - part_of H u else part_of H u.
Proof. exact C09_moves_proof. Qed.
Print Assumptions C09_moves.

(** moving the same vertex twice restores all parts and counts *)
Theorem C09_move_twice : ∀ id H C w, consistent H → bisected H → part_sorted H → exact_counts H C →
  id ∈ v_id <$> h_verts H →
  ∃ H' w', moves [id; id] (H, C) w = Ok ((H', C), w') ∧ h_verts H' = h_verts H.
Proof. exact C09_move_twice_proof. Qed.
Print Assumptions C09_move_twice.

Example C09_example : let H := mk_hg 2 1 [Vertex 0 [5] 1 0; Vertex 1 [5] 1 1] [Net 5 [0; 1] 1 2] 2 in
  consistent H ∧ bisected H ∧ part_sorted H ∧ exact_counts H [(1, 1)] ∧
  ∃ H' C' w', moves [1; 0; 1; 1] (H, [(1, 1)]) w0 = Ok ((H', C'), w') ∧ C' = [(1, 1)].
Proof.
  split; [apply mk_hg_consistent_dec; vm_compute; reflexivity|].
  split; [intros v Hv; simpl in Hv; set_solver|].
  split.
  { intros n Hn. simpl in Hn. apply elem_of_list_singleton in Hn as ->. exists [0], [1].
    split; [done|]. split; intros u ->%elem_of_list_singleton; vm_compute; reflexivity. }
  split; [vm_compute; reflexivity|]. do 3 eexists. split; vm_compute; reflexivity.
Qed.

(** C10.  The cut functions compute the cut as defined in Spec.v, for any number of parts. *)
Theorem C10_cutsize : ∀ H w, consistent H →
  (∃ w', cutsize H CutNet w = Ok (cut_net H, w')) ∧
  (∃ w', cutsize H LambdaMinusOne w = Ok (lambda_minus_one H, w')).
Proof. exact C10_cutsize_proof. Qed.
Print Assumptions C10_cutsize.

(** For a bisection both metrics and the count-based cut agree; with nonnegative costs
    lambda-minus-one dominates cut-net for every assignment. *)
Theorem C10_bisection_agree : ∀ H C w, consistent H → bisected H → exact_counts H C →
  cut_net H = lambda_minus_one H ∧ ∃ w', cutsize_counts H C w = Ok (cut_net H, w').
Proof. exact C10_bisection_agree_proof. Qed.
Print Assumptions C10_bisection_agree.

Theorem C10_lambda_dominates : ∀ ns σ, (∀ c vs, (c, vs) ∈ ns → 0 ≤ c) → cut_net_size ns σ ≤ lambda_size ns σ.
Proof. exact C10_lambda_dominates_proof. Qed.
Print Assumptions C10_lambda_dominates.

Example C10_example : consistent ex3 ∧ cut_net ex3 = 6 ∧ lambda_minus_one ex3 = 8 ∧
  consistent exH ∧ bisected exH ∧ cut_net exH = 2.
Proof.
  split; [apply ex3_consistent|]. split; [vm_compute; reflexivity|]. split; [vm_compute; reflexivity|].
  split; [apply exH_consistent|]. split; [apply exH_bisected|]. vm_compute. reflexivity.
Qed.

(** C11.  weight_all_parts(k) succeeds exactly when all parts are in [0,k); then it lists the
    part weights, which add up to the total weight. *)
Theorem C11_part_weights : ∀ H k w,
  total_weight H = tot_weight H ∧ (∀ p, weight_part H p = part_weight H p) ∧
  ((∀ v, v ∈ h_verts H → 0 ≤ v_part v < k) →
     (∃ w', weight_all_parts H k w = Ok (part_weight H <$> seqZ 0 k, w')) ∧
     zsum (part_weight H <$> seqZ 0 k) = tot_weight H) ∧
  ((∃ v, v ∈ h_verts H ∧ ¬ (0 ≤ v_part v < k)) → weight_all_parts H k w = Err UB).
Proof. exact C11_part_weights_proof. Qed.
Print Assumptions C11_part_weights.

Example C11_example : (∀ v, v ∈ h_verts ex3 → 0 ≤ v_part v < 3) ∧ part_weight ex3 <$> seqZ 0 3 = [4; 1; 2].
Proof. split; [|vm_compute; reflexivity]. intros v Hv. vm_compute in Hv. set_solver by lia. Qed.
