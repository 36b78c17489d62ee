(** Property theorems (generated by tools/gen_theorems.py from FinalLabel.v: same
    statements, each closed by the lemma proved there). *)
From Verif Require Import FinalLabel.

(** C18.  label_propagation always terminates with one label in [0,l) per vertex. *)
Theorem C18_labels : ∀ H l max_iter min_size w, consistent H → 0 < l →
  ∃ L w', label_propagation H l max_iter min_size w = Ok (L, w') ∧
    length L = length (h_verts H) ∧ Forall (λ j, 0 ≤ j < l) L.
Proof. exact C18_labels_proof. Qed.
Print Assumptions C18_labels.

(** C18.  The random initial labelling has exact counts; any number of rounds from there keeps
    the counts of labels per net and the group sizes exact, and leaves every group with at least
    min(min_size, its initial size) vertices: a group of at least min_size never drops below
    min_size. *)
Theorem C18_groups : ∀ H l max_iter min_size w, consistent H → 0 < l →
  ∃ st w1, lp_init H l w = Ok (st, w1) ∧
    exact_label_counts (relabel H (lp_L st)) l (lp_C st) ∧ lp_size st = group_size (lp_L st) <$> seqZ 0 l ∧
  ∃ st' w2, lp_loop H l max_iter min_size st w1 = Ok (st', w2) ∧
    label_propagation H l max_iter min_size w = Ok (lp_L st', w2) ∧
    exact_label_counts (relabel H (lp_L st')) l (lp_C st') ∧ lp_size st' = group_size (lp_L st') <$> seqZ 0 l ∧
    ∀ k, 0 ≤ k < l → Z.min min_size (group_size (lp_L st) k) ≤ group_size (lp_L st') k.
Proof. exact C18_groups_proof. Qed.
Print Assumptions C18_groups.

Example C18_example : consistent klH ∧
  match lp_init klH 3 (tape_of [0; 1; 2; 1; 2]) with
  | Ok (st, _) => lp_L st = [0; 1; 2; 1; 2] | Err _ => False end ∧
  match label_propagation klH 3 4 1 (tape_of [0; 1; 2; 1; 2]) with
  | Ok (L, _) => L ≠ [0; 1; 2; 1; 2] ∧ length L = 5%nat | Err _ => False end.
Proof.
  split; [exact (kp_cons _ klH_pre)|]. split; [vm_compute; reflexivity|].
  assert (match label_propagation klH 3 4 1 (tape_of [0; 1; 2; 1; 2]) with
  | Ok (L, _) => bool_decide (L ≠ [0; 1; 2; 1; 2] ∧ length L = 5%nat) | Err _ => false end = true) as Hb by (vm_compute; reflexivity).
  destruct (label_propagation _ _ _ _ _) as [[L ?]|]; [|done]. by apply bool_decide_eq_true in Hb.
Qed.

(** C19.  From zero counts, label_propagation_bisect gives every vertex label 0 or 1 and leaves
    the exact counts of that bisection in C.  The limits hold whenever they leave room for one
    more vertex of the largest weight. *)
Theorem C19_bisect : ∀ H max_iter mx w, consistent H → (∀ v, v ∈ h_verts H → 0 ≤ v_weight v) →
  ∃ L C w', label_propagation_bisect H (replicate (length (h_nets H)) (0, 0)) max_iter mx w = Ok ((L, C), w') ∧
    length L = length (h_verts H) ∧ Forall (λ j, j = 0 ∨ j = 1) L ∧ exact_counts (relabel H L) C ∧
    ∀ b, weights_below H b → 0 ≤ fst mx → 0 ≤ snd mx → tot_weight H + b ≤ fst mx + snd mx →
      part_weight (relabel H L) 0 ≤ fst mx ∧ part_weight (relabel H L) 1 ≤ snd mx.
Proof. exact C19_bisect_proof. Qed.
Print Assumptions C19_bisect.

Example C19_example : consistent klH ∧ (∀ v, v ∈ h_verts klH → 0 ≤ v_weight v) ∧ weights_below klH 3 ∧ tot_weight klH + 3 ≤ 6 + 6 ∧
  match label_propagation_bisect klH (replicate 5 (0, 0)) 4 (6, 6) (tape_of [0; 1; 1; 0; 1; 3; 1; 2; 7]) with
  | Ok ((L, C), _) => L = [1; 1; 0; 0; 0] | Err _ => False end.
Proof.
  split; [exact (kp_cons _ klH_pre)|]. split; [exact (kp_weight _ klH_pre)|].
  assert (Forall (λ v, 0 ≤ v_weight v ≤ 3) (h_verts klH)) as HF by (apply (bool_decide_eq_true_1 _); vm_compute; reflexivity).
  rewrite Forall_forall in HF. split; [exact HF|]. split; [vm_compute; discriminate|]. vm_compute. reflexivity.
Qed.

(** C20, what holds.  bisect_random gives every vertex of the range the label of its side,
    changes nothing else, and returns the exact weights of the two sides; the sides respect the
    limits if these leave room for one more vertex of the largest weight.  Missing: the limits
    in every feasible case (C20_limits_refuted). *)
Theorem C20_random_bisection_partial : ∀ H mx st en low high w, 0 ≤ st ≤ en → en ≤ Z.of_nat (length (h_verts H)) →
  ∃ side H' w', (∀ i, side i = 0 ∨ side i = 1) ∧
    bisect_random H mx st en (low, high) w = Ok ((H', (side_weight H st en side 0, side_weight H st en side 1)), w') ∧
    same_but_parts H H' ∧ length (h_verts H') = length (h_verts H) ∧
    (∀ i v, vertex_at H i = Some v → vertex_at H' i =
       Some (if decide (st ≤ i < en) then Vertex (v_id v) (v_nets v) (v_weight v) (if decide (side i = 0) then low else high) else v)) ∧
    ∀ b, (∀ i, st ≤ i < en → 0 ≤ weight_at H i ≤ b) → 0 ≤ fst mx → 0 ≤ snd mx →
      zsum (weight_at H <$> seqZ st (en - st)) + b ≤ fst mx + snd mx →
      side_weight H st en side 0 ≤ fst mx ∧ side_weight H st en side 1 ≤ snd mx.
Proof. exact C20_random_bisection_partial_proof. Qed.
Print Assumptions C20_random_bisection_partial.

Theorem C20_limits_refuted : ∃ H mx w, consistent H ∧
  (∃ side, side_weight H 0 3 side 0 ≤ fst mx ∧ side_weight H 0 3 side 1 ≤ snd mx ∧ ∀ i, side i = 0 ∨ side i = 1) ∧
  ∃ H' ws w', bisect_random H mx 0 3 (0, 1) w = Ok ((H', ws), w') ∧ snd mx < part_weight H' 1 ∧ snd mx < snd ws.
Proof. exact C20_limits_refuted_proof. Qed.
Print Assumptions C20_limits_refuted.

Example C20_example : (0 ≤ 1 ≤ 4) ∧ 4 ≤ Z.of_nat (length (h_verts klH)) ∧
  match bisect_random klH (4, 5) 1 4 (6, 9) (tape_of [0; 1; 0]) with
  | Ok ((H', ws), _) => v_part <$> h_verts H' = [0; 6; 9; 9; 0] ∧ ws = (2, 4) | Err _ => False end.
Proof. split; [lia|]. split; [vm_compute; discriminate|]. vm_compute. split; reflexivity. Qed.

(** C21.  For every non-empty hypergraph (of size at most 2^53, where the doubles of the code are
    exact), sample_random terminates without failing an assertion and returns min(ns, size)
    strictly increasing vertex indices. *)
Theorem C21_sample_random : ∀ H ns w, 0 < Z.of_nat (length (h_verts H)) ≤ 2 ^ 53 →
  ∃ sm w', sample_random H ns w = Ok (sm, w') ∧
    Z.of_nat (length sm) = Z.max 0 (Z.min ns (Z.of_nat (length (h_verts H)))) ∧ StronglySorted Z.lt sm ∧
    ∀ i, i ∈ sm → 0 ≤ i < Z.of_nat (length (h_verts H)).
Proof. exact C21_sample_random_proof. Qed.
Print Assumptions C21_sample_random.

Example C21_example : 0 < Z.of_nat (length (h_verts klH)) ≤ 2 ^ 53 ∧
  match sample_random klH 3 (tape_of [4294967295; 0; 4294967295]) with Ok (sm, _) => sm = [1; 3; 4] | Err _ => False end.
Proof. split; [vm_compute; split; [reflexivity|discriminate]|]. vm_compute. reflexivity. Qed.

(** C22, what holds.  With the labels of the label propagation it runs first, sample_lp returns
    strictly increasing indices of vertices with pairwise different labels; if the generator
    does not return its largest value afterwards, every label that occurs has its sample.
    Missing: the last claim for all random sequences (C22_every_label_refuted). *)
Theorem C22_sample_lp_partial : ∀ H opts w, consistent H → 0 < o_sample_size opts →
  ∃ L w1 sm w', label_propagation H (o_sample_size opts) (o_lp_max_iterations opts) 1 w = Ok (L, w1) ∧
    sample_lp H opts w = Ok (sm, w') ∧ length L = length (h_verts H) ∧ StronglySorted Z.lt sm ∧
    ∃ SL, Forall2 (λ s j, 0 ≤ s ∧ L !! Z.to_nat s = Some j) sm SL ∧ NoDup SL ∧
      (no_max w1 → ∀ j, j ∈ L → j ∈ SL).
Proof. exact C22_sample_lp_partial_proof. Qed.
Print Assumptions C22_sample_lp_partial.

Theorem C22_every_label_refuted : ∃ H opts w, consistent H ∧ 0 < o_sample_size opts ∧
  ∃ L w1 w', label_propagation H (o_sample_size opts) (o_lp_max_iterations opts) 1 w = Ok (L, w1) ∧
    L = [0] ∧ sample_lp H opts w = Ok ([], w').
Proof. exact C22_every_label_refuted_proof. Qed.
Print Assumptions C22_every_label_refuted.

Example C22_example : consistent klH ∧ 0 < o_sample_size kl_opts ∧
  match sample_lp klH kl_opts (tape_of [0; 1; 2; 1; 2; 0; 0; 0; 0; 0; 0; 4294967294; 5]) with Ok (sm, _) => (1 < length sm)%nat | Err _ => False end.
Proof.
  split; [exact (kp_cons _ klH_pre)|]. split; [vm_compute; reflexivity|].
  assert (match sample_lp klH kl_opts (tape_of [0; 1; 2; 1; 2; 0; 0; 0; 0; 0; 0; 4294967294; 5]) with Ok (sm, _) => bool_decide (1 < length sm)%nat | Err _ => false end = true) as Hb by (vm_compute; reflexivity).
  destruct (sample_lp _ _ _) as [[sm ?]|]; [|done]. by apply bool_decide_eq_true in Hb.
Qed.

(** C26.  [ip_candidates] runs the ten rounds (label propagation, then refinement) and collects
    the bisections they end with.  initial_partitioning makes the same random choices and ends
    with the parts of one of these candidates; the returned value is its true cut; if some
    candidate meets the limits then the result does, and it cuts no more than any candidate
    within the limits.  Candidates, hence the result, meet limits that leave room for one more
    vertex of the largest weight. *)
Theorem C26_best_candidate : ∀ H mx opts w, klfm_pre H → 0 ≤ fst mx → 0 ≤ snd mx → tot_weight H < long_max →
  ∃ cs H' cut w', ip_candidates mx opts 10 H w = Ok (cs, w') ∧ length cs = 10%nat ∧
    (∀ c, c ∈ cs → same_shape H (fst c) ∧ bisected (fst c) ∧ snd c = cut_net (fst c)) ∧
    initial_partitioning H mx opts w = Ok ((H', cut), w') ∧
    same_shape H H' ∧ bisected H' ∧ cut = cut_net H' ∧
    (∃ c, c ∈ cs ∧ ∀ u, part_of H' u = part_of (fst c) u) ∧
    (∀ c, c ∈ cs → balanced (fst c) mx → balanced H' mx ∧ cut ≤ cut_net (fst c)) ∧
    ∀ b, weights_below H b → tot_weight H + b ≤ fst mx + snd mx → balanced H' mx.
Proof. exact C26_best_candidate_proof. Qed.
Print Assumptions C26_best_candidate.

Example C26_example : klfm_pre klH ∧ tot_weight klH < long_max ∧
  match initial_partitioning klH (6, 6) kl_opts (tape_of [0; 1; 1; 0; 1; 3; 1; 2; 7]) with
  | Ok ((H', cut), _) => (cut, pws H') = (2, (5, 3)) | Err _ => False end.
Proof. split; [exact klH_pre|]. split; vm_compute; reflexivity. Qed.
