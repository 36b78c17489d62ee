(** Property theorems (generated by tools/gen_theorems.py from FinalProgress.v: same
    statements, each closed by the lemma proved there). *)
From Verif Require Import FinalProgress.

(** C76.  For positive net costs, and if clusters may have a match at all, sequential coarsening
    never leaves two neighbours alone: of two vertices with a common net at least one is in a
    cluster with another vertex. *)
Theorem C76_no_two_neighbours_alone : ∀ H opts w, consistent H → positive_costs H → Z.of_nat (length (h_nets H)) ≤ 2 ^ 53 → 1 ≤ o_max_clustersize opts →
  ∃ HC C w', coarsen_seq H new_contraction opts w = Ok ((HC, C), w') ∧
    ∀ a b, a ≠ b → neighbours H a b →
      ¬ ((a, []) ∈ clusters (c_samples C) (c_matches C) ∧ (b, []) ∈ clusters (c_samples C) (c_matches C)).
Proof. exact C76_no_two_neighbours_alone_proof. Qed.
Print Assumptions C76_no_two_neighbours_alone.

(** C76.  If moreover some net has two vertices, the coarse hypergraph, even together with the free vertices
    that are set aside, has fewer vertices. *)
Theorem C76_progress : ∀ H opts w, consistent H → positive_costs H → Z.of_nat (length (h_nets H)) ≤ 2 ^ 53 → 1 ≤ o_max_clustersize opts →
  (∃ n, n ∈ h_nets H ∧ (2 ≤ length (n_verts n))%nat) →
  ∃ HC C w', coarsen_seq H new_contraction opts w = Ok ((HC, C), w') ∧ (length (h_verts HC) + length (c_free C) < length (h_verts H))%nat.
Proof. exact C76_progress_proof. Qed.
Print Assumptions C76_progress.

(** C76.  Progress goes on: the coarse hypergraph meets the conditions again, so that the next round of
    coarsening makes progress as well, as long as any net is left. *)
Theorem C76_next_round : ∀ H opts w, consistent H → positive_costs H → Z.of_nat (length (h_nets H)) ≤ 2 ^ 53 → Z.of_nat (length (h_verts H)) ≤ 2 ^ 53 →
  ∃ HC C w', coarsen_seq H new_contraction opts w = Ok ((HC, C), w') ∧
    consistent HC ∧ positive_costs HC ∧ (length (h_nets HC) ≤ length (h_nets H))%nat ∧ (length (h_verts HC) ≤ length (h_verts H))%nat ∧
    ∀ n, n ∈ h_nets HC → (2 ≤ length (n_verts n))%nat.
Proof. exact C76_next_round_proof. Qed.
Print Assumptions C76_next_round.

(** C76.  One round of the multilevel method, which first merges duplicate nets: the coarse hypergraph,
    even together with the free vertices that are set aside, has fewer vertices than before. *)
Theorem C76_round : ∀ H opts w, consistent H → small_costs H → positive_costs H → Z.of_nat (length (h_nets H)) ≤ 2 ^ 53 → 1 ≤ o_max_clustersize opts →
  (∃ n, n ∈ h_nets H ∧ (2 ≤ length (n_verts n))%nat) →
  ∃ HC C w', (H1 <- simplify_duplicate_nets H ;; coarsen_seq H1 new_contraction opts) w = Ok ((HC, C), w') ∧
    (length (h_verts HC) + length (c_free C) < length (h_verts H))%nat.
Proof. exact C76_round_proof. Qed.
Print Assumptions C76_round.

(** C76.  The other bound: a round keeps at least one vertex of max_cluster_size + 1, counting the free
    vertices set aside, whatever the costs and sizes of the nets. *)
Theorem C76_not_too_fast : ∀ H opts w, consistent H →
  ∃ HC C w', coarsen_seq H new_contraction opts w = Ok ((HC, C), w') ∧
    Z.of_nat (length (h_verts H)) ≤ (1 + Z.max 0 (o_max_clustersize opts)) * Z.of_nat (length (h_verts HC) + length (c_free C)).
Proof. exact C76_not_too_fast_proof. Qed.
Print Assumptions C76_not_too_fast.

Example C76_example : consistent klH ∧ small_costs klH ∧ positive_costs klH ∧ Z.of_nat (length (h_nets klH)) ≤ 2 ^ 53 ∧ Z.of_nat (length (h_verts klH)) ≤ 2 ^ 53 ∧ 1 ≤ o_max_clustersize kl_opts ∧
  (∃ n, n ∈ h_nets klH ∧ (2 ≤ length (n_verts n))%nat) ∧
  match coarsen_seq klH new_contraction kl_opts (tape_of [0; 1; 1; 0; 1; 3; 1; 2; 7]) with
  | Ok ((HC, C), _) => length (h_verts HC) = 2%nat | Err _ => False end.
Proof.
  split; [exact (kp_cons _ klH_pre)|]. split; [vm_compute; reflexivity|]. split; [exact klH_positive|]. split; [vm_compute; discriminate|]. split; [vm_compute; discriminate|]. split; [vm_compute; discriminate|].
  split; [exists (Net 10 [0; 1] 1 2); split; [left|simpl; auto]|]. vm_compute. reflexivity.
Qed.

(** The recorded sizes matter: with sizes 0, as left by gathering (C58), nothing is joined. *)
Example C76_sizes_matter :
  match coarsen_seq sizelessH new_contraction kl_opts (tape_of [0; 1; 1; 0; 1; 3; 1; 2; 7]) with
  | Ok ((HC, C), _) => length (h_verts HC) = length (h_verts sizelessH) ∧ forallb (λ c : Z * list Z, bool_decide (snd c = [])) (clusters (c_samples C) (c_matches C)) = true | Err _ => False end.
Proof. vm_compute. split; reflexivity. Qed.
