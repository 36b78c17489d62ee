(** Property theorems (generated by tools/gen_theorems.py from FinalSeqMatch.v: same
    statements, each closed by the lemma proved there). *)
From Verif Require Import FinalSeqMatch.

(** C75.  Whatever the costs and recorded sizes of the nets, coarsen_hypergraph_seq gives every vertex one turn, in some
    order.  In its turn a vertex that others have joined stays; any other vertex joins a vertex
    that has joined none and has room, such that no vertex that it may join has a greater inner
    product with it, and it stays exactly when none of these inner products is positive.  The clusters
    of the contraction are those of the matching after the last turn. *)
Theorem C75_sequential_matching : ∀ H opts w, consistent H → Z.of_nat (length (h_nets H)) ≤ 2 ^ 53 →
  ∃ HC C w' order m, coarsen_seq H new_contraction opts w = Ok ((HC, C), w') ∧
    order ≡ₚ seq 0 (length (h_verts H)) ∧
    turns H (o_max_clustersize opts) order (all_apart H) m ∧
    clusters (c_samples C) (c_matches C) = clusters_of H order m.
Proof. exact C75_sequential_matching_proof. Qed.
Print Assumptions C75_sequential_matching.

(** Vertex 1 has inner product 2 with vertex 0 and 1/2 with vertices 2 and 3, vertex 4 has 2 with vertex 2 and 1/2 with vertex 3. *)
Example C75_example : consistent klH ∧ Z.of_nat (length (h_nets klH)) ≤ 2 ^ 53 ∧
  match coarsen_seq klH new_contraction kl_opts (tape_of [0; 1; 1; 0; 1; 3; 1; 2; 7]) with
  | Ok ((HC, C), _) => clusters (c_samples C) (c_matches C) = [(0, [1]); (2, [4; 3])] | Err _ => False end.
Proof. split; [exact (kp_cons _ klH_pre)|]. split; [vm_compute; discriminate|]. vm_compute. reflexivity. Qed.
