(** C75: sequential matching joins a vertex of greatest inner product. *)
From Verif Require Export SeqMatchProof FinalCoarsen.
Local Open Scope list_scope.
Local Open Scope Z_scope.

(** C75.  Whatever the costs and recorded sizes of the nets, coarsen_hypergraph_seq gives every vertex one turn, in some
    order.  In its turn a vertex that others have joined stays; any other vertex joins a vertex
    that has joined none and has room, such that no vertex that it may join has a greater inner
    product with it, and it stays exactly when none of these inner products is positive.  The clusters
    of the contraction are those of the matching after the last turn. *)
Lemma C75_sequential_matching_proof : ∀ H opts w, consistent H → Z.of_nat (length (h_nets H)) ≤ 2 ^ 53 →
  ∃ HC C w' order m, coarsen_seq H new_contraction opts w = Ok ((HC, C), w') ∧
    order ≡ₚ seq 0 (length (h_verts H)) ∧
    turns H (o_max_clustersize opts) order (all_apart H) m ∧
    clusters (c_samples C) (c_matches C) = clusters_of H order m.
Proof.
  intros H opts w HC Hpos.
  assert (wp (coarsen_seq H new_contraction opts) (λ o, ∃ order m, order ≡ₚ seq 0 (length (h_verts H)) ∧
    turns H (o_max_clustersize opts) order (all_apart H) m ∧ clusters (c_samples (snd o)) (c_matches (snd o)) = clusters_of H order m)) as Hw.
  { apply wpe_coarsen_seq_turns; [done|done|]. intros K order m free t Ho Ht. exists order, m. cbn [snd]. by rewrite clusters_contr_of. }
  apply wp_run with (w := w) in Hw as ([K C] & w' & Heq & order & m & H1 & H2 & H3). by exists K, C, w', order, m.
Qed.

Lemma klH_positive : positive_costs klH.
Proof.
  intros n Hn _. assert (Forall (λ n, 1 ≤ n_cost n ≤ 2 ^ 53 ∧ 2 ≤ n_gsize n ≤ 2 ^ 53) (h_nets klH)) as Hf by (repeat constructor; vm_compute; congruence).
  rewrite Forall_forall in Hf. by apply Hf.
Qed.
(** Vertex 1 has inner product 2 with vertex 0 and 1/2 with vertices 2 and 3, vertex 4 has 2 with vertex 2 and 1/2 with vertex 3. *)
Example C75_example : consistent klH ∧ Z.of_nat (length (h_nets klH)) ≤ 2 ^ 53 ∧
  match coarsen_seq klH new_contraction kl_opts (tape_of [0; 1; 1; 0; 1; 3; 1; 2; 7]) with
  | Ok ((HC, C), _) => clusters (c_samples C) (c_matches C) = [(0, [1]); (2, [4; 3])] | Err _ => False end.
Proof. split; [exact (kp_cons _ klH_pre)|]. split; [vm_compute; discriminate|]. vm_compute. reflexivity. Qed.
