(** Property theorems (generated by tools/gen_theorems.py from FinalCoarsen.v: same
    statements, each closed by the lemma proved there). *)
From Verif Require Import FinalCoarsen.

(** C23.  coarsen_hypergraph_seq always ends, with a consistent coarse hypergraph and a
    contraction whose clusters (a sample and its matches) are disjoint, cover exactly the
    vertices of the fine hypergraph, have at most max_cluster_size matches each and join only
    vertices that share a net with the sample.  The coarse vertices together with the free vertices set aside
    are the samples, each with the total weight of its cluster.  For every assignment of the
    clusters, both cut metrics and the weight of every part are those of the fine hypergraph
    under the projected assignment.  The coarse nets are fine nets mapped to the samples, with
    at least two vertices and exact sizes; every coarse vertex has a net. *)
Theorem C23_coarsening : ∀ H opts w, consistent H →
  ∃ HC C w', coarsen_seq H new_contraction opts w = Ok ((HC, C), w') ∧ consistent HC ∧
  let cl := clusters (c_samples C) (c_matches C) in
  length (c_samples C) = length (c_matches C) ∧
  clustering H cl ∧
  (∀ c, c ∈ cl → Z.of_nat (length (snd c)) ≤ Z.max 0 (o_max_clustersize opts) ∧ ∀ m, m ∈ snd c → neighbours H (fst c) m) ∧
  (v_id <$> h_verts HC) ++ (fst <$> c_free C) ≡ₚ c_samples C ∧
  (∀ id wt, (id, wt) ∈ ids_weights HC ++ c_free C →
     wt = zsum ((λ v, if decide (rep cl (v_id v) = id) then v_weight v else 0) <$> h_verts H)) ∧
  tot_weight HC + zsum (snd <$> c_free C) = tot_weight H ∧
  c_local_free C = zsum (snd <$> c_free C) ∧ c_global_free C = zsum (snd <$> c_free C) ∧
  (∀ σ, cut_net_size (net_list HC) σ = cut_net_size (net_list H) (σ ∘ rep cl) ∧
        lambda_size (net_list HC) σ = lambda_size (net_list H) (σ ∘ rep cl)) ∧
  (∀ σ p, assigned_weight HC (c_free C) σ p = assigned_weight H [] (σ ∘ rep cl) p) ∧
  (∀ n, n ∈ h_nets HC → (2 ≤ length (n_verts n))%nat ∧ n_gsize n = Z.of_nat (length (n_verts n)) ∧
     ∃ m, m ∈ h_nets H ∧ n_id m = n_id n ∧ n_cost m = n_cost n ∧ ∀ u, u ∈ n_verts n ↔ ∃ x, x ∈ n_verts m ∧ rep cl x = u) ∧
  (∀ v, v ∈ h_verts HC → v_nets v ≠ []) ∧ h_gsize HC = Z.of_nat (length (h_verts HC)).
Proof. exact C23_coarsening_proof. Qed.
Print Assumptions C23_coarsening.

Example C23_example : consistent klH ∧
  match coarsen_seq klH new_contraction kl_opts (tape_of [0; 1; 1; 0; 1; 3; 1; 2; 7]) with
  | Ok ((HC, C), _) => clusters (c_samples C) (c_matches C) = [(0, [1]); (2, [4; 3])] | Err _ => False end.
Proof. split; [exact (kp_cons _ klH_pre)|]. vm_compute. reflexivity. Qed.

(** C24.  Let [(HC, C)] be a result of coarsening [H] and [K] the coarse hypergraph with its free
    vertices back and any parts: same ids and weights, same cuts for every assignment.
    uncoarsen_hypergraph then gives every vertex of [H] the part of its cluster in [K] and
    changes nothing else; both cuts and all part weights are those of [K]. *)
Theorem C24_projection : ∀ H opts w0 w1 HC C K w, consistent H →
  coarsen_seq H new_contraction opts w0 = Ok ((HC, C), w1) →
  consistent K → ids_weights K ≡ₚ ids_weights HC ++ c_free C →
  (∀ σ, cut_net_size (net_list K) σ = cut_net_size (net_list HC) σ ∧ lambda_size (net_list K) σ = lambda_size (net_list HC) σ) →
  ∃ H' w', uncoarsen K H C w = Ok (H', w') ∧
    h_verts H' = with_parts (λ u, part_of K (rep (clusters (c_samples C) (c_matches C)) u)) H ∧
    same_but_parts H H' ∧ consistent H' ∧
    cut_net H' = cut_net K ∧ lambda_minus_one H' = lambda_minus_one K ∧ ∀ p, part_weight H' p = part_weight K p.
Proof. exact C24_projection_proof. Qed.
Print Assumptions C24_projection.

Example C24_example : consistent klH ∧ consistent c24_K ∧
  match coarsen_seq klH new_contraction kl_opts (tape_of [0; 1; 1; 0; 1; 3; 1; 2; 7]) with
  | Ok ((HC, C), _) => ids_weights c24_K = ids_weights HC ++ c_free C ∧ net_list c24_K = net_list HC ∧
      match uncoarsen c24_K klH C w0 with Ok (H', _) => v_part <$> h_verts H' = [1; 1; 0; 0; 0] | Err _ => False end
  | Err _ => False end.
Proof.
  split; [exact (kp_cons _ klH_pre)|]. split; [apply lab_consistent, mk_hg_consistent_dec; vm_compute; reflexivity|].
  vm_compute. repeat split; reflexivity.
Qed.

(** C25.  merge_free_vertices takes out exactly the vertices without nets, records their ids and
    weights and their total weight, and changes nothing else. *)
Theorem C25_set_aside : ∀ C H w, consistent H → c_free C = [] →
  ∃ C' H' w', merge_free_vertices C H w = Ok ((C', H'), w') ∧ consistent H' ∧
    h_verts H ≡ₚ filter (λ v, v_nets v = []) (h_verts H) ++ h_verts H' ∧ (∀ v, v ∈ h_verts H' → v_nets v ≠ []) ∧
    c_free C' = (λ v, (v_id v, v_weight v)) <$> filter (λ v, v_nets v = []) (h_verts H) ∧
    c_local_free C' = zsum (snd <$> c_free C') ∧ c_global_free C' = zsum (snd <$> c_free C') ∧
    c_samples C' = c_samples C ∧ c_matches C' = c_matches C ∧
    h_nets H' = h_nets H ∧ h_gsize H' = Z.of_nat (length (h_verts H')).
Proof. exact C25_set_aside_proof. Qed.
Print Assumptions C25_set_aside.

(** C25, proved part.  If there are no free vertices or their total weight is not 0, then
    assign_free_vertices puts back every recorded vertex with its weight, no nets and a part in
    {0,1}; nothing else changes; the returned pair is the exact weight of the parts; and the
    limits hold afterwards if they held before and the sum of the limits is at least the total
    weight plus the largest free weight.  Missing: free vertices of total weight 0
    (C25_weightless_refuted). *)
Theorem C25_all_return_partial : ∀ C H mx w, consistent H → bisected H →
  NoDup ((v_id <$> h_verts H) ++ (fst <$> c_free C)) →
  c_free C = [] ∨ c_global_free C ≠ 0 → (c_free C = [] → c_global_free C = 0) →
  ∃ C' H' ws w', assign_free_vertices C H mx w = Ok ((C', H', ws), w') ∧ consistent H' ∧ bisected H' ∧
    (∃ vs, h_verts H' = h_verts H ++ vs ∧ (λ v, (v_id v, v_weight v)) <$> vs ≡ₚ c_free C ∧ (∀ v, v ∈ vs → v_nets v = [])) ∧
    h_nets H' = h_nets H ∧ c_samples C' = c_samples C ∧ c_matches C' = c_matches C ∧
    ws = pws H' ∧
    ∀ b, (∀ f, f ∈ c_free C → 0 ≤ snd f ≤ b) → balanced H mx →
      tot_weight H + zsum (snd <$> c_free C) + b ≤ fst mx + snd mx → balanced H' mx.
Proof. exact C25_all_return_partial_proof. Qed.
Print Assumptions C25_all_return_partial.

(** C25, refuted part.  Whenever the recorded free weight is 0 nothing is put back, although there
    may be free vertices (of weight 0: columns without nonzeros when weights are degrees). *)
Theorem C25_weightless_refuted :
  (∀ C H mx w, bisected H → c_global_free C = 0 → ∃ w', assign_free_vertices C H mx w = Ok ((C, H, pws H), w')) ∧
  ∃ H C' H' w', consistent H ∧ bisected H ∧
    merge_free_vertices new_contraction H w0 = Ok ((C', H'), w') ∧ c_free C' ≠ [] ∧ c_global_free C' = 0.
Proof. exact C25_weightless_refuted_proof. Qed.
Print Assumptions C25_weightless_refuted.

(** C25, refuted part: because of this, uncoarsening to a hypergraph with a weightless free vertex
    fails an assertion: the sample of that vertex is not found in the coarse hypergraph. *)
Theorem C25_uncoarsen_abort_refuted :
  ∃ H opts mx HC C w' L, klfm_pre H ∧ coarsen_seq H new_contraction opts w0 = Ok ((HC, C), w') ∧
    length L = length (h_verts HC) ∧ bisected (relabel HC L) ∧ balanced (relabel HC L) mx ∧
    uncoarsen_seq (relabel HC L) H C opts mx w0 = Err Abort.
Proof. exact C25_uncoarsen_abort_refuted_proof. Qed.
Print Assumptions C25_uncoarsen_abort_refuted.

Example C25_example :
  let C := Contr [] [] [(7, 2); (8, 3); (9, 1)] 6 6 in
  consistent klH ∧ bisected klH ∧ NoDup ((v_id <$> h_verts klH) ++ (fst <$> c_free C)) ∧ c_global_free C ≠ 0 ∧ balanced klH (9, 9) ∧
  tot_weight klH + zsum (snd <$> c_free C) + 3 ≤ 9 + 9 ∧
  match assign_free_vertices C klH (9, 9) w0 with
  | Ok ((_, H', ws), _) => ws = (7, 7) ∧ drop 5 (h_verts H') = [Vertex 8 [] 3 0; Vertex 7 [] 2 1; Vertex 9 [] 1 1] | Err _ => False end.
Proof.
  cbv zeta. split; [exact (kp_cons _ klH_pre)|]. split; [exact klH_bisected|]. split; [apply (bool_decide_eq_true_1 _); vm_compute; reflexivity|].
  split; [done|]. split; [split; vm_compute; discriminate|]. split; [vm_compute; discriminate|]. vm_compute. split; reflexivity.
Qed.
