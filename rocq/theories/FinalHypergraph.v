(** Final forms of the properties of the hypergraph data structure (C01-C11). *)
From Verif Require Export HgMoves Examples.

(** C01.  Whatever finite history of valid mutator calls is made, the representation stays
    consistent, every further valid call succeeds, and lookups by id find exactly the
    vertex or net with that id. *)
Lemma C01_history_consistent_proof : ∀ H H', consistent H → reaches H H' →
  consistent H' ∧
  (∀ o w, op_ok o H' → ∃ H'' w', run_op o H' w = Ok (H'', w')) ∧
  (∀ v w, v ∈ h_verts H' → vert H' (v_id v) w = Ok (v, w)) ∧
  (∀ n w, n ∈ h_nets H' → get_net H' (n_id n) w = Ok (n, w)) ∧
  (∀ id, id ∉ v_id <$> h_verts H' → is_local H' id = false) ∧
  (∀ id, id ∉ n_id <$> h_nets H' → is_local_net H' id = false).
Proof.
  intros H H' HC HR. assert (consistent H') as HC' by by eapply reaches_consistent.
  split_and!; [done|..].
  - intros o w Hok. assert (wp (run_op o H') (λ _, True)) as Hw by by apply wpe_run_op.
    destruct (wp_run _ _ Hw w) as (H'' & w' & ? & _). eauto.
  - intros v w Hv. by apply consistent_vert.
  - intros n w Hn. by apply consistent_get_net.
  - intros id Hid. by apply (consistent_vert H' id w0 HC').
  - intros id Hid. by apply (consistent_get_net H' id w0 HC').
Qed.

Definition hg_of (r : out (hg * world)) : hg := match r with Ok (H, _) => H | Err _ => exH end.
Example C01_example : ∃ H', reaches exH H' ∧ length (h_nets H') = 3%nat ∧ length (h_verts H') = 5%nat.
Proof.
  pose (H1 := hg_of (run_op (RemoveNet 12) exH w0)).
  pose (H2 := hg_of (run_op (RemoveFreeVertex 4) H1 w0)).
  pose (H3 := hg_of (run_op (AddVertex 7 [11; 13] 5) H2 w0)).
  exists H3. split; [|split; vm_compute; reflexivity].
  eapply (reaches_step _ H2 H3 (AddVertex 7 [11; 13] 5) w0); [| |vm_compute; reflexivity].
  - eapply (reaches_step _ H1 H2 (RemoveFreeVertex 4) w0); [| |vm_compute; reflexivity].
    + eapply (reaches_step _ exH H1 (RemoveNet 12) w0); [apply reaches_refl| |vm_compute; reflexivity].
      change (12 ∈ n_id <$> h_nets exH). apply (bool_decide_eq_true_1 _); vm_compute; reflexivity.
    + exists (Vertex 4 [] 1 0). split; [|done]. apply (bool_decide_eq_true_1 _); vm_compute; reflexivity.
  - split; [apply (bool_decide_eq_true_1 _); vm_compute; reflexivity|]. split; [apply (bool_decide_eq_true_1 _); vm_compute; reflexivity|].
    apply Forall_forall. apply (bool_decide_eq_true_1 _); vm_compute; reflexivity.
Qed.

(** C02.  remove_net deletes exactly the named net.  Missing for the full property: the
    guarantee that nothing outside the live vector is read, which fails for the last net
    (C02_stale_read_refuted). *)
Lemma C02_remove_net_partial_proof : ∀ H n w, consistent H → n ∈ h_nets H →
  ∃ H' w', remove_net H (n_id n) w = Ok (H', w') ∧
    net_removed n H H' ∧ consistent H' ∧ n_id n ∉ n_id <$> h_nets H' ∧
    is_local_net H' (n_id n) = false ∧
    (last (h_nets H) ≠ Some n → w_log w' = w_log w).
Proof.
  intros H n w HC Hn. pose proof (co_nmap_ok _ HC) as HN. pose proof Hn as [i Hi]%elem_of_list_lookup.
  destruct (remove_net_by_index_log H i n w HC Hi) as (w' & Hrun & Hlog).
  pose proof (remove_net_result_removed H i n HC Hi) as HR.
  pose proof (remove_net_result_consistent H i n HC Hi) as HC'.
  assert (n_id n ∉ n_id <$> h_nets (remove_net_result H i n)) as Hno.
  { pose proof (co_nid _ HC) as Hnd. rewrite (nr_nets _ _ _ HR) in Hnd. csimpl in Hnd. by apply NoDup_cons in Hnd as [? _]. }
  exists (remove_net_result H i n), w'. split_and!; try done.
  - unfold remove_net, bind, local_id_net, of_option. by rewrite (nmap_ok_lookup _ _ _ HN Hi).
  - by apply (consistent_get_net _ _ w0 HC').
  - intros Hlast. rewrite Hlog. rewrite decide_False; [done|]. intros Hl. apply Hlast.
    rewrite last_lookup_len. rewrite <-Hl. simpl. by rewrite Nat.sub_0_r.
Qed.

(** C02, refuted part: removing the last net always reads past the end of the net vector. *)
Lemma C02_stale_read_refuted_proof : ∀ H n w, consistent H → last (h_nets H) = Some n →
  ∃ H' w', remove_net H (n_id n) w = Ok (H', w') ∧ w_log w' = w_log w ++ [StaleNetRead].
Proof.
  intros H n w HC Hl. pose proof (co_nmap_ok _ HC) as HN. rewrite last_lookup_len in Hl.
  destruct (remove_net_by_index_log H _ n w HC Hl) as (w' & Hrun & Hlog).
  eexists _, w'. split.
  - unfold remove_net, bind, local_id_net, of_option. rewrite (nmap_ok_lookup _ _ _ HN Hl). exact Hrun.
  - rewrite Hlog. rewrite decide_True; [done|]. apply lookup_lt_Some in Hl. lia.
Qed.

Example C02_example : consistent exH ∧ Net 11 [3; 1; 2] 2 3 ∈ h_nets exH ∧
  last (h_nets exH) = Some (Net 13 [3] 1 1).
Proof. split; [apply exH_consistent|]. split; [vm_compute; set_solver|reflexivity]. Qed.

(** C03.  remove_free_vertex deletes exactly the named vertex.  Missing: as in C02. *)
Lemma C03_remove_free_vertex_partial_proof : ∀ H v w, consistent H → v ∈ h_verts H → v_nets v = [] →
  ∃ H' w', remove_free_vertex H (v_id v) w = Ok (H', w') ∧
    vertex_removed v H H' ∧ consistent H' ∧ v_id v ∉ v_id <$> h_verts H' ∧
    (∀ u w, u ∈ h_verts H → v_id u ≠ v_id v → vert H' (v_id u) w = Ok (u, w)) ∧
    (last (h_verts H) ≠ Some v → w_log w' = w_log w).
Proof.
  intros H v w HC Hv Hfree. pose proof (co_vmap_ok _ HC) as HV. pose proof Hv as [i Hi]%elem_of_list_lookup.
  destruct (remove_free_vertex_run H i v w HV Hi) as (w' & Hrun & _ & Hlog).
  pose proof (remove_vertex_result_removed H i v Hi) as HR.
  pose proof (remove_vertex_result_consistent H i v HC Hi Hfree) as HC'.
  exists (remove_vertex_result H i v), w'. split_and!; try done.
  - pose proof (co_vid _ HC) as Hnd. rewrite (vr_verts _ _ _ HR) in Hnd. csimpl in Hnd. by apply NoDup_cons in Hnd as [? _].
  - intros u w1 Hu Hne. apply consistent_vert; [done| |done].
    rewrite (vr_verts _ _ _ HR) in Hu. apply elem_of_cons in Hu as [->|]; done.
  - intros Hlast. rewrite Hlog. rewrite decide_False; [done|]. intros Hl. apply Hlast.
    rewrite last_lookup_len. rewrite <-Hl. simpl. by rewrite Nat.sub_0_r.
Qed.

(** C03, refuted part: removing the last vertex always reads past the end of the vertex vector. *)
Lemma C03_stale_read_refuted_proof : ∀ H v w, consistent H → last (h_verts H) = Some v →
  ∃ H' w', remove_free_vertex H (v_id v) w = Ok (H', w') ∧ w_log w' = w_log w ++ [StaleVertexRead].
Proof.
  intros H v w HC Hl. pose proof (co_vmap_ok _ HC) as HV. rewrite last_lookup_len in Hl.
  destruct (remove_free_vertex_run H _ v w HV Hl) as (w' & Hrun & _ & Hlog).
  eexists _, w'. split; [exact Hrun|].
  rewrite Hlog. rewrite decide_True; [done|]. apply lookup_lt_Some in Hl. lia.
Qed.

Example C03_example : consistent exH ∧ Vertex 4 [] 1 0 ∈ h_verts exH.
Proof. split; [apply exH_consistent|]. vm_compute. set_solver. Qed.

(** C04.  A copy has the same vertices (with parts, weights and net lists), the same nets
    with the same vertices and stored sizes, and is consistent.  Missing: the costs
    (C04_costs_refuted). *)
Lemma C04_copy_partial_proof : ∀ H w, consistent H →
  ∃ H' w', copy_hg H w = Ok (H', w') ∧ consistent H' ∧ h_verts H' = h_verts H ∧
    h_gsize H' = h_gsize H ∧ h_gnets H' = h_gnets H ∧ h_nz H' = h_nz H ∧
    Forall2 (λ n n', n_id n = n_id n' ∧ n_verts n ≡ₚ n_verts n' ∧ n_gsize n = n_gsize n' ∧ n_cost n' = 1)
      (h_nets H) (h_nets H').
Proof.
  intros H w HC. assert (wp (copy_hg H) (λ H', H' = copied H)) as Hw by by apply wpe_copy_hg.
  destruct (wp_run _ _ Hw w) as (H' & w' & Hrun & ->). exists (copied H), w'.
  split_and!; try done; [by apply copied_consistent|by apply copied_nets].
Qed.

(** C04, refuted part: the copy of a hypergraph with a cost different from 1 has another
    cost for that net, and copying can change the cut. *)
Lemma C04_costs_refuted_proof :
  (∀ H n i w, consistent H → h_nets H !! i = Some n → n_cost n ≠ 1 →
     ∃ H' w' n', copy_hg H w = Ok (H', w') ∧ h_nets H' !! i = Some n' ∧ n_cost n' ≠ n_cost n) ∧
  (∃ H, consistent H ∧ ∃ H' w', copy_hg H w0 = Ok (H', w') ∧ cut_net H' ≠ cut_net H).
Proof.
  split.
  - intros H n i w HC Hi Hc. destruct (C04_copy_partial_proof H w HC) as (H' & w' & Hrun & _ & _ & _ & _ & _ & Hf2).
    destruct (Forall2_lookup_l _ _ _ _ _ Hf2 Hi) as (n' & Hi' & _ & _ & _ & Hc').
    exists H', w', n'. split_and!; try done. congruence.
  - exists exH. split; [apply exH_consistent|]. eexists _, _. split; [vm_compute; reflexivity|]. vm_compute. discriminate.
Qed.

(** C05.  Merging duplicate nets preserves every cut, for every assignment [σ] of parts and
    both metrics; vertices keep id, weight and part; no two remaining nets have the same
    vertices; the remaining nets are original nets (same id, vertices, stored size).
    [small_costs]: the total of the absolute costs fits into 31 bits. *)
Lemma C05_simplify_preserves_cuts_proof : ∀ H w, consistent H → small_costs H →
  ∃ H' w', simplify_duplicate_nets H w = Ok (H', w') ∧ consistent H' ∧
    (∀ σ, cut_net_size (net_list H') σ = cut_net_size (net_list H) σ ∧
          lambda_size (net_list H') σ = lambda_size (net_list H) σ) ∧
    Forall2 (λ v v', v_id v' = v_id v ∧ v_weight v' = v_weight v ∧ v_part v' = v_part v)
      (h_verts H) (h_verts H') ∧
    (∀ n1 n2, n1 ∈ h_nets H' → n2 ∈ h_nets H' → n_verts n1 ≡ₚ n_verts n2 → n1 = n2) ∧
    (∀ n', n' ∈ h_nets H' → ∃ n, n ∈ h_nets H ∧ n_id n' = n_id n ∧ n_verts n' ≡ₚ n_verts n ∧ n_gsize n' = n_gsize n).
Proof.
  intros H w HC Hsm. assert (wp (simplify_duplicate_nets H) (simplified H)) as Hw by (apply wpe_simplify; [done|]; auto).
  destruct (wp_run _ _ Hw w) as (H' & w' & Hrun & HS). exists H', w'. split_and!; try done.
  - apply HS.
  - intros σ. by apply simplified_cuts.
  - eapply Forall2_impl; [apply HS|]. simpl. naive_solver.
  - intros n1 n2. by apply (simplified_distinct H).
  - intros n'. by apply simplified_subset.
Qed.

(** Without the bound on the costs the int accumulator wraps and the cut changes. *)
Definition ex_big : hg := mk_hg 2 2 [Vertex 0 [5; 6] 1 0; Vertex 1 [5; 6] 1 1]
  [Net 5 [0; 1] 2147483647 2; Net 6 [0; 1] 1 2] 4.
Lemma C05_cost_overflow_refuted_proof :
  ∃ H, consistent H ∧ ∃ H' w', simplify_duplicate_nets H w0 = Ok (H', w') ∧ cut_net H' ≠ cut_net H.
Proof.
  exists ex_big. split; [apply mk_hg_consistent_dec; vm_compute; reflexivity|].
  eexists _, _. split; [vm_compute; reflexivity|]. vm_compute. discriminate.
Qed.

Example C05_example : consistent exH ∧ small_costs exH ∧
  ∃ H' w', simplify_duplicate_nets exH w0 = Ok (H', w') ∧ length (h_nets H') = 3%nat.
Proof.
  split; [apply exH_consistent|]. split; [apply exH_small|]. eexists _, _. split; [vm_compute; reflexivity|reflexivity].
Qed.

(** C06.  simplify, then any relabelling or reordering inside nets, then reset: every net is
    back with its id, vertices and cost, nothing else is there, every vertex has its nets
    back, and parts are those set in between.  Missing: the stored global sizes, which become
    0 for restored nets (C06_sizes_refuted). *)
Lemma C06_reset_partial_proof : ∀ H w H1 w1 H2, consistent H → small_costs H → h_dups H = [] →
  simplify_duplicate_nets H w = Ok (H1, w1) → same_shape H1 H2 → ∀ w2,
  ∃ H3 w3, reset_duplicate_nets H2 w2 = Ok (H3, w3) ∧ consistent H3 ∧
    (∀ n, n ∈ h_nets H → ∃ n', n' ∈ h_nets H3 ∧ n_id n' = n_id n ∧ n_verts n' ≡ₚ n_verts n ∧
      n_cost n' = n_cost n ∧ (n_gsize n' = n_gsize n ∨ n_gsize n' = 0)) ∧
    (∀ n', n' ∈ h_nets H3 → n_id n' ∈ n_id <$> h_nets H) ∧
    Forall2 (λ v v', v_id v' = v_id v ∧ v_weight v' = v_weight v ∧ v_nets v' ≡ₚ v_nets v) (h_verts H) (h_verts H3) ∧
    v_part <$> h_verts H3 = v_part <$> h_verts H2.
Proof.
  intros H w H1 w1 H2 HC Hsm Hd Hrun Hsh w2.
  assert (wlp (simplify_duplicate_nets H) (simplified H)) as Hw by (apply wpe_simplify; [done|]; auto).
  apply (wlp_run _ _ Hw) in Hrun.
  assert (wp (reset_duplicate_nets H2) (restored H H2)) as Hw2 by (eapply wpe_simplify_reset; [done..|]; auto).
  destruct (wp_run _ _ Hw2 w2) as (H3 & w3 & Hrun3 & [R1 R2 R3 R4 R5]). exists H3, w3. split_and!; done.
Qed.

(** C06, refuted part: a restored net has stored size 0, not its size; and a second
    simplify/reset round on the same hypergraph hits a failing assertion, because the list of
    duplicates is never cleared. *)
Lemma C06_sizes_refuted_proof :
  ∃ H, consistent H ∧ small_costs H ∧ h_dups H = [] ∧
    ∃ H1 w1 H2 w2 n n', simplify_duplicate_nets H w0 = Ok (H1, w1) ∧ reset_duplicate_nets H1 w1 = Ok (H2, w2) ∧
      n ∈ h_nets H ∧ n' ∈ h_nets H2 ∧ n_id n' = n_id n ∧ n_gsize n' ≠ n_gsize n ∧
      ∃ H3 w3, simplify_duplicate_nets H2 w2 = Ok (H3, w3) ∧ reset_duplicate_nets H3 w3 = Err Abort.
Proof.
  exists exH. split; [apply exH_consistent|]. split; [apply exH_small|]. split; [reflexivity|].
  do 4 eexists. exists (Net 10 [0; 1] 1 2), (Net 10 [0; 1] 1 0).
  split; [vm_compute; reflexivity|]. split; [vm_compute; reflexivity|].
  split; [apply (bool_decide_eq_true_1 _); vm_compute; reflexivity|].
  split; [apply (bool_decide_eq_true_1 _); vm_compute; reflexivity|].
  split; [done|]. split; [done|].
  do 2 eexists. split; vm_compute; reflexivity.
Qed.

Example C06_example : ∃ H1 w1, simplify_duplicate_nets exH w0 = Ok (H1, w1) ∧ h_dups exH = [] ∧
  same_shape H1 (upd_vert 0 (set_part 1) H1).
Proof. eexists _, _. split; [vm_compute; reflexivity|]. split; [done|]. apply set_part_shape. Qed.

(** C07.  init_counts counts, for every net, its vertices in part 0 and in part 1. *)
Lemma C07_init_counts_exact_proof : ∀ H w, consistent H → bisected H →
  ∃ C w', init_counts H w = Ok (C, w') ∧
    C = (λ n, (zcount (λ u, part_of H u = 0) (n_verts n), zcount (λ u, part_of H u = 1) (n_verts n))) <$> h_nets H.
Proof.
  intros H w HC HB. assert (wp (init_counts H) (exact_counts H)) as Hw by (apply wpe_init_counts; [done..|]; auto).
  exact (wp_run _ _ Hw w).
Qed.
Example C07_example : consistent exH ∧ bisected exH ∧ ∃ w', init_counts exH w0 = Ok ([(2, 0); (1, 2); (2, 0); (0, 1)], w').
Proof. split; [apply exH_consistent|]. split; [apply exH_bisected|]. eexists. vm_compute. reflexivity. Qed.

(** C08.  sort_vertices_on_part sorts every net by part and changes nothing else. *)
Lemma C08_sort_on_part_proof : ∀ H C w, consistent H → bisected H → exact_counts H C →
  ∃ H' w', sort_vertices_on_part H C w = Ok (H', w') ∧
    part_sorted H' ∧ same_shape H H' ∧ h_verts H' = h_verts H.
Proof.
  intros H C w HC HB HCt.
  assert (wp (sort_vertices_on_part H C) (λ H', part_sorted H' ∧ same_shape H H' ∧ h_verts H' = h_verts H)) as Hw.
  { apply wpe_sort_vertices_on_part; [done..|]. intros H' ? ? Hs _. split_and!; try done. by apply part_sorted_iff. }
  exact (wp_run _ _ Hw w).
Qed.
Example C08_example : consistent exH ∧ bisected exH ∧ exact_counts exH [(2, 0); (1, 2); (2, 0); (0, 1)] ∧
  ∃ H' w', sort_vertices_on_part exH [(2, 0); (1, 2); (2, 0); (0, 1)] w0 = Ok (H', w') ∧
    n_verts <$> h_nets H' = [[0; 1]; [1; 3; 2]; [1; 0]; [3]].
Proof.
  split; [apply exH_consistent|]. split; [apply exH_bisected|]. split; [vm_compute; reflexivity|].
  eexists _, _. split; vm_compute; reflexivity.
Qed.

(** C09.  After any history of moves on part-sorted nets with exact counts: a vertex has
    changed side exactly if it was moved an odd number of times (so moving twice restores), nets are
    part-sorted, counts are exact, and only parts and orders inside nets differ. *)
Lemma C09_moves_proof : ∀ ids H C w, consistent H → bisected H → part_sorted H → exact_counts H C →
  (∀ id, id ∈ ids → id ∈ v_id <$> h_verts H) →
  ∃ H' C' w', moves ids (H, C) w = Ok ((H', C'), w') ∧
    same_shape H H' ∧ bisected H' ∧ part_sorted H' ∧ exact_counts H' C' ∧
    ∀ u, part_of H' u = if decide (Z.odd (occ u ids) = true) then 1 - part_of H u else part_of H u.
Proof.
  intros ids H C w HC HB HS HCt Hin. apply part_sorted_iff in HS.
  assert (wp (moves ids (H, C)) (λ '(H', C'), same_shape H H' ∧ bisected H' ∧ part_sorted H' ∧ exact_counts H' C' ∧
    ∀ u, part_of H' u = if decide (Z.odd (occ u ids) = true) then 1 - part_of H u else part_of H u)) as Hw.
  { apply wpe_moves; [done..|]. intros H' C' ? ? ? ? ?. split_and!; try done. by apply part_sorted_iff. }
  destruct (wp_run _ _ Hw w) as ([H' C'] & w' & Hrun & HH). exists H', C', w'. done.
Qed.

(** moving the same vertex twice restores all parts and counts *)
Lemma C09_move_twice_proof : ∀ id H C w, consistent H → bisected H → part_sorted H → exact_counts H C →
  id ∈ v_id <$> h_verts H →
  ∃ H' w', moves [id; id] (H, C) w = Ok ((H', C), w') ∧ h_verts H' = h_verts H.
Proof.
  intros id H C w HC HB HS HCt Hin.
  destruct (C09_moves_proof [id; id] H C w) as (H' & C' & w' & Hrun & Hsh & HB' & HS' & HCt' & Hp); try done.
  { set_solver. }
  assert (∀ u, part_of H' u = part_of H u) as Hpp.
  { intros u. rewrite Hp. rewrite decide_False; [done|]. unfold occ. rewrite !zcount_cons, zcount_nil.
    destruct (decide (id = u)); done. }
  assert (C' = C) as ->.
  { rewrite HCt, HCt'. pose proof (ss_nets _ _ Hsh) as Hf2. clear -Hf2 Hpp.
    assert (∀ n p, count_in H' n p = count_in H n p) as Hc.
    { intros n p. apply zcount_ext. intros u _. by rewrite Hpp. }
    induction Hf2 as [|n n' l l' (_ & Hv & _) _ IH]; [done|]. csimpl. rewrite IH, !Hc.
    f_equal. f_equal; apply count_in_perm; by symmetry. }
  exists H', w'. split; [done|].
  assert (consistent H') as HC' by by eapply same_shape_consistent.
  apply list_eq. intros i. destruct (h_verts H !! i) as [v|] eqn:Hi.
  - destruct (Forall2_lookup_l _ _ _ _ _ (ss_verts _ _ Hsh) Hi) as (v' & Hi' & E1 & E2 & E3).
    rewrite Hi'. f_equal. pose proof (Hpp (v_id v)) as Hpv.
    rewrite E1 in Hpv at 1. rewrite !part_of_elem in Hpv;
      [|apply (co_vid _ HC)|by eapply elem_of_list_lookup_2|apply (co_vid _ HC')|by eapply elem_of_list_lookup_2].
    destruct v, v'; simpl in *; congruence.
  - apply lookup_ge_None. rewrite <-(Forall2_length _ _ _ (ss_verts _ _ Hsh)). by apply lookup_ge_None.
Qed.

Example C09_example : let H := mk_hg 2 1 [Vertex 0 [5] 1 0; Vertex 1 [5] 1 1] [Net 5 [0; 1] 1 2] 2 in
  consistent H ∧ bisected H ∧ part_sorted H ∧ exact_counts H [(1, 1)] ∧
  ∃ H' C' w', moves [1; 0; 1; 1] (H, [(1, 1)]) w0 = Ok ((H', C'), w') ∧ C' = [(1, 1)].
Proof.
  split; [apply mk_hg_consistent_dec; vm_compute; reflexivity|].
  split; [intros v Hv; simpl in Hv; set_solver|].
  split.
  { intros n Hn. simpl in Hn. apply elem_of_list_singleton in Hn as ->. exists [0], [1].
    split; [done|]. split; intros u ->%elem_of_list_singleton; vm_compute; reflexivity. }
  split; [vm_compute; reflexivity|]. do 3 eexists. split; vm_compute; reflexivity.
Qed.

(** C10.  The cut functions compute the cut as defined in Spec.v, for any number of parts. *)
Lemma C10_cutsize_proof : ∀ H w, consistent H →
  (∃ w', cutsize H CutNet w = Ok (cut_net H, w')) ∧
  (∃ w', cutsize H LambdaMinusOne w = Ok (lambda_minus_one H, w')).
Proof.
  intros H w HC. split.
  - assert (wp (cutsize H CutNet) (λ r, r = cut_net H)) as Hw by by apply wpe_cutsize.
    destruct (wp_run _ _ Hw w) as (r & w' & Hr & ->). eauto.
  - assert (wp (cutsize H LambdaMinusOne) (λ r, r = lambda_minus_one H)) as Hw by by apply wpe_cutsize.
    destruct (wp_run _ _ Hw w) as (r & w' & Hr & ->). eauto.
Qed.

(** For a bisection both metrics and the count-based cut agree; with nonnegative costs
    lambda-minus-one dominates cut-net for every assignment. *)
Lemma C10_bisection_agree_proof : ∀ H C w, consistent H → bisected H → exact_counts H C →
  cut_net H = lambda_minus_one H ∧ ∃ w', cutsize_counts H C w = Ok (cut_net H, w').
Proof.
  intros H C w HC HB HCt. rewrite cut_net_cut01, lambda_cut01 by done. split; [done|].
  assert (wp (cutsize_counts H C) (λ r, r = cut01 H)) as Hw by by apply wpe_cutsize_counts.
  destruct (wp_run _ _ Hw w) as (r & w' & Hr & ->). eauto.
Qed.
Lemma C10_lambda_dominates_proof : ∀ ns σ, (∀ c vs, (c, vs) ∈ ns → 0 ≤ c) → cut_net_size ns σ ≤ lambda_size ns σ.
Proof. exact cut_net_le_lambda. Qed.

Example C10_example : consistent ex3 ∧ cut_net ex3 = 6 ∧ lambda_minus_one ex3 = 8 ∧
  consistent exH ∧ bisected exH ∧ cut_net exH = 2.
Proof.
  split; [apply ex3_consistent|]. split; [vm_compute; reflexivity|]. split; [vm_compute; reflexivity|].
  split; [apply exH_consistent|]. split; [apply exH_bisected|]. vm_compute. reflexivity.
Qed.

(** C11.  weight_all_parts(k) succeeds exactly when all parts are in [0,k); then it lists the
    part weights, which add up to the total weight. *)
Lemma C11_part_weights_proof : ∀ H k w,
  total_weight H = tot_weight H ∧ (∀ p, weight_part H p = part_weight H p) ∧
  ((∀ v, v ∈ h_verts H → 0 ≤ v_part v < k) →
     (∃ w', weight_all_parts H k w = Ok (part_weight H <$> seqZ 0 k, w')) ∧
     zsum (part_weight H <$> seqZ 0 k) = tot_weight H) ∧
  ((∃ v, v ∈ h_verts H ∧ ¬ (0 ≤ v_part v < k)) → weight_all_parts H k w = Err UB).
Proof.
  intros H k w. split_and!.
  - apply total_weight_spec.
  - apply weight_part_spec.
  - intros Hp. split; [|by apply zsum_part_weights].
    assert (wp (weight_all_parts H k) (λ r, r = part_weight H <$> seqZ 0 k)) as Hw by by apply wpe_weight_all_parts.
    destruct (wp_run _ _ Hw w) as (r & w' & Hr & ->). eauto.
  - intros (v & Hv & Hp). by eapply weight_all_parts_UB.
Qed.
Example C11_example : (∀ v, v ∈ h_verts ex3 → 0 ≤ v_part v < 3) ∧ part_weight ex3 <$> seqZ 0 3 = [4; 1; 2].
Proof. split; [|vm_compute; reflexivity]. intros v Hv. vm_compute in Hv. set_solver by lia. Qed.
