(** C23-C25: coarsening, uncoarsening, free vertices. *)
From Verif Require Export UncoarsenProof FinalLabel.

Lemma clusters_contr_of cl free lf gf : clusters (c_samples (contraction_of cl free lf gf)) (c_matches (contraction_of cl free lf gf)) = cl.
Proof.
  unfold clusters, contraction_of. simpl. induction cl as [|[s ms] cl IH]; [done|]. csimpl. rewrite IH. f_equal. f_equal.
  rewrite <-list_fmap_compose. rewrite <-(list_fmap_id ms) at 2. by apply list_fmap_ext.
Qed.
Lemma coarsen_seq_run H opts w : consistent H →
  ∃ HC cl free t w', coarsen_seq H new_contraction opts w = Ok ((HC, contraction_of cl free t t), w') ∧ clustering H cl ∧
    (∀ c, c ∈ cl → Z.of_nat (length (snd c)) ≤ Z.max 0 (o_max_clustersize opts) ∧ ∀ m, m ∈ snd c → neighbours H (fst c) m) ∧
    contracted H cl HC free ∧ t = zsum (snd <$> free).
Proof.
  intros HC. assert (wp (coarsen_seq H new_contraction opts) (λ o, ∃ cl free t, snd o = contraction_of cl free t t ∧ clustering H cl ∧
    (∀ c, c ∈ cl → Z.of_nat (length (snd c)) ≤ Z.max 0 (o_max_clustersize opts) ∧ ∀ m, m ∈ snd c → neighbours H (fst c) m) ∧
    contracted H cl (fst o) free ∧ t = zsum (snd <$> free))) as Hw.
  { apply wpe_coarsen_seq; [done|]. intros K cl free t Hcl Hsz Hcd Ht. exists cl, free, t. done. }
  apply wp_run with (w := w) in Hw as ([K C] & w' & Heq & cl & free & t & HC' & Ho). simpl in HC'. subst C. exists K, cl, free, t, w'. done.
Qed.

(** ** C23 *)

(** C23.  coarsen_hypergraph_seq always ends, with a consistent coarse hypergraph and a
    contraction whose clusters (a sample and its matches) are disjoint, cover exactly the
    vertices of the fine hypergraph, have at most max_cluster_size matches each and join only
    vertices that share a net with the sample.  The coarse vertices together with the free vertices set aside
    are the samples, each with the total weight of its cluster.  For every assignment of the
    clusters, both cut metrics and the weight of every part are those of the fine hypergraph
    under the projected assignment.  The coarse nets are fine nets mapped to the samples, with
    at least two vertices and exact sizes; every coarse vertex has a net. *)
Lemma C23_coarsening_proof : ∀ H opts w, consistent H →
  ∃ HC C w', coarsen_seq H new_contraction opts w = Ok ((HC, C), w') ∧ consistent HC ∧
  let cl := clusters (c_samples C) (c_matches C) in
  length (c_samples C) = length (c_matches C) ∧
  clustering H cl ∧
  (∀ c, c ∈ cl → Z.of_nat (length (snd c)) ≤ Z.max 0 (o_max_clustersize opts) ∧ ∀ m, m ∈ snd c → neighbours H (fst c) m) ∧
  (v_id <$> h_verts HC) ++ (fst <$> c_free C) ≡ₚ c_samples C ∧
  (∀ id wt, (id, wt) ∈ ids_weights HC ++ c_free C →
     wt = zsum ((λ v, if decide (rep cl (v_id v) = id) then v_weight v else 0) <$> h_verts H)) ∧
  tot_weight HC + zsum (snd <$> c_free C) = tot_weight H ∧
  c_local_free C = zsum (snd <$> c_free C) ∧ c_global_free C = zsum (snd <$> c_free C) ∧
  (∀ σ, cut_net_size (net_list HC) σ = cut_net_size (net_list H) (σ ∘ rep cl) ∧
        lambda_size (net_list HC) σ = lambda_size (net_list H) (σ ∘ rep cl)) ∧
  (∀ σ p, assigned_weight HC (c_free C) σ p = assigned_weight H [] (σ ∘ rep cl) p) ∧
  (∀ n, n ∈ h_nets HC → (2 ≤ length (n_verts n))%nat ∧ n_gsize n = Z.of_nat (length (n_verts n)) ∧
     ∃ m, m ∈ h_nets H ∧ n_id m = n_id n ∧ n_cost m = n_cost n ∧ ∀ u, u ∈ n_verts n ↔ ∃ x, x ∈ n_verts m ∧ rep cl x = u) ∧
  (∀ v, v ∈ h_verts HC → v_nets v ≠ []) ∧ h_gsize HC = Z.of_nat (length (h_verts HC)).
Proof.
  intros H opts w HC. destruct (coarsen_seq_run H opts w HC) as (K & cl & free & t & w' & Heq & Hcl & Hsz & Hcd & Ht).
  exists K, (contraction_of cl free t t), w'. split; [done|]. split; [apply (cd_cons _ _ _ _ Hcd)|].
  rewrite clusters_contr_of. cbn zeta. cbn [c_samples c_matches c_free c_local_free c_global_free contraction_of].
  split; [by rewrite !fmap_length|]. split; [done|]. split; [done|]. split; [apply (cd_ids _ _ _ _ Hcd)|].
  split; [apply (cd_weights _ _ _ _ Hcd)|]. split.
  { pose proof (cd_weight _ _ _ _ Hcd (λ _, 0) 0) as Hw. unfold assigned_weight in Hw. simpl in Hw. unfold tot_weight.
    change (zsum (_ <$> [])) with 0 in Hw. rewrite Z.add_0_r in Hw. exact Hw. }
  split; [done|]. split; [done|]. split; [apply (cd_cut _ _ _ _ Hcd)|]. split; [apply (cd_weight _ _ _ _ Hcd)|].
  split; [apply (cd_nets _ _ _ _ Hcd)|]. split; [intros v Hv; by apply (cd_verts _ _ _ _ Hcd)|apply (cd_gsize _ _ _ _ Hcd)].
Qed.

Example C23_example : consistent klH ∧
  match coarsen_seq klH new_contraction kl_opts (tape_of [0; 1; 1; 0; 1; 3; 1; 2; 7]) with
  | Ok ((HC, C), _) => clusters (c_samples C) (c_matches C) = [(0, [1]); (2, [4; 3])] | Err _ => False end.
Proof. split; [exact (kp_cons _ klH_pre)|]. vm_compute. reflexivity. Qed.

(** ** C24 *)
Lemma cuts_ext H σ σ' : (∀ n u, n ∈ h_nets H → u ∈ n_verts n → σ u = σ' u) →
  cut_net_size (net_list H) σ = cut_net_size (net_list H) σ' ∧ lambda_size (net_list H) σ = lambda_size (net_list H) σ'.
Proof.
  intros Hs. unfold cut_net_size, lambda_size, net_list. rewrite <-!list_fmap_compose.
  split; apply zsum_fmap_ext; intros n Hn; simpl; rewrite (HgBasics.lambda_ext σ σ') by (intros u Hu; by apply (Hs n)); done.
Qed.
Lemma part_weight_assigned H p : consistent H → part_weight H p = assigned_weight H [] (part_of H) p.
Proof.
  intros HC. unfold part_weight, assigned_weight. change (zsum (_ <$> [])) with 0. rewrite Z.add_0_r, zsum_filter_if.
  apply zsum_fmap_ext. intros v Hv. rewrite part_of_elem by (done || apply (co_vid _ HC)). done.
Qed.
Lemma idw_ids H : idw <$> h_verts H = ids_weights H.
Proof. done. Qed.

(** C24.  Let [(HC, C)] be a result of coarsening [H] and [K] the coarse hypergraph with its free
    vertices back and any parts: same ids and weights, same cuts for every assignment.
    uncoarsen_hypergraph then gives every vertex of [H] the part of its cluster in [K] and
    changes nothing else; both cuts and all part weights are those of [K]. *)
Lemma C24_projection_proof : ∀ H opts w0 w1 HC C K w, consistent H →
  coarsen_seq H new_contraction opts w0 = Ok ((HC, C), w1) →
  consistent K → ids_weights K ≡ₚ ids_weights HC ++ c_free C →
  (∀ σ, cut_net_size (net_list K) σ = cut_net_size (net_list HC) σ ∧ lambda_size (net_list K) σ = lambda_size (net_list HC) σ) →
  ∃ H' w', uncoarsen K H C w = Ok (H', w') ∧
    h_verts H' = with_parts (λ u, part_of K (rep (clusters (c_samples C) (c_matches C)) u)) H ∧
    same_but_parts H H' ∧ consistent H' ∧
    cut_net H' = cut_net K ∧ lambda_minus_one H' = lambda_minus_one K ∧ ∀ p, part_weight H' p = part_weight K p.
Proof.
  intros H opts w0 w1 HC C K w HCo Hrun HK Hidw Hcut.
  destruct (coarsen_seq_run H opts w0 HCo) as (HC1 & cl & free & t & w1' & Heq & Hcl & Hsz & Hcd & Ht).
  rewrite Hrun in Heq. injection Heq as <- -> <-. rewrite clusters_contr_of.
  assert (vids K ≡ₚ fst <$> cl) as Hids.
  { rewrite <-(cd_ids _ _ _ _ Hcd). transitivity (fst <$> ids_weights K); [unfold ids_weights; rewrite <-list_fmap_compose; done|].
    rewrite Hidw, fmap_app. cbn [c_free contraction_of]. f_equiv. unfold ids_weights. by rewrite <-list_fmap_compose. }
  assert (wp (uncoarsen K H (contraction_of cl free t t)) (λ H', H' = lab H (λ u, part_of K (rep cl u)))) as Hw by (by eapply wpe_uncoarsen).
  apply wp_run with (w := w) in Hw as (H' & w' & Heq & ->). eexists _, w'. split; [done|]. split; [done|]. split; [done|]. split; [by apply lab_consistent|].
  set (H' := lab H (λ u, part_of K (rep cl u))).
  assert (∀ u, u ∈ vids H → part_of H' u = part_of K (rep cl u)) as Hpo by (intros u Hu; exact (lab_part_of H _ u HCo Hu)).
  destruct (cd_cut _ _ _ _ Hcd (part_of K)) as [Hc1 Hc2]. destruct (Hcut (part_of K)) as [Hc3 Hc4].
  assert (∀ n u, n ∈ h_nets H' → u ∈ n_verts n → part_of H' u = (part_of K ∘ rep cl) u) as Hext.
  { intros n u Hn Hu. apply Hpo. destruct (co_inc2 _ HCo n u Hn Hu) as (v & Hv & <- & _). by apply elem_of_list_fmap_1. }
  destruct (cuts_ext H' _ _ Hext) as [He1 He2]. change (net_list H') with (net_list H) in *.
  split; [unfold cut_net; change (net_list H') with (net_list H); congruence|].
  split; [unfold lambda_minus_one; change (net_list H') with (net_list H); congruence|].
  intros p. rewrite (part_weight_assigned K p HK), (part_weight_assigned H' p) by (by apply lab_consistent).
  assert (assigned_weight K [] (part_of K) p = assigned_weight HC free (part_of K) p) as ->.
  { rewrite !assigned_idw, app_nil_r, (idw_ids K), Hidw. done. }
  rewrite (cd_weight _ _ _ _ Hcd), !assigned_idw, !app_nil_r, <-!list_fmap_compose. unfold H' at 2, lab at 1. simpl. rewrite <-list_fmap_compose.
  apply zsum_fmap_ext. intros v Hv. simpl. unfold fidw. simpl. fold (lab H (λ u, part_of K (rep cl u))). fold H'.
  rewrite Hpo by (by apply elem_of_list_fmap_1). done.
Qed.

Definition c24_K : hg := lab (mk_hg 2 1 [Vertex 0 [11] 3 (-1); Vertex 2 [11] 5 (-1)] [Net 11 [0; 2] 2 2] 0) (λ u, if decide (u = 0) then 1 else 0).
Example C24_example : consistent klH ∧ consistent c24_K ∧
  match coarsen_seq klH new_contraction kl_opts (tape_of [0; 1; 1; 0; 1; 3; 1; 2; 7]) with
  | Ok ((HC, C), _) => ids_weights c24_K = ids_weights HC ++ c_free C ∧ net_list c24_K = net_list HC ∧
      match uncoarsen c24_K klH C w0 with Ok (H', _) => v_part <$> h_verts H' = [1; 1; 0; 0; 0] | Err _ => False end
  | Err _ => False end.
Proof.
  split; [exact (kp_cons _ klH_pre)|]. split; [apply lab_consistent, mk_hg_consistent_dec; vm_compute; reflexivity|].
  vm_compute. repeat split; reflexivity.
Qed.

(** ** C25 *)

(** C25.  merge_free_vertices takes out exactly the vertices without nets, records their ids and
    weights and their total weight, and changes nothing else. *)
Lemma C25_set_aside_proof : ∀ C H w, consistent H → c_free C = [] →
  ∃ C' H' w', merge_free_vertices C H w = Ok ((C', H'), w') ∧ consistent H' ∧
    h_verts H ≡ₚ filter (λ v, v_nets v = []) (h_verts H) ++ h_verts H' ∧ (∀ v, v ∈ h_verts H' → v_nets v ≠ []) ∧
    c_free C' = (λ v, (v_id v, v_weight v)) <$> filter (λ v, v_nets v = []) (h_verts H) ∧
    c_local_free C' = zsum (snd <$> c_free C') ∧ c_global_free C' = zsum (snd <$> c_free C') ∧
    c_samples C' = c_samples C ∧ c_matches C' = c_matches C ∧
    h_nets H' = h_nets H ∧ h_gsize H' = Z.of_nat (length (h_verts H')).
Proof.
  intros C H w HC Hf.
  assert (wp (merge_free_vertices C H) (λ o, consistent (snd o) ∧ set_aside H (snd o) ∧
     fst o = Contr (c_samples C) (c_matches C) (free_of (h_verts H)) (zsum (snd <$> free_of (h_verts H))) (zsum (snd <$> free_of (h_verts H))))) as Hw.
  { apply wpe_merge_free; [done|done|]. intros H' t HC' Hsa ->. done. }
  apply wp_run with (w := w) in Hw as ([C' H'] & w' & Heq & HC' & Hsa & HeC). simpl in *. subst C'. eexists _, H', w'. split; [done|]. split; [done|].
  pose proof (sa_verts _ _ Hsa) as Hp. split; [done|]. split.
  { intros v Hv Hfr. assert (NoDup (v_id <$> filter is_free (h_verts H) ++ h_verts H')) as Hnd by (rewrite <-Hp; apply (co_vid _ HC)).
    rewrite fmap_app in Hnd. apply NoDup_app in Hnd as (_ & Hd & _). apply (Hd (v_id v)); [|by apply elem_of_list_fmap_1].
    apply elem_of_list_fmap_1, elem_of_list_filter. split; [done|]. rewrite Hp. set_solver. }
  cbn [c_free c_local_free c_global_free c_samples c_matches].
  split; [done|]. split; [done|]. split; [done|]. split; [done|]. split; [done|]. split; [apply (sa_nets _ _ Hsa)|apply (sa_gsize _ _ Hsa)].
Qed.

Lemma wpe_weights2 E H (Q : Z * Z → Prop) : bisected H → Q (pws H) → wpe E (weights2 H) Q.
Proof.
  intros HB HQ. unfold weights2. apply wpe_bind. apply wpe_weight_all_parts; [intros v Hv; destruct (HB v Hv); lia|].
  change (seqZ 0 2) with [0; 1]. csimpl. apply wpe_bind. apply (wpe_idx _ _ _ (part_weight H 0)); [done|].
  apply wpe_bind. apply (wpe_idx _ _ _ (part_weight H 1)); [done|]. by apply wpe_ret.
Qed.
Lemma bisected_tot H : bisected H → part_weight H 0 + part_weight H 1 = tot_weight H.
Proof.
  intros HB. rewrite <-(zsum_part_weights H 2) by (intros v Hv; destruct (HB v Hv); lia). change (seqZ 0 2) with [0; 1]. csimpl.
  rewrite !zsum_cons, zsum_nil. lia.
Qed.
Lemma pws_app H H' vs : h_verts H' = h_verts H ++ vs → pws H' = (fst (pws H) + fst (wparts vs), snd (pws H) + snd (wparts vs)).
Proof. intros Hv. unfold pws, part_weight, wparts. rewrite Hv, !filter_app, !fmap_app, !zsum_app. done. Qed.

(** C25, proved part.  If there are no free vertices or their total weight is not 0, then
    assign_free_vertices puts back every recorded vertex with its weight, no nets and a part in
    {0,1}; nothing else changes; the returned pair is the exact weight of the parts; and the
    limits hold afterwards if they held before and the sum of the limits is at least the total
    weight plus the largest free weight.  Missing: free vertices of total weight 0
    (C25_weightless_refuted). *)
Lemma C25_all_return_partial_proof : ∀ C H mx w, consistent H → bisected H →
  NoDup ((v_id <$> h_verts H) ++ (fst <$> c_free C)) →
  c_free C = [] ∨ c_global_free C ≠ 0 → (c_free C = [] → c_global_free C = 0) →
  ∃ C' H' ws w', assign_free_vertices C H mx w = Ok ((C', H', ws), w') ∧ consistent H' ∧ bisected H' ∧
    (∃ vs, h_verts H' = h_verts H ++ vs ∧ (λ v, (v_id v, v_weight v)) <$> vs ≡ₚ c_free C ∧ (∀ v, v ∈ vs → v_nets v = [])) ∧
    h_nets H' = h_nets H ∧ c_samples C' = c_samples C ∧ c_matches C' = c_matches C ∧
    ws = pws H' ∧
    ∀ b, (∀ f, f ∈ c_free C → 0 ≤ snd f ≤ b) → balanced H mx →
      tot_weight H + zsum (snd <$> c_free C) + b ≤ fst mx + snd mx → balanced H' mx.
Proof.
  intros C H mx w HC HB Hnd Hcase Hemp.
  assert (wp (assign_free_vertices C H mx) (λ o, let C' := fst (fst o) in let H' := snd (fst o) in let ws := snd o in
    consistent H' ∧ bisected H' ∧
    (∃ vs, h_verts H' = h_verts H ++ vs ∧ (λ v, (v_id v, v_weight v)) <$> vs ≡ₚ c_free C ∧ (∀ v, v ∈ vs → v_nets v = [])) ∧
    h_nets H' = h_nets H ∧ c_samples C' = c_samples C ∧ c_matches C' = c_matches C ∧ ws = pws H' ∧
    ∀ b, (∀ f, f ∈ c_free C → 0 ≤ snd f ≤ b) → balanced H mx →
      tot_weight H + zsum (snd <$> c_free C) + b ≤ fst mx + snd mx → balanced H' mx)) as Hw.
  { unfold assign_free_vertices. apply wpe_bind, wpe_weights2; [done|]. case_decide as Hz.
    - destruct Hcase as [Hf|]; [|done]. apply wpe_ret. cbn [fst snd]. cbv zeta. split; [done|]. split; [done|].
      split; [exists []; rewrite app_nil_r, Hf; set_solver|]. auto.
    - apply wpe_assign_free_; [done|done|]. intros fs vs H' Hfs Hvs Hok Hr ws' Hbal. cbn [fst snd]. cbv zeta.
      assert (bisected H') as HB'.
      { intros v. rewrite (rv_verts _ _ _ Hr). intros [Hv|Hv]%elem_of_app; [by apply HB|by apply Hok]. }
      split; [apply (rv_cons _ _ _ Hr)|]. split; [done|]. split.
      { exists vs. split; [apply (rv_verts _ _ _ Hr)|]. split; [by rewrite Hvs|]. intros v Hv. by apply Hok. }
      split; [apply (rv_nets _ _ _ Hr)|]. split; [done|]. split; [done|].
      assert (ws' = pws H') as Hpws. { unfold ws'. rewrite (pws_app H H' vs) by apply (rv_verts _ _ _ Hr). done. }
      split; [done|]. intros b Hb [B0 B1] Htot. unfold balanced. change (part_weight H' 0) with (fst (pws H')). change (part_weight H' 1) with (snd (pws H')).
      rewrite <-Hpws. apply (Hbal b); [intros f Hff; apply Hb; by rewrite <-Hfs|done|done|]. rewrite Hfs. simpl. rewrite (bisected_tot H HB). lia. }
  apply wp_run with (w := w) in Hw as ([[C' H'] ws] & w' & Heq & Ho). exists C', H', ws, w'. split; [done|]. exact Ho.
Qed.

Definition c25_H : hg := mk_hg 3 1 [Vertex 2 [] 0 0; Vertex 0 [10] 1 0; Vertex 1 [10] 1 1] [Net 10 [0; 1] 1 2] 2.
Definition c25_opts : options := Opts 5 0 4 2 3 10 20 2 CutNet BisMultilevel SampLP.
Lemma c25_H_pre : klfm_pre c25_H.
Proof. apply klfm_pre_dec; [apply mk_hg_consistent_dec|]; vm_compute; reflexivity. Qed.
(** C25, refuted part.  Whenever the recorded free weight is 0 nothing is put back, although there
    may be free vertices (of weight 0: columns without nonzeros when weights are degrees). *)
Lemma C25_weightless_refuted_proof :
  (∀ C H mx w, bisected H → c_global_free C = 0 → ∃ w', assign_free_vertices C H mx w = Ok ((C, H, pws H), w')) ∧
  ∃ H C' H' w', consistent H ∧ bisected H ∧
    merge_free_vertices new_contraction H w0 = Ok ((C', H'), w') ∧ c_free C' ≠ [] ∧ c_global_free C' = 0.
Proof.
  split.
  - intros C H mx w HB Hz.
    assert (wp (assign_free_vertices C H mx) (λ o, o = (C, H, pws H))) as Hw.
    { unfold assign_free_vertices. apply wpe_bind, wpe_weights2; [done|]. rewrite decide_True by done. by apply wpe_ret. }
    apply wp_run with (w := w) in Hw as (o & w' & Heq & ->). eauto.
  - exists c25_H. eexists _, _, _. split; [exact (kp_cons _ c25_H_pre)|]. split; [apply bisected_dec; vm_compute; reflexivity|].
    split; [vm_compute; reflexivity|]. done.
Qed.

(** C25, refuted part: because of this, uncoarsening to a hypergraph with a weightless free vertex
    fails an assertion: the sample of that vertex is not found in the coarse hypergraph. *)
Lemma C25_uncoarsen_abort_refuted_proof :
  ∃ H opts mx HC C w' L, klfm_pre H ∧ coarsen_seq H new_contraction opts w0 = Ok ((HC, C), w') ∧
    length L = length (h_verts HC) ∧ bisected (relabel HC L) ∧ balanced (relabel HC L) mx ∧
    uncoarsen_seq (relabel HC L) H C opts mx w0 = Err Abort.
Proof.
  exists c25_H, c25_opts, (5, 5).
  assert (match coarsen_seq c25_H new_contraction c25_opts w0 with
    | Ok ((HC, C), _) => bool_decide (length (h_verts HC) = 2%nat ∧ Forall (λ v, v_part v = 0 ∨ v_part v = 1) (h_verts (relabel HC [1; 0])) ∧
        balanced (relabel HC [1; 0]) (5, 5)) &&
        match uncoarsen_seq (relabel HC [1; 0]) c25_H C c25_opts (5, 5) w0 with Err Abort => true | _ => false end
    | Err _ => false end = true) as Hb by (vm_compute; reflexivity).
  destruct (coarsen_seq c25_H new_contraction c25_opts w0) as [[[HC C] w']|]; [|done].
  apply andb_prop in Hb as [(Hl & Hbi & Hba)%bool_decide_eq_true Hu]. rewrite Forall_forall in Hbi.
  exists HC, C, w', [1; 0]. split; [exact c25_H_pre|]. split; [done|]. split; [done|]. split; [exact Hbi|]. split; [done|].
  destruct (uncoarsen_seq _ _ _ _ _ _) as [|[]]; done.
Qed.

Example C25_example :
  let C := Contr [] [] [(7, 2); (8, 3); (9, 1)] 6 6 in
  consistent klH ∧ bisected klH ∧ NoDup ((v_id <$> h_verts klH) ++ (fst <$> c_free C)) ∧ c_global_free C ≠ 0 ∧ balanced klH (9, 9) ∧
  tot_weight klH + zsum (snd <$> c_free C) + 3 ≤ 9 + 9 ∧
  match assign_free_vertices C klH (9, 9) w0 with
  | Ok ((_, H', ws), _) => ws = (7, 7) ∧ drop 5 (h_verts H') = [Vertex 8 [] 3 0; Vertex 7 [] 2 1; Vertex 9 [] 1 1] | Err _ => False end.
Proof.
  cbv zeta. split; [exact (kp_cons _ klH_pre)|]. split; [exact klH_bisected|]. split; [apply (bool_decide_eq_true_1 _); vm_compute; reflexivity|].
  split; [done|]. split; [split; vm_compute; discriminate|]. split; [vm_compute; discriminate|]. vm_compute. split; reflexivity.
Qed.
