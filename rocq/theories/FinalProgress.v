(** C76: sequential coarsening makes progress. *)
From Verif Require Export ProgressProof RoundProof FinalSeqMatch.
Local Open Scope list_scope.
Local Open Scope Z_scope.

(** C76.  For positive net costs, and if clusters may have a match at all, sequential coarsening
    never leaves two neighbours alone: of two vertices with a common net at least one is in a
    cluster with another vertex. *)
Lemma C76_no_two_neighbours_alone_proof : ∀ H opts w, consistent H → positive_costs H → Z.of_nat (length (h_nets H)) ≤ 2 ^ 53 → 1 ≤ o_max_clustersize opts →
  ∃ HC C w', coarsen_seq H new_contraction opts w = Ok ((HC, C), w') ∧
    ∀ a b, a ≠ b → neighbours H a b →
      ¬ ((a, []) ∈ clusters (c_samples C) (c_matches C) ∧ (b, []) ∈ clusters (c_samples C) (c_matches C)).
Proof.
  intros H opts w HC Hpos Hnn Hm. destruct (C75_sequential_matching_proof H opts w HC Hnn) as (K & C & w' & order & m & Heq & Ho & Ht & Hcl).
  exists K, C, w'. split; [exact Heq|]. rewrite Hcl. intros a b Hab (u & v & x & Hu & Hv & <- & <- & Hxu & Hxv) [Ha Hb].
  destruct (turns_alone H _ order _ m HC Hpos Hnn Hm Ht) as [_ Hno]; [apply replicate_length|].
  assert (∀ y, y ∈ h_verts H → (v_id y, []) ∈ clusters_of H order m → ∃ i, i ∈ order ∧ alone m i ∧ h_verts H !! i = Some y) as Hat.
  { intros y Hy (i & Hi & Hx)%elem_of_list_omap. destruct (h_verts H !! i) as [z|] eqn:Hz; [|done].
    destruct (joined_by m !! i) as [ms|] eqn:Hms; [|done]. destruct (has_joined m !! i) as [[]|] eqn:Hj; try done. injection Hx as Hid ->.
    exists i. split; [done|]. split; [done|]. apply elem_of_list_lookup in Hy as [k Hk].
    assert (i = k) as -> by (eapply NoDup_fmap_inj; [apply (co_vid _ HC)|exact Hz|exact Hk|done]). congruence. }
  destruct (Hat u Hu Ha) as (i & Hi & Ai & Hui). destruct (Hat v Hv Hb) as (j & Hj & Aj & Hvj).
  eapply (Hno i j u v x); try done. intros ->. rewrite Hui in Hvj. injection Hvj as ->. done.
Qed.

(** C76.  If moreover some net has two vertices, the coarse hypergraph, even together with the free vertices
    that are set aside, has fewer vertices. *)
Lemma C76_progress_proof : ∀ H opts w, consistent H → positive_costs H → Z.of_nat (length (h_nets H)) ≤ 2 ^ 53 → 1 ≤ o_max_clustersize opts →
  (∃ n, n ∈ h_nets H ∧ (2 ≤ length (n_verts n))%nat) →
  ∃ HC C w', coarsen_seq H new_contraction opts w = Ok ((HC, C), w') ∧ (length (h_verts HC) + length (c_free C) < length (h_verts H))%nat.
Proof.
  intros H opts w HC Hpos Hnn Hm (n & Hn & Hn2).
  destruct (C76_no_two_neighbours_alone_proof H opts w HC Hpos Hnn Hm) as (K & C & w' & Heq & Hno).
  destruct (C23_coarsening_proof H opts w HC) as (K2 & C2 & w2 & Heq2 & _ & Hlen & Hcl & _ & Hids & _). rewrite Heq in Heq2. injection Heq2 as <- <- <-.
  exists K, C, w'. split; [exact Heq|].
  assert (length (h_verts K) + length (c_free C) = length (c_samples C))%nat as ->.
  { apply Permutation_length in Hids. rewrite app_length, !fmap_length in Hids. done. }
  set (cl := clusters (c_samples C) (c_matches C)) in *.
  assert (length (c_samples C) = length cl) as ->.
  { unfold cl, clusters. rewrite zip_with_length, fmap_length. lia. }
  pose proof (Permutation_length Hcl) as Hl. rewrite app_length, !fmap_length in Hl.
  destruct (decide (concat (snd <$> cl) = [])) as [He|He]; cycle 1.
  { destruct (concat (snd <$> cl)); [done|]. simpl in Hl. lia. }
  exfalso. pose proof (co_nverts _ HC n Hn) as Hnd. destruct (n_verts n) as [|a [|b l]] eqn:Ev; [simpl in Hn2; lia..|].
  assert (∀ y, y ∈ n_verts n → (y, []) ∈ cl ∧ ∃ v, v ∈ h_verts H ∧ v_id v = y ∧ n_id n ∈ v_nets v) as Hat.
  { intros y Hy. destruct (co_inc2 _ HC n y Hn Hy) as (v & Hv & Hid & Hin). split; [|by exists v].
    assert (y ∈ v_id <$> h_verts H) as Hyv by (rewrite <-Hid; by apply elem_of_list_fmap_1). unfold clustering in Hcl. rewrite <-Hcl, He, app_nil_r in Hyv.
    apply elem_of_list_fmap in Hyv as ([y' ms] & -> & Hc). cbn [fst]. destruct ms as [|m ms]; [done|]. exfalso.
    assert (m ∈ concat (snd <$> cl)) as Hmem. { apply CoarsenProof.elem_of_concat. exists (m :: ms). split; [left|]. apply elem_of_list_fmap. exists (y', m :: ms). done. }
    rewrite He in Hmem. by apply elem_of_nil in Hmem. }
  rewrite Ev in Hat. destruct (Hat a) as (Ha & va & Hva & Hia & Hna); [left|]. destruct (Hat b) as (Hb & vb & Hvb & Hib & Hnb); [right; left|].
  apply NoDup_cons in Hnd as [Hna' _]. apply (Hno a b); [|by exists va, vb, (n_id n)|done]. intros ->. apply Hna'. left.
Qed.

(** C76.  Progress goes on: the coarse hypergraph meets the conditions again, so that the next round of
    coarsening makes progress as well, as long as any net is left. *)
Lemma C76_next_round_proof : ∀ H opts w, consistent H → positive_costs H → Z.of_nat (length (h_nets H)) ≤ 2 ^ 53 → Z.of_nat (length (h_verts H)) ≤ 2 ^ 53 →
  ∃ HC C w', coarsen_seq H new_contraction opts w = Ok ((HC, C), w') ∧
    consistent HC ∧ positive_costs HC ∧ (length (h_nets HC) ≤ length (h_nets H))%nat ∧ (length (h_verts HC) ≤ length (h_verts H))%nat ∧
    ∀ n, n ∈ h_nets HC → (2 ≤ length (n_verts n))%nat.
Proof.
  intros H opts w HC Hpos Hnn Hvn.
  destruct (C23_coarsening_proof H opts w HC) as (K & C & w' & Heq & HK & Hlen & Hcl & _ & Hids & _ & _ & _ & _ & _ & _ & Hnets & _).
  exists K, C, w'. split; [exact Heq|]. split; [exact HK|].
  assert (length (h_verts K) ≤ length (h_verts H))%nat as Hle.
  { apply Permutation_length in Hids. rewrite app_length, !fmap_length in Hids. pose proof (Permutation_length Hcl) as Hl. rewrite app_length, !fmap_length in Hl.
    unfold clusters in Hl. rewrite zip_with_length, fmap_length in Hl. lia. }
  split; [|split; [|split; [done|]]].
  - intros n Hn H2. destruct (Hnets n Hn) as (_ & Hgs & m & Hm & Hid & Hcost & Hmap).
    assert (length (n_verts n) ≤ length (n_verts m))%nat as Hlm.
    { rewrite <-(fmap_length (rep (clusters (c_samples C) (c_matches C))) (n_verts m)). apply submseteq_length, NoDup_submseteq; [by apply (co_nverts _ HK)|].
      intros u Hu. apply Hmap in Hu as (x & Hx & <-). by apply elem_of_list_fmap_1. }
    assert (length (n_verts n) ≤ length (h_verts K))%nat as Hlv.
    { rewrite <-(fmap_length v_id (h_verts K)). apply submseteq_length, NoDup_submseteq; [by apply (co_nverts _ HK)|].
      intros u Hu. destruct (co_inc2 _ HK n u Hn Hu) as (v & Hv & <- & _). by apply elem_of_list_fmap_1. }
    destruct (Hpos m Hm ltac:(lia)) as [Hc _]. rewrite <-Hcost, Hgs. split; [done|lia].
  - rewrite <-(fmap_length n_id (h_nets K)), <-(fmap_length n_id (h_nets H)). apply submseteq_length, NoDup_submseteq; [apply (co_nid _ HK)|].
    intros x (n & -> & Hn)%elem_of_list_fmap. destruct (Hnets n Hn) as (_ & _ & m & Hm & <- & _). by apply elem_of_list_fmap_1.
  - intros n Hn. apply (Hnets n Hn).
Qed.

(** C76.  One round of the multilevel method, which first merges duplicate nets: the coarse hypergraph,
    even together with the free vertices that are set aside, has fewer vertices than before. *)
Lemma C76_round_proof : ∀ H opts w, consistent H → small_costs H → positive_costs H → Z.of_nat (length (h_nets H)) ≤ 2 ^ 53 → 1 ≤ o_max_clustersize opts →
  (∃ n, n ∈ h_nets H ∧ (2 ≤ length (n_verts n))%nat) →
  ∃ HC C w', (H1 <- simplify_duplicate_nets H ;; coarsen_seq H1 new_contraction opts) w = Ok ((HC, C), w') ∧
    (length (h_verts HC) + length (c_free C) < length (h_verts H))%nat.
Proof.
  intros H opts w HC Hsm Hpos Hnn Hm Hnet.
  assert (wp (simplify_duplicate_nets H) (simplified H)) as Hw by (apply wpe_simplify; [done|]; auto).
  apply wp_run with (w := w) in Hw as (H1 & w1 & Heq & HS).
  assert (length (h_nets H1) ≤ length (h_nets H))%nat as Hln.
  { rewrite (Permutation_length (si_nets _ _ HS)), fmap_length. etransitivity; [apply filter_length|]. cbn. by rewrite fmap_length. }
  destruct (C76_progress_proof H1 opts w1) as (K & C & w' & Heq2 & Hlt);
    [apply (si_consistent _ _ HS)|by eapply simplify_positive|lia|done|by eapply simplify_keeps_net|].
  exists K, C, w'. split; [unfold bind; rewrite Heq; exact Heq2|]. by rewrite (Forall2_length _ _ _ (si_verts _ _ HS)).
Qed.

Lemma concat_length_bound (cl : list (Z * list Z)) m : (∀ c, c ∈ cl → Z.of_nat (length (snd c)) ≤ m) → Z.of_nat (length (concat (snd <$> cl))) ≤ m * Z.of_nat (length cl).
Proof.
  induction cl as [|c cl IH]; intros Hm; [simpl; lia|]. rewrite fmap_cons, concat_cons, app_length. cbn [length].
  pose proof (Hm c ltac:(left)). pose proof (IH ltac:(intros c' Hc'; apply Hm; by right)). lia.
Qed.
(** C76.  The other bound: a round keeps at least one vertex of max_cluster_size + 1, counting the free
    vertices set aside, whatever the costs and sizes of the nets. *)
Lemma C76_not_too_fast_proof : ∀ H opts w, consistent H →
  ∃ HC C w', coarsen_seq H new_contraction opts w = Ok ((HC, C), w') ∧
    Z.of_nat (length (h_verts H)) ≤ (1 + Z.max 0 (o_max_clustersize opts)) * Z.of_nat (length (h_verts HC) + length (c_free C)).
Proof.
  intros H opts w HC. destruct (C23_coarsening_proof H opts w HC) as (K & C & w' & Heq & _ & Hlen & Hcl & Hsz & Hids & _).
  exists K, C, w'. split; [exact Heq|]. set (cl := clusters (c_samples C) (c_matches C)) in *.
  assert (length (h_verts K) + length (c_free C) = length cl)%nat as ->.
  { apply Permutation_length in Hids. rewrite app_length, !fmap_length in Hids. unfold cl, clusters. rewrite zip_with_length, fmap_length. lia. }
  pose proof (Permutation_length Hcl) as Hl. rewrite app_length, !fmap_length in Hl.
  pose proof (concat_length_bound cl (Z.max 0 (o_max_clustersize opts)) ltac:(intros c Hc; by apply Hsz)). lia.
Qed.

Example C76_example : consistent klH ∧ small_costs klH ∧ positive_costs klH ∧ Z.of_nat (length (h_nets klH)) ≤ 2 ^ 53 ∧ Z.of_nat (length (h_verts klH)) ≤ 2 ^ 53 ∧ 1 ≤ o_max_clustersize kl_opts ∧
  (∃ n, n ∈ h_nets klH ∧ (2 ≤ length (n_verts n))%nat) ∧
  match coarsen_seq klH new_contraction kl_opts (tape_of [0; 1; 1; 0; 1; 3; 1; 2; 7]) with
  | Ok ((HC, C), _) => length (h_verts HC) = 2%nat | Err _ => False end.
Proof.
  split; [exact (kp_cons _ klH_pre)|]. split; [vm_compute; reflexivity|]. split; [exact klH_positive|]. split; [vm_compute; discriminate|]. split; [vm_compute; discriminate|]. split; [vm_compute; discriminate|].
  split; [exists (Net 10 [0; 1] 1 2); split; [left|simpl; auto]|]. vm_compute. reflexivity.
Qed.

(** with recorded sizes 0, as in gathered hypergraphs (C58) *)
Definition sizelessH : hg := mk_hg 5 5 kl_verts ((λ n, Net (n_id n) (n_verts n) (n_cost n) 0) <$> kl_nets) 11.
(** The recorded sizes matter: with sizes 0, as left by gathering (C58), nothing is joined. *)
Example C76_sizes_matter :
  match coarsen_seq sizelessH new_contraction kl_opts (tape_of [0; 1; 1; 0; 1; 3; 1; 2; 7]) with
  | Ok ((HC, C), _) => length (h_verts HC) = length (h_verts sizelessH) ∧ forallb (λ c : Z * list Z, bool_decide (snd c = [])) (clusters (c_samples C) (c_matches C)) = true | Err _ => False end.
Proof. vm_compute. split; reflexivity. Qed.
