(** Proofs about create_new_hypergraph and multilevel bisection with one processor. *)
From Verif Require Export SpecBisect SpecBalance Bisect ParCut UncoarsenProof FinalCoarsen.

Lemma wpe_of_run {A} E (m : M A) (Q : A → Prop) : (∀ w, ∃ a w', m w = Ok (a, w') ∧ Q a) → wpe E m Q.
Proof. intros Hm w. destruct (Hm w) as (a & w' & -> & HQ). exact HQ. Qed.

Lemma filter_unique_id {A} (f : A → Z) (l : list A) x : NoDup (f <$> l) → x ∈ l → filter (λ y, f y = f x) l = [x].
Proof.
  intros Hnd (l1 & l2 & ->)%elem_of_list_split. rewrite fmap_app in Hnd. csimpl in Hnd. apply NoDup_app in Hnd as (_ & Hd & Hnd).
  apply NoDup_cons in Hnd as [Hx _]. rewrite filter_app, filter_cons, decide_True by done.
  assert (∀ l', (∀ y, y ∈ l' → f y ≠ f x) → filter (λ y, f y = f x) l' = []) as Hf.
  { clear. intros l'. induction l' as [|y l' IH]; intros Hl; [done|]. rewrite filter_cons, decide_False by (apply Hl; set_solver). apply IH. set_solver. }
  rewrite !Hf; [done|..].
  - intros y Hy Heq. apply Hx. rewrite <-Heq. by apply elem_of_list_fmap_1.
  - intros y Hy Heq. apply (Hd (f y)); [by apply elem_of_list_fmap_1|]. rewrite Heq. left.
Qed.

(** ** create_new_hypergraph *)
Definition fill (vs : list vertex) (n : net) : net := Net (n_id n) (v_id <$> filter (λ v, n_id n ∈ v_nets v) vs) 1 0.
Definition sub_hg (H : hg) (vs : list vertex) : hg := mk_hg 0 (h_gnets H) vs (fill vs <$> h_nets H) 0.
Definition range (H : hg) (st en : Z) : list vertex := take (Z.to_nat (en - st)) (drop (Z.to_nat st) (h_verts H)).

Lemma range_split H st en : h_verts H = take (Z.to_nat st) (h_verts H) ++ range H st en ++ drop (Z.to_nat (en - st)) (drop (Z.to_nat st) (h_verts H)).
Proof. unfold range. by rewrite take_drop, take_drop. Qed.
Lemma range_sub H st en v : v ∈ range H st en → v ∈ h_verts H.
Proof. intros Hv. rewrite (range_split H st en). set_solver. Qed.
Lemma range_nodup H st en : NoDup (vids H) → NoDup (v_id <$> range H st en).
Proof. unfold vids. rewrite (range_split H st en), !fmap_app. intros (_ & _ & (? & _)%NoDup_app)%NoDup_app. done. Qed.

Lemma wpe_create_new_local E H st en (Q : hg → Prop) : consistent H → 0 ≤ st ≤ en → en ≤ Z.of_nat (length (h_verts H)) →
  Q (sub_hg H (range H st en)) → wpe E (create_new_local H st en) Q.
Proof.
  intros HC Hst Hen HQ. unfold create_new_local. apply wpe_bind, wpe_guard; [by rewrite bool_decide_true|].
  cbv zeta. fold (range H st en). apply wpe_bind.
  eapply (wpe_foldM E _ (λ ds ns, ns = fill ds <$> h_nets H)); [done| |].
  2: { intros ns ->. apply wpe_ret. exact HQ. }
  intros ds v ts ns Heq ->.
  assert (v ∈ h_verts H) as Hv by (apply (range_sub H st en); rewrite Heq; set_solver).
  eapply (wpe_foldM E _ (λ nds ns, ns = (λ n, if decide (n_id n ∈ nds) then n_add_vertex (v_id v) (fill ds n) else fill ds n) <$> h_nets H)).
  - apply list_fmap_ext. intros i n _. by rewrite decide_False by set_solver.
  - intros nds nid nts ns Hnets ->.
    assert (nid ∈ v_nets v) as Hnid by (rewrite Hnets; set_solver).
    destruct (co_inc1 _ HC _ _ Hv Hnid) as (n & Hn & <- & Hvn).
    pose proof Hn as [k Hk]%elem_of_list_lookup.
    assert (n_id n ∉ nds) as Hds.
    { pose proof (co_vnets _ HC _ Hv) as Hnd. rewrite Hnets in Hnd.
      apply NoDup_app in Hnd as (_ & Hnd & _). intros Hds. apply (Hnd _ Hds). set_solver. }
    apply wpe_bind. eapply wpe_local_id_net; [by apply co_nmap_ok|done|].
    apply wpe_bind. eapply wpe_nidx; [by rewrite list_lookup_fmap, Hk|]. apply wpe_ret.
    apply list_eq. intros j. destruct (decide (j = k)) as [->|Hne].
    + rewrite list_lookup_alter, !list_lookup_fmap, Hk. simpl. f_equal.
      rewrite decide_False by done. rewrite decide_True by set_solver. done.
    + rewrite list_lookup_alter_ne, !list_lookup_fmap by done.
      destruct (h_nets H !! j) as [m|] eqn:Hj; [|done]. simpl. f_equal.
      assert (n_id m ≠ n_id n).
      { intros Hid'. apply Hne. eapply NoDup_fmap_inj; [apply (co_nid _ HC)|done..]. }
      destruct (decide (n_id m ∈ nds)); [rewrite decide_True by set_solver|rewrite decide_False by set_solver]; done.
  - intros ns ->. apply list_fmap_ext. intros i n Hi. unfold fill, n_add_vertex. simpl.
    rewrite filter_app, filter_cons. destruct (decide (n_id n ∈ v_nets v)).
    + by rewrite fmap_app.
    + by rewrite app_nil_r.
Qed.

Lemma sub_consistent H vs : consistent H → NoDup (v_id <$> vs) → (∀ v, v ∈ vs → v ∈ h_verts H) → consistent (sub_hg H vs).
Proof.
  intros HC Hnd Hsub. apply mk_hg_consistent.
  - done.
  - rewrite <-list_fmap_compose. erewrite list_fmap_ext; [apply (co_nid _ HC)|done].
  - intros v Hv. by apply (co_vnets _ HC), Hsub.
  - intros n' (n & -> & Hn)%elem_of_list_fmap. simpl. by apply NoDup_ids_filter.
  - intros v nid Hv Hnid. destruct (co_inc1 _ HC _ _ (Hsub v Hv) Hnid) as (n & Hn & <- & Hin).
    eexists. split; [by apply elem_of_list_fmap_1|]. split; [done|]. simpl. apply elem_of_list_fmap_1, elem_of_list_filter. done.
  - intros n' vid (n & -> & Hn)%elem_of_list_fmap Hvid. simpl in *. apply elem_of_list_fmap in Hvid as (v & -> & [? ?]%elem_of_list_filter). eauto.
Qed.

(** what create_new_hypergraph returns for the vertices [vs] *)
Record reduced (H : hg) (vs : list vertex) (R : hg) : Prop := {
  rd_cons : consistent R;
  rd_verts : Forall2 (λ v v', v_id v' = v_id v ∧ v_weight v' = v_weight v) vs (h_verts R);
  rd_nets : ∀ n, n ∈ h_nets R → (2 ≤ length (n_verts n))%nat ∧ n_id n ∈ nids H;
  rd_gsize : h_gsize R = Z.of_nat (length vs);
  rd_gnets : h_gnets R = h_gnets H;
}.

Lemma wpe_create_new1 bp E H st en (Q : list hg → Prop) : lawful_family bp → consistent H →
  0 ≤ h_gnets H → (∀ n, n ∈ h_nets H → 0 ≤ n_id n < h_gnets H) →
  0 ≤ st ≤ en → en ≤ Z.of_nat (length (h_verts H)) →
  (∀ R, reduced H (range H st en) R → Q [R]) → wpe E (create_new bp [(H, (st, en))]) Q.
Proof.
  intros Hbp HC Hgn Hid Hst Hen HQ. unfold create_new. apply wpe_bind. unfold mapP. cbn [fst snd].
  apply wpe_bind, wpe_create_new_local; [done..|]. apply wpe_bind, wpe_ret, wpe_ret.
  set (vs := range H st en). set (X := with_gsize (Z.of_nat (length vs)) (sub_hg H vs)).
  assert (recompute_global_size [sub_hg H vs] = [X]) as ->.
  { unfold recompute_global_size, bulk_sum, X. simpl. done. }
  assert (consistent X) as HX.
  { apply with_gsize_consistent, sub_consistent; [done|apply range_nodup, (co_vid _ HC)|apply range_sub]. }
  assert (distributed (h_gnets H) [X]) as HD.
  { split.
    - intros ? ->%elem_of_list_singleton. done.
    - intros ? ->%elem_of_list_singleton. done.
    - unfold all_verts. simpl. rewrite app_nil_r. apply (co_vid _ HX).
    - unfold all_nets. simpl. rewrite app_nil_r. intros n (m & -> & Hm)%elem_of_list_fmap. simpl. by apply Hid.
    - unfold all_nets. simpl. rewrite app_nil_r. intros n n' (m & -> & Hm)%elem_of_list_fmap (m' & -> & Hm')%elem_of_list_fmap. done. }
  eapply (wpe_remove_free_nets_par bp Hbp (h_gnets H) [X] HD Hgn ltac:(done)). intros Hs' Hlen HR.
  destruct Hs' as [|R [|? ?]]; [done| |done]. destruct (HR 0%nat X R eq_refl eq_refl) as [HS HCR]. apply HQ.
  assert (∀ n, n ∈ h_nets X → gsize [X] (n_id n) = Z.of_nat (length (n_verts n))) as Hgs.
  { intros n Hn. unfold gsize, gverts, pieces. assert (all_nets [X] = h_nets X) as -> by (unfold all_nets; simpl; by rewrite app_nil_r). f_equal.
    rewrite (filter_unique_id n_id (h_nets X) n); [|apply (co_nid _ HX)|done]. simpl. by rewrite app_nil_r. }
  split.
  - done.
  - eapply Forall2_impl; [exact (sr_verts _ _ _ _ HS)|]. intros v v' (? & ? & _). done.
  - intros n. rewrite (sr_nets _ _ _ _ HS). intros (m & -> & [[Hm _] Hin]%elem_of_list_filter)%elem_of_list_fmap. simpl.
    rewrite Hgs in Hm by done. split; [lia|]. apply elem_of_list_fmap in Hin as (n0 & -> & Hn0). apply nids_elem. by exists n0.
  - rewrite (sr_gsize _ _ _ _ HS). done.
  - rewrite (sr_gnets _ _ _ _ HS). done.
Qed.

(** ** Multilevel rounds *)
Record ml_ok (H : hg) : Prop := {
  mo_pre : klfm_pre H;
  mo_weight : ∀ v, v ∈ h_verts H → 0 < v_weight v;
  mo_nets : ∀ n, n ∈ h_nets H → (2 ≤ length (n_verts n))%nat;
  mo_cost : zsum (n_cost <$> h_nets H) < 2147483648;
  mo_dups : h_dups H = [];
  mo_tot : tot_weight H < long_max;
}.

Lemma nonneg_small_costs H : (∀ n, n ∈ h_nets H → 0 ≤ n_cost n) → zsum (n_cost <$> h_nets H) < 2147483648 → small_costs H.
Proof.
  intros Hc Ht. unfold small_costs. rewrite (zsum_fmap_ext _ n_cost); [done|]. intros n Hn. specialize (Hc n Hn). lia.
Qed.
Lemma simplified_total H H' : consistent H → small_costs H → simplified H H' → zsum (n_cost <$> h_nets H') = zsum (n_cost <$> h_nets H).
Proof.
  intros HC Hsm HS. pose proof (simplified_zsum H H' (λ _, 1) HC Hsm HS) as Hz. simpl in Hz. rewrite <-list_fmap_compose in Hz.
  transitivity (zsum ((λ n, n_cost n * 1) <$> h_nets H')); [apply zsum_fmap_ext; intros; lia|]. rewrite Hz. apply zsum_fmap_ext. intros. simpl. lia.
Qed.
Lemma simplified_cost_nonneg H H' n : consistent H → small_costs H → (∀ n, n ∈ h_nets H → 0 ≤ n_cost n) → simplified H H' → n ∈ h_nets H' → 0 ≤ n_cost n.
Proof.
  intros HC Hsm Hc HS Hn. rewrite (si_nets _ _ HS) in Hn. apply elem_of_list_fmap in Hn as (m & -> & [Hk Hm]%elem_of_list_filter).
  apply small_costs_sort in Hsm. assert (∀ n, n ∈ h_nets (sort_vertices H) → 0 ≤ n_cost n) as Hc'.
  { simpl. intros x (y & -> & Hy)%elem_of_list_fmap. simpl. by apply Hc. }
  unfold merged. case_decide; [|by apply Hc']. simpl. rewrite dup_maps_cost by done. unfold class_cost. apply zsum_nonneg.
  intros x (y & -> & [_ Hy]%elem_of_list_filter)%elem_of_list_fmap. by apply Hc'.
Qed.
Lemma Forall2_ids_weights vs vs' : Forall2 (λ v v', v_id v' = v_id v ∧ v_weight v' = v_weight v) vs vs' → idw <$> vs' = idw <$> vs.
Proof. induction 1 as [|v v' vs vs' [E1 E2] _ IH]; [done|]. csimpl. rewrite IH. unfold idw. by rewrite E1, E2. Qed.
Lemma idw_weights (vs vs' : list vertex) : idw <$> vs' = idw <$> vs → v_weight <$> vs' = v_weight <$> vs.
Proof. intros Hv. change v_weight with (snd ∘ idw). by rewrite !list_fmap_compose, Hv. Qed.
Lemma idw_ids' (vs vs' : list vertex) : idw <$> vs' = idw <$> vs → v_id <$> vs' = v_id <$> vs.
Proof. intros Hv. change v_id with (fst ∘ idw). by rewrite !list_fmap_compose, Hv. Qed.

(** properties of vertices that only depend on id and weight *)
Lemma idw_all (P : Z → Z → Prop) (l : list (Z * Z)) (vs : list vertex) : (∀ id w, (id, w) ∈ l → P id w) → (∀ x, x ∈ idw <$> vs → x ∈ l) →
  ∀ v, v ∈ vs → P (v_id v) (v_weight v).
Proof. intros HP Hs v Hv. apply HP, Hs. by apply (elem_of_list_fmap_1 idw). Qed.

Lemma simplified_ok H H' : ml_ok H → simplified H H' → klfm_pre H' ∧ zsum (n_cost <$> h_nets H') < 2147483648 ∧
  (∀ n, n ∈ h_nets H' → (2 ≤ length (n_verts n))%nat) ∧ idw <$> h_verts H' = idw <$> h_verts H.
Proof.
  intros [Hpre Hw Hn Hc Hd Ht] HS. pose proof (kp_cons _ Hpre) as HC. pose proof (nonneg_small_costs H (kp_cost _ Hpre) Hc) as Hsm.
  assert (idw <$> h_verts H' = idw <$> h_verts H) as Hidw.
  { apply Forall2_ids_weights. eapply Forall2_impl; [apply (si_verts _ _ HS)|]. intros v v' (? & ? & _). done. }
  split_and!; [|by rewrite (simplified_total H)| |done].
  - split.
    + apply (si_consistent _ _ HS).
    + intros v Hv. apply (idw_all (λ id _, id ≠ -1) (idw <$> h_verts H) (h_verts H')); [|by rewrite Hidw|done].
      intros id w (u & [= -> ->] & Hu)%elem_of_list_fmap. by apply (kp_ids _ Hpre).
    + intros n Hn'. by apply (simplified_cost_nonneg H H' n HC Hsm (kp_cost _ Hpre) HS).
    + rewrite (simplified_total H) by done. lia.
    + intros v Hv. apply (idw_all (λ _ w, 0 ≤ w) (idw <$> h_verts H) (h_verts H')); [|by rewrite Hidw|done].
      intros id w (u & [= -> ->] & Hu)%elem_of_list_fmap. by apply (kp_weight _ Hpre).
  - intros n' Hn'. destruct (simplified_subset H H' n' HS Hn') as (n & Hn0 & _ & Hp & _). rewrite Hp. by apply Hn.
Qed.

Lemma total_cost_cut H : consistent H → (∀ n, n ∈ h_nets H → (2 ≤ length (n_verts n))%nat) →
  zsum (n_cost <$> h_nets H) = cut_net_size (net_list H) id.
Proof.
  intros HC Hn. unfold cut_net_size, net_list. rewrite <-list_fmap_compose. apply zsum_fmap_ext. intros n Hin. simpl.
  rewrite decide_True; [done|]. apply lambda_gt_1. pose proof (Hn n Hin) as Hl. pose proof (co_nverts _ HC n Hin) as Hnd.
  destruct (n_verts n) as [|a [|b l]]; [simpl in Hl; lia..|]. exists a, b. apply NoDup_cons in Hnd as [Hab _]. split; [set_solver|]. split; [set_solver|].
  unfold id. intros ->. apply Hab. left.
Qed.
Lemma cut_le_total H σ : (∀ n, n ∈ h_nets H → 0 ≤ n_cost n) → cut_net_size (net_list H) σ ≤ zsum (n_cost <$> h_nets H).
Proof.
  intros Hc. unfold cut_net_size, net_list. rewrite <-list_fmap_compose. apply zsum_fmap_le.
  intros n Hn. simpl. specialize (Hc n Hn). case_decide; lia.
Qed.

Lemma contracted_weights_pos H cl HC free : consistent H → clustering H cl → contracted H cl HC free →
  (∀ v, v ∈ h_verts H → 0 < v_weight v) → ∀ id w, (id, w) ∈ (idw <$> h_verts HC) ++ free → 0 < w ∧ id ∈ vids H.
Proof.
  intros HCo Hcl Hcd Hw id w Hin. assert (id ∈ fst <$> cl) as Hid.
  { rewrite <-(cd_ids _ _ _ _ Hcd). apply (elem_of_list_fmap_1 fst) in Hin. rewrite fmap_app, <-list_fmap_compose in Hin. exact Hin. }
  apply elem_of_list_fmap in Hid as (c & -> & Hc). destruct (clustering_sub H cl c Hcl Hc) as [Hf _]. split; [|done].
  rewrite (cd_weights _ _ _ _ Hcd _ _ Hin). apply vids_elem in Hf as (v & Hv & Hvc).
  assert (v_weight v ≤ zsum ((λ u, if decide (rep cl (v_id u) = fst c) then v_weight u else 0) <$> h_verts H)) as Hle; [|specialize (Hw v Hv); lia].
  apply zsum_elem_le.
  - intros y (u & -> & Hu)%elem_of_list_fmap. specialize (Hw u Hu). case_decide; lia.
  - apply elem_of_list_fmap. exists v. split; [|done]. rewrite decide_True; [done|]. rewrite Hvc. apply (rep_spec H); [done|done|done|by left].
Qed.

Lemma contracted_tot H cl HC free : contracted H cl HC free → tot_weight HC + zsum (snd <$> free) = tot_weight H.
Proof.
  intros Hcd. pose proof (cd_weight _ _ _ _ Hcd (λ _, 0) 0) as Hw. unfold assigned_weight in Hw. simpl in Hw. unfold tot_weight.
  change (zsum (_ <$> [])) with 0 in Hw. rewrite Z.add_0_r in Hw. exact Hw.
Qed.

Lemma contracted_ok H cl HC free : klfm_pre H → (∀ v, v ∈ h_verts H → 0 < v_weight v) → zsum (n_cost <$> h_nets H) < 2147483648 →
  tot_weight H < long_max → clustering H cl → contracted H cl HC free → ml_ok HC.
Proof.
  intros Hpre Hw Hc Ht Hcl Hcd. pose proof (kp_cons _ Hpre) as HCo. pose proof (contracted_weights_pos H cl HC free HCo Hcl Hcd Hw) as Hpos.
  assert (∀ v, v ∈ h_verts HC → 0 < v_weight v ∧ v_id v ∈ vids H) as Hv.
  { intros v Hv. apply Hpos. apply elem_of_app. left. by apply (elem_of_list_fmap_1 idw). }
  assert (∀ n, n ∈ h_nets HC → 0 ≤ n_cost n) as Hcn.
  { intros n Hn. destruct (cd_nets _ _ _ _ Hcd n Hn) as (_ & _ & m & Hm & _ & <- & _). by apply (kp_cost _ Hpre). }
  assert (∀ n, n ∈ h_nets HC → (2 ≤ length (n_verts n))%nat) as Hn2 by (intros n Hn; by apply (cd_nets _ _ _ _ Hcd)).
  assert (zsum (n_cost <$> h_nets HC) ≤ zsum (n_cost <$> h_nets H)) as Hle.
  { rewrite (total_cost_cut HC (cd_cons _ _ _ _ Hcd) Hn2). destruct (cd_cut _ _ _ _ Hcd id) as [-> _]. apply cut_le_total, (kp_cost _ Hpre). }
  split.
  - split; [apply (cd_cons _ _ _ _ Hcd)| |done|pose proof (kp_total _ Hpre); lia|].
    + intros v Hin. destruct (Hv v Hin) as [_ (u & Hu & <-)%vids_elem]. by apply (kp_ids _ Hpre).
    + intros v Hin. destruct (Hv v Hin). lia.
  - intros v Hin. by apply Hv.
  - done.
  - lia.
  - apply (cd_dups _ _ _ _ Hcd).
  - pose proof (contracted_tot _ _ _ _ Hcd). assert (0 ≤ zsum (snd <$> free)); [|lia]. apply zsum_nonneg.
    intros x ([id w] & -> & Hf)%elem_of_list_fmap. simpl. destruct (Hpos id w); [set_solver|lia].
Qed.

(** all free vertices come back *)
Lemma wpe_assign_free E C H mx (Q : contraction * hg * (Z * Z) → Prop) :
  consistent H → bisected H → NoDup (vids H ++ (fst <$> c_free C)) → (∀ f, f ∈ c_free C → 0 < snd f) →
  c_global_free C = zsum (snd <$> c_free C) →
  (∀ C' H', consistent H' → bisected H' → idw <$> h_verts H' ≡ₚ (idw <$> h_verts H) ++ c_free C → h_nets H' = h_nets H →
     (∀ b, (∀ f, f ∈ c_free C → snd f ≤ b) → balanced H mx → tot_weight H + zsum (snd <$> c_free C) + b ≤ fst mx + snd mx → balanced H' mx) →
     Q (C', H', pws H')) →
  wpe E (assign_free_vertices C H mx) Q.
Proof.
  intros HC HB Hnd Hpos Hgf HQ. unfold assign_free_vertices. apply wpe_bind, wpe_weights2; [done|]. case_decide as Hz.
  - assert (c_free C = []) as Hf.
    { destruct (c_free C) as [|f l] eqn:Hl; [done|]. exfalso. rewrite Hgf in Hz. csimpl in Hz. rewrite zsum_cons in Hz.
      assert (0 ≤ zsum (snd <$> l)) by (apply zsum_nonneg; intros x (g & -> & Hg)%elem_of_list_fmap; assert (0 < snd g) by (apply Hpos; by right); lia).
      assert (0 < snd f) by (apply Hpos; left). lia. }
    apply wpe_ret. apply HQ; [done|done| |done|by intros]. by rewrite Hf, app_nil_r.
  - apply wpe_assign_free_; [done|done|]. intros fs vs H' Hfs Hvs Hok Hr ws' Hbal.
    assert (ws' = pws H') as ->. { unfold ws'. rewrite (pws_app H H' vs) by apply (rv_verts _ _ _ Hr). done. }
    apply HQ.
    + apply (rv_cons _ _ _ Hr).
    + intros v. rewrite (rv_verts _ _ _ Hr). intros [Hv|Hv]%elem_of_app; [by apply HB|by apply Hok].
    + rewrite (rv_verts _ _ _ Hr), fmap_app. f_equiv. by rewrite <-Hfs, <-Hvs.
    + apply (rv_nets _ _ _ Hr).
    + intros b Hb [B1 B2] Hroom. destruct (Hbal b) as [B3 B4]; [|done|done| |by split].
      * intros f Hf. rewrite Hfs in Hf. specialize (Hb f Hf). specialize (Hpos f Hf). lia.
      * rewrite Hfs. cbn [fst snd pws]. rewrite (bisected_tot H HB). done.
Qed.

Lemma wpe_uncoarsen_seq E K H cl HC free t opts mx (Q : hg * Z → Prop) :
  klfm_pre H → (∀ v, v ∈ h_verts H → 0 < v_weight v) → clustering H cl → contracted H cl HC free → t = zsum (snd <$> free) →
  consistent K → bisected K → idw <$> h_verts K = idw <$> h_verts HC →
  (∀ H2 cut, same_shape H H2 → bisected H2 → cut = cut_net H2 →
     (∀ b, (∀ f, f ∈ free → snd f ≤ b) → balanced K mx → tot_weight H + b ≤ fst mx + snd mx → balanced H2 mx) → Q (H2, cut)) →
  wpe E (uncoarsen_seq K H (contraction_of cl free t t) opts mx) Q.
Proof.
  intros Hpre Hw Hcl Hcd Ht HK HB Hidw HQ. pose proof (kp_cons _ Hpre) as HCo. unfold uncoarsen_seq.
  pose proof (contracted_weights_pos H cl HC free HCo Hcl Hcd Hw) as Hpos.
  apply wpe_bind, wpe_assign_free; [done|done| | |done|].
  { unfold vids. rewrite (idw_ids' _ _ Hidw). cbn [c_free contraction_of]. rewrite (cd_ids _ _ _ _ Hcd). by apply (clustering_nodup H). }
  { intros [id w] Hf. cbn [c_free contraction_of snd] in *. apply (Hpos id w). set_solver. }
  intros C' K' HK' HB' Hp _ Hbal. cbn [fst snd c_free contraction_of] in *. rewrite Hidw in Hp.
  assert (vids K' ≡ₚ fst <$> cl) as Hids.
  { rewrite <-(cd_ids _ _ _ _ Hcd). unfold vids. change v_id with (fst ∘ idw). rewrite !list_fmap_compose, Hp, fmap_app. done. }
  apply wpe_bind. eapply wpe_uncoarsen; [done|done|done|done|done|done|].
  set (H' := lab H (λ u, part_of K' (rep cl u))).
  assert (∀ u, u ∈ vids H → part_of H' u = part_of K' (rep cl u)) as Hpo by (intros u Hu; exact (lab_part_of H _ u HCo Hu)).
  assert (consistent H') as HC' by (by apply lab_consistent).
  assert (bisected H') as HBH'.
  { intros v (u & -> & Hu)%elem_of_list_fmap. simpl.
    assert (v_id u ∈ vids H) as (c & Hc & Huc)%(clustering_elem H cl _ Hcl) by (apply vids_elem; eauto).
    rewrite (rep_spec H cl c) by done. assert (fst c ∈ vids K') as (x & Hx & <-)%vids_elem by (rewrite Hids; by apply elem_of_list_fmap_1).
    rewrite part_of_elem by (done || apply (co_vid _ HK')). by apply HB'. }
  assert (same_shape H H') as Hsh.
  { split; try done; simpl; [|by apply HgOps.Forall2_refl]. rewrite Forall2_fmap_r. by apply HgOps.Forall2_refl. }
  assert (∀ p, part_weight H' p = part_weight K' p) as Hpw.
  { intros p. rewrite (part_weight_assigned K' p HK'), (part_weight_assigned H' p) by done.
    assert (assigned_weight K' [] (part_of K') p = assigned_weight HC free (part_of K') p) as -> by (by rewrite !assigned_idw, app_nil_r, Hp).
    rewrite (cd_weight _ _ _ _ Hcd), !assigned_idw, !app_nil_r, <-!list_fmap_compose. unfold H' at 2, lab at 1. simpl. rewrite <-list_fmap_compose.
    apply zsum_fmap_ext. intros v Hv. simpl. unfold fidw. simpl. fold (lab H (λ u, part_of K' (rep cl u))). fold H'.
    rewrite Hpo by (by apply elem_of_list_fmap_1). done. }
  apply wpe_bind, wpe_init_counts; [done|done|]. intros Cs HCs. apply wpe_bind. eapply wpe_klfm.
  - by eapply klfm_pre_shape.
  - done.
  - done.
  - unfold pws. by rewrite !Hpw.
  - by left.
  - intros o Hk Hcut _ Hlim. apply wpe_ret. apply HQ; [|apply Hk|done|]; [eapply same_shape_trans; [exact Hsh|apply Hk]|].
    intros b Hb HBK Hroom. destruct (Hbal b) as [B1 B2]; [done|done| |].
    + unfold tot_weight at 1. rewrite (idw_weights _ _ Hidw). fold (tot_weight HC). rewrite (contracted_tot _ _ _ _ Hcd). done.
    + pose proof (Hlim 0 ltac:(by left)) as L1. pose proof (Hlim 1 ltac:(by right)) as L2. rewrite Hpw in L1, L2. unfold balanced, sel in *. simpl in *. lia.
Qed.

(** the weight of a cluster *)
Lemma cluster_weight H cl HC free m b : consistent H → clustering H cl → contracted H cl HC free → weights_below H b → 0 ≤ b →
  (∀ c, c ∈ cl → Z.of_nat (length (snd c)) ≤ m) → ∀ id w, (id, w) ∈ (idw <$> h_verts HC) ++ free → w ≤ b * (m + 1).
Proof.
  intros HCo Hcl Hcd Hw Hb Hm id w Hin. rewrite (cd_weights _ _ _ _ Hcd _ _ Hin).
  assert (id ∈ fst <$> cl) as (c & -> & Hc)%elem_of_list_fmap.
  { rewrite <-(cd_ids _ _ _ _ Hcd). apply (elem_of_list_fmap_1 fst) in Hin. rewrite fmap_app, <-list_fmap_compose in Hin. exact Hin. }
  set (l := filter (λ v, rep cl (v_id v) = fst c) (h_verts H)).
  assert (zsum ((λ v, if decide (rep cl (v_id v) = fst c) then v_weight v else 0) <$> h_verts H) ≤ b * Z.of_nat (length l)) as Hle.
  { unfold l. revert Hw. unfold weights_below. generalize (h_verts H) as vs. clear -Hb. induction vs as [|v vs IH]; intros Hw; [simpl; rewrite zsum_nil; lia|].
    csimpl. rewrite zsum_cons, filter_cons. specialize (IH ltac:(set_solver)). specialize (Hw v ltac:(set_solver)). case_decide; csimpl; nia. }
  assert (length l ≤ length (fst c :: snd c))%nat as Hlen.
  { rewrite <-(fmap_length v_id l). apply submseteq_length, NoDup_submseteq.
    - unfold l. apply NoDup_ids_filter, (co_vid _ HCo).
    - intros u (v & -> & [Hr Hv]%elem_of_list_filter)%elem_of_list_fmap.
      assert (v_id v ∈ vids H) as (c' & Hc' & Hu)%(clustering_elem H cl _ Hcl) by (apply vids_elem; eauto).
      rewrite (rep_spec H cl c') in Hr by done. assert (c' = c) as ->; [|destruct Hu as [->|Hu]; [left|by right]].
      pose proof (clustering_nodup H cl HCo Hcl) as Hnd. apply elem_of_list_lookup in Hc as [i Hi]. apply elem_of_list_lookup in Hc' as [i' Hi'].
      assert (i = i') as -> by (eapply (NoDup_fmap_inj fst cl); [exact Hnd|done..]). congruence. }
  specialize (Hm c Hc). simpl in Hlen. nia.
Qed.
Lemma heaviest_mono opts rounds n n' b : 0 ≤ b → n ≤ n' → heaviest opts rounds n b ≤ heaviest opts rounds n' b.
Proof.
  intros Hb Hn. unfold heaviest. assert (1 ≤ (Z.max 0 (o_max_clustersize opts) + 1) ^ Z.of_nat rounds) by (pose proof (Z.pow_pos_nonneg (Z.max 0 (o_max_clustersize opts) + 1) (Z.of_nat rounds)); lia).
  repeat case_decide; try lia; nia.
Qed.
Lemma heaviest_le opts rounds n b : 0 ≤ b → b ≤ heaviest opts rounds n b.
Proof.
  intros Hb. unfold heaviest. assert (1 ≤ (Z.max 0 (o_max_clustersize opts) + 1) ^ Z.of_nat rounds) by (pose proof (Z.pow_pos_nonneg (Z.max 0 (o_max_clustersize opts) + 1) (Z.of_nat rounds)); lia).
  case_decide; nia.
Qed.
Lemma heaviest_round opts rounds n n' b : 0 ≤ b → n > o_nrvertices opts →
  heaviest opts rounds n' (b * (Z.max 0 (o_max_clustersize opts) + 1)) ≤ heaviest opts (S rounds) n b.
Proof.
  intros Hb Hn. unfold heaviest. rewrite (decide_False (P := n ≤ _)) by lia. set (m := Z.max 0 (o_max_clustersize opts) + 1).
  assert (1 ≤ m) by lia. rewrite Nat2Z.inj_succ, Z.pow_succ_r by lia. pose proof (Z.pow_pos_nonneg m (Z.of_nat rounds)). case_decide; nia.
Qed.

Lemma wpe_ml_rounds E mx opts : 0 ≤ fst mx → 0 ≤ snd mx → ∀ rounds H (Q : hg * Z → Prop), ml_ok H →
  (∀ H' cut, consistent H' → bisected H' → idw <$> h_verts H' = idw <$> h_verts H → cut = cut_net_size (net_list H) (part_of H') →
     (∀ b, weights_below H b → 0 ≤ b → tot_weight H + heaviest opts rounds (h_gsize H) b ≤ fst mx + snd mx → balanced H' mx) → Q (H', cut)) →
  wpe E (ml_rounds rounds H mx opts) Q.
Proof.
  intros Hm0 Hm1.
  assert (∀ rounds H (Q : hg * Z → Prop), ml_ok H →
    (∀ H' cut, consistent H' → bisected H' → idw <$> h_verts H' = idw <$> h_verts H → cut = cut_net_size (net_list H) (part_of H') →
       (∀ b, weights_below H b → 0 ≤ b → tot_weight H + heaviest opts rounds (h_gsize H) b ≤ fst mx + snd mx → balanced H' mx) → Q (H', cut)) →
    wpe E (initial_partitioning H mx opts) Q) as Hip.
  { intros rounds H Q [Hpre Hw Hn Hc Hd Ht] HQ. apply wpe_of_run. intros w.
    destruct (initial_partitioning_run H mx opts 0 w Hpre Hm0 Hm1 Ht) as (cs & H' & cut & w' & _ & Heq & _ & _ & Hr).
    exists (H', cut), w'. split; [done|]. apply HQ.
    - eapply same_shape_consistent; [apply Hr|apply Hpre].
    - apply Hr.
    - apply Forall2_ids_weights. eapply Forall2_impl; [apply (ss_verts _ _ (ir_shape _ _ _ _ _ Hr))|]. intros v v' (? & ? & ?). done.
    - rewrite (ir_cut _ _ _ _ _ Hr). unfold cut_net. symmetry. apply cut_net_size_ext; [apply Hr|done].
    - intros b Hwb Hb Hroom. destruct (initial_partitioning_run H mx opts b w Hpre Hm0 Hm1 Ht) as (cs2 & H2 & cut2 & w2 & _ & Heq2 & Hl2 & Hg2 & Hr2).
      rewrite Heq in Heq2. injection Heq2 as <- <- <-. destruct cs2 as [|c cs2]; [done|].
      apply (ir_best _ _ _ _ _ Hr2 c); [by left|]. apply (gc_bal _ _ _ _ (Hg2 c ltac:(by left))); [done|done|done|].
      pose proof (heaviest_le opts rounds (h_gsize H) b Hb). lia. }
  induction rounds as [|rounds IH]; intros H Q Hok HQ; simpl; [by eapply Hip|]. case_decide as Hgs; [|by eapply Hip].
  pose proof (mo_pre _ Hok) as Hpre. pose proof (kp_cons _ Hpre) as HC.
  pose proof (nonneg_small_costs H (kp_cost _ Hpre) (mo_cost _ Hok)) as Hsm.
  apply wpe_bind, wpe_simplify; [done|]. intros H1 HS. destruct (simplified_ok H H1 Hok HS) as (Hpre1 & Hc1 & Hn1 & Hidw1).
  assert (∀ v, v ∈ h_verts H1 → 0 < v_weight v) as Hw1.
  { intros v Hv. apply (idw_all (λ _ w, 0 < w) (idw <$> h_verts H) (h_verts H1)); [|by rewrite Hidw1|done].
    intros id w (u & [= -> ->] & Hu)%elem_of_list_fmap. by apply (mo_weight _ Hok). }
  apply wpe_bind, wpe_coarsen_seq; [apply Hpre1|]. intros HC1 cl free t Hcl Hsz Hcd Ht.
  assert (ml_ok HC1) as Hok1.
  { eapply contracted_ok; [exact Hpre1|done|done| |done|exact Hcd]. unfold tot_weight. rewrite (idw_weights _ _ Hidw1). apply (mo_tot _ Hok). }
  apply wpe_bind, IH; [done|]. intros K cut HK HB HidwK _ HbalK. cbn [fst snd].
  apply wpe_bind. eapply wpe_uncoarsen_seq; [exact Hpre1|done|done|exact Hcd|done|done|done|done|].
  intros H2 cut2 Hsh2 HB2 Hc2 Hbal2. cbn [fst snd].
  apply wpe_bind. eapply (wpe_simplify_reset E H H1 H2); [done|done|apply (mo_dups _ Hok)|done|done|].
  intros H3 Hre. apply wpe_ret. apply HQ.
  - apply (re_consistent _ _ _ Hre).
  - intros v Hv. assert (v_part v ∈ v_part <$> h_verts H3) as Hp by (by apply elem_of_list_fmap_1). rewrite (re_parts _ _ _ Hre) in Hp.
    apply elem_of_list_fmap in Hp as (u & -> & Hu). by apply HB2.
  - apply Forall2_ids_weights. eapply Forall2_impl; [apply (re_verts _ _ _ Hre)|]. intros v v' (? & ? & ?). done.
  - rewrite Hc2. unfold cut_net. rewrite <-(cut_net_size_ext H1 H2 (part_of H3) (part_of H2) Hsh2).
    + by destruct (simplified_cuts H H1 (part_of H3) HC Hsm HS) as [-> _].
    + apply part_of_ext. pose proof (re_parts _ _ _ Hre) as Hps.
      assert (v_id <$> h_verts H3 = v_id <$> h_verts H2) as Hids.
      { transitivity (vids H); [|transitivity (vids H1); [unfold vids; symmetry; by apply idw_ids'|by apply same_shape_vids]].
        pose proof (re_verts _ _ _ Hre) as Hf. unfold vids. clear -Hf. induction Hf as [|v v' l l' (E1 & _) _ IH]; [done|]. csimpl. congruence. }
      revert Hps Hids. generalize (h_verts H2) as l2. generalize (h_verts H3) as l3. clear. induction l3 as [|x l3 IH]; intros [|y l2] Hps Hids; try done.
      csimpl in *. injection Hps as E1 Hps. injection Hids as E2 Hids. rewrite E1, E2. f_equal. by apply IH.
  - intros b Hwb Hb Hroom. set (m := Z.max 0 (o_max_clustersize opts)) in *.
    assert (weights_below H1 b) as Hwb1.
    { intros v Hv. apply (idw_all (λ _ w, 0 ≤ w ≤ b) (idw <$> h_verts H) (h_verts H1)); [|by rewrite Hidw1|done].
      intros id w (u & [= -> ->] & Hu)%elem_of_list_fmap. by apply Hwb. }
    assert (tot_weight H1 = tot_weight H) as Htot1 by (unfold tot_weight; by rewrite (idw_weights _ _ Hidw1)).
    assert (∀ id w, (id, w) ∈ (idw <$> h_verts HC1) ++ free → 0 ≤ w ≤ b * (m + 1)) as Hcw.
    { intros id w Hin. split.
      - destruct (contracted_weights_pos H1 cl HC1 free) with (id := id) (w := w); [apply Hpre1|done..|lia].
      - eapply (cluster_weight H1 cl HC1 free); [apply Hpre1|done|done|done|done| |exact Hin]. intros c Hc. apply (Hsz c Hc). }
    pose proof (heaviest_round opts rounds (h_gsize H) (h_gsize HC1) b Hb Hgs) as Hh. fold m in Hh.
    assert (0 ≤ b * (m + 1)) as Hbm by nia. pose proof (heaviest_le opts rounds (h_gsize HC1) _ Hbm) as Hh2.
    pose proof (contracted_tot _ _ _ _ Hcd) as Hct. rewrite Htot1 in Hct.
    assert (0 ≤ zsum (snd <$> free)) as Hfr. { apply zsum_nonneg. intros x ([id w] & -> & Hf)%elem_of_list_fmap. simpl. apply (Hcw id w). set_solver. }
    assert (balanced H2 mx) as [B1 B2].
    { apply (Hbal2 (b * (m + 1))); [|apply (HbalK (b * (m + 1))); [|done|cbn [fst]; lia]|rewrite Htot1; lia].
      - intros [id w] Hf. simpl. apply (Hcw id w). set_solver.
      - intros v Hv. apply (Hcw (v_id v) (v_weight v)). apply elem_of_app. left. by apply (elem_of_list_fmap_1 idw). }
    assert (idw <$> h_verts H3 = idw <$> h_verts H2) as Hidw3.
    { transitivity (idw <$> h_verts H); [|rewrite <-Hidw1]; [|symmetry; apply Forall2_ids_weights; eapply Forall2_impl; [apply (ss_verts _ _ Hsh2)|]; intros v v' (? & ? & ?); done].
      apply Forall2_ids_weights. eapply Forall2_impl; [apply (re_verts _ _ _ Hre)|]. intros v v' (? & ? & ?). done. }
    assert (∀ p, part_weight H3 p = part_weight H2 p) as Hpw3; [|split; by rewrite Hpw3].
    intros p. pose proof (re_parts _ _ _ Hre) as Hps. revert Hps Hidw3. unfold part_weight. generalize (h_verts H2) as l2. generalize (h_verts H3) as l3. clear.
    induction l3 as [|x l3 IH]; intros [|y l2] Hps Hids; try done. csimpl in *. injection Hps as E1 Hps. injection Hids as E2 E3 Hids. rewrite !filter_cons, E1.
    case_decide; csimpl; rewrite ?zsum_cons, ?E3; by rewrite (IH l2).
Qed.

(** ** bisect_multilevel *)
Lemma range_lookup H st en i v : 0 ≤ st ≤ en → st ≤ i < en → vertex_at H i = Some v → range H st en !! Z.to_nat (i - st) = Some v.
Proof.
  intros Hst Hi. unfold vertex_at, range. rewrite decide_True by lia. intros Hv. rewrite lookup_take by lia. rewrite lookup_drop.
  by replace (Z.to_nat st + Z.to_nat (i - st))%nat with (Z.to_nat i) by lia.
Qed.
Lemma range_lookup_inv H st en (q : nat) v : 0 ≤ st ≤ en → range H st en !! q = Some v → Z.of_nat q < en - st ∧ vertex_at H (st + Z.of_nat q) = Some v.
Proof.
  unfold range, vertex_at. intros Hst Hq. assert (q < Z.to_nat (en - st))%nat as Hlt by (apply lookup_lt_Some in Hq; rewrite take_length in Hq; lia).
  rewrite lookup_take in Hq by done. rewrite lookup_drop in Hq. split; [lia|]. rewrite decide_True by lia.
  by replace (Z.to_nat (st + Z.of_nat q)) with (Z.to_nat st + q)%nat by lia.
Qed.
Lemma range_ids H st en i v : NoDup (vids H) → 0 ≤ st ≤ en → vertex_at H i = Some v → v_id v ∈ v_id <$> range H st en ↔ st ≤ i < en.
Proof.
  intros Hnd Hst Hv. split.
  - intros (u & Huv & (q & Hq)%elem_of_list_lookup)%elem_of_list_fmap. destruct (range_lookup_inv H st en q u Hst Hq) as [Hlt Hu].
    unfold vertex_at in Hv, Hu. destruct (decide (0 ≤ i)); [|done]. destruct (decide (0 ≤ st + Z.of_nat q)); [|done].
    assert (Z.to_nat i = Z.to_nat (st + Z.of_nat q)); [|lia]. eapply (NoDup_fmap_inj v_id (h_verts H)); [exact Hnd|done..].
  - intros Hi. apply elem_of_list_fmap_1. eapply elem_of_list_lookup_2. by apply range_lookup.
Qed.

Lemma wpe_write_labels E K H labels (Q : hg → Prop) : consistent H → consistent K → (∀ u, u ∈ vids K → u ∈ vids H) →
  Q (lab H (λ u, if decide (u ∈ vids K) then interval_at labels (part_of K u) else part_of H u)) → wpe E (write_labels K H labels) Q.
Proof.
  intros HC HK Hsub HQ. unfold write_labels.
  eapply (wpe_foldM E _ (λ ds s, s = lab H (λ u, if decide (u ∈ v_id <$> ds) then interval_at labels (part_of K u) else part_of H u))).
  - rewrite (lab_ext H _ (part_of H)); [symmetry; apply lab_self, (co_vid _ HC)|]. intros x _. rewrite decide_False by set_solver. done.
  - intros ds v ts s Heq ->. assert (v ∈ h_verts K) as Hv by (rewrite Heq; set_solver). apply wpe_lab_set; [done|apply Hsub, vids_elem; eauto|].
    apply lab_ext. intros x _. rewrite fmap_app. destruct (decide (x = v_id v)) as [->|Hne].
    + rewrite decide_True by set_solver. rewrite part_of_elem by (done || apply (co_vid _ HK)). done.
    + destruct (decide (x ∈ v_id <$> ds)); [rewrite decide_True by set_solver|rewrite decide_False by set_solver]; done.
  - intros s ->. exact HQ.
Qed.

Lemma side_weight_range H st en (f : Z → Z) p : 0 ≤ st ≤ en → en ≤ Z.of_nat (length (h_verts H)) →
  zsum (fidw f p <$> (idw <$> range H st en)) =
  side_weight H st en (λ i, match vertex_at H i with Some v => f (v_id v) | None => 0 end) p.
Proof.
  intros Hst Hen. unfold side_weight. f_equal. rewrite <-list_fmap_compose. apply list_eq. intros q. rewrite !list_lookup_fmap.
  destruct (range H st en !! q) as [v|] eqn:Hq.
  - destruct (range_lookup_inv H st en q v Hst Hq) as [Hlt Hv]. rewrite lookup_seqZ_lt by lia. simpl. unfold weight_at. rewrite Hv. done.
  - apply lookup_ge_None in Hq. unfold range in Hq. rewrite take_length, drop_length in Hq. rewrite lookup_seqZ_ge by lia. done.
Qed.
Lemma side_weight_ext H st en f g p : (∀ i, st ≤ i < en → f i = g i) → side_weight H st en f p = side_weight H st en g p.
Proof. intros Hfg. unfold side_weight. apply zsum_fmap_ext. intros i Hi%elem_of_seqZ. rewrite Hfg by lia. done. Qed.

(** the labels of [K] are written to the range of [H] it was made from *)
Lemma wpe_label_range E H K st en low high (Q : hg * (Z * Z) → Prop) : consistent H → consistent K → bisected K →
  idw <$> h_verts K ≡ₚ idw <$> range H st en → 0 ≤ st ≤ en → en ≤ Z.of_nat (length (h_verts H)) →
  (∀ side H', range_labelled H st en low high side H' → consistent H' → (∀ p, side_weight H st en side p = part_weight K p) →
     Q (H', (side_weight H st en side 0, side_weight H st en side 1))) →
  wpe E (H' <- write_labels K H (low, high) ;; ret (H', (weight_part K 0, weight_part K 1))) Q.
Proof.
  intros HC HK HB Hidw Hst Hen HQ. set (rg := range H st en) in *.
  assert (vids K ≡ₚ v_id <$> rg) as Hids.
  { unfold vids. change v_id with (fst ∘ idw). by rewrite !list_fmap_compose, Hidw. }
  apply wpe_bind, wpe_write_labels; [done|done| |].
  { intros u. rewrite Hids. intros (v & -> & Hv)%elem_of_list_fmap. apply vids_elem. exists v. split; [by eapply range_sub|done]. }
  set (g := λ u, if decide (u ∈ vids K) then interval_at (low, high) (part_of K u) else part_of H u).
  apply wpe_ret. rewrite !weight_part_spec.
  set (side := λ i, if decide (st ≤ i < en) then match vertex_at H i with Some v => part_of K (v_id v) | None => 0 end else 0).
  assert (∀ p, part_weight K p = side_weight H st en side p) as Hsw.
  { intros p. rewrite (part_weight_assigned K p HK), assigned_idw, app_nil_r, Hidw. unfold rg. rewrite side_weight_range by done.
    apply side_weight_ext. intros i Hi. unfold side. by rewrite decide_True. }
  rewrite !Hsw. assert (∀ u, u ∈ vids K → part_of K u = 0 ∨ part_of K u = 1) as HpK.
  { intros u (x & Hx & <-)%vids_elem. rewrite part_of_elem by (done || apply (co_vid _ HK)). by apply HB. }
  apply HQ; [|by apply lab_consistent|by intros p]. split_and!.
  - intros i. unfold side. case_decide as Hi; [|by left]. destruct (vertex_at H i) as [v|] eqn:Hv; [|by left].
    apply HpK. rewrite Hids. by eapply range_ids; [apply (co_vid _ HC)|..].
  - unfold same_but_parts. done.
  - simpl. by rewrite fmap_length.
  - intros i v Hv. pose proof (range_ids H st en i v (co_vid _ HC) Hst Hv) as Hiff. fold rg in Hiff. unfold vertex_at in Hv |- *. case_decide as H0; [|done].
    rewrite (lab_lookup _ _ _ _ Hv). f_equal. assert (v_id v ∈ vids K ↔ st ≤ i < en) as Hiff' by (rewrite Hids; done).
    unfold g. destruct (decide (st ≤ i < en)) as [Hi|Hi].
    + rewrite decide_True by (by apply Hiff'). assert (side i = part_of K (v_id v)) as ->; [|done].
      unfold side. rewrite (decide_True (P := st ≤ i < en)) by done. unfold vertex_at. rewrite (decide_True (P := 0 ≤ i)) by done. by rewrite Hv.
    + rewrite decide_False by (by intros ?%Hiff'). rewrite part_of_elem; [by destruct v|apply (co_vid _ HC)|]. by eapply elem_of_list_lookup_2.
Qed.

Lemma copied_cost H : zsum (n_cost <$> h_nets (copied H)) = Z.of_nat (length (h_nets H)).
Proof. simpl. rewrite <-list_fmap_compose. induction (h_nets H) as [|n l IH]; [done|]. csimpl. rewrite zsum_cons, IH. simpl. lia. Qed.

Lemma wpe_bisect_multilevel1 bp E H opts mx st en low high (Q : hg * (Z * Z) → Prop) :
  lawful_family bp → consistent H → nets_in_range H → no_sentinel H → (∀ v, v ∈ h_verts H → 0 < v_weight v) →
  Z.of_nat (length (h_nets H)) < 2147483648 → tot_weight H < long_max → 0 ≤ fst mx → 0 ≤ snd mx →
  0 ≤ st ≤ en → en ≤ Z.of_nat (length (h_verts H)) →
  (∀ side H', range_labelled H st en low high side H' → consistent H' →
     (∀ b, (∀ v, v ∈ range H st en → v_weight v ≤ b) → 0 ≤ b →
        zsum (v_weight <$> range H st en) + heaviest opts (Z.to_nat (o_maxrounds opts)) (en - st) b ≤ fst mx + snd mx →
        side_weight H st en side 0 ≤ fst mx ∧ side_weight H st en side 1 ≤ snd mx) →
     Q (H', (side_weight H st en side 0, side_weight H st en side 1))) →
  wpe E (bisect_multilevel1 bp H opts mx st en (low, high)) Q.
Proof.
  intros Hbp HC [Hgn Hnr] Hns Hw Hnn Htot Hm0 Hm1 Hst Hen HQ. unfold bisect_multilevel1.
  apply wpe_bind. eapply wpe_create_new1; [done..|]. intros R HR.
  apply wpe_bind. eapply wpe_nidx; [done|]. pose proof (rd_cons _ _ _ HR) as HCR.
  apply wpe_bind, wpe_copy_hg; [done|]. fold (copied R). set (K0 := copied R).
  assert (consistent K0) as HK0 by (by apply copied_consistent).
  set (rg := range H st en) in *.
  assert (idw <$> h_verts K0 = idw <$> rg) as Hidw0.
  { apply Forall2_ids_weights. apply (rd_verts _ _ _ HR). }
  apply wpe_bind, wpe_merge_free; [done|done|]. intros K1 t HK1 Hsa Ht. cbn [fst snd].
  pose proof (set_aside_idw _ _ Hsa) as Hidw1.
  assert (∀ id w, (id, w) ∈ idw <$> rg → 0 < w ∧ id ≠ -1 ∧ id ∈ vids H) as Hrg.
  { intros id w (v & [= -> ->] & Hv)%elem_of_list_fmap. apply range_sub in Hv. split; [by apply Hw|]. split; [by apply Hns|]. apply vids_elem. eauto. }
  assert (∀ id w, (id, w) ∈ (idw <$> h_verts K1) ++ free_of (h_verts K0) → 0 < w ∧ id ≠ -1 ∧ id ∈ vids H) as Hall.
  { intros id w. rewrite Hidw1, Hidw0. apply Hrg. }
  assert (∀ v, v ∈ h_verts K1 → 0 < v_weight v ∧ v_id v ≠ -1 ∧ v_id v ∈ vids H) as HvK1.
  { intros v Hv. apply Hall. apply elem_of_app. left. by apply (elem_of_list_fmap_1 idw). }
  assert (zsum (n_cost <$> h_nets K1) < 2147483648) as Hc1.
  { rewrite (sa_nets _ _ Hsa). unfold K0. rewrite copied_cost. eapply Z.le_lt_trans; [|exact Hnn].
    assert (nids R ⊆ nids H) as Hsub.
    { intros id (n & Hn & <-)%nids_elem. by apply (rd_nets _ _ _ HR). }
    apply Nat2Z.inj_le. rewrite <-(fmap_length n_id (h_nets R)), <-(fmap_length n_id (h_nets H)).
    apply submseteq_length, NoDup_submseteq; [apply (co_nid _ HCR)|exact Hsub]. }
  assert (ml_ok K1) as Hok.
  { assert (∀ n, n ∈ h_nets K1 → n_cost n = 1 ∧ (2 ≤ length (n_verts n))%nat) as Hn1.
    { intros n. rewrite (sa_nets _ _ Hsa). intros [i Hi]%elem_of_list_lookup.
      destruct (Forall2_lookup_r _ _ _ _ _ (copied_nets R HCR) Hi) as (m & Hm & _ & Hp & _ & Hc). split; [done|].
      rewrite <-Hp. apply (rd_nets _ _ _ HR). by eapply elem_of_list_lookup_2. }
    split.
    - split; [done|intros v Hv; by apply HvK1|intros n Hn; rewrite (proj1 (Hn1 n Hn)); done|lia|intros v Hv; destruct (HvK1 v Hv); lia].
    - intros v Hv. by apply HvK1.
    - intros n Hn. by apply Hn1.
    - done.
    - by rewrite (sa_dups _ _ Hsa).
    - assert (tot_weight K1 ≤ tot_weight H); [|lia].
      transitivity (zsum (snd <$> (idw <$> rg))).
      + rewrite <-Hidw0, <-Hidw1, fmap_app, zsum_app. unfold tot_weight. rewrite <-list_fmap_compose.
        change (snd ∘ idw) with v_weight. assert (0 ≤ zsum (snd <$> free_of (h_verts K0))); [|lia]. apply zsum_nonneg.
        intros x ([id w] & -> & Hf)%elem_of_list_fmap. simpl. destruct (Hall id w); [set_solver|lia].
      + rewrite <-list_fmap_compose. change (snd ∘ idw) with v_weight. unfold tot_weight. rewrite (range_split H st en). fold rg. rewrite !fmap_app, !zsum_app.
        assert (∀ l, (∀ v : vertex, v ∈ l → v ∈ h_verts H) → 0 ≤ zsum (v_weight <$> l)) as Hnn'.
        { intros l Hl. apply zsum_nonneg. intros x (v & -> & Hv)%elem_of_list_fmap. specialize (Hw v (Hl v Hv)). lia. }
        assert (0 ≤ zsum (v_weight <$> take (Z.to_nat st) (h_verts H))).
        { apply Hnn'. intros v [i Hi]%elem_of_list_lookup. apply lookup_take_Some in Hi as [Hi _]. by eapply elem_of_list_lookup_2. }
        assert (0 ≤ zsum (v_weight <$> drop (Z.to_nat (en - st)) (drop (Z.to_nat st) (h_verts H)))).
        { apply Hnn'. intros v [i Hi]%elem_of_list_lookup. rewrite !lookup_drop in Hi. by eapply elem_of_list_lookup_2. }
        lia. }
  apply wpe_bind. eapply (wpe_ml_rounds E mx opts Hm0 Hm1); [done|]. intros K2 cut HK2 HB2 Hidw2 _ Hbal2. cbn [fst snd].
  apply wpe_bind, wpe_assign_free; [done|done| | |done|].
  { cbn [c_free]. unfold vids. rewrite (idw_ids' _ _ Hidw2). change v_id with (fst ∘ idw). rewrite list_fmap_compose, <-fmap_app, Hidw1, <-list_fmap_compose.
    apply (co_vid _ HK0). }
  { cbn [c_free]. intros [id w] Hf. simpl. apply (Hall id w). set_solver. }
  intros C' K HK HB Hidw _ Hbal. cbn [fst snd c_free] in *. cbv zeta. rewrite Hidw2, Hidw1, Hidw0 in Hidw.
  apply (wpe_label_range E H K st en low high); [done..|]. intros side H' HR' HC' Hsw. apply HQ; [done|done|].
  intros b Hwb Hb Hroom. rewrite !Hsw. set (hv := heaviest opts (Z.to_nat (o_maxrounds opts))) in *.
  assert (∀ id w, (id, w) ∈ (idw <$> h_verts K1) ++ free_of (h_verts K0) → w ≤ b) as Hallb.
  { intros id w. rewrite Hidw1, Hidw0. intros (v & [= -> ->] & Hv)%elem_of_list_fmap. by apply Hwb. }
  assert (tot_weight K1 + zsum (snd <$> free_of (h_verts K0)) = zsum (v_weight <$> rg)) as Htot1.
  { unfold tot_weight. change v_weight with (snd ∘ idw). rewrite !list_fmap_compose, <-Hidw0, <-Hidw1, fmap_app, zsum_app. done. }
  assert (0 ≤ zsum (snd <$> free_of (h_verts K0))) as Hfr.
  { apply zsum_nonneg. intros x ([id w] & -> & Hf)%elem_of_list_fmap. simpl. destruct (Hall id w); [set_solver|lia]. }
  assert (tot_weight K2 = tot_weight K1) as Htot2 by (unfold tot_weight; by rewrite (idw_weights _ _ Hidw2)).
  assert (h_gsize K1 ≤ en - st) as Hgs1.
  { rewrite (sa_gsize _ _ Hsa). assert (length (idw <$> rg) = length ((idw <$> h_verts K1) ++ free_of (h_verts K0))) as Hl by (by rewrite Hidw1, Hidw0).
    rewrite app_length, !fmap_length in Hl. assert (length rg ≤ Z.to_nat (en - st))%nat; [unfold rg, range; rewrite take_length; lia|]. lia. }
  pose proof (heaviest_mono opts (Z.to_nat (o_maxrounds opts)) _ _ b Hb Hgs1) as Hh. fold hv in Hh.
  pose proof (heaviest_le opts (Z.to_nat (o_maxrounds opts)) (en - st) b Hb) as Hh2. fold hv in Hh2.
  destruct (Hbal b) as [B1 B2]; [|apply (Hbal2 b)| |by split].
  - intros [id w] Hf. simpl. apply (Hallb id w). set_solver.
  - intros v Hv. split; [destruct (HvK1 v Hv); lia|]. apply (Hallb (v_id v) (v_weight v)). apply elem_of_app. left. by apply (elem_of_list_fmap_1 idw).
  - done.
  - fold hv. lia.
  - rewrite Htot2. lia.
Qed.
