(** The property lemmas of C70: columns without nonzeros. *)
From Verif Require Export FinalBalance.
Local Open Scope list_scope.

(** ** Multilevel bisection when only weightless vertices lack neighbours *)
(** [v] shares a net with another vertex *)
Definition has_neighbour (H : hg) (v : vertex) : Prop :=
  ∃ nid u, nid ∈ v_nets v ∧ u ∈ h_verts H ∧ v_id u ≠ v_id v ∧ nid ∈ v_nets u.

Lemma two_ids (l : list Z) x y : NoDup l → x ≠ y → x ∈ l → y ∈ l → (2 ≤ length l)%nat.
Proof.
  intros Hnd Hne Hx Hy. destruct l as [|a [|b l]]; [set_solver| |simpl; lia].
  apply elem_of_list_singleton in Hx, Hy. congruence.
Qed.
Lemma whole_range H : range H 0 (Z.of_nat (length (h_verts H))) = h_verts H.
Proof. unfold range. rewrite Z.sub_0_r, Nat2Z.id. change (Z.to_nat 0) with 0%nat. rewrite drop_0. by rewrite firstn_all. Qed.

Lemma wpe_create_new_whole bp E H (Q : list hg → Prop) : lawful_family bp → consistent H → nets_in_range H →
  (∀ R, reduced H (h_verts H) R → (∀ v', v' ∈ h_verts R → ∃ v, v ∈ h_verts H ∧ v_id v' = v_id v ∧ v_weight v' = v_weight v ∧ (v_nets v = [] → v_nets v' = []) ∧ (has_neighbour H v → v_nets v' ≠ [])) → Q [R]) →
  wpe E (create_new bp [(H, (0, Z.of_nat (length (h_verts H))))]) Q.
Proof.
  intros Hbp HC [Hgn Hid] HQ. unfold create_new. apply wpe_bind. unfold mapP. cbn [fst snd].
  apply wpe_bind, wpe_create_new_local; [done|lia|lia|]. apply wpe_bind, wpe_ret, wpe_ret. rewrite whole_range.
  set (vs := h_verts H). set (X := with_gsize (Z.of_nat (length vs)) (sub_hg H vs)).
  assert (recompute_global_size [sub_hg H vs] = [X]) as ->.
  { unfold recompute_global_size, bulk_sum, X. simpl. done. }
  assert (consistent X) as HX.
  { apply with_gsize_consistent, sub_consistent; [done|apply (co_vid _ HC)|done]. }
  assert (distributed (h_gnets H) [X]) as HD.
  { split.
    - intros ? ->%elem_of_list_singleton. done.
    - intros ? ->%elem_of_list_singleton. done.
    - unfold all_verts. simpl. rewrite app_nil_r. apply (co_vid _ HX).
    - unfold all_nets. simpl. rewrite app_nil_r. intros n (m & -> & Hm)%elem_of_list_fmap. simpl. by apply Hid.
    - unfold all_nets. simpl. rewrite app_nil_r. intros n n' (m & -> & Hm)%elem_of_list_fmap (m' & -> & Hm')%elem_of_list_fmap. done. }
  eapply (wpe_remove_free_nets_par bp Hbp (h_gnets H) [X] HD Hgn ltac:(done)). intros Hs' Hlen HR.
  destruct Hs' as [|R [|? ?]]; [done| |done]. destruct (HR 0%nat X R eq_refl eq_refl) as [HS HCR].
  assert (∀ n, n ∈ h_nets X → gsize [X] (n_id n) = Z.of_nat (length (n_verts n))) as Hgs.
  { intros n Hn. unfold gsize, gverts, pieces. assert (all_nets [X] = h_nets X) as -> by (unfold all_nets; simpl; by rewrite app_nil_r). f_equal.
    rewrite (filter_unique_id n_id (h_nets X) n); [|apply (co_nid _ HX)|done]. simpl. by rewrite app_nil_r. }
  apply HQ; [split|].
  - done.
  - eapply Forall2_impl; [exact (sr_verts _ _ _ _ HS)|]. intros v v' (? & ? & _). done.
  - intros n. rewrite (sr_nets _ _ _ _ HS). intros (m & -> & [[Hm _] Hin]%elem_of_list_filter)%elem_of_list_fmap. simpl.
    rewrite Hgs in Hm by done. split; [lia|]. apply elem_of_list_fmap in Hin as (n0 & -> & Hn0). apply nids_elem. by exists n0.
  - rewrite (sr_gsize _ _ _ _ HS). done.
  - rewrite (sr_gnets _ _ _ _ HS). done.
  - intros v' [i Hi]%elem_of_list_lookup. destruct (Forall2_lookup_r _ _ _ _ _ (sr_verts _ _ _ _ HS) Hi) as (v & Hv & H1 & H2 & _ & H4).
    apply elem_of_list_lookup_2 in Hv. exists v. split; [exact Hv|]. split; [done|]. split; [done|]. split.
    + intros Hn. rewrite Hn in H4. cbn in H4. symmetry in H4. by apply Permutation_nil in H4.
    + intros (nid & u & Hnid & Hu & Hne & Hnu) Hnil. rewrite Hnil in H4. apply Permutation_nil in H4.
      assert (nid ∈ filter (λ nid, 1 < gsize [X] nid) (v_nets v)) as Hin; [|rewrite H4 in Hin; by apply elem_of_nil in Hin].
      apply elem_of_list_filter. split; [|done].
      destruct (co_inc1 _ HX v nid Hv Hnid) as (n & Hn & <- & Hvn). destruct (co_inc1 _ HX u _ Hu Hnu) as (n' & Hn' & Hid' & Hun).
      assert (n' = n) as -> by (by eapply (NoDup_fmap_elem n_id); [apply (co_nid _ HX)|..]).
      rewrite Hgs by done. assert (2 ≤ length (n_verts n))%nat; [|lia]. eapply two_ids; [by apply (co_nverts _ HX)|exact Hne|done|done].
Qed.

Lemma wpe_bisect_weightless bp E H opts mx low high (Q : hg * (Z * Z) → Prop) :
  lawful_family bp → consistent H → nets_in_range H → no_sentinel H → (∀ v, v ∈ h_verts H → 0 ≤ v_weight v) →
  (∀ v, v ∈ h_verts H → v_nets v = [] ∧ v_weight v = 0 ∨ has_neighbour H v ∧ 0 < v_weight v) →
  Z.of_nat (length (h_nets H)) < 2147483648 → tot_weight H < long_max → 0 ≤ fst mx → 0 ≤ snd mx →
  (∀ H' ws, (∀ v, v ∈ h_verts H → v_nets v = [] → v ∈ h_verts H') → Q (H', ws)) →
  wpe E (bisect_multilevel1 bp H opts mx 0 (Z.of_nat (length (h_verts H))) (low, high)) Q.
Proof.
  intros Hbp HC Hnr Hns Hw0 Hw Hnn Htot Hm0 Hm1 HQ. unfold bisect_multilevel1.
  apply wpe_bind. eapply wpe_create_new_whole; [done..|]. intros R HR Hvn.
  apply wpe_bind. eapply wpe_nidx; [done|]. pose proof (rd_cons _ _ _ HR) as HCR.
  apply wpe_bind, wpe_copy_hg; [done|]. fold (copied R). set (K0 := copied R).
  assert (consistent K0) as HK0 by (by apply copied_consistent).
  assert (idw <$> h_verts K0 = idw <$> h_verts H) as Hidw0.
  { apply Forall2_ids_weights. apply (rd_verts _ _ _ HR). }
  apply wpe_bind, wpe_merge_free; [done|done|]. intros K1 t HK1 Hsa Ht. cbn [fst snd].
  (* the free vertices are the weightless ones *)
  assert (∀ v', v' ∈ h_verts K0 → ∃ v, v ∈ h_verts H ∧ v_id v' = v_id v ∧ v_weight v' = v_weight v ∧ (is_free v' ↔ v_nets v = []) ∧ (is_free v' ↔ v_weight v = 0)) as HvK0.
  { intros v' Hv'. destruct (Hvn v' Hv') as (v & Hv & H1 & H2 & H3 & H4). exists v. split; [done|]. split; [done|]. split; [done|].
    destruct (Hw v Hv) as [[Hn Hz]|[Hn Hp]].
    - split; split; intros; [done|by apply H3|done|by apply H3].
    - pose proof (H4 Hn) as Hne. destruct Hn as (nid & u & Hnid & _). split; split; intros Hx; try done.
      + rewrite Hx in Hnid. by apply elem_of_nil in Hnid.
      + lia. }
  assert (t = 0) as ->.
  { rewrite Ht. unfold free_of. rewrite <-list_fmap_compose. apply zsum_zero. intros x (v' & -> & [Hf Hv']%elem_of_list_filter)%elem_of_list_fmap.
    destruct (HvK0 v' Hv') as (v & _ & _ & Hwv & _ & Hfw). unfold compose. cbn [snd]. rewrite Hwv. by apply Hfw. }
  assert (∀ v', v' ∈ h_verts K1 → v' ∈ h_verts K0 ∧ ¬ is_free v') as HK1sub.
  { intros v' Hv'. assert (v' ∈ h_verts K0) as Hin by (rewrite (sa_verts _ _ Hsa); apply elem_of_app; by right). split; [done|].
    intros Hf. pose proof (co_vid _ HK0) as Hnd. apply NoDup_fmap_1 in Hnd. rewrite (sa_verts _ _ Hsa) in Hnd. apply NoDup_app in Hnd as (_ & Hd & _).
    apply (Hd v'); [by apply elem_of_list_filter|done]. }
  assert (∀ v', v' ∈ h_verts K1 → ∃ v, v ∈ h_verts H ∧ v_id v' = v_id v ∧ v_weight v' = v_weight v ∧ 0 < v_weight v ∧ v_nets v ≠ []) as HvK1.
  { intros v' [Hv' Hf]%HK1sub. destruct (HvK0 v' Hv') as (v & Hv & H1 & H2 & H3 & H4). exists v. split; [done|]. split; [done|]. split; [done|].
    split; [|by rewrite <-H3]. specialize (Hw0 v Hv). assert (v_weight v ≠ 0) by (by rewrite <-H4). lia. }
  assert (zsum (n_cost <$> h_nets K1) < 2147483648) as Hc1.
  { rewrite (sa_nets _ _ Hsa). unfold K0. rewrite copied_cost. eapply Z.le_lt_trans; [|exact Hnn].
    assert (nids R ⊆ nids H) as Hsub.
    { intros id (n & Hn & <-)%nids_elem. by apply (rd_nets _ _ _ HR). }
    apply Nat2Z.inj_le. rewrite <-(fmap_length n_id (h_nets R)), <-(fmap_length n_id (h_nets H)).
    apply submseteq_length, NoDup_submseteq; [apply (co_nid _ HCR)|exact Hsub]. }
  assert (ml_ok K1) as Hok.
  { assert (∀ n, n ∈ h_nets K1 → n_cost n = 1 ∧ (2 ≤ length (n_verts n))%nat) as Hn1.
    { intros n. rewrite (sa_nets _ _ Hsa). intros [i Hi]%elem_of_list_lookup.
      destruct (Forall2_lookup_r _ _ _ _ _ (copied_nets R HCR) Hi) as (m & Hm & _ & Hp & _ & Hc). split; [done|].
      rewrite <-Hp. apply (rd_nets _ _ _ HR). by eapply elem_of_list_lookup_2. }
    split.
    - split; [done| |intros n Hn; rewrite (proj1 (Hn1 n Hn)); done|lia|].
      + intros v' Hv'. destruct (HvK1 v' Hv') as (v & Hv & -> & _). by apply Hns.
      + intros v' Hv'. destruct (HvK1 v' Hv') as (v & Hv & _ & -> & ? & _). lia.
    - intros v' Hv'. destruct (HvK1 v' Hv') as (v & Hv & _ & -> & ? & _). done.
    - intros n Hn. by apply Hn1.
    - done.
    - by rewrite (sa_dups _ _ Hsa).
    - assert (tot_weight K1 ≤ tot_weight H); [|lia].
      transitivity (zsum (snd <$> (idw <$> h_verts H))).
      + rewrite <-Hidw0, (sa_verts _ _ Hsa), !fmap_app, zsum_app. unfold tot_weight. rewrite <-!list_fmap_compose.
        change (snd ∘ idw) with v_weight. assert (0 ≤ zsum (v_weight <$> filter is_free (h_verts K0))); [|lia]. apply zsum_nonneg.
        intros x (v' & -> & [_ Hv']%elem_of_list_filter)%elem_of_list_fmap. destruct (HvK0 v' Hv') as (v & Hv & _ & -> & _). by apply Hw0.
      + rewrite <-list_fmap_compose. done. }
  apply wpe_bind. eapply (wpe_ml_rounds E mx opts Hm0 Hm1); [done|]. intros K2 cut HK2 HB2 Hidw2 _ _. cbn [fst snd].
  apply wpe_bind. unfold assign_free_vertices. apply wpe_bind, wpe_weights2; [done|]. cbn [c_global_free]. rewrite decide_True by done. apply wpe_ret. cbn [fst snd].
  assert (vids K2 = vids K1) as Hids2 by (unfold vids; by rewrite (idw_ids' _ _ Hidw2)).
  apply wpe_bind, wpe_write_labels; [done|done| |].
  { intros u. rewrite Hids2. intros (v' & Hv' & <-)%vids_elem. destruct (HvK1 v' Hv') as (v & Hv & -> & _). apply vids_elem. eauto. }
  apply wpe_ret. apply HQ. intros v Hv Hnil.
  assert (v_id v ∉ vids K2) as Hnin.
  { rewrite Hids2. intros (v' & Hv' & Hid)%vids_elem. destruct (HvK1 v' Hv') as (u & Hu & Hid' & _ & _ & Hun).
    assert (u = v) as -> by (eapply (id_inj (h_verts H)); [apply (co_vid _ HC)|done|done|congruence]). done. }
  unfold lab. cbn [h_verts with_verts]. apply elem_of_list_fmap. exists v. split; [|done]. rewrite decide_False by done.
  rewrite part_of_elem by (done || apply (co_vid _ HC)). by destruct v.
Qed.

(** ** Two parts on one processor *)
Lemma wpe_two_parts_weightless bp H eps opts v0 : lawful_family bp → consistent H → nets_in_range H → no_sentinel H →
  (∀ v, v ∈ h_verts H → v_nets v = [] ∧ v_weight v = 0 ∨ has_neighbour H v ∧ 0 < v_weight v) →
  Z.of_nat (length (h_nets H)) < 2147483648 → tot_weight H ≤ 2 ^ 50 →
  (∀ M, part_limit (tot_weight H) 2 eps = Some M → 0 ≤ M ∧ M * 2 ≤ 2 ^ 50) →
  o_metric opts = LambdaMinusOne → o_bisection opts = BisMultilevel → v0 ∈ h_verts H → v_nets v0 = [] →
  wpe (λ e, e = UB) (recursive_bisect_with (bisect1 bp) H 2 eps opts) (λ H', v0 ∈ h_verts H').
Proof.
  intros Hbp HC Hnr Hns Hw Hnn Htot HM Hm Hb Hv0 Hn0. unfold recursive_bisect_with.
  assert (∀ v, v ∈ h_verts H → 0 ≤ v_weight v) as Hw0 by (intros v [[_ ?]|[_ ?]]%Hw; lia).
  assert (0 ≤ tot_weight H) as HW0. { apply zsum_nonneg. intros x (v & -> & Hv)%elem_of_list_fmap. by apply Hw0. }
  assert (global_weight [H] !! 0%nat = Some (tot_weight H)) as Hgw.
  { unfold global_weight, bulk_sum. csimpl. by rewrite total_weight_spec. }
  apply wpe_bind. eapply wpe_nidx; [exact Hgw|]. apply wpe_bind. unfold max_weight, d_to_Z. unfold part_limit in HM.
  destruct (d_trunc (d_div (d_mul (d_add d_one eps) (d_of_Z (tot_weight H))) (d_of_Z 2))) as [M|] eqn:HL; [|by intros ?].
  destruct (HM M eq_refl) as [HM0 HM2]. apply wpe_of_option_Some with M; [done|].
  apply wpe_bind. unfold rb_loop. change (Z.to_nat 2 + 1)%nat with 3%nat. apply wpe_loopM_S. cbn [rb_jobs rb_H rb_cut rb_splits].
  apply wpe_bind. unfold rb_job. cbn [j_low j_high]. change (Z.to_nat (2 - 1 - 0) + 1)%nat with 2%nat. apply wpe_bind. apply wpe_loopM_S. cbn [fst snd j_low j_high].
  rewrite decide_True by lia. apply wpe_bind. unfold rb_split. cbn [j_low j_high j_weight j_st j_en rb_H rb_jobs rb_cut rb_splits].
  change (2 - 1 - 0 + 1) with 2. change (2 - 1) with 1. apply wpe_bind, wpe_compute_max; [lia|by vm_compute|by vm_compute|done|lia|lia|done|].
  intros a b HW Ha Hb' _ _. apply wpe_bind. unfold bisect1. rewrite Hb. apply wpe_bisect_weightless; [done..| |done|done|].
  { unfold long_max. lia. }
  intros H' ws Hkeep. cbn [fst snd]. change (labels_1 0 1) with (1, 1). cbn [fst snd]. rewrite decide_False by lia. apply wpe_bind, wpe_ret. cbn [fst snd].
  rewrite decide_False by (rewrite Hm; naive_solver). apply wpe_bind, wpe_ret, wpe_ret, wpe_ret. cbn [fst snd].
  apply wpe_loopM_S. cbn [fst snd j_low j_high]. change (labels_0 0 1) with (0, 0). cbn [fst snd]. rewrite decide_False by lia. apply wpe_ret, wpe_ret. cbn [fst]. apply wpe_ret.
  apply wpe_loopM_S. cbn [rb_jobs]. apply wpe_ret. rewrite decide_False by (rewrite Hm; done). apply wpe_ret. cbn [rb_H]. by apply Hkeep.
Qed.

(** ** The program *)
(** C70, refuted.  Vertex weights by degree, two parts, one processor, the multilevel method, the lambda-minus-one metric.  If some column of the matrix has no nonzero, and every other column shares a row with
    another column, then the program has undefined behaviour, whatever the choices of the run: the column without nonzeros gets no part, and the computation
    of the imbalance reads the weight of part -1. *)
Lemma C70_empty_column_refuted_proof : ∀ bp opens t sy E V L entries eps eta opts j w, lawful_family bp →
  listing t sy E V L entries → valid_listing sy E V L entries → NoDup (nonzeros sy entries) → L < 2 ^ 32 → E < 2 ^ 31 →
  matrix_weight V (nonzeros sy entries) weight_degree ≤ 2 ^ 50 →
  (∀ M, part_limit (matrix_weight V (nonzeros sy entries) weight_degree) 2 eps = Some M → 0 ≤ M ∧ M * 2 ≤ 2 ^ 50) →
  o_metric opts = LambdaMinusOne → o_bisection opts = BisMultilevel →
  0 ≤ j < V → column (nonzeros sy entries) j = [] →
  (∀ j, 0 ≤ j < V → column (nonzeros sy entries) j = [] ∨
     ∃ i j', i ∈ column (nonzeros sy entries) j ∧ 0 ≤ j' < V ∧ j' ≠ j ∧ i ∈ column (nonzeros sy entries) j') →
  program bp opens t ModeDegree 1 2 eps eta opts w = Err UB.
Proof.
  intros bp opens t sy E V L entries eps eta opts j w Hbp Hl Hvl Hnd HL HE Hmw HM Hm Hb Hj Hcj Hsh. set (nzs := nonzeros sy entries) in *.
  unfold program, program_with. unfold bind at 1.
  destruct (read_holds bp 1 t sy E V L entries ModeDegree weight_degree w Hbp ltac:(lia) Hl Hvl ltac:(by right) HL Hnd) as (Hs0 & w1 & -> & Hlen & HM0 & Hpart).
  fold nzs in HM0.
  assert (∃ w2, mapP copy_hg Hs0 w1 = Ok (copied <$> Hs0, w2)) as [w2 Hc].
  { assert (wp (mapP copy_hg Hs0) (λ o, o = copied <$> Hs0)) as Hw.
    { apply (wpe_mapP_eq _ _ copied); [|done]. intros i H HH. apply wpe_copy_hg; [|done].
      apply (di_local _ _ (hm_dist _ _ _ _ _ HM0)). by eapply elem_of_list_lookup_2. }
    apply wp_run with (w := w1) in Hw as (o & w2 & Heq & ->). eauto. }
  unfold bind at 1. rewrite Hc. unfold bind at 1.
  destruct (copied_holds _ _ _ _ _ HM0) as [HMc Hav]. destruct Hs0 as [|H0 [|]]; [done| |done]. csimpl in *. set (H := copied H0) in *. clearbody H.
  assert (∀ X, all_verts [X] = h_verts X) as Hone by (intros X; unfold all_verts; csimpl; apply app_nil_r).
  destruct (held_vert _ _ _ _ _ HMc j Hj) as (v0 & Hv0 & Hid0). pose proof (hm_dist _ _ _ _ _ HMc) as D.
  assert (v_part v0 = -1) as Hp0 by (apply Hpart; by rewrite <-Hav).
  assert (v_nets v0 = []) as Hn0. { destruct (hm_vert _ _ _ _ _ HMc v0 Hv0) as [_ Hx]. rewrite Hid0, Hcj in Hx. symmetry in Hx. by apply Permutation_nil in Hx. }
  assert (tot_weight H = matrix_weight V nzs weight_degree) as Htw. { rewrite <-(held_weight _ _ _ _ _ HMc). unfold gweight. by rewrite Hone. }
  destruct (listing_sizes _ _ _ _ _ _ Hl) as [HE0 HV0]. rewrite Hone in Hv0.
  assert (∀ n, n ∈ h_nets H → 0 ≤ n_id n < E) as Hnr.
  { intros n Hn. apply (di_range _ _ D), all_nets_elem. exists H. split; [by left|done]. }
  assert (wpe (λ e, e = UB) (recursive_bisect_with (bisect1 bp) H 2 eps opts) (λ H', v0 ∈ h_verts H')) as Hrec.
  { apply wpe_two_parts_weightless; try done.
    - apply (di_local _ _ D). by left.
    - unfold nets_in_range. rewrite (di_gnets _ _ D H ltac:(by left)). split; [done|]. exact Hnr.
    - intros v Hv. rewrite <-Hone in Hv. pose proof (held_id _ _ _ _ _ HMc v Hv). lia.
    - intros v Hv. rewrite <-Hone in Hv. destruct (hm_vert _ _ _ _ _ HMc v Hv) as [Hwv Hnv]. pose proof (held_id _ _ _ _ _ HMc v Hv) as Hidv.
      destruct (Hsh (v_id v) Hidv) as [Hc0|(i & j' & Hi & Hj' & Hne & Hi')].
      + left. rewrite Hc0 in Hnv, Hwv. symmetry in Hnv. apply Permutation_nil in Hnv. done.
      + right. split.
        * destruct (held_vert _ _ _ _ _ HMc j' Hj') as (u & Hu & Hidu). exists i, u. rewrite <-Hone. destruct (hm_vert _ _ _ _ _ HMc u Hu) as [_ Hnu].
          rewrite Hnv, Hnu, Hidu. done.
        * rewrite Hwv. unfold weight_degree. destruct (column nzs (v_id v)); [by apply elem_of_nil in Hi|simpl; lia].
    - eapply Z.le_lt_trans; [|exact HE]. rewrite <-(fmap_length n_id). rewrite <-(Z2Nat.id E) by lia. apply Nat2Z.inj_le.
      rewrite <-(seqZ_length 0 E). apply submseteq_length, NoDup_submseteq; [apply (co_nid _ (di_local _ _ D H ltac:(by left)))|].
      intros id (n & -> & Hn)%elem_of_list_fmap. apply elem_of_seqZ. specialize (Hnr n Hn). lia.
    - lia.
    - by rewrite Htw. }
  unfold partition_all, partition_with. rewrite Hm. unfold bind at 1. rewrite recursive_par_one by done. unfold bind at 1.
  specialize (Hrec w2). destruct (recursive_bisect_with (bisect1 bp) H 2 eps opts w2) as [[H' w3]|e]; [|by subst]. cbn [ret]. unfold ret at 1 2.
  unfold bind at 1. rewrite load_balance_unassigned; [done|]. exists v0. by rewrite Hone.
Qed.
(** C70, what holds.  If every column has a positive weight (with weight one for every column, this is every matrix: columns may have no nonzeros), then the program on one processor
    with two parts and the lambda-minus-one metric always delivers a partitioning in which every column, with or without nonzeros, has a part, and whose output file lists every nonzero. *)
Lemma C70_two_parts_partial_proof : ∀ bp opens t sy E V L entries mode weight eps eta opts M w, lawful_family bp → (∀ n, opens n = true) →
  matrix_input t sy E V L entries weight → (mode = ModeOne ∧ weight = weight_one) ∨ (mode = ModeDegree ∧ weight = weight_degree) → 0 < V →
  part_limit (matrix_weight V (nonzeros sy entries) weight) 2 eps = Some M → 0 ≤ M → M * 2 ≤ 2 ^ 50 → o_metric opts = LambdaMinusOne →
  ∃ r w' part, program bp opens t mode 1 2 eps eta opts w = Ok (Result r, w') ∧
    delivered E V 2 (nonzeros sy entries) weight LambdaMinusOne part (re_file r) (re_cut r) (re_weights r) (re_balance r).
Proof.
  intros bp opens t sy E V L entries mode weight eps eta opts M w Hbp Ho HI Hmode HV HM HM0 HM2 Hm.
  assert (wpe (λ _, False) (program bp opens t mode 1 2 eps eta opts) (λ o, match o with
    | Result r => ∃ part, delivered E V 2 (nonzeros sy entries) weight LambdaMinusOne part (re_file r) (re_cut r) (re_weights r) (re_balance r)
    | _ => False end)) as Hw.
  { unfold program. eapply (wpe_program bp Hbp opens Ho t sy E V L entries mode weight Hmode HI 1 ltac:(lia) (λ _, False) _ 2 eps eta opts (λ Hs1 Hs', Hs1 = Hs')); [lia| |].
    - intros Hs Hlen HH. destruct Hs as [|H [|]]; [done| |done].
      pose proof (held_spread t sy E V L entries weight HI 1 ltac:(lia) [H] HH) as Hsp. pose proof (spread_member _ _ H Hsp ltac:(by left)) as Hpre.
      assert (∀ X, all_verts [X] = h_verts X) as Hone by (intros X; unfold all_verts; csimpl; apply app_nil_r).
      assert (tot_weight H = matrix_weight V (nonzeros sy entries) weight) as Htw. { rewrite <-(held_weight _ _ _ _ _ HH). unfold gweight. by rewrite Hone. }
      assert (0 < tot_weight H) as Htp.
      { destruct (held_vert _ _ _ _ _ HH 0 ltac:(lia)) as (v & Hv & _). rewrite Hone in Hv. pose proof (rp_weight _ Hpre) as Hp.
        apply elem_of_list_split in Hv as (A & B & HAB). unfold tot_weight. rewrite HAB in *. rewrite fmap_app, fmap_cons, zsum_app, zsum_cons.
        assert (0 ≤ zsum (v_weight <$> A)). { apply zsum_nonneg. intros x (u & -> & Hu)%elem_of_list_fmap. apply Z.lt_le_incl, Hp. set_solver. }
        assert (0 ≤ zsum (v_weight <$> B)). { apply zsum_nonneg. intros x (u & -> & Hu)%elem_of_list_fmap. apply Z.lt_le_incl, Hp. set_solver. }
        specialize (Hp v ltac:(set_solver)). lia. }
      unfold partition_all, partition_with. rewrite Hm. apply wpe_bind. intros w'. rewrite recursive_par_one by done. revert w'.
      match goal with |- ∀ w, match ?m w with _ => _ end => change (wpe (λ _, False) m (λ Hs', wpe (λ _, False) (ret (Some Hs')) (λ o, match o with
         | None => False
         | Some Hs' => ∃ Hs1, length Hs' = 1%nat ∧ holds_matrix E V (nonzeros sy entries) weight Hs1 ∧ Forall2 fewer Hs1 Hs' ∧ (∀ v, v ∈ all_verts Hs' → 0 ≤ v_part v < 2) ∧
             Hs1 = Hs' end))) end.
      apply wpe_bind. eapply (wpe_recursive_bisect2 (bisect1 bp) _ H eps opts M); [by apply bisect1_ok|done|done|by rewrite Htw|done|done|].
      intros H' Hp Hs _. apply wpe_ret, wpe_ret. exists [H']. split; [done|].
      split; [eapply rearranged_holds; [|exact HH]; apply same_rearranged; [apply HH|by apply Hs]|].
      split; [constructor; [apply fewer_refl|constructor]|]. split; [by rewrite Hone|]. done.
    - intros Hs1 Hs' r <- HH HF HD. exists (gpart Hs1). rewrite Hm in HD.
      assert (all_nonzeros Hs1 ≡ₚ nonzeros sy entries) as Hnz.
      { eapply (held_nonzeros E V (nonzeros sy entries) weight); [exact HH|]. intros e He. eapply input_range; [exact HI|done]. }
      destruct HD as [D1 (starts & es & D2 & D3) D4 D5 D6]. split; try assumption. exists starts, es. split; [done|].
      eapply by_parts_perm; [|exact D3]. exact Hnz. }
  specialize (Hw w). destruct (program bp opens t mode 1 2 eps eta opts w) as [[[r| |] w']|e]; try done.
  destruct Hw as (part & HD). exists r, w', part. done.
Qed.

(** a 3 by 4 matrix with six nonzeros, whose last column is empty *)
Definition c70_entries : list (Z * Z) := [(1,1); (2,1); (1,2); (2,2); (3,2); (3,3)].
Example C70_example : let t := matrix_text 3 4 c70_entries in let opts := default_opts LambdaMinusOne BisMultilevel in
  lawful_family blocks ∧ listing t MGeneral 3 4 6 c70_entries ∧ valid_listing MGeneral 3 4 6 c70_entries ∧ NoDup c70_entries ∧
  part_limit (matrix_weight 4 c70_entries weight_degree) 2 c69_eps = Some 3 ∧
  (∀ j, 0 ≤ j < 4 → column c70_entries j = [] ∨ ∃ i j', i ∈ column c70_entries j ∧ 0 ≤ j' < 4 ∧ j' ≠ j ∧ i ∈ column c70_entries j') ∧
  column c70_entries 3 = [] ∧ program blocks (λ _, true) t ModeDegree 1 2 c69_eps c61_eps opts w0 = Err UB ∧
  matrix_input t MGeneral 3 4 6 c70_entries weight_one ∧ part_limit (matrix_weight 4 c70_entries weight_one) 2 c69_eps = Some 2 ∧
  match program blocks (λ _, true) t ModeOne 1 2 c69_eps c61_eps opts w0 with
  | Ok (Result r, _) => re_weights r = [2; 2] ∧ re_cut r = 1
  | _ => False end.
Proof.
  cbv zeta.
  assert (matrix_input (matrix_text 3 4 c70_entries) MGeneral 3 4 6 c70_entries weight_one) as HI by (apply (matrix_text_input 3 4 c70_entries weight_one); vm_compute; congruence).
  split; [apply blocks_lawful|]. split; [apply HI|]. split; [apply HI|]. split; [apply HI|]. split; [vm_compute; reflexivity|]. split.
  { intros j Hj. assert (j = 0 ∨ j = 1 ∨ j = 2 ∨ j = 3) as [->|[->|[->| ->]]] by lia; [right; exists 0, 1|right; exists 0, 0|right; exists 2, 1|by left].
    all: split; [apply (bool_decide_eq_true_1 _); vm_compute; reflexivity|]; split; [lia|]; split; [lia|]; apply (bool_decide_eq_true_1 _); vm_compute; reflexivity. }
  split; [done|]. split; [vm_compute; reflexivity|]. split; [exact HI|]. split; [vm_compute; reflexivity|]. vm_compute. done.
Qed.
