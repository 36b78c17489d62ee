(** Proofs about parallel coarsening: the result of the whole function. *)
From Verif Require Export CparGlobal.

Lemma fmap_concat_fmap {A B C} (f : B → C) (g : A → list B) (l : list A) : f <$> concat (g <$> l) = concat ((λ x, f <$> g x) <$> l).
Proof. induction l as [|x l IH]; [done|]. csimpl. by rewrite fmap_app, IH. Qed.
Lemma gverts_NoDup gn Hs nid : distributed gn Hs → NoDup (gverts Hs nid).
Proof.
  intros HD. eapply submseteq_NoDup; [|exact (di_verts _ _ HD)].
  assert (∀ Hs, gverts Hs nid = concat ((λ H, concat (n_verts <$> filter (λ n, n_id n = nid) (h_nets H))) <$> Hs)) as ->.
  { unfold gverts, pieces, all_nets. clear. induction Hs as [|H Hs IH]; [done|]. csimpl. by rewrite filter_app, fmap_app, concat_app, IH. }
  unfold all_verts. rewrite fmap_concat_fmap.
  apply submseteq_concat, Forall2_fmap, Forall_Forall2_diag, Forall_forall. intros H HH.
  pose proof (di_local _ _ HD H HH) as HC. apply NoDup_submseteq.
  - pose proof (co_nid _ HC) as Hni. assert (∀ n, n ∈ h_nets H → NoDup (n_verts n)) as Hnv by apply HC. clear -Hni Hnv. induction (h_nets H) as [|n ns IH]; [apply NoDup_nil; done|].
    csimpl in Hni. apply NoDup_cons in Hni as [Hn Hni]. rewrite filter_cons. case_decide as Hd; [|apply IH; [done|intros m Hm; apply Hnv; set_solver]]. csimpl.
    assert (filter (λ n, n_id n = nid) ns = []) as ->.
    { apply elem_of_nil_inv. intros m [He Hm]%elem_of_list_filter. apply Hn. rewrite Hd, <-He. by apply elem_of_list_fmap_1. }
    csimpl. rewrite app_nil_r. apply Hnv. set_solver.
  - intros u (l & Hu & (n & -> & [_ Hn]%elem_of_list_filter)%elem_of_list_fmap)%CoarsenProof.elem_of_concat.
    destruct (co_inc2 _ HC _ _ Hn Hu) as (v & Hv & <- & _). by apply elem_of_list_fmap_1.
Qed.
Lemma two_distinct {A} (l : list A) : NoDup l → (1 < length l)%nat ↔ ∃ x y, x ∈ l ∧ y ∈ l ∧ x ≠ y.
Proof.
  intros Hnd. split.
  - destruct l as [|x [|y l]]; simpl; [lia..|]. intros _. exists x, y. apply NoDup_cons in Hnd as [Hx _]. set_solver.
  - intros (x & y & Hx & Hy & Hne). destruct l as [|a [|b l]]; simpl; [set_solver| |lia]. set_solver.
Qed.

Section aside.
  Context (gn : Z) (Hs : list hg) (HD : distributed gn Hs) (Cs : list contraction) (rs : list (contraction * hg)) (n : Z).
  Context (HlC : length Cs = length Hs) (Hlr : length rs = length Hs).
  Context (Hr : ∀ t C H r, Cs !! t = Some C → Hs !! t = Some H → rs !! t = Some r → aside_at Hs n C H r).
  Let Ks := snd <$> rs.

  Lemma aside_lookup t r : rs !! t = Some r → ∃ C H, Cs !! t = Some C ∧ Hs !! t = Some H ∧ aside_at Hs n C H r.
  Proof.
    intros Hrt. pose proof (lookup_lt_Some _ _ _ Hrt) as Hlt. destruct (lookup_lt_is_Some_2 Cs t) as [C HC]; [lia|].
    destruct (lookup_lt_is_Some_2 Hs t) as [H HH]; [lia|]. exists C, H. split_and!; try done. by eapply Hr.
  Qed.
  Lemma aside_all_nets : all_nets Ks = all_nets Hs.
  Proof.
    unfold all_nets, Ks. rewrite <-list_fmap_compose. f_equal. apply list_eq_same_length with (length Hs); [by rewrite fmap_length|by rewrite fmap_length|].
    intros t x y Ht. rewrite !list_lookup_fmap. destruct (rs !! t) as [r|] eqn:Hrt; [|done]. destruct (Hs !! t) as [H|] eqn:HH; [|done]. intros [= <-] [= <-].
    destruct (aside_lookup t r Hrt) as (C & H' & _ & HH' & Ha). rewrite HH in HH'. injection HH' as <-. apply (aa_nets _ _ _ _ _ Ha).
  Qed.
  Lemma aside_all_verts : all_verts Hs ≡ₚ filter is_free (all_verts Hs) ++ all_verts Ks.
  Proof.
    unfold all_verts, Ks. rewrite filter_concat, <-list_fmap_compose. clear HD.
    assert (Forall2 (λ H r, h_verts H ≡ₚ filter is_free (h_verts H) ++ h_verts (snd r)) Hs rs) as HF.
    { apply Forall2_same_length_lookup. split; [done|]. intros t H r HH Hrt. destruct (aside_lookup t r Hrt) as (C & H' & _ & HH' & Ha).
      rewrite HH in HH'. injection HH' as <-. apply (aa_verts _ _ _ _ _ Ha). }
    clear -HF. induction HF as [|H r Hs rs Hp _ IH]; [done|]. csimpl. unfold compose in IH |- *. rewrite IH at 1. rewrite Hp at 1. solve_Permutation.
  Qed.
  Lemma frees_free : frees Hs = free_of (all_verts Hs).
  Proof. unfold frees, free_of, all_verts. rewrite filter_concat. rewrite <-list_fmap_compose, fmap_concat_fmap. done. Qed.
  Lemma aside_free : all_free (fst <$> rs) = free_of (all_verts Hs).
  Proof.
    rewrite <-frees_free. unfold all_free, frees. rewrite <-list_fmap_compose. f_equal. apply list_eq_same_length with (length Hs); [by rewrite fmap_length|by rewrite fmap_length|].
    intros t x y Ht. rewrite !list_lookup_fmap. destruct (rs !! t) as [r|] eqn:Hrt; [|done]. destruct (Hs !! t) as [H|] eqn:HH; [|done]. intros [= <-] [= <-].
    destruct (aside_lookup t r Hrt) as (C & H' & _ & HH' & Ha). rewrite HH in HH'. injection HH' as <-. unfold compose. by rewrite (aa_contr _ _ _ _ _ Ha).
  Qed.
  Lemma aside_idw : (idw <$> all_verts Ks) ++ all_free (fst <$> rs) ≡ₚ idw <$> all_verts Hs.
  Proof.
    rewrite aside_free. etransitivity; [|apply fmap_Permutation; symmetry; exact aside_all_verts]. rewrite fmap_app. unfold free_of.
    change (λ v, (v_id v, v_weight v)) with idw. apply Permutation_app_comm.
  Qed.
  Lemma aside_clusters : all_clusters (fst <$> rs) = all_clusters Cs.
  Proof.
    unfold all_clusters. rewrite <-list_fmap_compose. f_equal. apply list_eq_same_length with (length Hs); [by rewrite fmap_length|by rewrite fmap_length|].
    intros t x y Ht. rewrite !list_lookup_fmap. destruct (rs !! t) as [r|] eqn:Hrt; [|done]. destruct (Cs !! t) as [C|] eqn:HC; [|done]. intros [= <-] [= <-].
    destruct (aside_lookup t r Hrt) as (C' & H' & HC' & HH' & Ha). rewrite HC in HC'. injection HC' as <-. unfold compose. by rewrite (aa_contr _ _ _ _ _ Ha).
  Qed.
  Lemma aside_distributed : distributed gn Ks.
  Proof.
    assert (∀ K, K ∈ Ks → ∃ t C H r, K = snd r ∧ Cs !! t = Some C ∧ Hs !! t = Some H ∧ aside_at Hs n C H r) as HK.
    { intros K (r & -> & [t Hrt]%elem_of_list_lookup)%elem_of_list_fmap. destruct (aside_lookup t r Hrt) as (C & H & HC & HH & Ha). exists t, C, H, r. done. }
    split.
    - intros K HKK. destruct (HK K HKK) as (t & C & H & r & -> & _ & _ & Ha). apply (aa_cons _ _ _ _ _ Ha).
    - intros K HKK. destruct (HK K HKK) as (t & C & H & r & -> & _ & HH & Ha). rewrite (aa_gnets _ _ _ _ _ Ha). apply (di_gnets _ _ HD). by eapply elem_of_list_lookup_2.
    - pose proof (di_verts _ _ HD) as Hv. rewrite aside_all_verts, fmap_app in Hv. by apply NoDup_app in Hv as (_ & _ & ?).
    - rewrite aside_all_nets. apply (di_range _ _ HD).
    - rewrite aside_all_nets. apply (di_cost _ _ HD).
  Qed.
  Lemma aside_gverts nid : gverts Ks nid = gverts Hs nid.
  Proof. unfold gverts, pieces. by rewrite aside_all_nets. Qed.
  Lemma aside_whole : whole_nets Ks gn = whole_nets Hs gn.
  Proof. unfold whole_nets, gverts, gcost, pieces. by rewrite aside_all_nets. Qed.
  Lemma aside_not_free v : v ∈ all_verts Ks → v ∈ all_verts Hs ∧ v_nets v ≠ [].
  Proof.
    intros Hv. split; [rewrite aside_all_verts; set_solver|]. intros He.
    assert (NoDup (all_verts Hs)) as Hnd by (eapply NoDup_fmap_1, (di_verts _ _ HD)). rewrite aside_all_verts in Hnd. apply NoDup_app in Hnd as (_ & Hd & _).
    apply (Hd v); [|done]. apply elem_of_list_filter. split; [done|]. rewrite aside_all_verts. set_solver.
  Qed.
End aside.

Lemma snr_idw m Hs0 H H' : small_nets_removed m Hs0 H H' → idw <$> h_verts H' = idw <$> h_verts H ∧ v_part <$> h_verts H' = v_part <$> h_verts H.
Proof.
  intros Hr. pose proof (sr_verts _ _ _ _ Hr) as Hv. induction Hv as [|v v' l l' (E1 & E2 & E3 & _) _ [IH1 IH2]]; [done|]. csimpl.
  rewrite IH1, IH2, E3. split; [|done]. f_equal. unfold idw. by rewrite E1, E2.
Qed.

Section result.
  Context (bp : Z → Z → partitioning) (Hbp : lawful_family bp) (gn : Z) (Hgn : 0 ≤ gn) (Hs : list hg) (Hne : Hs ≠ []) (HD : distributed gn Hs).
  Context (samples : list (list Z)) (opts : options).
  Let S := o_sample_size opts.
  Let mcs := o_max_clustersize opts.
  Context (HS : 0 ≤ S) (Hok : samples_of S Hs samples).

  Lemma result_intro (accs : list acc_t) (HC0s H1s : list hg) (rs : list (contraction * hg)) size :
    matched_up Hs samples S mcs accs → length HC0s = length Hs →
    (∀ t H acc HC, Hs !! t = Some H → accs !! t = Some acc → HC0s !! t = Some HC → coarse_at gn Hs (all_matched accs) acc size H HC) →
    length H1s = length HC0s →
    (∀ t H H', HC0s !! t = Some H → H1s !! t = Some H' → small_nets_removed 1 HC0s H H' ∧ consistent H') →
    length rs = length H1s →
    (∀ t C H r, (fst <$> accs) !! t = Some C → H1s !! t = Some H → rs !! t = Some r →
       aside_at H1s (Z.of_nat (length (all_verts (snd <$> rs)))) C H r) →
    coarsened_par gn mcs Hs samples (snd <$> rs) (fst <$> rs).
  Proof.
    intros Hmu L0 Hca L1 Hsr Lr Har. pose proof (mu_len _ _ _ _ _ Hmu) as La.
    assert (length samples = length Hs) as Hlen by (symmetry; by eapply Forall2_length).
    assert (∀ t H sm, Hs !! t = Some H → samples !! t = Some sm → NoDup sm ∧ in_range H sm ∧ Z.of_nat (length sm) ≤ S) as Hok'.
    { intros t H sm HH Hss. exact (Forall2_lookup_lr _ _ _ _ _ _ Hok HH Hss). }
    assert (∀ t H sm, Hs !! t = Some H → samples !! t = Some sm → in_range H sm ∧ Z.of_nat (length sm) ≤ S) as Hsm by (intros; by eapply Hok').
    assert (∀ sm, sm ∈ samples → NoDup sm) as Hsnd.
    { intros sm [t Ht]%elem_of_list_lookup. destruct (lookup_lt_is_Some_2 Hs t) as [H HH]; [rewrite <-Hlen; by eapply lookup_lt_Some|]. by eapply Hok'. }
    set (cl := concat (acc_clusters <$> accs)).
    assert (all_clusters (fst <$> accs) = cl) as Hcl by (unfold all_clusters, cl; by rewrite <-list_fmap_compose).
    pose proof (cl_snd gn Hs HD samples S mcs accs HS Hlen Hsm Hsnd Hmu) as Hsnd2. fold cl in Hsnd2.
    pose proof (cl_fst Hs samples S mcs accs Hlen Hmu) as Hfst2. fold cl in Hfst2.
    assert (NoDup ((fst <$> cl) ++ concat (snd <$> cl))) as Hnd by (eapply cl_nodup; done).
    assert (∀ x, x ∈ (fst <$> cl) ++ concat (snd <$> cl) → x ∈ v_id <$> all_verts Hs) as Hin.
    { intros x [Hx|Hx]%elem_of_app.
      - rewrite Hfst2 in Hx. apply CoarsenProof.elem_of_concat in Hx as (ids & Hx & (acc & -> & [s Hs']%elem_of_list_lookup)%elem_of_list_fmap).
        destruct (lookup_lt_is_Some_2 Hs s) as [H HH]; [rewrite <-La; by eapply lookup_lt_Some|].
        destruct (sample_ids_vids gn Hs HD samples S mcs accs Hlen Hsnd Hmu s H acc HH Hs') as [_ Hsub].
        apply Hsub in Hx. apply elem_of_list_fmap in Hx as (v & -> & Hv). apply elem_of_list_fmap_1, all_verts_elem. exists H. split; [by eapply elem_of_list_lookup_2|done].
      - rewrite Hsnd2 in Hx. by eapply M_vids. }
    assert (merged gn Hs cl HC0s) as Hme by (eapply merged_intro; done).
    pose proof (merged_distributed gn Hs HC0s cl HD Hme) as HD0.
    assert (distributed gn H1s) as HD1 by (eapply (snr_distributed gn HC0s); done).
    assert (length (fst <$> accs) = length H1s) as LC by (rewrite fmap_length; lia).
    assert (length rs = length Hs) as Lr' by lia.
    pose proof (aside_distributed gn H1s HD1 (fst <$> accs) rs _ LC Lr Har) as HDK.
    pose proof (aside_idw H1s (fst <$> accs) rs _ LC Lr Har) as Hidw.
    pose proof (aside_clusters H1s (fst <$> accs) rs _ LC Lr Har) as Hcl2. rewrite Hcl in Hcl2.
    pose proof (aside_all_nets H1s (fst <$> accs) rs _ LC Lr Har) as Hnets.
    assert (∀ nid, gverts (snd <$> rs) nid = gverts H1s nid) as Hgv by (intros; by eapply aside_gverts).
    assert (∀ nid, gsize (snd <$> rs) nid = gsize H1s nid) as Hgs by (intros; unfold gsize; by rewrite Hgv).
    assert (idw <$> all_verts H1s = idw <$> all_verts HC0s ∧ v_part <$> all_verts H1s = v_part <$> all_verts HC0s) as [Hidw1 Hpart1].
    { unfold all_verts. rewrite !fmap_concat_fmap.
      split; f_equal; (apply list_eq_same_length with (length HC0s); [by rewrite fmap_length|by rewrite fmap_length|]);
      intros t x y Ht; rewrite !list_lookup_fmap; destruct (H1s !! t) as [H1|] eqn:E1; try done; destruct (HC0s !! t) as [H0|] eqn:E0; try done;
      intros [= <-] [= <-]; destruct (Hsr t H0 H1 E0 E1) as [Hx _]; by apply snr_idw in Hx as [? ?]. }
    rewrite Hidw1 in Hidw.
    assert (∀ vs, v_id <$> vs = fst <$> (idw <$> vs)) as Hfi by (intros vs; by rewrite <-list_fmap_compose).
    assert (∀ nid u, u ∈ gverts HC0s nid ↔ ∃ x, x ∈ gverts Hs nid ∧ rep cl x = u) as Hg0 by (intros; by eapply me_gverts).
    assert (∀ nid, gverts H1s nid ≡ₚ if decide (1 < gsize HC0s nid) then gverts HC0s nid else []) as Hg1 by (intros; eapply (snr_gverts HC0s H1s 1); done).
    split.
    - rewrite !fmap_length. done.
    - done.
    - intros t H sm C HH Hss HC. rewrite list_lookup_fmap in HC. destruct (rs !! t) as [r|] eqn:Hrt; [|done]. injection HC as <-.
      destruct (aside_lookup H1s (fst <$> accs) rs _ LC Lr Har t r Hrt) as (C' & H1 & HC' & _ & Ha). rewrite (aa_contr _ _ _ _ _ Ha). cbn [c_samples c_matches].
      rewrite list_lookup_fmap in HC'. destruct (accs !! t) as [acc|] eqn:Hacc; [|done]. injection HC' as <-.
      destruct (mu_loc _ _ _ _ _ Hmu t acc Hacc) as (H' & sm' & ids & ms & A1 & A2 & A3 & A4 & A5 & _). rewrite HH in A1. rewrite Hss in A2. injection A1 as <-. injection A2 as <-.
      rewrite A4. cbn [c_samples c_matches]. split; [|done]. eapply Forall2_impl; [exact A3|]. intros i id (v & [_ Hv]%zlookup_Some & Hid). eauto.
    - intros C l m t (r & -> & [s Hrt]%elem_of_list_lookup)%elem_of_list_fmap Hl Hm.
      destruct (aside_lookup H1s (fst <$> accs) rs _ LC Lr Har s r Hrt) as (C' & H1 & HC' & _ & Ha). rewrite (aa_contr _ _ _ _ _ Ha) in Hl. cbn [c_samples c_matches] in Hl.
      rewrite list_lookup_fmap in HC'. destruct (accs !! s) as [acc|] eqn:Hacc; [|done]. injection HC' as <-.
      apply elem_of_list_lookup in Hl as [k Hk]. destruct (acc_good Hs samples S mcs accs Hsm Hmu s acc k l m t Hacc Hk Hm) as (t' & H & -> & _ & HH & Hv & _). eauto.
    - by rewrite Hcl2.
    - rewrite Hcl2. intros c (cs & Hc & (acc & -> & [s Hacc]%elem_of_list_lookup)%elem_of_list_fmap)%CoarsenProof.elem_of_concat.
      destruct (mu_loc _ _ _ _ _ Hmu s acc Hacc) as (H' & sm' & ids & ms & A1 & A2 & A3 & A4 & A5 & A6 & _).
      unfold acc_clusters, clusters in Hc. rewrite A4 in Hc. cbn [c_samples c_matches] in Hc. destruct c as [a b]. apply elem_of_zip_r in Hc.
      apply elem_of_list_fmap in Hc as (l & -> & Hl). cbn [snd]. rewrite fmap_length. by apply A6.
    - rewrite Hcl2. intros c m (cs & Hc & (acc & -> & [s Hacc]%elem_of_list_lookup)%elem_of_list_fmap)%CoarsenProof.elem_of_concat Hm.
      destruct (mu_loc _ _ _ _ _ Hmu s acc Hacc) as (H' & sm' & ids & ms & A1 & A2 & A3 & A4 & A5 & A6 & A7 & A8).
      unfold acc_clusters, clusters in Hc. rewrite A4 in Hc. cbn [c_samples c_matches] in Hc. apply elem_of_list_lookup in Hc as [k Hk].
      apply lookup_zip_with_Some in Hk as (a & b & -> & Ha & Hb). rewrite list_lookup_fmap in Hb. destruct (ms !! k) as [l|] eqn:Hl; [|done]. injection Hb as <-.
      cbn [fst snd] in *. apply elem_of_list_fmap in Hm as ([m' t] & -> & Hm). cbn [fst].
      destruct (A8 k m' t) as (t' & -> & Hg); [apply elem_of_tagged; exists k, l; done|].
      destruct Hg as (H1 & sm1 & i & u & H2 & sm2 & j & v & n & B1 & B2 & B3 & B4 & B5 & B6 & B7 & B8 & B9 & B10).
      rewrite A1 in B1. rewrite A2 in B2. injection B1 as <-. injection B2 as <-. destruct (Forall2_lookup_lr _ _ _ _ _ _ A3 B3 Ha) as (u' & Hu' & Hid).
      rewrite B4 in Hu'. injection Hu' as <-. apply zlookup_Some in B4 as [_ B4]. exists u, v, n. split_and!; try done.
      + apply all_verts_elem. exists H'. split; by eapply elem_of_list_lookup_2.
      + apply all_verts_elem. exists H2. split; by eapply elem_of_list_lookup_2.
      + tauto.
      + tauto.
    - rewrite Hcl2. rewrite <-(me_vids_split gn Hs HC0s cl HD Hnd Hin Hme). rewrite app_assoc. f_equiv. rewrite !Hfi, <-fmap_app. by rewrite Hidw.
    - intros t H HC C id HH HHC HCC Hid. rewrite list_lookup_fmap in HHC; rewrite list_lookup_fmap in HCC. destruct (rs !! t) as [r|] eqn:Hrt; [|done]. injection HHC as <-. injection HCC as <-.
      destruct (aside_lookup H1s (fst <$> accs) rs _ LC Lr Har t r Hrt) as (C' & H1 & HC' & HH1 & Ha). rewrite (aa_contr _ _ _ _ _ Ha) in Hid. cbn [c_free] in Hid.
      destruct (lookup_lt_is_Some_2 HC0s t) as [H0 HH0]; [rewrite L0; by eapply lookup_lt_Some|]. destruct (Hsr t H0 H1 HH0 HH1) as [Hx _].
      assert (id ∈ v_id <$> h_verts H1) as Hid1.
      { rewrite (aa_verts _ _ _ _ _ Ha), fmap_app, elem_of_app. apply elem_of_app in Hid as [Hid|Hid]; [by right|left]. unfold free_of in Hid. rewrite <-list_fmap_compose in Hid. done. }
      rewrite Hfi, (proj1 (snr_idw _ _ _ _ Hx)), <-Hfi, (me_ids _ _ _ _ Hme t H H0 HH HH0) in Hid1.
      apply elem_of_list_fmap in Hid1 as (v & -> & [_ Hv]%elem_of_list_filter). by apply elem_of_list_fmap_1.
    - intros id wt Hw. rewrite Hcl2. change (λ v, (v_id v, v_weight v)) with idw in Hw. rewrite Hidw in Hw. apply elem_of_list_fmap in Hw as (c & [= -> ->] & Hc).
      by apply (me_weight _ _ _ _ Hme).
    - unfold gweight. pose proof (me_weights gn Hs HC0s cl HD Hnd Hin Hme (λ _, true)) as Hw. cbn in Hw. etransitivity; [|exact Hw]. change (λ c, v_weight c) with v_weight.
      assert (∀ vs, v_weight <$> vs = snd <$> (idw <$> vs)) as Hsi by (intros vs; by rewrite <-list_fmap_compose).
      rewrite Hsi, <-zsum_app, <-fmap_app. rewrite (zsum_perm _ (snd <$> (idw <$> all_verts HC0s))) by (by rewrite Hidw). rewrite <-Hsi. done.
    - intros C (r & -> & [t Hrt]%elem_of_list_lookup)%elem_of_list_fmap. destruct (aside_lookup H1s (fst <$> accs) rs _ LC Lr Har t r Hrt) as (C' & H1 & _ & _ & Ha).
      by rewrite (aa_contr _ _ _ _ _ Ha).
    - intros C (r & -> & [t Hrt]%elem_of_list_lookup)%elem_of_list_fmap. destruct (aside_lookup H1s (fst <$> accs) rs _ LC Lr Har t r Hrt) as (C' & H1 & _ & _ & Ha).
      rewrite (aa_contr _ _ _ _ _ Ha). cbn [c_global_free]. by rewrite (aside_free H1s (fst <$> accs) rs _ LC Lr Har), frees_free.
    - intros m σ. rewrite Hcl2, (aside_whole gn H1s (fst <$> accs) rs _ LC Lr Har). destruct (snr_cuts gn HC0s H1s 1 HD0 L1 Hsr σ ltac:(lia)) as [C1 C2].
      destruct (me_cuts gn Hs HC0s cl HD Hnd Hin Hme σ) as [C3 C4]. destruct m; simpl; congruence.
    - intros σ p. rewrite Hcl2. unfold gassigned. change (zsum (_ <$> [])) with 0. rewrite Z.add_0_r.
      pose proof (me_weights gn Hs HC0s cl HD Hnd Hin Hme (λ u, bool_decide (σ u = p))) as Hw. cbn in Hw.
      assert (∀ vs, (λ v, if decide (σ (v_id v) = p) then v_weight v else 0) <$> vs = fidw σ p <$> (idw <$> vs)) as Hsi by (intros vs; by rewrite <-list_fmap_compose).
      rewrite Hsi. change (λ f : Z * Z, if decide (σ (fst f) = p) then snd f else 0) with (fidw σ p).
      rewrite <-zsum_app, <-fmap_app. rewrite (zsum_perm _ (fidw σ p <$> (idw <$> all_verts HC0s))) by (by rewrite Hidw). rewrite <-Hsi.
      etransitivity; [|etransitivity; [exact Hw|]]; apply zsum_fmap_ext; intros v _; simpl; by repeat case_decide || case_bool_decide.
    - intros nid u. rewrite Hcl2, Hgv, Hg1. pose proof (gverts_NoDup gn HC0s nid HD0) as Hndg. pose proof (two_distinct _ Hndg) as H2. case_decide as Hd.
      + rewrite Hg0. split; [|tauto]. intros Hu. split; [done|]. destruct (proj1 H2) as (a & b & (x & Hx & <-)%Hg0 & (y & Hy & <-)%Hg0 & Hab); [unfold gsize in Hd; lia|]. eauto 6.
      + split; [set_solver|]. intros [_ (x & y & Hx & Hy & Hxy)]. destruct Hd. unfold gsize. enough (1 < length (gverts HC0s nid))%nat by lia. apply H2.
        exists (rep cl x), (rep cl y). split_and!; [apply Hg0; eauto..|done].
    - intros n. rewrite Hnets. intros Hn. rewrite Hgs. pose proof (snr_all_nets HC0s H1s 1 L1 Hsr) as Hp. pose proof Hn as Hn'. rewrite Hp in Hn'.
      apply elem_of_list_fmap in Hn' as (n0 & -> & [[Hlt Hnv] Hn0]%elem_of_list_filter). cbn [n_id n_verts n_cost n_gsize].
      rewrite (snr_gsize HC0s H1s 1 L1 Hsr (n_id n0)), decide_True by done. split_and!; [done|lia|done|].
      destruct (me_src _ _ _ _ Hme n0 Hn0) as (e & He & <- & <-). symmetry. by apply (gcost_elem gn).
    - intros v Hv. destruct (aside_not_free gn H1s HD1 (fst <$> accs) rs _ LC Lr Har v Hv) as [Hv1 Hnf]. split; [done|].
      assert (v_part v ∈ v_part <$> all_verts H1s) as Hp by (by apply elem_of_list_fmap_1). rewrite Hpart1 in Hp. apply elem_of_list_fmap in Hp as (c & -> & Hc).
      by apply (me_part _ _ _ _ Hme).
    - intros K (r & -> & [t Hrt]%elem_of_list_lookup)%elem_of_list_fmap. destruct (aside_lookup H1s (fst <$> accs) rs _ LC Lr Har t r Hrt) as (C' & H1 & _ & _ & Ha).
      apply (aa_gsize _ _ _ _ _ Ha).
  Qed.

  Lemma wpe_coarsen_samples E (Q : list (hg * contraction) → Prop) :
    (∀ res, coarsened_par gn mcs Hs samples (fst <$> res) (snd <$> res) → Q res) →
    wpe E (coarsen_samples bp Hs (replicate (length Hs) new_contraction) samples opts) Q.
  Proof.
    intros HQ.
    assert (length samples = length Hs) as Hlen by (symmetry; by eapply Forall2_length).
    assert (∀ t H sm, Hs !! t = Some H → samples !! t = Some sm → in_range H sm ∧ Z.of_nat (length sm) ≤ S) as Hsm.
    { intros t H sm HH Hss. destruct (Forall2_lookup_lr _ _ _ _ _ _ Hok HH Hss) as (_ & ? & ?). done. }
    eapply (wpe_match_phase bp gn Hs HD samples opts HS Hlen Hsm). intros accs Hmu.
    apply (wpe_told gn Hs HD samples S mcs accs HS Hsm Hmu E (λ ib mt, contract_par bp Hs (fst <$> accs) samples ib mt)). intros iboxes matcheds Hto.
    eapply (wpe_contract_par bp gn Hs HD samples S mcs accs Hlen Hsm Hmu iboxes matcheds Hto). intros HC0s L0 Hca.
    pose proof (mu_len _ _ _ _ _ Hmu) as La.
    assert (merged gn Hs (concat (acc_clusters <$> accs)) HC0s) as Hme.
    { eapply merged_intro; try done. intros sm [t Ht]%elem_of_list_lookup. destruct (lookup_lt_is_Some_2 Hs t) as [H HH]; [rewrite <-Hlen; by eapply lookup_lt_Some|].
      by destruct (Forall2_lookup_lr _ _ _ _ _ _ Hok HH Ht) as (? & _). }
    pose proof (merged_distributed gn Hs HC0s _ HD Hme) as HD0.
    apply wpe_bind. eapply (wpe_remove_free_nets_par bp Hbp gn HC0s HD0 Hgn); [intros ->; by destruct Hs|]. intros H1s L1 Hsr.
    apply wpe_bind. apply wpe_merge_free_par.
    - rewrite fmap_length. congruence.
    - intros C (acc & -> & [s Hacc]%elem_of_list_lookup)%elem_of_list_fmap. destruct (mu_loc _ _ _ _ _ Hmu s acc Hacc) as (H' & sm' & ids & ms & A1 & A2 & A3 & -> & _). done.
    - intros H [t Ht]%elem_of_list_lookup. destruct (lookup_lt_is_Some_2 HC0s t) as [H0 HH0]; [rewrite <-L1; by eapply lookup_lt_Some|]. by eapply Hsr.
    - intros rs Lr Har. apply wpe_ret, HQ. rewrite <-!list_fmap_compose.
      change (fst ∘ (λ r : contraction * hg, (snd r, fst r))) with (λ r : contraction * hg, snd r).
      change (snd ∘ (λ r : contraction * hg, (snd r, fst r))) with (λ r : contraction * hg, fst r).
      eapply result_intro; done.
  Qed.
End result.
