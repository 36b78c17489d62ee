(** Proofs about parallel coarsening: the coarse hypergraphs before small nets and free vertices go. *)
From Verif Require Export CparTold.

Notation acc_t := (contraction * list (Z * (Z * Z)))%type.
Definition acc_clusters (acc : acc_t) : list (Z * list Z) := clusters (c_samples (fst acc)) (c_matches (fst acc)).

Lemma filter_concat {A} (P : A → Prop) {HP : ∀ x, Decision (P x)} (ls : list (list A)) :
  filter P (concat ls) = concat (filter P <$> ls).
Proof. induction ls as [|l ls IH]; [done|]. csimpl. rewrite filter_app. by rewrite IH. Qed.
Lemma cp_ok_mono src src' vs s : (∀ e, e ∈ src → e ∈ src') → cp_ok src vs s → cp_ok src' vs s.
Proof. intros Hsub [H1 H2 H3]. split; try done. intros n Hn. destruct (H3 n Hn) as (e & ? & ?). eauto. Qed.

(** the coarse hypergraph [HC] of the processor with [H] and accepted matches [acc] *)
Record coarse_at (gn : Z) (Hs : list hg) (M : list Z) (acc : acc_t) (size : Z) (H HC : hg) : Prop := {
  ca_cons : consistent HC;
  ca_ids : v_id <$> h_verts HC = v_id <$> filter (λ v, v_id v ∉ M) (h_verts H);
  ca_verts : ∀ c, c ∈ h_verts HC → ∃ v, v ∈ h_verts H ∧ v_id v ∉ M ∧ v_id c = v_id v ∧ v_part c = -1 ∧
    v_weight c = v_weight v + zsum ((λ cl : Z * list Z, if decide (fst cl = v_id v) then zsum ((λ m, v_weight (vert_of Hs m)) <$> snd cl) else 0) <$> acc_clusters acc) ∧
    ∀ n, n ∈ v_nets c ↔ n ∈ v_nets v ∨ ∃ cl m, cl ∈ acc_clusters acc ∧ fst cl = v_id v ∧ m ∈ snd cl ∧ n ∈ v_nets (vert_of Hs m);
  ca_nets : ∀ n, n ∈ h_nets HC → ∃ e, e ∈ all_nets Hs ∧ n_id e = n_id n ∧ n_cost e = n_cost n;
  ca_gnets : h_gnets HC = gn;
  ca_gsize : h_gsize HC = size;
  ca_dups : h_dups HC = [];
}.

Section contract.
  Context (bp : Z → Z → partitioning).
  Context (gn : Z) (Hs : list hg) (HD : distributed gn Hs) (samples : list (list Z)) (S mcs : Z) (accs : list acc_t).
  Let p := length Hs.
  Context (HS : 0 ≤ S) (Hlen : length samples = length Hs).
  Context (Hsm : ∀ t H sm, Hs !! t = Some H → samples !! t = Some sm → in_range H sm ∧ Z.of_nat (length sm) ≤ S).
  Context (Hmu : matched_up Hs samples S mcs accs).
  Context (iboxes : list (list info_msg)) (matcheds : list (list bool)) (Hto : told Hs samples accs iboxes matcheds).
  Let M := all_matched accs.

  (** samples are never matched *)
  Lemma sample_unmatched s H sm acc id : Hs !! s = Some H → samples !! s = Some sm → accs !! s = Some acc → id ∈ c_samples (fst acc) →
    id ∉ M ∧ ∃ v, v ∈ h_verts H ∧ v_id v = id.
  Proof.
    intros HH Hs' Hacc Hid. destruct (mu_loc _ _ _ _ _ Hmu s acc Hacc) as (H1 & sm1 & ids & ms & A1 & A2 & A3 & A4 & _).
    rewrite HH in A1. injection A1 as <-. rewrite Hs' in A2. injection A2 as <-. rewrite A4 in Hid. cbn [c_samples] in Hid.
    apply elem_of_list_lookup in Hid as [k Hk]. destruct (Forall2_lookup_r _ _ _ _ _ A3 Hk) as (i & Hi & v & Hv & Hvid).
    pose proof Hv as [Hi0 Hv']%zlookup_Some. split; [|exists v; split; [by eapply elem_of_list_lookup_2|done]].
    intros (s2 & acc2 & k2 & l & t & B1 & B2 & B3)%all_matched_elem.
    destruct (acc_good Hs samples S mcs accs Hsm Hmu s2 acc2 k2 l id t B1 B2 B3) as (t' & H' & -> & Hg & HH' & Hin & _).
    destruct Hg as (_ & _ & _ & _ & H2 & sm2 & j & u & n & _ & _ & _ & _ & C1 & C2 & C3 & C4 & C5 & _).
    rewrite HH' in C1. injection C1 as <-.
    assert (s = t') as <-. { eapply (same_processor gn Hs); [done|exact HH|exact HH'| |exact Hin]. rewrite <-Hvid. apply elem_of_list_fmap_1. by eapply elem_of_list_lookup_2. }
    rewrite HH in HH'. injection HH' as <-. rewrite Hs' in C2. injection C2 as <-. apply C5.
    assert (j = Z.to_nat i) as ->; [|rewrite Z2Nat.id by lia; by eapply elem_of_list_lookup_2].
    assert (consistent H) as HC by (apply (di_local _ _ HD); by eapply elem_of_list_lookup_2).
    eapply NoDup_lookup; [exact (co_vid _ HC)|by rewrite list_lookup_fmap, C3|]. rewrite list_lookup_fmap, Hv'. simpl. congruence.
  Qed.

  (** the coarse vertices a processor starts with, and what its samples are to take up *)
  Definition start_at (t : nat) (H : hg) (acc : acc_t) (x : list Z * list (gset Z) * cp_state) : Prop :=
    let ws := fst (fst x) in let ls := snd (fst x) in
    length ws = length (c_samples (fst acc)) ∧ length ls = length (c_samples (fst acc)) ∧
    (∀ k l w, c_matches (fst acc) !! k = Some l → ws !! k = Some w → w = zsum ((λ mt, v_weight (vert_of Hs (fst mt))) <$> l)) ∧
    (∀ k l X n, c_matches (fst acc) !! k = Some l → ls !! k = Some X → n ∈ X ↔ ∃ mt, mt ∈ l ∧ n ∈ v_nets (vert_of Hs (fst mt))) ∧
    (∀ k X n, ls !! k = Some X → n ∈ X → n ∈ n_id <$> cp_nets (snd x)) ∧
    cp_ok (all_nets Hs) (cp_verts (snd x)) (snd x) ∧ cp_verts (snd x) = CoarsenProof.fresh <$> filter (λ v, v_id v ∉ M) (h_verts H).

  Lemma wpe_start E t H sm box mt acc (Q : list Z * list (gset Z) * cp_state → Prop) :
    Hs !! t = Some H → samples !! t = Some sm → iboxes !! t = Some box → matcheds !! t = Some mt → accs !! t = Some acc →
    (∀ x, start_at t H acc x → Q x) → wpe E (s <- cp_unmatched H mt ;; cp_infos (length sm) box s) Q.
  Proof.
    intros HH Hss Hb Hmt Hacc HQ. assert (H ∈ Hs) as HHs by (by eapply elem_of_list_lookup_2). pose proof (di_local _ _ HD _ HHs) as HC.
    destruct (to_matched _ _ _ _ _ Hto t H mt HH Hmt) as [Lm Hm].
    destruct (mu_loc _ _ _ _ _ Hmu t acc Hacc) as (H1 & sm1 & ids & ms & A1 & A2 & A3 & A4 & A5 & _).
    rewrite HH in A1. injection A1 as <-. rewrite Hss in A2. injection A2 as <-. apply Forall2_length in A3.
    apply wpe_bind. apply (wpe_cp_unmatched E H M mt); [done..|]. intros s Hok Hv.
    apply (wpe_cp_infos E (all_nets Hs)).
    - intros m Hmb. by apply (to_range _ _ _ _ _ Hto t box sm m Hb Hss).
    - eapply cp_ok_mono; [|exact Hok]. intros e He. apply all_nets_elem. eauto.
    - intros ws ls s' L1 L2 W N Ok' Hv' Hk Hnew. apply HQ. unfold start_at. cbn [fst snd]. rewrite A4. cbn [c_samples c_matches].
      assert (∀ k X n, ls !! k = Some X → n ∈ X → n ∈ n_id <$> cp_nets s') as Hin.
      { intros k X n HX Hn. apply (N k X n HX) in Hn as (m & Hmb & _ & Hn). by apply (Hnew m). }
      split_and!; [lia|lia| | |done|done|by rewrite Hv'].
      + intros k l w Hl Hw. rewrite (W k w Hw). apply (to_weight _ _ _ _ _ Hto t box acc k l Hb Hacc). by rewrite A4.
      + intros k l X n Hl HX. rewrite (N k X n HX). apply (to_nets _ _ _ _ _ Hto t box acc k l n Hb Hacc). by rewrite A4.
  Qed.

  Lemma wpe_grow E t H sm acc x size (Q : hg → Prop) :
    Hs !! t = Some H → samples !! t = Some sm → accs !! t = Some acc → start_at t H acc x →
    (∀ HC, coarse_at gn Hs M acc size H HC → Q HC) →
    wpe E (foldM (cp_sample H sm (fst (fst x)) (snd (fst x))) (seq 0 (length sm)) (mk_hg size (h_gnets H) (cp_verts (snd x)) (cp_nets (snd x)) 0)) Q.
  Proof.
    intros HH Hss Hacc (L1 & L2 & W & N & Hin & Hok & Hv) HQ. assert (H ∈ Hs) as HHs by (by eapply elem_of_list_lookup_2).
    destruct x as [[ws ls] s]. cbn [fst snd] in *. destruct Hok as [Hlk Hids Hsrc].
    pose proof (mu_loc _ _ _ _ _ Hmu t acc Hacc) as (H1 & sm1 & ids & ms & A1 & A2 & A3 & A4 & A5 & _).
    rewrite HH in A1. injection A1 as <-. rewrite Hss in A2. injection A2 as <-. pose proof (Forall2_length _ _ _ A3) as A6.
    rewrite A4 in L1, L2, W, N. cbn [c_samples c_matches] in *.
    eapply (wpe_cp_samples E H sm ids).
    - by apply linked_mk_hg.
    - done.
    - intros id Hid. unfold vids. cbn [mk_hg h_verts update_map_nets update_map with_vmap with_nmap]. rewrite Hv, <-list_fmap_compose.
      destruct (sample_unmatched t H sm acc id HH Hss Hacc) as [Hnm (v & Hvin & <-)]; [by rewrite A4|].
      apply elem_of_list_fmap. exists v. split; [done|]. by apply elem_of_list_filter.
    - lia.
    - lia.
    - intros i X n HX Hn. unfold nids. cbn. by eapply Hin.
    - intros HC HCc Hg Hf. apply HQ. cbn [mk_hg h_verts update_map_nets update_map with_vmap with_nmap] in Hg. rewrite Hv in Hg.
      assert (length sm = length (zip ids ws)) as Hlz by (rewrite zip_with_length; lia).
      split.
      + done.
      + clear -Hg. revert Hg. generalize (filter (λ v, v_id v ∉ M) (h_verts H)) (h_verts HC). intros l l' Hg.
        remember (CoarsenProof.fresh <$> l) as l0 eqn:Hl. revert l Hl. induction Hg as [|c c' l0 l' (E1 & _) _ IH]; intros [|v l] Hl; try done.
        csimpl in Hl. injection Hl as -> ->. csimpl. f_equal; [done|]. by apply IH.
      + intros c' [i Hi]%elem_of_list_lookup. destruct (Forall2_lookup_r _ _ _ _ _ Hg Hi) as (c & Hc & E1 & E2 & E3 & E4).
        rewrite list_lookup_fmap in Hc. destruct (filter _ _ !! i) as [v|] eqn:Hvi; [|done]. injection Hc as <-.
        apply elem_of_list_lookup_2, elem_of_list_filter in Hvi as [Hnm Hvin]. exists v. split_and!; try done.
        * rewrite E3. cbn [CoarsenProof.fresh v_weight v_id]. f_equal. rewrite take_ge by lia. unfold acc_clusters, clusters. rewrite A4. cbn [c_samples c_matches].
          apply (zsum_Forall2 (λ a b, fst a = fst b ∧ snd a = zsum ((λ m, v_weight (vert_of Hs m)) <$> snd b))).
          -- apply Forall2_same_length_lookup. rewrite !zip_with_length, fmap_length. split; [lia|]. intros j a b Ha Hb.
             apply lookup_zip_with_Some in Ha as (id & w & -> & Hid & Hw). apply lookup_zip_with_Some in Hb as (id' & l & -> & Hid' & Hl).
             rewrite Hid in Hid'. injection Hid' as <-. split; [done|]. cbn [snd]. rewrite list_lookup_fmap in Hl. destruct (ms !! j) as [l0|] eqn:Hl0; [|done]. injection Hl as <-.
             rewrite (W j l0 w Hl0 Hw), <-list_fmap_compose. done.
          -- intros a b _ [-> ->]. done.
        * intros n. rewrite E4. cbn [CoarsenProof.fresh v_nets v_id]. unfold acc_clusters, clusters. rewrite A4. cbn [c_samples c_matches]. f_equiv. split.
          -- intros (j & X & Hj & Hid & HX & Hn). destruct (lookup_lt_is_Some_2 ms j) as [l Hl]; [lia|]. destruct (proj1 (N j l X n Hl HX) Hn) as ([m tm] & Hm & Hn').
             exists (v_id v, fst <$> l), m. split_and!; try done; [|by apply (elem_of_list_fmap_1 fst) in Hm].
             eapply (elem_of_list_lookup_2 _ j). apply lookup_zip_with_Some. exists (v_id v), (fst <$> l). split; [done|]. split; [done|]. by rewrite list_lookup_fmap, Hl.
          -- intros (cl & m & [j Hj]%elem_of_list_lookup & Hcl & Hm & Hn). apply lookup_zip_with_Some in Hj as (id & l' & -> & Hid & Hl').
             rewrite list_lookup_fmap in Hl'. destruct (ms !! j) as [l|] eqn:Hl; [|done]. injection Hl' as <-. cbn [fst snd] in *. subst id.
             destruct (lookup_lt_is_Some_2 ls j) as [X HX]; [rewrite L2; by eapply lookup_lt_Some|]. exists j, X. split_and!; [|done|done|].
             ++ apply lookup_lt_Some in Hid. lia.
             ++ apply (N j l X n Hl HX). apply elem_of_list_fmap in Hm as (mt & -> & Hm). eauto.
      + intros n [i Hi]%elem_of_list_lookup. destruct (Forall2_lookup_r _ _ _ _ _ (RedSend.fr_nets _ _ Hf) Hi) as (n0 & Hn0 & E1 & E2 & _).
        destruct (Hsrc n0) as (e & He & ? & ?); [by eapply elem_of_list_lookup_2|]. exists e. split_and!; [done|congruence..].
      + rewrite (RedSend.fr_gnets _ _ Hf). cbn. by eapply distributed_gnets.
      + by rewrite (RedSend.fr_gsize _ _ Hf).
      + by rewrite (RedSend.fr_dups _ _ Hf).
  Qed.

  Lemma wpe_contract_par E (Q : list (hg * contraction) → Prop) :
    (∀ HCs, length HCs = p →
       (∀ t H acc HC, Hs !! t = Some H → accs !! t = Some acc → HCs !! t = Some HC →
          coarse_at gn Hs M acc (Z.of_nat (length (filter (λ v, v_id v ∉ M) (all_verts Hs)))) H HC) →
       wpe E (HCs1 <- remove_free_nets_par bp HCs 1 ;; rs <- merge_free_vertices_par (fst <$> accs) HCs1 ;; ret ((λ r, (snd r, fst r)) <$> rs)) Q) →
    wpe E (contract_par bp Hs (fst <$> accs) samples iboxes matcheds) Q.
  Proof.
    intros HQ. unfold contract_par. fold p. pose proof (mu_len _ _ _ _ _ Hmu) as La. fold p in La.
    pose proof (to_len _ _ _ _ _ Hto) as Lib. pose proof (to_len2 _ _ _ _ _ Hto) as Lmt. fold p in Lib, Lmt, Hlen.
    apply wpe_bind. eapply (wpe_ranks E _ p (λ t x, ∀ H acc, Hs !! t = Some H → accs !! t = Some acc → start_at t H acc x)).
    { intros t Ht. destruct (lookup_lt_is_Some_2 Hs t Ht) as [H HH]. destruct (lookup_lt_is_Some_2 samples t) as [sm Hss]; [lia|].
      destruct (lookup_lt_is_Some_2 iboxes t) as [box Hb]; [lia|]. destruct (lookup_lt_is_Some_2 matcheds t) as [mt Hmt]; [lia|].
      destruct (lookup_lt_is_Some_2 accs t) as [acc Hacc]; [lia|].
      apply wpe_bind. eapply wpe_nidx; [done|]. apply wpe_bind. eapply wpe_nidx; [done|]. apply wpe_bind. eapply wpe_nidx; [done|]. apply wpe_bind. eapply wpe_nidx; [done|].
      eapply wpe_start; [done..|]. intros x Hx H' acc' HH' Hacc'. rewrite HH in HH'. rewrite Hacc in Hacc'. injection HH' as <-. injection Hacc' as <-. done. }
    intros xs Lx Hx.
    assert (bulk_sum ((λ x : list Z * list (gset Z) * cp_state, Z.of_nat (length (cp_verts (snd x)))) <$> xs) =
      replicate p (Z.of_nat (length (filter (λ v, v_id v ∉ M) (all_verts Hs))))) as Hsz.
    { unfold bulk_sum. rewrite fmap_length, Lx, foldl_add_zsum. f_equal. unfold all_verts. rewrite filter_concat, <-zsum_lengths, <-!list_fmap_compose.
      symmetry. apply (zsum_Forall2 (λ H x, cp_verts (snd x) = CoarsenProof.fresh <$> filter (λ v, v_id v ∉ M) (h_verts H))).
      - apply Forall2_same_length_lookup. split; [done|]. intros t H x HH Hxt. destruct (lookup_lt_is_Some_2 accs t) as [acc Hacc]; [rewrite La; by eapply lookup_lt_Some|].
        destruct (Hx t x Hxt H acc HH Hacc) as (_ & _ & _ & _ & _ & _ & ?). done.
      - intros H x _ He. simpl. rewrite He. by rewrite fmap_length. }
    rewrite Hsz. apply wpe_bind.
    eapply (wpe_ranks E _ p (λ t HC, ∀ H acc, Hs !! t = Some H → accs !! t = Some acc → coarse_at gn Hs M acc (Z.of_nat (length (filter (λ v, v_id v ∉ M) (all_verts Hs)))) H HC)).
    { intros t Ht. destruct (lookup_lt_is_Some_2 Hs t Ht) as [H HH]. destruct (lookup_lt_is_Some_2 samples t) as [sm Hss]; [lia|].
      destruct (lookup_lt_is_Some_2 xs t) as [x Hxt]; [lia|]. destruct (lookup_lt_is_Some_2 accs t) as [acc Hacc]; [lia|].
      apply wpe_bind. eapply wpe_nidx; [done|]. apply wpe_bind. eapply wpe_nidx; [done|]. apply wpe_bind. eapply wpe_nidx; [done|]. apply wpe_bind.
      eapply wpe_nidx; [apply lookup_replicate; split; [done|exact Ht]|].
      eapply wpe_grow; [done..|by apply Hx|]. intros HC Hca H' acc' HH' Hacc'. rewrite HH in HH'. rewrite Hacc in Hacc'. injection HH' as <-. injection Hacc' as <-. done. }
    intros HCs LC HCa. apply HQ; [done|]. intros t H acc HC HH Hacc HHC. by apply (HCa t HC HHC).
  Qed.
End contract.
