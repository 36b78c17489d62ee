(** Proofs about parallel coarsening: the coarse hypergraph is distributed, keeps cuts and
    weights, loses its small nets and its free vertices. *)
From Verif Require Export CparWhole SpecCpar.

Lemma gverts_vert gn Hs nid u : distributed gn Hs → u ∈ gverts Hs nid ↔ ∃ v, v ∈ all_verts Hs ∧ v_id v = u ∧ nid ∈ v_nets v.
Proof.
  intros HD. rewrite gverts_elem. split.
  - intros (n & (H & HH & Hn)%all_nets_elem & <- & Hu). pose proof (di_local _ _ HD H HH) as HC.
    destruct (co_inc2 _ HC _ _ Hn Hu) as (v & Hv & Hid & Hin). exists v. split_and!; try done. apply all_verts_elem. eauto.
  - intros (v & (H & HH & Hv)%all_verts_elem & <- & Hin). pose proof (di_local _ _ HD H HH) as HC.
    destruct (co_inc1 _ HC _ _ Hv Hin) as (n & Hn & Hid & Hu). exists n. split_and!; try done. apply all_nets_elem. eauto.
Qed.

Section merged.
  Context (gn : Z) (Hs HCs : list hg) (cl : list (Z * list Z)) (HD : distributed gn Hs).
  Context (Hnd : NoDup ((fst <$> cl) ++ concat (snd <$> cl))).
  Context (Hin : ∀ x, x ∈ (fst <$> cl) ++ concat (snd <$> cl) → x ∈ v_id <$> all_verts Hs).
  Context (Hme : merged gn Hs cl HCs).
  Let M := concat (snd <$> cl).

  Lemma me_vids : v_id <$> all_verts HCs = v_id <$> filter (λ v, v_id v ∉ M) (all_verts Hs).
  Proof.
    unfold all_verts. rewrite filter_concat, !fmap_concat, <-!list_fmap_compose. f_equal.
    pose proof (me_len _ _ _ _ Hme) as Hl.
    apply list_eq_same_length with (length Hs); [by rewrite fmap_length|by rewrite fmap_length|].
    intros t x y Ht. rewrite !list_lookup_fmap. destruct (HCs !! t) as [HC|] eqn:HHC, (Hs !! t) as [H|] eqn:HH; try done.
    intros [= <-] [= <-]. unfold compose. by eapply (me_ids _ _ _ _ Hme).
  Qed.
  Lemma me_vids_nodup : NoDup (v_id <$> all_verts HCs).
  Proof. rewrite me_vids. by apply NoDup_ids_filter, (di_verts _ _ HD). Qed.
  Lemma me_vids_split : (v_id <$> all_verts HCs) ++ M ≡ₚ v_id <$> all_verts Hs.
  Proof.
    pose proof (di_verts _ _ HD) as Hv. apply NoDup_app in Hnd as (_ & Hdis & HndM). apply NoDup_Permutation; [|done|].
    - apply NoDup_app. split_and!; [apply me_vids_nodup| |done]. rewrite me_vids. intros x (v & -> & [? _]%elem_of_list_filter)%elem_of_list_fmap. done.
    - intros x. rewrite elem_of_app, me_vids. split.
      + intros [(v & -> & [_ ?]%elem_of_list_filter)%elem_of_list_fmap|Hx]; [by apply elem_of_list_fmap_1|]. apply Hin, elem_of_app. by right.
      + intros (v & -> & Hx)%elem_of_list_fmap. destruct (decide (v_id v ∈ M)); [by right|left]. apply elem_of_list_fmap_1. by apply elem_of_list_filter.
  Qed.
  Lemma merged_distributed : distributed gn HCs.
  Proof.
    split.
    - intros H HH. by apply (me_local _ _ _ _ Hme).
    - intros H HH. by apply (me_local _ _ _ _ Hme).
    - apply me_vids_nodup.
    - intros n Hn. destruct (me_src _ _ _ _ Hme n Hn) as (e & He & <- & _). by apply (di_range _ _ HD).
    - intros n n' Hn Hn' Hid. destruct (me_src _ _ _ _ Hme n Hn) as (e & He & Hi & <-). destruct (me_src _ _ _ _ Hme n' Hn') as (e' & He' & Hi' & <-).
      apply (di_cost _ _ HD); [done..|congruence].
  Qed.
  (** the representative of a vertex is a coarse vertex *)
  Lemma rep_coarse x : x ∈ v_id <$> all_verts Hs → rep cl x ∈ v_id <$> all_verts HCs.
  Proof.
    intros Hx. destruct (decide (x ∈ M)) as [Hm|Hm].
    - apply CoarsenProof.elem_of_concat in Hm as (l & Hxl & (c & -> & Hc)%elem_of_list_fmap). rewrite (rep_nodup cl c) by (auto).
      assert (fst c ∈ fst <$> cl) as Hf by (by apply elem_of_list_fmap_1).
      assert (fst c ∈ v_id <$> all_verts Hs) as (v & Hv & Hvin)%elem_of_list_fmap by (apply Hin, elem_of_app; by left).
      apply NoDup_app in Hnd as (_ & Hdis & _). rewrite me_vids. apply elem_of_list_fmap. exists v. split; [done|]. apply elem_of_list_filter. split; [|done].
      rewrite <-Hv. by apply Hdis.
    - rewrite rep_unmatched by done. rewrite me_vids. apply elem_of_list_fmap in Hx as (v & -> & Hv). apply elem_of_list_fmap_1. by apply elem_of_list_filter.
  Qed.
  Lemma me_gverts nid u : u ∈ gverts HCs nid ↔ ∃ x, x ∈ gverts Hs nid ∧ rep cl x = u.
  Proof.
    rewrite (gverts_vert gn HCs) by apply merged_distributed. split.
    - intros (c & Hc & <- & Hn). apply (me_nets _ _ _ _ Hme) in Hn; [|done]. destruct Hn as (v & Hv & Hr & Hn). exists (v_id v). split; [|done].
      apply (gverts_vert gn); [done|]. eauto.
    - intros (x & Hx & <-). apply (gverts_vert gn) in Hx; [|done]. destruct Hx as (v & Hv & <- & Hn).
      assert (rep cl (v_id v) ∈ v_id <$> all_verts HCs) as (c & Hc & Hcin)%elem_of_list_fmap by (apply rep_coarse; by apply elem_of_list_fmap_1).
      exists c. split_and!; [done|done|]. apply (me_nets _ _ _ _ Hme); [done|]. exists v. done.
  Qed.
  Lemma me_gcost nid : gverts HCs nid ≠ [] → gcost HCs nid = gcost Hs nid.
  Proof.
    intros Hne. destruct (gverts HCs nid) as [|u l] eqn:Heq; [done|].
    assert (u ∈ gverts HCs nid) as (n & Hn & <- & Hu)%gverts_elem by (rewrite Heq; left).
    rewrite (gcost_elem gn HCs n merged_distributed Hn). destruct (me_src _ _ _ _ Hme n Hn) as (e & He & <- & <-). symmetry. by apply (gcost_elem gn).
  Qed.
  Lemma me_cuts σ : cut_net_size (whole_nets HCs gn) σ = cut_net_size (whole_nets Hs gn) (σ ∘ rep cl) ∧
    lambda_size (whole_nets HCs gn) σ = lambda_size (whole_nets Hs gn) (σ ∘ rep cl).
  Proof.
    assert (∀ nid, parts_touched σ (gverts HCs nid) = parts_touched (σ ∘ rep cl) (gverts Hs nid)) as Ht.
    { intros nid. apply set_eq. intros p. rewrite !parts_touched_elem. setoid_rewrite me_gverts. split.
      - intros (u & (x & Hx & <-) & <-). eauto.
      - intros (x & Hx & <-). exists (rep cl x). split; [eauto|done]. }
    assert (∀ nid, gverts HCs nid = [] ↔ gverts Hs nid = []) as Hnil.
    { intros nid. by rewrite <-(touched_nil σ (gverts HCs nid)), Ht, touched_nil. }
    unfold cut_net_size, lambda_size, whole_nets. rewrite <-!list_fmap_compose. split; apply zsum_fmap_ext; intros nid _; simpl.
    - rewrite (lambda_touched _ _ _ _ (Ht nid)). case_decide as Hd; [|done]. apply me_gcost. intros Hn%Hnil. rewrite Hn, lambda_nil in Hd. lia.
    - rewrite (lambda_touched _ _ _ _ (Ht nid)). destruct (decide (gverts HCs nid = [])) as [Hd|Hd].
      + apply Hnil in Hd. by rewrite decide_True.
      + rewrite decide_False by (by rewrite <-Hnil). by rewrite me_gcost.
  Qed.
  (** weights of sets of coarse vertices *)
  Lemma me_weights (f : Z → bool) : zsum ((λ c, if f (v_id c) then v_weight c else 0) <$> all_verts HCs) =
    zsum ((λ v, if f (rep cl (v_id v)) then v_weight v else 0) <$> all_verts Hs).
  Proof.
    rewrite (zsum_fmap_ext _ (λ c, zsum ((λ v, if f (rep cl (v_id v)) then (if decide (rep cl (v_id v) = v_id c) then v_weight v else 0) else 0) <$> all_verts Hs))).
    2: { intros c Hc. rewrite (me_weight _ _ _ _ Hme c Hc). destruct (f (v_id c)) eqn:Hf.
      - apply zsum_fmap_ext. intros v _. case_decide as Hd; [by rewrite Hd, Hf|]. by destruct (f (rep cl (v_id v))).
      - symmetry. apply zsum_fmap_zero. intros v _. case_decide as Hd; [by rewrite Hd, Hf|]. by destruct (f (rep cl (v_id v))). }
    rewrite zsum_fmap_swap. apply zsum_fmap_ext. intros v Hv. destruct (f (rep cl (v_id v))) eqn:Hf; [|apply zsum_fmap_zero; by intros c _; rewrite ?Hf].
    assert (rep cl (v_id v) ∈ v_id <$> all_verts HCs) as (c & Hc & Hcin)%elem_of_list_fmap by (apply rep_coarse; by apply elem_of_list_fmap_1).
    rewrite (zsum_single _ _ c).
    - by rewrite decide_True.
    - eapply NoDup_fmap_1, me_vids_nodup.
    - done.
    - intros c' Hc' Hne. rewrite decide_False; [done|]. intros He. apply Hne. rewrite Hc in He. apply elem_of_list_lookup in Hc' as [i Hi], Hcin as [j Hj].
      assert (i = j) as <-; [|congruence]. eapply NoDup_lookup; [apply me_vids_nodup| |]; by rewrite list_lookup_fmap, ?Hi, ?Hj; simpl; rewrite ?He.
  Qed.
End merged.

Definition frees (Hs : list hg) : list (Z * Z) := concat ((λ H, free_of (h_verts H)) <$> Hs).
(** what merge_free_vertices leaves on one processor *)
Record aside_at (Hs : list hg) (n : Z) (C : contraction) (H : hg) (r : contraction * hg) : Prop := {
  aa_cons : consistent (snd r);
  aa_verts : h_verts H ≡ₚ filter is_free (h_verts H) ++ h_verts (snd r);
  aa_nets : h_nets (snd r) = h_nets H;
  aa_gnets : h_gnets (snd r) = h_gnets H;
  aa_gsize : h_gsize (snd r) = n;
  aa_contr : fst r = Contr (c_samples C) (c_matches C) (free_of (h_verts H)) (zsum (snd <$> free_of (h_verts H))) (zsum (snd <$> frees Hs));
}.
Lemma wpe_merge_free_par E Cs Hs (Q : list (contraction * hg) → Prop) :
  length Cs = length Hs → (∀ C, C ∈ Cs → c_free C = []) → (∀ H, H ∈ Hs → consistent H) →
  (∀ rs, length rs = length Hs →
     (∀ t C H r, Cs !! t = Some C → Hs !! t = Some H → rs !! t = Some r → aside_at Hs (Z.of_nat (length (all_verts (snd <$> rs)))) C H r) → Q rs) →
  wpe E (merge_free_vertices_par Cs Hs) Q.
Proof.
  intros Hl Hfr Hcons HQ. unfold merge_free_vertices_par. set (p := length Hs) in *. apply wpe_bind.
  eapply (wpe_ranks E _ p (λ t (r : contraction * hg * Z), ∀ C H, Cs !! t = Some C → Hs !! t = Some H →
    ∃ K, r = (Contr (c_samples C) (c_matches C) (free_of (h_verts H)) (c_local_free C) (c_global_free C), K, zsum (snd <$> free_of (h_verts H))) ∧
      consistent K ∧ h_verts H ≡ₚ filter is_free (h_verts H) ++ h_verts K ∧ h_nets K = h_nets H ∧ h_gnets K = h_gnets H)).
  { intros t Ht. destruct (lookup_lt_is_Some_2 Hs t Ht) as [H HH]. destruct (lookup_lt_is_Some_2 Cs t) as [C HC]; [lia|].
    apply wpe_bind. eapply wpe_nidx; [done|]. apply wpe_bind. eapply wpe_nidx; [done|].
    assert (consistent H) as Hco by (apply Hcons; by eapply elem_of_list_lookup_2).
    unfold remove_free_vertices. rewrite (Hfr C) by (by eapply elem_of_list_lookup_2). cbn [c_free app]. apply wpe_bind.
    apply (wpe_remove_free_list E (filter is_free (h_verts H))); [done|apply NoDup_ids_filter, (co_vid _ Hco)|intros v [Hv Hf]%elem_of_list_filter; done|].
    intros H' HC' Hp Hn Hgn Hnz Hd. apply wpe_ret. intros C1 H1 HC1 HH1. rewrite HC in HC1. rewrite HH in HH1. injection HC1 as <-. injection HH1 as <-.
    exists H'. split_and!; try done. rewrite ListLemmas.foldl_add_zsum. done. }
  intros rs Lr Hr.
  set (Ks := recompute_global_size ((λ r : contraction * hg * Z, snd (fst r)) <$> rs)).
  assert (∀ t r, rs !! t = Some r → Ks !! t = Some (with_gsize (Z.of_nat (length (all_verts Ks))) (snd (fst r)))) as HK.
  { set (n := Z.of_nat (length (all_verts Ks))).
    set (N := foldl Z.add 0 ((λ H, Z.of_nat (length (h_verts H))) <$> ((λ r : contraction * hg * Z, snd (fst r)) <$> rs))).
    assert (∀ t r, rs !! t = Some r → Ks !! t = Some (with_gsize N (snd (fst r)))) as HK0.
    { intros t r Ht. unfold Ks, recompute_global_size, bulk_sum. apply lookup_zip_with_Some. exists N, (snd (fst r)). split; [done|].
      rewrite list_lookup_fmap, Ht. split; [|done]. apply lookup_replicate. split; [done|]. rewrite !fmap_length. by eapply lookup_lt_Some. }
    assert (length Ks = length rs) as LK.
    { unfold Ks, recompute_global_size, bulk_sum. rewrite zip_with_length, replicate_length, !fmap_length. lia. }
    assert (N = n) as <-; [|done]. unfold N, n. rewrite foldl_add_zsum, Z.add_0_l. unfold all_verts. rewrite <-zsum_lengths, <-!list_fmap_compose.
    apply (zsum_Forall2 (λ (r : contraction * hg * Z) K, h_verts K = h_verts (snd (fst r)))).
    - apply Forall2_same_length_lookup. split; [done|]. intros t r K Ht HK1. rewrite (HK0 t r Ht) in HK1. injection HK1 as <-. done.
    - intros r K _ He. simpl. by rewrite He. }
  assert (length Ks = p) as LK.
  { unfold Ks, recompute_global_size, bulk_sum. rewrite zip_with_length, replicate_length, !fmap_length. lia. }
  assert (bulk_sum (snd <$> rs) = replicate p (zsum (snd <$> frees Hs))) as Hb.
  { unfold bulk_sum. rewrite fmap_length, Lr, foldl_add_zsum, Z.add_0_l. f_equal. unfold frees. rewrite zsum_concat, <-!list_fmap_compose. symmetry.
    apply (zsum_Forall2 (λ H (r : contraction * hg * Z), snd r = zsum (snd <$> free_of (h_verts H)))).
    - apply Forall2_same_length_lookup. split; [done|]. intros t H r HH Hrt. destruct (lookup_lt_is_Some_2 Cs t) as [C HC]; [rewrite Hl; by eapply lookup_lt_Some|].
      destruct (Hr t r Hrt C H HC HH) as (K & -> & _). done.
    - intros H r _ He. simpl. by rewrite He. }
  rewrite Hb.
  eapply (wpe_ranks E _ p (λ t (x : contraction * hg), ∀ r, rs !! t = Some r → x = (Contr (c_samples (fst (fst r))) (c_matches (fst (fst r))) (c_free (fst (fst r))) (snd r) (zsum (snd <$> frees Hs)), with_gsize (Z.of_nat (length (all_verts Ks))) (snd (fst r))))).
  { intros t Ht. destruct (lookup_lt_is_Some_2 rs t) as [r Hrt]; [lia|]. apply wpe_bind. eapply wpe_nidx; [done|]. apply wpe_bind. eapply wpe_nidx; [by apply HK|].
    apply wpe_bind. eapply wpe_nidx; [apply lookup_replicate; done|]. apply wpe_ret. intros r1 Hr1. rewrite Hrt in Hr1. injection Hr1 as <-. done. }
  intros xs Lx Hx. apply HQ; [done|].
  assert (snd <$> xs = Ks) as ->.
  { apply list_eq_same_length with p; [done|by rewrite fmap_length|]. intros t x y Ht. rewrite list_lookup_fmap. destruct (xs !! t) as [x0|] eqn:Hx0; [|done]. intros [= <-].
    destruct (lookup_lt_is_Some_2 rs t) as [r Hrt]; [lia|]. rewrite (HK t r Hrt), (Hx t x0 Hx0 r Hrt). intros [= <-]. done. }
  intros t C H x HC HH Hxt. destruct (lookup_lt_is_Some_2 rs t) as [r Hrt]; [rewrite Lr; by eapply lookup_lt_Some|].
  rewrite (Hx t x Hxt r Hrt). destruct (Hr t r Hrt C H HC HH) as (K & -> & R1 & R2 & R3 & R4). cbn [fst snd c_samples c_matches c_free]. split; try done.
  by apply with_gsize_consistent.
Qed.
