(** Proofs about parallel coarsening: the samples take up their matches. *)
From Verif Require Export CparContract.

(** vertex [c] becomes [c']: more weight, more nets *)
Definition takes (w : Z) (P : Z → Prop) (c c' : vertex) : Prop :=
  v_id c' = v_id c ∧ v_part c' = v_part c ∧ v_weight c' = v_weight c + w ∧ ∀ n, n ∈ v_nets c' ↔ n ∈ v_nets c ∨ P n.
Lemma net_frame_ids l l' : Forall2 net_frame l l' → n_id <$> l' = n_id <$> l.
Proof. induction 1 as [|n n' l l' (? & _) _ IH]; [done|]. csimpl. congruence. Qed.

Lemma wpe_cp_sample E H samples ws ls HC (i : nat) j v w X (Q : hg → Prop) : consistent HC →
  samples !! i = Some j → zlookup (h_verts H) j = Some v → v_id v ∈ vids HC → ws !! i = Some w → ls !! i = Some X →
  (∀ n, n ∈ X → n ∈ nids HC) →
  (∀ HC' k c c', h_verts HC !! k = Some c → v_id c = v_id v → consistent HC' → h_verts HC' = <[k := c']> (h_verts HC) →
     takes w (.∈ X) c c' → frame HC HC' → Q HC') →
  wpe E (cp_sample H samples ws ls HC i) Q.
Proof.
  intros HCc Hj Hv Hid Hw HX Hnets HQ. unfold cp_sample. apply wpe_bind. eapply wpe_nidx; [done|].
  apply wpe_bind. eapply wpe_vert_zl; [done|]. apply elem_of_list_fmap in Hid as (c & Hcid & [k Hk]%elem_of_list_lookup).
  apply wpe_bind. rewrite Hcid. eapply wpe_local_id; [by apply co_vmap_ok|exact Hk|]. apply wpe_bind. eapply wpe_vert_at; [exact Hk|].
  apply wpe_bind. eapply wpe_nidx; [done|]. apply wpe_bind. eapply wpe_nidx; [done|]. apply wpe_bind, wpe_shuffle. intros order Ho. apply wpe_bind.
  pose proof (lookup_lt_Some _ _ _ Hk) as Hklt.
  apply (wpe_foldM E _ (λ ds (s : hg * gset Z), ∃ c', consistent (fst s) ∧ h_verts (fst s) = <[k := c']> (h_verts HC) ∧
    takes w (.∈ ds) c c' ∧ frame HC (fst s) ∧ ∀ n, n ∈ snd s ↔ n ∈ v_nets c')).
  - exists (add_weight w c). cbn [fst snd].
    assert (h_verts (upd_vert k (add_weight w) HC) = <[k := add_weight w c]> (h_verts HC)) as Hvs.
    { unfold upd_vert. cbn [h_verts with_verts]. apply list_eq. intros l. destruct (decide (l = k)) as [->|Hne].
      - by rewrite list_lookup_alter, list_lookup_insert, Hk.
      - by rewrite list_lookup_alter_ne, list_lookup_insert_ne. }
    assert (v_id <$> alter (add_weight w) k (h_verts HC) = v_id <$> h_verts HC) as Hids by (by rewrite fmap_alter_same).
    split_and!.
    + eapply (consistent_relink HC); try done.
      cbn [upd_vert with_verts h_verts h_nets]. destruct (consistent_linked HC HCc) as [L1 L2 L3 L4 L5 L6].
      assert (∀ x, x ∈ alter (add_weight w) k (h_verts HC) → ∃ y, y ∈ h_verts HC ∧ v_id y = v_id x ∧ v_nets y = v_nets x) as Hback.
      { intros x [(y & Hy & ->)|(l & _ & Hl)]%elem_of_alter; [exists y|exists x]; (split; [by eapply elem_of_list_lookup_2|done]). }
      split; try done.
      * by rewrite Hids.
      * intros x (y & Hy & _ & <-)%Hback. by apply L3.
      * intros x nid (y & Hy & <- & <-)%Hback. by apply L5.
      * intros n vid Hn Hvn. destruct (L6 n vid Hn Hvn) as (y & [l Hl]%elem_of_list_lookup & <- & Hny). destruct (decide (l = k)) as [->|Hne].
        -- exists (add_weight w y). split; [apply elem_of_alter; left; eauto|done].
        -- exists y. split; [apply elem_of_alter; right; eauto|done].
    + done.
    + split_and!; try done. intros n. simpl. split; [by left|]. intros [?|[]%elem_of_nil]. done.
    + split; try done. apply (RedSend.fr_nets _ _ (frame_refl HC)).
    + intros n. simpl. by rewrite elem_of_list_to_set.
  - intros ds n ts [HD s] Heq (c' & I1 & I2 & (T1 & T2 & T3 & T4) & I4 & I5). cbn [fst snd] in *. case_decide as Hn.
    + apply wpe_ret. exists c'. split_and!; try done. split_and!; try done. intros x. rewrite T4, elem_of_app, elem_of_list_singleton.
      split; [tauto|]. intros [?|[?| ->]]; [by left|by right|]. apply T4. by apply I5.
    + assert (h_verts HD !! k = Some c') as Hkc by (by rewrite I2, list_lookup_insert).
      assert (n ∈ nids HD) as Hnin.
      { unfold nids. rewrite (net_frame_ids _ _ (RedSend.fr_nets _ _ I4)). apply Hnets. rewrite <-elem_of_elements, <-Ho, Heq. set_solver. }
      apply elem_of_list_fmap in Hnin as (e & -> & [l Hl]%elem_of_list_lookup).
      apply wpe_bind. eapply (wpe_upd_net_id E (upd_vert k (v_add_net (n_id e)) HD) l e).
      { unfold nmap_ok, nids. exact (co_nmap_ok _ I1). }
      { exact Hl. }
      apply wpe_ret. cbn [fst snd]. exists (v_add_net (n_id e) c'). rewrite <-T1. split_and!.
      * eapply (consistent_relink HD); try done.
        -- cbn [upd_net upd_vert with_verts with_nets h_verts h_nets]. apply linked_edge; [by apply consistent_linked|done..|]. by rewrite <-I5.
        -- cbn [upd_net upd_vert with_verts with_nets h_verts h_nets]. by rewrite fmap_alter_same.
        -- cbn [upd_net upd_vert with_verts with_nets h_verts h_nets]. by rewrite fmap_alter_same.
      * cbn [upd_net upd_vert with_verts with_nets h_verts]. apply list_eq. intros x. destruct (decide (x = k)) as [->|Hne].
        -- by rewrite list_lookup_alter, Hkc, list_lookup_insert.
        -- rewrite list_lookup_alter_ne, I2, !list_lookup_insert_ne; done.
      * split_and!; [done..|]. intros x. simpl. rewrite !elem_of_app, elem_of_list_singleton, T4. tauto.
      * eapply frame_trans; [exact I4|]. split; try done. cbn [upd_net upd_vert with_verts with_nets h_nets].
        apply Forall2_same_length_lookup. rewrite alter_length. split; [done|]. intros x y z Hy Hz. destruct (decide (x = l)) as [->|Hne].
        -- rewrite list_lookup_alter, Hy in Hz. injection Hz as <-. done.
        -- rewrite list_lookup_alter_ne in Hz by done. rewrite Hy in Hz. injection Hz as <-. done.
      * intros x. rewrite elem_of_union, elem_of_singleton, I5. simpl. rewrite elem_of_app, elem_of_list_singleton. tauto.
  - intros [HD s] (c' & I1 & I2 & (T1 & T2 & T3 & T4) & I4 & I5). cbn [fst snd] in *. apply wpe_ret. eapply (HQ HD k c c'); try done.
    split_and!; try done. intros n. rewrite T4. by rewrite Ho, elem_of_elements.
Qed.

(** the coarse vertices of a processor after its samples have taken up their matches *)
Definition grown (sids ws : list Z) (ls : list (gset Z)) (k : nat) (c c' : vertex) : Prop :=
  takes (zsum ((λ iw : Z * Z, if decide (fst iw = v_id c) then snd iw else 0) <$> take k (zip sids ws)))
    (λ n, ∃ i X, (i < k)%nat ∧ sids !! i = Some (v_id c) ∧ ls !! i = Some X ∧ n ∈ X) c c'.

Lemma wpe_cp_samples E H samples sids ws ls HC0 (Q : hg → Prop) : consistent HC0 →
  Forall2 (λ i id, ∃ v, zlookup (h_verts H) i = Some v ∧ v_id v = id) samples sids →
  (∀ id, id ∈ sids → id ∈ vids HC0) → length ws = length samples → length ls = length samples →
  (∀ i X n, ls !! i = Some X → n ∈ X → n ∈ nids HC0) →
  (∀ HC, consistent HC → Forall2 (grown sids ws ls (length samples)) (h_verts HC0) (h_verts HC) → frame HC0 HC → Q HC) →
  wpe E (foldM (cp_sample H samples ws ls) (seq 0 (length samples)) HC0) Q.
Proof.
  intros HC0c Hs Hids Hlw Hll Hnets HQ. pose proof (Forall2_length _ _ _ Hs) as Hls.
  apply (wpe_foldM_seq E _ (λ k HC, consistent HC ∧ Forall2 (grown sids ws ls k) (h_verts HC0) (h_verts HC) ∧ frame HC0 HC)).
  - split_and!; [done| |apply frame_refl]. apply Forall2_same_length_lookup. split; [done|]. intros i c c' Hc Hc'. rewrite Hc in Hc'. injection Hc' as <-.
    split_and!; try done.
    + unfold zsum. simpl. lia.
    + intros n. split; [by left|]. intros [?|(? & ? & ? & _)]; [done|lia].
  - intros k HC Hk (I1 & I2 & I3).
    destruct (lookup_lt_is_Some_2 samples k Hk) as [j Hj]. destruct (Forall2_lookup_l _ _ _ _ _ Hs Hj) as (id & Hid & v & Hv & Hvid).
    destruct (lookup_lt_is_Some_2 ws k) as [w Hw]; [lia|]. destruct (lookup_lt_is_Some_2 ls k) as [X HX]; [lia|].
    assert (vids HC = vids HC0) as Hvids.
    { unfold vids. clear -I2. induction I2 as [|c c' l l' (? & _) _ IH]; [done|]. csimpl. congruence. }
    eapply (wpe_cp_sample E H samples ws ls HC k j v w X); try done.
    { rewrite Hvids, Hvid. apply Hids. by eapply elem_of_list_lookup_2. }
    { intros n Hn. unfold nids. rewrite (net_frame_ids _ _ (RedSend.fr_nets _ _ I3)). by eapply Hnets. }
    intros HC' l c c' Hl Hcid HC'c Hvs (T1 & T2 & T3 & T4) Hsf. split_and!; [done| |by eapply frame_trans].
    assert (zip sids ws !! k = Some (id, w)) as Hz by (apply lookup_zip_with_Some; eauto).
    apply Forall2_same_length_lookup. rewrite Hvs, insert_length. split; [by eapply Forall2_length|].
    intros x a b Ha Hb. unfold grown. rewrite (take_S_r _ _ _ Hz), fmap_app, zsum_app. csimpl. unfold zsum at 2. simpl.
    assert (∀ n, (∃ i Y, (i < Datatypes.S k)%nat ∧ sids !! i = Some (v_id a) ∧ ls !! i = Some Y ∧ n ∈ Y) ↔
      (∃ i Y, (i < k)%nat ∧ sids !! i = Some (v_id a) ∧ ls !! i = Some Y ∧ n ∈ Y) ∨ id = v_id a ∧ n ∈ X) as Hex.
    { intros n. split.
      - intros (i & Y & Hi & Hsi & Hli & Hn). destruct (decide (i = k)) as [->|]; [|left; exists i, Y; split_and!; [lia|done..]].
        right. rewrite Hid in Hsi. rewrite HX in Hli. injection Hsi as ->. injection Hli as ->. done.
      - intros [(i & Y & Hi & ? & ? & ?)|[-> Hn]]; [exists i, Y; split_and!; [lia|done..]|]. exists k, X. split_and!; [lia|done..]. }
    apply list_lookup_insert_Some in Hb as [(<- & <- & _)|[Hne Hb]].
    + destruct (Forall2_lookup_lr _ _ _ _ _ _ I2 Ha Hl) as (G1 & G2 & G3 & G4). assert (id = v_id a) as Hia by congruence.
      split_and!; [congruence|congruence| |].
      * rewrite decide_True by done. lia.
      * intros n. rewrite T4, G4, Hex. tauto.
    + destruct (Forall2_lookup_lr _ _ _ _ _ _ I2 Ha Hb) as (G1 & G2 & G3 & G4).
      assert (id ≠ v_id a) as Hia.
      { intros He. apply Hne. eapply NoDup_lookup; [exact (co_vid _ I1)|by rewrite list_lookup_fmap, Hl|]. rewrite list_lookup_fmap, Hb. simpl. congruence. }
      split_and!; [done|done| |].
      * rewrite decide_False by done. lia.
      * intros n. rewrite G4, Hex. tauto.
  - intros HC (I1 & I2 & I3). by apply HQ.
Qed.
