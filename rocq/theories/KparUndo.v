(** Rejected moves are taken back. *)
From Verif Require Export KparFind.

Definition kept (ms : list kmove) : list Z := filter (λ v, v ≠ -1) (km_v <$> ms).
Definition cleared (m0 m : kmove) : Prop := m = m0 ∨ m = KMove (-1) 0 0.

Lemma kept_sublist ms ms' : Forall2 cleared ms ms' → kept ms' `sublist_of` km_v <$> ms.
Proof.
  unfold kept. induction 1 as [|m m' l l' Hm HF IH]; [constructor|]. csimpl. rewrite filter_cons. destruct Hm as [-> | ->].
  - case_decide; [by constructor|by constructor].
  - simpl. by constructor.
Qed.
Lemma kept_elem ms u : u ∈ kept ms ↔ ∃ i m, ms !! i = Some m ∧ km_v m = u ∧ u ≠ -1.
Proof.
  unfold kept. rewrite elem_of_list_filter, elem_of_list_fmap. split.
  - intros (Hne & m & -> & [i Hi]%elem_of_list_lookup). eauto.
  - intros (i & m & Hi & <- & Hne). split; [done|]. exists m. split; [done|by eapply elem_of_list_lookup_2].
Qed.
Lemma kept_clear ms i m u : ms !! i = Some m → km_v m ≠ -1 → (∀ j a, ms !! j = Some a → km_v a = km_v m → j = i) →
  u ∈ kept (<[i := KMove (-1) 0 0]> ms) ↔ u ∈ kept ms ∧ u ≠ km_v m.
Proof.
  intros Hi Hm Hu. rewrite !kept_elem. pose proof (lookup_lt_Some _ _ _ Hi) as Hil. split.
  - intros (j & a & Hj & Ha & Hne). destruct (decide (j = i)) as [-> |Hji].
    + rewrite list_lookup_insert in Hj by done. injection Hj as <-. simpl in Ha. congruence.
    + rewrite list_lookup_insert_ne in Hj by done. split; [eauto|]. intros ->. apply Hji. by eapply Hu.
  - intros ((j & a & Hj & Ha & Hne) & Hum). exists j, a. split; [|done]. rewrite list_lookup_insert_ne; [done|]. intros <-. congruence.
Qed.

Lemma sublist_elem {A} (l k : list A) x : l `sublist_of` k → x ∈ l → x ∈ k.
Proof. induction 1; [done|..]; rewrite ?elem_of_cons; naive_solver. Qed.
Lemma sublist_nodup {A} (l k : list A) : l `sublist_of` k → NoDup k → NoDup l.
Proof.
  induction 1 as [|x l k Hs IH|x l k Hs IH]; [done|..]; intros [Hx Hk]%NoDup_cons; [|by apply IH].
  constructor; [|by apply IH]. intros Hx'. apply Hx. by eapply sublist_elem.
Qed.

Section undo.
  Context (E : err → Prop) (part : partitioning) (gn : Z) (Bs : list hg) (t : nat) (B : hg) (k : kproc) (S : Z) (L : gset Z).
  Context (mx : Z * Z).
  Context (Hpre : klfm_pre B) (Hok : kok part Bs t B k).

  (** what a processor has done in a round: the vertices in [us] have changed part *)
  Record moved_set (L' : gset Z) (us : list Z) (k' : kproc) : Prop := {
    ms_ok : kok part Bs t B k';
    ms_gok : gok E S L' (kp_G k');
    ms_sub : L ⊆ L';
    ms_nd : NoDup us;
    ms_in : ∀ u, u ∈ us → u ∉ L ∧ u ∈ L' ∧ u ∈ vids (kp_H k);
    ms_part : ∀ u, part_of (kp_H k') u = flipped (kp_H k) us u;
  }.

  Lemma no_minus_one u : u ∈ vids (kp_H k) → u ≠ -1.
  Proof.
    intros (v & Hv & <-)%vids_elem. pose proof (klfm_pre_shape _ _ Hpre (bk_shape _ _ _ _ _ (ko_book _ _ _ _ _ Hok))) as HP. by apply HP.
  Qed.

  Lemma found_vids L' m : found k L L' m → km_v m ∈ vids (kp_H k).
  Proof. intros (_ & _ & v & Hv & <- & _). apply vids_elem; eauto. Qed.

  Lemma kept_all L' ms : (∀ m, m ∈ ms → found k L L' m) → kept ms = km_v <$> ms.
  Proof.
    intros Hf. apply filter_all. intros u (m & -> & Hm)%elem_of_list_fmap. eapply no_minus_one, found_vids. by apply Hf.
  Qed.

  Lemma wpe_undo_moves L' f rej (Q : undo_state → Prop) :
    finv E part Bs t B k S L mx L' f → (rej ≠ 0 → E UB) →
    (∀ u, (rej = 0 → us_G u = fs_G f ∧ us_moves u = fs_moves f) →
       moved_set L' (kept (us_moves u)) (kp_with k (us_G u) (us_Cl u)) → Q u) →
    wpe E (undo_moves (fs_G f) (fs_Cl f) (fs_moves f) rej) Q.
  Proof.
    intros [Hk HGk Hsub Hnd Hmv Hpart Hws Hfe Hwt] HE HQ. pose proof (kept_all L' _ Hmv) as Hall.
    unfold undo_moves. destruct (decide (rej = 0)) as [-> |Hrej].
    { replace (length (fs_moves f) + 1)%nat with (Datatypes.S (length (fs_moves f))) by lia. cbn [loopM]. apply wpe_bind. unfold undo_body. simpl.
      apply wpe_ret. apply wpe_ret. apply HQ; [done|]. simpl. rewrite Hall. split; try done.
      intros u (m & -> & Hm)%elem_of_list_fmap. pose proof (Hmv m Hm) as Hf. split; [apply Hf|]. split; [apply Hf|]. by eapply found_vids. }
    specialize (HE Hrej). set (ms := fs_moves f) in *.
    set (I s := kok part Bs t B (kp_with k (us_G s) (us_Cl s)) ∧ (∃ F, gs_inv S L' F (us_G s)) ∧ -1 ≤ us_index s < Z.of_nat (length ms) ∧
      Forall2 cleared ms (us_moves s) ∧ (∀ i : nat, Z.of_nat i ≤ us_index s → us_moves s !! i = ms !! i) ∧
      ∀ u, part_of (g_H (us_G s)) u = flipped (kp_H k) (kept (us_moves s)) u).
    eapply wpe_mono; [eapply (wpe_loopM E _ I (λ s, Z.to_nat (us_index s + 1)) I)|].
    - intros s HIs. pose proof HIs as (Hks & [F HF] & Hidx & Hcl & Hsame & Hps). unfold undo_body. case_decide; [by apply wpe_ret|].
      apply wpe_bind, wpe_idx_any; [done|]. intros m Hm. pose proof Hm as [Hge Hm']%zlookup_Some.
      assert (ms !! Z.to_nat (us_index s) = Some m) as Hm0 by (rewrite <-Hsame by lia; done).
      pose proof (Hmv m (elem_of_list_lookup_2 _ _ _ Hm0)) as Hfm. pose proof (found_vids _ _ Hfm) as Hmin.
      case_decide as Hsign.
      + assert (km_v m ∈ vids (g_H (us_G s))) as (v & Hv & Hvid)%vids_elem.
        { change (g_H (us_G s)) with (kp_H (kp_with k (us_G s) (us_Cl s))). rewrite <-(same_shape_vids _ _ (bk_shape _ _ _ _ _ (ko_book _ _ _ _ _ Hks))). by rewrite (same_shape_vids _ _ (bk_shape _ _ _ _ _ (ko_book _ _ _ _ _ Hok))). }
        pose proof (gi_cons _ _ _ _ HF) as HC.
        apply wpe_bind. rewrite <-Hvid. eapply wpe_vert; [by apply co_vmap_ok|done|].
        apply wpe_bind. apply (wpe_kp_move E part Bs t B (kp_with k (us_G s) (us_Cl s)) v); [apply Hpre|done|done|].
        intros r HM Hkr. apply wpe_ret. simpl.
        assert (us_moves s !! Z.to_nat (us_index s) = Some m) as Hmi by done.
        assert (zinsert (us_index s) (KMove (-1) 0 0) (us_moves s) = <[Z.to_nat (us_index s) := KMove (-1) 0 0]> (us_moves s)) as Hzi.
        { done. }
        pose proof (no_minus_one _ Hmin) as Hne.
        assert (∀ j a, us_moves s !! j = Some a → km_v a = km_v m → j = Z.to_nat (us_index s)) as Huniq.
        { intros j a Hj Ha. destruct (Forall2_lookup_r _ _ _ _ _ Hcl Hj) as (a0 & Ha0 & [-> | ->]).
          - eapply (NoDup_lookup _ _ _ (km_v m)); [exact Hnd|rewrite list_lookup_fmap, Ha0; simpl; by rewrite Ha|by rewrite list_lookup_fmap, Hm0].
          - simpl in Ha. congruence. }
        split.
        2: { simpl. lia. }
        split_and!.
        * exact Hkr.
        * exists F. eapply (gs_inv_locked S L' F (us_G s) v); [done|done|rewrite Hvid; apply Hfm|done].
        * simpl. lia.
        * simpl. lia.
        * simpl. rewrite Hzi. pose proof (list_insert_id _ _ _ Hm0) as Hms. apply Forall2_lookup. intros j.
          destruct (decide (j = Z.to_nat (us_index s))) as [->|Hj].
          -- rewrite list_lookup_insert by (by eapply lookup_lt_Some). rewrite Hm0. constructor. by right.
          -- rewrite list_lookup_insert_ne by done. by apply Forall2_lookup.
        * simpl. intros i Hi. rewrite Hzi, list_lookup_insert_ne by lia. apply Hsame. lia.
        * intros u. simpl. rewrite (moved_part_of v (g_H (us_G s))) by done. rewrite Hzi. unfold flipped. rewrite Hvid.
          assert (km_v m ∈ kept (us_moves s)) as Hkm by (apply kept_elem; eauto).
          destruct (decide (u = km_v m)) as [->|Hum].
          -- rewrite decide_False by (rewrite (kept_clear _ _ m) by done; naive_solver).
             rewrite <-(part_of_elem (g_H (us_G s)) v) by (done || apply HC). rewrite Hvid, Hps. unfold flipped. rewrite decide_True by done. lia.
          -- rewrite Hps. unfold flipped. destruct (decide (u ∈ kept (us_moves s))); [rewrite decide_True by (rewrite (kept_clear _ _ m) by done; naive_solver)|
               rewrite decide_False by (rewrite (kept_clear _ _ m) by done; naive_solver)]; done.
      + apply wpe_ret. simpl. split; [|lia]. split_and!; simpl; eauto; try lia. intros i Hi. apply Hsame. lia.
    - split_and!; simpl; try done.
      + apply gok_inv in HGk. done.
      + lia.
      + lia.
      + apply Forall2_same_length_lookup_2; [done|]. intros i a b Ha Hb. left. congruence.
      + rewrite Hall. done.
    - simpl. lia.
    - intros s (Hks & HF & Hidx & Hcl & Hsame & Hps). apply HQ; [by intros ?|]. pose proof (kept_sublist _ _ Hcl) as Hsl. split; try done.
      + right. done.
      + by eapply sublist_nodup.
      + intros u Hu. assert (u ∈ km_v <$> ms) as (m & -> & Hm)%elem_of_list_fmap by (by eapply sublist_elem).
        pose proof (Hmv m Hm) as Hf. split; [apply Hf|]. split; [apply Hf|]. by eapply found_vids.
  Qed.
End undo.
