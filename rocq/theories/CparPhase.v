(** Proofs about parallel coarsening: everything up to the accepted matches. *)
From Verif Require Export CparAccept.

(** sample number [k] of processor [s] accepted vertex [id] of processor [t]: [id] is no sample and
    shares a net with the sample *)
Definition good (Hs : list hg) (samples : list (list Z)) (s k t : nat) (id : Z) : Prop :=
  ∃ H sm i u H' sm' j v n, Hs !! s = Some H ∧ samples !! s = Some sm ∧ sm !! k = Some i ∧ zlookup (h_verts H) i = Some u ∧
    Hs !! t = Some H' ∧ samples !! t = Some sm' ∧ h_verts H' !! j = Some v ∧ v_id v = id ∧ Z.of_nat j ∉ sm' ∧
    n ∈ v_nets u ∧ n ∈ v_nets v.
(** what the samples and accepted matches of all processors are like *)
Record matched_up (Hs : list hg) (samples : list (list Z)) (S mcs : Z) (accs : list (contraction * list (Z * (Z * Z)))) : Prop := {
  mu_len : length accs = length Hs;
  mu_loc : ∀ s acc, accs !! s = Some acc → ∃ H sm ids ms, Hs !! s = Some H ∧ samples !! s = Some sm ∧
    Forall2 (λ i id, ∃ v, zlookup (h_verts H) i = Some v ∧ v_id v = id) sm ids ∧ fst acc = Contr ids ms [] 0 0 ∧ length ms = length sm ∧
    (∀ l, l ∈ ms → Z.of_nat (length l) ≤ Z.max 0 mcs) ∧ snd acc ≡ₚ acc_msg S s <$> tagged ms ∧
    ∀ k m t, (Z.of_nat k, (m, t)) ∈ tagged ms → ∃ t', t = Z.of_nat t' ∧ good Hs samples s k t' m;
  mu_nodup : NoDup (concat ((λ acc : contraction * list (Z * (Z * Z)), fst <$> concat (c_matches (fst acc))) <$> accs));
}.

Section phase.
  Context (bp : Z → Z → partitioning) (gn : Z) (Hs : list hg) (HD : distributed gn Hs) (samples : list (list Z)) (opts : options).
  Let S := o_sample_size opts.
  Let mcs := o_max_clustersize opts.
  Let p := length Hs.
  Context (HS : 0 ≤ S) (Hlen : length samples = length Hs).
  Context (Hsm : ∀ t H sm, Hs !! t = Some H → samples !! t = Some sm → in_range H sm ∧ Z.of_nat (length sm) ≤ S).

  Lemma both t : (t < p)%nat → ∃ H sm, Hs !! t = Some H ∧ samples !! t = Some sm.
  Proof.
    intros Ht. destruct (lookup_lt_is_Some_2 Hs t) as [H HH]; [done|]. destruct (lookup_lt_is_Some_2 samples t) as [sm Hm]; [by rewrite Hlen|]. eauto.
  Qed.
  Lemma num_eq a b c d : 0 ≤ b < S → 0 ≤ d < S → a * S + b = c * S + d → a = c ∧ b = d.
  Proof. intros Hb Hd He. assert (a = c) by nia. subst. lia. Qed.

  (** the announcements that reach a processor *)
  Definition heard (m : sample_msg) : Prop := ∃ s k H sm i u, Hs !! s = Some H ∧ samples !! s = Some sm ∧ sm !! k = Some i ∧
    zlookup (h_verts H) i = Some u ∧ m = (Z.of_nat s, (Z.of_nat k, v_nets u)).
  Lemma heard_range m : heard m → 0 ≤ fst (snd m) < S ∧ 0 ≤ fst m < Z.of_nat p.
  Proof.
    intros (s & k & H & sm & i & u & HH & Hm & Hi & Hu & ->). cbn [fst snd]. destruct (Hsm s H sm HH Hm) as [_ Hl].
    apply lookup_lt_Some in Hi. apply lookup_lt_Some in HH. lia.
  Qed.
  Definition req_ok (t : nat) (m : Z * request_msg) : Prop := ∃ s k, fst m = Z.of_nat s ∧ fst (snd m) = Z.of_nat k ∧
    fst (snd (snd m)) = Z.of_nat t ∧ good Hs samples s k t (fst (snd (snd (snd m)))).

  Lemma wpe_requests E t H sm box (Q : list (Z * request_msg) → Prop) : Hs !! t = Some H → samples !! t = Some sm →
    (∀ m, m ∈ box → heard m) →
    (∀ out, (λ m : Z * request_msg, fst (snd (snd (snd m)))) <$> out ⊆+ v_id <$> h_verts H → (∀ m, m ∈ out → req_ok t m) → Q out) →
    wpe E (best <- best_matches H S sm box ;; rq <- requested_matches H (Z.of_nat p * S) best ;; send_requests t S mcs rq) Q.
  Proof.
    intros HH Hm Hbox HQ. assert (consistent H) as HC by (apply (di_local _ _ HD); by eapply elem_of_list_lookup_2).
    destruct (Hsm t H sm HH Hm) as [Hr Hl].
    apply wpe_bind, wpe_best_matches; [done..|]. intros best B1 B2 B3. apply wpe_bind.
    eapply (wpe_requested E H S sm box); [done..| |].
    { intros m [? ?]%Hbox%heard_range. nia. }
    intros reqs R1 R2 R3. eapply wpe_send_requests; [done|exact R1|]. intros out O1 O2. apply HQ; [by etransitivity|].
    intros m Hmo. destruct (O2 m Hmo) as (Hd & Hn & Hs' & k & l & Hk & Hx & He).
    destruct (R3 k l _ Hk Hx) as (j & v & m' & n & Hv & Hid & Hns & Hm' & Hn1 & Hn2 & Hk').
    destruct (heard_range m' (Hbox m' Hm')) as [Hr1 Hr2]. rewrite He in Hk'. apply num_eq in Hk' as [E1 E2]; [|done..].
    destruct (Hbox m' Hm') as (s & k' & Hh & smh & i & u & A1 & A2 & A3 & A4 & ->). cbn [fst snd] in *.
    exists s, k'. split_and!; [done..|]. exists Hh, smh, i, u, H, sm, j, v, n. split_and!; done.
  Qed.

  Lemma wpe_match_phase E (Q : list (hg * contraction) → Prop) :
    (∀ accs, matched_up Hs samples S mcs accs →
       wpe E (aboxes <- exchange (snd <$> accs) ;;
              infos <- mapP (λ t, H <- nidx Hs t ;; box <- nidx aboxes t ;; send_info H S box) (seq 0 p) ;;
              iboxes <- exchange (fst <$> infos) ;;
              contract_par bp Hs (fst <$> accs) samples iboxes (snd <$> infos)) Q) →
    wpe E (coarsen_samples bp Hs (replicate p new_contraction) samples opts) Q.
  Proof.
    intros HQ. unfold coarsen_samples. fold S mcs p. apply wpe_bind.
    eapply (wpe_ranks E _ p (λ t out, ∀ H sm, Hs !! t = Some H → samples !! t = Some sm → announced p t H sm out)).
    { intros t Ht. destruct (both t Ht) as (H & sm & HH & Hm). apply wpe_bind. eapply wpe_nidx; [done|]. apply wpe_bind. eapply wpe_nidx; [done|].
      apply wpe_announce; [by eapply Hsm|]. intros out Ho H' sm' HH' Hm'. assert (H' = H) as -> by congruence. assert (sm' = sm) as -> by congruence. done. }
    intros ann La Ha.
    assert (∀ m, m ∈ concat ann → 0 ≤ fst m < Z.of_nat p ∧ heard (snd m)) as Hann.
    { intros m (out & Hm & [t Ht]%elem_of_list_lookup)%CoarsenProof.elem_of_concat.
      destruct (both t) as (H & sm & HH & Hsmt); [rewrite <-La; by eapply lookup_lt_Some|].
      destruct (Ha t out Ht H sm HH Hsmt m Hm) as [Hr (k & i & v & ? & ? & ?)]. split; [done|]. exists t, k, H, sm, i, v. done. }
    apply wpe_bind, wpe_exchange; [rewrite La; intros m Hm; by apply Hann|]. intros boxes Lb Hb. apply wpe_bind.
    eapply (wpe_ranks E _ p (λ t C, ∀ H sm, Hs !! t = Some H → samples !! t = Some sm →
      ∃ ids, Forall2 (λ i id, ∃ v, zlookup (h_verts H) i = Some v ∧ v_id v = id) sm ids ∧ C = Contr ids (replicate (length sm) []) [] 0 0)).
    { intros t Ht. destruct (both t Ht) as (H & sm & HH & Hm). apply wpe_bind. eapply wpe_nidx; [done|]. apply wpe_bind.
      eapply wpe_nidx; [apply lookup_replicate; split; [done|exact Ht]|]. apply wpe_bind. eapply wpe_nidx; [done|].
      apply wpe_add_samples; [by eapply Hsm|]. intros ids Hids H' sm' HH' Hm'. rewrite HH in HH'. rewrite Hm in Hm'. injection HH' as <-. injection Hm' as <-.
      exists ids. done. }
    intros Cs1 Lc Hc. apply wpe_bind.
    eapply (wpe_ranks E _ p (λ t out, (∀ H, Hs !! t = Some H → (λ m : Z * request_msg, fst (snd (snd (snd m)))) <$> out ⊆+ v_id <$> h_verts H) ∧
      ∀ m, m ∈ out → req_ok t m)).
    { intros t Ht. destruct (both t Ht) as (H & sm & HH & Hm). apply wpe_bind. eapply wpe_nidx; [done|]. apply wpe_bind. eapply wpe_nidx; [done|].
      destruct (lookup_lt_is_Some_2 boxes t) as [box Hbox]; [lia|]. apply wpe_bind. eapply wpe_nidx; [done|].
      eapply wpe_requests; [done|done| |].
      - intros m. rewrite (Hb t box Hbox). intros (x & -> & [_ Hx]%elem_of_list_filter)%elem_of_list_fmap. by apply Hann.
      - intros out O1 O2. split; [|done]. intros H' HH'. assert (H' = H) as -> by congruence. done. }
    intros reqs Lr Hr.
    assert (∀ m, m ∈ concat reqs → ∃ t, (t < p)%nat ∧ req_ok t m) as Hreq.
    { intros m (out & Hm & [t Ht]%elem_of_list_lookup)%CoarsenProof.elem_of_concat. exists t. split; [rewrite <-Lr; by eapply lookup_lt_Some|]. by eapply Hr. }
    assert (∀ m, m ∈ concat reqs → 0 ≤ fst m < Z.of_nat p) as Hdest.
    { intros m (t & _ & s & k & Hs1 & _ & _ & H & sm & i & u & H' & sm' & j & v & n & HH & _)%Hreq. apply lookup_lt_Some in HH. fold p in HH. lia. }
    assert ((λ m : Z * request_msg, fst (snd (snd (snd m)))) <$> concat reqs ⊆+ v_id <$> all_verts Hs) as Hids.
    { unfold all_verts. rewrite !fmap_concat. apply submseteq_concat. rewrite <-list_fmap_compose. apply Forall2_fmap, Forall2_same_length_lookup. split; [done|].
      intros t out H Ho HH. simpl. by apply (Hr t out Ho). }
    apply wpe_bind, wpe_exchange; [rewrite Lr; exact Hdest|]. rewrite Lr. intros rboxes Lrb Hrb. apply wpe_bind.
    eapply (wpe_ranks E _ p (λ s acc, ∃ H sm ids ms box, Hs !! s = Some H ∧ samples !! s = Some sm ∧ rboxes !! s = Some box ∧
      Forall2 (λ i id, ∃ v, zlookup (h_verts H) i = Some v ∧ v_id v = id) sm ids ∧ fst acc = Contr ids ms [] 0 0 ∧ length ms = length sm ∧
      (∀ l, l ∈ ms → Z.of_nat (length l) ≤ Z.max 0 mcs) ∧ snd acc ≡ₚ acc_msg S s <$> tagged ms ∧ tagged ms ⊆+ req_entry <$> box)).
    { intros s Hs'. destruct (both s Hs') as (H & sm & HH & Hm). destruct (lookup_lt_is_Some_2 Cs1 s) as [C HCs]; [lia|].
      destruct (lookup_lt_is_Some_2 rboxes s) as [box Hbox]; [lia|]. destruct (Hc s C HCs H sm HH Hm) as (ids & Hi & ->).
      apply wpe_bind. eapply wpe_nidx; [done|]. apply wpe_bind. eapply wpe_nidx; [done|]. apply wpe_bind. eapply wpe_nidx; [done|].
      apply wpe_accept; [done| |].
      - intros m. rewrite (Hrb s box Hbox). intros (x & -> & [Hx1 Hx2]%elem_of_list_filter)%elem_of_list_fmap.
        destruct (Hreq x Hx2) as (t & _ & s' & k & E1 & E2 & _ & H1 & sm1 & i & u & _ & _ & _ & _ & _ & _ & A2 & A3 & _). rewrite E2.
        assert (s' = s) as -> by lia. rewrite Hm in A2. injection A2 as <-. apply lookup_lt_Some in A3. lia.
      - intros ms outs M1 M2 M3 M4. exists H, sm, ids, ms, box. done. }
    intros accs Lacc Hacc. apply HQ. split.
    - done.
    - intros s acc Hsa. destruct (Hacc s acc Hsa) as (H & sm & ids & ms & box & A1 & A2 & A3 & A4 & A5 & A6 & A7 & A8 & A9).
      exists H, sm, ids, ms. split_and!; try done. intros k m t Hin. apply (elem_of_submseteq_1 _ _ _ A9) in Hin.
      apply elem_of_list_fmap in Hin as (r & Hr1 & Hr2). rewrite (Hrb s box A3) in Hr2. apply elem_of_list_fmap in Hr2 as (x & -> & [Hx1 Hx2]%elem_of_list_filter).
      destruct (Hreq x Hx2) as (t' & _ & s' & k' & E1 & E2 & E3 & Hg). injection Hr1 as F1 F2 F3. exists t'.
      assert (s' = s) as -> by lia. assert (k' = k) as -> by lia. split; [congruence|]. by rewrite F2.
    - assert (NoDup ((λ m : Z * request_msg, fst (snd (snd (snd m)))) <$> concat reqs)) as Hnd by (eapply submseteq_NoDup; [exact Hids|apply (di_verts _ _ HD)]).
      eapply submseteq_NoDup; [|exact Hnd].
      rewrite <-(concat_split_by fst (concat reqs) p Hdest). rewrite fmap_concat, <-list_fmap_compose.
      apply submseteq_concat, Forall2_fmap, Forall2_same_length_lookup. rewrite seq_length. split; [done|].
      intros s acc s' Hsa [-> Hlt]%lookup_seq. simpl.
      destruct (Hacc s acc Hsa) as (H & sm & ids & ms & box & A1 & A2 & A3 & A4 & A5 & A6 & A7 & A8 & A9). rewrite A5. cbn [c_matches].
      rewrite <-tagged_snd, <-list_fmap_compose. apply (submseteq_fmap (fst ∘ snd)) in A9. rewrite <-list_fmap_compose in A9.
      etransitivity; [exact A9|]. rewrite (Hrb s box A3), <-list_fmap_compose. done.
  Qed.
End phase.
