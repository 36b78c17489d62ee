(** update_C on all processors. *)
From Verif Require Export KparCount.

Definition counts_of (Hs : list hg) (nid : Z) : Z * Z := (gcount Hs nid 0, gcount Hs nid 1).
(** previous_C and cut_size_my_nets, when they are up to date *)
Definition own_of (part : partitioning) (Hs : list hg) (t : nat) : list (Z * Z) :=
  (λ i, counts_of Hs (pa_global part i (Z.of_nat t))) <$> seqZ 0 (pa_count part (Z.of_nat t)).
Definition mycut (part : partitioning) (Hs : list hg) (t : nat) : Z :=
  zsum ((λ i, gcost Hs (pa_global part i (Z.of_nat t)) * both (counts_of Hs (pa_global part i (Z.of_nat t)))) <$>
    seqZ 0 (pa_count part (Z.of_nat t))).

(** cost_my_nets and procs_my_nets *)
Record table_ok (part : partitioning) (Bs : list hg) (t : nat) (ow : kowned) : Prop := {
  to_cost : ow_cost ow = (λ i, gcost Bs (pa_global part i (Z.of_nat t))) <$> seqZ 0 (pa_count part (Z.of_nat t));
  to_len : length (ow_procs ow) = Z.to_nat (pa_count part (Z.of_nat t));
  to_procs : ∀ (i : nat) ps, ow_procs ow !! i = Some ps → ∀ u, u ∈ ps ↔
    ∃ (s : nat) B, u = Z.of_nat s ∧ Bs !! s = Some B ∧ pa_global part (Z.of_nat i) (Z.of_nat t) ∈ nids B;
}.

(** the books of processor [t] are those of [Bs], its counts follow its own moves *)
Record booked (part : partitioning) (Bs : list hg) (t : nat) (B : hg) (k : kproc) : Prop := {
  bk_shape : same_shape B (kp_H k);
  bk_tracks : tracks Bs B (kp_H k) (kp_C k);
  bk_own : kp_own k = own_of part Bs t;
  bk_prev : kp_prev0 k = (λ n, gcount Bs (n_id n) 0) <$> h_nets (kp_H k);
  bk_cut : kp_cut k = mycut part Bs t;
}.

(** the messages of a processor: the counts of some nets, among them all that have changed *)
Definition sends (part : partitioning) (Bs : list hg) (B H : hg) (out : list (Z * (Z * Z))) : Prop :=
  ∃ Y : gset Z,
    out ≡ₚ (λ n, (pa_owner part (n_id n), (n_id n, gcount Bs (n_id n) 0 + (count_in H n 0 - lcount B (n_id n) 0)))) <$>
             filter (λ n, n_id n ∈ Y) (h_nets H) ∧
    ∀ n, n ∈ h_nets H → n_id n ∉ Y → count_in H n 0 = lcount B (n_id n) 0.

Lemma zsum_perm (l l' : list Z) : l ≡ₚ l' → zsum l = zsum l'.
Proof. intros Hl. by rewrite Hl. Qed.

Lemma lookup_seqZ0 (c : Z) (i : nat) : (i < Z.to_nat c)%nat → seqZ 0 c !! i = Some (Z.of_nat i).
Proof. intros Hi. rewrite lookup_seqZ_lt by lia. f_equal. Qed.

Lemma own_of_lookup part Hs t (i : nat) : (i < Z.to_nat (pa_count part (Z.of_nat t)))%nat →
  own_of part Hs t !! i = Some (counts_of Hs (pa_global part (Z.of_nat i) (Z.of_nat t))).
Proof. intros Hi. unfold own_of. rewrite list_lookup_fmap, lookup_seqZ0 by done. done. Qed.
Lemma own_of_length part Hs t : length (own_of part Hs t) = Z.to_nat (pa_count part (Z.of_nat t)).
Proof. unfold own_of. by rewrite fmap_length, seqZ_length. Qed.
Lemma cut_of_own part Hs t : cut_of ((λ i, gcost Hs (pa_global part i (Z.of_nat t))) <$> seqZ 0 (pa_count part (Z.of_nat t))) (own_of part Hs t) = mycut part Hs t.
Proof. unfold cut_of, own_of, mycut. rewrite zip_with_fmap_l, zip_with_fmap_r, zip_with_diag. done. Qed.

Lemma zsum_three {A} (Bs Hs : list hg) (outs : list A) (F : A → Z) (c : hg → Z) :
  same_shapes Bs Hs → length outs = length Bs →
  (∀ s B H out, Bs !! s = Some B → Hs !! s = Some H → outs !! s = Some out → F out = c H - c B) →
  zsum (F <$> outs) = zsum (c <$> Hs) - zsum (c <$> Bs).
Proof.
  intros HSh. revert outs. induction HSh as [|B H Bs' Hs' _ HF' IH]; intros [|o outs] Hlen HF; simplify_eq/=; [done|].
  rewrite !zsum_cons, (IH outs), (HF 0%nat B H o) by (done || (intros s; apply (HF (Datatypes.S s)))). lia.
Qed.

Section update.
  Context (bp : Z → Z → partitioning) (Hbp : lawful_family bp) (gn : Z) (Bs : list hg).
  Context (HD : distributed gn Bs) (Hgn : 0 ≤ gn) (Hne : Bs ≠ []).
  Let p := length Bs.
  Let part := bp (Z.of_nat p) gn.

  Section changes.
    Context (Hs : list hg) (HSh : same_shapes Bs Hs).

    Lemma sends_net t (i : nat) s B H out nid :
      (t < p)%nat → (i < Z.to_nat (pa_count part (Z.of_nat t)))%nat → nid = pa_global part (Z.of_nat i) (Z.of_nat t) →
      Bs !! s = Some B → Hs !! s = Some H → sends part Bs B H out →
      zsum ((λ m : Z * (Z * Z), snd (snd m) - gcount Bs nid 0) <$>
         filter (λ m : Z * (Z * Z), fst m = Z.of_nat t ∧ pa_local part (fst (snd m)) = Z.of_nat i) out) = lcount H nid 0 - lcount B nid 0.
    Proof.
      intros Ht Hi -> HB HH (Y & Hout & Hun). set (nid := pa_global part _ _).
      pose proof (part_lawful bp Hbp gn Bs HD Hgn Hne) as HL. fold p part in HL.
      pose proof (same_shapes_distributed gn Bs Hs HSh HD) as HD'.
      assert (H ∈ Hs) as HHs by (by eapply elem_of_list_lookup_2). assert (B ∈ Bs) as HBs by (by eapply elem_of_list_lookup_2).
      pose proof (di_local _ _ HD' _ HHs) as HC. pose proof (di_local _ _ HD _ HBs) as HCB.
      assert (same_shape B H) as Hsh by (by eapply Forall2_lookup_lr). pose proof (same_shape_nids _ _ Hsh) as Hnids.
      rewrite Hout. rewrite filter_fmap, filter_filter, <-list_fmap_compose. unfold compose. simpl.
      rewrite (HgMore.filter_ext _ (λ n, n_id n ∈ Y ∧ n_id n = nid)).
      2: { intros n Hn. assert (0 ≤ n_id n < gn) as Hr by (apply (di_range _ _ HD'), all_nets_elem; eauto). split.
        - intros [[Ho Hl] HY]. split; [done|]. unfold nid. simpl in Ho, Hl. rewrite <-Ho, <-Hl. symmetry. by apply (la_global _ _ _ HL).
        - intros [HY Hid]. destruct (la_inv _ _ _ HL (Z.of_nat t) (Z.of_nat i)) as (_ & ? & ?); [lia|lia|]. simpl. rewrite Hid in *. done. }
      destruct (decide (nid ∈ nids H)) as [Hin|Hnot].
      - apply nids_elem in Hin as (n & Hn & Hid).
        assert (filter (λ n', n_id n' ∈ Y ∧ n_id n' = nid) (h_nets H) = filter (λ n', n_id n' ∈ Y) [n]) as ->.
        { rewrite <-(filter_id_single H n (co_nid _ HC) Hn), filter_filter, Hid. done. }
        rewrite <-Hid, lcount_elem by done. rewrite filter_cons, filter_nil. case_decide as HY; csimpl.
        + rewrite zsum_cons. unfold zsum. simpl. lia.
        + rewrite (Hun n Hn HY). unfold zsum. simpl. lia.
      - rewrite !lcount_absent; [|by rewrite Hnids|done]. rewrite filter_none; [done|].
        intros n Hn [_ Hid]. apply Hnot, nids_elem. eauto.
    Qed.

    (** what an owner receives *)
    Lemma delta_changes t (i : nat) outs box :
      (t < p)%nat → (i < Z.to_nat (pa_count part (Z.of_nat t)))%nat →
      length outs = p → (∀ s B H out, Bs !! s = Some B → Hs !! s = Some H → outs !! s = Some out → sends part Bs B H out) →
      box ≡ₚ snd <$> filter (λ m : Z * (Z * Z), fst m = Z.of_nat t) (concat outs) →
      let nid := pa_global part (Z.of_nat i) (Z.of_nat t) in
      delta (pa_local part) box i (gcount Bs nid 0) = gcount Hs nid 0 - gcount Bs nid 0.
    Proof.
      intros Ht Hi Hlen Hout Hbox nid. unfold delta. rewrite Hbox, filter_fmap, filter_filter, <-list_fmap_compose. unfold compose. simpl.
      pose proof (same_shapes_distributed gn Bs Hs HSh HD) as HD'.
      set (F := λ out : list (Z * (Z * Z)), zsum ((λ m : Z * (Z * Z), snd (snd m) - gcount Bs nid 0) <$>
         filter (λ m : Z * (Z * Z), fst m = Z.of_nat t ∧ pa_local part (fst (snd m)) = Z.of_nat i) out)).
      transitivity (zsum (F <$> outs)).
      { rewrite (HgMore.filter_ext _ (λ m : Z * (Z * Z), fst m = Z.of_nat t ∧ pa_local part (fst (snd m)) = Z.of_nat i)) by (intros; tauto).
        clear. rewrite concat_filter. induction outs as [|o outs IH]; [done|]. csimpl. rewrite fmap_app, zsum_app, zsum_cons. by rewrite IH. }
      rewrite (gcount_local gn Hs), (gcount_local gn Bs) by done.
      assert (∀ s B H out, Bs !! s = Some B → Hs !! s = Some H → outs !! s = Some out → F out = lcount H nid 0 - lcount B nid 0) as HF.
      { intros s B H out HB HH Ho. eapply sends_net; eauto. }
      by apply (zsum_three Bs Hs).
    Qed.

    Lemma wpe_update_C E (ug : bool) ows outs ins ks (R : nat → gstruct → Prop) (Q : list kproc → Prop) :
      Hs = kp_H <$> ks →
      (∀ v, v ∈ all_verts Bs → v_part v = 0 ∨ v_part v = 1) → (∀ v, v ∈ all_verts Hs → v_part v = 0 ∨ v_part v = 1) →
      (∀ n, n ∈ all_nets Bs → n_gsize n = gsize Bs (n_id n)) →
      length ows = p → (∀ t ow, ows !! t = Some ow → table_ok part Bs t ow) →
      (∀ t B k, Bs !! t = Some B → ks !! t = Some k → booked part Bs t B k) →
      length outs = p → (∀ t B k out, Bs !! t = Some B → ks !! t = Some k → outs !! t = Some out → sends part Bs B (kp_H k) out) →
      length ins = p → (∀ t box, ins !! t = Some box → box ≡ₚ snd <$> filter (λ m : Z * (Z * Z), fst m = Z.of_nat t) (concat outs)) →
      (∀ t k G, ks !! t = Some k → R t G → g_H G = kp_H k ∧ g_C G = kp_C k) →
      (∀ t k, ks !! t = Some k →
        if ug then
          ∀ prev0 : list Z, prev0 = (λ n, gcount Hs (n_id n) 0) <$> h_nets (kp_H k) →
          wpe E (foldM (λ (G : gstruct) (i : nat),
              n <- nidx (h_nets (kp_H k)) i ;; c0 <- nidx prev0 i ;; c <- nidx (g_C G) i ;;
              if decide (c0 ≠ fst c) then update_gains G n c (c0, n_gsize n - c0) else ret G)
              (seq 0 (length (h_nets (kp_H k)))) (kp_G k)) (R t)
        else R t (kp_G k)) →
      (∀ ks', length ks' = p →
         (∀ t k, ks !! t = Some k → ∃ G, R t G ∧
            ks' !! t = Some (KProc (with_C ((λ n, counts_of Hs (n_id n)) <$> h_nets (kp_H k)) G) (kp_Cl k) (kp_ws k) (own_of part Hs t)
              ((λ n, gcount Hs (n_id n) 0) <$> h_nets (kp_H k)) (mycut part Hs t) (kp_best k) (kp_nim k) (kp_done k))) → Q ks') →
      wpe E (update_C bp ug ows ins ks) Q.
    Proof.
      intros HHs HBB HBH Hgs Hlw Htab Hbk Hlo Hout Hli Hins HRG Hgain HQ.
      pose proof (part_lawful bp Hbp gn Bs HD Hgn Hne) as HL. fold p part in HL.
      pose proof (same_shapes_distributed gn Bs Hs HSh HD) as HD'.
      assert (length ks = p) as Hlk. { unfold p. rewrite (Forall2_length _ _ _ HSh), HHs. by rewrite fmap_length. }
      assert (∀ t k, ks !! t = Some k → Hs !! t = Some (kp_H k)) as HkH by (intros t k Hk; by rewrite HHs, list_lookup_fmap, Hk).
      assert (∀ t k, ks !! t = Some k → ∃ B, Bs !! t = Some B ∧ same_shape B (kp_H k)) as HkB.
      { intros t k Hk. apply (Forall2_lookup_r _ _ _ _ _ HSh). by apply HkH. }
      assert (∀ t k, ks !! t = Some k → net_partition bp p (kp_H k) = part) as Hnp.
      { intros t k Hk. unfold net_partition, part. by rewrite (distributed_gnets gn Hs t _ HD' (HkH t k Hk)). }
      assert (Hs ≠ []) as Hne'. { intros Hnil. rewrite Hnil in HSh. by inversion HSh. }
      assert (∀ nid, gcount Hs nid 1 = gcount Bs nid 1 - (gcount Hs nid 0 - gcount Bs nid 0)) as Hc1.
      { intros nid. pose proof (gcount_sum bp Hbp gn Bs HD Hgn Hne nid HBB). pose proof (gcount_sum bp Hbp gn Hs HD' Hgn Hne' nid HBH).
        pose proof (same_shapes_gsize Bs Hs nid HSh). lia. }
      assert (∀ t out, outs !! t = Some out → ∃ B k, Bs !! t = Some B ∧ ks !! t = Some k ∧ sends part Bs B (kp_H k) out) as Hout'.
      { intros t out Ho. pose proof (lookup_lt_Some _ _ _ Ho) as Ht. destruct (lookup_lt_is_Some_2 ks t) as [k Hk]; [lia|].
        destruct (HkB t k Hk) as (B & HB & _). exists B, k. eauto. }
      assert (∀ t box m, ins !! t = Some box → m ∈ box → 0 ≤ pa_local part (fst m) < pa_count part (Z.of_nat t)) as Hloc.
      { intros t box m Hb Hm. rewrite (Hins t box Hb) in Hm. apply elem_of_list_fmap in Hm as (m' & -> & [Hd Hm']%elem_of_list_filter).
        apply CoarsenProof.elem_of_concat in Hm' as (out & Hm' & [s Ho]%elem_of_list_lookup).
        destruct (Hout' s out Ho) as (B & k & HB & Hk & (Y & Hperm & _)). rewrite Hperm in Hm'.
        apply elem_of_list_fmap in Hm' as (n & -> & [_ Hn]%elem_of_list_filter). simpl in *. rewrite <-Hd. apply (la_local _ _ _ HL).
        apply (di_range _ _ HD'), all_nets_elem. exists (kp_H k). split; [|done]. eapply elem_of_list_lookup_2. by apply HkH. }
      unfold update_C. rewrite Hlk. apply wpe_bind.
      eapply (wpe_ranks _ _ _ (λ (t : nat) (y : list (Z * Z) * Z * list (Z * (Z * Z))), fst y = (own_of part Hs t, mycut part Hs t) ∧
         ∀ m, m ∈ snd y ↔ ∃ i (s : nat) B, 0 ≤ i < pa_count part (Z.of_nat t) ∧ gcount Bs (pa_global part i (Z.of_nat t)) 0 ≠ gcount Hs (pa_global part i (Z.of_nat t)) 0 ∧
           Bs !! s = Some B ∧ pa_global part i (Z.of_nat t) ∈ nids B ∧
           m = (Z.of_nat s, (pa_global part i (Z.of_nat t), gcount Hs (pa_global part i (Z.of_nat t)) 0)))).
      { intros t Ht. destruct (lookup_lt_is_Some_2 ks t) as [k Hk]; [lia|]. destruct (HkB t k Hk) as (B & HB & _).
        destruct (lookup_lt_is_Some_2 ins t) as [box Hb]; [lia|]. destruct (lookup_lt_is_Some_2 ows t) as [ow How]; [lia|].
        apply wpe_bind, wpe_nidx with k; [done|]. apply wpe_bind, wpe_nidx with box; [done|]. apply wpe_bind, wpe_nidx with ow; [done|].
        rewrite (Hnp t k Hk). pose proof (Htab t ow How) as [Hcost Hplen Hprocs]. pose proof (Hbk t B k HB Hk) as Hbook.
        rewrite (bk_own _ _ _ _ _ Hbook), (bk_cut _ _ _ _ _ Hbook).
        assert (imap (λ i c, shift (delta (pa_local part) box i (fst c)) c) (own_of part Bs t) = own_of part Hs t) as Hnew.
        { apply list_eq_same_length with (Z.to_nat (pa_count part (Z.of_nat t))); [by rewrite own_of_length|by rewrite imap_length, own_of_length|].
          intros i x y Hi. rewrite list_lookup_imap, !own_of_lookup by done. simpl. intros [= <-] [= <-].
          rewrite (delta_changes t i outs box) by (done || eauto || (intros s B' H' out HB' HH' Ho; destruct (Hout' s out Ho) as (B1 & k1 & HB1 & Hk1 & Hsd); rewrite (HkH _ _ Hk1) in HH'; simplify_eq; done)).
          unfold shift, counts_of. simpl. rewrite (Hc1 (pa_global part (Z.of_nat i) (Z.of_nat t))). f_equal. lia. }
        apply wpe_update_own.
        - apply own_of_length.
        - rewrite Hcost. by rewrite fmap_length, seqZ_length.
        - done.
        - intros m Hm. specialize (Hloc t box m Hb Hm). lia.
        - rewrite Hnew. intros out Hm. cbn [fst snd]. split.
          + f_equal. rewrite Hcost, cut_of_own.
            replace ((λ i, gcost Bs (pa_global part i (Z.of_nat t))) <$> seqZ 0 (pa_count part (Z.of_nat t))) with ((λ i, gcost Hs (pa_global part i (Z.of_nat t))) <$> seqZ 0 (pa_count part (Z.of_nat t))).
            { rewrite cut_of_own. lia. }
            apply list_fmap_ext. intros. by apply same_shapes_gcost.
          + intros m. rewrite Hm. split.
            * intros (i & c & c' & ps & Hc & Hc' & Hch & Hps & Hu & Hsnd). pose proof (lookup_lt_Some _ _ _ Hps) as Hi.
              rewrite own_of_lookup in Hc, Hc' by lia. injection Hc as <-. injection Hc' as <-.
              apply (Hprocs i ps Hps) in Hu as (s & B' & Hu & HB' & Hin). exists (Z.of_nat i), s, B'. split; [lia|]. split; [done|]. split; [done|].
              split; [done|]. destruct m as [m1 m2]. simpl in *. by subst.
            * intros (i & s & B' & Hi & Hch & HB' & Hin & ->). destruct (lookup_lt_is_Some_2 (ow_procs ow) (Z.to_nat i)) as [ps Hps]; [lia|].
              exists (Z.to_nat i), (counts_of Bs (pa_global part i (Z.of_nat t))), (counts_of Hs (pa_global part i (Z.of_nat t))), ps.
              rewrite !own_of_lookup by lia. rewrite Z2Nat.id by lia. split; [done|]. split; [done|]. split; [done|]. split; [done|]. simpl.
              split; [|done]. apply (Hprocs _ _ Hps). exists s, B'. rewrite Z2Nat.id by lia. done. }
      intros rs Hlr Hrs. apply wpe_bind. apply wpe_exchange.
      { rewrite fmap_length, Hlr. intros m Hm. apply CoarsenProof.elem_of_concat in Hm as (out & Hm & Ho).
        apply elem_of_list_fmap in Ho as (y & -> & Hy). apply elem_of_list_lookup in Hy as [t Hy]. destruct (proj1 (proj2 (Hrs t y Hy) _) Hm) as (i & s & B & _ & _ & HB & _ & Hmm). rewrite Hmm.
        apply lookup_lt_Some in HB. simpl. fold p in HB. lia. }
      rewrite fmap_length, Hlr. intros ins' Hli' Hins'.
      assert (∀ s box B m, ins' !! s = Some box → Bs !! s = Some B → m ∈ box ↔ ∃ nid, nid ∈ nids B ∧ gcount Bs nid 0 ≠ gcount Hs nid 0 ∧ m = (nid, gcount Hs nid 0)) as Hbox'.
      { intros s box B m Hb HB. rewrite (Hins' s box Hb), elem_of_list_fmap. split.
        - intros (m' & -> & [Hd Hm']%elem_of_list_filter). apply CoarsenProof.elem_of_concat in Hm' as (out & Hm' & Ho).
          apply elem_of_list_fmap in Ho as (y & -> & Hy). apply elem_of_list_lookup in Hy as [t Hy]. destruct (proj1 (proj2 (Hrs t y Hy) _) Hm') as (i & s' & B' & _ & Hch & HB' & Hin & Hmm). rewrite Hmm in *.
          simpl in Hd. assert (s' = s) as -> by lia. simplify_eq. eauto.
        - intros (nid & Hin & Hch & ->). exists (Z.of_nat s, (nid, gcount Hs nid 0)). split; [done|]. apply elem_of_list_filter. split; [done|].
          assert (0 ≤ nid < gn) as Hr. { apply nids_elem in Hin as (n & Hn & <-). apply (di_range _ _ HD), all_nets_elem. exists B. split; [by eapply elem_of_list_lookup_2|done]. }
          pose proof (la_owner _ _ _ HL nid Hr) as Ho. pose proof (la_local _ _ _ HL nid Hr) as Hl.
          destruct (lookup_lt_is_Some_2 rs (Z.to_nat (pa_owner part nid))) as [y Hy]; [lia|].
          apply CoarsenProof.elem_of_concat. exists (snd y). split; [|apply elem_of_list_fmap; exists y; split; [done|by eapply elem_of_list_lookup_2]].
          apply (proj2 (Hrs _ y Hy) _). exists (pa_local part nid), s, B. rewrite Z2Nat.id by lia. rewrite (la_global _ _ _ HL) by done. done. }
      clear Hins'.
      eapply (wpe_ranks _ _ _ (λ (t : nat) k', ∀ k, ks !! t = Some k → ∃ G, R t G ∧ k' =
           KProc (with_C ((λ n, counts_of Hs (n_id n)) <$> h_nets (kp_H k)) G) (kp_Cl k) (kp_ws k) (own_of part Hs t)
              ((λ n, gcount Hs (n_id n) 0) <$> h_nets (kp_H k)) (mycut part Hs t) (kp_best k) (kp_nim k) (kp_done k))).
      { intros t Ht. destruct (lookup_lt_is_Some_2 ks t) as [k Hk]; [lia|]. destruct (HkB t k Hk) as (B & HB & Hsh).
        destruct (lookup_lt_is_Some_2 ins' t) as [box Hb]; [lia|]. destruct (lookup_lt_is_Some_2 rs t) as [r Hr]; [lia|].
        apply wpe_bind, wpe_nidx with k; [done|]. apply wpe_bind, wpe_nidx with r; [done|]. apply wpe_bind, wpe_nidx with box; [done|].
        destruct (Hrs t r Hr) as [Hfst _]. rewrite Hfst. cbn [fst snd]. pose proof (Hbk t B k HB Hk) as Hbook.
        pose proof (same_shape_nids _ _ Hsh) as Hnids.
        assert (kp_H k ∈ Hs) as HkHs by (eapply elem_of_list_lookup_2; by apply HkH).
        assert (∀ n, n ∈ h_nets (kp_H k) → (gcount Hs (n_id n) 0, n_gsize n - gcount Hs (n_id n) 0) = counts_of Hs (n_id n)) as Hcn.
        { intros n [i Hn]%elem_of_list_lookup. unfold counts_of. f_equal. destruct (Forall2_lookup_r _ _ _ _ _ (ss_nets _ _ Hsh) Hn) as (n0 & Hn0 & (Hid & _ & _ & Hgz)).
          rewrite <-Hgz, Hgs by (apply all_nets_elem; exists B; split; by eapply elem_of_list_lookup_2).
          rewrite <-(same_shapes_gsize Bs Hs (n_id n0) HSh), Hid, <-(gcount_sum bp Hbp gn Hs HD' Hgn Hne' _ HBH). lia. }
        apply (wpe_update_local _ _ _ _ (λ nid, gcount Bs nid 0) (λ nid, gcount Hs nid 0) (R t)).
        - apply (di_local _ _ HD' _ HkHs).
        - apply (tracks_length _ _ _ _ (bk_tracks _ _ _ _ _ Hbook)).
        - apply (bk_prev _ _ _ _ _ Hbook).
        - intros m Hm. apply (Hbox' t box B m Hb HB) in Hm as (nid & Hin & _ & ->). rewrite Hnids in Hin. apply nids_elem in Hin as (n & Hn & <-). eauto.
        - intros n Hn Hch. apply (Hbox' t box B _ Hb HB). exists (n_id n). split; [|done]. rewrite Hnids. apply nids_elem. eauto.
        - intros G HG. by apply (HRG t k).
        - apply (Hgain t k Hk).
        - intros G HG k0 [= <-]%(eq_trans (eq_sym Hk)). exists G. split; [done|]. f_equal. f_equal.
          apply list_fmap_ext. intros i n Hn. apply Hcn. by eapply elem_of_list_lookup_2. }
      intros ks' Hlk' Hks'. apply HQ; [done|]. intros t k Hk. pose proof (lookup_lt_Some _ _ _ Hk) as Ht.
      destruct (lookup_lt_is_Some_2 ks' t) as [k' Hk']; [lia|]. destruct (Hks' t k' Hk' k Hk) as (G & HG & ->). eauto.
    Qed.
  End changes.
End update.
