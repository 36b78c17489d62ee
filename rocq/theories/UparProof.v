(** Uncoarsening on several processors. *)
From Verif Require Export UparFree CparTold.

Lemma perm_parts {A B C D} (ks : list A) (hs : list B) (cs : list C) (f : A → list D) (g : B → list D) (h : C → list D) :
  length ks = length hs → length cs = length hs →
  (∀ t k c b, ks !! t = Some k → hs !! t = Some b → cs !! t = Some c → f k ≡ₚ g b ++ h c) →
  concat (f <$> ks) ≡ₚ concat (g <$> hs) ++ concat (h <$> cs).
Proof.
  revert ks cs; induction hs as [|b hs IH]; intros [|k ks] [|c cs] L1 L2 Hp; try done. csimpl in *.
  rewrite (Hp 0%nat k c b) by done. rewrite (IH ks cs) by (try lia; intros t; apply (Hp (S t))). solve_Permutation.
Qed.
Section unc.
  Context (E : err → Prop) (gn mcs : Z) (Hs : list hg) (samples : list (list Z)) (HCs : list hg) (Cs : list contraction).
  Context (HD : distributed gn Hs) (Hcr : coarsened_par gn mcs Hs samples HCs Cs) (Hsl : length samples = length Hs).
  (** the coarse hypergraphs with their free vertices back *)
  Context (Ks : list hg) (HKl : length Ks = length Hs).
  Context (HK : ∀ t K HC C, Ks !! t = Some K → HCs !! t = Some HC → Cs !! t = Some C →
    consistent K ∧ vids K ≡ₚ vids HC ++ (fst <$> c_free C)).
  Notation cl := (all_clusters Cs).

  Lemma lookup_all t : (t < length Hs)%nat → ∃ H HC C K sm, Hs !! t = Some H ∧ HCs !! t = Some HC ∧ Cs !! t = Some C ∧ Ks !! t = Some K ∧ samples !! t = Some sm.
  Proof.
    intros Ht. destruct (cr_len _ _ _ _ _ _ Hcr) as [L1 L2].
    destruct (lookup_lt_is_Some_2 Hs t Ht) as [H ?]. destruct (lookup_lt_is_Some_2 HCs t ltac:(lia)) as [HC ?].
    destruct (lookup_lt_is_Some_2 Cs t ltac:(lia)) as [C ?]. destruct (lookup_lt_is_Some_2 Ks t ltac:(lia)) as [K ?].
    destruct (lookup_lt_is_Some_2 samples t ltac:(lia)) as [sm ?]. by exists H, HC, C, K, sm.
  Qed.
  Lemma K_ids : v_id <$> all_verts Ks ≡ₚ (v_id <$> all_verts HCs) ++ (fst <$> all_free Cs).
  Proof.
    destruct (cr_len _ _ _ _ _ _ Hcr) as [L1 L2]. unfold all_verts, all_free. rewrite !fmap_concat, <-!list_fmap_compose.
    apply perm_parts; [lia..|]. intros t K C HC HKt HHC HC'. by apply (HK t).
  Qed.
  Lemma K_sub t H K u : Hs !! t = Some H → Ks !! t = Some K → u ∈ vids K → u ∈ vids H.
  Proof.
    intros HH HKt Hu. destruct (lookup_all t) as (H' & HC & C & K' & sm & ? & ? & ? & ? & ?); [by eapply lookup_lt_Some|]. simplify_eq.
    destruct (HK t K HC C) as [_ Hp]; try done. rewrite Hp in Hu. by eapply (cr_stay _ _ _ _ _ _ Hcr).
  Qed.
  Lemma K_nodup : NoDup (v_id <$> all_verts Ks).
  Proof.
    pose proof (di_verts _ _ HD) as Hnd. rewrite <-(cr_ids _ _ _ _ _ _ Hcr), app_assoc, <-K_ids in Hnd. by apply NoDup_app in Hnd as (? & _).
  Qed.
  Lemma K_local t K u : Ks !! t = Some K → u ∈ vids K → gpart Ks u = part_of K u.
  Proof.
    intros HKt (v & Hv & <-)%vids_elem. rewrite gpart_elem; [|apply K_nodup|].
    - symmetry. apply part_of_elem; [|done]. destruct (lookup_all t) as (H' & HC & C & K' & sm & ? & ? & ? & ? & ?); [rewrite <-HKl; by eapply lookup_lt_Some|]. simplify_eq.
      destruct (HK t K HC C) as [HcK _]; try done. apply (co_vid _ HcK).
    - apply all_verts_elem. exists K. split; [by eapply elem_of_list_lookup_2|done].
  Qed.
  (** a vertex of a processor is in its coarse hypergraph or is matched *)
  Lemma K_or_matched t H K u : Hs !! t = Some H → Ks !! t = Some K → u ∈ vids H → (u ∈ vids K ∧ u ∉ concat (snd <$> cl)) ∨ (u ∉ vids K ∧ u ∈ concat (snd <$> cl)).
  Proof.
    intros HH HKt Hu. pose proof (di_verts _ _ HD) as Hnd. rewrite <-(cr_ids _ _ _ _ _ _ Hcr), app_assoc, <-K_ids in Hnd. apply NoDup_app in Hnd as (_ & Hdis & _).
    assert (u ∈ v_id <$> all_verts Hs) as Hin.
    { apply vids_elem in Hu as (v & Hv & <-). apply elem_of_list_fmap_1, all_verts_elem. exists H. split; [by eapply elem_of_list_lookup_2|done]. }
    rewrite <-(cr_ids _ _ _ _ _ _ Hcr), app_assoc, <-K_ids in Hin. apply elem_of_app in Hin as [Hin|Hin].
    - left. split; [|by apply Hdis]. apply elem_of_list_fmap in Hin as (v & -> & Hv). apply all_verts_elem in Hv as (K' & [t' HK']%elem_of_list_lookup & Hv).
      assert (v_id v ∈ vids K') as Hv' by (apply vids_elem; eauto). destruct (lookup_all t') as (H' & HC & C & K'' & sm & HH' & ? & ? & ? & ?); [rewrite <-HKl; by eapply lookup_lt_Some|]. simplify_eq.
      pose proof (K_sub t' H' K' _ HH' HK' Hv') as Hu'. assert (t' = t) as ->; [|by simplify_eq].
      eapply (NoDup_concat_index ((fmap v_id ∘ h_verts) <$> Hs)); [|by rewrite list_lookup_fmap, HH'|by rewrite list_lookup_fmap, HH|exact Hu'|exact Hu].
      rewrite list_fmap_compose, <-fmap_concat. apply (di_verts _ _ HD).
    - right. split; [|done]. intros HuK. apply (Hdis u); [|done]. apply vids_elem in HuK as (v & Hv & <-). apply elem_of_list_fmap_1, all_verts_elem. exists K. split; [by eapply elem_of_list_lookup_2|done].
  Qed.

  Lemma wpe_copy_parts t H K (Q : hg → Prop) : Hs !! t = Some H → Ks !! t = Some K →
    Q (lab H (λ u, if decide (u ∈ vids K) then part_of K u else part_of H u)) → wpe E (copy_parts K H) Q.
  Proof.
    intros HH HKt HQ. destruct (lookup_all t) as (H' & HC & C & K' & sm & ? & ? & ? & ? & ?); [by eapply lookup_lt_Some|]. simplify_eq.
    destruct (HK t K HC C) as [HcK _]; try done. assert (consistent H) as HcH by (apply (di_local _ _ HD); by eapply elem_of_list_lookup_2).
    unfold copy_parts.
    apply (wpe_foldM _ _ (λ ds s, s = lab H (λ u, if decide (u ∈ v_id <$> ds) then part_of K u else part_of H u))).
    - rewrite <-(lab_self H) at 1 by apply (co_vid _ HcH). apply lab_ext. intros x _. rewrite decide_False; [done|set_solver].
    - intros ds v ts s Heq ->. assert (v ∈ h_verts K) as Hv by (rewrite Heq; set_solver).
      assert (v_id v ∈ vids H) as Hin by (eapply K_sub; [done..|apply vids_elem; eauto]). apply vids_elem in Hin as (x & Hx & Hxv). apply elem_of_list_lookup in Hx as [i Hi].
      set (g := λ u, if decide (u ∈ v_id <$> ds) then part_of K u else part_of H u).
      assert (h_vmap (lab H g) !! v_id v = Some i) as -> by (rewrite <-Hxv; apply (vmap_ok_lookup H i x); [by apply co_vmap_ok|done]).
      apply wpe_bind. eapply wpe_vert_at; [by apply lab_lookup|]. apply wpe_ret. rewrite (lab_upd H g i x) by (done || apply (co_vid _ HcH)).
      apply lab_ext. intros y _. unfold g. rewrite fmap_app. csimpl. rewrite Hxv. case_decide as Hd.
      + subst y. rewrite decide_True by set_solver. symmetry. apply part_of_elem; [apply (co_vid _ HcK)|done].
      + destruct (decide (y ∈ v_id <$> ds)) as [Hy|Hy]; [rewrite decide_True by set_solver|rewrite decide_False by set_solver]; done.
    - intros s ->. exact HQ.
  Qed.

  (** the messages of one processor *)
  Definition part_msgs (K : hg) (C : contraction) : list (Z * (Z * Z)) :=
    concat (zip_with (λ s (ms : list (Z * Z)), (λ m, (snd m, (fst m, part_of K s))) <$> ms) (c_samples C) (c_matches C)).
  Lemma samples_K t K C s : Ks !! t = Some K → Cs !! t = Some C → s ∈ c_samples C → s ∈ vids K.
  Proof.
    intros HKt HC Hin. destruct (lookup_all t) as (H & HC' & C' & K' & sm & HH & ? & ? & ? & Hsm); [rewrite <-HKl; by eapply lookup_lt_Some|]. simplify_eq.
    destruct (cr_samples _ _ _ _ _ _ Hcr t H sm C HH Hsm HC) as [HF Hml]. apply elem_of_list_lookup in Hin as [i Hi].
    destruct (Forall2_lookup_r _ _ _ _ _ HF Hi) as (j & _ & v & Hv & Hvs).
    destruct (K_or_matched t H K s HH HKt) as [[? _]|[_ Hm]]; [apply vids_elem; exists v; split; [by eapply elem_of_list_lookup_2|done]|done|].
    exfalso. pose proof (cr_disjoint _ _ _ _ _ _ Hcr) as Hd. apply NoDup_app in Hd as (_ & Hd & _). apply (Hd s); [|done].
    unfold all_clusters. rewrite fmap_concat, <-list_fmap_compose. apply elem_of_list_In, in_concat. exists (c_samples C). split; [|apply elem_of_list_In; by eapply elem_of_list_lookup_2].
    apply elem_of_list_In, elem_of_list_fmap. exists C. split; [|by eapply elem_of_list_lookup_2]. simpl. unfold clusters. rewrite fst_zip; [done|].
    rewrite fmap_length, Hml, (Forall2_length _ _ _ HF). done.
  Qed.
  Lemma samples_matches t C : Cs !! t = Some C → length (c_samples C) = length (c_matches C).
  Proof.
    intros HC. destruct (lookup_all t) as (H & HC' & C' & K' & sm & HH & ? & ? & ? & Hsm); [destruct (cr_len _ _ _ _ _ _ Hcr) as [? <-]; by eapply lookup_lt_Some|]. simplify_eq.
    destruct (cr_samples _ _ _ _ _ _ Hcr t H sm C HH Hsm HC) as [HF Hml]. by rewrite Hml, (Forall2_length _ _ _ HF).
  Qed.
  Lemma wpe_send_parts t K C (Q : list (Z * (Z * Z)) → Prop) : Ks !! t = Some K → Cs !! t = Some C → Q (part_msgs K C) → wpe E (send_parts K C) Q.
  Proof.
    intros HKt HC HQ. pose proof (samples_matches t C HC) as Hl. unfold send_parts. apply wpe_bind.
    apply (wpe_ranks _ _ _ (λ i x, zip_with (λ s (ms : list (Z * Z)), (λ m, (snd m, (fst m, part_of K s))) <$> ms) (c_samples C) (c_matches C) !! i = Some x)).
    - intros i Hi. destruct (lookup_lt_is_Some_2 (c_samples C) i Hi) as [s Hs']. destruct (lookup_lt_is_Some_2 (c_matches C) i ltac:(lia)) as [ms Hms].
      apply wpe_bind. eapply wpe_nidx; [exact Hs'|]. pose proof (samples_K t K C s HKt HC ltac:(by eapply elem_of_list_lookup_2)) as Hsk.
      destruct (lookup_all t) as (H & HC' & C' & K' & sm & HH & ? & ? & ? & Hsm); [rewrite <-HKl; by eapply lookup_lt_Some|]. simplify_eq.
      destruct (HK t K HC' C) as [HcK _]; try done. apply vids_elem in Hsk as (v & Hv & <-).
      apply wpe_bind, wpe_vert; [by apply co_vmap_ok|done|]. apply wpe_bind. eapply wpe_nidx; [exact Hms|]. apply wpe_ret.
      rewrite lookup_zip_with, Hs', Hms. simpl. f_equal. apply list_fmap_ext. intros j m _. by rewrite part_of_elem by (done || apply (co_vid _ HcK)).
    - intros ls Hlen Hls. apply wpe_ret. unfold part_msgs in HQ.
      replace ls with (zip_with (λ s (ms : list (Z * Z)), (λ m, (snd m, (fst m, part_of K s))) <$> ms) (c_samples C) (c_matches C)); [done|].
      apply list_eq_same_length with (length ls); [done|rewrite zip_with_length; lia|]. intros i x y _ Hx Hy. specialize (Hls i y Hy). congruence.
  Qed.
  Lemma part_msgs_elem t K C m : Ks !! t = Some K → Cs !! t = Some C → m ∈ part_msgs K C →
    ∃ c, c ∈ cl ∧ fst (snd m) ∈ snd c ∧ snd (snd m) = gpart Ks (fst c) ∧
      ∃ t' H, fst m = Z.of_nat t' ∧ Hs !! t' = Some H ∧ fst (snd m) ∈ vids H.
  Proof.
    intros HKt HC Hm. apply elem_of_concat in Hm as (l & Hm & (i & s & ms & -> & Hs' & Hms')%elem_of_lookup_zip_with).
    apply elem_of_list_fmap in Hm as ([x tt] & -> & Hx). cbn [fst snd].
    exists (s, fst <$> ms). cbn [fst snd]. split.
    { apply elem_of_concat. exists (clusters (c_samples C) (c_matches C)). split; [|apply (elem_of_list_fmap_1 (λ C, clusters (c_samples C) (c_matches C))); by eapply elem_of_list_lookup_2].
      unfold clusters. apply elem_of_lookup_zip_with. exists i, s, (fst <$> ms). by rewrite list_lookup_fmap, Hms'. }
    split; [by apply (elem_of_list_fmap_1 fst _ (x, tt))|]. split.
    { symmetry. eapply K_local; [done|]. eapply samples_K; [done..|]. by eapply elem_of_list_lookup_2. }
    eapply (cr_owner _ _ _ _ _ _ Hcr C ms); [by eapply elem_of_list_lookup_2..|done].
  Qed.
  Lemma part_msgs_all u c : c ∈ cl → u ∈ snd c → ∃ t K C m, Ks !! t = Some K ∧ Cs !! t = Some C ∧ m ∈ part_msgs K C ∧ fst (snd m) = u.
  Proof.
    intros Hc Hu. apply elem_of_concat in Hc as (l & Hc & (C & -> & [t HC]%elem_of_list_lookup)%elem_of_list_fmap).
    unfold clusters in Hc. apply elem_of_lookup_zip_with in Hc as (i & s & ms' & -> & Hs' & Hms'). rewrite list_lookup_fmap in Hms'.
    destruct (c_matches C !! i) as [ms|] eqn:Hms; [|done]. injection Hms' as <-. cbn [snd] in Hu. apply elem_of_list_fmap in Hu as ([x p] & -> & Hx).
    destruct (lookup_lt_is_Some_2 Ks t) as [K HKt]; [destruct (cr_len _ _ _ _ _ _ Hcr) as [? L]; rewrite HKl, <-L; by eapply lookup_lt_Some|].
    exists t, K, C, (p, (x, part_of K s)). split; [done|]. split; [done|]. split; [|done].
    apply elem_of_concat. eexists. split; [|apply elem_of_lookup_zip_with; exists i, s, ms; split; [reflexivity|done]].
    apply elem_of_list_fmap. by exists (x, p).
  Qed.

  Lemma wpe_take_parts t H K box (Q : hg → Prop) : Hs !! t = Some H → Ks !! t = Some K →
    (∀ m, m ∈ box → fst m ∈ vids H ∧ fst m ∈ concat (snd <$> cl) ∧ snd m = gpart Ks (rep cl (fst m))) →
    (∀ u, u ∈ vids H → u ∈ concat (snd <$> cl) → u ∈ fst <$> box) →
    Q (lab H (λ u, gpart Ks (rep cl u))) →
    wpe E (take_parts (lab H (λ u, if decide (u ∈ vids K) then part_of K u else part_of H u)) box) Q.
  Proof.
    intros HH HKt Hb Hall HQ. assert (consistent H) as HcH by (apply (di_local _ _ HD); by eapply elem_of_list_lookup_2).
    unfold take_parts. set (g0 := λ u, if decide (u ∈ vids K) then part_of K u else part_of H u).
    apply (wpe_foldM _ _ (λ ds s, s = lab H (λ u, if decide (u ∈ fst <$> ds) then gpart Ks (rep cl u) else g0 u))).
    - apply lab_ext. intros x _. rewrite decide_False; [done|set_solver].
    - intros ds m ts s Heq ->. destruct (Hb m) as (Hin & Hm & Hp); [rewrite Heq; set_solver|].
      apply wpe_lab_set; [done|done|]. apply lab_ext. intros y _. rewrite fmap_app. csimpl. case_decide as Hd.
      + subst y. by rewrite decide_True by set_solver.
      + destruct (decide (y ∈ fst <$> ds)) as [Hy|Hy]; [rewrite decide_True by set_solver|rewrite decide_False by set_solver]; done.
    - intros s ->. rewrite (lab_ext H _ (λ u, gpart Ks (rep cl u))); [done|]. intros u Hu. case_decide as Hd; [done|]. unfold g0.
      destruct (K_or_matched t H K u HH HKt Hu) as [[HuK Hnm]|[_ Hm]].
      + rewrite decide_True by done. rewrite rep_unmatched by done. symmetry. by eapply K_local.
      + destruct Hd. by apply Hall.
  Qed.

  Lemma wpe_uncoarsen_world (Q : list hg → Prop) : Q ((λ H, lab H (λ u, gpart Ks (rep cl u))) <$> Hs) → wpe E (uncoarsen_world Ks Hs Cs) Q.
  Proof.
    intros HQ. unfold uncoarsen_world. apply wpe_bind.
    apply (wpe_ranks _ _ _ (λ t x, ∃ H C K, Hs !! t = Some H ∧ Cs !! t = Some C ∧ Ks !! t = Some K ∧
       x = (lab H (λ u, if decide (u ∈ vids K) then part_of K u else part_of H u), part_msgs K C))).
    { intros t Ht. destruct (lookup_all t Ht) as (H & HC & C & K & sm & HH & HHC & HC' & HKt & Hsm).
      apply wpe_bind. eapply wpe_nidx; [exact HKt|]. apply wpe_bind. eapply wpe_nidx; [exact HH|]. apply wpe_bind. eapply wpe_nidx; [exact HC'|].
      apply wpe_bind. eapply wpe_copy_parts; [done..|]. apply wpe_bind. eapply wpe_send_parts; [done..|]. apply wpe_ret. by exists H, C, K. }
    intros xs Hlx Hxs. apply wpe_bind.
    assert (∀ m, m ∈ concat (snd <$> xs) ↔ ∃ t K C, Ks !! t = Some K ∧ Cs !! t = Some C ∧ m ∈ part_msgs K C) as Hms.
    { intros m. rewrite elem_of_concat. split.
      - intros (l & Hm & (x & -> & [t Hx]%elem_of_list_lookup)%elem_of_list_fmap). destruct (Hxs t x Hx) as (H & C & K & HH & HC & HKt & ->). by exists t, K, C.
      - intros (t & K & C & HKt & HC & Hm). destruct (lookup_lt_is_Some_2 xs t) as [x Hx]; [rewrite Hlx, <-HKl; by eapply lookup_lt_Some|].
        destruct (Hxs t x Hx) as (H & C' & K' & HH & HC' & HKt' & Heq). simplify_eq. exists (part_msgs K C). split; [done|].
        change (part_msgs K C) with (snd (lab H (λ u, if decide (u ∈ vids K) then part_of K u else part_of H u), part_msgs K C)).
        apply elem_of_list_fmap_1. by eapply elem_of_list_lookup_2. }
    apply wpe_exchange.
    { rewrite fmap_length, Hlx. intros m (t & K & C & HKt & HC & Hm)%Hms. destruct (part_msgs_elem t K C m HKt HC Hm) as (c & _ & _ & _ & t' & H & -> & HH & _).
      apply lookup_lt_Some in HH. lia. }
    rewrite fmap_length, Hlx. intros boxes Hlb Hbox.
    eapply (wpe_ranks _ _ _ (λ t x, ∃ H, Hs !! t = Some H ∧ x = lab H (λ u, gpart Ks (rep cl u)))).
    - intros t Ht. destruct (lookup_lt_is_Some_2 xs t ltac:(lia)) as [x Hx]. destruct (lookup_lt_is_Some_2 boxes t ltac:(lia)) as [box Hb].
      apply wpe_bind. eapply wpe_nidx; [exact Hx|]. apply wpe_bind. eapply wpe_nidx; [exact Hb|].
      destruct (Hxs t x Hx) as (H & C & K & HH & HC & HKt & ->). cbn [fst]. specialize (Hbox t box Hb).
      eapply wpe_take_parts; [done..| | |by exists H].
      + intros m Hm. rewrite Hbox in Hm. apply elem_of_list_fmap in Hm as (m' & -> & [Hmt Hm']%elem_of_list_filter).
        apply Hms in Hm' as (t1 & K1 & C1 & HK1 & HC1 & Hm1). destruct (part_msgs_elem t1 K1 C1 m' HK1 HC1 Hm1) as (c & Hc & Hu & Hp & t' & H' & Ht' & HH' & HuH).
        assert (t' = t) as -> by lia. rewrite HH in HH'. injection HH' as <-. split; [done|]. split.
        * apply elem_of_concat. exists (snd c). split; [done|]. by apply elem_of_list_fmap_1.
        * rewrite Hp. f_equal. symmetry. apply rep_nodup; [apply (cr_disjoint _ _ _ _ _ _ Hcr)|done|by right].
      + intros u Hu Hm. apply elem_of_concat in Hm as (l & Hul & (c & -> & Hc)%elem_of_list_fmap).
        destruct (part_msgs_all u c Hc Hul) as (t1 & K1 & C1 & m & HK1 & HC1 & Hm & Hmu).
        destruct (part_msgs_elem t1 K1 C1 m HK1 HC1 Hm) as (c' & _ & _ & _ & t' & H' & Ht' & HH' & HuH). rewrite Hmu in HuH.
        assert (t' = t) as -> by (by eapply (same_processor gn Hs)).
        rewrite Hbox. rewrite <-Hmu, <-list_fmap_compose. apply (elem_of_list_fmap_1 (fst ∘ snd)). apply elem_of_list_filter. split; [done|]. apply Hms. eauto 6.
    - intros Hs' Hl' HHs'. replace Hs' with ((λ H, lab H (λ u, gpart Ks (rep cl u))) <$> Hs); [done|].
      apply list_eq_same_length with (length Hs); [done|by rewrite fmap_length|]. intros t x y Ht Hx Hy. destruct (HHs' t y Hy) as (H & HH & ->).
      rewrite list_lookup_fmap, HH in Hx. simpl in Hx; congruence.
  Qed.
End unc.
