(** One round of parallel refinement. *)
From Verif Require Export KparPropose.

Lemma wpe_bind_assoc {A B D} (E : err → Prop) (a : M A) (b : A → M B) (c : B → M D) (Q : D → Prop) :
  wpe E (x <- a ;; b x) (λ y, wpe E (c y) Q) → wpe E (x <- a ;; y <- b x ;; c y) Q.
Proof.
  intros Hw w. specialize (Hw w). unfold bind in *. destruct (a w) as [[x w']|e]; [|exact Hw].
  destruct (b x w') as [[y w'']|e]; [|exact Hw]. exact (Hw w'').
Qed.

Lemma foldl_add_zsum l a : foldl Z.add a l = a + zsum l.
Proof. revert a. induction l as [|x l IH]; intros a; [unfold zsum; simpl; lia|]. simpl. rewrite IH, zsum_cons. lia. Qed.

Lemma synced_same bp gn ows ks ks' : synced bp gn ows ks →
  Forall2 (λ k k', kp_H k' = kp_H k ∧ kp_C k' = kp_C k ∧ kp_Cl k' = kp_Cl k ∧ kp_own k' = kp_own k ∧ kp_prev0 k' = kp_prev0 k ∧ kp_cut k' = kp_cut k) ks ks' →
  synced bp gn ows ks' ∧ kp_H <$> ks' = kp_H <$> ks.
Proof.
  intros HS HF. assert (kp_H <$> ks' = kp_H <$> ks) as HeqH.
  { clear HS. induction HF as [|k k' l l' (HH & _) HF IH]; [done|]. csimpl. by rewrite HH, IH. }
  pose proof (Forall2_length _ _ _ HF) as Hl. split; [|done]. destruct HS as [H1 H2 H3 H4 H5 H6 H7]. split; rewrite ?HeqH, <-?Hl; try done.
  - intros ->. apply H2. by inversion HF.
  - intros t k' Hk'. destruct (Forall2_lookup_r _ _ _ _ _ HF Hk') as (k & Hk & HH & HC & HL & Ho & Hp & Hc). rewrite HH. eapply kok_same; [by apply H7|done..].
Qed.

Lemma tracks_size bp (Hbp : lawful_family bp) gn Bs B H C n i c : distributed gn Bs → 0 ≤ gn → Bs ≠ [] →
  (∀ v, v ∈ all_verts Bs → v_part v = 0 ∨ v_part v = 1) →
  (∀ n, n ∈ all_nets Bs → n_gsize n = gsize Bs (n_id n)) → B ∈ Bs → same_shape B H → bisected H → tracks Bs B H C →
  h_nets H !! i = Some n → C !! i = Some c → fst c + snd c = n_gsize n.
Proof.
  intros HD Hgn Hne HBB Hgs HB Hsh HBis HT Hn Hc. rewrite (tracks_lookup _ _ _ _ _ _ HT Hn) in Hc. injection Hc as <-. simpl.
  destruct (Forall2_lookup_r _ _ _ _ _ (ss_nets _ _ Hsh) Hn) as (n0 & Hn0 & Hid & Hperm & _ & Hgz).
  pose proof (elem_of_list_lookup_2 _ _ _ Hn0) as Hn0'. pose proof (elem_of_list_lookup_2 _ _ _ Hn) as Hn'.
  pose proof (di_local _ _ HD _ HB) as HC. assert (consistent H) as HC' by (by eapply same_shape_consistent).
  rewrite <-Hid, !lcount_elem by done. rewrite <-Hgz, (Hgs n0) by (apply all_nets_elem; eauto).
  rewrite <-(gcount_sum bp Hbp gn Bs HD Hgn Hne (n_id n0) HBB).
  assert (bisected B) as HBB' by (intros v Hv; apply HBB, all_verts_elem; eauto).
  pose proof (count_in_total B n0 HC HBB' Hn0'). pose proof (count_in_total H n HC' HBis Hn'). rewrite Hperm in *. lia.
Qed.

Lemma unlocked_sub E S S' L L' G G' : gok E S L G → gok E S' L' G' → vids (g_H G') = vids (g_H G) → L ⊆ L' →
  (unlocked G' ≤ unlocked G)%nat ∧ ∀ u, u ∈ vids (g_H G) → u ∉ L → u ∈ L' → (unlocked G' < unlocked G)%nat.
Proof.
  intros (F & HI)%gok_inv (F' & HI')%gok_inv Hv Hsub. rewrite (unlocked_spec _ _ _ _ HI), (unlocked_spec _ _ _ _ HI'), Hv.
  assert (∀ l, (length (filter (λ x, x ∉ L') l) ≤ length (filter (λ x, x ∉ L) l))%nat) as Hle.
  { intros l. induction l as [|x l IH]; [done|]. rewrite !filter_cons. destruct (decide (x ∉ L')), (decide (x ∉ L)); simpl; try lia. set_solver. }
  split; [apply Hle|]. intros u Hu HL HL'. apply elem_of_list_split in Hu as (l1 & l2 & ->). rewrite !filter_app, !filter_cons, !app_length.
  rewrite decide_False by set_solver. rewrite decide_True by done. simpl. pose proof (Hle l1). pose proof (Hle l2). lia.
Qed.

Lemma sum_list_with_le {A} (f : A → nat) l l' : Forall2 (λ x y, f y ≤ f x)%nat l l' →
  (sum_list_with f l' ≤ sum_list_with f l)%nat ∧ ∀ t x y, l !! t = Some x → l' !! t = Some y → (f y < f x)%nat → (sum_list_with f l' < sum_list_with f l)%nat.
Proof.
  induction 1 as [|x y l l' Hxy HF [IH1 IH2]]; [done|]. simpl. split; [lia|]. intros [|t] x' y' Hx Hy Hlt; simpl in *.
  - injection Hx as ->. injection Hy as ->. lia.
  - pose proof (IH2 t x' y' Hx Hy Hlt). lia.
Qed.

Section round.
  Context (bp : Z → Z → partitioning) (Hbp : lawful_family bp) (gn : Z) (Hgn : 0 ≤ gn).
  Context (E : err → Prop) (m : metric) (mx : Z * Z) (number : Z) (Hs0 : list hg) (ows : list kowned) (cut0 : Z).
  Context (HD0 : distributed gn Hs0) (Hpre : ∀ H, H ∈ Hs0 → klfm_pre H).
  Context (Hcalm : E UB ∨ (∀ n, n ∈ all_nets Hs0 → n_verts n ≠ []) ∧ (length Hs0 = 1%nat ∨ within (gweight Hs0, gweight Hs0) mx)).

  (** the parts at the best point: the moves since then are undone *)
  Definition best_parts (ks : list kproc) : Z → Z := gflip (kp_H <$> ks) (concat (kp_nim <$> ks)).
  Definition left_over (ks : list kproc) : nat := sum_list_with (λ k, unlocked (kp_G k)) ks.

  Record rinv (b : Z) (ks : list kproc) : Prop := {
    ri_sync : synced bp gn ows ks;
    ri_shape : same_shapes Hs0 (kp_H <$> ks);
    ri_ready : ∀ k, k ∈ ks → gready E k;
    ri_best : ∀ k, k ∈ ks → kp_best k = b;
    ri_le : b ≤ cut0;
    ri_cut : cut_by m (whole_nets Hs0 gn) (best_parts ks) = b;
    ri_w : true_weights E mx ks;
    ri_bw : E UB ∨ within (gwt Hs0 (best_parts ks) 0, gwt Hs0 (best_parts ks) 1) mx;
  }.

  (** judge on one processor *)
  Lemma wpe_judge cut k moves S L (Q : kproc → Prop) : gok E S L (kp_G k) → no_sentinel (kp_H k) →
    (∀ G2 d, gok E S L G2 → same_gs (kp_G k) G2 →
       (kept moves ≠ [] ∨ d = 1) →
       Q (KProc G2 (kp_Cl k) (kp_ws k) (kp_own k) (kp_prev0 k) (kp_cut k) (if decide (cut > kp_best k) then kp_best k else cut)
            (if decide (cut > kp_best k) then kp_nim k ++ kept moves else []) d)) →
    wpe E (judge cut k moves) Q.
  Proof.
    intros HG Hns HQ. apply gok_F in HG as (F & HI & HF). unfold judge. apply wpe_bind. fold (kept moves).
    assert (∀ G2, gs_inv S L F G2 → same_gs (kp_G k) G2 → gok E S L G2) as Hok.
    { intros G2 HI2 (HH & HC & _). apply gok_F. exists F. rewrite HH, HC. done. }
    eapply wpe_gs_done; [exact HI|done|..].
    - intros G2 HI2 Hs _. apply wpe_ret. simpl. apply HQ; [by apply Hok|done|by right].
    - intros G2 v HI2 Hs _ _. apply wpe_ret. simpl. apply HQ; [by apply Hok|done|].
      destruct (decide (kept moves = [])) as [Hk|Hk]; [right|by left]. rewrite Hk. done.
  Qed.

  (** flips compose: first [us] flips Hs to Hs', then [vs] flips Hs' *)
  Lemma gflip_compose Hs Hs' us vs u : (∀ x, x ∈ us → x ∈ vs → False) → gpart Hs' u = gflip Hs us u →
    gflip Hs' (vs ++ us) u = gflip Hs vs u.
  Proof.
    intros Hdis HH. unfold gflip in *. rewrite HH. destruct (decide (u ∈ vs)), (decide (u ∈ us)); try (exfalso; naive_solver);
      [rewrite decide_True by set_solver|rewrite decide_True by set_solver|rewrite decide_False by set_solver]; lia.
  Qed.

  Lemma gflip_perm Hs us vs u : (∀ x, x ∈ us ↔ x ∈ vs) → gflip Hs us u = gflip Hs vs u.
  Proof. intros Hx. unfold gflip. specialize (Hx u). destruct (decide (u ∈ us)), (decide (u ∈ vs)); naive_solver. Qed.

  Lemma wpe_round b ks (Q : bool * list kproc → Prop) : rinv b ks →
    (∀ c ks' b', rinv b' ks' → (left_over ks' ≤ left_over ks)%nat → (c = true → (left_over ks' < left_over ks)%nat) → Q (c, ks')) →
    wpe E (round_body bp mx number ows ks) Q.
  Proof.
    intros [HS HSh Hgr Hbest Hle Hcut Hw Hbw] HQ. unfold round_body. set (p := length ks).
    set (part := bp (Z.of_nat p) gn). set (Bs := kp_H <$> ks) in *.
    pose proof (sy_dist _ _ _ _ HS) as HD. fold Bs in HD.
    assert (length Bs = p) as HlB by (unfold Bs; by rewrite fmap_length).
    assert (Bs ≠ []) as HneB by (intros Hnil; apply fmap_nil_inv in Hnil; by apply (sy_ne _ _ _ _ HS)).
    apply wpe_bind, (wpe_propose bp gn E mx number Hs0 ows Hpre Hcalm ks); [done..|]. fold p part Bs. intros us Hlu Hus Hwu.
    set (ks1 := fst <$> us) in *. assert (length ks1 = p) as Hl1 by (unfold ks1; by rewrite fmap_length).
    assert (∀ t k1, ks1 !! t = Some k1 → ∃ k u, ks !! t = Some k ∧ us !! t = Some u ∧ k1 = fst u) as Hat1.
    { intros t k1 Hk1. unfold ks1 in Hk1. rewrite list_lookup_fmap in Hk1. destruct (us !! t) as [u|] eqn:Hu; [|done]. injection Hk1 as <-.
      destruct (lookup_lt_is_Some_2 ks t) as [k Hk]; [apply lookup_lt_Some in Hu; unfold p in *; lia|]. eauto. }
    assert (∀ t k k1, ks !! t = Some k → ks1 !! t = Some k1 → kok part Bs t (kp_H k) k1) as Hok1.
    { intros t k k1 Hk Hk1. destruct (Hat1 t k1 Hk1) as (k' & u & Hk' & Hu & ->). destruct (Hus t k u Hk Hu) as (S & L & L' & HM & _). apply HM. }
    apply wpe_bind, (wpe_changed_all bp gn E ows ks ks1); [done..|]. fold p part Bs. intros outs Hlo Hout.
    set (Hs1 := kp_H <$> ks1).
    assert (same_shapes Bs Hs1) as HShB1.
    { apply Forall2_same_length_lookup_2; [unfold Hs1; rewrite fmap_length; lia|]. intros t B H HB HH. unfold Hs1 in HH. rewrite list_lookup_fmap in HH.
      destruct (ks1 !! t) as [k1|] eqn:Hk1; [|done]. injection HH as <-. unfold Bs in HB. rewrite list_lookup_fmap in HB.
      destruct (ks !! t) as [k|] eqn:Hk; [|done]. injection HB as <-. apply (bk_shape _ _ _ _ _ (ko_book _ _ _ _ _ (Hok1 t k k1 Hk Hk1))). }
    pose proof (same_shapes_trans _ _ _ HSh HShB1) as HSh1. pose proof (same_shapes_distributed gn Bs Hs1 HShB1 HD) as HD1.
    assert (Hs1 ≠ []) as Hne1. { intros Hnil. rewrite Hnil in HShB1. inversion HShB1. congruence. }
    pose proof (same_shapes_gsizes Bs Hs1 HShB1 (sy_gs _ _ _ _ HS)) as Hgs1.
    assert (∀ v, v ∈ all_verts Hs1 → v_part v = 0 ∨ v_part v = 1) as HB1.
    { intros v (H & HH & Hv)%all_verts_elem. apply elem_of_list_fmap in HH as (k1 & -> & [t Hk1]%elem_of_list_lookup).
      destruct (Hat1 t k1 Hk1) as (k & u & Hk & _ & _). by apply (ko_bis _ _ _ _ _ (Hok1 t k k1 Hk Hk1)). }
    apply wpe_bind_assoc.
    eapply (wpe_sync bp Hbp gn Hgn E true ows ks ks1 outs (λ t k1 G, ∃ k u S L L', ks !! t = Some k ∧ us !! t = Some u ∧ k1 = fst u ∧
       moved_set E part Bs t (kp_H k) k S L L' (kept (snd u)) (fst u) ∧ gok E S L (kp_G k) ∧ costs_ok S (kp_H k) ∧ NoDup (kp_nim k) ∧
          (∀ x, x ∈ kp_nim k → x ∈ L ∧ x ∈ vids (kp_H k)) ∧ gok E S L' G)); [done..| |].
    { intros t k1 Hk1 C'. destruct (Hat1 t k1 Hk1) as (k & u & Hk & Hu & ->). destruct (Hus t k u Hk Hu) as (S & L & L' & HM & HG & Hcs & Hnd & Hnim & _).
      pose proof (ms_ok _ _ _ _ _ _ _ _ _ _ _ HM) as Hok. pose proof (ko_book _ _ _ _ _ Hok) as Hbk.
      assert (Hs1 !! t = Some (kp_H (fst u))) as HH1 by (unfold Hs1; by rewrite list_lookup_fmap, Hk1).
      pose proof (elem_of_list_lookup_2 _ _ _ HH1) as Hin1.
      assert (Bs !! t = Some (kp_H k)) as HBt by (unfold Bs; by rewrite list_lookup_fmap, Hk). pose proof (elem_of_list_lookup_2 _ _ _ HBt) as HkB.
      assert (tracks Hs1 (kp_H (fst u)) (kp_H (fst u)) C') as HT1.
      { pose proof (tracks_init Hs1 (kp_H (fst u)) (di_local _ _ HD1 _ Hin1)) as HT. unfold C', counts_of. done. }
      eapply (wpe_gain_loop E S L' (kp_G (fst u)) C'); [by apply HM|by apply Hok|by eapply same_shape_costs_ok; [apply Hbk|]|..].
      - eapply (tracks_dominates gn Bs (kp_H k)); [done|done|apply Hbk].
      - eapply (tracks_dominates gn Hs1 (kp_H (fst u))); done.
      - intros i n c Hn Hc. eapply (tracks_size bp Hbp gn Bs (kp_H k)); [done|done|done|apply (sy_bis _ _ _ _ HS)|apply (sy_gs _ _ _ _ HS)|done|apply Hbk|apply Hok|apply Hbk|exact Hn|exact Hc].
      - intros i n c Hn Hc. eapply (tracks_size bp Hbp gn Hs1 (kp_H (fst u))); [done|done|done|done|done|done|apply same_shape_refl|apply Hok|exact HT1|exact Hn|exact Hc].
      - destruct Hcalm as [HE|[Hne _]]; [by left|right]. intros n [i Hn]%elem_of_list_lookup.
        destruct (Forall2_lookup_r _ _ _ _ _ HSh1 HH1) as (B & HB & Hsh). destruct (Forall2_lookup_r _ _ _ _ _ (ss_nets _ _ Hsh) Hn) as (n0 & Hn0 & _ & Hperm & _).
        intros Hnil. rewrite Hnil in Hperm. apply (Hne n0); [|by apply Permutation_nil].
        apply all_nets_elem. exists B. split; by eapply elem_of_list_lookup_2.
      - intros G' HG' HC' HGok. split; [done|]. split; [done|]. exists k, u, S, L, L'. done. }
    fold p Hs1. intros ks2 HS2 HeqH2 Hl2 Hks2. rewrite <-Hl2.
    set (cut := cut_by m (whole_nets Hs1 gn) (gpart Hs1)).
    assert (bulk_sum (kp_cut <$> ks2) = replicate p cut) as ->.
    { unfold bulk_sum. rewrite fmap_length, Hl2, foldl_add_zsum. f_equal. rewrite (synced_cut bp Hbp gn Hgn m ows ks2 HS2), HeqH2. done. }
    rewrite Hl2.
    set (X3 := λ t (k3 : kproc), ∃ k u k2 S L L', ks !! t = Some k ∧ us !! t = Some u ∧ ks2 !! t = Some k2 ∧
       moved_set E part Bs t (kp_H k) k S L L' (kept (snd u)) (fst u) ∧ gok E S L (kp_G k) ∧ costs_ok S (kp_H k) ∧ NoDup (kp_nim k) ∧
       (∀ x, x ∈ kp_nim k → x ∈ L ∧ x ∈ vids (kp_H k)) ∧ gok E S L' (kp_G k3) ∧ kp_H k2 = kp_H (fst u) ∧
       (kp_H k3 = kp_H k2 ∧ kp_C k3 = kp_C k2 ∧ kp_Cl k3 = kp_Cl k2 ∧ kp_own k3 = kp_own k2 ∧ kp_prev0 k3 = kp_prev0 k2 ∧ kp_cut k3 = kp_cut k2) ∧
       kp_ws k3 = kp_ws (fst u) ∧ kp_best k3 = (if decide (cut > b) then b else cut) ∧
       kp_nim k3 = (if decide (cut > b) then kp_nim k ++ kept (snd u) else []) ∧ (kept (snd u) ≠ [] ∨ kp_done k3 = 1)).
    apply wpe_bind, (wpe_ranks _ _ _ X3).
    { intros t Ht. destruct (lookup_lt_is_Some_2 ks2 t) as [k2 Hk2]; [lia|]. destruct (lookup_lt_is_Some_2 us t) as [u Hu]; [lia|].
      assert (ks1 !! t = Some (fst u)) as Hk1 by (unfold ks1; by rewrite list_lookup_fmap, Hu).
      destruct (Hks2 t (fst u) k2 Hk1 Hk2) as ((k & u' & S & L & L' & Hk & [= <-]%(eq_trans (eq_sym Hu)) & _ & HM & HG & Hcs & Hnd & Hnim & HG2) & HH & HCl & Hws & Hb & Hn & Hd).
      destruct (Hus t k u Hk Hu) as (_ & _ & _ & _ & _ & _ & _ & _ & Hb' & Hn' & Hd').
      apply wpe_bind, wpe_nidx with k2; [done|]. apply wpe_bind, wpe_nidx with u; [done|]. apply wpe_bind, wpe_nidx with cut; [by apply lookup_replicate_2|].
      assert (klfm_pre (kp_H (fst u))) as Hpk.
      { assert (Hs1 !! t = Some (kp_H (fst u))) as HH1 by (unfold Hs1; by rewrite list_lookup_fmap, Hk1).
        destruct (Forall2_lookup_r _ _ _ _ _ HSh1 HH1) as (B & HB & Hsh). eapply klfm_pre_shape; [|done]. apply Hpre. by eapply elem_of_list_lookup_2. }
      apply (wpe_judge cut k2 (snd u) S L'); [done|rewrite HH; apply Hpk|]. intros G2 d HG2' (HsH & HsC & _) Hdone.
      rewrite Hb, Hb', Hn, Hn'. rewrite (Hbest k) by (by eapply elem_of_list_lookup_2).
      exists k, u, k2, S, L, L'. unfold kp_H, kp_C in *. simpl. split_and!; done. }
    intros ks3 Hl3 Hks3. apply wpe_ret.
    assert (Forall2 (λ k k', kp_H k' = kp_H k ∧ kp_C k' = kp_C k ∧ kp_Cl k' = kp_Cl k ∧ kp_own k' = kp_own k ∧ kp_prev0 k' = kp_prev0 k ∧ kp_cut k' = kp_cut k) ks2 ks3) as HF23.
    { apply Forall2_same_length_lookup_2; [lia|]. intros t k2 k3 Hk2 Hk3. destruct (Hks3 t k3 Hk3) as (k & u & k2' & S & L & L' & _ & _ & Hk2' & _ & _ & _ & _ & _ & _ & _ & Heq & _).
      rewrite Hk2 in Hk2'. by injection Hk2' as <-. }
    destruct (synced_same _ _ _ _ _ HS2 HF23) as [HS3 HeqH3]. rewrite HeqH2 in HeqH3.
    assert (∀ t k3, ks3 !! t = Some k3 → X3 t k3 ∧ ∃ k u, ks !! t = Some k ∧ us !! t = Some u) as Hat3.
    { intros t k3 Hk3. pose proof (Hks3 t k3 Hk3) as HX. split; [done|]. destruct HX as (k & u & _ & _ & _ & _ & Hk & Hu & _). eauto. }
    set (b' := if decide (cut > b) then b else cut).
    (* the best point *)
    set (kss := (λ u : kproc * list kmove, kept (snd u)) <$> us).
    assert (∀ u, u ∈ v_id <$> all_verts Bs → gpart Hs1 u = gflip Bs (concat kss) u) as Hflip.
    { apply (gpart_flipped gn Bs Hs1 kss HD HShB1); [unfold kss; rewrite fmap_length; lia|]. intros t B H vs HB HH Hvs.
      unfold kss in Hvs. rewrite list_lookup_fmap in Hvs. destruct (us !! t) as [u|] eqn:Hu; [|done]. injection Hvs as <-.
      unfold Bs in HB. rewrite list_lookup_fmap in HB. destruct (ks !! t) as [k|] eqn:Hk; [|done]. injection HB as <-.
      unfold Hs1, ks1 in HH. rewrite !list_lookup_fmap, Hu in HH. injection HH as <-.
      destruct (Hus t k u Hk Hu) as (S & L & L' & HM & _). split; [intros x Hx; by apply HM|intros x _; apply HM]. }
    assert (∀ x, x ∈ concat kss → x ∈ concat (kp_nim <$> ks) → False) as Hdis.
    { intros x (l & Hx & [s Hl]%elem_of_list_lookup)%CoarsenProof.elem_of_concat (l' & Hx' & [t Hl']%elem_of_list_lookup)%CoarsenProof.elem_of_concat.
      unfold kss in Hl. rewrite list_lookup_fmap in Hl. destruct (us !! s) as [u|] eqn:Hu; [|done]. injection Hl as <-.
      rewrite list_lookup_fmap in Hl'. destruct (ks !! t) as [k'|] eqn:Hk'; [|done]. injection Hl' as <-.
      destruct (lookup_lt_is_Some_2 ks s) as [k Hk]; [apply lookup_lt_Some in Hu; unfold p in *; lia|].
      destruct (Hus s k u Hk Hu) as (S & L & L' & HM & _ & _ & _ & Hnim & _). destruct (ms_in _ _ _ _ _ _ _ _ _ _ _ HM x Hx) as (HxL & _ & Hxk).
      assert (s = t) as <-.
      { destruct (Hgr k') as (? & ? & _ & _ & _ & Hn'); [by eapply elem_of_list_lookup_2|]. destruct (Hn' x Hx') as [_ Hxk'].
        eapply (distributed_proc gn Bs); [done|unfold Bs; by rewrite list_lookup_fmap, Hk|unfold Bs; by rewrite list_lookup_fmap, Hk'|done..]. }
      rewrite Hk in Hk'. injection Hk' as <-. by apply HxL, Hnim. }
    assert (cut > b → ∀ u, u ∈ v_id <$> all_verts Hs0 → best_parts ks3 u = best_parts ks u) as Hkeep.
    { intros Hgt u Hu. unfold best_parts. rewrite HeqH3. fold Bs. rewrite <-(gflip_compose Bs Hs1 (concat kss) (concat (kp_nim <$> ks)) u); [|done|].
      2: { apply Hflip. by rewrite (same_shapes_ids _ _ HSh). }
      apply gflip_perm. intros x. rewrite elem_of_app, !CoarsenProof.elem_of_concat. split.
      - intros (l & Hx & [t Hl]%elem_of_list_lookup). rewrite list_lookup_fmap in Hl. destruct (ks3 !! t) as [k3|] eqn:Hk3; [|done]. injection Hl as <-.
        destruct (Hks3 t k3 Hk3) as (k & w & k2 & S & L & L' & Hk & Hw' & _ & _ & _ & _ & _ & _ & _ & _ & _ & _ & _ & Hn & _).
        rewrite Hn, decide_True in Hx by done. apply elem_of_app in Hx as [Hx|Hx].
        + left. exists (kp_nim k). split; [done|]. apply elem_of_list_fmap. exists k. split; [done|by eapply elem_of_list_lookup_2].
        + right. exists (kept (snd w)). split; [done|]. unfold kss. apply elem_of_list_fmap. exists w. split; [done|by eapply elem_of_list_lookup_2].
      - intros Hor. assert (∃ t, ∃ k w, ks !! t = Some k ∧ us !! t = Some w ∧ (x ∈ kp_nim k ∨ x ∈ kept (snd w))) as (t & k & w & Hk & Hw' & Hx).
        { destruct Hor as [(l & Hx & (k & -> & [t Hk]%elem_of_list_lookup)%elem_of_list_fmap)|(l & Hx & (w & -> & [t Hw']%elem_of_list_lookup)%elem_of_list_fmap)]; exists t.
          - destruct (lookup_lt_is_Some_2 us t) as [w Hw']; [apply lookup_lt_Some in Hk; unfold p in *; lia|]. exists k, w. auto.
          - destruct (lookup_lt_is_Some_2 ks t) as [k Hk]; [apply lookup_lt_Some in Hw'; unfold p in *; lia|]. exists k, w. auto. }
        destruct (lookup_lt_is_Some_2 ks3 t) as [k3 Hk3]; [apply lookup_lt_Some in Hk; unfold p in *; lia|].
        destruct (Hks3 t k3 Hk3) as (k' & w' & k2 & S & L & L' & Hk' & Hw'' & _ & _ & _ & _ & _ & _ & _ & _ & _ & _ & _ & Hn & _).
        rewrite Hk in Hk'. injection Hk' as <-. rewrite Hw' in Hw''. injection Hw'' as <-. rewrite decide_True in Hn by done.
        exists (kp_nim k3). split; [rewrite Hn; by apply elem_of_app|]. apply elem_of_list_fmap. exists k3. split; [done|by eapply elem_of_list_lookup_2]. }
    assert (¬ cut > b → ∀ u, best_parts ks3 u = gpart Hs1 u) as Hnew.
    { intros Hgt u. unfold best_parts, gflip. rewrite HeqH3. rewrite decide_False; [done|]. intros (l & Hx & (k3 & -> & [t Hk3]%elem_of_list_lookup)%elem_of_list_fmap)%CoarsenProof.elem_of_concat.
      destruct (Hks3 t k3 Hk3) as (k' & w' & k2 & S & L & L' & _ & _ & _ & _ & _ & _ & _ & _ & _ & _ & _ & _ & _ & Hn & _).
      rewrite decide_False in Hn by done. rewrite Hn in Hx. by apply elem_of_nil in Hx. }
    assert (true_weights E mx ks3) as Hw3.
    { destruct Hwu as [HE|[Hwu Hin]]; [by left|right]. rewrite HeqH3. split; [|done]. intros k3 [t Hk3]%elem_of_list_lookup.
      destruct (Hks3 t k3 Hk3) as (k' & w' & k2 & S & L & L' & _ & Hw' & _ & _ & _ & _ & _ & _ & _ & _ & _ & Hws & _). rewrite Hws. apply Hwu.
      unfold ks1. apply elem_of_list_fmap. exists w'. split; [done|by eapply elem_of_list_lookup_2]. }
    destruct (sum_list_with_le (λ k, unlocked (kp_G k)) ks ks3) as [Hsum Hsum'].
    { apply Forall2_same_length_lookup_2; [unfold p in *; lia|]. intros t k k3 Hk Hk3.
      destruct (Hks3 t k3 Hk3) as (k' & w' & k2 & S & L & L' & Hk' & Hw' & _ & HM & HG & _ & _ & _ & HG3 & HH2 & (HH3 & _) & _).
      rewrite Hk in Hk'. injection Hk' as <-. eapply (unlocked_sub E S S L L'); [done|done| |apply HM].
      change (vids (kp_H k3) = vids (kp_H k)). rewrite HH3, HH2. symmetry. apply same_shape_vids, (ko_book _ _ _ _ _ (ms_ok _ _ _ _ _ _ _ _ _ _ _ HM)). }
    apply (HQ _ ks3 b').
    - split.
      + done.
      + by rewrite HeqH3.
      + intros k3 [t Hk3]%elem_of_list_lookup.
        destruct (Hks3 t k3 Hk3) as (k & w & k2 & S & L & L' & Hk & Hw' & _ & HM & HG & Hcs & Hnd & Hnim & HG3 & HH2 & (HH3 & _) & _ & _ & Hn & _).
        pose proof (bk_shape _ _ _ _ _ (ko_book _ _ _ _ _ (ms_ok _ _ _ _ _ _ _ _ _ _ _ HM))) as Hsh.
        exists S, L'. rewrite HH3, HH2. split; [done|]. split; [by eapply same_shape_costs_ok|]. rewrite Hn. case_decide.
        * split.
          { apply NoDup_app. split; [done|]. split; [|by apply HM]. intros x Hx Hx'. destruct (Hnim x Hx) as [HxL _]. by apply (ms_in _ _ _ _ _ _ _ _ _ _ _ HM x Hx'). }
          intros x [Hx|Hx]%elem_of_app; rewrite <-(same_shape_vids _ _ Hsh).
          { destruct (Hnim x Hx). split; [by apply (ms_sub _ _ _ _ _ _ _ _ _ _ _ HM)|done]. }
          { destruct (ms_in _ _ _ _ _ _ _ _ _ _ _ HM x Hx) as (_ & ? & ?). done. }
        * split; [apply NoDup_nil_2|]. intros x Hx. by apply elem_of_nil in Hx.
      + intros k3 [t Hk3]%elem_of_list_lookup. destruct (Hks3 t k3 Hk3) as (k & w & k2 & S & L & L' & _ & _ & _ & _ & _ & _ & _ & _ & _ & _ & _ & _ & Hb & _). done.
      + unfold b'. case_decide; lia.
      + unfold b'. case_decide as Hgt.
        * rewrite (cut_by_ext m gn Hs0 Hs0 _ (best_parts ks)); [done|done|apply same_shapes_refl|by apply Hkeep].
        * apply (cut_by_ext m gn Hs0 Hs1); [done|done|]. intros u _. by apply Hnew.
      + done.
      + destruct (decide (cut > b)) as [Hgt|Hgt].
        * destruct Hbw as [HE|Hbw]; [by left|right]. rewrite !(gwt_ext Hs0 Hs0 (best_parts ks3) (best_parts ks)); [done|apply same_shapes_refl|by apply Hkeep|apply same_shapes_refl|by apply Hkeep].
        * destruct Hwu as [HE|[_ Hin]]; [by left|right]. fold Hs1 in Hin. unfold gws in Hin. rewrite !(gpart_weight_gwt gn Hs1) in Hin by done.
          rewrite !(gwt_ext Hs0 Hs1 (best_parts ks3) (gpart Hs1)); [done|done|intros u _; by apply Hnew|done|intros u _; by apply Hnew].
    - done.
    - intros Hc. apply negb_true_iff, bool_decide_eq_false in Hc.
      assert (∃ t k3, ks3 !! t = Some k3 ∧ kp_done k3 ≠ 1) as (t & k3 & Hk3 & Hd).
      { destruct (decide (Exists (λ k, kp_done k ≠ 1) ks3)) as [Hex|Hall].
        - apply Exists_exists in Hex as (k3 & [t Hk3]%elem_of_list_lookup & Hd). eauto.
        - exfalso. apply Hc. rewrite foldl_add_zsum, <-Hl3. clear -Hall. induction ks3 as [|k l IH]; [unfold zsum; simpl; lia|].
          csimpl. rewrite zsum_cons. assert (kp_done k = 1) as -> by (destruct (decide (kp_done k = 1)); [done|]; exfalso; apply Hall; by apply Exists_cons_hd).
          simpl length. rewrite Nat2Z.inj_succ. assert (0 + zsum (kp_done <$> l) = Z.of_nat (length l)); [|lia]. apply IH. intros Hex. apply Hall. by apply Exists_cons_tl. }
      destruct (Hks3 t k3 Hk3) as (k & w & k2 & S & L & L' & Hk & Hw' & _ & HM & HG & _ & _ & _ & HG3 & HH2 & (HH3 & _) & _ & _ & _ & [Hne|?]); [|done].
      eapply (Hsum' t k k3); [done|done|]. destruct (kept (snd w)) as [|x l] eqn:Hkw; [done|].
      destruct (ms_in _ _ _ _ _ _ _ _ _ _ _ HM x) as (HxL & HxL' & Hxk); [set_solver|].
      eapply (unlocked_sub E S S L L'); [done|done| |apply HM|exact Hxk|done|done].
      change (vids (kp_H k3) = vids (kp_H k)). rewrite HH3, HH2. symmetry. apply same_shape_vids, (ko_book _ _ _ _ _ (ms_ok _ _ _ _ _ _ _ _ _ _ _ HM)).
  Qed.
End round.
