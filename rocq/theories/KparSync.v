(** One exchange of counts in parallel refinement, and facts about parts, cuts and weights over all
    processors. *)
From Verif Require Export KparUndo.

(** ** vertices of different processors are different *)
Lemma distributed_proc gn Hs s t A B u : distributed gn Hs → Hs !! s = Some A → Hs !! t = Some B → u ∈ vids A → u ∈ vids B → s = t.
Proof.
  intros HD. pose proof (di_verts _ _ HD) as Hnd. clear HD. unfold all_verts in Hnd. revert s t.
  assert (∀ (l : list hg) r H x, l !! r = Some H → x ∈ vids H → x ∈ v_id <$> concat (h_verts <$> l)) as Hcc.
  { clear. intros l r H x HH (y & Hy & <-)%vids_elem. apply elem_of_list_fmap. exists y. split; [done|]. apply CoarsenProof.elem_of_concat.
    exists (h_verts H). split; [done|]. apply elem_of_list_fmap. exists H. split; [done|by eapply elem_of_list_lookup_2]. }
  induction Hs as [|H Hs IH]; intros s t HA HB HuA HuB; [done|]. csimpl in Hnd. rewrite fmap_app in Hnd. apply NoDup_app in Hnd as (_ & Hdis & Hnd).
  destruct s as [|s], t as [|t]; simplify_eq/=; [done|..].
  - exfalso. apply (Hdis u); [done|]. by eapply Hcc.
  - exfalso. apply (Hdis u); [done|]. by eapply Hcc.
  - f_equal. by eapply IH.
Qed.
Lemma all_ids_elem Hs u : u ∈ v_id <$> all_verts Hs ↔ ∃ t H, Hs !! t = Some H ∧ u ∈ vids H.
Proof.
  rewrite elem_of_list_fmap. split.
  - intros (v & -> & (H & [t HH]%elem_of_list_lookup & Hv)%all_verts_elem). exists t, H. split; [done|]. apply vids_elem; eauto.
  - intros (t & H & HH & (v & Hv & <-)%vids_elem). exists v. split; [done|]. apply all_verts_elem. exists H. split; [by eapply elem_of_list_lookup_2|done].
Qed.
Lemma same_shapes_ids Hs Hs' : same_shapes Hs Hs' → v_id <$> all_verts Hs' = v_id <$> all_verts Hs.
Proof.
  intros HSh. unfold all_verts. induction HSh as [|B H Bs' Hs1 Hsh HF IH]; [done|]. csimpl. rewrite !fmap_app, IH. f_equal.
  symmetry. by apply same_shape_vids.
Qed.
Lemma same_shapes_sym Hs Hs' : same_shapes Hs Hs' → same_shapes Hs' Hs.
Proof. intros HF. apply Forall2_flip. eapply Forall2_impl; [exact HF|]. intros x y. apply same_shape_sym. Qed.

(** parts over all processors when every processor [t] flips the vertices [uss !! t] of its own *)
Definition gflip (Hs : list hg) (us : list Z) (u : Z) : Z := if decide (u ∈ us) then 1 - gpart Hs u else gpart Hs u.
Lemma gpart_flipped gn Hs Hs' uss :
  distributed gn Hs → same_shapes Hs Hs' → length uss = length Hs →
  (∀ t H H' us, Hs !! t = Some H → Hs' !! t = Some H' → uss !! t = Some us →
     (∀ u, u ∈ us → u ∈ vids H) ∧ ∀ u, u ∈ vids H → part_of H' u = flipped H us u) →
  ∀ u, u ∈ v_id <$> all_verts Hs → gpart Hs' u = gflip Hs (concat uss) u.
Proof.
  intros HD HSh Hl Hf u (t & H & HH & Hu)%all_ids_elem. pose proof (same_shapes_distributed gn Hs Hs' HSh HD) as HD'.
  destruct (Forall2_lookup_l _ _ _ _ _ HSh HH) as (H' & HH' & Hsh). pose proof (lookup_lt_Some _ _ _ HH) as Hlt.
  destruct (lookup_lt_is_Some_2 uss t) as [us Hus]; [lia|]. destruct (Hf t H H' us HH HH' Hus) as [Hin Hfl].
  rewrite (gpart_local gn Hs' H'); [|done|by eapply elem_of_list_lookup_2|by rewrite <-(same_shape_vids _ _ Hsh)].
  rewrite Hfl by done. unfold gflip, flipped. rewrite (gpart_local gn Hs H) by (done || by eapply elem_of_list_lookup_2).
  assert (u ∈ us ↔ u ∈ concat uss) as Hiff.
  { rewrite CoarsenProof.elem_of_concat. split.
    - intros Hu'. exists us. split; [done|by eapply elem_of_list_lookup_2].
    - intros (us' & Hu' & [s Hss]%elem_of_list_lookup). pose proof (lookup_lt_Some _ _ _ Hss) as Hlt'.
      destruct (lookup_lt_is_Some_2 Hs s) as [A HA]; [lia|]. destruct (Forall2_lookup_l _ _ _ _ _ HSh HA) as (A' & HA' & _).
      destruct (Hf s A A' us' HA HA' Hss) as [HinA _]. assert (s = t) as -> by (eapply (distributed_proc gn Hs s t A H u); eauto). congruence. }
  destruct (decide (u ∈ us)); [rewrite decide_True by tauto|rewrite decide_False by tauto]; done.
Qed.

(** ** cuts and weights under an assignment *)
Lemma gverts_ids gn Hs nid u : distributed gn Hs → u ∈ gverts Hs nid → u ∈ v_id <$> all_verts Hs.
Proof.
  intros HD (n & (H & HH & Hn)%all_nets_elem & _ & Hu)%gverts_elem. pose proof HH as [t Ht]%elem_of_list_lookup.
  apply all_ids_elem. exists t, H. split; [done|]. apply (net_in_vids H n); [by apply (di_local _ _ HD)|done|done].
Qed.
Lemma cut_by_ext m gn Hs Hs' σ σ' : distributed gn Hs → same_shapes Hs Hs' → (∀ u, u ∈ v_id <$> all_verts Hs → σ u = σ' u) →
  cut_by m (whole_nets Hs gn) σ = cut_by m (whole_nets Hs' gn) σ'.
Proof.
  intros HD HSh Hσ. rewrite !cut_by_contribution. unfold whole_nets. rewrite <-!list_fmap_compose. apply zsum_fmap_ext. intros nid _. simpl.
  rewrite (same_shapes_gcost Hs Hs') by done. f_equal. apply GainInit.lambda_ext.
  - symmetry. by apply same_shapes_gverts.
  - intros u Hu. apply Hσ. by eapply gverts_ids.
Qed.
Definition gwt (Hs : list hg) (σ : Z → Z) (q : Z) : Z := zsum ((λ v, if decide (σ (v_id v) = q) then v_weight v else 0) <$> all_verts Hs).
Lemma gpart_weight_gwt gn Hs q : distributed gn Hs → gpart_weight Hs q = gwt Hs (gpart Hs) q.
Proof.
  intros HD. unfold gpart_weight, gwt. rewrite (zsum_filter_if (λ v, v_part v = q) v_weight). apply zsum_fmap_ext. intros v Hv.
  by rewrite gpart_elem by (done || apply HD).
Qed.
Lemma gwt_ext Hs Hs' σ σ' q : same_shapes Hs Hs' → (∀ u, u ∈ v_id <$> all_verts Hs → σ u = σ' u) → gwt Hs σ q = gwt Hs' σ' q.
Proof.
  intros HSh Hσ. unfold gwt.
  assert (Forall2 (λ v v', v_id v = v_id v' ∧ v_weight v = v_weight v') (all_verts Hs) (all_verts Hs')) as HF.
  { unfold all_verts. apply Forall2_concat, Forall2_fmap_2. eapply Forall2_impl; [exact HSh|]. intros H H' Hsh.
    eapply Forall2_impl; [apply (ss_verts _ _ Hsh)|]. intros v v' (? & _ & ?). done. }
  eapply zsum_Forall2; [exact HF|]. intros v v' Hv [Hid Hw]. rewrite <-Hid, <-Hw, Hσ; [done|]. apply elem_of_list_fmap; eauto.
Qed.
Lemma gwt_le Hs σ q : (∀ v, v ∈ all_verts Hs → 0 ≤ v_weight v) → gwt Hs σ q ≤ gweight Hs.
Proof.
  intros Hw. unfold gwt, gweight. apply zsum_fmap_le. intros v Hv. pose proof (Hw v Hv). case_decide; lia.
Qed.

(** ** one exchange of counts *)
Section sync.
  Context (bp : Z → Z → partitioning) (Hbp : lawful_family bp) (gn : Z) (Hgn : 0 ≤ gn).

  Lemma wpe_sync (E : err → Prop) (ug : bool) ows ks ks1 outs (X : nat → kproc → gstruct → Prop) (Q : list kproc → Prop) :
    let part := bp (Z.of_nat (length ks)) gn in
    let Bs := kp_H <$> ks in
    let Hs := kp_H <$> ks1 in
    synced bp gn ows ks → length ks1 = length ks →
    (∀ t k k1, ks !! t = Some k → ks1 !! t = Some k1 → kok part Bs t (kp_H k) k1) →
    length outs = length ks →
    (∀ t k k1 out, ks !! t = Some k → ks1 !! t = Some k1 → outs !! t = Some out → sends part Bs (kp_H k) (kp_H k1) out) →
    (∀ t k1, ks1 !! t = Some k1 →
      let C' := (λ n, counts_of Hs (n_id n)) <$> h_nets (kp_H k1) in
      if ug then
        wpe E (foldM (λ (G : gstruct) (i : nat),
              n <- nidx (h_nets (kp_H k1)) i ;; c0 <- nidx (fst <$> C') i ;; c <- nidx (g_C G) i ;;
              if decide (c0 ≠ fst c) then update_gains G n c (c0, n_gsize n - c0) else ret G)
              (seq 0 (length (h_nets (kp_H k1)))) (kp_G k1)) (λ G, g_H G = kp_H k1 ∧ g_C G = kp_C k1 ∧ X t k1 (with_C C' G))
      else X t k1 (with_C C' (kp_G k1))) →
    (∀ ks', synced bp gn ows ks' → kp_H <$> ks' = Hs → length ks' = length ks →
       (∀ t k1 k', ks1 !! t = Some k1 → ks' !! t = Some k' → X t k1 (kp_G k') ∧ kp_H k' = kp_H k1 ∧ kp_Cl k' = kp_Cl k1 ∧
          kp_ws k' = kp_ws k1 ∧ kp_best k' = kp_best k1 ∧ kp_nim k' = kp_nim k1 ∧ kp_done k' = kp_done k1) → Q ks') →
    wpe E (ins <- exchange outs ;; update_C bp ug ows ins ks1) Q.
  Proof.
    intros part Bs Hs HS Hl1 Hok1 Hlo Hout HX HQ. set (p := length ks) in *.
    pose proof (sy_dist _ _ _ _ HS) as HD. fold Bs in HD.
    assert (length Bs = p) as HlB by (unfold Bs, p; by rewrite fmap_length).
    assert (Bs ≠ []) as HneB by (intros Hnil; apply fmap_nil_inv in Hnil; by apply (sy_ne _ _ _ _ HS)).
    assert (∀ t k1, ks1 !! t = Some k1 → ∃ k, ks !! t = Some k ∧ kok part Bs t (kp_H k) k1) as Hex.
    { intros t k1 Hk1. pose proof (lookup_lt_Some _ _ _ Hk1) as Ht. destruct (lookup_lt_is_Some_2 ks t) as [k Hk]; [unfold p in *; lia|].
      exists k. split; [done|]. by apply Hok1. }
    assert (same_shapes Bs Hs) as HSh.
    { apply Forall2_same_length_lookup_2; [unfold Hs; rewrite fmap_length; lia|]. intros t B H HB HH. unfold Hs in HH. rewrite list_lookup_fmap in HH.
      destruct (ks1 !! t) as [k1|] eqn:Hk1; [|done]. injection HH as <-. destruct (Hex t k1 Hk1) as (k & Hk & Hok).
      unfold Bs in HB. rewrite list_lookup_fmap, Hk in HB. injection HB as <-. apply (bk_shape _ _ _ _ _ (ko_book _ _ _ _ _ Hok)). }
    pose proof (same_shapes_distributed gn Bs Hs HSh HD) as HD'.
    assert (∀ v, v ∈ all_verts Hs → v_part v = 0 ∨ v_part v = 1) as HBis.
    { intros v (H & HH & Hv)%all_verts_elem. apply elem_of_list_fmap in HH as (k1 & -> & [t Hk1]%elem_of_list_lookup).
      destruct (Hex t k1 Hk1) as (k & _ & Hok). by apply (ko_bis _ _ _ _ _ Hok). }
    assert (∀ t B k1, Bs !! t = Some B → ks1 !! t = Some k1 → ∃ k, ks !! t = Some k ∧ B = kp_H k ∧ kok part Bs t B k1) as HokB.
    { intros t B k1 HB Hk1. destruct (Hex t k1 Hk1) as (k & Hk & Hok). exists k. unfold Bs in HB. rewrite list_lookup_fmap, Hk in HB. by injection HB as <-. }
    pose proof (ParProof.part_lawful bp Hbp gn Bs HD Hgn HneB) as HL. rewrite HlB in HL. fold part in HL.
    apply wpe_bind, wpe_exchange.
    { intros m (out & Hm & [t Ho]%elem_of_list_lookup)%CoarsenProof.elem_of_concat. pose proof (lookup_lt_Some _ _ _ Ho) as Ht.
      destruct (lookup_lt_is_Some_2 ks1 t) as [k1 Hk1]; [lia|]. destruct (lookup_lt_is_Some_2 ks t) as [k Hk]; [unfold p in *; lia|].
      destruct (Hout t k k1 out Hk Hk1 Ho) as (Y & Hperm & _). rewrite Hperm in Hm. apply elem_of_list_fmap in Hm as (n & -> & [_ Hn]%elem_of_list_filter).
      rewrite Hlo. apply (la_owner _ _ _ HL), (di_range _ _ HD'), all_nets_elem. exists (kp_H k1). split; [|done].
      apply elem_of_list_fmap. exists k1. split; [done|by eapply elem_of_list_lookup_2]. }
    rewrite Hlo. intros ins Hli Hins.
    eapply (wpe_update_C bp Hbp gn Bs HD Hgn HneB Hs HSh E ug ows outs ins ks1 (λ t G, ∀ k1, ks1 !! t = Some k1 → g_H G = kp_H k1 ∧ g_C G = kp_C k1 ∧
      X t k1 (with_C ((λ n, counts_of Hs (n_id n)) <$> h_nets (kp_H k1)) G))).
    - done.
    - apply (sy_bis _ _ _ _ HS).
    - done.
    - apply (sy_gs _ _ _ _ HS).
    - rewrite HlB. apply HS.
    - rewrite HlB. apply (sy_tab _ _ _ _ HS).
    - rewrite HlB. intros t B k1 HB Hk1. destruct (HokB t B k1 HB Hk1) as (_ & _ & _ & Hok). apply Hok.
    - by rewrite HlB.
    - rewrite HlB. intros t B k1 out HB Hk1 Ho. destruct (HokB t B k1 HB Hk1) as (k & Hk & -> & _). by eapply Hout.
    - by rewrite HlB.
    - done.
    - intros t k1 G Hk1 HG. split; by apply HG.
    - intros t k1 Hk1. specialize (HX t k1 Hk1). cbn zeta in HX. destruct ug.
      + intros prev0 Hp0. assert (prev0 = fst <$> ((λ n, counts_of Hs (n_id n)) <$> h_nets (kp_H k1))) as -> by (rewrite Hp0, <-list_fmap_compose; done).
        eapply wpe_mono; [exact HX|]. intros G HG k0 [= <-]%(eq_trans (eq_sym Hk1)). done.
      + intros k0 [= <-]%(eq_trans (eq_sym Hk1)). done.
    - intros ks' Hl' Hks'. rewrite HlB in *. fold part in Hks'.
      assert (∀ t k', ks' !! t = Some k' → ∃ k1, ks1 !! t = Some k1 ∧ X t k1 (kp_G k') ∧ kp_H k' = kp_H k1 ∧ kok part Hs t (kp_H k1) k' ∧ kp_Cl k' = kp_Cl k1 ∧
          kp_ws k' = kp_ws k1 ∧ kp_best k' = kp_best k1 ∧ kp_nim k' = kp_nim k1 ∧ kp_done k' = kp_done k1) as Hex'.
      { intros t k' Hk'. pose proof (lookup_lt_Some _ _ _ Hk') as Ht. destruct (lookup_lt_is_Some_2 ks1 t) as [k1 Hk1]; [lia|]. exists k1. split; [done|].
        destruct (Hks' t k1 Hk1) as (G & HG & Hk''). rewrite Hk' in Hk''. injection Hk'' as ->. destruct (HG k1 Hk1) as (HG1 & HG2 & HG3).
        destruct (Hex t k1 Hk1) as (k & _ & Hok). split; [exact HG3|].
        assert (consistent (kp_H k1)) as HC1. { apply (di_local _ _ HD'). apply elem_of_list_fmap. exists k1. split; [done|by eapply elem_of_list_lookup_2]. }
        unfold kp_H at 1 3. simpl. rewrite HG1. split; [done|]. split; [|done]. split; unfold kp_H, kp_C; simpl; rewrite ?HG1; [|apply Hok..].
        split; unfold kp_H, kp_C; simpl; rewrite ?HG1; [apply same_shape_refl|by apply tracks_init|done|done|done]. }
      assert (kp_H <$> ks' = Hs) as HeqH.
      { unfold Hs. apply list_eq_same_length with p; [by rewrite fmap_length|by rewrite fmap_length|]. intros t x y Ht. rewrite !list_lookup_fmap.
        destruct (ks' !! t) as [k'|] eqn:Hk'; [|done]. destruct (Hex' t k' Hk') as (k1 & Hk1 & _ & HH & _). rewrite Hk1. simpl. congruence. }
      apply HQ; [|done|done|].
      + split; rewrite ?HeqH, ?Hl'; fold p part.
        * done.
        * intros ->. simpl in Hl'. unfold p in Hl'. pose proof (sy_ne _ _ _ _ HS). by destruct ks.
        * done.
        * eapply same_shapes_gsizes; [done|apply HS].
        * apply HS.
        * intros t ow How. eapply table_ok_shape; [done|]. by apply (sy_tab _ _ _ _ HS).
        * intros t k' Hk'. destruct (Hex' t k' Hk') as (k1 & Hk1 & _ & HH & Hok & _). by rewrite HH.
      + intros t k1 k' Hk1 Hk'. destruct (Hex' t k' Hk') as (k1' & Hk1' & HX1 & HH & _ & Hrest). rewrite Hk1 in Hk1'. injection Hk1' as <-. done.
  Qed.

  Lemma wpe_changed_all (E : err → Prop) ows ks ks1 (Q : list (list (Z * (Z * Z))) → Prop) :
    let part := bp (Z.of_nat (length ks)) gn in
    let Bs := kp_H <$> ks in
    synced bp gn ows ks → length ks1 = length ks →
    (∀ t k k1, ks !! t = Some k → ks1 !! t = Some k1 → kok part Bs t (kp_H k) k1) →
    (∀ outs, length outs = length ks →
      (∀ t k k1 out, ks !! t = Some k → ks1 !! t = Some k1 → outs !! t = Some out → sends part Bs (kp_H k) (kp_H k1) out) → Q outs) →
    wpe E (mapP (changed_counts bp (length ks)) ks1) Q.
  Proof.
    intros part Bs HS Hl1 Hok1 HQ. pose proof (sy_dist _ _ _ _ HS) as HD. fold Bs in HD.
    assert (length Bs = length ks) as HlB by (unfold Bs; by rewrite fmap_length).
    eapply (wpe_mapP _ _ (λ t k1 out, ∀ k, ks !! t = Some k → sends part Bs (kp_H k) (kp_H k1) out)).
    { intros t k1 Hk1. destruct (lookup_lt_is_Some_2 ks t) as [k Hk]; [rewrite <-Hl1; by eapply lookup_lt_Some|].
      assert (Bs !! t = Some (kp_H k)) as HB by (unfold Bs; by rewrite list_lookup_fmap, Hk). rewrite <-HlB.
      eapply (wpe_changed_counts bp gn Bs HD E t (kp_H k)); [done|rewrite HlB; by apply Hok1|]. rewrite HlB. intros out Hout k0 [= <-]%(eq_trans (eq_sym Hk)). done. }
    intros outs Hlo Houts. apply HQ; [lia|]. intros t k k1 out Hk Hk1 Ho. by eapply Houts.
  Qed.
End sync.
