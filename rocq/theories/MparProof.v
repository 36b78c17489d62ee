(** Multilevel bisection on several processors: one level, all levels. *)
From Verif Require Export GatherProof FinalCoarsenPar.

(** ** what holds of the hypergraph of every level *)

Lemma ids_in_range (l : list net) gn : 0 ≤ gn → NoDup (n_id <$> l) → (∀ n, n ∈ l → 0 ≤ n_id n < gn) → Z.of_nat (length l) ≤ gn.
Proof.
  intros Hgn Hnd Hr. assert (n_id <$> l ⊆+ seqZ 0 gn) as Hsub.
  { apply NoDup_submseteq; [done|]. intros x (n & -> & Hn)%elem_of_list_fmap. apply elem_of_seqZ. specialize (Hr n Hn). lia. }
  apply submseteq_length in Hsub. rewrite fmap_length, seqZ_length in Hsub. lia.
Qed.
Lemma unit_costs (l : list net) : (∀ n, n ∈ l → n_cost n = 1) → zsum (n_cost <$> l) = Z.of_nat (length l).
Proof.
  induction l as [|n l IH]; intros Hl; [done|]. csimpl. rewrite zsum_cons, IH by (intros; apply Hl; by right). rewrite Hl by left. lia.
Qed.
Lemma plev_pre gn Hs H : plev gn Hs → H ∈ Hs → klfm_pre H.
Proof.
  intros HP HH. pose proof (di_local _ _ (pl_dist _ _ HP) H HH) as HC.
  assert (∀ n, n ∈ h_nets H → n ∈ all_nets Hs) as Hn by (intros n Hn; apply all_nets_elem; eauto).
  assert (∀ v, v ∈ h_verts H → v ∈ all_verts Hs) as Hv by (intros v Hv; apply all_verts_elem; eauto).
  split; [done| | | |].
  - intros v Hin. by apply (pl_ids _ _ HP), Hv.
  - intros n Hin. destruct (pl_nets _ _ HP n (Hn n Hin)) as (_ & _ & _ & ->). lia.
  - rewrite unit_costs by (intros n Hin; by apply (pl_nets _ _ HP), Hn). pose proof (pl_gn _ _ HP).
    assert (Z.of_nat (length (h_nets H)) ≤ gn); [|lia]. apply ids_in_range; [lia|apply (co_nid _ HC)|]. intros n Hin. by apply (di_range _ _ (pl_dist _ _ HP)), Hn.
  - intros v Hin. specialize (pl_weight _ _ HP v (Hv v Hin)). lia.
Qed.
Lemma whole_copy_idw Hs G : whole_copy Hs G → idw <$> h_verts G ≡ₚ idw <$> all_verts Hs.
Proof.
  intros HW. pose proof (wc_verts _ _ HW) as Hv. apply (fmap_Permutation (λ x : Z * Z * list Z, fst x)) in Hv. rewrite <-!list_fmap_compose in Hv. exact Hv.
Qed.
Lemma whole_copy_ok gn Hs G : plev gn Hs → whole_copy Hs G → ml_ok G.
Proof.
  intros HP HW. pose proof (whole_copy_idw Hs G HW) as Hidw. pose proof (wc_cons _ _ HW) as HC.
  assert (∀ n, n ∈ h_nets G → n_cost n = 1 ∧ (2 ≤ length (n_verts n))%nat ∧ 0 ≤ n_id n < gn) as Hn.
  { intros n Hn. assert (n_id n ∈ n_id <$> all_nets Hs) as (m & Hm & Hmin)%elem_of_list_fmap by (apply (wc_nets _ _ HW); by apply elem_of_list_fmap_1).
    destruct (pl_nets _ _ HP m Hmin) as (_ & Hsz & _ & Hc). split_and!.
    - destruct (wc_cost _ _ HW n Hn) as [?|Hc']; [done|]. rewrite Hc', Hm, (gcost_elem gn); [done|apply HP|done].
    - rewrite (wc_pins _ _ HW n Hn), Hm. unfold gsize in Hsz. lia.
    - rewrite Hm. by apply (di_range _ _ (pl_dist _ _ HP)).
    - rewrite Hm. by apply (di_range _ _ (pl_dist _ _ HP)). }
  assert (∀ v, v ∈ h_verts G → v_id v ≠ -1 ∧ 0 < v_weight v) as Hv.
  { intros v Hv. assert (idw v ∈ idw <$> all_verts Hs) as (x & [= -> ->] & Hx)%elem_of_list_fmap by (rewrite <-Hidw; by apply (elem_of_list_fmap_1 idw)).
    split; [by apply (pl_ids _ _ HP)|by apply (pl_weight _ _ HP)]. }
  pose proof (pl_gn _ _ HP) as Hgn.
  assert (zsum (n_cost <$> h_nets G) < 2147483648) as Ht.
  { rewrite unit_costs by (intros n Hin; by apply Hn). assert (Z.of_nat (length (h_nets G)) ≤ gn); [|lia].
    apply ids_in_range; [lia|apply (co_nid _ HC)|]. intros n Hin. by apply Hn. }
  split.
  - split; [done| | | |].
    + intros v Hin. by apply Hv.
    + intros n Hin. destruct (Hn n Hin) as (-> & _). lia.
    + lia.
    + intros v Hin. destruct (Hv v Hin). lia.
  - intros v Hin. by apply Hv.
  - intros n Hin. by apply Hn.
  - done.
  - apply (wc_dups _ _ HW).
  - unfold tot_weight. assert (v_weight <$> h_verts G ≡ₚ v_weight <$> all_verts Hs) as ->; [|apply (pl_tot _ _ HP)].
    change v_weight with (snd ∘ idw). by rewrite !list_fmap_compose, Hidw.
Qed.

(** labelling keeps the shape *)
Lemma lab_shape H g : same_shape H (lab H g).
Proof. split; try done; simpl; [|by apply HgOps.Forall2_refl]. rewrite Forall2_fmap_r. by apply HgOps.Forall2_refl. Qed.
Lemma labs_shape Hs g : same_shapes Hs ((λ H, lab H g) <$> Hs).
Proof. unfold same_shapes. rewrite Forall2_fmap_r. apply HgOps.Forall2_refl. intros. apply lab_shape. Qed.
Lemma labs_verts Hs g : all_verts ((λ H, lab H g) <$> Hs) = (λ v, set_part (g (v_id v)) v) <$> all_verts Hs.
Proof. unfold all_verts. rewrite fmap_concat, <-!list_fmap_compose. done. Qed.
Lemma labs_gpart gn Hs g u : distributed gn Hs → u ∈ v_id <$> all_verts Hs → gpart ((λ H, lab H g) <$> Hs) u = g u.
Proof.
  intros HD (v & -> & Hv)%elem_of_list_fmap. assert (set_part (g (v_id v)) v ∈ all_verts ((λ H, lab H g) <$> Hs)) as Hin by (rewrite labs_verts; by apply (elem_of_list_fmap_1 (λ v, set_part (g (v_id v)) v))).
  change (v_id v) with (v_id (set_part (g (v_id v)) v)) at 1. rewrite gpart_elem; [done| |done].
  rewrite (same_shapes_ids Hs _ (labs_shape Hs g)). apply (di_verts _ _ HD).
Qed.

(** with two parts both metrics give the same cut *)
Lemma two_parts_metrics gn Hs σ m : distributed gn Hs → (∀ u, u ∈ v_id <$> all_verts Hs → σ u = 0 ∨ σ u = 1) →
  cut_by m (whole_nets Hs gn) σ = cut_net_size (whole_nets Hs gn) σ.
Proof.
  intros HD Hσ. destruct m; [done|]. simpl. unfold lambda_size, cut_net_size, whole_nets. rewrite <-!list_fmap_compose. apply zsum_fmap_ext. intros nid _. simpl.
  set (vs := gverts Hs nid).
  assert (∀ u, u ∈ vs → σ u = 0 ∨ σ u = 1) as Hv.
  { intros u Hu. apply Hσ. by eapply gverts_ids. }
  clearbody vs. destruct (decide (vs = [])) as [->|Hne]; [by destruct (decide (1 < lambda σ []))|].
  assert (1 ≤ lambda σ vs ≤ 2) as Hl.
  { unfold lambda. destruct vs as [|u vs]; [done|]. assert (σ u ∈ parts_touched σ (u :: vs)) as Hu.
    { unfold parts_touched. apply elem_of_list_to_set. apply elem_of_list_fmap_1. left. }
    assert (parts_touched σ (u :: vs) ⊆ {[0; 1]}) as Hs2.
    { intros x. unfold parts_touched. rewrite elem_of_list_to_set. intros (y & -> & Hy)%elem_of_list_fmap. destruct (Hv y Hy) as [-> | ->]; set_solver. }
    apply subseteq_size in Hs2. rewrite size_union in Hs2 by set_solver. rewrite !size_singleton in Hs2.
    assert (size (parts_touched σ (u :: vs)) ≠ 0)%nat; [|lia]. rewrite size_non_empty_iff. set_solver. }
  case_decide; [replace (lambda σ vs) with 2 by lia; lia|]. replace (lambda σ vs) with 1 by lia. lia.
Qed.

(** ** the coarsest level *)
Lemma wpe_solve_coarse E gn mx opts rounds Hs m (Q : list hg * Z → Prop) : plev gn Hs → 0 ≤ fst mx → 0 ≤ snd mx →
  (∀ σ c, let Hs' := (λ H, lab H σ) <$> Hs in (∀ v, v ∈ all_verts Hs' → v_part v = 0 ∨ v_part v = 1) →
     c = cut_by m (whole_nets Hs gn) (gpart Hs') → Q (Hs', c)) →
  wpe E (solve_coarse rounds Hs opts mx) Q.
Proof.
  intros HP Hm0 Hm1 HQ. pose proof (pl_dist _ _ HP) as HD. unfold solve_coarse. apply wpe_bind. eapply wpe_gather; [exact HD|]. intros Gs Hlg HG.
  apply wpe_bind. apply (wpe_mapP _ _ (λ t G r, consistent (fst r) ∧ bisected (fst r) ∧ idw <$> h_verts (fst r) = idw <$> h_verts G ∧ snd r = cut_net_size (net_list G) (part_of (fst r)))).
  { intros t G Ht. destruct (HG t G Ht) as [HW _]. apply wpe_ml_rounds; [done|done|by eapply whole_copy_ok|]. intros H' cut H1 H2 H3 H4 _. done. }
  intros rs Hlr Hr.
  assert (∀ r, r ∈ rs → ∃ G, whole_copy Hs G ∧ consistent (fst r) ∧ bisected (fst r) ∧ idw <$> h_verts (fst r) = idw <$> h_verts G ∧ snd r = cut_net_size (net_list G) (part_of (fst r))) as Hr'.
  { intros r [t Ht]%elem_of_list_lookup. destruct (lookup_lt_is_Some_2 Gs t) as [G HGt]; [rewrite <-Hlr; by eapply lookup_lt_Some|].
    exists G. split; [by apply (HG t)|]. by apply (Hr t). }
  assert (∀ r, r ∈ rs → vids (fst r) ≡ₚ v_id <$> all_verts Hs) as Hids.
  { intros r Hin. destruct (Hr' r Hin) as (G & HW & _ & _ & Hidw & _). unfold vids. rewrite (idw_ids' _ _ Hidw).
    pose proof (whole_copy_idw Hs G HW) as Hp. change v_id with (fst ∘ idw). by rewrite !list_fmap_compose, Hp. }
  eapply wpe_share_best; [exact HD|apply HP|lia| |].
  - intros r Hin. split; [|by apply Hids]. by destruct (Hr' r Hin) as (G & _ & ? & _).
  - intros r Hin _. destruct (Hr' r Hin) as (G & HW & HC & HB & Hidw & Hc).
    assert (∀ u, u ∈ v_id <$> all_verts Hs → part_of (fst r) u = 0 ∨ part_of (fst r) u = 1) as Hp01.
    { intros u Hu. rewrite <-(Hids r Hin) in Hu. apply vids_elem in Hu as (v & Hv & <-). rewrite part_of_elem by (done || apply (co_vid _ HC)). by apply HB. }
    apply HQ.
    + intros v. rewrite labs_verts. intros (u & -> & Hu)%elem_of_list_fmap. simpl. apply Hp01. by apply elem_of_list_fmap_1.
    + rewrite Hc. change (cut_net_size (net_list G) (part_of (fst r))) with (cut_by CutNet (net_list G) (part_of (fst r))).
      rewrite (whole_copy_cut gn Hs G CutNet) by (done || intros n Hn; by apply (pl_nets _ _ HP)).
      rewrite (cut_by_ext m gn Hs Hs (gpart _) (part_of (fst r)) HD (same_shapes_refl Hs)) by (intros u Hu; by apply (labs_gpart gn)).
      symmetry. by apply two_parts_metrics.
Qed.

(** ** coarsening keeps these facts *)
Lemma coarsened_weights gn mcs Hs samples HCs Cs id wt : coarsened_par gn mcs Hs samples HCs Cs → distributed gn Hs → (∀ v, v ∈ all_verts Hs → 0 < v_weight v) →
  (id, wt) ∈ (idw <$> all_verts HCs) ++ all_free Cs → 0 < wt ∧ id ∈ v_id <$> all_verts Hs.
Proof.
  intros Hcr HD Hw Hin. assert (id ∈ (v_id <$> all_verts HCs) ++ (fst <$> all_free Cs)) as Hid.
  { apply (elem_of_list_fmap_1 fst) in Hin. rewrite fmap_app, <-list_fmap_compose in Hin. exact Hin. }
  pose proof (di_verts _ _ HD) as Hnd. rewrite <-(cr_ids _ _ _ _ _ _ Hcr), app_assoc in Hnd. apply NoDup_app in Hnd as (_ & Hd & _).
  assert (id ∈ v_id <$> all_verts Hs) as Hid' by (rewrite <-(cr_ids _ _ _ _ _ _ Hcr), app_assoc; set_solver). split; [|done].
  rewrite (cr_weight _ _ _ _ _ _ Hcr id wt Hin). apply elem_of_list_fmap in Hid' as (v & Hv & Hvin).
  assert (v_weight v ≤ zsum ((λ v, if decide (rep (all_clusters Cs) (v_id v) = id) then v_weight v else 0) <$> all_verts Hs)) as Hle; [|specialize (Hw v Hvin); lia].
  apply zsum_elem_le.
  - intros y (u & -> & Hu)%elem_of_list_fmap. specialize (Hw u Hu). case_decide; lia.
  - apply elem_of_list_fmap. exists v. split; [|done]. rewrite decide_True; [done|]. rewrite <-Hv. apply rep_unmatched. by apply Hd.
Qed.
Lemma coarsened_plev gn mcs Hs samples HCs Cs : coarsened_par gn mcs Hs samples HCs Cs → plev gn Hs → plev gn HCs.
Proof.
  intros Hcr HP. pose proof (pl_dist _ _ HP) as HD.
  assert (∀ id wt, (id, wt) ∈ (idw <$> all_verts HCs) ++ all_free Cs → 0 < wt ∧ id ∈ v_id <$> all_verts Hs) as Hw.
  { intros id wt. exact (coarsened_weights _ _ _ _ _ _ id wt Hcr HD (pl_weight _ _ HP)). }
  assert (∀ v, v ∈ all_verts HCs → 0 < v_weight v ∧ v_id v ∈ v_id <$> all_verts Hs) as Hv.
  { intros v Hv. apply Hw. apply elem_of_app. left. by apply (elem_of_list_fmap_1 idw). }
  split.
  - apply Hcr.
  - intros ->. destruct (cr_len _ _ _ _ _ _ Hcr) as [Hl _]. pose proof (pl_ne _ _ HP). by destruct Hs.
  - apply HP.
  - intros v Hin. destruct (Hv v Hin) as [_ (u & -> & Hu)%elem_of_list_fmap]. by apply (pl_ids _ _ HP).
  - intros v Hin. by apply Hv.
  - intros n Hn. destruct (cr_nets _ _ _ _ _ _ Hcr n Hn) as (N1 & N2 & N3 & N4). split_and!; [done..|]. rewrite N4.
    assert (gverts HCs (n_id n) ≠ []) as Hne. { intros He. unfold gsize in N2. rewrite He in N2. simpl in N2. lia. }
    destruct (gverts HCs (n_id n)) as [|u l] eqn:He; [done|].
    assert (u ∈ gverts HCs (n_id n)) as Hu by (rewrite He; left). apply (cr_gverts _ _ _ _ _ _ Hcr) in Hu as [(x & Hx & _) _].
    apply gverts_elem in Hx as (m & Hm & <- & _). rewrite (gcost_elem gn) by done. by apply (pl_nets _ _ HP).
  - pose proof (cr_total _ _ _ _ _ _ Hcr). pose proof (pl_tot _ _ HP).
    assert (0 ≤ zsum (snd <$> all_free Cs)); [|lia]. apply zsum_nonneg. intros y ([id wt] & -> & Hf)%elem_of_list_fmap. simpl. destruct (Hw id wt); [set_solver|lia].
  - pose proof (cr_ids _ _ _ _ _ _ Hcr) as Hp. apply Permutation_length in Hp. rewrite app_length, !fmap_length in Hp. pose proof (pl_num _ _ HP). lia.
  - intros H HH. by apply (cr_gsize _ _ _ _ _ _ Hcr).
Qed.

Lemma NoDup_concat_part {A} (ls : list (list A)) l : NoDup (concat ls) → l ∈ ls → NoDup l.
Proof.
  intros Hnd (l1 & l2 & ->)%elem_of_list_split. rewrite concat_app in Hnd. apply NoDup_app in Hnd as (_ & _ & Hnd). simpl in Hnd. by apply NoDup_app in Hnd as (? & _).
Qed.

(** ** one level of uncoarsening *)
Section up.
  Context (bp : Z → Z → partitioning) (Hbp : lawful_family bp) (E : err → Prop) (gn mcs : Z) (opts : options) (mx : Z * Z).
  Context (Hs : list hg) (samples : list (list Z)) (HCs : list hg) (Cs : list contraction).
  Context (HP : plev gn Hs) (Hcr : coarsened_par gn mcs Hs samples HCs Cs) (Hsl : length samples = length Hs).
  Context (K0s : list hg) (HK0 : same_shapes HCs K0s) (HKb : ∀ v, v ∈ all_verts K0s → v_part v = 0 ∨ v_part v = 1).
  Context (Hm0 : 0 ≤ fst mx) (Hm1 : 0 ≤ snd mx) (Hcalm : E UB ∨ within (gweight Hs, gweight Hs) mx).

  Lemma K0_dist : distributed gn K0s.
  Proof. eapply same_shapes_distributed; [exact HK0|apply Hcr]. Qed.
  Lemma K0_len : length K0s = length Hs.
  Proof. rewrite <-(Forall2_length _ _ _ HK0). apply (cr_len _ _ _ _ _ _ Hcr). Qed.
  Lemma free_pos f : f ∈ all_free Cs → 0 < snd f.
  Proof.
    intros Hf. destruct f as [id wt]. destruct (coarsened_weights _ _ _ _ _ _ id wt Hcr (pl_dist _ _ HP) (pl_weight _ _ HP)) as [? _]; [set_solver|done].
  Qed.
  Lemma free_nodup t C K : Cs !! t = Some C → K0s !! t = Some K → NoDup (vids K ++ (fst <$> c_free C)).
  Proof.
    intros HC HK. pose proof (di_verts _ _ (pl_dist _ _ HP)) as Hnd. rewrite <-(cr_ids _ _ _ _ _ _ Hcr), app_assoc in Hnd. apply NoDup_app in Hnd as (Hnd & _).
    rewrite <-(same_shapes_ids _ _ HK0) in Hnd. apply NoDup_app in Hnd as (N1 & N2 & N3). apply NoDup_app. split_and!.
    - apply (co_vid _ (di_local _ _ K0_dist K ltac:(by eapply elem_of_list_lookup_2))).
    - intros u (v & Hv & <-)%vids_elem Hu. apply (N2 (v_id v)).
      + apply elem_of_list_fmap_1, all_verts_elem. exists K. split; [by eapply elem_of_list_lookup_2|done].
      + unfold all_free. rewrite fmap_concat, <-list_fmap_compose. apply elem_of_concat. exists (fst <$> c_free C). split; [done|].
        apply (elem_of_list_fmap_1 (λ C, fst <$> c_free C)). by eapply elem_of_list_lookup_2.
    - unfold all_free in N3. rewrite fmap_concat, <-list_fmap_compose in N3.
      apply (NoDup_concat_part _ (fst <$> c_free C)) in N3; [done|].
      apply (elem_of_list_fmap_1 (λ C, fst <$> c_free C)). by eapply elem_of_list_lookup_2.
  Qed.

  (** the coarse hypergraphs with their free vertices *)
  Context (Ks : list hg) (HB : back_par Cs K0s Ks).
  Lemma Ks_len : length Ks = length Hs.
  Proof. destruct HB as [-> _]. apply K0_len. Qed.
  Lemma Ks_at t K : Ks !! t = Some K → ∃ K0 C HC vs, K0s !! t = Some K0 ∧ Cs !! t = Some C ∧ HCs !! t = Some HC ∧ same_shape HC K0 ∧
    idw <$> vs ≡ₚ c_free C ∧ (∀ v, v ∈ vs → v_nets v = [] ∧ (v_part v = 0 ∨ v_part v = 1)) ∧ restored_verts K0 vs K.
  Proof.
    intros HK. assert (t < length Hs)%nat as Ht by (rewrite <-Ks_len; by eapply lookup_lt_Some). destruct (cr_len _ _ _ _ _ _ Hcr) as [L1 L2].
    destruct (lookup_lt_is_Some_2 K0s t) as [K0 HK0t]; [by rewrite K0_len|]. destruct (lookup_lt_is_Some_2 Cs t) as [C HC]; [lia|].
    destruct (lookup_lt_is_Some_2 HCs t) as [HC' HHC]; [lia|]. destruct (proj2 HB t C K0 K HC HK0t HK) as (vs & V1 & V2 & V3).
    exists K0, C, HC', vs. split_and!; try done. by eapply Forall2_lookup_lr.
  Qed.
  Lemma Ks_HK t K HC C : Ks !! t = Some K → HCs !! t = Some HC → Cs !! t = Some C → consistent K ∧ vids K ≡ₚ vids HC ++ (fst <$> c_free C).
  Proof.
    intros HKt HHC HC'. destruct (Ks_at t K HKt) as (K0 & C1 & HC1 & vs & E1 & E2 & E3 & Hsh & V1 & V2 & V3). simplify_eq. split; [apply V3|].
    unfold vids. rewrite (rv_verts _ _ _ V3), fmap_app. f_equiv; [pose proof (same_shape_vids _ _ Hsh) as Hv; unfold vids in Hv; by rewrite Hv|].
    rewrite <-V1, <-list_fmap_compose. done.
  Qed.
  Lemma Ks_verts : ∃ vs, all_verts Ks ≡ₚ all_verts K0s ++ vs ∧ idw <$> vs ≡ₚ all_free Cs ∧ ∀ v, v ∈ vs → v_part v = 0 ∨ v_part v = 1.
  Proof.
    destruct HB as [HL HB']. assert (length Cs = length K0s) as HLc by (rewrite K0_len; apply (cr_len _ _ _ _ _ _ Hcr)).
    clear -HL HB' HLc. unfold all_verts, all_free. revert Cs K0s HL HB' HLc. induction Ks as [|K Ks' IH]; intros [|C Cs'] [|K0 K0s'] HL HB' HLc; try done.
    - exists []. split_and!; [done|done|]. intros v Hv. by apply elem_of_nil in Hv.
    - destruct (IH Cs' K0s') as (vs & V1 & V2 & V3); [by injection HL| |by injection HLc|].
      { intros t. apply (HB' (S t)). }
      destruct (HB' 0%nat C K0 K eq_refl eq_refl eq_refl) as (us & U1 & U2 & U3). exists (us ++ vs). csimpl. rewrite V1, (rv_verts _ _ _ U3). split_and!.
      + solve_Permutation.
      + by rewrite fmap_app, U1, V2.
      + intros v [Hv|Hv]%elem_of_app; [by apply U2|by apply V3].
  Qed.
  Lemma Ks_nets : all_nets Ks = all_nets K0s.
  Proof.
    unfold all_nets. f_equal. apply list_eq_same_length with (length Hs); [rewrite fmap_length; apply K0_len|rewrite fmap_length; apply Ks_len|].
    intros t x y Ht. rewrite !list_lookup_fmap. destruct (Ks !! t) as [K|] eqn:HK; [|done]. intros [= <-].
    destruct (Ks_at t K HK) as (K0 & C1 & HC1 & vs & -> & _ & _ & _ & _ & _ & V3). intros [= <-]. apply (rv_nets _ _ _ V3).
  Qed.
  Lemma Ks_dist : distributed gn Ks.
  Proof.
    split.
    - intros K [t HK]%elem_of_list_lookup. destruct (Ks_at t K HK) as (? & ? & ? & ? & ? & ? & ? & ? & ? & ? & V3). apply V3.
    - intros K [t HK]%elem_of_list_lookup. destruct (Ks_at t K HK) as (K0 & ? & ? & ? & HK0t & ? & ? & ? & ? & ? & V3). rewrite (rv_gnets _ _ _ V3).
      apply (di_gnets _ _ K0_dist). by eapply elem_of_list_lookup_2.
    - eapply K_nodup; [apply HP|exact Hcr|exact Hsl|apply Ks_len|apply Ks_HK].
    - rewrite Ks_nets. apply (di_range _ _ K0_dist).
    - rewrite Ks_nets. apply (di_cost _ _ K0_dist).
  Qed.
  Lemma Ks_bis v : v ∈ all_verts Ks → v_part v = 0 ∨ v_part v = 1.
  Proof. destruct Ks_verts as (vs & V1 & _ & V3). rewrite V1. intros [Hv|Hv]%elem_of_app; [by apply HKb|by apply V3]. Qed.
  Lemma Ks_gpart u : u ∈ v_id <$> all_verts K0s → gpart Ks u = gpart K0s u.
  Proof.
    intros (v & -> & Hv)%elem_of_list_fmap. rewrite (gpart_elem K0s); [|apply (di_verts _ _ K0_dist)|done]. apply gpart_elem; [apply (di_verts _ _ Ks_dist)|].
    destruct Ks_verts as (vs & -> & _). set_solver.
  Qed.
  Lemma Ks_weight q : gpart_weight Ks q = gassigned HCs (all_free Cs) (gpart Ks) q.
  Proof.
    rewrite (gpart_weight_gwt gn) by apply Ks_dist. set (σ := gpart Ks). unfold gwt, gassigned. destruct Ks_verts as (vs & V1 & V2 & _).
    rewrite V1, fmap_app, zsum_app. f_equal.
    - symmetry. apply (gwt_ext HCs K0s σ σ q); done.
    - rewrite <-V2, <-list_fmap_compose. done.
  Qed.

  Notation cl := (all_clusters Cs).
  Lemma up_ids u : u ∈ v_id <$> all_verts Hs → rep cl u ∈ v_id <$> all_verts Ks.
  Proof.
    intros Hu. rewrite (K_ids gn mcs Hs samples HCs Cs Hcr Hsl Ks Ks_len Ks_HK). destruct (decide (u ∈ concat (snd <$> cl))) as [Hm|Hm].
    - apply elem_of_concat in Hm as (l & Hul & (c & -> & Hc)%elem_of_list_fmap). rewrite (rep_nodup cl c) by (apply Hcr || done || by right).
      rewrite <-(cr_ids _ _ _ _ _ _ Hcr), app_assoc in Hu.
      assert (fst c ∈ v_id <$> all_verts Hs) as Hf.
      { destruct (cr_share _ _ _ _ _ _ Hcr c u Hc Hul) as (x & _ & _ & Hx & _ & <- & _). by apply elem_of_list_fmap_1. }
      rewrite <-(cr_ids _ _ _ _ _ _ Hcr), app_assoc in Hf. apply elem_of_app in Hf as [?|Hf]; [done|]. exfalso.
      pose proof (cr_disjoint _ _ _ _ _ _ Hcr) as Hd. apply NoDup_app in Hd as (_ & Hd & _). apply (Hd (fst c)); [by apply elem_of_list_fmap_1|done].
    - rewrite rep_unmatched by done. rewrite <-(cr_ids _ _ _ _ _ _ Hcr), app_assoc in Hu. apply elem_of_app in Hu as [?|?]; [done|done].
  Qed.

  (** the labels before refinement *)
  Let Hs1 := (λ H, lab H (λ u, gpart Ks (rep cl u))) <$> Hs.
  Lemma up_gpart u : u ∈ v_id <$> all_verts Hs → gpart Hs1 u = gpart Ks (rep cl u).
  Proof. intros Hu. unfold Hs1. by rewrite (labs_gpart gn Hs (λ u, gpart Ks (rep cl u))) by (apply HP || done). Qed.
  Lemma up_bis v : v ∈ all_verts Hs1 → v_part v = 0 ∨ v_part v = 1.
  Proof.
    unfold Hs1. rewrite (labs_verts Hs (λ u, gpart Ks (rep cl u))). intros (u & -> & Hu)%elem_of_list_fmap. simpl.
    assert (rep cl (v_id u) ∈ v_id <$> all_verts Ks) as (x & -> & Hx)%elem_of_list_fmap by (apply up_ids; by apply elem_of_list_fmap_1).
    rewrite gpart_elem by (done || apply (di_verts _ _ Ks_dist)). by apply Ks_bis.
  Qed.
  Lemma up_weight q : gpart_weight Hs1 q = gpart_weight Ks q.
  Proof.
    rewrite Ks_weight, (cr_parts _ _ _ _ _ _ Hcr), (gpart_weight_gwt gn).
    - unfold gassigned. change (zsum (_ <$> [])) with 0. rewrite Z.add_0_r. symmetry.
      apply (gwt_ext Hs Hs1); [apply labs_shape|]. intros u Hu. symmetry. by apply up_gpart.
    - eapply same_shapes_distributed; [apply labs_shape|apply HP].
  Qed.
  Lemma up_cut m : cut_by m (whole_nets Hs1 gn) (gpart Hs1) = cut_by m (whole_nets HCs gn) (gpart K0s).
  Proof.
    rewrite (cut_by_ext m gn HCs HCs (gpart K0s) (gpart Ks)).
    - rewrite (cr_cut _ _ _ _ _ _ Hcr). symmetry. apply cut_by_ext; [apply HP|apply labs_shape|]. intros u Hu. simpl. symmetry. by apply up_gpart.
    - apply Hcr.
    - apply same_shapes_refl.
    - intros u Hu. symmetry. apply Ks_gpart. by rewrite (same_shapes_ids _ _ HK0).
  Qed.
End up.

Lemma within_total Hs Hs' mx q : same_shapes Hs Hs' → (∀ v, v ∈ all_verts Hs → 0 < v_weight v) → within (gweight Hs, gweight Hs) mx →
  gpart_weight Hs' q ≤ fst mx ∧ gpart_weight Hs' q ≤ snd mx.
Proof.
  intros HSh Hw [W1 W2]. cbn [fst snd] in *. assert (gpart_weight Hs' q ≤ gweight Hs'); [|rewrite (same_shapes_gweight Hs Hs') in H by done; lia].
  apply gweight_parts. eapply same_shapes_weights; [exact HSh|]. intros v Hv. specialize (Hw v Hv). lia.
Qed.

Lemma wpe_uncoarsen_par bp E gn mcs opts mx Hs samples HCs Cs K0s cut (Q : list hg * Z → Prop) : lawful_family bp → plev gn Hs →
  coarsened_par gn mcs Hs samples HCs Cs → length samples = length Hs → same_shapes HCs K0s → (∀ v, v ∈ all_verts K0s → v_part v = 0 ∨ v_part v = 1) →
  0 ≤ fst mx → 0 ≤ snd mx → E UB ∨ within (gweight Hs, gweight Hs) mx →
  cut = cut_by (o_metric opts) (whole_nets HCs gn) (gpart K0s) →
  (∀ Hs' c, same_shapes Hs Hs' → (∀ v, v ∈ all_verts Hs' → v_part v = 0 ∨ v_part v = 1) →
     c = cut_by (o_metric opts) (whole_nets Hs gn) (gpart Hs') → c ≤ cut → Q (Hs', c)) →
  wpe E (uncoarsen_par bp K0s Hs Cs opts mx cut) Q.
Proof.
  intros Hbp HP Hcr Hsl HK0 HKb Hm0 Hm1 Hcalm Hcut HQ. unfold uncoarsen_par. pose proof (pl_dist _ _ HP) as HD.
  destruct (cr_len _ _ _ _ _ _ Hcr) as [L1 L2]. pose proof (K0_len gn mcs Hs samples HCs Cs Hcr K0s HK0) as LK.
  assert (length Hs ≠ 0%nat) as Hp0 by (pose proof (pl_ne _ _ HP); by destruct Hs).
  assert (∀ f, f ∈ all_free Cs → 0 < snd f) as Hfp by (by eapply free_pos).
  apply wpe_bind. apply (wpe_assign_free_par E Cs K0s mx).
  { intros ->. simpl in LK. lia. }
  { lia. }
  { apply (di_local gn). by eapply K0_dist. }
  { done. }
  { intros t C H HC HK. by eapply free_nodup. }
  { done. }
  { apply (cr_local_free _ _ _ _ _ _ Hcr). }
  { apply (cr_global_free _ _ _ _ _ _ Hcr). }
  { done. }
  { done. }
  { destruct Hcalm as [?|[W1 W2]]; [by left|right]. intros Hf. cbn [fst snd] in *.
    assert (0 ≤ gweight HCs). { apply zsum_nonneg. intros y (v & -> & Hv)%elem_of_list_fmap. pose proof (pl_weight _ _ (coarsened_plev _ _ _ _ _ _ Hcr HP) v Hv). lia. }
    assert (0 ≤ zsum (snd <$> all_free Cs)). { apply zsum_nonneg. intros y (v & -> & Hv)%elem_of_list_fmap. pose proof (Hfp v Hv). lia. }
    pose proof (cr_total _ _ _ _ _ _ Hcr). lia. }
  intros Ks HB ws' _. cbn [fst snd].
  pose proof (Ks_len gn mcs Hs samples HCs Cs Hcr K0s HK0 Ks HB) as LKs.
  pose proof (Ks_HK gn mcs Hs samples HCs Cs Hcr Hsl K0s HK0 Ks HB) as HK.
  apply wpe_bind. apply (wpe_uncoarsen_world E gn mcs Hs samples HCs Cs HD Hcr Hsl Ks LKs HK).
  set (Hs1 := (λ H, lab H (λ u, gpart Ks (rep (all_clusters Cs) u))) <$> Hs).
  assert (same_shapes Hs Hs1) as HSh by apply labs_shape.
  pose proof (same_shapes_distributed gn Hs Hs1 HSh HD) as HD1.
  assert (length Hs1 = length Hs) as LH1 by (unfold Hs1; by rewrite fmap_length).
  assert (Hs1 ≠ []) as Hne1 by (intros He; rewrite He in LH1; simpl in LH1; lia).
  pose proof (up_bis gn mcs Hs samples HCs Cs HP Hcr Hsl K0s HK0 HKb Ks HB) as Hb1. fold Hs1 in Hb1.
  assert (∀ n, n ∈ all_nets Hs1 → n_gsize n = gsize Hs1 (n_id n)) as Hgs1.
  { eapply same_shapes_gsizes; [exact HSh|]. intros n Hn. by apply (pl_nets _ _ HP). }
  pose proof (pl_gn _ _ HP) as Hgn.
  apply wpe_bind. apply (wpe_init_counts_par bp Hbp gn Hs1 HD1 ltac:(lia) Hne1); [done|done|].
  apply wpe_bind.
  assert (ws' = gws Hs1) as Hws.
  { unfold ws', gws, Hs1. by rewrite !(up_weight gn mcs Hs samples HCs Cs HP Hcr Hsl K0s HK0 Ks HB). }
  assert (cut_by (o_metric opts) (whole_nets Hs1 gn) (gpart Hs1) = cut) as Hcut1.
  { rewrite Hcut. by eapply (up_cut bp Hbp E gn mcs mx Hs samples HCs Cs HP Hcr Hsl K0s HK0). }
  eapply (wpe_klfm_par bp Hbp gn ltac:(lia) E (o_metric opts) mx (o_send_moves opts) Hs1 HD1 Hne1).
  - intros H1 [t Ht]%elem_of_list_lookup. destruct (Forall2_lookup_r _ _ _ _ _ HSh Ht) as (H & HH & Hsh). eapply klfm_pre_shape; [|exact Hsh].
    eapply plev_pre; [exact HP|]. by eapply elem_of_list_lookup_2.
  - done.
  - destruct Hcalm as [?|Hw]; [by left|right]. split; [|right; by rewrite (same_shapes_gweight Hs Hs1)].
    intros n (H & [t Ht]%elem_of_list_lookup & [i Hn]%elem_of_list_lookup)%all_nets_elem. destruct (Forall2_lookup_r _ _ _ _ _ HSh Ht) as (H0 & HH0 & Hsh).
    destruct (Forall2_lookup_r _ _ _ _ _ (ss_nets _ _ Hsh) Hn) as (n0 & Hn0 & _ & Hp & _). intros He. rewrite He in Hp. apply Permutation_nil_r in Hp.
    assert (n0 ∈ all_nets Hs) as Hin by (apply all_nets_elem; exists H0; split; by eapply elem_of_list_lookup_2). by destruct (pl_nets _ _ HP n0 Hin).
  - done.
  - done.
  - done.
  - done.
  - left. by rewrite Hcut1.
  - destruct Hcalm as [?|Hw]; [by left|right]. split; [done|]. rewrite Hws. unfold gws. split; cbn [fst snd];
      [by apply (within_total Hs Hs1 mx 0 HSh (pl_weight _ _ HP) Hw)|by apply (within_total Hs Hs1 mx 1 HSh (pl_weight _ _ HP) Hw)].
  - intros rs c Hlr Hkr Hc Hall Hcc. apply wpe_bind. apply (wpe_agreed _ _ c).
    { intros He. apply (f_equal length) in He. rewrite fmap_length in He. simpl in He. lia. }
    { intros x (r & -> & Hr)%elem_of_list_fmap. by apply Hall. }
    apply wpe_ret. rewrite list_fmap_compose. pose proof (same_shapes_trans _ _ _ HSh (kr_shape _ _ _ _ Hkr)) as HSh2. apply HQ.
    + done.
    + apply (kr_bis _ _ _ _ Hkr).
    + rewrite <-Hcc. symmetry. apply cut_by_ext; [done|done|done].
    + by rewrite <-Hcut1.
Qed.

(** ** all levels *)
Lemma wpe_choose_samples E H opts (Q : list Z → Prop) : consistent H → 0 < o_sample_size opts → Z.of_nat (length (h_verts H)) ≤ 2 ^ 53 →
  E Abort ∨ o_sampling opts ≠ SampRandom →
  (∀ sm, NoDup sm → (∀ i, i ∈ sm → 0 ≤ i < Z.of_nat (length (h_verts H))) → Z.of_nat (length sm) ≤ o_sample_size opts → Q sm) →
  wpe E (choose_samples H opts) Q.
Proof.
  intros HC HS Hn HE HQ. destruct (h_verts H) as [|v l] eqn:Hv.
  - destruct HE as [HE|Hr].
    + destruct (o_sampling opts) eqn:Hr.
      * unfold choose_samples. rewrite Hr. unfold sample_random. rewrite Hv. intros w. exact HE.
      * apply wp_wpe, wp_choose_samples; [done|done|by rewrite Hr|by rewrite Hv].
    + apply wp_wpe, wp_choose_samples; [done|done|done|by rewrite Hv].
  - apply wp_wpe, wp_choose_samples; [done|done| |by rewrite Hv]. intros _. rewrite Hv. simpl in *. lia.
Qed.

Section rounds.
  Context (bp : Z → Z → partitioning) (Hbp : lawful_family bp) (E : err → Prop) (gn : Z) (opts : options) (mx : Z * Z).
  Context (Hm0 : 0 ≤ fst mx) (Hm1 : 0 ≤ snd mx) (HS : 0 < o_sample_size opts) (Habort : E Abort ∨ o_sampling opts ≠ SampRandom).

  Lemma wpe_par_rounds rounds : ∀ ratio Hs (Q : list hg * Z → Prop), plev gn Hs → E UB ∨ within (gweight Hs, gweight Hs) mx →
    (∀ Hs' c, same_shapes Hs Hs' → (∀ v, v ∈ all_verts Hs' → v_part v = 0 ∨ v_part v = 1) →
       c = cut_by (o_metric opts) (whole_nets Hs gn) (gpart Hs') → Q (Hs', c)) →
    wpe E (par_rounds bp rounds ratio Hs opts mx) Q.
  Proof.
    induction rounds as [|rounds IH]; intros ratio Hs Q HP Hcalm HQ.
    { simpl. eapply (wpe_solve_coarse E gn mx opts 0 Hs (o_metric opts)); [done..|]. intros σ c Hs' Hb Hc. apply HQ; [apply labs_shape|done|done]. }
    simpl. apply wpe_bind. apply (wpe_agreed _ _ (Z.of_nat (length (all_verts Hs)))).
    { intros He. apply (f_equal length) in He. rewrite fmap_length in He. pose proof (pl_ne _ _ HP). by destruct Hs. }
    { intros x (H & -> & HH)%elem_of_list_fmap. by apply (pl_size _ _ HP). }
    match goal with |- wpe _ (if ?b then _ else _) _ => destruct b end.
    2:{ eapply (wpe_solve_coarse E gn mx opts (S rounds) Hs (o_metric opts)); [done..|]. intros σ c Hs' Hb Hc. apply HQ; [apply labs_shape|done|done]. }
    pose proof (pl_dist _ _ HP) as HD. pose proof (pl_gn _ _ HP) as Hgn.
    apply wpe_bind. unfold coarsen_par. apply wpe_bind.
    eapply (wpe_mapP _ _ (λ t H sm, NoDup sm ∧ (∀ i, i ∈ sm → 0 ≤ i < Z.of_nat (length (h_verts H))) ∧ Z.of_nat (length sm) ≤ o_sample_size opts)).
    { intros t H HH. assert (H ∈ Hs) as Hin by (by eapply elem_of_list_lookup_2). apply wpe_choose_samples; [by apply (di_local _ _ HD)|done| |done|done].
      etrans; [|apply (pl_num _ _ HP)]. apply Nat2Z.inj_le. unfold all_verts. apply elem_of_list_split in Hin as (l1 & l2 & ->).
      rewrite fmap_app. csimpl. rewrite concat_app. simpl. rewrite !app_length. lia. }
    intros samples Hl Hsm.
    assert (samples_of (o_sample_size opts) Hs samples) as Hok.
    { apply Forall2_same_length_lookup. split; [done|]. intros t H sm HH Hss. by eapply Hsm. }
    apply (wpe_coarsen_samples bp Hbp gn ltac:(lia) Hs (pl_ne _ _ HP) HD samples opts ltac:(lia) Hok). intros cs Hcr.
    pose proof (coarsened_plev _ _ _ _ _ _ Hcr HP) as HPC.
    apply wpe_bind. apply (wpe_agreed _ _ (Z.of_nat (length (all_verts (fst <$> cs))))).
    { intros He. apply (f_equal length) in He. rewrite fmap_length in He. pose proof (pl_ne _ _ HPC). by destruct (fst <$> cs). }
    { intros x (H & -> & HH)%elem_of_list_fmap. by apply (pl_size _ _ HPC). }
    apply wpe_bind, IH; [done| |].
    { destruct Hcalm as [?|[W1 W2]]; [by left|right]. cbn [fst snd] in *. pose proof (cr_total _ _ _ _ _ _ Hcr) as Ht.
      assert (0 ≤ zsum (snd <$> all_free (snd <$> cs))).
      { apply zsum_nonneg. intros y ([id wt] & -> & Hf)%elem_of_list_fmap. simpl.
        destruct (coarsened_weights _ _ _ _ _ _ id wt Hcr HD (pl_weight _ _ HP)); [set_solver|lia]. }
      split; cbn [fst snd]; lia. }
    intros K0s c HK0 HKb Hc. cbn [fst snd].
    eapply wpe_uncoarsen_par; [done|done|exact Hcr|lia|done|done|done|done|done|done|]. intros Hs' c' HSh Hb Hc' _. by apply HQ.
  Qed.
End rounds.

(** ** bisect_multilevel *)
Definition job_verts (j : hg * (Z * Z)) : list vertex := range (fst j) (fst (snd j)) (snd (snd j)).

Section create.
  Context (bp : Z → Z → partitioning) (Hbp : lawful_family bp) (gn : Z) (jobs : list (hg * (Z * Z))).
  Context (HD : distributed gn (fst <$> jobs)) (Hgn : 0 ≤ gn) (Hne : jobs ≠ []) (Hok : ∀ j, j ∈ jobs → job_ok j).

  Definition sized_job (n : Z) (j : hg * (Z * Z)) : hg := with_gsize n (sub_hg (fst j) (job_verts j)).
  Lemma job_cons j : j ∈ jobs → consistent (fst j).
  Proof. intros Hj. apply (di_local _ _ HD). by apply elem_of_list_fmap_1. Qed.
  Lemma job_sub j v : v ∈ job_verts j → v ∈ h_verts (fst j).
  Proof. apply range_sub. Qed.
  Lemma job_nodup : NoDup (v_id <$> concat (job_verts <$> jobs)).
  Proof.
    pose proof (di_verts _ _ HD) as Hnd. unfold all_verts in Hnd. rewrite <-list_fmap_compose in Hnd.
    assert (concat (job_verts <$> jobs) ⊆+ concat (h_verts ∘ fst <$> jobs)) as Hsub.
    { clear. induction jobs as [|j l IH]; [done|]. csimpl. apply submseteq_app; [|done]. change ((h_verts ∘ fst) j) with (h_verts (fst j)). rewrite (range_split (fst j) (fst (snd j)) (snd (snd j))). fold (job_verts j).
      apply submseteq_inserts_l, submseteq_inserts_r. done. }
    apply (fmap_submseteq v_id) in Hsub. apply submseteq_Permutation in Hsub as (k & Hk). rewrite Hk in Hnd. by apply NoDup_app in Hnd as (? & _).
  Qed.
  Lemma sized_jobs_verts n : all_verts (sized_job n <$> jobs) = concat (job_verts <$> jobs).
  Proof. unfold all_verts. by rewrite <-list_fmap_compose. Qed.
  Lemma sized_jobs_dist n : distributed gn (sized_job n <$> jobs).
  Proof.
    split.
    - intros X (j & -> & Hj)%elem_of_list_fmap. apply with_gsize_consistent, sub_consistent; [by apply job_cons|apply range_nodup, (co_vid _ (job_cons j Hj))|apply range_sub].
    - intros X (j & -> & Hj)%elem_of_list_fmap. simpl. apply (di_gnets _ _ HD). by apply elem_of_list_fmap_1.
    - rewrite sized_jobs_verts. apply job_nodup.
    - intros x (X & (j & -> & Hj)%elem_of_list_fmap & (y & -> & Hy)%elem_of_list_fmap)%all_nets_elem. simpl. apply (di_range _ _ HD). apply all_nets_elem.
      exists (fst j). split; [by apply elem_of_list_fmap_1|done].
    - intros x x' (X & (j & -> & Hj)%elem_of_list_fmap & (y & -> & Hy)%elem_of_list_fmap)%all_nets_elem (X' & (j' & -> & Hj')%elem_of_list_fmap & (y' & -> & Hy')%elem_of_list_fmap)%all_nets_elem. done.
  Qed.

  Lemma wpe_create_new E (Q : list hg → Prop) :
    (∀ Rs n, let Xs := sized_job n <$> jobs in n = Z.of_nat (length (all_verts Xs)) → length Rs = length jobs →
       (∀ t X R, Xs !! t = Some X → Rs !! t = Some R → small_nets_removed 1 Xs X R ∧ consistent R) → Q Rs) →
    wpe E (create_new bp jobs) Q.
  Proof.
    intros HQ. unfold create_new. apply wpe_bind. eapply (wpe_mapP_eq _ _ (λ j, sub_hg (fst j) (job_verts j))).
    { intros t j Hj%elem_of_list_lookup_2. destruct (Hok j Hj). by apply wpe_create_new_local; [apply job_cons|..]. }
    set (n := Z.of_nat (length (concat (job_verts <$> jobs)))).
    assert (recompute_global_size ((λ j, sub_hg (fst j) (job_verts j)) <$> jobs) = sized_job n <$> jobs) as ->.
    { unfold recompute_global_size, bulk_sum. rewrite !fmap_length, ListLemmas.foldl_add_zsum, Z.add_0_l, <-!list_fmap_compose.
      assert (zsum ((λ j, Z.of_nat (length (job_verts j))) <$> jobs) = n) as Hz.
      { unfold n. rewrite <-zsum_lengths, <-list_fmap_compose. done. }
      match goal with |- context [zsum ?l] => replace (zsum l) with n end. clearbody n. clear -n. induction jobs as [|j l IH]; [done|]. csimpl. by rewrite IH. }
    eapply (wpe_remove_free_nets_par bp Hbp gn _ (sized_jobs_dist n) Hgn); [by destruct jobs|]. intros Rs Hl HR. apply (HQ Rs n); [by rewrite sized_jobs_verts|by rewrite fmap_length in Hl|done].
  Qed.
End create.

(** the hypergraph of the first level *)
Section level0.
  Context (gn : Z) (jobs : list (hg * (Z * Z))).
  Context (HD : distributed gn (fst <$> jobs)) (Hgn : 0 ≤ gn < 2147483648) (Hne : jobs ≠ []).
  Context (Hids : ∀ v, v ∈ all_verts (fst <$> jobs) → v_id v ≠ -1) (Hw : ∀ v, v ∈ all_verts (fst <$> jobs) → 0 < v_weight v).
  Context (Htot : gweight (fst <$> jobs) < long_max) (Hnum : Z.of_nat (length (all_verts (fst <$> jobs))) ≤ 2 ^ 53).
  Context (n : Z) (Rs : list hg) (fs : list (contraction * hg)).
  Notation Xs := (sized_job n <$> jobs).
  Context (HRl : length Rs = length jobs) (HR : ∀ t X R, Xs !! t = Some X → Rs !! t = Some R → small_nets_removed 1 Xs X R ∧ consistent R).
  Context (Hfl : length fs = length jobs).
  Notation L := (snd <$> fs).
  Context (Hfs : ∀ t C H r, replicate (length jobs) new_contraction !! t = Some C → (copied <$> Rs) !! t = Some H → fs !! t = Some r →
    aside_at (copied <$> Rs) (Z.of_nat (length (all_verts L))) C H r).

  Lemma level0_at t r : fs !! t = Some r → ∃ j R, jobs !! t = Some j ∧ Rs !! t = Some R ∧ small_nets_removed 1 Xs (sized_job n j) R ∧ consistent R ∧
    aside_at (copied <$> Rs) (Z.of_nat (length (all_verts L))) new_contraction (copied R) r.
  Proof.
    intros Hr. assert (t < length jobs)%nat as Ht by (rewrite <-Hfl; by eapply lookup_lt_Some).
    destruct (lookup_lt_is_Some_2 jobs t Ht) as [j Hj]. destruct (lookup_lt_is_Some_2 Rs t ltac:(lia)) as [R HRt]. exists j, R.
    destruct (HR t (sized_job n j) R) as [S1 S2]; [by rewrite list_lookup_fmap, Hj|done|]. split_and!; try done.
    apply (Hfs t); [by apply lookup_replicate_2|by rewrite list_lookup_fmap, HRt|done].
  Qed.
  Lemma level0_idw t j r : jobs !! t = Some j → fs !! t = Some r → (idw <$> h_verts (snd r)) ++ c_free (fst r) ≡ₚ idw <$> job_verts j.
  Proof.
    intros Hj Hr. destruct (level0_at t r Hr) as (j' & R & Hj' & HRt & HS & HC & Ha). assert (j' = j) as -> by congruence.
    rewrite (aa_contr _ _ _ _ _ Ha). cbn [c_free]. change (h_verts (copied R)) with (h_verts R).
    assert (idw <$> job_verts j = idw <$> h_verts R) as ->.
    { symmetry. apply Forall2_ids_weights. eapply Forall2_impl; [exact (sr_verts _ _ _ _ HS)|]. intros v v' (? & ? & _). done. }
    pose proof (aa_verts _ _ _ _ _ Ha) as Hv. change (h_verts (copied R)) with (h_verts R) in Hv. rewrite Hv at 2. rewrite fmap_app. unfold free_of. rewrite (comm (++)). done.
  Qed.
  Lemma level0_all : (idw <$> all_verts L) ++ all_free (fst <$> fs) ≡ₚ idw <$> concat (job_verts <$> jobs).
  Proof.
    pose proof level0_idw as Hat. clear -Hat Hfl. unfold all_verts, all_free. revert fs Hfl Hat. induction jobs as [|j l IH]; intros [|r fs'] Hfl Hat; try done.
    csimpl. rewrite !fmap_app, <-(Hat 0%nat j r eq_refl eq_refl), <-(IH fs'); [|by injection Hfl|intros t; apply (Hat (S t))]. solve_Permutation.
  Qed.
  Lemma jobs_sub : concat (job_verts <$> jobs) ⊆+ all_verts (fst <$> jobs).
  Proof.
    clear. unfold all_verts. rewrite <-list_fmap_compose. induction jobs as [|j l IH]; [done|]. csimpl. apply submseteq_app; [|done].
    change ((h_verts ∘ fst) j) with (h_verts (fst j)). rewrite (range_split (fst j) (fst (snd j)) (snd (snd j))). fold (job_verts j).
    apply submseteq_inserts_l, submseteq_inserts_r. done.
  Qed.
  Lemma level0_data id wt : (id, wt) ∈ (idw <$> all_verts L) ++ all_free (fst <$> fs) → id ≠ -1 ∧ 0 < wt.
  Proof.
    rewrite level0_all. intros (v & [= -> ->] & Hv)%elem_of_list_fmap. pose proof (elem_of_submseteq _ _ _ Hv jobs_sub) as Hin. split; [by apply Hids|by apply Hw].
  Qed.
  Lemma level0_nodup : NoDup ((v_id <$> all_verts L) ++ (fst <$> all_free (fst <$> fs))).
  Proof.
    change v_id with (fst ∘ idw). rewrite list_fmap_compose, <-fmap_app, level0_all, <-list_fmap_compose. by eapply job_nodup.
  Qed.
  Lemma level0_dist : distributed gn L.
  Proof.
    split.
    - intros H (r & -> & [t Hr]%elem_of_list_lookup)%elem_of_list_fmap. destruct (level0_at t r Hr) as (j & R & Hj & HRt & HS & HC & Ha). apply Ha.
    - intros H (r & -> & [t Hr]%elem_of_list_lookup)%elem_of_list_fmap. destruct (level0_at t r Hr) as (j & R & Hj & HRt & HS & HC & Ha).
      rewrite (aa_gnets _ _ _ _ _ Ha). simpl. rewrite (sr_gnets _ _ _ _ HS). simpl. apply (di_gnets _ _ HD). apply elem_of_list_fmap_1. by eapply elem_of_list_lookup_2.
    - pose proof level0_nodup as Hnd. by apply NoDup_app in Hnd as (? & _).
    - intros x (H & (r & -> & [t Hr]%elem_of_list_lookup)%elem_of_list_fmap & Hx)%all_nets_elem. destruct (level0_at t r Hr) as (j & R & Hj & HRt & HS & HC & Ha).
      rewrite (aa_nets _ _ _ _ _ Ha) in Hx. apply elem_of_list_fmap in Hx as (y & -> & Hy). simpl. rewrite (sr_nets _ _ _ _ HS) in Hy.
      apply elem_of_list_fmap in Hy as (z & -> & [_ Hz]%elem_of_list_filter). simpl. simpl in Hz. apply elem_of_list_fmap in Hz as (z0 & -> & Hz). simpl.
      apply (di_range _ _ HD). apply all_nets_elem. exists (fst j). split; [apply elem_of_list_fmap_1; by eapply elem_of_list_lookup_2|done].
    - assert (∀ x, x ∈ all_nets L → n_cost x = 1) as H1; [|intros x x' Hx Hx' _; by rewrite !H1].
      intros x (H & (r & -> & [t Hr]%elem_of_list_lookup)%elem_of_list_fmap & Hx)%all_nets_elem. destruct (level0_at t r Hr) as (j & R & Hj & HRt & HS & HC & Ha).
      rewrite (aa_nets _ _ _ _ _ Ha) in Hx. by apply elem_of_list_fmap in Hx as (y & -> & Hy).
  Qed.
  Lemma level0_gverts nid : 1 < gsize Xs nid → gverts L nid ≡ₚ gverts Xs nid.
  Proof.
    intros Hg. pose proof (sized_jobs_dist gn jobs HD n) as HDX. apply NoDup_Permutation; [eapply gverts_NoDup, level0_dist|by eapply gverts_NoDup|].
    intros u. rewrite (gverts_vert gn L) by apply level0_dist. rewrite (gverts_vert gn Xs) by done. split.
    - intros (v & (H & (r & -> & [t Hr]%elem_of_list_lookup)%elem_of_list_fmap & Hv)%all_verts_elem & <- & Hnid). destruct (level0_at t r Hr) as (j & R & Hj & HRt & HS & HC & Ha).
      assert (v ∈ h_verts R) as [i Hi]%elem_of_list_lookup.
      { pose proof (aa_verts _ _ _ _ _ Ha) as Hp. change (h_verts (copied R)) with (h_verts R) in Hp. rewrite Hp. set_solver. }
      destruct (Forall2_lookup_r _ _ _ _ _ (sr_verts _ _ _ _ HS) Hi) as (x & Hx & Hid & _ & _ & Hn). exists x. split_and!.
      + apply all_verts_elem. exists (sized_job n j). split; [apply elem_of_list_fmap_1; by eapply elem_of_list_lookup_2|by eapply elem_of_list_lookup_2].
      + done.
      + rewrite Hn in Hnid. by apply elem_of_list_filter in Hnid as [_ ?].
    - intros (x & (H & (j & -> & [t Hj]%elem_of_list_lookup)%elem_of_list_fmap & [i Hx]%elem_of_list_lookup)%all_verts_elem & <- & Hnid).
      destruct (lookup_lt_is_Some_2 fs t) as [r Hr]; [rewrite Hfl; by eapply lookup_lt_Some|].
      destruct (level0_at t r Hr) as (j' & R & Hj' & HRt & HS & HC & Ha). assert (j' = j) as -> by congruence.
      destruct (Forall2_lookup_l _ _ _ _ _ (sr_verts _ _ _ _ HS) Hx) as (v & Hv & Hid & _ & _ & Hn).
      assert (nid ∈ v_nets v) as Hnv by (rewrite Hn; by apply elem_of_list_filter). exists v. split_and!; [|done|done].
      apply all_verts_elem. exists (snd r). split; [apply elem_of_list_fmap_1; by eapply elem_of_list_lookup_2|].
      apply elem_of_list_lookup_2 in Hv. pose proof (aa_verts _ _ _ _ _ Ha) as Hp. change (h_verts (copied R)) with (h_verts R) in Hp. rewrite Hp in Hv.
      apply elem_of_app in Hv as [[Hf _]%elem_of_list_filter|?]; [|done]. unfold is_free in Hf. rewrite Hf in Hnv. by apply elem_of_nil in Hnv.
  Qed.
  Lemma level0_plev : plev gn L.
  Proof.
    split.
    - apply level0_dist.
    - intros He. apply (f_equal length) in He. rewrite fmap_length, Hfl in He. by destruct jobs.
    - done.
    - intros v Hv. apply (level0_data (v_id v) (v_weight v)). apply elem_of_app. left. by apply (elem_of_list_fmap_1 idw).
    - intros v Hv. apply (level0_data (v_id v) (v_weight v)). apply elem_of_app. left. by apply (elem_of_list_fmap_1 idw).
    - intros x (H & (r & -> & [t Hr]%elem_of_list_lookup)%elem_of_list_fmap & Hx)%all_nets_elem. destruct (level0_at t r Hr) as (j & R & Hj & HRt & HS & HC & Ha).
      rewrite (aa_nets _ _ _ _ _ Ha) in Hx. apply elem_of_list_lookup in Hx as [i Hi].
      destruct (Forall2_lookup_r _ _ _ _ _ (copied_nets R HC) Hi) as (y & Hy%elem_of_list_lookup_2 & Hid & Hp & Hgs & Hc).
      rewrite (sr_nets _ _ _ _ HS) in Hy. apply elem_of_list_fmap in Hy as (z & -> & [[Hz1 Hz2] Hz]%elem_of_list_filter). cbn [n_id n_verts n_gsize] in *.
      rewrite <-Hid. assert (gsize L (n_id z) = gsize Xs (n_id z)) as Heq by (unfold gsize; by rewrite level0_gverts). split_and!; [|lia|congruence|done].
      intros He. rewrite He in Hp. by apply Permutation_nil_r in Hp.
    - assert (gweight L + zsum (snd <$> all_free (fst <$> fs)) = zsum (v_weight <$> concat (job_verts <$> jobs))) as Heq.
      { unfold gweight. change v_weight with (snd ∘ idw). by rewrite !list_fmap_compose, <-zsum_app, <-fmap_app, level0_all. }
      assert (0 ≤ zsum (snd <$> all_free (fst <$> fs))).
      { apply zsum_nonneg. intros y ([id wt] & -> & Hf)%elem_of_list_fmap. simpl. destruct (level0_data id wt); [set_solver|lia]. }
      destruct (submseteq_Permutation _ _ jobs_sub) as [k Hk]. unfold gweight in Htot. rewrite Hk, fmap_app, zsum_app in Htot.
      assert (0 ≤ zsum (v_weight <$> k)); [|lia]. apply zsum_nonneg. intros y (v & -> & Hv)%elem_of_list_fmap.
      assert (0 < v_weight v); [|lia]. apply Hw. rewrite Hk. set_solver.
    - pose proof level0_all as Hp. apply Permutation_length in Hp. rewrite app_length, !fmap_length in Hp. pose proof (submseteq_length _ _ jobs_sub). lia.
    - intros H (r & -> & [t Hr]%elem_of_list_lookup)%elem_of_list_fmap. destruct (level0_at t r Hr) as (j & R & Hj & HRt & HS & HC & Ha). apply (aa_gsize _ _ _ _ _ Ha).
  Qed.
  Lemma level0_weight : gweight L + zsum (snd <$> all_free (fst <$> fs)) ≤ gweight (fst <$> jobs).
  Proof.
    assert (gweight L + zsum (snd <$> all_free (fst <$> fs)) = zsum (v_weight <$> concat (job_verts <$> jobs))) as ->.
    { unfold gweight. change v_weight with (snd ∘ idw). by rewrite !list_fmap_compose, <-zsum_app, <-fmap_app, level0_all. }
    destruct (submseteq_Permutation _ _ jobs_sub) as [k Hk]. unfold gweight. rewrite Hk, fmap_app, zsum_app.
    assert (0 ≤ zsum (v_weight <$> k)); [|lia]. apply zsum_nonneg. intros y (v & -> & Hv)%elem_of_list_fmap.
    assert (0 < v_weight v); [|lia]. apply Hw. rewrite Hk. set_solver.
  Qed.
End level0.

(** the result of a processor: its range is labelled, the weights are those of its own two sides *)

Lemma wpe_bisect_multilevel_par bp E gn jobs opts mx low high (Q : list (hg * (Z * Z)) → Prop) :
  lawful_family bp → distributed gn (fst <$> jobs) → 0 ≤ gn < 2147483648 → jobs ≠ [] → (∀ j, j ∈ jobs → job_ok j) →
  (∀ v, v ∈ all_verts (fst <$> jobs) → v_id v ≠ -1) → (∀ v, v ∈ all_verts (fst <$> jobs) → 0 < v_weight v) →
  gweight (fst <$> jobs) < long_max → Z.of_nat (length (all_verts (fst <$> jobs))) ≤ 2 ^ 53 →
  0 ≤ fst mx → 0 ≤ snd mx → 0 < o_sample_size opts →
  E Abort ∨ o_sampling opts ≠ SampRandom → E UB ∨ within (gweight (fst <$> jobs), gweight (fst <$> jobs)) mx →
  (∀ rs, Forall2 (job_done low high) jobs rs → Q rs) →
  wpe E (bisect_multilevel_par bp jobs opts mx (low, high)) Q.
Proof.
  intros Hbp HD Hgn Hne Hok Hids Hw Htot Hnum Hm0 Hm1 HS Habort Hcalm HQ. unfold bisect_multilevel_par. set (p := length jobs).
  apply wpe_bind. eapply (wpe_create_new bp Hbp gn jobs HD ltac:(lia) Hne Hok). intros Rs n Xs Hn HRl HR.
  apply wpe_bind. apply (wpe_mapP_eq _ _ copied).
  { intros t R Ht. destruct (lookup_lt_is_Some_2 jobs t) as [j Hj]; [rewrite <-HRl; by eapply lookup_lt_Some|]. apply wpe_copy_hg; [|done].
    by destruct (HR t (sized_job n j) R) as [_ ?]; [unfold Xs; by rewrite list_lookup_fmap, Hj|..]. }
  apply wpe_bind. apply wpe_merge_free_par.
  { rewrite replicate_length, fmap_length. unfold p. lia. }
  { intros C HC. by apply elem_of_replicate_inv in HC as ->. }
  { intros K (R & -> & [t Ht]%elem_of_list_lookup)%elem_of_list_fmap. destruct (lookup_lt_is_Some_2 jobs t) as [j Hj]; [rewrite <-HRl; by eapply lookup_lt_Some|].
    apply copied_consistent. by destruct (HR t (sized_job n j) R) as [_ ?]; [unfold Xs; by rewrite list_lookup_fmap, Hj|..]. }
  intros fs Hfl Hfs. rewrite fmap_length, HRl in Hfl.
  pose proof (level0_plev gn jobs HD Hgn Hne Hids Hw Htot Hnum n Rs fs HRl HR Hfl Hfs) as HP.
  assert (gweight (snd <$> fs) + zsum (snd <$> all_free (fst <$> fs)) ≤ gweight (fst <$> jobs)) as Hgw by (by eapply level0_weight).
  pose proof (level0_data jobs Hids Hw n Rs fs HRl HR Hfl Hfs) as Hdata.
  assert (∀ f, f ∈ all_free (fst <$> fs) → 0 < snd f) as Hfp.
  { intros [id wt] Hf. destruct (Hdata id wt); [set_solver|done]. }
  assert (0 ≤ zsum (snd <$> all_free (fst <$> fs))) as Hf0.
  { apply zsum_nonneg. intros y (f & -> & Hf)%elem_of_list_fmap. specialize (Hfp f Hf). lia. }
  apply wpe_bind. eapply (wpe_par_rounds bp Hbp E gn opts mx Hm0 Hm1 HS Habort); [exact HP| |].
  { destruct Hcalm as [?|[W1 W2]]; [by left|right]. cbn [fst snd] in *. split; cbn [fst snd]; lia. }
  intros Ls c HSh Hbis _. cbn [fst snd].
  assert (length Ls = p) as HLl by (rewrite <-(Forall2_length _ _ _ HSh), fmap_length; done).
  assert (∀ t r K, fs !! t = Some r → Ls !! t = Some K → same_shape (snd r) K) as Hsh.
  { intros t r K Hr HK. eapply Forall2_lookup_lr; [exact HSh| |exact HK]. by rewrite list_lookup_fmap, Hr. }
  assert (∀ t r K, fs !! t = Some r → Ls !! t = Some K → idw <$> h_verts K = idw <$> h_verts (snd r)) as Hidw.
  { intros t r K Hr HK. apply Forall2_ids_weights. eapply Forall2_impl; [apply (ss_verts _ _ (Hsh t r K Hr HK))|]. intros v v' (? & ? & ?). done. }
  apply wpe_bind. apply (wpe_assign_free_par E (fst <$> fs) Ls mx).
  { intros ->. unfold p in HLl. by destruct jobs. }
  { rewrite fmap_length. unfold p in HLl. lia. }
  { apply (di_local gn). eapply same_shapes_distributed; [exact HSh|apply HP]. }
  { done. }
  { intros t C K HC HK. apply list_lookup_fmap_Some in HC as (r & Hr & ->). unfold vids.
    destruct (lookup_lt_is_Some_2 jobs t) as [j Hj]; [rewrite <-Hfl; by eapply lookup_lt_Some|].
    pose proof (level0_idw jobs n Rs fs HRl HR Hfl Hfs t j r Hj Hr) as Hp. rewrite <-(Hidw t r K Hr HK) in Hp.
    change v_id with (fst ∘ idw). rewrite list_fmap_compose, <-fmap_app, Hp, <-list_fmap_compose. apply range_nodup.
    apply (co_vid (fst j)), (di_local _ _ HD). apply elem_of_list_fmap_1. by eapply elem_of_list_lookup_2. }
  { done. }
  { intros C (r & -> & [t Hr]%elem_of_list_lookup)%elem_of_list_fmap. destruct (level0_at jobs n Rs fs HRl HR Hfl Hfs t r Hr) as (j & R & _ & _ & _ & _ & Ha).
    by rewrite (aa_contr _ _ _ _ _ Ha). }
  { intros C (r & -> & [t Hr]%elem_of_list_lookup)%elem_of_list_fmap. destruct (level0_at jobs n Rs fs HRl HR Hfl Hfs t r Hr) as (j & R & _ & _ & _ & _ & Ha).
    rewrite (aa_contr _ _ _ _ _ Ha). cbn [c_global_free]. f_equal. f_equal. unfold frees, all_free. f_equal. rewrite <-!list_fmap_compose.
    apply list_eq_same_length with p; [rewrite fmap_length; done|rewrite fmap_length; done|]. intros i x y Hi. rewrite !list_lookup_fmap.
    destruct (Rs !! i) as [R'|] eqn:HRi; [|done]. intros [= <-]. destruct (fs !! i) as [r'|] eqn:Hri; [|done]. intros [= <-].
    destruct (level0_at jobs n Rs fs HRl HR Hfl Hfs i r' Hri) as (j' & R'' & _ & HR'' & _ & _ & Ha'). assert (R'' = R') as -> by congruence.
    simpl. by rewrite (aa_contr _ _ _ _ _ Ha'). }
  { done. }
  { done. }
  { destruct Hcalm as [?|[W1 W2]]; [by left|right]. cbn [fst snd] in *. intros Hf. assert (0 ≤ gweight (snd <$> fs)); [|lia].
    apply zsum_nonneg. intros y (v & -> & Hv)%elem_of_list_fmap. pose proof (pl_weight _ _ HP v Hv). lia. }
  intros Ks [HKl HB] ws _. cbn [fst snd].
  apply (wpe_ranks _ _ _ (λ t r, ∃ j, jobs !! t = Some j ∧ job_done low high j r)).
  { intros t Ht. destruct (lookup_lt_is_Some_2 jobs t Ht) as [j Hj]. destruct (lookup_lt_is_Some_2 Ks t ltac:(lia)) as [K HK].
    destruct (lookup_lt_is_Some_2 Ls t ltac:(lia)) as [K0 HK0]. destruct (lookup_lt_is_Some_2 fs t ltac:(unfold p in *; lia)) as [r Hr].
    apply wpe_bind. eapply wpe_nidx; [exact Hj|]. apply wpe_bind. eapply wpe_nidx; [exact HK|].
    destruct (HB t (fst r) K0 K) as (vs & V1 & V2 & V3); [by rewrite list_lookup_fmap, Hr|done|done|].
    assert (j ∈ jobs) as Hjin by (by eapply elem_of_list_lookup_2). destruct (Hok j Hjin) as [J1 J2].
    apply (wpe_label_range E (fst j) K (fst (snd j)) (snd (snd j)) low high).
    - apply (di_local _ _ HD). by apply elem_of_list_fmap_1.
    - apply V3.
    - intros v. rewrite (rv_verts _ _ _ V3). intros [Hv|Hv]%elem_of_app; [|by apply V2]. apply Hbis, all_verts_elem. exists K0. split; [by eapply elem_of_list_lookup_2|done].
    - rewrite (rv_verts _ _ _ V3), fmap_app, V1, (Hidw t r K0 Hr HK0). apply (level0_idw jobs n Rs fs HRl HR Hfl Hfs t j r Hj Hr).
    - done.
    - done.
    - intros side H' HL HC' _. exists j. split; [done|]. exists side. done. }
  intros rs Hrl Hr. apply HQ. apply Forall2_same_length_lookup. split; [done|]. intros t j r Hj Hrt. destruct (Hr t r Hrt) as (j' & Hj' & Hd).
  assert (j' = j) as -> by congruence. done.
Qed.
