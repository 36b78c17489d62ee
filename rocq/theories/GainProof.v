(** The gain structure: gains are exact with respect to the counts, buckets hold exactly the
    unlocked vertices of their part. *)
From Verif Require Export BucketProof.

Definition sel {A} (c : A * A) (p : Z) : A := if decide (p = 0) then fst c else snd c.

Lemma wpe_psel {A} E (c : A * A) p (Q : A → Prop) : p = 0 ∨ p = 1 → Q (sel c p) → wpe E (psel c p) Q.
Proof. intros [-> | ->] HQ; by apply wpe_ret. Qed.
Definition upd2 {A} (c : A * A) (p : Z) (x : A) : A * A := if decide (p = 0) then (x, snd c) else (fst c, x).
Lemma wpe_pset {A} E (c : A * A) p x (Q : A * A → Prop) : p = 0 ∨ p = 1 → Q (upd2 c p x) → wpe E (pset c p x) Q.
Proof. intros [-> | ->] HQ; by apply wpe_ret. Qed.
Lemma sel_upd2 {A} (c : A * A) p q (x : A) : p = 0 ∨ p = 1 → q = 0 ∨ q = 1 →
  sel (upd2 c p x) q = if decide (q = p) then x else sel c q.
Proof. by intros [-> | ->] [-> | ->]. Qed.

(** ** Gains as sums over nets *)
Definition net_of (H : hg) (nid : Z) : option net := h_nmap H !! nid ≫= λ i, h_nets H !! i.
Definition cost_of (H : hg) (nid : Z) : Z := default 0 (n_cost <$> net_of H nid).
Definition cnt_of (H : hg) (C : list (Z * Z)) (nid : Z) : Z * Z :=
  default (0, 0) (h_nmap H !! nid ≫= λ i, C !! i).
Definition contr (c : Z * Z) (cost p : Z) : Z :=
  (if decide (sel c p = 1) then cost else 0) - (if decide (sel c (1 - p) = 0) then cost else 0).
Definition gsum (K : Z → Z → Z) (v : vertex) : Z := zsum ((λ nid, K nid (v_part v)) <$> v_nets v).
Definition contr_of (H : hg) (C : list (Z * Z)) (nid p : Z) : Z := contr (cnt_of H C nid) (cost_of H nid) p.
Definition gain_fun (H : hg) (C : list (Z * Z)) (v : vertex) : Z := gsum (contr_of H C) v.

Lemma contr_bound c cost p : 0 ≤ cost → - cost ≤ contr c cost p ≤ cost.
Proof. intros ?. unfold contr. dz. Qed.

Lemma gsum_ext K K' v : (∀ nid, nid ∈ v_nets v → K nid (v_part v) = K' nid (v_part v)) → gsum K v = gsum K' v.
Proof. intros HK. by apply zsum_fmap_ext. Qed.

Lemma gsum_change K K' v nid : NoDup (v_nets v) →
  (∀ m, m ≠ nid → K' m (v_part v) = K m (v_part v)) →
  gsum K' v = gsum K v + (if decide (nid ∈ v_nets v) then K' nid (v_part v) - K nid (v_part v) else 0).
Proof.
  intros Hnd HK. gdec as Hin.
  - unfold gsum. apply elem_of_list_split in Hin as (l1 & l2 & Heq). rewrite Heq in Hnd |- *.
    apply NoDup_app in Hnd as (_ & Hnd1 & Hnd2). apply NoDup_cons in Hnd2 as [Hnd2 _].
    rewrite !fmap_app, !zsum_app. csimpl. rewrite !zsum_cons.
    rewrite (zsum_fmap_ext (λ m, K' m (v_part v)) (λ m, K m (v_part v)) l1).
    2:{ intros m Hm. apply HK. intros ->. apply (Hnd1 _ Hm). set_solver. }
    rewrite (zsum_fmap_ext (λ m, K' m (v_part v)) (λ m, K m (v_part v)) l2).
    2:{ intros m Hm. apply HK. by intros ->. }
    lia.
  - rewrite (gsum_ext K' K); [lia|]. intros m Hm. apply HK. by intros ->.
Qed.

(** sum of the costs of the nets of a vertex *)
Definition cost_sum (H : hg) (v : vertex) : Z := zsum (cost_of H <$> v_nets v).

Lemma gsum_rest_bound K H v nid : (∀ m p, - cost_of H m ≤ K m p ≤ cost_of H m) → (∀ m, 0 ≤ cost_of H m) →
  nid ∈ v_nets v → - (cost_sum H v - cost_of H nid) ≤ gsum K v - K nid (v_part v) ≤ cost_sum H v - cost_of H nid.
Proof.
  intros HK Hc Hin. unfold gsum, cost_sum. apply elem_of_list_split in Hin as (l1 & l2 & ->).
  rewrite !fmap_app, !zsum_app. csimpl. rewrite !zsum_cons.
  pose proof (zsum_fmap_le (λ m, K m (v_part v)) (cost_of H) l1 ltac:(naive_solver)).
  pose proof (zsum_fmap_le (λ m, K m (v_part v)) (cost_of H) l2 ltac:(naive_solver)).
  pose proof (zsum_fmap_le (λ m, -1 * cost_of H m) (λ m, K m (v_part v)) l1) as Hq1.
  pose proof (zsum_fmap_le (λ m, -1 * cost_of H m) (λ m, K m (v_part v)) l2) as Hq2.
  rewrite zsum_fmap_mul in Hq1, Hq2.
  specialize (Hq1 ltac:(intros m _; specialize (HK m (v_part v)); lia)).
  specialize (Hq2 ltac:(intros m _; specialize (HK m (v_part v)); lia)). lia.
Qed.

Lemma gsum_bound K H v : (∀ m p, - cost_of H m ≤ K m p ≤ cost_of H m) →
  - cost_sum H v ≤ gsum K v ≤ cost_sum H v.
Proof.
  intros HK. unfold gsum, cost_sum.
  pose proof (zsum_fmap_le (λ m, K m (v_part v)) (cost_of H) (v_nets v) ltac:(naive_solver)).
  pose proof (zsum_fmap_le (λ m, -1 * cost_of H m) (λ m, K m (v_part v)) (v_nets v)) as Hq1.
  rewrite zsum_fmap_mul in Hq1.
  specialize (Hq1 ltac:(intros m _; specialize (HK m (v_part v)); lia)). lia.
Qed.

(** ** The invariant of the structure *)
Record gs_inv (S : Z) (L : gset Z) (F : vertex → Z) (G : gstruct) : Prop := {
  gi_cons : consistent (g_H G);
  gi_bis : bisected (g_H G);
  gi_len : length (g_gains G) = length (h_verts (g_H G));
  gi_gains : ∀ i v, h_verts (g_H G) !! i = Some v →
    g_gains G !! i = Some (if decide (v_id v ∈ L) then long_min else F v);
  gi_b : ∀ p, p = 0 ∨ p = 1 → gb_ok S (sel (g_b G) p)
    (λ id g, ∃ v, v ∈ h_verts (g_H G) ∧ v_id v = id ∧ v_part v = p ∧ id ∉ L ∧ g = F v);
  gi_S : 0 ≤ S < - long_min;
}.

Lemma gs_inv_ext S L F F' G :
  gs_inv S L F G → (∀ v, v ∈ h_verts (g_H G) → v_id v ∉ L → F v = F' v) → gs_inv S L F' G.
Proof.
  intros [? ? ? Hg Hb ?] HF. split; try done.
  - intros i v Hi. rewrite (Hg i v Hi). f_equal. gdec; [done|]. apply HF; [|done]. by eapply elem_of_list_lookup_2.
  - intros p Hp. eapply gb_ok_ext; [|by apply Hb]. intros id g. split.
    + intros (v & ? & ? & ? & ? & ->). subst. eexists. split_and!; [done..|]. by apply HF.
    + intros (v & ? & ? & ? & ? & ->). subst. eexists. split_and!; [done..|]. symmetry. by apply HF.
Qed.

Lemma gs_inv_range S L F G v : gs_inv S L F G → v ∈ h_verts (g_H G) → v_id v ∉ L → -S ≤ F v ≤ S.
Proof.
  intros HI Hv HL. destruct (gi_bis _ _ _ _ HI v Hv) as [Hp|Hp].
  - eapply (gr_range _ _ _ (gk_rep _ _ _ (gi_b _ _ _ _ HI 0 (or_introl eq_refl))) (v_id v)). by exists v.
  - eapply (gr_range _ _ _ (gk_rep _ _ _ (gi_b _ _ _ _ HI 1 (or_intror eq_refl))) (v_id v)). by exists v.
Qed.

Lemma wpe_vert_at E H i v (Q : vertex → Prop) : h_verts H !! i = Some v → Q v → wpe E (vert_at H i) Q.
Proof. intros Hi HQ. unfold vert_at. rewrite Hi. by apply wpe_ret. Qed.

Lemma wpe_add_gain E S L F G u d (Q : gstruct → Prop) :
  gs_inv S L F G → u ∈ h_verts (g_H G) → (v_id u ∉ L → -S ≤ F u + d ≤ S) →
  (∀ G', gs_inv S L (λ x, if decide (v_id x = v_id u) then F x + d else F x) G' →
     g_H G' = g_H G → g_C G' = g_C G → Q G') →
  wpe E (add_gain G (v_id u) d) Q.
Proof.
  intros HI Hu Hrange HQ. pose proof Hu as [i Hi]%elem_of_list_lookup. pose proof HI as [HC HB Hlen Hg Hb HS].
  apply wpe_bind. eapply wpe_local_id; [by apply co_vmap_ok|done|].
  apply wpe_bind. eapply wpe_nidx; [by apply Hg|].
  assert (∀ x, x ∈ h_verts (g_H G) → v_id x = v_id u → x = u) as Huniq.
  { intros x Hx Hid. eapply vmap_ok_elem_eq; [by apply co_vmap_ok|done..]. }
  destruct (decide (v_id u ∈ L)) as [HL|HL].
  { rewrite decide_True by done. apply wpe_ret, HQ; [|done..]. eapply gs_inv_ext; [done|].
    intros x Hx HxL. rewrite decide_False; [done|]. congruence. }
  specialize (Hrange HL). pose proof (gs_inv_range _ _ _ _ _ HI Hu HL) as Hold.
  rewrite decide_False by lia.
  apply wpe_bind. eapply wpe_vert_at; [done|].
  pose proof (HB u Hu) as Hp. apply wpe_bind, wpe_psel; [done|].
  apply wpe_bind. eapply wpe_gb_remove; [by apply Hb|done|]. intros f b1 HK1 _.
  apply wpe_bind. eapply wpe_gb_insert; [exact HK1|done|]. intros b2 HK2.
  apply wpe_bind, wpe_pset; [done|]. apply wpe_ret, HQ; [|done..].
  split; simpl; try done.
  - by rewrite insert_length.
  - intros j x Hj. destruct (decide (j = i)) as [->|Hne].
    + rewrite list_lookup_insert by (rewrite Hlen; by eapply lookup_lt_Some).
      assert (x = u) as -> by congruence. rewrite (decide_False (P := v_id u ∈ L)) by done.
      by rewrite decide_True.
    + rewrite list_lookup_insert_ne by done. rewrite (Hg j x Hj).
      rewrite (decide_False (P := v_id x = v_id u)); [done|]. intros Hid. apply Hne.
      eapply NoDup_fmap_inj; [apply (co_vid _ HC)|done..].
  - intros p Hp'. rewrite sel_upd2 by done. gdec as Hpp.
    + eapply gb_ok_ext; [|exact HK2]. subst p. intros id g. unfold T_add, T_del. split.
      * intros [[(x & Hx & <- & Hxp & HxL & ->) Hne]|[-> ->]].
        -- exists x. split_and!; try done. rewrite decide_False; [done|]. intros Hid. apply Hne. split; [done|].
           by rewrite (Huniq x).
        -- exists u. split_and!; try done. by rewrite decide_True.
      * intros (x & Hx & <- & Hxp & HxL & ->). gdec as Hid.
        -- right. by rewrite (Huniq x).
        -- left. split; [by exists x|]. intros [? _]. done.
    + eapply gb_ok_ext; [|by apply Hb]. intros id g. split; intros (x & Hx & <- & Hxp & HxL & ->); exists x;
        (split_and!; try done); rewrite decide_False; try done; intros Hid; apply Hpp; rewrite <-Hxp; by rewrite (Huniq x).
Qed.

Lemma wpe_add_all E S L F G us d (Q : gstruct → Prop) :
  gs_inv S L F G → NoDup us → (∀ u, u ∈ us → u ∈ vids (g_H G)) →
  (∀ x, x ∈ h_verts (g_H G) → v_id x ∈ us → v_id x ∉ L → -S ≤ F x + d ≤ S) →
  (∀ G', gs_inv S L (λ x, if decide (v_id x ∈ us) then F x + d else F x) G' →
     g_H G' = g_H G → g_C G' = g_C G → Q G') →
  wpe E (foldM (λ G u, add_gain G u d) us G) Q.
Proof.
  intros HI Hnd Hin Hr HQ.
  eapply (wpe_foldM E _ (λ ds G', gs_inv S L (λ x, if decide (v_id x ∈ ds) then F x + d else F x) G' ∧
     g_H G' = g_H G ∧ g_C G' = g_C G)).
  - split; [|done]. eapply gs_inv_ext; [done|]. intros x _ _. by rewrite decide_False by set_solver.
  - intros ds u ts G' -> (HI' & HH & HCC). destruct (proj1 (vids_elem (g_H G) u)) as (x & Hx & <-); [apply Hin; set_solver|].
    assert (v_id x ∉ ds) as Hnds.
    { apply NoDup_app in Hnd as (_ & Hnd & _). intros Hd. apply (Hnd _ Hd). set_solver. }
    eapply (wpe_add_gain _ _ _ _ _ x); [done|by rewrite HH|..].
    + intros HL. simpl. rewrite decide_False by done. apply Hr; [done|set_solver|done].
    + intros G'' HI'' HH' HC'. split; [|by rewrite HH', HC'].
      eapply gs_inv_ext; [done|]. intros y Hy _. simpl.
      destruct (decide (v_id y = v_id x)) as [Hyx|Hyx].
      * rewrite decide_False by (by rewrite Hyx). by rewrite decide_True by set_solver.
      * destruct (decide (v_id y ∈ ds)); [by rewrite decide_True by set_solver|by rewrite decide_False by set_solver].
  - intros G' (HI' & HH & HCC). by apply HQ.
Qed.

(** ** counting facts *)
Lemma zcount_two {A} (P : A → Prop) {HP : ∀ x, Decision (P x)} (l : list A) a b :
  NoDup l → a ∈ l → b ∈ l → a ≠ b → P a → P b → 2 ≤ zcount P l.
Proof.
  intros Hnd Ha Hb Hne HPa HPb. unfold zcount.
  assert ([a; b] ⊆+ filter P l) as Hsub.
  { apply NoDup_submseteq; [repeat constructor; set_solver|]. intros x Hx. apply elem_of_list_filter. set_solver. }
  apply submseteq_length in Hsub. simpl in Hsub. lia.
Qed.
Lemma zcount_one {A} (P : A → Prop) {HP : ∀ x, Decision (P x)} (l : list A) a : a ∈ l → P a → 1 ≤ zcount P l.
Proof.
  intros Ha HPa. unfold zcount. assert (a ∈ filter P l) as Hin by (by apply elem_of_list_filter).
  destruct (filter P l); [set_solver|simpl; lia].
Qed.
Lemma zcount_three {A} (P : A → Prop) {HP : ∀ x, Decision (P x)} (l : list A) a b c :
  NoDup l → a ∈ l → b ∈ l → c ∈ l → a ≠ b → a ≠ c → b ≠ c → P a → P b → P c → 3 ≤ zcount P l.
Proof.
  intros Hnd Ha Hb Hc ? ? ? HPa HPb HPc. unfold zcount.
  assert ([a; b; c] ⊆+ filter P l) as Hsub.
  { apply NoDup_submseteq; [repeat constructor; set_solver|]. intros x Hx. apply elem_of_list_filter. set_solver. }
  apply submseteq_length in Hsub. simpl in Hsub. lia.
Qed.

(** the vertex at the end of a part-sorted list *)
Lemma boundary_from E H n p (Q : Z → Prop) :
  consistent H → bisected H → nets_sorted H → n ∈ h_nets H → p = 0 ∨ p = 1 → count_in H n p = 1 →
  (∀ u, u ∈ n_verts n → part_of H u = p → Q u) → wpe E (boundary n p) Q.
Proof.
  intros HC HB HS Hn Hp Hc HQ. pose proof (HS n Hn) as Hso. pose proof Hso as [Hr Hs].
  pose proof (count_in_total H n HC HB Hn) as Htot. unfold boundary. gdec as Hp1.
  - subst p. destruct (zlookup_is_Some (n_verts n) (Z.of_nat (length (n_verts n)) - 1)) as [u Hu]; [lia|].
    eapply wpe_idx; [done|]. apply HQ; [apply zlookup_Some in Hu as [_ ?]; by eapply elem_of_list_lookup_2|].
    rewrite (Hs _ _ Hu), decide_False; lia.
  - destruct Hp as [-> |]; [|done]. destruct (zlookup_is_Some (n_verts n) 0) as [u Hu]; [lia|].
    eapply wpe_idx; [done|]. apply HQ; [apply zlookup_Some in Hu as [_ ?]; by eapply elem_of_list_lookup_2|].
    rewrite (Hs _ _ Hu), decide_True; lia.
Qed.
Lemma boundary_to E H n p v (Q : Z → Prop) :
  consistent H → bisected H → nets_sorted H → n ∈ h_nets H → p = 0 ∨ p = 1 → count_in H n p = 2 →
  zlookup (n_verts n) (if decide (p = 0) then count_in H n 0 - 1 else count_in H n 0) = Some v →
  (∀ u, u ∈ n_verts n → part_of H u = p → u ≠ v → Q u) → wpe E (boundary n p) Q.
Proof.
  intros HC HB HS Hn Hp Hc Hv HQ. pose proof (HS n Hn) as Hso. pose proof Hso as [Hr Hs].
  pose proof (count_in_total H n HC HB Hn) as Htot. unfold boundary.
  pose proof (co_nverts _ HC _ Hn) as Hnd.
  assert (∀ i j u, zlookup (n_verts n) i = Some u → zlookup (n_verts n) j = Some u → i = j) as Hinj.
  { intros i j u [? Hi]%zlookup_Some [? Hj]%zlookup_Some. pose proof (NoDup_lookup _ _ _ _ Hnd Hi Hj). lia. }
  destruct Hp as [-> | ->].
  - rewrite decide_True in Hv by done. rewrite decide_False by done.
    destruct (zlookup_is_Some (n_verts n) 0) as [u Hu]; [lia|].
    eapply wpe_idx; [done|]. apply HQ.
    + apply zlookup_Some in Hu as [_ ?]; by eapply elem_of_list_lookup_2.
    + rewrite (Hs _ _ Hu), decide_True; lia.
    + intros ->. pose proof (Hinj _ _ _ Hu Hv). lia.
  - rewrite decide_False in Hv by done. rewrite decide_True by done.
    destruct (zlookup_is_Some (n_verts n) (Z.of_nat (length (n_verts n)) - 1)) as [u Hu]; [lia|].
    eapply wpe_idx; [done|]. apply HQ.
    + apply zlookup_Some in Hu as [_ ?]; by eapply elem_of_list_lookup_2.
    + rewrite (Hs _ _ Hu), decide_False; lia.
    + intros ->. pose proof (Hinj _ _ _ Hu Hv). lia.
Qed.

(** costs: non-negative and bounded by [S] per vertex *)
Definition costs_ok (S : Z) (H : hg) : Prop :=
  (∀ n, n ∈ h_nets H → 0 ≤ n_cost n) ∧ ∀ v, v ∈ h_verts H → cost_sum H v ≤ S.
Lemma cost_of_nonneg H nid : (∀ n, n ∈ h_nets H → 0 ≤ n_cost n) → 0 ≤ cost_of H nid.
Proof.
  intros Hc. unfold cost_of, net_of. destruct (h_nmap H !! nid) as [i|]; [|done]. simpl.
  destruct (h_nets H !! i) as [n|] eqn:Hi; [|done]. simpl. apply Hc. by eapply elem_of_list_lookup_2.
Qed.
Lemma net_of_id H i n : nmap_ok H → h_nets H !! i = Some n → net_of H (n_id n) = Some n.
Proof. intros HN Hi. unfold net_of. rewrite (nmap_ok_lookup _ _ _ HN Hi). done. Qed.
Lemma cost_of_id H i n : nmap_ok H → h_nets H !! i = Some n → cost_of H (n_id n) = n_cost n.
Proof. intros HN Hi. unfold cost_of. by rewrite (net_of_id _ _ _ HN Hi). Qed.
Lemma cnt_of_id H C i n c : nmap_ok H → h_nets H !! i = Some n → C !! i = Some c → cnt_of H C (n_id n) = c.
Proof. intros HN Hi Hc. unfold cnt_of. rewrite (nmap_ok_lookup _ _ _ HN Hi). simpl. by rewrite Hc. Qed.
Lemma cnt_of_insert_ne H C i n c m : nmap_ok H → h_nets H !! i = Some n → m ≠ n_id n →
  cnt_of H (<[i := c]> C) m = cnt_of H C m.
Proof.
  intros HN Hi Hne. unfold cnt_of. destruct (h_nmap H !! m) as [j|] eqn:Hj; [|done]. simpl.
  rewrite list_lookup_insert_ne; [done|]. intros ->. apply (nmap_ok_inv _ _ _ HN) in Hj as (n' & Hn' & Hid). congruence.
Qed.
Lemma contr_of_bound H C : (∀ n, n ∈ h_nets H → 0 ≤ n_cost n) → ∀ m p, - cost_of H m ≤ contr_of H C m p ≤ cost_of H m.
Proof. intros Hc m p. by apply contr_bound, cost_of_nonneg. Qed.

Lemma wpe_gain_step E S L G v to n i a xt xf (Q : gstruct → Prop) :
  let H := g_H G in let from := 1 - to in
  gs_inv S L (gain_fun H (g_C G)) G → nets_sorted H → costs_ok S H →
  h_nets H !! i = Some n → g_C G !! i = Some a → to = 0 ∨ to = 1 →
  v ∈ L → v ∈ n_verts n → part_of H v = to →
  zlookup (n_verts n) (if decide (to = 0) then count_in H n 0 - 1 else count_in H n 0) = Some v →
  count_in H n to - 1 ≤ sel a to → count_in H n from + 1 ≤ sel a from →
  (sel a to = 1 → xt = true ↔ count_in H n to = 2) →
  (sel a from = 2 → xf = true ↔ count_in H n from = 1) →
  (∀ G', g_H G' = H → g_C G' = <[i := bump from to a]> (g_C G) →
     gs_inv S L (gain_fun H (g_C G')) G' → Q G') →
  wpe E (gain_step G from to (n_id n) xt xf) Q.
Proof.
  intros H from HI HS [Hc0 HcS] Hi Ha Hto HvL Hvn Hpv Hpos Hdt Hdf Hxt Hxf HQ.
  pose proof HI as [HC HB _ _ _ _]. fold H in HC, HB. pose proof (co_nmap_ok _ HC) as HN.
  pose proof (elem_of_list_lookup_2 _ _ _ Hi) as Hn. pose proof (co_nverts _ HC _ Hn) as Hnd.
  assert (from = 0 ∨ from = 1) as Hfrom by (unfold from; lia).
  assert (from ≠ to) as Hft by (unfold from; lia).
  assert (1 - from = to) as Hft' by (unfold from; lia).
  set (c := n_cost n). assert (0 ≤ c) as Hc by by apply Hc0.
  assert (∀ u, u ∈ n_verts n → u ∈ vids H) as Hnv by (intros u; by apply net_in_vids).
  assert (cost_of H (n_id n) = c) as Hcost by (by eapply cost_of_id).
  assert (1 ≤ count_in H n to) as Hcto by (by apply (zcount_one _ _ v)).
  assert (0 ≤ count_in H n from) as Hcfrom by (unfold count_in, zcount; lia).
  (* the vertices of n *)
  set (K := contr_of H (g_C G)).
  assert (∀ x, x ∈ h_verts H → v_id x ∈ n_verts n → v_id x ∉ L →
     n_id n ∈ v_nets x ∧ v_id x ≠ v ∧ part_of H (v_id x) = v_part x ∧
     - (S - c) ≤ gsum K x - K (n_id n) (v_part x) ≤ S - c ∧
     (v_part x = from ∧ 1 ≤ count_in H n from ∨ v_part x = to ∧ 2 ≤ count_in H n to)) as Hx.
  { intros x Hx Hxn HxL. assert (n_id n ∈ v_nets x) as Hnx by (by apply (incidence_iff H x n)).
    assert (part_of H (v_id x) = v_part x) as Hpx by (apply part_of_elem; [apply (co_vid _ HC)|done]).
    assert (v_id x ≠ v) by (intros Heq; apply HxL; by rewrite Heq).
    split_and!; try done.
    - pose proof (gsum_rest_bound K H x (n_id n)) as Hr. rewrite Hcost in Hr. pose proof (HcS x Hx).
      specialize (Hr (contr_of_bound H _ Hc0) (λ m, cost_of_nonneg H m Hc0) Hnx). lia.
    - pose proof (gsum_rest_bound K H x (n_id n)) as Hr. rewrite Hcost in Hr. pose proof (HcS x Hx).
      specialize (Hr (contr_of_bound H _ Hc0) (λ m, cost_of_nonneg H m Hc0) Hnx). lia.
    - destruct (decide (v_part x = from)).
      + left. split; [done|]. apply (zcount_one _ _ (v_id x)); congruence.
      + right. assert (v_part x = to) as Hpt by (destruct (HB x Hx); unfold from in *; lia).
        split; [done|]. apply (zcount_two _ _ v (v_id x)); congruence. }
  assert (∀ p, K (n_id n) p = contr a c p) as HKn.
  { intros p. unfold K, contr_of. by rewrite (cnt_of_id _ _ _ _ _ HN Hi Ha), Hcost. }
  set (D (p : Z) := contr a c p).
  unfold gain_step. fold H.
  apply wpe_bind. eapply (wpe_cget _ _ _ _ i); [done|done|done|done|done|]. fold (sel a to).
  apply wpe_bind. eapply wpe_get_net; [done|done|]. fold c.
  (* stage 1 *)
  set (e1 (x : vertex) := if decide (v_id x ∈ n_verts n ∧ sel a to = 0) then c else 0).
  apply wpe_bind. eapply (wpe_mono E _ (λ G1, gs_inv S L (λ x, gain_fun H (g_C G) x + e1 x) G1 ∧ g_H G1 = H ∧ g_C G1 = g_C G)).
  { gdec as Hct.
    - eapply wpe_add_all; [exact HI|done|done|..].
      + intros x Hxv Hxn HxL. destruct (Hx x Hxv Hxn HxL) as (Hnx & Hxne & Hpx & Hr & Hcase).
        unfold gain_fun. fold K. rewrite HKn in Hr. unfold contr in Hr. destruct Hcase as [[Hp Hcnt]|[Hp Hcnt]].
        * rewrite Hp in Hr. rewrite Hft' in Hr. rewrite decide_False, decide_True in Hr by lia. lia.
        * lia.
      + intros G' HI' HH' HC'. split; [|done]. eapply gs_inv_ext; [exact HI'|]. intros x _ _. simpl. unfold e1.
        destruct (decide (v_id x ∈ n_verts n)); [rewrite decide_True by done|rewrite decide_False by naive_solver]; lia.
    - apply wpe_ret. split; [|done]. eapply gs_inv_ext; [exact HI|]. intros x _ _. simpl. unfold e1.
      rewrite decide_False by naive_solver. lia. }
  intros G1 (HI1 & HH1 & HC1).
  (* stage 2 *)
  set (e2 (x : vertex) := if decide (v_id x ∈ n_verts n ∧ v_part x = to ∧ sel a to = 1) then - c else 0).
  apply wpe_bind. eapply (wpe_mono E _ (λ G2, gs_inv S L (λ x, gain_fun H (g_C G) x + e1 x + e2 x) G2 ∧ g_H G2 = H ∧ g_C G2 = g_C G)).
  { destruct (decide (sel a to = 1 ∧ xt = true)) as [[Hct Hxt1]|Hno].
    - assert (count_in H n to = 2) as Hcnt by (by apply Hxt).
      apply wpe_bind. eapply (boundary_to _ H); [done..|]. intros u Hun Hup Huv.
      destruct (proj1 (vids_elem H u) (Hnv u Hun)) as (y & Hy & <-).
      assert (v_part y = to) as Hyp by (rewrite <-Hup; symmetry; apply part_of_elem; [apply (co_vid _ HC)|done]).
      apply wpe_bind. eapply wpe_vert_id; [by apply co_vmap_ok|by apply vids_elem; eauto|]. intros ? _ _ _.
      assert (∀ x, x ∈ h_verts H → v_id x ∉ L → (v_id x ∈ n_verts n ∧ v_part x = to) ↔ v_id x = v_id y) as Hyy.
      { intros x Hxv HxL. split.
        - intros [Hxn Hxp]. destruct (decide (v_id x = v_id y)) as [|Hne]; [done|]. exfalso.
          assert (part_of H (v_id x) = to) by (rewrite <-Hxp; apply part_of_elem; [apply (co_vid _ HC)|done]).
          pose proof (zcount_three (λ z, part_of H z = to) (n_verts n) v (v_id y) (v_id x) Hnd) as H3.
          assert (3 ≤ count_in H n to); [|lia]. apply H3; try done; try congruence.
        - intros Hid. assert (x = y) as -> by (by eapply (vmap_ok_elem_eq H); [by apply co_vmap_ok|..]). done. }
      eapply (wpe_add_gain _ _ _ _ _ y); [exact HI1|by rewrite HH1|..].
      + intros HyL. destruct (Hx y Hy Hun HyL) as (Hnx & Hxne & Hpx & Hr & Hcase).
        unfold gain_fun. fold K. rewrite HKn in Hr. unfold contr in Hr. rewrite Hyp in Hr. unfold e1.
        rewrite decide_False by lia. fold from in Hr. dz.
      + intros G' HI' HH' HC'. split; [|by rewrite HH', HC', HH1, HC1]. eapply gs_inv_ext; [exact HI'|].
        intros x Hxv HxL. simpl. rewrite HH', HH1 in Hxv. unfold e2. pose proof (Hyy x Hxv HxL) as Hiff.
        destruct (decide (v_id x = v_id y)); [rewrite decide_True by naive_solver|rewrite decide_False by naive_solver]; lia.
    - apply wpe_ret. split; [|done]. eapply gs_inv_ext; [exact HI1|]. intros x Hxv HxL. simpl. unfold e2.
      rewrite decide_False; [lia|]. intros (Hxn & Hxp & Hct). apply Hno. split; [done|]. apply Hxt; [done|].
      rewrite HH1 in Hxv. destruct (Hx x Hxv Hxn HxL) as (_ & _ & _ & _ & [[? _]|[_ ?]]); [congruence|lia]. }
  intros G2 (HI2 & HH2 & HC2). rewrite HC2.
  pose proof (lookup_lt_Some _ _ _ Ha) as Hilt.
  (* the counts *)
  apply wpe_bind. eapply (wpe_cadd _ _ _ _ i); [done|done|done|done|done|].
  apply wpe_bind. eapply (wpe_cadd _ _ _ _ i); [done|done|done|by apply list_lookup_insert|done|].
  rewrite list_insert_insert.
  set (b := if decide (from = 0) then _ else _).
  assert (b = bump from to a) as Hb.
  { unfold b, bump. destruct a as [a0 a1]. simpl. unfold from. destruct Hto as [-> | ->]; simpl; f_equal; lia. }
  clearbody b. subst b. set (a' := bump from to a).
  assert (sel a' from = sel a from - 1) as Haf.
  { unfold a', bump, sel, from. destruct a as [a0 a1]. simpl. destruct Hto as [-> | ->]; simpl; lia. }
  assert (sel a' to = sel a to + 1) as Hat.
  { unfold a', bump, sel, from. destruct a as [a0 a1]. simpl. destruct Hto as [-> | ->]; simpl; lia. }
  set (G3 := with_C (<[i:=a']> (g_C G)) G2).
  assert (gs_inv S L (λ x, gain_fun H (g_C G) x + e1 x + e2 x) G3) as HI3.
  { destruct HI2. by split. }
  assert (g_H G3 = H) as HH3 by done.
  apply wpe_bind. eapply (wpe_cget _ _ _ _ i); [done|done|done|by apply list_lookup_insert|done|]. fold (sel a' from).
  (* stage 3 *)
  set (e3 (x : vertex) := if decide (v_id x ∈ n_verts n ∧ sel a' from = 0) then - c else 0).
  apply wpe_bind. eapply (wpe_mono E _ (λ G4, gs_inv S L (λ x, gain_fun H (g_C G) x + e1 x + e2 x + e3 x) G4 ∧ g_H G4 = H ∧ g_C G4 = g_C G3)).
  { gdec as Hcf.
    - eapply wpe_add_all; [exact HI3|done|by rewrite HH3|..].
      + intros x Hxv Hxn HxL. rewrite HH3 in Hxv. destruct (Hx x Hxv Hxn HxL) as (Hnx & Hxne & Hpx & Hr & Hcase).
        unfold gain_fun. fold K. rewrite HKn in Hr. unfold contr in Hr. unfold e1, e2. destruct Hcase as [[Hp Hcnt]|[Hp Hcnt]].
        * exfalso. lia.
        * rewrite Hp in Hr |- *. fold from in Hr. rewrite (decide_False (P := _ ∧ sel a to = 0)) by lia.
          destruct (decide (sel a to = 1)) as [Ha1|Ha1].
          -- rewrite decide_True by done. dz.
          -- rewrite (decide_False (P := _ ∧ _ ∧ _)) by naive_solver. dz.
      + intros G' HI' HH' HC'. split; [|by rewrite HH', HC']. eapply gs_inv_ext; [exact HI'|]. intros x _ _. simpl. unfold e3.
        destruct (decide (v_id x ∈ n_verts n)); [rewrite (decide_True (P := _ ∧ _)) by done|rewrite (decide_False (P := _ ∧ sel a' from = 0)) by naive_solver]; lia.
    - apply wpe_ret. split; [|done]. eapply gs_inv_ext; [exact HI3|]. intros x _ _. simpl. unfold e3.
      rewrite (decide_False (P := _ ∧ sel a' from = 0)) by naive_solver. lia. }
  intros G4 (HI4 & HH4 & HC4).
  (* the sum of the four changes is the change of the gain *)
  set (e4 (x : vertex) := if decide (v_id x ∈ n_verts n ∧ v_part x = from ∧ sel a' from = 1) then c else 0).
  assert (∀ x, x ∈ h_verts H → v_id x ∉ L →
    gain_fun H (g_C G) x + e1 x + e2 x + e3 x + e4 x = gain_fun H (<[i := a']> (g_C G)) x) as Hfin.
  { intros x Hxv HxL. unfold gain_fun at 2.
    rewrite (gsum_change K _ x (n_id n)); [|by apply (co_vnets _ HC)|].
    2:{ intros m Hm. unfold K, contr_of. by rewrite (cnt_of_insert_ne _ _ _ n). }
    change (gsum K x) with (gain_fun H (g_C G) x). rewrite HKn.
    assert (contr_of H (<[i := a']> (g_C G)) (n_id n) (v_part x) = contr a' c (v_part x)) as ->.
    { unfold contr_of. rewrite Hcost. rewrite (cnt_of_id _ _ i n a'); [done|done|done|]. by apply list_lookup_insert. }
    pose proof (incidence_iff H x n HC Hxv Hn) as Hiff. unfold e1, e2, e3, e4.
    destruct (decide (n_id n ∈ v_nets x)) as [Hnx|Hnx].
    - assert (v_id x ∈ n_verts n) as Hxn by tauto.
      destruct (Hx x Hxv Hxn HxL) as (_ & Hxne & Hpx & Hr & Hcase). unfold contr.
      destruct Hcase as [[Hp Hcnt]|[Hp Hcnt]]; rewrite Hp.
      + rewrite Hft'. rewrite Haf, Hat in *. rewrite (decide_False (P := sel a from = 1)) by lia.
        rewrite (decide_False (P := sel a to + 1 = 0)) by lia.
        rewrite (decide_False (P := _ ∧ from = to ∧ _)) by naive_solver.
        rewrite (decide_False (P := _ ∧ sel a from - 1 = 0)) by lia.
        destruct (decide (sel a to = 0)); [rewrite decide_True by done|rewrite decide_False by naive_solver];
        (destruct (decide (sel a from - 1 = 1)); [rewrite decide_True by done|rewrite decide_False by naive_solver]); lia.
      + fold from. rewrite Haf, Hat in *. rewrite (decide_False (P := _ ∧ sel a to = 0)) by lia.
        rewrite (decide_False (P := sel a to + 1 = 1)) by lia.
        rewrite (decide_False (P := sel a from = 0)) by lia.
        rewrite (decide_False (P := _ ∧ to = from ∧ _)) by naive_solver.
        destruct (decide (sel a to = 1)); [rewrite decide_True by done|rewrite (decide_False (P := _ ∧ _ ∧ _)) by naive_solver];
        (destruct (decide (sel a from - 1 = 0)); [rewrite (decide_True (P := _ ∧ sel a from - 1 = 0)) by done|rewrite (decide_False (P := _ ∧ sel a from - 1 = 0)) by naive_solver]); lia.
    - assert (v_id x ∉ n_verts n) as Hxn by tauto.
      rewrite !decide_False by naive_solver. lia. }
  (* stage 4 *)
  destruct (decide (sel a' from = 1 ∧ xf = true)) as [[Hcf Hxf1]|Hno].
  - assert (count_in H n from = 1) as Hcnt by (apply Hxf; [lia|done]).
    apply wpe_bind. eapply (boundary_from _ H); [done..|]. intros u Hun Hup.
    destruct (proj1 (vids_elem H u) (Hnv u Hun)) as (y & Hy & <-).
    assert (v_part y = from) as Hyp by (rewrite <-Hup; symmetry; apply part_of_elem; [apply (co_vid _ HC)|done]).
    apply wpe_bind. eapply wpe_vert_id; [by apply co_vmap_ok|by apply vids_elem; eauto|]. intros ? _ _ _.
    assert (∀ x, x ∈ h_verts H → (v_id x ∈ n_verts n ∧ v_part x = from) ↔ v_id x = v_id y) as Hyy.
    { intros x Hxv. split.
      - intros [Hxn Hxp]. destruct (decide (v_id x = v_id y)) as [|Hne]; [done|]. exfalso.
        assert (part_of H (v_id x) = from) by (rewrite <-Hxp; apply part_of_elem; [apply (co_vid _ HC)|done]).
        assert (2 ≤ count_in H n from); [|lia]. by apply (zcount_two _ _ (v_id x) (v_id y)).
      - intros Hid. assert (x = y) as -> by (by eapply (vmap_ok_elem_eq H); [by apply co_vmap_ok|..]). done. }
    assert (∀ x, x ∈ h_verts H → e4 x = if decide (v_id x = v_id y) then c else 0) as He4.
    { intros x Hxv. unfold e4. pose proof (Hyy x Hxv).
      destruct (decide (v_id x = v_id y)); [rewrite decide_True by naive_solver|rewrite decide_False by naive_solver]; done. }
    eapply (wpe_add_gain _ _ _ _ _ y); [exact HI4|by rewrite HH4|..].
    + intros HyL. specialize (Hfin y Hy HyL). rewrite (He4 y Hy), decide_True in Hfin by done. cbn beta. fold c. rewrite Hfin.
      pose proof (gsum_bound (contr_of H (<[i:=a']> (g_C G))) H y (contr_of_bound H _ Hc0)). pose proof (HcS y Hy).
      unfold gain_fun. lia.
    + intros G' HI' HH' HC'. apply HQ; [by rewrite HH'|by rewrite HC', HC4|]. rewrite HC', HC4.
      eapply gs_inv_ext; [exact HI'|]. intros x Hxv HxL. simpl. rewrite HH', HH4 in Hxv.
      rewrite <-(Hfin x Hxv HxL), (He4 x Hxv). gdec; lia.
  - apply wpe_ret, HQ; [done|by rewrite HC4|]. rewrite HC4. change (g_C G3) with (<[i:=a']> (g_C G)). eapply gs_inv_ext; [exact HI4|]. intros x Hxv HxL.
    rewrite HH4 in Hxv. rewrite <-(Hfin x Hxv HxL). unfold e4. rewrite (decide_False (P := _ ∧ _ ∧ _)); [lia|].
    intros (Hxn & Hxp & Hcf). apply Hno. split; [done|]. apply Hxf; [lia|].
    destruct (Hx x Hxv Hxn HxL) as (_ & _ & _ & _ & [[_ ?]|[? _]]); [lia|congruence].
Qed.
