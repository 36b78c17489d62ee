(** move, remove and construction of the gain structure. *)
From Verif Require Export GainProof.

Lemma wpe_gs_lock E S L F G H' i v (Q : bool * gstruct → Prop) :
  gs_inv S L F G → h_verts (g_H G) !! i = Some v → v_id v ∉ L → consistent H' → bisected H' →
  Forall2 (λ x x', v_id x' = v_id x ∧ (v_id x ≠ v_id v → x' = x)) (h_verts (g_H G)) (h_verts H') →
  (∀ G', gs_inv S ({[v_id v]} ∪ L) F G' → g_H G' = H' → g_C G' = g_C G → Q (true, G')) →
  wpe E (gs_lock (with_H H' G) i (v_id v) (v_part v)) Q.
Proof.
  intros HI Hi HL HC' HB' Hf2 HQ. pose proof HI as [HC HB Hlen Hg Hb HS].
  pose proof (elem_of_list_lookup_2 _ _ _ Hi) as Hv.
  pose proof (gs_inv_range _ _ _ _ _ HI Hv HL) as Hr. pose proof (HB v Hv) as Hp.
  unfold gs_lock. apply wpe_bind. simpl. eapply wpe_nidx; [by apply Hg|]. rewrite decide_False by done.
  apply wpe_bind, wpe_psel; [done|]. apply wpe_bind. eapply wpe_gb_remove; [by apply Hb|done|].
  intros f b' HK Hf. assert (f = true) as ->.
  { apply Hf. by exists v. }
  apply wpe_bind, wpe_pset; [done|]. apply wpe_ret, HQ; [|done..].
  assert (∀ x, x ∈ h_verts (g_H G) → v_id x = v_id v → x = v) as Huniq.
  { intros x Hx Hid. eapply vmap_ok_elem_eq; [by apply co_vmap_ok|done..]. }
  assert (∀ x, v_id x ≠ v_id v → x ∈ h_verts (g_H G) ↔ x ∈ h_verts H') as Hsame.
  { intros x Hne. split; intros [j Hj]%elem_of_list_lookup.
    - destruct (Forall2_lookup_l _ _ _ _ _ Hf2 Hj) as (x' & Hj' & _ & Heq). rewrite <-(Heq Hne). by eapply elem_of_list_lookup_2.
    - destruct (Forall2_lookup_r _ _ _ _ _ Hf2 Hj) as (x' & Hj' & Hid & Heq). rewrite (Heq ltac:(congruence)). by eapply elem_of_list_lookup_2. }
  split; simpl; try done.
  - rewrite insert_length, Hlen. by eapply Forall2_length.
  - intros j x' Hj'. destruct (Forall2_lookup_r _ _ _ _ _ Hf2 Hj') as (x & Hj & Hid & Heq).
    destruct (decide (j = i)) as [->|Hne].
    + rewrite list_lookup_insert by (rewrite Hlen; by eapply lookup_lt_Some).
      assert (x = v) as -> by congruence. rewrite decide_True; [done|]. set_solver.
    + assert (v_id x ≠ v_id v) as Hnv.
      { intros Hid'. apply Hne. eapply NoDup_fmap_inj; [apply (co_vid _ HC)|done..]. }
      rewrite list_lookup_insert_ne by done. rewrite (Heq Hnv). rewrite (Hg j x Hj).
      destruct (decide (v_id x ∈ L)); [rewrite decide_True by set_solver|rewrite decide_False by set_solver]; done.
  - intros p Hp'. rewrite sel_upd2 by done. gdec as Hpp.
    + subst p. eapply gb_ok_ext; [|exact HK]. intros id g. unfold T_del. split.
      * intros [(x & Hx & <- & Hxp & HxL & ->) Hne].
        assert (v_id x ≠ v_id v) as Hnv by (intros Hid; apply Hne; by rewrite (Huniq x)).
        exists x. split_and!; try done; [by apply Hsame|set_solver].
      * intros (x & Hx & <- & Hxp & HxL & ->). assert (v_id x ≠ v_id v) as Hnv by set_solver.
        split; [|naive_solver]. exists x. split_and!; try done; [by apply Hsame|set_solver].
    + eapply gb_ok_ext; [|by apply Hb]. intros id g. split; intros (x & Hx & <- & Hxp & HxL & ->).
      * assert (v_id x ≠ v_id v) as Hnv by (intros Hid; apply Hpp; by rewrite <-(Huniq x)).
        exists x. split_and!; try done; [by apply Hsame|set_solver].
      * assert (v_id x ≠ v_id v) as Hnv by set_solver. exists x. split_and!; try done; [by apply Hsame|set_solver].
Qed.

Lemma with_H_self G : with_H (g_H G) G = G.
Proof. by destruct G. Qed.

Lemma wpe_gs_remove E S L F G v (Q : gstruct → Prop) :
  gs_inv S L F G → v ∈ h_verts (g_H G) → v_id v ∉ L →
  (∀ G', gs_inv S ({[v_id v]} ∪ L) F G' → g_H G' = g_H G → g_C G' = g_C G → Q G') →
  wpe E (gs_remove G (v_id v)) Q.
Proof.
  intros HI [i Hi]%elem_of_list_lookup HL HQ. pose proof HI as [HC HB _ _ _ _].
  apply wpe_bind. eapply wpe_local_id; [by apply co_vmap_ok|done|].
  apply wpe_bind. eapply wpe_vert_at; [done|]. apply wpe_bind. rewrite <-(with_H_self G).
  eapply wpe_gs_lock; [exact HI|done|done|done|done| |].
  - by apply Forall2_refl.
  - intros G' HI' HH' HC'. apply wpe_ret. by apply HQ.
Qed.

(** counts with some nets already updated *)
Definition mix (from to : Z) (H : hg) (C0 : list (Z * Z)) (ds : list Z) : list (Z * Z) :=
  zip_with (λ n c, if decide (n_id n ∈ ds) then bump from to c else c) (h_nets H) C0.

Lemma mix_lookup from to H C0 ds i n c : h_nets H !! i = Some n → C0 !! i = Some c →
  mix from to H C0 ds !! i = Some (if decide (n_id n ∈ ds) then bump from to c else c).
Proof. intros Hn Hc. unfold mix. rewrite lookup_zip_with, Hn. simpl. by rewrite Hc. Qed.
Lemma mix_length from to H C0 ds : length C0 = length (h_nets H) → length (mix from to H C0 ds) = length (h_nets H).
Proof. intros Hl. unfold mix. rewrite zip_with_length. lia. Qed.
Lemma mix_nil from to H C0 : length C0 = length (h_nets H) → mix from to H C0 [] = C0.
Proof.
  intros Hl. apply list_eq. intros i. destruct (C0 !! i) as [c|] eqn:Hc.
  - destruct (lookup_lt_is_Some_2 (h_nets H) i) as [n Hn]; [rewrite <-Hl; by eapply lookup_lt_Some|].
    rewrite (mix_lookup _ _ _ _ _ _ _ _ Hn Hc). by rewrite decide_False by set_solver.
  - apply lookup_ge_None. rewrite mix_length, <-Hl by done. by apply lookup_ge_None.
Qed.
Lemma mix_snoc from to H C0 ds i n c :
  NoDup (nids H) → length C0 = length (h_nets H) → h_nets H !! i = Some n → C0 !! i = Some c → n_id n ∉ ds →
  <[i := bump from to c]> (mix from to H C0 ds) = mix from to H C0 (ds ++ [n_id n]).
Proof.
  intros Hnd Hl Hn Hc Hds. apply list_eq. intros j. destruct (decide (j = i)) as [->|Hne].
  - rewrite list_lookup_insert by (rewrite mix_length by done; by eapply lookup_lt_Some).
    rewrite (mix_lookup _ _ _ _ _ _ _ _ Hn Hc). by rewrite decide_True by set_solver.
  - rewrite list_lookup_insert_ne by done. destruct (C0 !! j) as [c'|] eqn:Hc'.
    + destruct (lookup_lt_is_Some_2 (h_nets H) j) as [n' Hn']; [rewrite <-Hl; by eapply lookup_lt_Some|].
      rewrite !(mix_lookup _ _ _ _ _ _ _ _ Hn' Hc'). f_equal.
      assert (n_id n' ≠ n_id n) by (intros Hid; apply Hne; by eapply NoDup_fmap_inj).
      destruct (decide (n_id n' ∈ ds)); [rewrite decide_True by set_solver|rewrite decide_False by set_solver]; done.
    + transitivity (@None (Z * Z)); [|symmetry]; apply lookup_ge_None; rewrite mix_length, <-Hl by done; by apply lookup_ge_None.
Qed.

(** counts that are at least the local ones: global counts of a distributed hypergraph, or
    the exact counts themselves *)
Definition dominates (H : hg) (C : list (Z * Z)) : Prop :=
  length C = length (h_nets H) ∧
  ∀ i n c p, h_nets H !! i = Some n → C !! i = Some c → p = 0 ∨ p = 1 → count_in H n p ≤ sel c p.

Lemma exact_dominates H C : exact_counts H C → dominates H C.
Proof.
  intros ->. split; [by rewrite fmap_length|]. intros i n c p Hn Hc Hp. rewrite list_lookup_fmap, Hn in Hc.
  simpl in Hc. injection Hc as <-. by destruct Hp as [-> | ->].
Qed.
Lemma exact_counts_lookup H C i n : exact_counts H C → h_nets H !! i = Some n → C !! i = Some (count_in H n 0, count_in H n 1).
Proof. intros -> Hn. by rewrite list_lookup_fmap, Hn. Qed.
Lemma exact_counts_length H C : exact_counts H C → length C = length (h_nets H).
Proof. intros ->. by rewrite fmap_length. Qed.

Lemma sel_bump v c p : v = 0 ∨ v = 1 → p = 0 ∨ p = 1 →
  sel (bump v (1 - v) c) p = sel c p + (if decide (p = 1 - v) then 1 else -1).
Proof. intros [-> | ->] [-> | ->]; unfold sel, bump; simpl; lia. Qed.

(** moving a vertex: the counts of its nets change by one on both sides *)
Lemma moved_count_p v H H' n n' p :
  consistent H → bisected H → v ∈ h_verts H → n ∈ h_nets H → moved v H H' → n_verts n' ≡ₚ n_verts n → p = 0 ∨ p = 1 →
  count_in H' n' p = count_in H n p + (if decide (n_id n ∈ v_nets v) then (if decide (p = 1 - v_part v) then 1 else -1) else 0).
Proof.
  intros HC HB Hv Hn HM Hpm Hp. rewrite (moved_count v H H' n n') by done.
  pose proof (incidence_iff H v n HC Hv Hn) as Hiff.
  destruct (decide (n_id n ∈ v_nets v)); [rewrite (decide_True (P := v_id v ∈ _)) by tauto|by rewrite (decide_False (P := v_id v ∈ _)) by tauto].
  destruct (HB v Hv) as [Hpv|Hpv]; rewrite Hpv; destruct Hp as [-> | ->]; simpl; done.
Qed.

Lemma mix_exact v H H' C : consistent H → bisected H → v ∈ h_verts H → moved v H H' → exact_counts H C →
  exact_counts H' (mix (v_part v) (1 - v_part v) H C (v_nets v)).
Proof.
  intros HC HB Hv HM HCt. pose proof (ss_nets _ _ (mv_shape _ _ _ HM)) as Hf2. unfold exact_counts. apply list_eq. intros i.
  rewrite list_lookup_fmap. destruct (h_nets H !! i) as [n|] eqn:Hn.
  - destruct (Forall2_lookup_l _ _ _ _ _ Hf2 Hn) as (n' & Hn' & _ & Hpm & _). symmetry in Hpm.
    rewrite (mix_lookup _ _ _ _ _ _ _ _ Hn (exact_counts_lookup _ _ _ _ HCt Hn)), Hn'. simpl. f_equal.
    pose proof (elem_of_list_lookup_2 _ _ _ Hn) as Hnn.
    rewrite !(moved_count_p v H H' n n') by auto. pose proof (HB v Hv) as Hp.
    destruct (decide (n_id n ∈ v_nets v)); [|f_equal; lia]. unfold bump. simpl.
    destruct Hp as [-> | ->]; simpl; f_equal; lia.
  - assert (h_nets H' !! i = None) as ->.
    { apply lookup_ge_None. rewrite <-(Forall2_length _ _ _ Hf2). by apply lookup_ge_None. }
    apply lookup_ge_None. rewrite mix_length by (by eapply exact_counts_length). by apply lookup_ge_None.
Qed.

Lemma mix_dominates v H H' C : consistent H → bisected H → v ∈ h_verts H → moved v H H' → dominates H C →
  dominates H' (mix (v_part v) (1 - v_part v) H C (v_nets v)).
Proof.
  intros HC HB Hv HM [Hl Hd]. pose proof (ss_nets _ _ (mv_shape _ _ _ HM)) as Hf2. split.
  - rewrite mix_length by done. by eapply Forall2_length.
  - intros i n' c' p Hn' Hc' Hp. destruct (Forall2_lookup_r _ _ _ _ _ Hf2 Hn') as (n & Hn & _ & Hpm & _).
    destruct (lookup_lt_is_Some_2 C i) as [c Hc]; [rewrite Hl; by eapply lookup_lt_Some|].
    rewrite (mix_lookup _ _ _ _ _ _ _ _ Hn Hc) in Hc'. injection Hc' as <-. symmetry in Hpm.
    pose proof (Hd _ _ _ p Hn Hc Hp) as Hle. pose proof (elem_of_list_lookup_2 _ _ _ Hn) as Hnn.
    rewrite (moved_count_p v H H' n n') by auto. pose proof (HB v Hv) as Hpv.
    destruct (decide (n_id n ∈ v_nets v)); [rewrite sel_bump by done; lia|lia].
Qed.

(** the hypergraph after a move has the same net ids, costs and cost sums *)
Lemma same_shape_net_of H H' nid : same_shape H H' → option_Forall2 same_net (net_of H nid) (net_of H' nid).
Proof.
  intros Hs. unfold net_of. rewrite <-(ss_nmap _ _ Hs). destruct (h_nmap H !! nid) as [i|]; [|constructor]. simpl.
  destruct (h_nets H !! i) as [n|] eqn:Hn.
  - destruct (Forall2_lookup_l _ _ _ _ _ (ss_nets _ _ Hs) Hn) as (n' & -> & ?). by constructor.
  - assert (h_nets H' !! i = None) as ->; [|constructor].
    apply lookup_ge_None. rewrite <-(Forall2_length _ _ _ (ss_nets _ _ Hs)). by apply lookup_ge_None.
Qed.
Lemma same_shape_cost_of H H' nid : same_shape H H' → cost_of H' nid = cost_of H nid.
Proof.
  intros Hs. unfold cost_of. destruct (same_shape_net_of _ _ nid Hs) as [n n' (_ & _ & ? & _)|]; [|done]. by simpl.
Qed.
Lemma same_shape_cnt_of H H' C nid : same_shape H H' → cnt_of H' C nid = cnt_of H C nid.
Proof. intros Hs. unfold cnt_of. by rewrite <-(ss_nmap _ _ Hs). Qed.
Lemma same_shape_gain_fun H H' C v : same_shape H H' → gain_fun H' C v = gain_fun H C v.
Proof.
  intros Hs. apply gsum_ext. intros nid _. unfold contr_of.
  by rewrite (same_shape_cost_of H H'), (same_shape_cnt_of H H').
Qed.
Lemma same_shape_costs_ok S H H' : same_shape H H' → costs_ok S H → costs_ok S H'.
Proof.
  intros Hs [Hc Hv]. split.
  - intros n' [i Hn']%elem_of_list_lookup. destruct (Forall2_lookup_r _ _ _ _ _ (ss_nets _ _ Hs) Hn') as (n & Hn & _ & _ & <- & _).
    apply Hc. by eapply elem_of_list_lookup_2.
  - intros v' [i Hv']%elem_of_list_lookup. destruct (Forall2_lookup_r _ _ _ _ _ (ss_verts _ _ Hs) Hv') as (v & Hi & _ & Hns & _).
    pose proof (Hv v (elem_of_list_lookup_2 _ _ _ Hi)) as Hle. unfold cost_sum in *. rewrite <-Hns.
    rewrite (zsum_fmap_ext _ (cost_of H)); [done|]. intros nid _. by apply same_shape_cost_of.
Qed.

Lemma wpe_gain_step_mix E S L G v H H' C0 ds n k a xt xf (Q : gstruct → Prop) :
  consistent H → bisected H → v ∈ h_verts H → moved v H H' → v_id v ∈ L → costs_ok S H' → dominates H C0 →
  g_H G = H' → g_C G = mix (v_part v) (1 - v_part v) H C0 ds → gs_inv S L (gain_fun H' (g_C G)) G →
  h_nets H !! k = Some n → C0 !! k = Some a → n_id n ∈ v_nets v → n_id n ∉ ds →
  (sel a (1 - v_part v) = 1 → xt = true ↔ count_in H n (1 - v_part v) = 1) →
  (sel a (v_part v) = 2 → xf = true ↔ count_in H n (v_part v) = 2) →
  (∀ G', g_H G' = H' → g_C G' = mix (v_part v) (1 - v_part v) H C0 (ds ++ [n_id n]) →
     gs_inv S L (gain_fun H' (g_C G')) G' → Q G') →
  wpe E (gain_step G (v_part v) (1 - v_part v) (n_id n) xt xf) Q.
Proof.
  intros HC HB Hv HM HvL Hcs [Hl Hd] HH HCC HI Hk Ha Hnv Hds Hxt Hxf HQ.
  pose proof (HB v Hv) as Hp. set (from := v_part v) in *. set (to := 1 - from) in *.
  assert (from = 1 - to) as Hft by (unfold to; lia).
  assert (to = 0 ∨ to = 1) as Hto by (unfold to; lia).
  pose proof (ss_nets _ _ (mv_shape _ _ _ HM)) as Hf2.
  destruct (Forall2_lookup_l _ _ _ _ _ Hf2 Hk) as (n' & Hk' & Hid & Hpm & _). symmetry in Hpm.
  pose proof (elem_of_list_lookup_2 _ _ _ Hk) as Hn. pose proof (elem_of_list_lookup_2 _ _ _ Hk') as Hn'.
  assert (v_id v ∈ n_verts n') as Hvn'.
  { rewrite Hpm. by apply (incidence_iff H v n). }
  assert (count_in H' n' to = count_in H n to + 1) as Hct.
  { rewrite (moved_count_p v H H' n n') by done. rewrite (decide_True (P := n_id n ∈ v_nets v)) by done.
    by rewrite decide_True. }
  assert (count_in H' n' from = count_in H n from - 1) as Hcf.
  { rewrite (moved_count_p v H H' n n') by done. rewrite (decide_True (P := n_id n ∈ v_nets v)) by done.
    rewrite decide_False; [lia|]. fold from to. lia. }
  pose proof (Hd _ _ _ to Hk Ha Hto) as Hdt. pose proof (Hd _ _ _ from Hk Ha Hp) as Hdf.
  rewrite Hid. rewrite Hft at 1.
  assert (g_C G !! k = Some a) as Hak.
  { rewrite HCC. rewrite (mix_lookup _ _ _ _ _ _ _ _ Hk Ha). by rewrite decide_False. }
  subst H'. eapply (wpe_gain_step E S L G (v_id v) to n' k a); try done.
  - apply HM.
  - rewrite (moved_part_of v H (g_H G)) by done. by rewrite decide_True.
  - rewrite <-(mv_pos _ _ _ HM n' Hn' Hvn'). fold from. unfold to. destruct Hp as [-> | ->]; done.
  - lia.
  - rewrite <-Hft. lia.
  - intros Hs. rewrite (Hxt Hs), Hct. lia.
  - rewrite <-Hft. intros Hs. rewrite (Hxf Hs), Hcf. lia.
  - rewrite <-Hft. intros G' HH' HC' HI'. apply HQ; [done| |done].
    rewrite HC', HCC. apply mix_snoc; try done. apply (co_nid _ HC).
Qed.

Lemma moved_Forall2 v H H' : moved v H H' →
  Forall2 (λ x x', v_id x' = v_id x ∧ (v_id x ≠ v_id v → x' = x)) (h_verts H) (h_verts H').
Proof.
  intros HM. rewrite (mv_verts _ _ _ HM). apply Forall2_fmap_r. apply Forall_Forall2_diag, Forall_forall.
  intros x _. simpl. destruct (decide (v_id x = v_id v)) as [Hx|Hx]; [|done]. split; [done|]. intros Hne. done.
Qed.

(** the sequential overload *)
Lemma wpe_gs_move E S L G v (Q : gstruct → Prop) :
  gs_inv S L (gain_fun (g_H G) (g_C G)) G → nets_sorted (g_H G) → costs_ok S (g_H G) →
  exact_counts (g_H G) (g_C G) → v ∈ h_verts (g_H G) → v_id v ∉ L →
  (∀ G', moved v (g_H G) (g_H G') → exact_counts (g_H G') (g_C G') →
     gs_inv S ({[v_id v]} ∪ L) (gain_fun (g_H G') (g_C G')) G' → Q G') →
  wpe E (gs_move G (v_id v)) Q.
Proof.
  intros HI HS Hcs HCt Hv HL HQ. pose proof HI as [HC HB _ _ _ _]. set (H := g_H G) in *.
  pose proof Hv as [i Hi]%elem_of_list_lookup.
  apply wpe_bind. eapply wpe_local_id; [by apply co_vmap_ok|done|].
  apply wpe_bind. eapply wpe_vert_at; [done|]. apply wpe_bind.
  apply wpe_move_sorted; [done..|]. intros H' HM.
  assert (consistent H') as HC' by (eapply same_shape_consistent; [apply HM|done]).
  assert (bisected H') as HB' by by eapply moved_bisected.
  rewrite flip_part_01 by auto.
  apply wpe_bind. eapply wpe_gs_lock; [exact HI|done|done|done|done|by apply moved_Forall2|].
  intros G1 HI1 HH1 HC1. simpl.
  pose proof (exact_counts_length _ _ HCt) as Hl. pose proof (exact_dominates _ _ HCt) as Hdom.
  assert (costs_ok S H') as Hcs' by (eapply same_shape_costs_ok; [apply HM|done]).
  eapply (wpe_foldM E _ (λ ds G', g_H G' = H' ∧ g_C G' = mix (v_part v) (1 - v_part v) H (g_C G) ds ∧
    gs_inv S ({[v_id v]} ∪ L) (gain_fun H' (g_C G')) G')).
  - split; [done|]. rewrite HC1, mix_nil by done. split; [done|].
    eapply gs_inv_ext; [exact HI1|]. intros x _ _. symmetry. apply same_shape_gain_fun, HM.
  - intros ds nid ts G' Heq (HH & HCC & HI').
    assert (nid ∈ v_nets v) as Hnid by (rewrite Heq; set_solver).
    destruct (co_inc1 _ HC _ _ Hv Hnid) as (n & [k Hk]%elem_of_list_lookup & <- & _).
    assert (n_id n ∉ ds) as Hds.
    { pose proof (co_vnets _ HC _ Hv) as Hnd. rewrite Heq in Hnd.
      apply NoDup_app in Hnd as (_ & Hnd & _). intros Hds. apply (Hnd _ Hds). set_solver. }
    pose proof (exact_counts_lookup _ _ _ _ HCt Hk) as Ha.
    eapply (wpe_gain_step_mix _ _ _ _ v H H' (g_C G) ds n k); try done.
    + set_solver.
    + intros Hs. split; [|done]. intros _. etrans; [|exact Hs]. destruct (HB v Hv) as [-> | ->]; done.
    + intros Hs. split; [|done]. intros _. etrans; [|exact Hs]. destruct (HB v Hv) as [-> | ->]; done.
  - intros G' (HH & HCC & HI'). apply HQ; rewrite ?HH; [done| |done].
    rewrite HCC. by apply mix_exact.
Qed.

(** the overload with local counts *)
Lemma wpe_gs_move_loc E S L G Cl v (Q : gstruct * list (Z * Z) → Prop) :
  gs_inv S L (gain_fun (g_H G) (g_C G)) G → nets_sorted (g_H G) → costs_ok S (g_H G) →
  exact_counts (g_H G) Cl → dominates (g_H G) (g_C G) → v ∈ h_verts (g_H G) → v_id v ∉ L →
  (∀ G' Cl', moved v (g_H G) (g_H G') → exact_counts (g_H G') Cl' →
     g_C G' = mix (v_part v) (1 - v_part v) (g_H G) (g_C G) (v_nets v) →
     dominates (g_H G') (g_C G') →
     gs_inv S ({[v_id v]} ∪ L) (gain_fun (g_H G') (g_C G')) G' → Q (G', Cl')) →
  wpe E (gs_move_loc G Cl (v_id v)) Q.
Proof.
  intros HI HS Hcs HCt Hdom Hv HL HQ. pose proof HI as [HC HB _ _ _ _]. set (H := g_H G) in *.
  pose proof Hv as [i Hi]%elem_of_list_lookup.
  apply wpe_bind. eapply wpe_local_id; [by apply co_vmap_ok|done|].
  apply wpe_bind. eapply wpe_vert_at; [done|]. apply wpe_bind.
  apply wpe_move_sorted; [done..|]. intros H' HM.
  assert (consistent H') as HC' by (eapply same_shape_consistent; [apply HM|done]).
  assert (bisected H') as HB' by by eapply moved_bisected.
  rewrite flip_part_01 by auto.
  apply wpe_bind. eapply wpe_gs_lock; [exact HI|done|done|done|done|by apply moved_Forall2|].
  intros G1 HI1 HH1 HC1. simpl.
  pose proof (exact_counts_length _ _ HCt) as Hl. pose proof (proj1 Hdom) as Hl0.
  assert (costs_ok S H') as Hcs' by (eapply same_shape_costs_ok; [apply HM|done]).
  pose proof (HB v Hv) as Hp. assert (1 - v_part v = 0 ∨ 1 - v_part v = 1) as Hp' by lia.
  eapply (wpe_foldM E _ (λ ds st, g_H st.1 = H' ∧ g_C st.1 = mix (v_part v) (1 - v_part v) H (g_C G) ds ∧
    st.2 = mix (v_part v) (1 - v_part v) H Cl ds ∧
    gs_inv S ({[v_id v]} ∪ L) (gain_fun H' (g_C st.1)) st.1)).
  - simpl. split; [done|]. rewrite HC1, !mix_nil by done. split_and!; [done..|].
    eapply gs_inv_ext; [exact HI1|]. intros x _ _. symmetry. apply same_shape_gain_fun, HM.
  - intros ds nid ts [G' Cl'] Heq (HH & HCC & HCl & HI'). simpl in *.
    assert (nid ∈ v_nets v) as Hnid by (rewrite Heq; set_solver).
    destruct (co_inc1 _ HC _ _ Hv Hnid) as (n & [k Hk]%elem_of_list_lookup & <- & _).
    assert (n_id n ∉ ds) as Hds.
    { pose proof (co_vnets _ HC _ Hv) as Hnd. rewrite Heq in Hnd.
      apply NoDup_app in Hnd as (_ & Hnd & _). intros Hds. apply (Hnd _ Hds). set_solver. }
    pose proof (exact_counts_lookup _ _ _ _ HCt Hk) as Ha.
    destruct (lookup_lt_is_Some_2 (g_C G) k) as [c Hc]; [rewrite Hl0; by eapply lookup_lt_Some|].
    destruct (Forall2_lookup_l _ _ _ _ _ (ss_nets _ _ (mv_shape _ _ _ HM)) Hk) as (n' & Hk' & Hid & _).
    set (cl := (count_in H n 0, count_in H n 1)) in *.
    assert (Cl' !! k = Some cl) as Hcl.
    { rewrite HCl, (mix_lookup _ _ _ _ _ _ _ _ Hk Ha). by rewrite decide_False. }
    pose proof (lookup_lt_Some _ _ _ Hcl) as Hklt.
    assert (∀ p, p = 0 ∨ p = 1 → sel cl p = count_in H n p) as Hsel by (by intros p [-> | ->]).
    rewrite HH. pose proof (co_nmap_ok _ HC') as HN'.
    apply wpe_bind. eapply (wpe_cget _ _ _ _ k); [done|done|done|done|done|]. fold (sel cl (1 - v_part v)).
    apply wpe_bind. eapply (wpe_cadd _ _ _ _ k); [done|done|done|done|done|].
    apply wpe_bind. eapply (wpe_cadd _ _ _ _ k); [done|done|done|by apply list_lookup_insert|done|].
    rewrite list_insert_insert. set (b := if decide (v_part v = 0) then _ else _).
    assert (b = bump (v_part v) (1 - v_part v) cl) as Hb.
    { unfold b, bump. simpl. destruct Hp as [-> | ->]; simpl; f_equal; lia. }
    clearbody b. subst b.
    apply wpe_bind. eapply (wpe_cget _ _ _ _ k); [done|done|done|by apply list_lookup_insert|done|].
    fold (sel (bump (v_part v) (1 - v_part v) cl) (v_part v)). rewrite sel_bump by done. rewrite !Hsel by done.
    rewrite (decide_False (P := v_part v = 1 - v_part v)) by lia.
    apply wpe_bind. eapply (wpe_gain_step_mix _ _ _ _ v H H' (g_C G) ds n k); try done.
    + set_solver.
    + intros _. by rewrite bool_decide_eq_true.
    + intros _. rewrite bool_decide_eq_true. lia.
    + intros G'' HH'' HC'' HI''. apply wpe_ret. simpl. split_and!; try done.
      rewrite HCl. apply mix_snoc; try done. apply (co_nid _ HC).
  - intros [G' Cl'] (HH & HCC & HCl & HI'). simpl in *. apply HQ; rewrite ?HH; try done.
    + rewrite HCl. by apply mix_exact.
    + rewrite HCC. by apply mix_dominates.
Qed.
