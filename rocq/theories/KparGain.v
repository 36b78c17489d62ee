(** The gain structure in parallel refinement.  Taking moves back leaves the gains of the neighbours
    as they are, so gains can be wrong afterwards, and adding to them can leave the range of the
    buckets (UB). *)
From Verif Require Export KparHist.

(** exact gains, or any gains if undefined behaviour is accepted *)
Definition gok (E : err → Prop) (S : Z) (L : gset Z) (G : gstruct) : Prop :=
  gs_inv S L (gain_fun (g_H G) (g_C G)) G ∨ E UB ∧ ∃ F, gs_inv S L F G.

Lemma gok_inv E S L G : gok E S L G → ∃ F, gs_inv S L F G.
Proof. intros [HI|(_ & F & HI)]; eauto. Qed.

(** ** any gains *)
Lemma wpe_idx_any {A} (E : err → Prop) (l : list A) i (Q : A → Prop) : E UB → (∀ a, zlookup l i = Some a → Q a) → wpe E (idx l i) Q.
Proof. intros HE HQ. apply wpe_of_option; [done|]. by intros _. Qed.
Lemma wpe_add_gain_any (E : err → Prop) S L F G u d (Q : gstruct → Prop) :
  E UB → gs_inv S L F G → u ∈ vids (g_H G) →
  (∀ F' G', gs_inv S L F' G' → g_H G' = g_H G → g_C G' = g_C G → Q G') →
  wpe E (add_gain G u d) Q.
Proof.
  intros HE HI (x & Hx & <-)%vids_elem HQ.
  destruct (decide (v_id x ∉ L → -S ≤ F x + d ≤ S)) as [Hr|Hr].
  { eapply wpe_add_gain; [done..|]. intros G' HI'. by eapply HQ. }
  destruct (decide (v_id x ∈ L)) as [HL|HL]; [by exfalso; apply Hr|].
  pose proof Hx as [i Hi]%elem_of_list_lookup. pose proof HI as [HC HB Hlen Hg Hb HS].
  pose proof (gs_inv_range _ _ _ _ _ HI Hx HL) as Hold.
  apply wpe_bind. eapply wpe_local_id; [by apply co_vmap_ok|done|].
  apply wpe_bind. eapply wpe_nidx; [by apply Hg|]. rewrite (decide_False (P := v_id x ∈ L)) by done. rewrite decide_False by lia.
  apply wpe_bind. eapply wpe_vert_at; [done|]. pose proof (HB x Hx) as Hp. apply wpe_bind, wpe_psel; [done|].
  apply wpe_bind. eapply wpe_gb_remove; [by apply Hb|done|]. intros f b1 HK1 _. simpl.
  apply wpe_bind. unfold gb_insert. apply wpe_bind. apply wpe_idx_any; [done|]. intros s Hs. exfalso.
  rewrite (gb_rep_g2i _ _ _ _ (gk_rep _ _ _ HK1)) in Hs. apply zlookup_Some_lt in Hs.
  rewrite (gr_len _ _ _ (gk_rep _ _ _ HK1)) in Hs. apply Hr. intros _. lia.
Qed.
Lemma wpe_add_all_any (E : err → Prop) S L F G us d (Q : gstruct → Prop) :
  E UB → gs_inv S L F G → (∀ u, u ∈ us → u ∈ vids (g_H G)) →
  (∀ F' G', gs_inv S L F' G' → g_H G' = g_H G → g_C G' = g_C G → Q G') →
  wpe E (foldM (λ G u, add_gain G u d) us G) Q.
Proof.
  intros HE HI Hus HQ. eapply (wpe_foldM_inv _ _ (λ G', (∃ F', gs_inv S L F' G') ∧ g_H G' = g_H G ∧ g_C G' = g_C G)).
  - eauto.
  - intros u G1 Hu ([F1 HI1] & HH1 & HC1). eapply wpe_add_gain_any; [done|done|rewrite HH1; by apply Hus|].
    intros F2 G2 HI2 HH2 HC2. split; [eauto|]. split; congruence.
  - intros G1 ([F1 HI1] & HH1 & HC1). by eapply HQ.
Qed.
Lemma wpe_boundary_any (E : err → Prop) n p (Q : Z → Prop) : E UB → (∀ u, u ∈ n_verts n → Q u) → wpe E (boundary n p) Q.
Proof.
  intros HE HQ. unfold boundary. case_decide; (apply wpe_idx_any; [done|]; intros u [_ Hu]%zlookup_Some; apply HQ; by eapply elem_of_list_lookup_2).
Qed.
Lemma wpe_gain_step_any (E : err → Prop) S L F G from to n i a (xt xf : bool) (Q : gstruct → Prop) :
  E UB → gs_inv S L F G → h_nets (g_H G) !! i = Some n → g_C G !! i = Some a → from = 0 ∨ from = 1 → to = 1 - from →
  (∀ F' G', gs_inv S L F' G' → g_H G' = g_H G → g_C G' = <[i := bump from to a]> (g_C G) → Q G') →
  wpe E (gain_step G from to (n_id n) xt xf) Q.
Proof.
  intros HE HI Hi Ha Hfrom Hto HQ. assert (to = 0 ∨ to = 1) as Hto' by lia. pose proof HI as [HC _ _ _ _ _].
  pose proof (co_nmap_ok _ HC) as HN. pose proof (elem_of_list_lookup_2 _ _ _ Hi) as Hn.
  set (H := g_H G) in *. assert (∀ u, u ∈ n_verts n → u ∈ vids H) as Hnv by (intros u; by apply net_in_vids).
  unfold gain_step. fold H.
  set (P C G' := (∃ F', gs_inv S L F' G') ∧ g_H G' = H ∧ g_C G' = C).
  assert (∀ C G1 d (b : Prop) (Hb : Decision b), P C G1 → wpe E (if decide b then foldM (λ G u, add_gain G u d) (n_verts n) G1 else ret G1) (P C)) as Hall.
  { intros C G1 d b Hb ([F1 HI1] & HH1 & HC1). destruct (decide b); [|apply wpe_ret; split; [eauto|done]].
    eapply wpe_add_all_any; [done|done|rewrite HH1; done|]. intros F2 G2 HI2 HH2 HC2. split; [eauto|]. split; congruence. }
  assert (∀ C G1 q d (b : Prop) (Hb : Decision b), P C G1 → wpe E (if decide b then u <- boundary n q ;; _ <- vert H u ;; add_gain G1 u d else ret G1) (P C)) as Hone.
  { intros C G1 q d b Hb ([F1 HI1] & HH1 & HC1). destruct (decide b); [|apply wpe_ret; split; [eauto|done]].
    apply wpe_bind, wpe_boundary_any; [done|]. intros u Hu. apply wpe_bind. eapply wpe_vert_id; [by apply co_vmap_ok|by apply Hnv|].
    intros ? _ _ _. eapply wpe_add_gain_any; [done|done|rewrite HH1; by apply Hnv|]. intros F2 G2 HI2 HH2 HC2. split; [eauto|]. split; congruence. }
  apply wpe_bind. eapply (wpe_cget _ _ _ _ i); [done|done|done|done|done|].
  apply wpe_bind. eapply wpe_get_net; [done|done|].
  apply wpe_bind. eapply wpe_mono; [apply (Hall (g_C G)); split; [eauto|done]|]. intros G1 HP1.
  apply wpe_bind. eapply wpe_mono; [apply (Hone (g_C G)); done|]. intros G2 ([F2 HI2] & HH2 & HC2). rewrite HC2.
  pose proof (lookup_lt_Some _ _ _ Ha) as Hilt.
  apply wpe_bind. eapply (wpe_cadd _ _ _ _ i); [done|done|done|done|done|].
  apply wpe_bind. eapply (wpe_cadd _ _ _ _ i); [done|done|done|by apply list_lookup_insert|done|].
  rewrite list_insert_insert.
  set (b := if decide (from = 0) then _ else _).
  assert (b = bump from to a) as Hb.
  { unfold b, bump. destruct a as [a0 a1]. simpl. subst to. destruct Hfrom as [-> | ->]; simpl; f_equal; lia. }
  clearbody b. subst b. set (a' := bump from to a). set (C' := <[i:=a']> (g_C G)).
  assert (P C' (with_C C' G2)) as HP3.
  { split; [|done]. exists F2. destruct HI2. by split. }
  apply wpe_bind. eapply (wpe_cget _ _ _ _ i); [done|done|done|by apply list_lookup_insert|done|].
  apply wpe_bind. eapply wpe_mono; [apply (Hall C'); done|]. intros G4 HP4.
  eapply wpe_mono; [apply (Hone C'); done|]. intros G5 ([F5 HI5] & HH5 & HC5). by eapply HQ.
Qed.

Lemma wpe_gs_move_loc_any (E : err → Prop) S L F G Cl v (Q : gstruct * list (Z * Z) → Prop) :
  E UB → gs_inv S L F G → nets_sorted (g_H G) →
  exact_counts (g_H G) Cl → length (g_C G) = length (h_nets (g_H G)) → v ∈ h_verts (g_H G) → v_id v ∉ L →
  (∀ F' G' Cl', moved v (g_H G) (g_H G') → exact_counts (g_H G') Cl' →
     g_C G' = mix (v_part v) (1 - v_part v) (g_H G) (g_C G) (v_nets v) →
     gs_inv S ({[v_id v]} ∪ L) F' G' → Q (G', Cl')) →
  wpe E (gs_move_loc G Cl (v_id v)) Q.
Proof.
  intros HE HI HS HCt Hl0 Hv HL HQ. pose proof HI as [HC HB _ _ _ _]. set (H := g_H G) in *.
  pose proof Hv as [i Hi]%elem_of_list_lookup.
  apply wpe_bind. eapply wpe_local_id; [by apply co_vmap_ok|done|].
  apply wpe_bind. eapply wpe_vert_at; [done|]. apply wpe_bind.
  apply wpe_move_sorted; [done..|]. intros H' HM.
  assert (consistent H') as HC' by (eapply same_shape_consistent; [apply HM|done]).
  assert (bisected H') as HB' by by eapply moved_bisected.
  rewrite flip_part_01 by auto.
  apply wpe_bind. eapply wpe_gs_lock; [exact HI|done|done|done|done|by apply moved_Forall2|].
  intros G1 HI1 HH1 HC1. simpl.
  pose proof (exact_counts_length _ _ HCt) as Hl.
  pose proof (HB v Hv) as Hp. assert (1 - v_part v = 0 ∨ 1 - v_part v = 1) as Hp' by lia.
  eapply (wpe_foldM E _ (λ ds st, g_H st.1 = H' ∧ g_C st.1 = mix (v_part v) (1 - v_part v) H (g_C G) ds ∧
    st.2 = mix (v_part v) (1 - v_part v) H Cl ds ∧ ∃ F', gs_inv S ({[v_id v]} ∪ L) F' st.1)).
  - simpl. split; [done|]. rewrite HC1, !mix_nil by done. split_and!; [done..|]. eauto.
  - intros ds nid ts [G' Cl'] Heq (HH & HCC & HCl & F' & HI'). simpl in *.
    assert (nid ∈ v_nets v) as Hnid by (rewrite Heq; set_solver).
    destruct (co_inc1 _ HC _ _ Hv Hnid) as (n & [k Hk]%elem_of_list_lookup & <- & _).
    assert (n_id n ∉ ds) as Hds.
    { pose proof (co_vnets _ HC _ Hv) as Hnd. rewrite Heq in Hnd.
      apply NoDup_app in Hnd as (_ & Hnd & _). intros Hds. apply (Hnd _ Hds). set_solver. }
    pose proof (exact_counts_lookup _ _ _ _ HCt Hk) as Ha.
    destruct (lookup_lt_is_Some_2 (g_C G) k) as [c Hc]; [rewrite Hl0; by eapply lookup_lt_Some|].
    destruct (Forall2_lookup_l _ _ _ _ _ (ss_nets _ _ (mv_shape _ _ _ HM)) Hk) as (n' & Hk' & Hid & _).
    set (cl := (count_in H n 0, count_in H n 1)) in *.
    assert (Cl' !! k = Some cl) as Hcl.
    { rewrite HCl, (mix_lookup _ _ _ _ _ _ _ _ Hk Ha). by rewrite decide_False. }
    assert (g_C G' !! k = Some c) as Hck.
    { rewrite HCC, (mix_lookup _ _ _ _ _ _ _ _ Hk Hc). by rewrite decide_False. }
    pose proof (lookup_lt_Some _ _ _ Hcl) as Hklt.
    rewrite HH. pose proof (co_nmap_ok _ HC') as HN'.
    apply wpe_bind. eapply (wpe_cget _ _ _ _ k); [done|done|done|done|done|].
    apply wpe_bind. eapply (wpe_cadd _ _ _ _ k); [done|done|done|done|done|].
    apply wpe_bind. eapply (wpe_cadd _ _ _ _ k); [done|done|done|by apply list_lookup_insert|done|].
    rewrite list_insert_insert. set (b := if decide (v_part v = 0) then _ else _).
    assert (b = bump (v_part v) (1 - v_part v) cl) as Hb.
    { unfold b, bump. simpl. destruct Hp as [-> | ->]; simpl; f_equal; lia. }
    clearbody b. subst b.
    apply wpe_bind. eapply (wpe_cget _ _ _ _ k); [done|done|done|by apply list_lookup_insert|done|].
    apply wpe_bind. rewrite Hid. eapply (wpe_gain_step_any _ S _ F' G' (v_part v) _ n' k c); [done|done|by rewrite HH|done|done|done|].
    intros F'' G'' HI'' HH'' HC''. apply wpe_ret. simpl. rewrite <-Hid. split_and!; [by rewrite HH''| | |eauto].
    + rewrite HC'', HCC. apply mix_snoc; try done. apply (co_nid _ HC).
    + rewrite HCl. apply mix_snoc; try done. apply (co_nid _ HC).
  - intros [G' Cl'] (HH & HCC & HCl & F' & HI'). simpl in *. eapply HQ; rewrite ?HH; [done| |done|done].
    rewrite HCl. by apply mix_exact.
Qed.
Lemma wpe_gs_move_loc_ok (E : err → Prop) S L G Cl v (Q : gstruct * list (Z * Z) → Prop) :
  gok E S L G → nets_sorted (g_H G) → costs_ok S (g_H G) →
  exact_counts (g_H G) Cl → dominates (g_H G) (g_C G) → v ∈ h_verts (g_H G) → v_id v ∉ L →
  (∀ G' Cl', moved v (g_H G) (g_H G') → exact_counts (g_H G') Cl' →
     g_C G' = mix (v_part v) (1 - v_part v) (g_H G) (g_C G) (v_nets v) →
     gok E S ({[v_id v]} ∪ L) G' → Q (G', Cl')) →
  wpe E (gs_move_loc G Cl (v_id v)) Q.
Proof.
  intros [HI|(HE & F & HI)] HS Hcs HCl Hd Hv HL HQ.
  - eapply wpe_gs_move_loc; [done..|]. intros G' Cl' HM HCl' HCC _ HI'. apply HQ; [done..|by left].
  - eapply wpe_gs_move_loc_any; [done..|apply Hd|done|done|]. intros F' G' Cl' HM HCl' HCC HI'. apply HQ; [done..|right; eauto].
Qed.

(** ** moving a locked vertex *)
Lemma gs_inv_locked S L F G v H' C' : gs_inv S L F G → v ∈ h_verts (g_H G) → v_id v ∈ L → moved v (g_H G) H' →
  gs_inv S L F (with_C C' (with_H H' G)).
Proof.
  intros HI Hv HL HM. pose proof HI as [HC HB Hlen Hg Hb HS]. pose proof (moved_Forall2 _ _ _ HM) as HF2.
  assert (∀ x, v_id x ∉ L → x ∈ h_verts (g_H G) ↔ x ∈ h_verts H') as Hsame.
  { intros x Hne. split; intros [j Hj]%elem_of_list_lookup.
    - destruct (Forall2_lookup_l _ _ _ _ _ HF2 Hj) as (x' & Hj' & _ & Heq). rewrite <-(Heq ltac:(congruence)). by eapply elem_of_list_lookup_2.
    - destruct (Forall2_lookup_r _ _ _ _ _ HF2 Hj) as (x' & Hj' & Hid & Heq). rewrite (Heq ltac:(congruence)). by eapply elem_of_list_lookup_2. }
  split; simpl.
  - eapply same_shape_consistent; [apply HM|done].
  - by eapply moved_bisected.
  - rewrite Hlen. by eapply Forall2_length.
  - intros i x' Hi. destruct (Forall2_lookup_r _ _ _ _ _ HF2 Hi) as (x & Hj & Hid & Heq). rewrite (Hg i x Hj), Hid. f_equal.
    destruct (decide (v_id x ∈ L)) as [|Hn]; [done|]. rewrite Heq; [done|]. congruence.
  - intros p Hp. eapply gb_ok_ext; [|by apply Hb]. intros id g. split; intros (x & Hx & <- & Hxp & HxL & ->); exists x; split_and!; try done; by apply Hsame.
  - done.
Qed.
