(** Construction and queries of the gain structure; gains are cut decreases. *)
From Verif Require Export GainMove.

Lemma seq_split n ds k ts : seq 0 n = ds ++ k :: ts → k = length ds ∧ (k < n)%nat.
Proof.
  intros Heq. assert (seq 0 n !! length ds = Some k) as Hk.
  { rewrite Heq. by apply list_lookup_middle. }
  apply lookup_seq in Hk as [-> Hlt]. simpl in *. done.
Qed.

(** *** compute_size_buckets *)
Lemma wpe_compute_size E H B (Q : Z → Prop) :
  consistent H → 0 ≤ B → (∀ v, v ∈ h_verts H → cost_sum H v ≤ B) →
  (∀ S, 0 ≤ S ≤ B → (∀ v, v ∈ h_verts H → cost_sum H v ≤ S) → Q (2 * S + 1)) →
  wpe E (compute_size_buckets H) Q.
Proof.
  intros HC HB0 Hle HQ. apply wpe_bind.
  eapply (wpe_foldM E _ (λ ds m, 0 ≤ m ≤ B ∧ ∀ v, v ∈ ds → cost_sum H v ≤ m)).
  - split; [lia|set_solver].
  - intros ds v ts m Heq [Hm Hds]. assert (v ∈ h_verts H) as Hv by (rewrite Heq; set_solver).
    apply wpe_bind. eapply (wpe_foldM E _ (λ ns s, s = zsum (cost_of H <$> ns))).
    + done.
    + intros ns nid ns' s Heq' ->. assert (nid ∈ v_nets v) as Hin by (rewrite Heq'; set_solver).
      destruct (co_inc1 _ HC _ _ Hv Hin) as (n & [k Hk]%elem_of_list_lookup & <- & _).
      apply wpe_bind. eapply wpe_get_net; [by apply co_nmap_ok|by eapply elem_of_list_lookup_2|].
      apply wpe_ret. rewrite fmap_app, zsum_app. csimpl. rewrite zsum_cons, zsum_nil.
      rewrite (cost_of_id H k n); [lia|by apply co_nmap_ok|done].
    + intros s ->. apply wpe_ret. fold (cost_sum H v). pose proof (Hle v Hv).
      split; [gdec; lia|]. intros u Hu. apply elem_of_app in Hu as [Hu|Hu].
      * specialize (Hds u Hu). gdec; lia.
      * apply elem_of_list_singleton in Hu as ->. gdec; lia.
  - intros m [Hm Hall]. by apply wpe_ret, HQ.
Qed.

Lemma wpe_compute_gain E H C v (Q : Z → Prop) :
  consistent H → length C = length (h_nets H) → v ∈ h_verts H → v_part v = 0 ∨ v_part v = 1 →
  Q (gain_fun H C v) → wpe E (compute_gain H C v) Q.
Proof.
  intros HC Hl Hv Hp HQ. unfold compute_gain. rewrite flip_part_01 by done.
  eapply (wpe_foldM E _ (λ ds g, g = zsum ((λ nid, contr_of H C nid (v_part v)) <$> ds))).
  - done.
  - intros ds nid ts g Heq ->. assert (nid ∈ v_nets v) as Hin by (rewrite Heq; set_solver).
    destruct (co_inc1 _ HC _ _ Hv Hin) as (n & [k Hk]%elem_of_list_lookup & <- & _).
    destruct (lookup_lt_is_Some_2 C k) as [c Hc]; [rewrite Hl; by eapply lookup_lt_Some|].
    pose proof (co_nmap_ok _ HC) as HN.
    apply wpe_bind. eapply wpe_cget; [done|done|done|done|done|]. fold (sel c (v_part v)).
    rewrite fmap_app, zsum_app. csimpl. rewrite zsum_cons, zsum_nil.
    assert (contr_of H C (n_id n) (v_part v) = contr c (n_cost n) (v_part v)) as ->.
    { unfold contr_of. by rewrite (cnt_of_id H C k n c), (cost_of_id H k n). }
    unfold contr. apply wpe_bind.
    eapply (wpe_mono _ _ (λ g1, g1 = zsum ((λ nid, contr_of H C nid (v_part v)) <$> ds) + (if decide (sel c (v_part v) = 1) then n_cost n else 0))).
    { gdec; [|apply wpe_ret; lia]. apply wpe_bind. eapply wpe_get_net; [done|by eapply elem_of_list_lookup_2|]. by apply wpe_ret. }
    intros g1 ->. apply wpe_bind. eapply wpe_cget; [done|done|done|done|lia|]. fold (sel c (1 - v_part v)).
    gdec; [|apply wpe_ret; lia]. apply wpe_bind. eapply wpe_get_net; [done|by eapply elem_of_list_lookup_2|]. apply wpe_ret. lia.
  - intros g ->. done.
Qed.

Lemma wpe_gs_new E H C B (Q : gstruct → Prop) :
  consistent H → bisected H → length C = length (h_nets H) → 0 ≤ B < - long_min → costs_ok B H →
  (∀ S G, costs_ok S H → gs_inv S ∅ (gain_fun H C) G → g_H G = H → g_C G = C → Q G) →
  wpe E (gs_new H C) Q.
Proof.
  intros HC HB Hl HBr [Hc0 HcB] HQ. unfold gs_new. apply wpe_bind.
  eapply (wpe_compute_size _ _ B); [done|lia|done|]. intros S HS HcS.
  set (F := gain_fun H C). set (n := length (h_verts H)).
  assert (∀ v, v ∈ h_verts H → -S ≤ F v ≤ S) as HF.
  { intros v Hv. pose proof (gsum_bound (contr_of H C) H v (contr_of_bound H C Hc0)) as Hb.
    specialize (HcS v Hv). unfold F, gain_fun. lia. }
  pose proof (gb_new_rep S ltac:(lia)) as Hnew.
  assert (index_to_gain (gb_new (2 * S + 1)) 0 = -S) as Hi0.
  { rewrite (gb_rep_i2g _ _ _ _ Hnew). lia. }
  rewrite Hi0. apply wpe_bind.
  pose (T := λ k p id g, ∃ j v, (j < k)%nat ∧ h_verts H !! j = Some v ∧ v_id v = id ∧ v_part v = p ∧ g = F v).
  eapply (wpe_foldM E _ (λ ds st, length st.1.2 = n ∧
    (∀ j v, (j < length ds)%nat → h_verts H !! j = Some v → st.1.2 !! j = Some (F v)) ∧
    ∀ p, p = 0 ∨ p = 1 →
      gb_rep S (sel st.1.1 p) (T (length ds) p) ∧ gb_max (sel st.1.1 p) = 2 * S + 1 ∧
      -S ≤ sel st.2 p ≤ S ∧
      (∀ j v, (j < length ds)%nat → h_verts H !! j = Some v → v_part v = p → F v ≤ sel st.2 p))).
  - simpl. split_and!; [by rewrite replicate_length|intros; lia|].
    intros p Hp. assert (∀ A (x : A), sel (x, x) p = x) as Hsel by (intros; unfold sel; by gdec).
    rewrite !Hsel. split_and!; [|apply gb_new_max|lia|lia|intros; lia].
    eapply gb_rep_ext; [|exact Hnew]. intros id g. split; [done|]. intros (j & v & Hj & _). lia.
  - intros ds k ts [[bs gs] mgs] (-> & Hlt)%seq_split (Hgl & Hgs & Hp). simpl in *.
    destruct (lookup_lt_is_Some_2 (h_verts H) (length ds)) as [v Hv]; [done|].
    pose proof (elem_of_list_lookup_2 _ _ _ Hv) as Hvin. pose proof (HB v Hvin) as Hpv.
    apply wpe_bind. eapply wpe_vert_at; [done|]. apply wpe_bind. apply wpe_compute_gain; [done..|].
    change (gain_fun H C v) with (F v).
    destruct (Hp _ Hpv) as (Hrep & Hmax & Hmg & Hmg').
    apply wpe_bind, wpe_psel; [done|]. apply wpe_bind. eapply wpe_gb_insert_init; [done|done|by apply HF|].
    intros b' Hrep' Hmax'. apply wpe_bind, wpe_pset; [done|]. apply wpe_bind.
    destruct (lookup_lt_is_Some_2 gs (length ds)) as [y Hy]; [lia|]. eapply wpe_nidx; [done|].
    apply wpe_bind, wpe_psel; [done|]. apply wpe_bind.
    eapply (wpe_mono _ _ (λ m, m = if decide (F v > sel mgs (v_part v)) then upd2 mgs (v_part v) (F v) else mgs)).
    { gdec; [by apply wpe_pset|by apply wpe_ret]. }
    intros mgs' Hmgs'. apply wpe_ret. simpl. rewrite app_length. simpl. split_and!.
    + by rewrite insert_length.
    + intros j x Hj Hx. destruct (decide (j = length ds)) as [->|Hne].
      * rewrite list_lookup_insert by lia. congruence.
      * rewrite list_lookup_insert_ne by done. apply Hgs; [lia|done].
    + intros p Hp'. destruct (Hp _ Hp') as (Hrepp & Hmaxp & Hmgp & Hmgp').
      assert (sel mgs' p = if decide (p = v_part v) then Z.max (sel mgs p) (F v) else sel mgs p) as ->.
      { rewrite Hmgs'. destruct (decide (F v > sel mgs (v_part v))) as [Hgt|Hgt].
        - rewrite sel_upd2 by done. gdec as He; [subst p; lia|done].
        - gdec as He; [subst p; lia|done]. }
      rewrite sel_upd2 by done. pose proof (HF v Hvin) as HFv. destruct (decide (p = v_part v)) as [->|Hne].
      * split_and!; [|done|lia|lia|].
        -- eapply gb_rep_ext; [|exact Hrep']. intros id g. unfold T_add, T. split.
           ++ intros [(j & x & Hj & Hx & ? & ? & ?)|[-> ->]]; [exists j, x; split_and!; try done; lia|].
              exists (length ds), v. split_and!; try done. lia.
           ++ intros (j & x & Hj & Hx & ? & ? & ?). destruct (decide (j = length ds)) as [->|Hne].
              ** right. assert (x = v) as -> by congruence. done.
              ** left. exists j, x. split_and!; try done. lia.
        -- intros j x Hj Hx Hxp. destruct (decide (j = length ds)) as [->|Hne].
           ++ assert (x = v) as -> by congruence. lia.
           ++ specialize (Hmgp' j x ltac:(lia) Hx Hxp). lia.
      * split_and!; [|done|lia|lia|].
        -- eapply gb_rep_ext; [|exact Hrepp]. intros id g. unfold T. split.
           ++ intros (j & x & Hj & Hx & ? & ? & ?). exists j, x; split_and!; try done; lia.
           ++ intros (j & x & Hj & Hx & ? & ? & ?). exists j, x. split_and!; try done.
              assert (j ≠ length ds); [|lia]. intros ->. assert (x = v) as -> by congruence. congruence.
        -- intros j x Hj Hx Hxp. apply (Hmgp' j x); try done.
           assert (j ≠ length ds); [|lia]. intros ->. assert (x = v) as -> by congruence. congruence.
  - intros [[bs gs] mgs] (Hgl & Hgs & Hp). simpl in *. rewrite seq_length in *. apply wpe_ret.
    apply (HQ S); [done| |done..]. split; simpl; try done.
    + intros i v Hv. rewrite decide_False by set_solver. apply Hgs; [by eapply lookup_lt_Some|done].
    + assert (∀ p b m, p = 0 ∨ p = 1 → b = sel bs p → m = sel mgs p →
        gb_ok S (set_max_present b (gain_to_index b m)) (λ id g, ∃ v, v ∈ h_verts H ∧ v_id v = id ∧ v_part v = p ∧ id ∉ (∅ : gset Z) ∧ g = F v)) as Hfin.
      { intros p b m Hp' -> ->. destruct (Hp _ Hp') as (Hrep & Hmax & Hmg & Hmg').
        rewrite (gb_rep_g2i _ _ _ _ Hrep). apply (gb_ok_ext S _ (T n p)).
        - intros id g. unfold T. split.
          + intros (j & x & Hj & Hx & ? & ? & ?). exists x. split_and!; try done; by eapply elem_of_list_lookup_2.
          + intros (x & [j Hx]%elem_of_list_lookup & ? & ? & _ & ?). exists j, x. split_and!; try done. by eapply lookup_lt_Some.
        - split; simpl; [|intros id g (j & x & Hj & Hx & _ & Hxp & ->); specialize (Hmg' j x Hj Hx Hxp); lia|lia].
          by destruct Hrep. }
      intros p [-> | ->]; apply Hfin; auto.
    + lia.
Qed.

(** *** queries *)
Definition same_gs (G G' : gstruct) : Prop := g_H G' = g_H G ∧ g_C G' = g_C G ∧ g_gains G' = g_gains G.

Lemma gs_inv_with_b S L F G p b : gs_inv S L F G → p = 0 ∨ p = 1 →
  gb_ok S b (λ id g, ∃ v, v ∈ h_verts (g_H G) ∧ v_id v = id ∧ v_part v = p ∧ id ∉ L ∧ g = F v) →
  gs_inv S L F (with_b (upd2 (g_b G) p b) G).
Proof.
  intros [? ? ? ? Hb ?] Hp Hk. split; try done. intros q Hq. simpl. rewrite sel_upd2 by done.
  gdec; [by subst|by apply Hb].
Qed.

Lemma wpe_gs_next E S L F G p (Q : Z * gstruct → Prop) :
  gs_inv S L F G → p = 0 ∨ p = 1 →
  (∀ G', gs_inv S L F G' → same_gs G G' → (∀ v, v ∈ h_verts (g_H G) → v_part v = p → v_id v ∈ L) → Q (-1, G')) →
  (∀ G' v, gs_inv S L F G' → same_gs G G' → v ∈ h_verts (g_H G) → v_part v = p → v_id v ∉ L →
     (∀ u, u ∈ h_verts (g_H G) → v_part u = p → v_id u ∉ L → F u ≤ F v) → Q (v_id v, G')) →
  wpe E (gs_next G p) Q.
Proof.
  intros HI Hp HQ1 HQ2. apply wpe_bind, wpe_psel; [done|]. apply wpe_bind.
  eapply wpe_gb_next; [by apply (gi_b _ _ _ _ HI)|..].
  - intros b' Hb' He. apply wpe_bind, wpe_pset; [done|]. apply wpe_ret, HQ1; [by apply gs_inv_with_b|done|].
    intros v Hv Hvp. destruct (decide (v_id v ∈ L)) as [?|HL]; [done|]. exfalso. apply (He (v_id v) (F v)). by exists v.
  - intros x g b' Hb' (v & Hv & <- & Hvp & HL & ->) Hm. apply wpe_bind, wpe_pset; [done|].
    apply wpe_ret, HQ2; [by apply gs_inv_with_b|done..|]. intros u Hu Hup HuL. apply (Hm (v_id u)). by exists u.
Qed.

Lemma wpe_gs_gain_next E S L F G p (Q : Z * gstruct → Prop) :
  gs_inv S L F G → p = 0 ∨ p = 1 →
  (∀ G', gs_inv S L F G' → same_gs G G' → (∀ v, v ∈ h_verts (g_H G) → v_part v = p → v_id v ∈ L) → Q (long_min, G')) →
  (∀ G' v, gs_inv S L F G' → same_gs G G' → v ∈ h_verts (g_H G) → v_part v = p → v_id v ∉ L →
     (∀ u, u ∈ h_verts (g_H G) → v_part u = p → v_id u ∉ L → F u ≤ F v) → Q (F v, G')) →
  wpe E (gs_gain_next G p) Q.
Proof.
  intros HI Hp HQ1 HQ2. apply wpe_bind, wpe_psel; [done|]. apply wpe_bind.
  eapply wpe_gb_gain_next; [by apply (gi_b _ _ _ _ HI)|..].
  - intros b' Hb' He. apply wpe_bind, wpe_pset; [done|]. apply wpe_ret, HQ1; [by apply gs_inv_with_b|done|].
    intros v Hv Hvp. destruct (decide (v_id v ∈ L)) as [?|HL]; [done|]. exfalso. apply (He (v_id v) (F v)). by exists v.
  - intros x g b' Hb' (v & Hv & <- & Hvp & HL & ->) Hm. apply wpe_bind, wpe_pset; [done|].
    apply wpe_ret, HQ2; [by apply gs_inv_with_b|done..|]. intros u Hu Hup HuL. apply (Hm (v_id u)). by exists u.
Qed.


Lemma same_gs_trans G G1 G2 : same_gs G G1 → same_gs G1 G2 → same_gs G G2.
Proof. unfold same_gs. naive_solver congruence. Qed.

Lemma wpe_gs_done E S L F G (Q : bool * gstruct → Prop) :
  gs_inv S L F G → no_sentinel (g_H G) →
  (∀ G', gs_inv S L F G' → same_gs G G' → (∀ v, v ∈ h_verts (g_H G) → v_id v ∈ L) → Q (true, G')) →
  (∀ G' v, gs_inv S L F G' → same_gs G G' → v ∈ h_verts (g_H G) → v_id v ∉ L → Q (false, G')) →
  wpe E (gs_done G) Q.
Proof.
  intros HI Hns HQ1 HQ2. apply wpe_bind. eapply wpe_gs_next; [done|by left|..].
  - intros G1 HI1 Hs1 He1. simpl. apply wpe_bind.
    pose proof Hs1 as (HH1 & _). eapply wpe_gs_next; [done|by right|..].
    + intros G2 HI2 Hs2 He2. apply wpe_ret, HQ1; [done|by eapply same_gs_trans|].
      intros v Hv. rewrite HH1 in He2. destruct (gi_bis _ _ _ _ HI v Hv); auto.
    + intros G2 v HI2 Hs2 Hv Hvp HL _. rewrite HH1 in Hv. apply wpe_ret. simpl. rewrite bool_decide_false by by apply Hns.
      eapply HQ2; [done|by eapply same_gs_trans|done..].
  - intros G1 v HI1 Hs1 Hv Hvp HL _. simpl. rewrite decide_False by by apply Hns. apply wpe_ret. by eapply HQ2.
Qed.

Lemma wpe_bucket_done E S L F G p (Q : bool * gstruct → Prop) :
  gs_inv S L F G → no_sentinel (g_H G) → p = 0 ∨ p = 1 →
  (∀ G', gs_inv S L F G' → same_gs G G' → (∀ v, v ∈ h_verts (g_H G) → v_part v = p → v_id v ∈ L) → Q (true, G')) →
  (∀ G' v, gs_inv S L F G' → same_gs G G' → v ∈ h_verts (g_H G) → v_part v = p → v_id v ∉ L → Q (false, G')) →
  wpe E (gs_bucket_done G p) Q.
Proof.
  intros HI Hns Hp HQ1 HQ2. apply wpe_bind. eapply wpe_gs_next; [done|done|..].
  - intros G1 HI1 Hs1 He1. apply wpe_ret. simpl. by apply HQ1.
  - intros G1 v HI1 Hs1 Hv Hvp HL _. apply wpe_ret. simpl. rewrite bool_decide_false by by apply Hns. by eapply HQ2.
Qed.

(** best unlocked vertex of a side *)
Definition best_of (H : hg) (L : gset Z) (F : vertex → Z) (p : Z) (v : vertex) : Prop :=
  v ∈ h_verts H ∧ v_part v = p ∧ v_id v ∉ L ∧
  ∀ u, u ∈ h_verts H → v_part u = p → v_id u ∉ L → F u ≤ F v.

(** what part_next decides, given the two best vertices it looked at *)
Definition part_choice (H : hg) (L : gset Z) (F : vertex → Z) (x0 x1 p : Z) : Prop :=
  ∃ u0 u1, best_of H L F 0 u0 ∧ best_of H L F 1 u1 ∧
  let g0 := if decide (x0 - v_weight u0 > 0) then F u0 else long_min in
  let g1 := if decide (x1 - v_weight u1 > 0) then F u1 else long_min in
  (p = 0 ∧ g1 ≤ g0) ∨ (p = 1 ∧ g0 ≤ g1).

Lemma best_of_F H L F p u v : best_of H L F p u → best_of H L F p v → F u = F v.
Proof. intros (? & ? & ? & Hu) (? & ? & ? & Hv). apply Z.le_antisymm; auto. Qed.

Lemma wpe_part_next E S L F G x0 x1 v (Q : Z * gstruct → Prop) :
  gs_inv S L F G → no_sentinel (g_H G) → v ∈ h_verts (g_H G) → v_id v ∉ L →
  (∀ G' p u, gs_inv S L F G' → same_gs G G' → p = 0 ∨ p = 1 →
     best_of (g_H G) L F p u →
     (∀ w, w ∈ h_verts (g_H G) → v_part w = 1 - p → v_id w ∈ L) ∨ part_choice (g_H G) L F x0 x1 p →
     Q (p, G')) →
  wpe E (part_next G x0 x1) Q.
Proof.
  intros HI Hns Hv HL HQ. pose proof (gi_bis _ _ _ _ HI) as HB. pose proof (gi_cons _ _ _ _ HI) as HC.
  apply wpe_bind. eapply wpe_gs_next; [done|by left|..].
  - intros G1 HI1 Hs1 He1. apply wpe_bind. pose proof Hs1 as (HH1 & _). eapply wpe_gs_next; [done|by right|..]; simpl; rewrite HH1.
    + intros G2 HI2 Hs2 He2. exfalso. apply HL. destruct (HB v Hv); auto.
    + intros G2 u HI2 Hs2 Hu Hup HuL Hum. 
      apply wpe_ret. eapply (HQ _ _ u); [done|by eapply same_gs_trans|auto|done|by left].
  - intros G1 u0 HI1 Hs1 Hu0 Hu0p Hu0L Hu0m. apply wpe_bind. pose proof Hs1 as (HH1 & _). eapply wpe_gs_next; [done|by right|..]; simpl; rewrite HH1.
    + intros G2 HI2 Hs2 He2. rewrite decide_False by by apply Hns.
      apply wpe_ret. eapply (HQ _ _ u0); [done|by eapply same_gs_trans|auto|done|by left].
    + intros G2 u1 HI2 Hs2 Hu1 Hu1p Hu1L Hu1m. rewrite !decide_False by by apply Hns.
      assert (same_gs G G2) as Hs by by eapply same_gs_trans. pose proof Hs as (HH2 & _).
      assert (best_of (g_H G) L F 0 u0) as Hb0 by done. assert (best_of (g_H G) L F 1 u1) as Hb1 by done.
      assert (∀ G p x u (K : Z * gstruct → M (Z * gstruct)), gs_inv S L F G → p = 0 ∨ p = 1 → best_of (g_H G) L F p u →
        (∀ G', gs_inv S L F G' → same_gs G G' → wpe E (K (if decide (x - v_weight u > 0) then F u else long_min, G')) Q) →
        wpe E (a <- (if decide (x - v_weight u > 0) then gs_gain_next G p else ret (long_min, G)) ;; K a) Q) as Hstep.
      { intros G0 p x u K HI0 Hp Hbu HK. apply wpe_bind. gdec.
        - eapply wpe_gs_gain_next; [done|done|..].
          + intros G' _ _ He. exfalso. destruct Hbu as (? & ? & ? & _). naive_solver.
          + intros G' w HI' Hs' Hw Hwp HwL Hwm. rewrite (best_of_F (g_H G0) L F p w u) by done. by apply HK.
        - apply wpe_ret. by apply HK. }
      rewrite HH2. pose proof (co_vmap_ok _ HC) as HV.
      apply wpe_bind. eapply wpe_vert; [done|done|].
      apply Hstep; [done|auto|by rewrite HH2|]. intros G3 HI3 Hs3. simpl. apply wpe_bind. eapply wpe_vert; [done|done|].
      assert (g_H G3 = g_H G) as HH3 by (destruct Hs3 as (-> & _); done).
      apply Hstep; [done|auto|by rewrite HH3|]. intros G4 HI4 Hs4. simpl.
      assert (same_gs G G4) as Hs04 by (eapply same_gs_trans; [done|]; by eapply same_gs_trans).
      set (g0 := if decide (x0 - v_weight u0 > 0) then F u0 else long_min).
      set (g1 := if decide (x1 - v_weight u1 > 0) then F u1 else long_min).
      gdec; [|gdec].
      * apply wpe_ret. eapply (HQ _ _ u0); [done|done|auto|done|]. right. exists u0, u1. split_and!; [done..|]. left. split; [done|]. fold g0 g1. lia.
      * apply wpe_ret. eapply (HQ _ _ u1); [done|done|auto|done|]. right. exists u0, u1. split_and!; [done..|]. right. split; [done|]. fold g0 g1. lia.
      * apply wpe_bind, wpe_rng. intros r Hr. apply wpe_ret.
        assert (r `mod` 2 = 0 ∨ r `mod` 2 = 1) as Hm by (pose proof (Z.mod_pos_bound r 2); lia).
        destruct Hm as [Hm|Hm]; rewrite Hm.
        -- eapply (HQ _ _ u0); [done|done|auto|done|]. right. exists u0, u1. split_and!; [done..|]. left. split; [done|]. fold g0 g1. lia.
        -- eapply (HQ _ _ u1); [done|done|auto|done|]. right. exists u0, u1. split_and!; [done..|]. right. split; [done|]. fold g0 g1. lia.
Qed.

(** *** gains are cut decreases *)
Lemma zsum_Forall2 {A B} (R : A → B → Prop) (f : A → Z) (g : B → Z) l k :
  Forall2 R l k → (∀ x y, x ∈ l → R x y → f x = g y) → zsum (f <$> l) = zsum (g <$> k).
Proof.
  induction 1 as [|x y l k HR Hl IH]; intros Hfg; [done|]. csimpl. rewrite !zsum_cons, IH; [|set_solver].
  rewrite (Hfg x y); [done|set_solver|done].
Qed.

Lemma zsum_vnets H v (f : Z → Z) : consistent H → v ∈ h_verts H →
  zsum (f <$> v_nets v) = zsum ((λ n, if decide (n_id n ∈ v_nets v) then f (n_id n) else 0) <$> h_nets H).
Proof.
  intros HC Hv. rewrite <-(zsum_filter_if (λ n, n_id n ∈ v_nets v) (λ n, f (n_id n))).
  rewrite (list_fmap_compose n_id f). apply zsum_perm, fmap_Permutation. apply NoDup_Permutation.
  - by apply (co_vnets _ HC).
  - pose proof (co_nid _ HC) as Hnd. apply NoDup_fmap_2_strong; [|by eapply NoDup_filter, NoDup_fmap_1].
    intros x y [_ Hx]%elem_of_list_filter [_ Hy]%elem_of_list_filter Heq. 
    apply elem_of_list_lookup in Hx as [i Hi]. apply elem_of_list_lookup in Hy as [j Hj].
    assert (i = j) as -> by (by eapply NoDup_fmap_inj). congruence.
  - intros nid. rewrite elem_of_list_fmap. split.
    + intros Hin. destruct (co_inc1 _ HC _ _ Hv Hin) as (n & Hn & <- & _). exists n. split; [done|]. by apply elem_of_list_filter.
    + intros (n & -> & [Hin _]%elem_of_list_filter). done.
Qed.

Lemma zcount_nonneg {A} (P : A → Prop) {HP : ∀ x, Decision (P x)} (l : list A) : 0 ≤ zcount P l.
Proof. unfold zcount. lia. Qed.

Lemma cut01_diff H H1 C v :
  consistent H → bisected H → v ∈ h_verts H → exact_counts H C →
  Forall2 (λ n n', n_cost n' = n_cost n ∧ ∀ p, p = 0 ∨ p = 1 →
    count_in H1 n' p = count_in H n p + (if decide (n_id n ∈ v_nets v) then (if decide (p = 1 - v_part v) then 1 else -1) else 0))
    (h_nets H) (h_nets H1) →
  cut01 H1 = cut01 H - gain_fun H C v.
Proof.
  intros HC HB Hv HCt Hf2. unfold cut01.
  assert (gain_fun H C v = zsum ((λ n, if decide (n_id n ∈ v_nets v) then contr_of H C (n_id n) (v_part v) else 0) <$> h_nets H)) as Hg.
  { unfold gain_fun, gsum. by rewrite (zsum_vnets H v (λ nid, contr_of H C nid (v_part v))). }
  assert (zsum ((λ n, net_cut01 H n + -1 * (if decide (n_id n ∈ v_nets v) then contr_of H C (n_id n) (v_part v) else 0)) <$> h_nets H)
    = zsum (net_cut01 H1 <$> h_nets H1)) as Hs.
  { eapply zsum_Forall2; [exact Hf2|]. intros n n' Hn [Hcost Hcnt]. pose proof Hn as [k Hk]%elem_of_list_lookup.
    unfold net_cut01. rewrite !Hcnt, Hcost by auto. pose proof (HB v Hv) as Hp.
    destruct (decide (n_id n ∈ v_nets v)) as [Hin|Hin].
    - assert (contr_of H C (n_id n) (v_part v) = contr (count_in H n 0, count_in H n 1) (n_cost n) (v_part v)) as ->.
      { unfold contr_of. pose proof (co_nmap_ok _ HC) as HN.
        rewrite (cnt_of_id H C k n (count_in H n 0, count_in H n 1)), (cost_of_id H k n); [done..| |]; [done|by apply exact_counts_lookup]. }
      assert (1 ≤ count_in H n (v_part v)).
      { apply (zcount_one _ _ (v_id v)); [by apply (incidence_iff H v n)|]. apply part_of_elem; [apply (co_vid _ HC)|done]. }
      pose proof (zcount_nonneg (λ u, part_of H u = 0) (n_verts n)) as Hz0. fold (count_in H n 0) in Hz0.
      pose proof (zcount_nonneg (λ u, part_of H u = 1) (n_verts n)) as Hz1. fold (count_in H n 1) in Hz1.
      unfold contr. destruct Hp as [Hp|Hp]; rewrite Hp in *; simpl in *; unfold sel; simpl; repeat case_decide; try done; lia.
    - rewrite !Z.add_0_r. lia. }
  rewrite <-Hs, zsum_fmap_add, zsum_fmap_mul, Hg. lia.
Qed.

Lemma moved_cut01 H H' C v : consistent H → bisected H → v ∈ h_verts H → moved v H H' → exact_counts H C →
  cut01 H' = cut01 H - gain_fun H C v.
Proof.
  intros HC HB Hv HM HCt. apply cut01_diff; [done..|]. pose proof (ss_nets _ _ (mv_shape _ _ _ HM)) as Hf2.
  apply Forall2_same_length_lookup_2; [by eapply Forall2_length|]. intros i n n' Hn Hn'.
  pose proof (Forall2_lookup_lr _ _ _ _ _ _ Hf2 Hn Hn') as (_ & Hpm & Hc & _). split; [done|].
  intros p Hp. apply moved_count_p; try done. by eapply elem_of_list_lookup_2.
Qed.


Lemma lambda_ext σ σ' vs vs' : vs ≡ₚ vs' → (∀ u, u ∈ vs → σ u = σ' u) → lambda σ vs = lambda σ' vs'.
Proof.
  intros Hp Hs. unfold lambda, parts_touched. f_equal. f_equal. apply set_eq. intros x.
  rewrite !elem_of_list_to_set, !elem_of_list_fmap. split; intros (u & -> & Hu).
  - exists u. split; [by apply Hs|]. by rewrite <-Hp.
  - rewrite <-Hp in Hu. exists u. split; [by rewrite Hs|done].
Qed.
Lemma cut_net_size_ext H H' σ σ' : same_shape H H' → (∀ u, σ u = σ' u) →
  cut_net_size (net_list H) σ = cut_net_size (net_list H') σ'.
Proof.
  intros Hs Hσ. unfold cut_net_size, net_list. rewrite <-!list_fmap_compose. eapply zsum_Forall2; [apply (ss_nets _ _ Hs)|].
  intros n n' Hn (_ & Hp & Hc & _). simpl. rewrite (lambda_ext σ σ' _ (n_verts n')) by auto. by rewrite Hc.
Qed.

Lemma moved_flip_cut H H' v : consistent H → v ∈ h_verts H → moved v H H' → cut_net H' = flip_cut H v.
Proof.
  intros HC Hv HM. unfold cut_net, flip_cut. symmetry. apply cut_net_size_ext; [apply HM|].
  intros u. symmetry. by apply moved_part_of.
Qed.

Lemma gain_fun_flip H C v : consistent H → bisected H → nets_sorted H → exact_counts H C → v ∈ h_verts H →
  gain_fun H C v = cut_net H - flip_cut H v.
Proof.
  intros HC HB HS HCt Hv.
  assert (wp (move_sorted H C (v_id v)) (λ H', moved v H H')) as Hw by (by apply wpe_move_sorted).
  apply wp_run with (w := w0) in Hw as (H' & _ & _ & HM).
  rewrite <-(moved_flip_cut H H' v) by done.
  rewrite !cut_net_cut01; try done; [|by eapply same_shape_consistent; [apply HM|]|by eapply moved_bisected].
  rewrite (moved_cut01 H H' C v) by done. lia.
Qed.
