(** The gains after an exchange of counts, on one processor. *)
From Verif Require Export KparGains.

Lemma wpe_update_gains_any (E : err → Prop) S L F G n c c' (Q : gstruct → Prop) :
  E UB → gs_inv S L F G → n ∈ h_nets (g_H G) →
  (∀ F' G', gs_inv S L F' G' → g_H G' = g_H G → g_C G' = g_C G → Q G') →
  wpe E (update_gains G n c c') Q.
Proof.
  intros HE HI Hn HQ. pose proof (gi_cons _ _ _ _ HI) as HC. set (H := g_H G) in *.
  assert (∀ u, u ∈ n_verts n → u ∈ vids H) as Hnv by (intros u; by apply net_in_vids).
  set (P G' := (∃ F', gs_inv S L F' G') ∧ g_H G' = H ∧ g_C G' = g_C G).
  assert (∀ G1 d, P G1 → wpe E (foldM (λ G u, add_gain G u d) (n_verts n) G1) P) as Hall.
  { intros G1 d ([F1 HI1] & HH1 & HC1). eapply wpe_add_all_any; [done|done|rewrite HH1; done|]. intros F2 G2 HI2 HH2 HC2. split; [eauto|]. split; congruence. }
  assert (∀ G1 q d, P G1 → wpe E (u <- boundary n q ;; x <- vert H u ;; if decide (v_part x = q) then add_gain G1 u d else ret G1) P) as Hone.
  { intros G1 q d ([F1 HI1] & HH1 & HC1). apply wpe_bind, wpe_boundary_any; [done|]. intros u Hu.
    apply wpe_bind. eapply wpe_vert_id; [by apply co_vmap_ok|by apply Hnv|]. intros x Hx Hid Hpx.
    case_decide; [|apply wpe_ret; split; [eauto|done]].
    eapply wpe_add_gain_any; [done|done|rewrite HH1; by apply Hnv|]. intros F2 G2 HI2 HH2 HC2. split; [eauto|]. split; congruence. }
  assert (P G) as H0 by (split; [eauto|done]).
  unfold update_gains. fold H.
  apply wpe_bind, wpe_mono with P; [case_decide; [apply Hall|apply wpe_ret]; done|]. intros G1 H1.
  apply wpe_bind, wpe_mono with P; [case_decide; [apply Hone|apply wpe_ret]; done|]. intros G2 H2.
  apply wpe_bind, wpe_mono with P; [case_decide; [apply Hone|apply wpe_ret]; done|]. intros G3 H3.
  apply wpe_bind, wpe_mono with P; [case_decide; [apply Hall|apply wpe_ret]; done|]. intros G4 H4.
  apply wpe_bind, wpe_mono with P; [case_decide; [apply Hone|apply wpe_ret]; done|]. intros G5 H5.
  apply wpe_mono with P; [case_decide; [apply Hone|apply wpe_ret]; done|]. intros G6 ([F6 HI6] & HH6 & HC6). by eapply HQ.
Qed.

(** the gains for the counts [C], with the first [j] counts replaced by those of [C'] *)
Lemma wpe_gain_loop (E : err → Prop) S L G C' (Q : gstruct → Prop) :
  let H := g_H G in
  gok E S L G → nets_sorted H → costs_ok S H → dominates H (g_C G) → dominates H C' →
  (∀ i n c, h_nets H !! i = Some n → g_C G !! i = Some c → fst c + snd c = n_gsize n) →
  (∀ i n c, h_nets H !! i = Some n → C' !! i = Some c → fst c + snd c = n_gsize n) →
  E UB ∨ (∀ n, n ∈ h_nets H → n_verts n ≠ []) →
  (∀ G', g_H G' = H → g_C G' = g_C G → gok E S L (with_C C' G') → Q G') →
  wpe E (foldM (λ G i, n <- nidx (h_nets H) i ;; c0 <- nidx (fst <$> C') i ;; c <- nidx (g_C G) i ;;
      if decide (c0 ≠ fst c) then update_gains G n c (c0, n_gsize n - c0) else ret G) (seq 0 (length (h_nets H))) G) Q.
Proof.
  intros H Hok HS Hcs [Hl Hd] [Hl' Hd'] Hsum Hsum' Hne HQ.
  assert (∀ i, (i < length (h_nets H))%nat → ∃ n c c', h_nets H !! i = Some n ∧ g_C G !! i = Some c ∧ C' !! i = Some c') as Hat.
  { intros i Hi. destruct (lookup_lt_is_Some_2 (h_nets H) i Hi) as [n Hn]. destruct (lookup_lt_is_Some_2 (g_C G) i) as [c Hc]; [rewrite Hl; done|].
    destruct (lookup_lt_is_Some_2 C' i) as [c' Hc']; [rewrite Hl'; done|]. eauto 10. }
  assert (E UB ∧ (∃ F, gs_inv S L F G) ∨ gs_inv S L (gain_fun H (g_C G)) G ∧ ∀ n, n ∈ h_nets H → n_verts n ≠ []) as [(HE & F & HF)|[HI Hne']].
  { destruct Hok as [HI|[HE HF]]; [|by left]. destruct Hne as [HE|Hne']; [left; eauto|by right]. }
  - apply (wpe_foldM_seq E _ (λ _ G', g_H G' = H ∧ g_C G' = g_C G ∧ ∃ F', gs_inv S L F' G')); [eauto| |].
    + intros i G1 Hi (HH1 & HC1 & F1 & HI1). destruct (Hat i Hi) as (n & c & c' & Hn & Hc & Hc').
      apply wpe_bind, wpe_nidx with n; [done|]. apply wpe_bind, wpe_nidx with (fst c'); [by rewrite list_lookup_fmap, Hc'|].
      apply wpe_bind, wpe_nidx with c; [by rewrite HC1|]. case_decide; [|apply wpe_ret; eauto].
      eapply wpe_update_gains_any; [done|done|rewrite HH1; by eapply elem_of_list_lookup_2|]. intros F2 G2 HI2 HH2 HC2. split; [congruence|]. split; [congruence|eauto].
    + intros G1 (HH1 & HC1 & F1 & HI1). apply HQ; [done..|]. right. split; [done|]. exists F1. destruct HI1. by split.
  - pose proof (gi_cons _ _ _ _ HI) as HC. pose proof (gi_bis _ _ _ _ HI) as HB. fold H in HC, HB.
    apply (wpe_foldM_seq E _ (λ j G', g_H G' = H ∧ g_C G' = g_C G ∧ gs_inv S L (gain_fun H (take j C' ++ drop j (g_C G))) G')).
    + rewrite take_0, drop_0. done.
    + intros i G1 Hi (HH1 & HC1 & HI1). destruct (Hat i Hi) as (n & c & c' & Hn & Hc & Hc').
      pose proof (elem_of_list_lookup_2 _ _ _ Hn) as Hnn. pose proof (lookup_lt_Some _ _ _ Hc') as Hil.
      assert (c' = (fst c', n_gsize n - fst c')) as Hc'e by (pose proof (Hsum' i n c' Hn Hc'); destruct c'; simpl in *; f_equal; lia).
      assert (length (take i C') = i) as Hlt by (rewrite take_length; lia).
      assert ((take i C' ++ drop i (g_C G)) !! i = Some c) as Hci.
      { rewrite lookup_app_r by lia. rewrite Hlt, Nat.sub_diag, lookup_drop, Nat.add_0_r. done. }
      assert (<[i := c']> (take i C' ++ drop i (g_C G)) = take (Datatypes.S i) C' ++ drop (Datatypes.S i) (g_C G)) as Hins.
      { rewrite (drop_S _ _ _ Hc), (take_S_r _ _ _ Hc'). rewrite <-Hlt at 1. rewrite <-(Nat.add_0_r (length (take i C'))).
        rewrite insert_app_r. simpl. by rewrite <-app_assoc. }
      apply wpe_bind, wpe_nidx with n; [done|]. apply wpe_bind, wpe_nidx with (fst c'); [by rewrite list_lookup_fmap, Hc'|].
      apply wpe_bind, wpe_nidx with c; [by rewrite HC1|]. rewrite <-Hc'e. case_decide as Hcc.
      * eapply (wpe_update_gains E S L H _ i n c c'); [done..|by apply Hne'| |exact HI1|done|].
        { intros p Hp. split; [by eapply Hd|by eapply Hd']. }
        intros G2 HH2 HC2 HI2. split; [done|]. split; [congruence|]. by rewrite <-Hins.
      * apply wpe_ret. split; [done|]. split; [done|]. rewrite <-Hins.
        assert (c' = c) as -> by (pose proof (Hsum i n c Hn Hc); pose proof (Hsum' i n c' Hn Hc'); destruct c, c'; simpl in *; f_equal; lia).
        by rewrite list_insert_id.
    + intros G1 (HH1 & HC1 & HI1). apply HQ; [done..|]. left. simpl. rewrite HH1.
      rewrite take_ge, drop_ge, app_nil_r in HI1 by lia. destruct HI1. by split.
Qed.
