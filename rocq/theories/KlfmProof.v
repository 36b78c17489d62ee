(** Proofs about KLFM.cpp. *)
From Verif Require Export GainInit Klfm.

(** ** Weights under an assignment *)
Definition pwt (H : hg) (τ : Z → Z) (p : Z) : Z :=
  zsum ((λ v, if decide (τ (v_id v) = p) then v_weight v else 0) <$> h_verts H).

Lemma part_weight_pwt H p : NoDup (v_id <$> h_verts H) → part_weight H p = pwt H (part_of H) p.
Proof.
  intros Hnd. unfold part_weight, pwt. rewrite (zsum_filter_if (λ v, v_part v = p) v_weight).
  apply zsum_fmap_ext. intros v Hv. by rewrite part_of_elem.
Qed.
Lemma pwt_ext H H' τ τ' p : same_shape H H' → (∀ u, τ u = τ' u) → pwt H τ p = pwt H' τ' p.
Proof.
  intros Hs Hτ. eapply zsum_Forall2; [apply (ss_verts _ _ Hs)|]. intros v v' _ (Hid & _ & Hw). by rewrite Hτ, Hid, Hw.
Qed.
Lemma zsum_fmap_diff_one {A} (f g : A → Z) (l : list A) x d :
  NoDup l → x ∈ l → (∀ y, y ∈ l → y ≠ x → g y = f y) → g x = f x + d → zsum (g <$> l) = zsum (f <$> l) + d.
Proof.
  intros Hnd Hx Hne Heq. apply elem_of_list_split in Hx as (l1 & l2 & ->).
  apply NoDup_app in Hnd as (_ & Hnd1 & Hnd2). apply NoDup_cons in Hnd2 as [Hnd2 _].
  rewrite !fmap_app, !zsum_app. csimpl. rewrite !zsum_cons, Heq.
  rewrite (zsum_fmap_ext g f l1), (zsum_fmap_ext g f l2); [lia|..]; intros y Hy; apply Hne; try set_solver.
Qed.
Lemma moved_part_weight v H H' p : consistent H → v ∈ h_verts H → v_part v = 0 ∨ v_part v = 1 → p = 0 ∨ p = 1 → moved v H H' →
  part_weight H' p = part_weight H p + (if decide (p = v_part v) then - v_weight v else v_weight v).
Proof.
  intros HC Hv Hpv Hp HM. assert (consistent H') as HC' by (eapply same_shape_consistent; [apply HM|done]).
  rewrite !part_weight_pwt by (apply co_vid; done). rewrite <-(pwt_ext H H' (part_of H')) by (done || apply HM).
  apply (zsum_fmap_diff_one _ _ _ v); [eapply NoDup_fmap_1, (co_vid _ HC)|done|..].
  - intros y Hy Hne. rewrite (moved_part_of v H H') by done. rewrite (decide_False (P := v_id y = v_id v)); [done|].
    intros Hid. apply Hne. by eapply (vmap_ok_elem_eq H y v (co_vmap_ok _ HC)).
  - rewrite (moved_part_of v H H') by done. rewrite (decide_True (P := v_id v = v_id v)) by done.
    rewrite (part_of_elem H v) by (done || apply (co_vid _ HC)). repeat case_decide; lia.
Qed.

Lemma sel_pws H p : p = 0 ∨ p = 1 → sel (pws H) p = part_weight H p.
Proof. by intros [-> | ->]. Qed.

Lemma wpe_shift_weight E v H H' (Q : Z * Z → Prop) : consistent H → v ∈ h_verts H → v_part v = 0 ∨ v_part v = 1 → moved v H H' →
  Q (pws H') → wpe E (shift_weight (pws H) (v_part v) (v_weight v)) Q.
Proof.
  intros HC Hv Hp HM HQ. unfold shift_weight, padd. rewrite flip_part_01 by done.
  assert (pws H' = (part_weight H 0 + (if decide (0 = v_part v) then - v_weight v else v_weight v),
    part_weight H 1 + (if decide (1 = v_part v) then - v_weight v else v_weight v))) as Heq.
  { unfold pws. rewrite !(moved_part_weight v H H') by auto. done. }
  rewrite Heq in HQ. destruct Hp as [Hp|Hp]; rewrite Hp in *; simpl in *; apply wpe_bind, wpe_ret, wpe_ret; exact HQ.
Qed.

(** ** The invariant *)
Record kinv (H0 H : hg) (C : list (Z * Z)) (ws : Z * Z) : Prop := {
  ki_shape : same_shape H0 H;
  ki_cons : consistent H;
  ki_bis : bisected H;
  ki_sorted : nets_sorted H;
  ki_counts : exact_counts H C;
  ki_ws : ws = pws H;
}.

Lemma kinv_moved H0 H C ws v H' C' : kinv H0 H C ws → v ∈ h_verts H → moved v H H' → exact_counts H' C' → kinv H0 H' C' (pws H').
Proof.
  intros [Hs HC HB HS HCt ->] Hv HM HCt'. split; try done.
  - eapply same_shape_trans; [done|apply HM].
  - eapply same_shape_consistent; [apply HM|done].
  - by eapply moved_bisected.
  - apply HM.
Qed.

Lemma wpe_rollback E H0 H C ws nim (Q : hg * list (Z * Z) * (Z * Z) → Prop) :
  kinv H0 H C ws → NoDup nim → (∀ u, u ∈ nim → u ∈ vids H) →
  (∀ H' C', kinv H0 H' C' (pws H') →
     (∀ u, part_of H' u = if decide (u ∈ nim) then 1 - part_of H u else part_of H u) → Q (H', C', pws H')) →
  wpe E (rollback H C ws nim) Q.
Proof.
  intros HK Hnd Hin HQ.
  eapply (wpe_foldM E _ (λ ds st, kinv H0 st.1.1 st.1.2 st.2 ∧ same_shape H st.1.1 ∧
    ∀ u, part_of st.1.1 u = if decide (u ∈ ds) then 1 - part_of H u else part_of H u)).
  - simpl. split_and!; [done|apply same_shape_refl|done].
  - intros ds u ts [[H1 C1] ws1] Heq (HK1 & Hs1 & Hp1). simpl in *.
    assert (u ∈ vids H1) as Hu. { rewrite <-(same_shape_vids _ _ Hs1). apply Hin. rewrite Heq. set_solver. }
    apply vids_elem in Hu as (v & Hv & <-).
    pose proof HK1 as [Hs HC HB HS HCt ->]. pose proof (HB v Hv) as Hpv.
    apply wpe_bind. eapply wpe_vert; [by apply co_vmap_ok|done|].
    assert (wp (move H1 C1 (v_id v)) (λ hc, moved v H1 hc.1 ∧ exact_counts hc.1 hc.2)) as Hmv by (by apply wpe_move).
    (* the weights are shifted before the move; the result of the move fixes the new weights *)
    assert (∃ H2, moved v H1 H2) as [H2 HM2].
    { apply wp_run with (w := w0) in Hmv as (hc & _ & _ & HM & _). by exists hc.1. }
    apply wpe_bind. eapply wpe_shift_weight; [done|done|done|exact HM2|].
    apply wpe_bind. apply wpe_move; [done..|]. intros H3 C3 HM3 HCt3. apply wpe_ret. simpl.
    assert (pws H2 = pws H3) as ->.
    { unfold pws. by rewrite !(moved_part_weight v H1 H2), !(moved_part_weight v H1 H3) by auto. }
    split_and!; [by eapply kinv_moved| |].
    + eapply same_shape_trans; [done|apply HM3].
    + intros u. rewrite (moved_part_of v H1 H3) by done.
      assert (v_id v ∉ ds) as Hds.
      { rewrite Heq in Hnd. apply NoDup_app in Hnd as (_ & Hnd & _). intros Hd. apply (Hnd _ Hd). set_solver. }
      destruct (decide (u = v_id v)) as [->|Hne].
      * rewrite (decide_True (P := v_id v ∈ ds ++ _)) by set_solver.
        rewrite <-(part_of_elem H1 v) by (done || apply (co_vid _ HC)). rewrite Hp1. by rewrite decide_False.
      * rewrite Hp1. destruct (decide (u ∈ ds)); [rewrite decide_True by set_solver|rewrite decide_False by set_solver]; done.
  - intros [[H1 C1] ws1] (HK1 & Hs1 & Hp1). simpl in *. pose proof (ki_ws _ _ _ _ HK1) as ->. by apply HQ.
Qed.

(** ** Number of unlocked vertices *)
Definition unlocked (G : gstruct) : nat := length (filter (λ g, g ≠ long_min) (g_gains G)).
Lemma filter_length_Forall2 {A B} (P : A → Prop) (R : B → Prop) {HP : ∀ x, Decision (P x)} {HR : ∀ x, Decision (R x)} (l : list A) (k : list B) :
  Forall2 (λ x y, P x ↔ R y) l k → length (filter P l) = length (filter R k).
Proof.
  induction 1 as [|x y l k Hxy Hl IH]; [done|]. rewrite !filter_cons.
  destruct (decide (P x)), (decide (R y)); simpl; naive_solver.
Qed.
Lemma unlocked_spec S L F G : gs_inv S L F G → unlocked G = length (filter (λ u, u ∉ L) (vids (g_H G))).
Proof.
  intros HI. apply filter_length_Forall2. unfold vids. apply Forall2_fmap_r.
  apply Forall2_same_length_lookup_2; [apply (gi_len _ _ _ _ HI)|]. intros i g v Hg Hv.
  rewrite (gi_gains _ _ _ _ HI i v Hv) in Hg. injection Hg as <-.
  pose proof (gs_inv_range _ _ _ _ v HI (elem_of_list_lookup_2 _ _ _ Hv)) as Hr. pose proof (gi_S _ _ _ _ HI) as HS.
  gdec as HL; [naive_solver|]. specialize (Hr HL). split; [done|]. intros _. lia.
Qed.
Lemma unlocked_lt S S' L F F' G G' u : gs_inv S L F G → gs_inv S' ({[u]} ∪ L) F' G' → vids (g_H G') = vids (g_H G) →
  u ∈ vids (g_H G) → u ∉ L → (unlocked G' < unlocked G)%nat.
Proof.
  intros HI HI' Hv Hu HL. rewrite (unlocked_spec _ _ _ _ HI), (unlocked_spec _ _ _ _ HI'), Hv.
  apply elem_of_list_split in Hu as (l1 & l2 & ->). rewrite !filter_app, !filter_cons, !app_length.
  rewrite decide_False by set_solver. rewrite decide_True by done. simpl.
  assert (∀ l, (length (filter (λ x, x ∉ {[u]} ∪ L) l) ≤ length (filter (λ x, x ∉ L) l))%nat) as Hle.
  { intros l. induction l as [|x l IH]; [done|]. rewrite !filter_cons.
    destruct (decide (x ∉ {[u]} ∪ L)); [rewrite decide_True by set_solver; simpl; lia|]. destruct (decide (x ∉ L)); simpl; lia. }
  pose proof (Hle l1). pose proof (Hle l2). lia.
Qed.
Lemma unlocked_le S L F G : gs_inv S L F G → (unlocked G ≤ length (h_verts (g_H G)))%nat.
Proof. intros HI. rewrite <-(gi_len _ _ _ _ HI). apply filter_length. Qed.
Lemma unlocked_same G G' : same_gs G G' → unlocked G' = unlocked G.
Proof. intros (_ & _ & Hg). unfold unlocked. by rewrite Hg. Qed.

(** ** Regime *)

Lemma cost_sum_total H v : consistent H → (∀ n, n ∈ h_nets H → 0 ≤ n_cost n) → v ∈ h_verts H → cost_sum H v ≤ zsum (n_cost <$> h_nets H).
Proof.
  intros HC Hc Hv. unfold cost_sum. rewrite (zsum_vnets H v) by done. apply zsum_fmap_le. intros n Hn.
  pose proof Hn as [k Hk]%elem_of_list_lookup. pose proof (Hc n Hn).
  rewrite (cost_of_id H k n) by (done || by apply co_nmap_ok). gdec; lia.
Qed.
Lemma klfm_pre_shape H H' : klfm_pre H → same_shape H H' → klfm_pre H'.
Proof.
  intros [HC Hi Hc Ht Hw] Hs. split.
  - by eapply same_shape_consistent.
  - intros v' Hv'. pose proof Hv' as [i Hi']%elem_of_list_lookup. destruct (Forall2_lookup_r _ _ _ _ _ (ss_verts _ _ Hs) Hi') as (v & Hv & Hid & _).
    rewrite <-Hid. apply Hi. by eapply elem_of_list_lookup_2.
  - intros n' Hn'. pose proof Hn' as [i Hi']%elem_of_list_lookup. destruct (Forall2_lookup_r _ _ _ _ _ (ss_nets _ _ Hs) Hi') as (n & Hn & _ & _ & Hcc & _).
    rewrite <-Hcc. apply Hc. by eapply elem_of_list_lookup_2.
  - erewrite <-(zsum_Forall2 _ n_cost n_cost); [exact Ht|apply (ss_nets _ _ Hs)|]. by intros n n' _ (_ & _ & ? & _).
  - intros v' Hv'. pose proof Hv' as [i Hi']%elem_of_list_lookup. destruct (Forall2_lookup_r _ _ _ _ _ (ss_verts _ _ Hs) Hi') as (v & Hv & _ & _ & Hww).
    rewrite <-Hww. apply Hw. by eapply elem_of_list_lookup_2.
Qed.

Lemma wpe_gs_new_pre E H C (Q : gstruct → Prop) :
  klfm_pre H → bisected H → length C = length (h_nets H) →
  (∀ S G, costs_ok S H → gs_inv S ∅ (gain_fun H C) G → g_H G = H → g_C G = C → Q G) →
  wpe E (gs_new H C) Q.
Proof.
  intros [HC Hi Hc Ht Hw] HB Hl HQ.
  eapply (wpe_gs_new _ _ _ (zsum (n_cost <$> h_nets H))); [done|done|done| | |done].
  - split; [|unfold long_min; lia]. apply zsum_nonneg. intros x (n & -> & Hn)%elem_of_list_fmap. by apply Hc.
  - split; [done|]. intros v Hv. by apply cost_sum_total.
Qed.

(** ** The pass *)
Section pass.
  Context (E : err → Prop) (H0 : hg) (mx : Z * Z) (opts : options) (cut0 : Z) (S : Z).
  Context (Hpre : klfm_pre H0).

  Definition lim (p : Z) : Z := Z.max (sel mx p) (part_weight H0 p).
  Definition bst (τ : Z → Z) (best : Z) : Prop :=
    cut_net_size (net_list H0) τ = best ∧ ∀ p, p = 0 ∨ p = 1 → pwt H0 τ p ≤ lim p.
  Definition undo (H : hg) (nim : list Z) (u : Z) : Z := if decide (u ∈ nim) then 1 - part_of H u else part_of H u.

  Lemma bst_ext τ τ' best : (∀ u, τ u = τ' u) → bst τ best → bst τ' best.
  Proof.
    intros Hτ [Hc Hp]. split.
    - rewrite <-Hc. apply cut_net_size_ext; [apply same_shape_refl|done].
    - intros p Hp'. rewrite <-(pwt_ext H0 H0 τ); auto. apply same_shape_refl.
  Qed.

  Record pinv (L : gset Z) (s : pass_state) : Prop := {
    pi_k : kinv H0 (g_H (ps_G s)) (g_C (ps_G s)) (ps_ws s);
    pi_costs : costs_ok S (g_H (ps_G s));
    pi_gs : gs_inv S L (gain_fun (g_H (ps_G s)) (g_C (ps_G s))) (ps_G s);
    pi_cut : ps_cut s = cut_net (g_H (ps_G s));
    pi_best : ps_best s ≤ cut0;
    pi_nim : NoDup (ps_nim s) ∧ ∀ u, u ∈ ps_nim s → u ∈ vids (g_H (ps_G s)) ∧ u ∈ L;
    pi_lim : ∀ p, p = 0 ∨ p = 1 → part_weight (g_H (ps_G s)) p ≤ lim p;
    pi_bst : bst (undo (g_H (ps_G s)) (ps_nim s)) (ps_best s);
  }.

  Lemma pinv_same L s G : pinv L s → same_gs (ps_G s) G → gs_inv S L (gain_fun (g_H (ps_G s)) (g_C (ps_G s))) G →
    pinv L (PS G (ps_ws s) (ps_cut s) (ps_best s) (ps_nim s)).
  Proof.
    intros [? ? ? ? ? ? ? ?] (HH & HC & _) HI. split; simpl; rewrite ?HH, ?HC; done.
  Qed.

  Lemma wpe_pass_body L s : pinv L s →
    wpe E (pass_body mx opts s) (λ '(b, s'), ∃ L', pinv L' s' ∧ (b = true → (unlocked (ps_G s') < unlocked (ps_G s))%nat)).
  Proof.
    intros HP. pose proof HP as [HK Hcs HI Hcut Hbest [Hnd Hnim] Hlim Hb].
    set (H := g_H (ps_G s)) in *. set (C := g_C (ps_G s)) in *.
    pose proof HK as [Hs HC HB HS HCt Hws].
    pose proof (klfm_pre_shape _ _ Hpre Hs) as [_ Hids _ _ Hwt].
    unfold pass_body. apply wpe_bind. eapply wpe_gs_done; [exact HI|done|..].
    { intros G' HI' Hsg _. simpl. apply wpe_ret. exists L. split; [by apply pinv_same|done]. }
    intros G1 v1 HI1 Hs1 Hv1 HL1. simpl. gdec as Hlen.
    2: { apply wpe_ret. exists L. split; [by apply pinv_same|done]. }
    apply wpe_bind. pose proof Hs1 as (HH1 & HC1 & _).
    eapply wpe_part_next; [exact HI1|by rewrite HH1|by rewrite HH1|done|]. rewrite HH1. fold H.
    intros G2 p u0 HI2 Hs2 Hp (Hu0 & Hu0p & Hu0L & _) _. pose proof Hs2 as (HH2 & HC2 & _). simpl.
    apply wpe_bind. eapply wpe_gs_next; [exact HI2|done|..]; rewrite HH2, HH1; fold H.
    { intros G3 _ _ He. exfalso. apply Hu0L, He; done. }
    intros G3 v HI3 Hs3 Hv Hvp HvL Hvm. pose proof Hs3 as (HH3 & HC3 & _). simpl.
    assert (p = v_part v) as -> by done. rewrite flip_part_01 by done.
    apply wpe_bind, wpe_psel; [lia|]. apply wpe_bind. rewrite HH3, HH2, HH1. fold H.
    eapply wpe_vert; [by apply co_vmap_ok|done|].
    assert (same_gs (ps_G s) G3) as Hsg3 by (eapply same_gs_trans; [done|]; by eapply same_gs_trans).
    gdec as Hroom.
    - (* move *)
      apply wpe_bind. eapply wpe_gs_gain_next; [exact HI3|done|..]; rewrite HH3, HH2, HH1; fold H.
      { intros G4 _ _ He. exfalso. by apply HvL, He. }
      intros G4 v' HI4 Hs4 Hv' Hvp' HvL' Hvm'. pose proof Hs4 as (HH4 & HC4 & _). simpl.
      assert (gain_fun H C v' = gain_fun H C v) as -> by (apply Z.le_antisymm; auto).
      assert (g_H G4 = H) as HH by (by rewrite HH4, HH3, HH2, HH1). assert (g_C G4 = C) as HCC by (by rewrite HC4, HC3, HC2, HC1).
      assert (∃ H2, moved v H H2) as [H2 HM2].
      { assert (wp (move_sorted H C (v_id v)) (λ H', moved v H H')) as Hw by (by apply wpe_move_sorted).
        apply wp_run with (w := w0) in Hw as (H' & _ & _ & HM). eauto. }
      apply wpe_bind. rewrite Hws. eapply (wpe_shift_weight _ v H H2); [done..|].
      apply wpe_bind. eapply (wpe_gs_move _ S L); rewrite ?HH, ?HCC; try done.
      intros G' HM HCt' HI'. set (H' := g_H G') in *. set (C' := g_C G') in *.
      assert (pws H2 = pws H') as ->.
      { unfold pws. by rewrite !(moved_part_weight v H H2), !(moved_part_weight v H H') by auto. }
      assert (kinv H0 H' C' (pws H')) as HK' by exact (kinv_moved _ _ _ _ _ _ _ HK Hv HM HCt').
      assert (costs_ok S H') as Hcs' by (eapply same_shape_costs_ok; [apply HM|done]).
      assert (ps_cut s - gain_fun H C v = cut_net H') as Hcut'.
      { rewrite Hcut. rewrite !cut_net_cut01 by (done || apply HK').
        by rewrite (moved_cut01 H H' C v). }
      assert (∀ p, p = 0 ∨ p = 1 → part_weight H' p ≤ lim p) as Hlim'.
      { intros p Hp'. rewrite (moved_part_weight v H H') by done. gdec as Hpp.
        - specialize (Hlim p Hp'). specialize (Hwt v Hv). lia.
        - assert (p = 1 - v_part v) as -> by lia. rewrite Hws in Hroom. unfold lim.
          destruct Hp as [Hp|Hp]; rewrite Hp in *; unfold sel in *; simpl in *; [change (1 - 0) with 1 | change (1 - 1) with 0]; lia. }
      assert (vids H' = vids H) as Hvids by (symmetry; apply same_shape_vids, HM).
      assert (v_id v ∈ vids H) as Hvin by (apply vids_elem; eauto).
      assert (unlocked G' < unlocked (ps_G s))%nat as Hdec.
      { rewrite <-(unlocked_same (ps_G s) G4) by by eapply same_gs_trans.
        eapply (unlocked_lt _ _ _ _ _ _ _ (v_id v)); [exact HI4|exact HI'|by rewrite HH|by rewrite HH|done]. }
      assert (v_id v ∉ ps_nim s) as Hvnim by (intros Hin; apply HvL; by apply Hnim).
      gdec as Hcmp; apply wpe_ret; exists ({[v_id v]} ∪ L); (split; [|done]); split; simpl; try done.
      + split.
        * apply NoDup_app. split_and!; [done|set_solver|apply NoDup_singleton].
        * intros u [Hu|Hu]%elem_of_app; [destruct (Hnim u Hu); fold H'; rewrite Hvids; set_solver|].
          apply elem_of_list_singleton in Hu as ->. fold H'; rewrite Hvids. set_solver.
      + eapply bst_ext; [|exact Hb]. intros u. unfold undo. fold H'. rewrite (moved_part_of v H H') by done.
        destruct (decide (u = v_id v)) as [->|Hne].
        * rewrite decide_False by done. rewrite decide_True by set_solver.
          rewrite (part_of_elem H v) by (done || apply (co_vid _ HC)). lia.
        * destruct (decide (u ∈ ps_nim s)); [rewrite (decide_True (P := u ∈ _ ++ _)) by set_solver|rewrite (decide_False (P := u ∈ _ ++ _)) by set_solver]; done.
      + lia.
      + split; [constructor|set_solver].
      + rewrite Hcut'. fold H'. split.
        * unfold cut_net. apply cut_net_size_ext; [apply HK'|]. intros u. unfold undo. by rewrite decide_False by set_solver.
        * intros p Hp'. rewrite <-(Hlim' p Hp'). rewrite (part_weight_pwt H') by apply (co_vid _ (ki_cons _ _ _ _ HK')).
          apply Z.eq_le_incl. apply pwt_ext; [apply HK'|]. intros u. unfold undo. by rewrite decide_False by set_solver.
    - (* remove *)
      apply wpe_bind. assert (g_H G3 = H) as HH by (by rewrite HH3, HH2, HH1).
      eapply wpe_gs_remove; [exact HI3|by rewrite HH|done|]. intros G' HI' HH' HCC'.
      assert (g_H G' = H) as HHH by congruence. assert (g_C G' = C) as HCC by (by rewrite HCC', HC3, HC2, HC1).
      apply wpe_ret. exists ({[v_id v]} ∪ L). split.
      + split; simpl; rewrite ?HHH, ?HCC; try done. split; [done|]. intros u Hu. destruct (Hnim u Hu). set_solver.
      + intros _. simpl. rewrite <-(unlocked_same (ps_G s) G3) by done.
        eapply (unlocked_lt _ _ _ _ _ _ _ (v_id v)); [exact HI3|exact HI'|congruence| |done].
        rewrite HH. apply vids_elem; eauto.
  Qed.
End pass.

Lemma wpe_klfm_pass E H C ws mx opts cut (Q : klfm_out → Prop) :
  klfm_pre H → bisected H → nets_sorted H → exact_counts H C → ws = pws H → cut = cut_net H →
  (∀ o, kinv H (ko_H o) (ko_C o) (ko_ws o) → ko_cut o = cut_net (ko_H o) → ko_cut o ≤ cut →
     (∀ p, p = 0 ∨ p = 1 → part_weight (ko_H o) p ≤ Z.max (sel mx p) (part_weight H p)) → Q o) →
  wpe E (klfm_pass H C cut ws mx opts) Q.
Proof.
  intros Hpre HB HS HCt -> -> HQ. pose proof (kp_cons _ Hpre) as HC. pose proof (exact_counts_length _ _ HCt) as Hl.
  apply wpe_bind. apply wpe_gs_new_pre; [done..|]. intros S G Hcs HI HH HCC.
  assert (kinv H H C (pws H)) as HK0 by (split; done || apply same_shape_refl).
  apply wpe_bind. eapply wpe_mono; [eapply (wpe_loopM E _ (λ s, ∃ L, pinv H mx (cut_net H) S L s) (λ s, unlocked (ps_G s))
    (λ s, ∃ L, pinv H mx (cut_net H) S L s))|].
  - intros s [L HP]. eapply wpe_mono; [by eapply wpe_pass_body|]. intros [b s'] (L' & HP' & Hdec). destruct b; [|eauto].
    split; [eauto|by apply Hdec].
  - exists ∅. split; simpl; rewrite ?HH, ?HCC; try done.
    + split; [constructor|set_solver].
    + intros p Hp. unfold lim. lia.
    + split.
      * apply cut_net_size_ext; [apply same_shape_refl|]. intros u. unfold undo. by rewrite decide_False by set_solver.
      * intros p Hp. unfold lim. rewrite (part_weight_pwt H) by apply (co_vid _ HC).
        rewrite (pwt_ext H H _ (part_of H)); [lia|apply same_shape_refl|]. intros u. unfold undo. by rewrite decide_False by set_solver.
  - simpl. pose proof (unlocked_le _ _ _ _ HI) as Hle. rewrite HH in Hle. lia.
  - intros s [L [HK Hcs' HI' Hcut Hbest [Hnd Hnim] Hlim [Hb1 Hb2]]].
    apply wpe_bind. eapply wpe_rollback; [done|done|naive_solver|].
    intros H' C' HK' Hp'. apply wpe_ret. simpl. apply HQ; simpl; try done.
    + rewrite <-Hb1. apply cut_net_size_ext; [apply HK'|]. intros u. by rewrite Hp'.
    + intros p Hp. rewrite (part_weight_pwt H') by apply (co_vid _ (ki_cons _ _ _ _ HK')).
      specialize (Hb2 p Hp). unfold lim in Hb2. erewrite <-(pwt_ext H H'); [exact Hb2|apply HK'|]. intros u. by rewrite Hp'.
Qed.

(** ** make_balanced *)
Section balance.
  Context (E : err → Prop) (H0 : hg) (mx : Z * Z) (part : Z) (S : Z).
  Context (Hpre : klfm_pre H0) (Hpart : part = 0 ∨ part = 1).

  Record binv (L : gset Z) (s : bal_state) : Prop := {
    bi_k : kinv H0 (g_H (bs_G s)) (g_C (bs_G s)) (bs_ws s);
    bi_costs : costs_ok S (g_H (bs_G s));
    bi_gs : gs_inv S L (gain_fun (g_H (bs_G s)) (g_C (bs_G s))) (bs_G s);
    bi_cut : bs_cut s = cut_net (g_H (bs_G s));
    bi_lim : part_weight (g_H (bs_G s)) (1 - part) ≤ Z.max (sel mx (1 - part)) (part_weight H0 (1 - part));
    bi_lim' : part_weight (g_H (bs_G s)) part ≤ part_weight H0 part;
    bi_from : ∀ u, part_of (g_H (bs_G s)) u = part_of H0 u ∨ (part_of H0 u = part ∧ part_of (g_H (bs_G s)) u = 1 - part);
    bi_tried : ∀ v, v ∈ h_verts (g_H (bs_G s)) → v_part v = part → v_id v ∈ L →
      sel mx (1 - part) < part_weight (g_H (bs_G s)) (1 - part) + v_weight v;
  }.
  Definition bdone (s : bal_state) : Prop := ∃ L, binv L s ∧
    (sel mx part < part_weight (g_H (bs_G s)) part →
     ∀ v, v ∈ h_verts (g_H (bs_G s)) → v_part v = part →
      sel mx (1 - part) < part_weight (g_H (bs_G s)) (1 - part) + v_weight v).

  Lemma binv_same L s G : binv L s → same_gs (bs_G s) G → gs_inv S L (gain_fun (g_H (bs_G s)) (g_C (bs_G s))) G →
    binv L (BS G (bs_ws s) (bs_cut s)).
  Proof.
    intros [? ? ? ? ? ? ? ?] (HH & HC & _) HI. split; simpl; rewrite ?HH, ?HC; done.
  Qed.

  Lemma wpe_balance_body L s : binv L s →
    wpe E (balance_body mx part s) (λ '(b, s'),
      if b : bool then (∃ L', binv L' s') ∧ (unlocked (bs_G s') < unlocked (bs_G s))%nat else bdone s').
  Proof.
    intros HP. pose proof HP as [HK Hcs HI Hcut Hlim Hlim' Hfrom Htr].
    set (H := g_H (bs_G s)) in *. set (C := g_C (bs_G s)) in *.
    pose proof HK as [Hs HC HB HS HCt Hws].
    pose proof (klfm_pre_shape _ _ Hpre Hs) as [_ Hids _ _ Hwt].
    unfold balance_body. apply wpe_bind, wpe_psel; [done|]. apply wpe_bind, wpe_psel; [done|].
    rewrite Hws, sel_pws by done. gdec as Hover.
    2: { apply wpe_ret. exists L. split; [done|]. fold H. lia. }
    apply wpe_bind. eapply wpe_bucket_done; [exact HI|done|done|..].
    { intros G' HI' Hsg He. simpl. apply wpe_ret. rewrite <-Hws. exists L. split; [by apply binv_same|].
      simpl. destruct Hsg as (-> & _). intros _ v Hv Hvp. apply Htr; auto. }
    intros G1 v1 HI1 Hs1 Hv1 Hv1p HL1. simpl. pose proof Hs1 as (HH1 & HC1 & _).
    apply wpe_bind. eapply wpe_gs_next; [exact HI1|done|..]; rewrite HH1; fold H.
    { intros G3 _ _ He. exfalso. by apply HL1, He. }
    intros G3 v HI3 Hs3 Hv Hvp HvL Hvm. pose proof Hs3 as (HH3 & HC3 & _). simpl.
    apply wpe_bind. rewrite HH3, HH1. fold H. eapply wpe_vert; [by apply co_vmap_ok|done|].
    rewrite flip_part_01 by done. assert (1 - part = 0 ∨ 1 - part = 1) as Hq by lia.
    apply wpe_bind, wpe_psel; [done|]. apply wpe_bind, wpe_psel; [done|]. rewrite sel_pws by done.
    assert (same_gs (bs_G s) G3) as Hsg3 by by eapply same_gs_trans.
    assert (v_id v ∈ vids H) as Hvin by (apply vids_elem; eauto).
    gdec as Hroom.
    - (* move *)
      apply wpe_bind. eapply wpe_gs_gain_next; [exact HI3|done|..]; rewrite HH3, HH1; fold H.
      { intros G4 _ _ He. exfalso. by apply HvL, He. }
      intros G4 v' HI4 Hs4 Hv' Hvp' HvL' Hvm'. pose proof Hs4 as (HH4 & HC4 & _). simpl.
      assert (gain_fun H C v' = gain_fun H C v) as -> by (apply Z.le_antisymm; auto).
      assert (g_H G4 = H) as HH by (by rewrite HH4, HH3, HH1). assert (g_C G4 = C) as HCC by (by rewrite HC4, HC3, HC1).
      assert (∃ H2, moved v H H2) as [H2 HM2].
      { assert (wp (move_sorted H C (v_id v)) (λ H', moved v H H')) as Hw by (by apply wpe_move_sorted).
        apply wp_run with (w := w0) in Hw as (H' & _ & _ & HM). eauto. }
      apply wpe_bind. rewrite <-Hvp. eapply (wpe_shift_weight _ v H H2); [done|done|by rewrite Hvp|done|].
      apply wpe_bind. eapply (wpe_gs_move _ S L); rewrite ?HH, ?HCC; try done.
      intros G' HM HCt' HI'. set (H' := g_H G') in *. set (C' := g_C G') in *. rewrite <-Hvp in Hpart.
      assert (pws H2 = pws H') as ->.
      { unfold pws. by rewrite !(moved_part_weight v H H2), !(moved_part_weight v H H') by auto. }
      assert (kinv H0 H' C' (pws H')) as HK' by exact (kinv_moved _ _ _ _ _ _ _ HK Hv HM HCt').
      assert (part_weight H' (1 - part) = part_weight H (1 - part) + v_weight v) as Hw1.
      { rewrite (moved_part_weight v H H') by done. rewrite decide_False; [done|lia]. }
      assert (part_weight H' part = part_weight H part - v_weight v) as Hw2.
      { rewrite (moved_part_weight v H H') by (done || by rewrite <-Hvp). rewrite decide_True; [lia|done]. }
      pose proof (Hwt v Hv) as Hwv.
      apply wpe_ret. split; [exists ({[v_id v]} ∪ L); split; simpl; fold H'; try done|].
      + eapply same_shape_costs_ok; [apply HM|done].
      + rewrite Hcut. rewrite !cut_net_cut01 by (done || apply HK'). by rewrite (moved_cut01 H H' C v).
      + lia.
      + lia.
      + intros u. rewrite (moved_part_of v H H') by done. destruct (decide (u = v_id v)) as [->|Hne]; [|apply Hfrom].
        right. rewrite Hvp. split; [|done]. pose proof (part_of_elem H v (co_vid _ HC) Hv) as Hpo.
        destruct (Hfrom (v_id v)) as [Heq|[Heq _]]; congruence.
      + intros x Hx Hxp HxL. rewrite (mv_verts _ _ _ HM) in Hx. apply elem_of_list_fmap in Hx as (y & -> & Hy).
        destruct (decide (v_id y = v_id v)) as [Hyv|Hyv].
        * simpl in Hxp. lia.
        * rewrite Hw1. assert (v_id y ∈ L) as HyL by set_solver. specialize (Htr y Hy Hxp HyL). lia.
      + simpl. rewrite <-(unlocked_same (bs_G s) G4) by (eapply same_gs_trans; [exact Hsg3|done]).
        eapply (unlocked_lt _ _ _ _ _ _ _ (v_id v)); [exact HI4|exact HI'| |by rewrite HH|done].
        rewrite HH. symmetry. apply same_shape_vids, HM.
    - (* remove *)
      apply wpe_bind. assert (g_H G3 = H) as HH by (by rewrite HH3, HH1).
      eapply wpe_gs_remove; [exact HI3|by rewrite HH|done|]. intros G' HI' HH' HCC'.
      assert (g_H G' = H) as HHH by congruence. assert (g_C G' = C) as HCC by (by rewrite HCC', HC3, HC1).
      apply wpe_ret. split; [exists ({[v_id v]} ∪ L); split; simpl; rewrite ?HHH, ?HCC; try done|].
      + intros x Hx Hxp HxL. destruct (decide (v_id x = v_id v)) as [Hid|Hid].
        * assert (x = v) as -> by by apply (vmap_ok_elem_eq H x v (co_vmap_ok _ HC)). lia.
        * apply Htr; try done. set_solver.
      + simpl. rewrite <-(unlocked_same (bs_G s) G3) by done.
        eapply (unlocked_lt _ _ _ _ _ _ _ (v_id v)); [exact HI3|exact HI'|congruence|by rewrite HH|done].
  Qed.
End balance.

Lemma wpe_make_balanced E H C ws mx cut (Q : klfm_out → Prop) :
  let part := if decide (part_weight H 1 > snd mx) then 1 else 0 in
  klfm_pre H → bisected H → nets_sorted H → exact_counts H C → ws = pws H → cut = cut_net H →
  (∀ o, kinv H (ko_H o) (ko_C o) (ko_ws o) → ko_cut o = cut_net (ko_H o) →
     part_weight (ko_H o) (1 - part) ≤ Z.max (sel mx (1 - part)) (part_weight H (1 - part)) →
     part_weight (ko_H o) part ≤ part_weight H part →
     (∀ u, part_of (ko_H o) u = part_of H u ∨ (part_of H u = part ∧ part_of (ko_H o) u = 1 - part)) →
     (sel mx part < part_weight (ko_H o) part → ∀ v, v ∈ h_verts (ko_H o) → v_part v = part →
       sel mx (1 - part) < part_weight (ko_H o) (1 - part) + v_weight v) → Q o) →
  wpe E (make_balanced H C cut ws mx) Q.
Proof.
  intros part Hpre HB HS HCt -> -> HQ. pose proof (kp_cons _ Hpre) as HC. pose proof (exact_counts_length _ _ HCt) as Hl.
  apply wpe_bind. apply wpe_gs_new_pre; [done..|]. intros S G Hcs HI HH HCC. simpl. fold part.
  assert (part = 0 ∨ part = 1) as Hpart by (unfold part; gdec; auto).
  assert (kinv H H C (pws H)) as HK0 by (split; done || apply same_shape_refl).
  apply wpe_bind. eapply wpe_mono; [eapply (wpe_loopM E _ (λ s, ∃ L, binv H mx part S L s) (λ s, unlocked (bs_G s)) (bdone H mx part S))|].
  - intros s [L HP]. by eapply wpe_balance_body.
  - exists ∅. split; simpl; rewrite ?HH, ?HCC; try done; try lia.
  - simpl. pose proof (unlocked_le _ _ _ _ HI) as Hle. rewrite HH in Hle. lia.
  - intros s (L & [HK Hcs' HI' Hcut Hlim Hlim' Hfrom Htr] & Hd). apply wpe_ret. by apply HQ.
Qed.

Lemma kinv_trans H0 H1 C1 ws1 H2 C2 ws2 : kinv H0 H1 C1 ws1 → kinv H1 H2 C2 ws2 → kinv H0 H2 C2 ws2.
Proof. intros [Hs _ _ _ _ _] [Hs' ? ? ? ? ?]. split; try done. by eapply same_shape_trans. Qed.

(** ** KLFM *)
Lemma wpe_klfm E H C ws mx opts cut (Q : klfm_out → Prop) :
  klfm_pre H → bisected H → exact_counts H C → ws = pws H → (cut = long_max ∨ cut = cut_net H) →
  (∀ o, kinv H (ko_H o) (ko_C o) (ko_ws o) → ko_cut o = cut_net (ko_H o) →
     (part_weight H 0 ≤ fst mx → part_weight H 1 ≤ snd mx → ko_cut o ≤ cut_net H) →
     (∀ p, p = 0 ∨ p = 1 → part_weight (ko_H o) p ≤ Z.max (sel mx p) (part_weight H p)) → Q o) →
  wpe E (klfm H C ws mx opts cut) Q.
Proof.
  intros Hpre HB HCt -> Hcut HQ. pose proof (kp_cons _ Hpre) as HC.
  apply wpe_bind. eapply (wpe_mono _ _ (λ c, c = cut_net H)).
  { gdec as Hc.
    - apply wpe_cutsize_counts; [done|]. by rewrite cut_net_cut01.
    - apply wpe_ret. naive_solver. }
  intros c ->. apply wpe_bind. eapply wpe_sort_vertices_on_part; [done..|].
  intros H1 Hs1 Hv1 HS1 HCt1.
  assert (consistent H1) as HC1 by by eapply same_shape_consistent.
  assert (∀ u, part_of H1 u = part_of H u) as Hpo by (intros u; unfold part_of; by rewrite Hv1).
  assert (bisected H1) as HB1 by (intros v; rewrite Hv1; apply HB).
  assert (klfm_pre H1) as Hpre1 by by eapply klfm_pre_shape.
  assert (∀ p, part_weight H1 p = part_weight H p) as Hpw by (intros p; unfold part_weight; by rewrite Hv1).
  assert (pws H = pws H1) as Hpws by (unfold pws; by rewrite !Hpw).
  assert (cut_net H = cut_net H1) as Hcn by (by apply cut_net_size_ext).
  assert (kinv H H1 C (pws H1)) as HK1 by done.
  pose (good := λ o, kinv H (ko_H o) (ko_C o) (ko_ws o) ∧ ko_cut o = cut_net (ko_H o) ∧
     (part_weight H 0 ≤ fst mx → part_weight H 1 ≤ snd mx → ko_cut o ≤ cut_net H) ∧
     (∀ p, p = 0 ∨ p = 1 → part_weight (ko_H o) p ≤ Z.max (sel mx p) (part_weight H p))).
  apply wpe_bind. eapply (wpe_mono _ _ good).
  { rewrite Hpws. simpl. gdec as Hov.
    - eapply (wpe_make_balanced); [done..|]. set (part := if decide _ then 1 else 0).
      intros o HK Hc Hl1 Hl2 Hfrom _. split_and!; [by eapply kinv_trans|done| |].
      + rewrite <-!Hpw. lia.
      + assert (part = 0 ∨ part = 1) as Hpart by (unfold part; gdec; auto). rewrite !Hpw in *.
        intros p Hp. rewrite <-Hpw. destruct (decide (p = part)) as [->|Hne]; [rewrite Hpw; lia|]. assert (p = 1 - part) as -> by lia. rewrite Hpw. lia.
    - apply wpe_ret. split_and!; simpl; [done|done|lia|]. intros p Hp. rewrite Hpw. lia. }
  intros o Ho. apply wpe_bind. eapply wpe_mono; [eapply (wpe_loopM E _ (λ st, 0 ≤ st.1 ∧ good st.2)
    (λ st, Z.to_nat (o_max_passes opts - st.1)) (λ st, good st.2))|].
  - intros [pass o1] [Hp (HKo & Hco & Hcuto & Hlimo)]. simpl in *. gdec as Hlt; [|by apply wpe_ret].
    apply wpe_bind. pose proof HKo as [Hso HCo HBo HSo HCto Hwso].
    eapply wpe_klfm_pass; [exact (klfm_pre_shape _ _ Hpre Hso)|done|done|done|done|done|].
    intros o2 HK2 Hc2 Hle2 Hlim2.
    assert (good o2) as Hg2.
    { split_and!; [by eapply kinv_trans|done|lia|]. intros p Hp'. specialize (Hlim2 p Hp'). specialize (Hlimo p Hp'). lia. }
    gdec as Hcmp; apply wpe_ret; simpl.
    + split; [split; [lia|done]|lia].
    + destruct Hg2 as (? & ? & ? & ?). split_and!; simpl; try done; lia.
  - simpl. split; [lia|done].
  - simpl. lia.
  - intros [pass o1] (? & ? & ? & ?). apply wpe_ret. by apply HQ.
Qed.
