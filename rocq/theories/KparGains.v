(** update_gains: after an exchange of counts the gains are exact again. *)
From Verif Require Export KparGain.

Section update_gains.
  Context (E : err → Prop) (S : Z) (L : gset Z) (H : hg) (C0 : list (Z * Z)) (i : nat) (n : net) (c c' : Z * Z).
  Context (HC : consistent H) (HB : bisected H) (HS : nets_sorted H) (Hcs : costs_ok S H).
  Context (Hi : h_nets H !! i = Some n) (Hc : C0 !! i = Some c) (Hne : n_verts n ≠ []).
  Context (Hd : ∀ p, p = 0 ∨ p = 1 → count_in H n p ≤ sel c p ∧ count_in H n p ≤ sel c' p).
  Let cost := n_cost n.

  (** gains changed by [δ p] on the vertices of [n] in part [p] *)
  Definition gplus (δ : Z → Z) (x : vertex) : Z := gain_fun H C0 x + (if decide (v_id x ∈ n_verts n) then δ (v_part x) else 0).
  Definition gstate (C : list (Z * Z)) (δ : Z → Z) (G : gstruct) : Prop := gs_inv S L (gplus δ) G ∧ g_H G = H ∧ g_C G = C.
  (** the parts that have a vertex of [n] *)
  Definition live (p : Z) : Prop :=
    (p = 0 ∨ p = 1) ∧ (1 ≤ sel c p ∧ 1 ≤ sel c' p) ∧ 0 ≤ sel c (1 - p) ∧ 0 ≤ sel c' (1 - p).
  Definition fits (δ : Z → Z) : Prop := ∀ p, live p → - cost ≤ contr c cost p + δ p ≤ cost.

  Lemma live_of x : x ∈ h_verts H → v_id x ∈ n_verts n → live (v_part x) ∧ part_of H (v_id x) = v_part x.
  Proof.
    intros Hx Hn. assert (part_of H (v_id x) = v_part x) as Hp by (apply part_of_elem; [apply (co_vid _ HC)|done]). split; [|done].
    split; [by apply HB|]. assert (1 ≤ count_in H n (v_part x)) by (by apply (zcount_one _ _ (v_id x))).
    pose proof (Hd (v_part x) (HB x Hx)). split; [lia|]. pose proof (HB x Hx). pose proof (Hd (1 - v_part x) ltac:(lia)).
    assert (0 ≤ count_in H n (1 - v_part x)) by apply zcount_nonneg. lia.
  Qed.
  Lemma gplus_range δ x : fits δ → x ∈ h_verts H → v_id x ∈ n_verts n → -S ≤ gplus δ x ≤ S.
  Proof.
    intros Hf Hx Hn. pose proof (elem_of_list_lookup_2 _ _ _ Hi) as Hnn. destruct Hcs as [Hc0 HcS].
    assert (n_id n ∈ v_nets x) as Hnx by (by apply (incidence_iff H x n)).
    assert (cost_of H (n_id n) = cost) as Hcost by (eapply cost_of_id; [by apply co_nmap_ok|done]).
    pose proof (gsum_rest_bound (contr_of H C0) H x (n_id n) (contr_of_bound H _ Hc0) (λ m, cost_of_nonneg H m Hc0) Hnx) as Hr.
    unfold contr_of at 2 4 in Hr. rewrite (cnt_of_id _ _ _ _ _ (co_nmap_ok _ HC) Hi Hc), Hcost in Hr. pose proof (HcS x Hx).
    unfold gplus, gain_fun. rewrite decide_True by done. pose proof (Hf _ (proj1 (live_of x Hx Hn))). lia.
  Qed.
  Lemma fits_0 : fits (λ _, 0).
  Proof. intros p _. assert (0 ≤ cost) by (apply Hcs; by eapply elem_of_list_lookup_2). pose proof (contr_bound c cost p). lia. Qed.

  Lemma wpe_all C δ G d δ' (Q : gstruct → Prop) : gstate C δ G → fits δ' → (∀ p, live p → δ' p = δ p + d) →
    (∀ G', gstate C δ' G' → Q G') → wpe E (foldM (λ G u, add_gain G u d) (n_verts n) G) Q.
  Proof.
    intros (HI & HH & HCC) Hf Hδ HQ. pose proof (elem_of_list_lookup_2 _ _ _ Hi) as Hnn.
    eapply wpe_add_all; [exact HI|by apply (co_nverts _ HC)|intros u Hu; rewrite HH; by apply (net_in_vids H n)|..].
    - intros x Hx Hn _. rewrite HH in Hx. pose proof (gplus_range δ' x Hf Hx Hn) as Hr. unfold gplus in *. rewrite decide_True in * by done.
      rewrite (Hδ _ (proj1 (live_of x Hx Hn))) in Hr. lia.
    - intros G' HI' HH' HC'. apply HQ. split; [|split; congruence]. eapply gs_inv_ext; [exact HI'|]. intros x Hx _. rewrite HH', HH in Hx.
      unfold gplus. simpl. destruct (decide (v_id x ∈ n_verts n)) as [Hn|Hn]; [|lia]. rewrite (Hδ _ (proj1 (live_of x Hx Hn))). lia.
  Qed.
  Lemma wpe_one C δ G q d δ' (Q : gstruct → Prop) : gstate C δ G → q = 0 ∨ q = 1 → count_in H n q ≤ 1 → fits δ' →
    (∀ p, live p → δ' p = if decide (p = q) then δ p + d else δ p) →
    (∀ G', gstate C δ' G' → Q G') →
    wpe E (u <- boundary n q ;; x <- vert H u ;; if decide (v_part x = q) then add_gain G u d else ret G) Q.
  Proof.
    intros (HI & HH & HCC) Hq Hcnt Hf Hδ HQ. pose proof (elem_of_list_lookup_2 _ _ _ Hi) as Hnn.
    pose proof (HS n Hnn) as [Hr Hs].
    assert (0 < Z.of_nat (length (n_verts n))) as Hlen by (destruct (n_verts n); [done|simpl; lia]).
    apply wpe_bind, wpe_mono with (λ u, u ∈ n_verts n ∧ (part_of H u ≠ q → ∀ y, y ∈ n_verts n → part_of H y ≠ q)).
    { unfold boundary. case_decide as Hq1.
      - destruct (zlookup_is_Some (n_verts n) (Z.of_nat (length (n_verts n)) - 1)) as [u Hu]; [lia|]. eapply wpe_idx; [done|].
        split; [apply zlookup_Some in Hu as [_ ?]; by eapply elem_of_list_lookup_2|]. rewrite (Hs _ _ Hu). subst q. case_decide as Hlt; [|done].
        intros _ y [j Hy]%elem_of_list_lookup. pose proof (lookup_lt_Some _ _ _ Hy). rewrite (Hs (Z.of_nat j) y); [rewrite decide_True by lia; lia|].
        apply zlookup_Some. by rewrite Nat2Z.id; split; [lia|].
      - assert (q = 0) as -> by lia. destruct (zlookup_is_Some (n_verts n) 0) as [u Hu]; [lia|]. eapply wpe_idx; [done|].
        split; [apply zlookup_Some in Hu as [_ ?]; by eapply elem_of_list_lookup_2|]. rewrite (Hs _ _ Hu). case_decide as Hlt; [done|].
        intros _ y [j Hy]%elem_of_list_lookup. pose proof (lookup_lt_Some _ _ _ Hy). rewrite (Hs (Z.of_nat j) y); [rewrite decide_False by lia; lia|].
        apply zlookup_Some. by rewrite Nat2Z.id; split; [lia|]. }
    intros u [Hu Hnone]. assert (u ∈ vids H) as (x & Hx & <-)%vids_elem by (by apply (net_in_vids H n)).
    destruct (live_of x Hx Hu) as [Hlx Hpx].
    apply wpe_bind. eapply wpe_vert; [by apply co_vmap_ok|done|]. case_decide as Hpq.
    - assert (∀ y, y ∈ h_verts H → v_id y ∈ n_verts n → v_part y = q → v_id y = v_id x) as Huniq.
      { intros y Hy Hyn Hyp. destruct (decide (v_id y = v_id x)) as [|Hne']; [done|]. exfalso.
        destruct (live_of y Hy Hyn) as [_ Hpy]. assert (2 ≤ count_in H n q); [|lia].
        apply (zcount_two _ _ (v_id y) (v_id x)); [by apply (co_nverts _ HC)|done..|congruence|congruence]. }
      eapply (wpe_add_gain _ _ _ _ _ x); [exact HI|by rewrite HH|..].
      + intros _. pose proof (gplus_range δ' x Hf Hx Hu) as Hrg. unfold gplus in *. rewrite decide_True in * by done.
        rewrite (Hδ _ Hlx), decide_True in Hrg by done. lia.
      + intros G' HI' HH' HC'. apply HQ. split; [|split; congruence]. eapply gs_inv_ext; [exact HI'|]. intros y Hy _. rewrite HH', HH in Hy.
        unfold gplus. simpl. destruct (decide (v_id y ∈ n_verts n)) as [Hn|Hn].
        * rewrite (Hδ _ (proj1 (live_of y Hy Hn))). destruct (decide (v_part y = q)) as [Hyq|Hyq].
          -- rewrite decide_True by (by apply Huniq). lia.
          -- rewrite decide_False; [done|]. intros Hid. apply Hyq. rewrite <-Hpq, <-Hpx, <-Hid. symmetry. apply (live_of y Hy Hn).
        * rewrite decide_False by congruence. lia.
    - apply wpe_ret, HQ. split; [|done]. eapply gs_inv_ext; [exact HI|]. intros y Hy _. rewrite HH in Hy. unfold gplus.
      destruct (decide (v_id y ∈ n_verts n)) as [Hn|Hn]; [|done]. destruct (live_of y Hy Hn) as [Hly Hpy]. rewrite (Hδ _ Hly).
      rewrite decide_False; [done|]. rewrite <-Hpy. apply Hnone; [congruence|done].
  Qed.

  Definition b2z (b : bool) : Z := if b then 1 else 0.
  Lemma wpe_update_gains G (Q : gstruct → Prop) :
    gs_inv S L (gain_fun H C0) G → g_H G = H →
    (∀ G', g_H G' = H → g_C G' = g_C G → gs_inv S L (gain_fun H (<[i := c']> C0)) G' → Q G') →
    wpe E (update_gains G n c c') Q.
  Proof.
    intros HI HH HQ. set (C := g_C G) in *.
    pose proof (elem_of_list_lookup_2 _ _ _ Hi) as Hnn.
    assert (0 ≤ cost) as Hc0 by (by apply Hcs).
    set (A p := bool_decide (sel c' (1 - p) = 0 ∧ sel c (1 - p) > 0)).
    set (D p := bool_decide (sel c' (1 - p) > 0 ∧ sel c (1 - p) = 0)).
    set (U p := bool_decide (sel c' p = 1 ∧ sel c p > 1)).
    set (W p := bool_decide (sel c' p > 1 ∧ sel c p = 1)).
    set (δ1 p := - cost * b2z (A p)).
    set (δ2 p := δ1 p + (if decide (p = 0) then cost * b2z (U p) else 0)).
    set (δ3 p := δ2 p + (if decide (p = 1) then cost * b2z (U p) else 0)).
    set (δ4 p := δ3 p + cost * b2z (D p)).
    set (δ5 p := δ4 p - (if decide (p = 0) then cost * b2z (W p) else 0)).
    set (δ6 p := δ5 p - (if decide (p = 1) then cost * b2z (W p) else 0)).
    assert (∀ q, q = 0 ∨ q = 1 → U q = true → count_in H n q ≤ 1) as HU.
    { intros q Hq. unfold U. rewrite bool_decide_eq_true. intros [? _]. pose proof (Hd q Hq). lia. }
    assert (∀ q, q = 0 ∨ q = 1 → W q = true → count_in H n q ≤ 1) as HW.
    { intros q Hq. unfold W. rewrite bool_decide_eq_true. intros [_ ?]. pose proof (Hd q Hq). lia. }
    assert (fits δ1 ∧ fits δ2 ∧ fits δ3 ∧ fits δ4 ∧ fits δ5 ∧ fits δ6) as (F1 & F2 & F3 & F4 & F5 & F6).
    { unfold fits, contr, live, δ6, δ5, δ4, δ3, δ2, δ1, A, D, U, W, b2z. clear -Hc0.
      split_and!; intros p ([-> | ->] & [H1 H2] & H3 & H4); change (1 - 0) with 1 in *; change (1 - 1) with 0 in *;
        repeat (rewrite bool_decide_decide in *); repeat (case_decide); lia. }
    assert (∀ p, live p → A p = bool_decide (fst c' = 0 ∧ fst c > 0 ∨ snd c' = 0 ∧ snd c > 0)) as HA.
    { intros p (Hp & [H1 H2] & H3 & H4). unfold A. apply bool_decide_ext. destruct Hp as [-> | ->]; change (1 - 0) with 1 in *; change (1 - 1) with 0 in *; unfold sel in *; rewrite ?decide_True, ?decide_False in * by done; lia. }
    assert (∀ p, live p → D p = bool_decide (fst c' > 0 ∧ fst c = 0 ∨ snd c' > 0 ∧ snd c = 0)) as HDD.
    { intros p (Hp & [H1 H2] & H3 & H4). unfold D. apply bool_decide_ext. destruct Hp as [-> | ->]; change (1 - 0) with 1 in *; change (1 - 1) with 0 in *; unfold sel in *; rewrite ?decide_True, ?decide_False in * by done; lia. }
    assert (∀ P `{Decision P} δ δ' G1 d, gstate C δ G1 → fits δ' → (∀ p, live p → δ' p = δ p + (if bool_decide P then d else 0)) →
       wpe E (if decide P then foldM (λ G u, add_gain G u d) (n_verts n) G1 else ret G1) (gstate C δ')) as Hall.
    { intros P HP δ δ' G1 d HG1 Hf Hδ. rewrite bool_decide_decide in Hδ. destruct (decide P).
      - eapply wpe_all; [done..|]. done.
      - apply wpe_ret. destruct HG1 as (HI1 & HH1 & HC1). split; [|done]. eapply gs_inv_ext; [exact HI1|]. intros x Hx _. rewrite HH1 in Hx.
        unfold gplus. destruct (decide (v_id x ∈ n_verts n)) as [Hn|Hn]; [|done]. rewrite (Hδ _ (proj1 (live_of x Hx Hn))). lia. }
    assert (∀ P `{Decision P} δ δ' G1 q d, gstate C δ G1 → q = 0 ∨ q = 1 → (P → count_in H n q ≤ 1) → fits δ' →
       (∀ p, live p → δ' p = δ p + (if decide (p = q) then if bool_decide P then d else 0 else 0)) →
       wpe E (if decide P then u <- boundary n q ;; x <- vert H u ;; if decide (v_part x = q) then add_gain G1 u d else ret G1 else ret G1) (gstate C δ')) as Hone.
    { intros P HP δ δ' G1 q d HG1 Hq Hcnt Hf Hδ. rewrite bool_decide_decide in Hδ. destruct (decide P) as [HPt|HPf].
      - eapply wpe_one; [done|done|by apply Hcnt|exact Hf| |done]. intros p Hp. rewrite (Hδ p Hp). repeat case_decide; try lia.
      - apply wpe_ret. destruct HG1 as (HI1 & HH1 & HC1). split; [|done]. eapply gs_inv_ext; [exact HI1|]. intros x Hx _. rewrite HH1 in Hx.
        unfold gplus. destruct (decide (v_id x ∈ n_verts n)) as [Hn|Hn]; [|done]. rewrite (Hδ _ (proj1 (live_of x Hx Hn))). destruct (decide (v_part x = q)); lia. }
    assert (∀ p, p = 0 ∨ p = 1 → U p = bool_decide (sel c' p = 1 ∧ sel c p > 1)) as HU' by done.
    unfold update_gains. rewrite HH.
    apply wpe_bind. eapply wpe_mono; [apply (Hall _ _ (λ _, 0) δ1)|].
    { split; [|done]. eapply gs_inv_ext; [exact HI|]. intros x _ _. unfold gplus. destruct (decide (v_id x ∈ n_verts n)); lia. }
    { done. }
    { intros p Hp. unfold δ1. rewrite <-(HA p Hp). unfold b2z. fold cost. destruct (A p); lia. }
    intros G1 HG1. apply wpe_bind. eapply wpe_mono; [apply (Hone _ _ δ1 δ2 G1 0); [done|by left| |done|]|].
    { intros Hp. apply HU; [by left|]. unfold U. by apply bool_decide_eq_true. }
    { intros p Hp. unfold δ2, b2z. destruct (decide (p = 0)) as [->|Hq]; [|lia]. unfold U, sel. simpl. fold cost. case_match; lia. }
    intros G2 HG2. apply wpe_bind. eapply wpe_mono; [apply (Hone _ _ δ2 δ3 G2 1); [done|by right| |done|]|].
    { intros Hp. apply HU; [by right|]. unfold U. by apply bool_decide_eq_true. }
    { intros p Hp. unfold δ3, b2z. destruct (decide (p = 1)) as [->|Hq]; [|lia]. unfold U, sel. simpl. fold cost. case_match; lia. }
    intros G3 HG3. apply wpe_bind. eapply wpe_mono; [apply (Hall _ _ δ3 δ4); [done..|]|].
    { intros p Hp. unfold δ4. rewrite <-(HDD p Hp). unfold b2z. fold cost. destruct (D p); lia. }
    intros G4 HG4. apply wpe_bind. eapply wpe_mono; [apply (Hone _ _ δ4 δ5 G4 0); [done|by left| |done|]|].
    { intros Hp. apply HW; [by left|]. unfold W. by apply bool_decide_eq_true. }
    { intros p Hp. unfold δ5, b2z. destruct (decide (p = 0)) as [->|Hq]; [|lia]. unfold W, sel. simpl. fold cost. case_match; lia. }
    intros G5 HG5. eapply wpe_mono; [apply (Hone _ _ δ5 δ6 G5 1); [done|by right| |done|]|].
    { intros Hp. apply HW; [by right|]. unfold W. by apply bool_decide_eq_true. }
    { intros p Hp. unfold δ6, b2z. destruct (decide (p = 1)) as [->|Hq]; [|lia]. unfold W, sel. simpl. fold cost. case_match; lia. }
    intros G6 (HI6 & HH6 & HC6). apply HQ; [done..|]. eapply gs_inv_ext; [exact HI6|]. intros x Hx _. rewrite HH6 in Hx. symmetry.
    unfold gain_fun at 1. rewrite (gsum_change (contr_of H C0) _ x (n_id n)); [|by apply (co_vnets _ HC)|].
    2: { intros m Hm. unfold contr_of. by rewrite (cnt_of_insert_ne _ _ _ n) by (done || by apply co_nmap_ok). }
    unfold gplus, gain_fun. f_equal. pose proof (incidence_iff H x n HC Hx Hnn) as Hiff.
    destruct (decide (v_id x ∈ n_verts n)) as [Hn|Hn]; [|by rewrite decide_False by tauto]. rewrite decide_True by tauto.
    unfold contr_of. rewrite (cnt_of_id _ _ i n c'), (cnt_of_id _ _ i n c); [|by apply co_nmap_ok|done..|by apply co_nmap_ok|done|].
    2: { apply list_lookup_insert. by eapply lookup_lt_Some. }
    rewrite (cost_of_id H i n) by (done || by apply co_nmap_ok). fold cost.
    destruct (live_of x Hx Hn) as [(Hp & [H1 H2] & H3 & H4) _]. unfold contr, δ6, δ5, δ4, δ3, δ2, δ1, A, D, U, W, b2z.
    rewrite !bool_decide_decide.
    clear -Hp H1 H2 H3 H4. destruct Hp as [Hp|Hp]; rewrite Hp in *; change (1 - 0) with 1 in *; change (1 - 1) with 0 in *;
      repeat (case_decide); lia.
  Qed.
End update_gains.
