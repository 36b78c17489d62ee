(** Proofs about the walk over the processors that loses a surplus (Redistribute.v, reduce_surplus). *)
From Verif Require Export RedSend.

(** what a processor has sent since [H0]: vertices with their receivers, and costs of nets *)
Record sent_off (P : Z * vertex → Prop) (p s : Z) (H0 H' : hg) (rest : list vertex) (snt : list (Z * vertex)) (cs : list (Z * (Z * Z))) : Prop := {
  so_frame : frame H0 H';
  so_linked : linked rest (h_nets H');
  so_verts : h_verts H0 ≡ₚ snt.*2 ++ rest;
  so_label : ∀ m, m ∈ snt → P m;
  so_to : ∀ m, m ∈ snt → 0 ≤ fst m < p ∧ fst m ≠ s;
  so_cto : ∀ m, m ∈ cs → 0 ≤ fst m < p;
  so_nets : ∀ t v n, (t, v) ∈ snt → n ∈ v_nets v → ∃ c, (t, (n, c)) ∈ cs;
  so_costs : ∀ t n c, (t, (n, c)) ∈ cs → ∃ e, e ∈ h_nets H0 ∧ n_id e = n ∧ n_cost e = c;
}.

Lemma sent_off_nil P p s H : linked (h_verts H) (h_nets H) → sent_off P p s H H (h_verts H) [] [].
Proof. intros HL. split; try done; try set_solver. apply frame_refl. Qed.
Lemma frame_costs H H' n c : frame H H' → (∃ e, e ∈ h_nets H' ∧ n_id e = n ∧ n_cost e = c) → ∃ e, e ∈ h_nets H ∧ n_id e = n ∧ n_cost e = c.
Proof.
  intros HF (e & He & <- & <-). destruct (frame_back _ _ _ HF He) as (e0 & He0 & (Hi & Hc & _)). exists e0. done.
Qed.
Lemma sent_off_app (P P1 P2 : Z * vertex → Prop) p s H0 H1 H2 rest snt1 cs1 snt2 cs2 :
  (∀ m, P1 m → P m) → (∀ m, P2 m → P m) →
  sent_off P1 p s H0 H1 (h_verts H1) snt1 cs1 → sent_off P2 p s H1 H2 rest snt2 cs2 → sent_off P p s H0 H2 rest (snt1 ++ snt2) (cs1 ++ cs2).
Proof.
  intros HP1 HP2 [A1 A2 A3 A4 A5 A6 A7 A8] [B1 B2 B3 B4 B5 B6 B7 B8]. split.
  - by eapply frame_trans.
  - done.
  - rewrite A3, B3, fmap_app. by rewrite app_assoc.
  - intros m [?|?]%elem_of_app; eauto.
  - intros m [?|?]%elem_of_app; eauto.
  - intros m [?|?]%elem_of_app; eauto.
  - intros t v n [?|?]%elem_of_app ?; [destruct (A7 t v n) as [c ?]; try done; exists c; set_solver|].
    destruct (B7 t v n) as [c ?]; try done; exists c; set_solver.
  - intros t n c [?|?]%elem_of_app; [by eapply A8|]. eapply frame_costs; [exact A1|]. by eapply B8.
Qed.

(** a vertex with the label is sent to a processor with room for it *)
Definition sends (label : Z) (sur : list Z) (m : Z * vertex) : Prop :=
  v_part (snd m) = label ∧ ∃ st, zlookup sur (fst m) = Some st ∧ 0 < st.

Lemma ring_pos (p s k : nat) (sur : list Z) : length sur = p → (s < p)%nat → (k < p - 1)%nat →
  (drop (s + 1) sur ++ take s sur) !! k = sur !! (if decide (s + 1 + k < p)%nat then (s + 1 + k)%nat else (s + 1 + k - p)%nat).
Proof.
  intros Hl Hs Hk. case_decide as Hd.
  - rewrite lookup_app_l by (rewrite drop_length; lia). by rewrite lookup_drop.
  - rewrite lookup_app_r by (rewrite drop_length; lia). rewrite drop_length, lookup_take by lia. f_equal. lia.
Qed.
Lemma ring_total (s : nat) (sur : list Z) own : sur !! s = Some own → zsum sur = own + zsum (drop (s + 1) sur ++ take s sur).
Proof.
  intros Hs. rewrite <-(take_drop_middle sur s own Hs) at 1. rewrite zsum_app, zsum_cons, zsum_app.
  rewrite Nat.add_1_r. lia.
Qed.

(** the state of the walk after [k] processors have been passed *)
Record walking (label : Z) (p s : nat) (sur : list Z) (H0 : hg) (q : list (Z * vertex)) (cost : list (Z * (Z * Z))) (own : Z)
    (k : nat) (r : ring) (snt : list (Z * vertex)) (cs : list (Z * (Z * Z))) : Prop := {
  wa_sending : sending label H0 (ri_s r);
  wa_sent : sent_off (sends label sur) (Z.of_nat p) (Z.of_nat s) H0 (rs_H (ri_s r)) (h_verts (rs_H (ri_s r))) snt cs;
  wa_q : rs_q (ri_s r) = q ++ snt;
  wa_cost : rs_cost (ri_s r) = cost ++ cs;
  wa_own : ri_own r = own + zsum (v_weight <$> snt.*2);
  wa_k : (k ≤ p - 1)%nat;
  wa_t : ri_t r = Z.of_nat (s + 1 + k) ∧ (s + 1 + k ≤ p)%nat ∨ ri_t r = Z.of_nat (s + 1 + k) - Z.of_nat p ∧ (p ≤ s + 1 + k)%nat;
  wa_others : 0 ≤ ri_own r ∨ ri_others r ≤ 0 ∧ zsum (take k (drop (s + 1) sur ++ take s sur)) ≤ zsum (v_weight <$> snt.*2) + ri_others r;
}.

Lemma snd_pair_fmap {A} (t : Z) (l : list A) : ((λ v, (t, v)) <$> l).*2 = l.
Proof. induction l as [|x l IH]; csimpl; congruence. Qed.
Lemma sent_off_send p s label sur H0 st st' t room sent cs cs0 snt :
  0 ≤ t < p → t ≠ s → zlookup sur t = Some room → 0 < room →
  sent_off (sends label sur) p s H0 (rs_H st) (h_verts (rs_H st)) snt cs0 → sending label H0 st' →
  h_verts (rs_H st) ≡ₚ sent ++ h_verts (rs_H st') → (∀ v, v ∈ sent → v_part v = label) →
  (∀ v n, v ∈ sent → n ∈ v_nets v → n ∈ cs.*1) →
  (∀ n c, (n, c) ∈ cs → ∃ e, e ∈ h_nets H0 ∧ n_id e = n ∧ n_cost e = c) →
  sent_off (sends label sur) p s H0 (rs_H st') (h_verts (rs_H st')) (snt ++ ((λ v, (t, v)) <$> sent)) (cs0 ++ ((λ c, (t, c)) <$> cs)).
Proof.
  intros Ht Hts Hz Hroom [A1 A2 A3 A4 A5 A6 A7 A8] HS Hp Hl Hn Hc. split.
  - apply HS.
  - apply HS.
  - by rewrite A3, Hp, fmap_app, <-app_assoc, snd_pair_fmap.
  - intros m [?|(v & -> & ?)%elem_of_list_fmap]%elem_of_app; [by apply A4|]. split; [by apply Hl|]. by exists room.
  - intros m [?|(v & -> & ?)%elem_of_list_fmap]%elem_of_app; eauto.
  - intros m [?|(v & -> & ?)%elem_of_list_fmap]%elem_of_app; eauto.
  - intros t' v n [?|(v' & [= -> ->] & Hv)%elem_of_list_fmap]%elem_of_app Hnv.
    + destruct (A7 t' v n) as [c ?]; try done. exists c. set_solver.
    + specialize (Hn _ _ Hv Hnv). apply elem_of_list_fmap in Hn as ([n' c] & -> & Hin). exists c. apply elem_of_app. right.
      apply elem_of_list_fmap. by exists (n', c).
  - intros t' n c [?|([n' c'] & [= -> -> ->] & Hv)%elem_of_list_fmap]%elem_of_app; eauto.
Qed.

Lemma wpe_reduce_surplus E p s label sur H q cost own (Q : rs_state * Z → Prop) :
  linked (h_verts H) (h_nets H) → nmap_ok H → (∀ v, v ∈ h_verts H → 0 ≤ v_weight v) →
  length sur = p → sur !! s = Some own → 0 ≤ own + lweight label (h_verts H) →
  (∀ st r snt cs, sent_off (sends label sur) (Z.of_nat p) (Z.of_nat s) H (rs_H st) (h_verts (rs_H st)) snt cs →
     (∀ v, v ∈ h_verts (rs_H st) → 0 ≤ v_weight v) →
     rs_q st = q ++ snt → rs_cost st = cost ++ cs → (0 ≤ own → snt = []) →
     (r = 0 ∧ 0 ≤ own + zsum (v_weight <$> snt.*2) ∨ r = -1 ∧ own + zsum (v_weight <$> snt.*2) < 0 ∧ zsum sur < 0) → Q (st, r)) →
  wpe E (reduce_surplus p s label sur H q cost) Q.
Proof.
  intros HL HN Hw Hlen Hown Hcap HQ. pose proof (lookup_lt_Some _ _ _ Hown) as Hs. rewrite Hlen in Hs.
  unfold reduce_surplus. apply wpe_bind. eapply wpe_nidx; [done|].
  destruct (decide (own >= 0)) as [Hge|Hlt].
  { apply wpe_ret. apply (HQ (RS H 0 q cost) 0 [] []); simpl; [by apply sent_off_nil|done|by rewrite app_nil_r|by rewrite app_nil_r|done|].
    left. split; [done|]. unfold zsum; simpl. lia. }
  apply wpe_bind.
  eapply wpe_mono; [eapply (wpe_loopM E _
    (λ x : ring * Z, ∃ k snt cs, walking label p s sur H q cost own k (fst x) snt cs ∧ snd x = 0)
    (λ x, Z.to_nat (if decide (ri_own (fst x) < 0) then
       if decide (ri_t (fst x) <= Z.of_nat s) then Z.of_nat s - ri_t (fst x) + 1 else Z.of_nat p + Z.of_nat s - ri_t (fst x) + 1 else 0))
    (λ x, ∃ k snt cs, walking label p s sur H q cost own k (fst x) snt cs ∧
       (snd x = 0 ∧ 0 ≤ ri_own (fst x) ∨ snd x = -1 ∧ ri_own (fst x) < 0 ∧ zsum sur < 0)))|].
  - intros [r ret0] (k & snt & cs & HW & Hr). cbn [fst snd] in *. subst ret0. unfold ring_body. cbn [fst snd].
    destruct (decide (ri_own r < 0)) as [Hneg|Hnn].
    2: { apply wpe_ret. exists k, snt, cs. cbn [fst snd]. split; [done|]. left. lia. }
    pose proof HW as [W1 W2 W3 W4 W5 W6 W7 W8]. destruct W8 as [?|[Ho Hsum]]; [lia|].
    set (t := if decide (ri_t r >= Z.of_nat p) then 0 else ri_t r).
    assert (Ht : t = Z.of_nat (if decide (s + 1 + k < p)%nat then (s + 1 + k)%nat else (s + 1 + k - p)%nat)).
    { unfold t. destruct W7 as [[-> ?]|[-> ?]]; repeat case_decide; lia. }
    assert (Htk : t = Z.of_nat s ↔ k = (p - 1)%nat) by (rewrite Ht; case_decide; lia).
    clearbody t. destruct (decide (t = Z.of_nat s)) as [Hts|Hts].
    { apply wpe_ret. exists k, snt, cs. cbn [fst snd]. split.
      - destruct HW as [? ? ? ? ? ? ? ?]. split; cbn; try done. right. apply Htk in Hts. lia.
      - right. cbn. split; [done|]. split; [lia|]. rewrite (ring_total s sur own Hown).
        rewrite take_ge in Hsum; [lia|]. rewrite app_length, drop_length, take_length. apply Htk in Hts. lia. }
    assert (Hkp : (k < p - 1)%nat) by lia.
    pose proof (ring_pos p s k sur Hlen Hs Hkp) as Hpos.
    destruct (sur !! (if decide (s + 1 + k < p)%nat then (s + 1 + k)%nat else (s + 1 + k - p)%nat)) as [st|] eqn:Hst.
    2: { apply lookup_ge_None in Hst. case_decide; lia. }
    apply wpe_bind. assert (Hz : zlookup sur t = Some st). { apply zlookup_Some. split; [lia|]. rewrite Ht, Nat2Z.id. exact Hst. }
    eapply wpe_idx; [exact Hz|].
    assert (Htrange : 0 ≤ t < Z.of_nat p) by (rewrite Ht; case_decide; lia).
    assert (Htake : zsum (take (Datatypes.S k) (drop (s + 1) sur ++ take s sur)) = zsum (take k (drop (s + 1) sur ++ take s sur)) + st).
    { erewrite take_S_r by exact Hpos. rewrite zsum_app. unfold zsum at 2. simpl. lia. }
    assert (Hnext : t + 1 = Z.of_nat (s + 1 + Datatypes.S k) ∧ (s + 1 + Datatypes.S k ≤ p)%nat ∨ t + 1 = Z.of_nat (s + 1 + Datatypes.S k) - Z.of_nat p ∧ (p ≤ s + 1 + Datatypes.S k)%nat).
    { rewrite Ht. case_decide; lia. }
    assert (Hμ : ∀ own' : Z, (Z.to_nat (if decide (own' < 0)%Z then
        if decide (t + 1 <= Z.of_nat s)%Z then Z.of_nat s - (t + 1) + 1 else Z.of_nat p + Z.of_nat s - (t + 1) + 1 else 0)%Z <
      Z.to_nat (if decide (ri_t r <= Z.of_nat s)%Z then Z.of_nat s - ri_t r + 1 else Z.of_nat p + Z.of_nat s - ri_t r + 1)%Z)%nat).
    { intros own'. rewrite Ht. destruct W7 as [[-> ?]|[-> ?]]; repeat case_decide; lia. }
    assert (Hrem : own + zsum (v_weight <$> snt.*2) + lweight label (h_verts (rs_H (ri_s r))) = own + lweight label (h_verts H)).
    { rewrite (lweight_perm _ _ _ (so_verts _ _ _ _ _ _ _ _ W2)), lweight_app, (lweight_all _ snt.*2); [lia|].
      intros v (m & -> & Hm)%elem_of_list_fmap. by apply (so_label _ _ _ _ _ _ _ _ W2). }
    destruct (decide (st > 0 ∧ ri_others r + st > 0)) as [[Hsp Hop]|Hnot].
    + apply wpe_bind. apply wpe_send_to with H; [done|done|lia|].
      intros st' sent cs' HS' Hp' Hl' Hq' Hc' Hn' Hcs' Hmx. apply wpe_ret. cbn [fst snd]. split; [|apply Hμ].
      exists (Datatypes.S k), (snt ++ ((λ v, (t, v)) <$> sent)), (cs ++ ((λ c, (t, c)) <$> cs')). cbn [fst snd]. split; [|done].
      assert (Hsum' : zsum (v_weight <$> (snt ++ ((λ v, (t, v)) <$> sent)).*2) = zsum (v_weight <$> snt.*2) + zsum (v_weight <$> sent)).
      { by rewrite fmap_app, fmap_app, zsum_app, snd_pair_fmap. }
      split; cbn; try done.
      * eapply sent_off_send; [done|done|exact Hz|lia|done..].
      * rewrite Hq', W3. by rewrite app_assoc.
      * rewrite Hc', W4. by rewrite app_assoc.
      * rewrite Hsum'. lia.
      * rewrite Hsum'. change (zsum (take _ _)) with (zsum (take (Datatypes.S k) (drop (s + 1) sur ++ take s sur))). rewrite Htake.
        destruct (Z.min_spec (ri_others r + st) (-1 * ri_own r)) as [[? Heq]|[? Heq]]; rewrite Heq in Hmx; [|left; lia].
        right. split; [lia|]. lia.
    + apply wpe_ret. cbn [fst snd]. split; [|apply Hμ]. exists (Datatypes.S k), snt, cs. cbn [fst snd]. split; [|done].
      split; cbn; try done. right.
      change (zsum (take _ _)) with (zsum (take (Datatypes.S k) (drop (s + 1) sur ++ take s sur))). rewrite Htake. split; lia.
  - exists 0%nat, [], []. cbn [fst snd]. split; [|done]. split; cbn.
    + split; simpl; try done; [apply frame_refl|]. lia.
    + by apply sent_off_nil.
    + by rewrite app_nil_r.
    + by rewrite app_nil_r.
    + unfold zsum. simpl. lia.
    + lia.
    + left. lia.
    + right. split; [lia|]. rewrite take_0. unfold zsum. simpl. lia.
  - cbn [fst snd]. cbn. repeat case_decide; lia.
  - intros [r rv] (k & snt & cs & HW & Hr). cbn [fst snd] in *. apply wpe_ret. destruct HW as [W1 W2 W3 W4 W5 W6 W7 W8].
    eapply (HQ (ri_s r) rv snt cs); try done; [apply W1|lia|]. rewrite <-W5. done.
Qed.
