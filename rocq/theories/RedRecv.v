(** Proofs about the two halves of the redistribution on one processor (Redistribute.v). *)
From Verif Require Export RedRing HgMore.

(** ** a new vertex *)
Lemma linked_add vs ns v : linked vs ns → v_id v ∉ v_id <$> vs → NoDup (v_nets v) → (∀ nid, nid ∈ v_nets v → nid ∈ n_id <$> ns) →
  linked (v :: vs) ((λ n, if decide (n_id n ∈ v_nets v) then n_add_vertex (v_id v) n else n) <$> ns).
Proof.
  intros [H1 H2 H3 H4 H5 H6] Hid Hnd Hin.
  set (f := λ n, if decide (n_id n ∈ v_nets v) then n_add_vertex (v_id v) n else n).
  assert (∀ n, n_id (f n) = n_id n) as Hf by (intros x; unfold f; by case_decide).
  assert (∀ n, n ∈ ns → v_id v ∉ n_verts n) as Hnew.
  { intros n Hn Hv. apply Hid. destruct (H6 n _ Hn Hv) as (x & Hx & <- & _). by apply elem_of_list_fmap_1. }
  split.
  - rewrite fmap_cons. by apply NoDup_cons.
  - rewrite <-list_fmap_compose. rewrite (list_fmap_ext _ n_id ns); [done|]. intros i x _. simpl. apply Hf.
  - intros x [->|Hx]%elem_of_cons; [done|by apply H3].
  - intros n' (n & -> & Hn)%elem_of_list_fmap. unfold f. case_decide; [|by apply H4].
    simpl. apply NoDup_app. split_and!; [by apply H4| |apply NoDup_singleton].
    intros x Hx ->%elem_of_list_singleton. by apply (Hnew n).
  - intros x nid [->|Hx]%elem_of_cons Hnid.
    + apply Hin in Hnid as Hn'. apply elem_of_list_fmap in Hn' as (n & -> & Hn). exists (f n).
      split; [by apply elem_of_list_fmap_1|]. split; [done|]. unfold f. rewrite decide_True by done. simpl. set_solver.
    + destruct (H5 x nid Hx Hnid) as (n & Hn & <- & Hv). exists (f n). split; [by apply elem_of_list_fmap_1|]. split; [done|].
      unfold f. case_decide; [simpl; set_solver|done].
  - intros n' vid (n & -> & Hn)%elem_of_list_fmap Hv. rewrite Hf.
    destruct (decide (vid ∈ n_verts n)) as [Ho|Ho].
    + destruct (H6 n vid Hn Ho) as (x & Hx & <- & Hnx). exists x. split; [by right|done].
    + unfold f in Hv. case_decide; [|done]. simpl in Hv. assert (vid = v_id v) as -> by set_solver. exists v. split; [by left|done].
Qed.

(** ** the nets that are received *)
Definition recv_nets (H : hg) (costs : list (Z * Z)) : hg := foldl (λ H m, add_net H (fst m) [] (snd m)) H costs.
Record received (H H' : hg) (costs : list (Z * Z)) : Prop := {
  rc_verts : h_verts H' = h_verts H;
  rc_gsize : h_gsize H' = h_gsize H;
  rc_gnets : h_gnets H' = h_gnets H;
  rc_nz : h_nz H' = h_nz H;
  rc_nmap : nmap_ok H';
  rc_keep : ∀ n, n ∈ h_nets H → n ∈ h_nets H';
  rc_new : ∀ m, m ∈ costs → fst m ∈ nids H';
  rc_only : ∀ e, e ∈ h_nets H' → e ∈ h_nets H ∨ n_id e ∉ nids H ∧ n_verts e = [] ∧ n_gsize e = 0 ∧ (n_id e, n_cost e) ∈ costs;
}.
Lemma linked_new_net vs ns id c : linked vs ns → id ∉ n_id <$> ns → linked vs (ns ++ [Net id [] c 0]).
Proof.
  intros [H1 H2 H3 H4 H5 H6] Hid. split; try done.
  - rewrite fmap_app. simpl. apply NoDup_app. split_and!; [done| |apply NoDup_singleton]. intros x Hx ->%elem_of_list_singleton. done.
  - intros n [Hn| ->%elem_of_list_singleton]%elem_of_app; [by apply H4|apply NoDup_nil_2].
  - intros v nid Hv Hn. destruct (H5 v nid Hv Hn) as (n & ? & ?). exists n. set_solver.
  - intros n vid [Hn| ->%elem_of_list_singleton]%elem_of_app; [by apply H6|]. simpl. set_solver.
Qed.
Lemma recv_nets_spec vs costs : ∀ H, linked vs (h_nets H) → nmap_ok H →
  linked vs (h_nets (recv_nets H costs)) ∧ received H (recv_nets H costs) costs.
Proof.
  induction costs as [|[id c] costs IH]; intros H HL HN.
  { split; [done|]. split; try done; [set_solver|]. intros e He. by left. }
  unfold recv_nets. cbn [foldl fst snd]. fold (recv_nets (add_net H id [] c) costs).
  unfold add_net. destruct (h_nmap H !! id) as [i|] eqn:Hi.
  - destruct (IH H HL HN) as [HL' [A1 A2 A3 A4 A5 A6 A7 A8]]. split; [done|]. split; try done.
    + intros m [->|Hm]%elem_of_cons; [|by apply A7]. simpl.
      destruct (nmap_ok_inv _ _ _ HN Hi) as (e & He & Hid). apply nids_elem. exists e. split; [|done]. apply A6. by eapply elem_of_list_lookup_2.
    + intros e He. destruct (A8 e He) as [?|(?&?&?&?)]; [by left|right]. split_and!; try done. by right.
  - set (H1 := with_nmap _ _).
    assert (id ∉ nids H) as Hnew.
    { intros (e & He & Hid)%nids_elem. apply elem_of_list_lookup in He as [j Hj]. pose proof (nmap_ok_lookup _ _ _ HN Hj) as Hl. rewrite Hid in Hl. congruence. }
    destruct (IH H1) as [HL' [A1 A2 A3 A4 A5 A6 A7 A8]].
    + by apply linked_new_net.
    + unfold nmap_ok, nids. simpl. rewrite fmap_app. simpl. rewrite <-(fmap_length n_id). by apply ids_ok_snoc.
    + split; [done|]. split; try done.
      * intros n Hn. apply A6. simpl. set_solver.
      * intros m [->|Hm]%elem_of_cons; [|by apply A7]. apply nids_elem. exists (Net id [] c 0). split; [|done]. apply A6. simpl. set_solver.
      * intros e He. destruct (A8 e He) as [Hin|(Hno&?&?&?)].
        { simpl in Hin. apply elem_of_app in Hin as [?| ->%elem_of_list_singleton]; [by left|]. right. simpl. split_and!; try done. by left. }
        right. split_and!; try done; [|by right]. intros Hno'. apply Hno. unfold nids in *. simpl. rewrite fmap_app. set_solver.
Qed.

(** ** the receiving half *)
Lemma wpe_red_receive E H aside costs vs (Q : hg * Z → Prop) :
  linked (h_verts H ++ aside) (h_nets H) → nmap_ok H →
  NoDup (v_id <$> vs ++ h_verts H ++ aside) → (∀ v, v ∈ vs → NoDup (v_nets v)) →
  (∀ v n, v ∈ vs → n ∈ v_nets v → n ∈ costs.*1) →
  (∀ H', consistent H' → h_verts H' = h_verts H ++ vs ++ aside → h_gnets H' = h_gnets H → h_gsize H' = h_gsize H → h_nz H' = h_nz H →
     (∀ e', e' ∈ h_nets H' → ∃ e, net_frame e e' ∧ (e ∈ h_nets H ∨ n_id e ∉ nids H ∧ n_gsize e = 0 ∧ (n_id e, n_cost e) ∈ costs)) →
     Q (H', Z.of_nat (length (h_verts H) + length vs))) →
  wpe E (red_receive H aside costs vs) Q.
Proof.
  intros HL HN Hnd Hvn Hc HQ. unfold red_receive. fold (recv_nets H costs).
  destruct (recv_nets_spec _ costs H HL HN) as [HL1 [A1 A2 A3 A4 A5 A6 A7 A8]]. set (H1 := recv_nets H costs) in *. clearbody H1.
  apply wpe_bind.
  eapply (wpe_foldM E _ (λ ds H', h_verts H' = h_verts H ++ ds ∧ frame H1 H' ∧ linked (ds ++ h_verts H ++ aside) (h_nets H'))).
  - rewrite app_nil_r. split_and!; [done|apply frame_refl|done].
  - intros ds v ts H' Heq (Hv & HF & HL').
    assert (Hvin : v ∈ vs) by (rewrite Heq; set_solver).
    pose proof (frame_nids _ _ HF) as Hni.
    assert (Hin : ∀ nid, nid ∈ v_nets v → nid ∈ nids H').
    { intros n Hn. rewrite Hni. specialize (Hc v n Hvin Hn). apply elem_of_list_fmap in Hc as (m & -> & Hm). by apply A7. }
    apply wpe_add_to_nets.
    + eapply nmap_ok_ids; [| |exact (frame_nmap_ok _ _ HF A5)]; done.
    + by apply Hvn.
    + done.
    + split_and!.
      * simpl. rewrite Hv. by rewrite app_assoc.
      * eapply frame_trans; [exact HF|]. split; try done. simpl. apply Forall2_fmap_r, Forall_Forall2_diag, Forall_forall.
        intros n _. unfold compose, net_frame. case_decide; done.
      * simpl. eapply linked_perm; [|apply linked_add; [exact HL'| |by apply Hvn|exact Hin]].
        { rewrite <-app_assoc. by rewrite Permutation_middle. }
        rewrite Heq in Hnd. rewrite <-app_assoc in Hnd. rewrite fmap_app in Hnd. simpl in Hnd.
        rewrite fmap_app in Hnd. rewrite <-Permutation_middle in Hnd. apply NoDup_cons in Hnd as [Hni' _].
        rewrite fmap_app. intros Hbad. apply Hni'. rewrite !elem_of_app. apply elem_of_app in Hbad as [?|?]; [by left|by do 2 right].
  - intros H2 (Hv & HF & HL2). apply wpe_ret. simpl.
    match goal with |- Q (?a, ?b) => replace b with (Z.of_nat (length (h_verts H) + length vs)) end.
    2: { rewrite Hv, !app_length. lia. }
    apply HQ.
    + apply linked_consistent.
      * simpl. rewrite Hv. eapply linked_perm; [|exact HL2]. rewrite <-app_assoc. by rewrite Permutation_app_swap_app.
      * eapply nmap_ok_ids; [| |exact (frame_nmap_ok _ _ HF A5)]; done.
    + simpl. rewrite Hv. by rewrite app_assoc.
    + simpl. rewrite (RedSend.fr_gnets _ _ HF). done.
    + simpl. rewrite (RedSend.fr_gsize _ _ HF). done.
    + simpl. rewrite (RedSend.fr_nz _ _ HF). done.
    + simpl. intros e' He'. destruct (frame_back _ _ _ HF He') as (e & He & Hfr). exists e. split; [done|].
      destruct (A8 e He) as [?|(?&?&?&?)]; [by left|by right].
Qed.

(** ** vertices set aside *)
Lemma put_aside_spec low vs : put_aside low vs = (filter (λ v, v_part v ≠ low) vs, reverse (filter (λ v, v_part v = low) vs)).
Proof.
  induction vs as [|v vs IH]; [done|]. unfold put_aside in *. cbn [foldr]. rewrite IH, !filter_cons. cbn [fst snd].
  destruct (decide (v_part v = low)) as [Hv|Hv].
  - rewrite (decide_False (P := v_part v ≠ low)) by tauto. by rewrite reverse_cons.
  - rewrite (decide_True (P := v_part v ≠ low)) by done. done.
Qed.
Lemma put_aside_perm low vs : fst (put_aside low vs) ++ snd (put_aside low vs) ≡ₚ vs.
Proof.
  rewrite put_aside_spec. cbn [fst snd]. rewrite reverse_Permutation. rewrite (Permutation_app_comm (filter _ _)).
  induction vs as [|v vs IH]; [done|]. rewrite !filter_cons. destruct (decide (v_part v = low)) as [Hv|Hv].
  - rewrite (decide_False (P := v_part v ≠ low)) by tauto. simpl. by rewrite IH.
  - rewrite (decide_True (P := v_part v ≠ low)) by done. rewrite <-Permutation_middle. by rewrite IH.
Qed.

(** ** the sending half *)
Lemma wpe_red_send E p s H low high p_low sur0 sur1 own0 own1 (Q : rs_state * (list vertex * (Z * Z)) → Prop) :
  linked (h_verts H) (h_nets H) → nmap_ok H → (∀ v, v ∈ h_verts H → 0 ≤ v_weight v) → low ≠ high →
  length sur0 = p → length sur1 = p → sur0 !! s = Some own0 → sur1 !! s = Some own1 →
  0 ≤ own0 + lweight low (h_verts H) → 0 ≤ own1 + lweight high (h_verts H) →
  (∀ st aside r0 r1 snt cs, 
     sent_off (λ m, sends low sur0 m ∨ sends high sur1 m) (Z.of_nat p) (Z.of_nat s) H (rs_H st) (h_verts (rs_H st) ++ aside) snt cs →
     rs_q st = snt → rs_cost st = cs →
     (p_low > 0 → aside = []) →
     (¬ p_low > 0 → aside ≡ₚ filter (λ v, v_part v = low) (h_verts H) ∧ (∀ v, v ∈ h_verts (rs_H st) → v_part v ≠ low) ∧ ∀ m, m ∈ snt → v_part (snd m) = high) →
     (p_low > 0 → r0 = 0 ∧ 0 ≤ own0 + lweight low snt.*2 ∨ r0 = -1 ∧ own0 + lweight low snt.*2 < 0 ∧ zsum sur0 < 0) →
     (r1 = 0 ∧ 0 ≤ own1 + lweight high snt.*2 ∨ r1 = -1 ∧ own1 + lweight high snt.*2 < 0 ∧ zsum sur1 < 0) →
     (0 ≤ own0 → lweight low snt.*2 = 0 ∧ ∀ m, m ∈ snt → v_part (snd m) = high) → (0 ≤ own1 → ∀ m, m ∈ snt → v_part (snd m) = low) →
     Q (st, (aside, (r0, r1)))) →
  wpe E (red_send p s H low high p_low sur0 sur1) Q.
Proof.
  intros HL HN Hw Hlh Hl0 Hl1 Ho0 Ho1 Hc0 Hc1 HQ. unfold red_send. apply wpe_bind.
  eapply wpe_reduce_surplus; [done|done|done|done|exact Ho1|done|].
  intros st1 r1 snt1 cs1 HS1 Hw1 Hq1 Hcs1 Hnil1 Hr1. cbn [fst snd] in *. rewrite app_nil_l in Hq1, Hcs1.
  assert (Hlab1 : ∀ v, v ∈ snt1.*2 → v_part v = high).
  { intros v (m & -> & Hm)%elem_of_list_fmap. by apply (so_label _ _ _ _ _ _ _ _ HS1 m). }
  destruct (decide (p_low > 0)) as [Hp|Hp].
  - apply wpe_bind. eapply wpe_reduce_surplus; [apply HS1| |done|done|exact Ho0| |].
    + eapply frame_nmap_ok; [apply HS1|done].
    + assert (lweight low (h_verts H) = lweight low (h_verts (rs_H st1))) as <-; [|done].
      rewrite (lweight_perm _ _ _ (so_verts _ _ _ _ _ _ _ _ HS1)), lweight_app, lweight_none; [lia|].
      intros v Hv. rewrite (Hlab1 v Hv). congruence.
    + intros st0 r0 snt0 cs0 HS0 Hw0 Hq0 Hcs0 Hnil0 Hr0. apply wpe_ret. cbn [fst snd].
      assert (Hlab0 : ∀ v, v ∈ snt0.*2 → v_part v = low).
      { intros v (m & -> & Hm)%elem_of_list_fmap. by apply (so_label _ _ _ _ _ _ _ _ HS0 m). }
      assert (Hlw0 : lweight low (snt1 ++ snt0).*2 = zsum (v_weight <$> snt0.*2)).
      { rewrite fmap_app, lweight_app, (lweight_none low snt1.*2), (lweight_all low snt0.*2) by (try done; intros v Hv; rewrite (Hlab1 v Hv); congruence). lia. }
      assert (Hlw1 : lweight high (snt1 ++ snt0).*2 = zsum (v_weight <$> snt1.*2)).
      { rewrite fmap_app, lweight_app, (lweight_none high snt0.*2), (lweight_all high snt1.*2) by (try done; intros v Hv; rewrite (Hlab0 v Hv); congruence). lia. }
      apply (HQ st0 [] r0 r1 (snt1 ++ snt0) (cs1 ++ cs0)).
      * rewrite app_nil_r. eapply sent_off_app; [| |exact HS1|exact HS0]; simpl; tauto.
      * congruence.
      * congruence.
      * done.
      * tauto.
      * intros _. by rewrite Hlw0.
      * by rewrite Hlw1.
      * intros Hge. specialize (Hnil0 Hge) as ->. rewrite Hlw0. split; [done|]. intros m [Hm|Hm]%elem_of_app; [|set_solver].
        apply Hlab1. by apply elem_of_list_fmap_1.
      * intros Hge. specialize (Hnil1 Hge) as ->. intros m [Hm|Hm]%elem_of_app; [set_solver|]. apply Hlab0. by apply elem_of_list_fmap_1.
  - apply wpe_ret. pose proof (put_aside_perm low (h_verts (rs_H st1))) as Hperm. pose proof (put_aside_spec low (h_verts (rs_H st1))) as Hspec.
    assert (Hlw0 : lweight low snt1.*2 = 0). { apply lweight_none. intros v Hv. rewrite (Hlab1 v Hv). congruence. }
    assert (Hlw1 : lweight high snt1.*2 = zsum (v_weight <$> snt1.*2)) by by apply lweight_all.
    eapply (HQ (RS _ 0 (rs_q st1) (rs_cost st1)) _ 0 r1 snt1 cs1).
    + destruct HS1 as [B1 B2 B3 B4 B5 B6 B7 B8]. split; try done; simpl.
      * destruct B1. by split.
      * eapply linked_perm; [|exact B2]. by rewrite Hperm.
      * rewrite B3. by rewrite Hperm.
      * intros m Hm. right. by apply B4.
    + done.
    + done.
    + done.
    + intros _. simpl. rewrite Hspec. cbn [fst snd]. rewrite reverse_Permutation. split_and!.
      * rewrite (so_verts _ _ _ _ _ _ _ _ HS1), filter_app, (filter_none (λ v, v_part v = low) snt1.*2); [done|].
        intros v Hv. rewrite (Hlab1 v Hv). congruence.
      * intros v [Hv _]%elem_of_list_filter. done.
      * intros m Hm. apply Hlab1. by apply elem_of_list_fmap_1.
    + tauto.
    + by rewrite Hlw1.
    + intros _. split; [done|]. intros m Hm. apply Hlab1. by apply elem_of_list_fmap_1.
    + intros Hge. specialize (Hnil1 Hge) as ->. set_solver.
Qed.
