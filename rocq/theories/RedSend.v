(** Proofs about the sending half of the redistribution (Redistribute.v). *)
From Verif Require Export Redistribute ParCut HgOps.

(** ** Vertices and nets that describe the same incidences, without the id maps *)
Record linked (vs : list vertex) (ns : list net) : Prop := {
  lk_vid : NoDup (v_id <$> vs);
  lk_nid : NoDup (n_id <$> ns);
  lk_vnets : ∀ v, v ∈ vs → NoDup (v_nets v);
  lk_nverts : ∀ n, n ∈ ns → NoDup (n_verts n);
  lk_inc1 : ∀ v nid, v ∈ vs → nid ∈ v_nets v → ∃ n, n ∈ ns ∧ n_id n = nid ∧ v_id v ∈ n_verts n;
  lk_inc2 : ∀ n vid, n ∈ ns → vid ∈ n_verts n → ∃ v, v ∈ vs ∧ v_id v = vid ∧ n_id n ∈ v_nets v;
}.
Lemma linked_perm vs vs' ns : vs ≡ₚ vs' → linked vs ns → linked vs' ns.
Proof.
  intros Hp [H1 H2 H3 H4 H5 H6]. split; try done.
  - by rewrite <-Hp.
  - intros v Hv. apply H3. by rewrite Hp.
  - intros v nid Hv. apply H5. by rewrite Hp.
  - intros n vid Hn Hv. destruct (H6 n vid Hn Hv) as (v & Hin & ?). exists v. by rewrite <-Hp.
Qed.
Lemma consistent_linked H : consistent H → linked (h_verts H) (h_nets H).
Proof. intros []. by split. Qed.
Lemma linked_consistent H : linked (h_verts H) (h_nets H) → nmap_ok H → consistent (update_map H).
Proof.
  intros [H1 H2 H3 H4 H5 H6] HN. apply consistent_intro; try done.
  unfold vmap_ok, update_map, vids. simpl. by apply ids_ok_index_map.
Qed.

(** nets that differ in their vertices only *)
Definition net_frame (n n' : net) : Prop := n_id n' = n_id n ∧ n_cost n' = n_cost n ∧ n_gsize n' = n_gsize n.
(** hypergraphs that differ in vertices, the vertex map and the vertices of the nets only *)
Record frame (H H' : hg) : Prop := {
  fr_nets : Forall2 net_frame (h_nets H) (h_nets H');
  fr_gsize : h_gsize H' = h_gsize H;
  fr_gnets : h_gnets H' = h_gnets H;
  fr_nz : h_nz H' = h_nz H;
  fr_nmap : h_nmap H' = h_nmap H;
  fr_dups : h_dups H' = h_dups H;
}.
Lemma net_frame_refl n : net_frame n n. Proof. done. Qed.
Lemma frame_refl H : frame H H.
Proof. split; try done. by apply Forall2_refl. Qed.
Lemma frame_trans H1 H2 H3 : frame H1 H2 → frame H2 H3 → frame H1 H3.
Proof.
  intros [] []; split; try congruence. eapply Forall2_transitive; try done.
  intros n1 n2 n3 (?&?&?) (?&?&?). repeat split; congruence.
Qed.
Lemma frame_nids H H' : frame H H' → nids H' = nids H.
Proof.
  intros HF. unfold nids. pose proof (fr_nets _ _ HF) as Hn. induction Hn as [|n n' l l' (Hid & _) _ IH]; csimpl; congruence.
Qed.
Lemma frame_nmap_ok H H' : frame H H' → nmap_ok H → nmap_ok H'.
Proof. intros HF. apply nmap_ok_ids; [by apply frame_nids|by apply fr_nmap]. Qed.
Lemma frame_back H H' n' : frame H H' → n' ∈ h_nets H' → ∃ n, n ∈ h_nets H ∧ net_frame n n'.
Proof.
  intros HF [j Hj]%elem_of_list_lookup. destruct (Forall2_lookup_r _ _ _ _ _ (fr_nets _ _ HF) Hj) as (n & Hn & ?).
  exists n. split; [by eapply elem_of_list_lookup_2|done].
Qed.
Lemma frame_forth H H' n : frame H H' → n ∈ h_nets H → ∃ n', n' ∈ h_nets H' ∧ net_frame n n'.
Proof.
  intros HF [j Hj]%elem_of_list_lookup. destruct (Forall2_lookup_l _ _ _ _ _ (fr_nets _ _ HF) Hj) as (n' & Hn & ?).
  exists n'. split; [by eapply elem_of_list_lookup_2|done].
Qed.

(** weight of the vertices with a label *)
Definition lweight (label : Z) (vs : list vertex) : Z := zsum (v_weight <$> filter (λ v, v_part v = label) vs).
Lemma lweight_perm label vs vs' : vs ≡ₚ vs' → lweight label vs = lweight label vs'.
Proof. intros Hp. unfold lweight. by rewrite Hp. Qed.
Lemma lweight_cons label v vs : lweight label (v :: vs) = (if decide (v_part v = label) then v_weight v else 0) + lweight label vs.
Proof. unfold lweight. rewrite filter_cons. case_decide; csimpl; rewrite ?zsum_cons; lia. Qed.
Lemma lweight_app label vs vs' : lweight label (vs ++ vs') = lweight label vs + lweight label vs'.
Proof. unfold lweight. by rewrite filter_app, fmap_app, zsum_app. Qed.
Lemma lweight_pos label vs : 0 < lweight label vs → ∃ v, v ∈ vs ∧ v_part v = label.
Proof.
  unfold lweight. destruct (filter _ vs) as [|v l] eqn:Hf; [unfold zsum; simpl; lia|]. intros _. exists v.
  assert (v ∈ filter (λ v, v_part v = label) vs) as Hv by (rewrite Hf; left). apply elem_of_list_filter in Hv as [??]. done.
Qed.
Lemma lweight_nonneg label vs : (∀ v, v ∈ vs → 0 ≤ v_weight v) → 0 ≤ lweight label vs.
Proof. intros Hv. apply zsum_nonneg. intros x (v & -> & [_ Hin]%elem_of_list_filter)%elem_of_list_fmap. by apply Hv. Qed.
Lemma lweight_all label vs : (∀ v, v ∈ vs → v_part v = label) → lweight label vs = zsum (v_weight <$> vs).
Proof. intros Hv. unfold lweight. by rewrite filter_all. Qed.
Lemma lweight_none label vs : (∀ v, v ∈ vs → v_part v ≠ label) → lweight label vs = 0.
Proof. intros Hv. unfold lweight. rewrite filter_none by done. done. Qed.
Lemma part_weight_lweight H q : part_weight H q = lweight q (h_verts H). Proof. done. Qed.

(** ** finding the next vertex *)
Lemma wpe_vert_z E H i (Q : vertex → Prop) v : 0 ≤ i → h_verts H !! Z.to_nat i = Some v → Q v → wpe E (vert_z H i) Q.
Proof.
  intros Hi Hv HQ. unfold vert_z. eapply wpe_of_option_Some; [|exact HQ]. apply zlookup_Some. done.
Qed.
Lemma wpe_next_index E H label index (Q : Z → Prop) :
  0 ≤ index → (∃ j v, index ≤ Z.of_nat j ∧ h_verts H !! j = Some v ∧ v_part v = label) →
  (∀ i v, index ≤ i → h_verts H !! Z.to_nat i = Some v → v_part v = label →
     (∀ j v', index ≤ Z.of_nat j < i → h_verts H !! j = Some v' → v_part v' ≠ label) → Q i) →
  wpe E (next_index H label index) Q.
Proof.
  intros Hi0 (j & v & Hj & Hv & Hl) HQ. unfold next_index.
  eapply wpe_mono; [eapply (wpe_loopM E _
     (λ i, index ≤ i ∧ i ≤ Z.of_nat j ∧ ∀ k v', index ≤ Z.of_nat k < i → h_verts H !! k = Some v' → v_part v' ≠ label)
     (λ i, Z.to_nat (Z.of_nat j - i))
     (λ i, ∃ v, index ≤ i ∧ h_verts H !! Z.to_nat i = Some v ∧ v_part v = label ∧
        (∀ k v', index ≤ Z.of_nat k < i → h_verts H !! k = Some v' → v_part v' ≠ label)))|].
  - intros i (Hi1 & Hi2 & Hall). pose proof (lookup_lt_Some _ _ _ Hv).
    destruct (lookup_lt_is_Some_2 (h_verts H) (Z.to_nat i)) as [x Hx]; [lia|].
    apply wpe_bind. eapply wpe_vert_z; [lia|done|]. apply wpe_ret. destruct (decide (v_part x ≠ label)) as [Hne|Heq].
    + destruct (decide (i = Z.of_nat j)) as [->|].
      { rewrite Nat2Z.id in Hx. congruence. }
      split; [|lia]. split; [lia|]. split; [lia|]. intros k v' Hk Hv'. destruct (decide (Z.of_nat k = i)) as [<-|].
      * rewrite Nat2Z.id in Hx. congruence.
      * eapply Hall; [|done]. lia.
    + exists x. split; [lia|]. split; [done|]. split; [by apply dec_stable|done].
  - split; [lia|]. split; [done|]. lia.
  - pose proof (lookup_lt_Some _ _ _ Hv). lia.
  - intros i (x & Hi & Hx & Hlx & Hall). eapply HQ; eauto.
Qed.

(** ** sending one vertex *)
Lemma remove_from_nets_linked H v vs : linked (v :: vs) (h_nets H) → linked vs (h_nets (remove_from_nets H (v_id v))).
Proof.
  intros [H1 H2 H3 H4 H5 H6]. rewrite fmap_cons in H1. apply NoDup_cons in H1 as [Hni H1].
  assert (∀ x, x ∈ vs → v_id x ≠ v_id v) as Hne.
  { intros x Hx Heq. apply Hni. rewrite <-Heq. by apply elem_of_list_fmap_1. }
  unfold remove_from_nets. simpl. split; try done.
  - rewrite <-list_fmap_compose. done.
  - intros x Hx. apply H3. by right.
  - intros n' (n & -> & Hn)%elem_of_list_fmap. simpl. by apply NoDup_remove_value, H4.
  - intros x nid Hx Hnid. destruct (H5 x nid) as (n & Hn & Hid & Hin); [by right|done|].
    exists (set_nverts (remove_value (v_id v) (n_verts n)) n). split; [by apply elem_of_list_fmap_1_alt with n|]. split; [done|].
    simpl. apply elem_of_remove_value; [by apply H4|]. split; [done|]. by apply Hne.
  - intros n' vid (n & -> & Hn)%elem_of_list_fmap. simpl. intros [Hin Hvid]%elem_of_remove_value; [|by apply H4].
    destruct (H6 n vid Hn Hin) as (x & Hx & Hid & Hnx). apply elem_of_cons in Hx as [->|Hx]; [congruence|].
    exists x. done.
Qed.
Lemma remove_from_nets_frame H id : frame H (remove_from_nets H id).
Proof. split; try done. simpl. apply Forall2_fmap_r, Forall_Forall2_diag, Forall_forall. done. Qed.

Lemma delete_lookup {A} (l : list A) i j x : delete i l !! j = Some x → l !! (if decide (j < i)%nat then j else S j) = Some x.
Proof.
  intros Hx. case_decide as Hij.
  - by rewrite lookup_delete_lt in Hx by done.
  - by rewrite lookup_delete_ge in Hx by lia.
Qed.

(** the state of a sender: which vertices are left and where those with the label are *)
Record sending (label : Z) (H0 : hg) (s : rs_state) : Prop := {
  se_frame : frame H0 (rs_H s);
  se_linked : linked (h_verts (rs_H s)) (h_nets (rs_H s));
  se_index : 0 ≤ rs_index s;
  se_first : ∀ j v, h_verts (rs_H s) !! j = Some v → v_part v = label → rs_index s ≤ Z.of_nat j;
  se_weight : ∀ v, v ∈ h_verts (rs_H s) → 0 ≤ v_weight v;
}.

Lemma wpe_send_vertex E label t H0 s tot X (Q : rs_state * (Z * gset Z) → Prop) :
  sending label H0 s → 0 < lweight label (h_verts (rs_H s)) →
  (∀ v s', v_part v = label → h_verts (rs_H s) ≡ₚ v :: h_verts (rs_H s') → sending label H0 s' →
     length (h_verts (rs_H s)) = S (length (h_verts (rs_H s'))) →
     rs_q s' = rs_q s ++ [(t, v)] → rs_cost s' = rs_cost s →
     Q (s', (tot + v_weight v, list_to_set (v_nets v) ∪ X))) →
  wpe E (send_vertex label t (s, (tot, X))) Q.
Proof.
  intros [HF HL Hi0 Hfirst Hw] Hpos HQ. unfold send_vertex. simpl. apply wpe_bind.
  destruct (lweight_pos _ _ Hpos) as (v & [j Hj]%elem_of_list_lookup & Hv).
  apply wpe_next_index; [done|exists j, v; eauto|]. clear j v Hj Hv. intros i v Hi Hv Hl Hall.
  apply wpe_bind. eapply wpe_vert_z; [lia|done|]. apply wpe_ret.
  pose proof (delete_Permutation _ _ _ Hv) as Hp.
  eapply (HQ v (RS _ i (rs_q s ++ [(t, v)]) (rs_cost s))); try done.
  - split; simpl.
    + eapply frame_trans; [done|]. destruct (remove_from_nets_frame (rs_H s) (v_id v)). by split.
    + apply (remove_from_nets_linked (rs_H s) v). by apply linked_perm with (h_verts (rs_H s)).
    + lia.
    + intros j x Hx Hlx. apply delete_lookup in Hx. case_decide as Hlt; [|lia].
      destruct (decide (rs_index s ≤ Z.of_nat j)) as [?|Hn].
      * exfalso. eapply Hall; [|done|done]. lia.
      * exfalso. apply Hn. by eapply Hfirst.
    + intros x Hx. apply Hw. rewrite Hp. by right.
  - simpl. apply Permutation_length in Hp. simpl in Hp. lia.
Qed.

(** ** sending to one processor *)
Lemma wpe_send_to E label t mx H0 s (Q : rs_state * Z → Prop) :
  sending label H0 s → nmap_ok H0 → mx ≤ lweight label (h_verts (rs_H s)) →
  (∀ s' sent cs, sending label H0 s' → h_verts (rs_H s) ≡ₚ sent ++ h_verts (rs_H s') →
     (∀ v, v ∈ sent → v_part v = label) →
     rs_q s' = rs_q s ++ ((λ v, (t, v)) <$> sent) → rs_cost s' = rs_cost s ++ ((λ c, (t, c)) <$> cs) →
     (∀ v n, v ∈ sent → n ∈ v_nets v → n ∈ cs.*1) →
     (∀ n c, (n, c) ∈ cs → ∃ e, e ∈ h_nets H0 ∧ n_id e = n ∧ n_cost e = c) →
     mx ≤ zsum (v_weight <$> sent) → Q (s', zsum (v_weight <$> sent))) →
  wpe E (send_to label t mx s) Q.
Proof.
  intros HS HN Hmx HQ. unfold send_to. apply wpe_bind.
  eapply wpe_mono; [eapply (wpe_loopM E _
    (λ x : rs_state * (Z * gset Z), ∃ sent, sending label H0 (fst x) ∧ h_verts (rs_H s) ≡ₚ sent ++ h_verts (rs_H (fst x)) ∧
       (∀ v, v ∈ sent → v_part v = label) ∧ rs_q (fst x) = rs_q s ++ ((λ v, (t, v)) <$> sent) ∧
       rs_cost (fst x) = rs_cost s ∧ fst (snd x) = zsum (v_weight <$> sent) ∧
       (∀ n, n ∈ snd (snd x) ↔ ∃ v, v ∈ sent ∧ n ∈ v_nets v))
    (λ x, length (h_verts (rs_H (fst x))))
    (λ x, ∃ sent, sending label H0 (fst x) ∧ h_verts (rs_H s) ≡ₚ sent ++ h_verts (rs_H (fst x)) ∧
       (∀ v, v ∈ sent → v_part v = label) ∧ rs_q (fst x) = rs_q s ++ ((λ v, (t, v)) <$> sent) ∧
       rs_cost (fst x) = rs_cost s ∧ fst (snd x) = zsum (v_weight <$> sent) ∧
       (∀ n, n ∈ snd (snd x) ↔ ∃ v, v ∈ sent ∧ n ∈ v_nets v) ∧ mx ≤ fst (snd x)))|].
  - intros [s1 [tot X]] (sent & HS1 & Hp & Hl & Hq & Hc & Htot & HX). simpl in *.
    destruct (decide (tot < mx)) as [Hlt|Hge].
    + apply wpe_bind. apply wpe_send_vertex with H0; [done|..].
      { rewrite (lweight_perm _ _ _ Hp), lweight_app, (lweight_all _ sent Hl) in Hmx. lia. }
      intros v s2 Hv Hp2 HS2 Hlen Hq2 Hc2. apply wpe_ret. split; [|simpl; lia]. simpl.
      exists (sent ++ [v]). split; [done|]. split.
      { rewrite Hp, Hp2. by rewrite <-app_assoc. }
      split; [set_solver|]. split; [by rewrite Hq2, Hq, fmap_app, app_assoc|]. split; [congruence|].
      split; [rewrite fmap_app, zsum_app; csimpl; unfold zsum at 2; simpl; lia|].
      intros n. rewrite elem_of_union, elem_of_list_to_set, HX. set_solver.
    + apply wpe_ret. simpl. exists sent. split_and!; try done. lia.
  - exists []. simpl. split_and!; try done; [set_solver|by rewrite app_nil_r|set_solver].
  - simpl. lia.
  - intros [s1 [tot X]] (sent & HS1 & Hp & Hl & Hq & Hc & Htot & HX & Hm). simpl in *.
    apply wpe_bind.
    assert (∀ n, n ∈ X → ∃ i e, h_nmap (rs_H s1) !! n = Some i ∧ h_nets (rs_H s1) !! i = Some e ∧ n_id e = n) as Hnet.
    { intros n (v & Hv & Hn)%HX. pose proof (se_frame _ _ _ HS1) as HF1. pose proof (se_frame _ _ _ HS) as HF.
      destruct (lk_inc1 _ _ (se_linked _ _ _ HS) v n) as (e & He & Hid & _); [rewrite Hp; set_solver|done|].
      destruct (frame_back _ _ _ HF He) as (e0 & He0 & (Hid0 & _)).
      destruct (frame_forth _ _ _ HF1 He0) as (e1 & [i Hi]%elem_of_list_lookup & (Hid1 & _)).
      exists i, e1. split; [|split; [done|congruence]].
      assert (n = n_id e1) as -> by congruence. apply nmap_ok_lookup; [|done]. by eapply frame_nmap_ok. }
    set (C n := match h_nmap (rs_H s1) !! n with Some i => match h_nets (rs_H s1) !! i with Some e => n_cost e | None => 0 end | None => 0 end).
    apply (wpe_mapP_eq E _ (λ n, (t, (n, C n)))).
    { intros i n Hi. assert (n ∈ X) as HnX by (apply elem_of_elements; by eapply elem_of_list_lookup_2).
      destruct (Hnet n HnX) as (j & e & Hj & He & Hid). unfold get_net. apply wpe_bind. apply wpe_bind.
      eapply wpe_of_option_Some; [exact Hj|]. eapply wpe_of_option_Some; [exact He|]. apply wpe_ret. unfold C. by rewrite Hj, He. }
    apply wpe_ret. rewrite Htot. eapply (HQ (RS (rs_H s1) (rs_index s1) (rs_q s1) _) sent ((λ n, (n, C n)) <$> elements X)); try done.
    + destruct HS1. by split.
    + simpl. rewrite Hc. by rewrite <-list_fmap_compose.
    + intros v n Hv Hn. rewrite <-list_fmap_compose. apply elem_of_list_fmap. exists n. split; [done|]. apply elem_of_elements, HX. eauto.
    + intros n c (n' & [= -> ->] & Hn'%elem_of_elements)%elem_of_list_fmap. destruct (Hnet n' Hn') as (j & e & Hj & He & Hid).
      apply elem_of_list_lookup_2 in He as Hin. destruct (frame_back _ _ _ (se_frame _ _ _ HS1) Hin) as (e0 & He0 & (Hid0 & Hc0 & _)).
      exists e0. split; [done|]. split; [congruence|]. unfold C. rewrite Hj, He. done.
    + lia.
Qed.
