(** Proofs about removing many nets, adding nets and vertices, copying, removing free
    nets, and about histories of mutators. *)
From Verif Require Export HgMove.

(** ** removing a list of nets *)
Record nets_removed (ids : list Z) (H H' : hg) : Prop := {
  nsr_nets : h_nets H' ≡ₚ filter (λ n, n_id n ∉ ids) (h_nets H);
  nsr_verts : Forall2 (λ v v', v_id v' = v_id v ∧ v_weight v' = v_weight v ∧ v_part v' = v_part v ∧
               v_nets v' ≡ₚ filter (λ m, m ∉ ids) (v_nets v)) (h_verts H) (h_verts H');
  nsr_gsize : h_gsize H' = h_gsize H;
  nsr_gnets : h_gnets H' = h_gnets H;
  nsr_nz : h_nz H' = h_nz H;
}.

Lemma filter_filter {A} (P Q : A → Prop) {HP : ∀ x, Decision (P x)} {HQ : ∀ x, Decision (Q x)} (l : list A) :
  filter P (filter Q l) = filter (λ x, P x ∧ Q x) l.
Proof.
  induction l as [|x l IH]; [done|]. rewrite !filter_cons.
  destruct (decide (Q x)); [rewrite filter_cons|];
    destruct (decide (P x)), (decide (P x ∧ Q x)); try tauto; rewrite ?IH; done.
Qed.

Lemma filter_ext {A} (P Q : A → Prop) {HP : ∀ x, Decision (P x)} {HQ : ∀ x, Decision (Q x)} (l : list A) :
  (∀ x, x ∈ l → P x ↔ Q x) → filter P l = filter Q l.
Proof.
  induction l as [|x l IH]; intros Heq; [done|]. rewrite !filter_cons, IH by set_solver.
  assert (P x ↔ Q x) by (apply Heq; set_solver).
  destruct (decide (P x)), (decide (Q x)); tauto || done.
Qed.

Lemma filter_perm {A} (P : A → Prop) {HP : ∀ x, Decision (P x)} (l l' : list A) :
  l ≡ₚ l' → filter P l ≡ₚ filter P l'.
Proof. intros ->. done. Qed.

Lemma nets_removed_refl H : nets_removed [] H H.
Proof.
  split; try done.
  - rewrite filter_all; [done|]. set_solver.
  - apply Forall2_refl. intros v. split_and!; try done. rewrite filter_all; [done|]. set_solver.
Qed.

Lemma nets_removed_snoc ids n H1 H2 H3 :
  nmap_ok H2 → nets_removed ids H1 H2 → net_removed n H2 H3 → nets_removed (ids ++ [n_id n]) H1 H3.
Proof.
  intros HN [R1 R2 R3 R4 R5] [S1 S2 S3 S4 S5 S6]. split; try congruence.
  - assert (h_nets H3 ≡ₚ filter (λ m, n_id m ≠ n_id n) (h_nets H2)) as Hp.
    { rewrite S1, filter_cons, decide_False by (intros HH; by apply HH).
      rewrite filter_all; [done|]. intros m Hm Heq.
      apply ids_ok_NoDup in HN. unfold nids in HN. rewrite S1 in HN. csimpl in HN.
      apply NoDup_cons in HN as [HN _]. apply HN. rewrite <-Heq. by apply elem_of_list_fmap_1. }
    rewrite Hp, R1, filter_filter. apply reflexive_eq, filter_ext. set_solver.
  - eapply Forall2_transitive; [|exact R2|exact S2].
    intros v1 v2 v3 (E1 & E2 & E3 & E4) (F1 & F2 & F3 & F4). split_and!; try congruence.
    rewrite F4, E4, filter_filter. apply reflexive_eq, filter_ext. set_solver.
Qed.

Lemma wpe_remove_nets E H ids (Q : hg → Prop) :
  consistent H → NoDup ids → (∀ id, id ∈ ids → id ∈ nids H) →
  (∀ H', nets_removed ids H H' → consistent H' → h_vmap H' = h_vmap H → h_dups H' = h_dups H → Q H') →
  wpe E (foldM (λ H id, i <- local_id_net H id ;; remove_net_by_index H i) ids H) Q.
Proof.
  intros HC Hnd Hin HQ.
  eapply (wpe_foldM E _ (λ ds H', nets_removed ds H H' ∧ consistent H' ∧ h_vmap H' = h_vmap H ∧ h_dups H' = h_dups H)).
  - split; [apply nets_removed_refl|done].
  - intros ds id ts H' Heq (HR & HC' & Hvm & Hd).
    assert (id ∈ nids H) as (n & Hn & <-)%nids_elem by (apply Hin; rewrite Heq; set_solver).
    assert (n ∈ h_nets H') as Hn'.
    { rewrite (nsr_nets _ _ _ HR). apply elem_of_list_filter. split; [|done].
      rewrite Heq in Hnd. apply NoDup_app in Hnd as (_ & Hnd & _). intros Hds. apply (Hnd _ Hds). set_solver. }
    change (wpe E (remove_net H' (n_id n)) (λ H0, nets_removed (ds ++ [n_id n]) H H0 ∧
       consistent H0 ∧ h_vmap H0 = h_vmap H ∧ h_dups H0 = h_dups H)).
    apply wpe_remove_net; [done..|]. intros H'' HR' HC'' Hvm'. split; [|split; [done|split; [congruence|]]].
    + eapply (nets_removed_snoc _ _ _ H'); [by apply co_nmap_ok|done..].
    + rewrite (nr_dups _ _ _ HR'). done.
  - intros H' (HR & HC' & Hvm & Hd). by apply HQ.
Qed.

(** ** adding a net with its vertex side *)
Lemma wpe_add_local_net E H n (Q : hg → Prop) :
  vmap_ok H → n_id n ∉ nids H → nmap_ok H → NoDup (n_verts n) → (∀ u, u ∈ n_verts n → u ∈ vids H) →
  Q (with_verts ((λ v, if decide (v_id v ∈ n_verts n) then v_add_net (n_id n) v else v) <$> h_verts H)
      (with_nmap (<[n_id n := length (h_nets H)]> (h_nmap H))
        (with_nets (h_nets H ++ [Net (n_id n) (n_verts n) (n_cost n) 0]) H))) →
  wpe E (add_local_net H n) Q.
Proof.
  intros HV Hn HN Hnd Hin HQ. unfold add_local_net, add_net.
  destruct (h_nmap H !! n_id n) as [i|] eqn:Hi.
  { apply HN in Hi. destruct Hn. by eapply elem_of_list_lookup_2. }
  apply wpe_fold_upd_vert; done.
Qed.

Lemma add_local_net_consistent H n :
  consistent H → n_id n ∉ nids H → NoDup (n_verts n) → (∀ u, u ∈ n_verts n → u ∈ vids H) →
  consistent (with_verts ((λ v, if decide (v_id v ∈ n_verts n) then v_add_net (n_id n) v else v) <$> h_verts H)
      (with_nmap (<[n_id n := length (h_nets H)]> (h_nmap H))
        (with_nets (h_nets H ++ [Net (n_id n) (n_verts n) (n_cost n) 0]) H))).
Proof.
  intros HC Hn Hnd Hin. set (f := λ v, if decide (v_id v ∈ n_verts n) then v_add_net (n_id n) v else v).
  assert (∀ v, v_id (f v) = v_id v) as Hf by (intros v; unfold f; by case_decide).
  assert (∀ v, v ∈ h_verts H → n_id n ∉ v_nets v) as Hnew.
  { intros v Hv Hn'. destruct (co_inc1 _ HC _ _ Hv Hn') as (m & Hm & Hid & _).
    apply Hn. rewrite <-Hid. apply nids_elem. eauto. }
  apply consistent_intro.
  - apply (vmap_ok_ids H); [|done|by apply co_vmap_ok]. unfold vids. simpl.
    rewrite <-list_fmap_compose. apply list_fmap_ext. intros ? x _; first [done|exact (Hf x)].
  - unfold nmap_ok, nids. simpl. rewrite fmap_app. simpl.
    rewrite <-(fmap_length n_id). apply ids_ok_snoc; [by apply co_nmap_ok|done].
  - simpl. intros v' (v & -> & Hv)%elem_of_list_fmap. unfold f. case_decide; [|by apply (co_vnets _ HC)].
    simpl. apply NoDup_app. split_and!; [by apply (co_vnets _ HC)| |apply NoDup_singleton].
    intros x Hx ->%elem_of_list_singleton. by apply (Hnew v).
  - simpl. intros m [Hm| ->%elem_of_list_singleton]%elem_of_app; [by apply (co_nverts _ HC)|done].
  - simpl. intros v' nid (v & -> & Hv)%elem_of_list_fmap Hnid. rewrite Hf.
    destruct (decide (nid ∈ v_nets v)) as [Ho|Ho].
    + destruct (co_inc1 _ HC _ _ Hv Ho) as (m & Hm & ? & ?). exists m. set_solver.
    + unfold f in Hnid. case_decide; [|done]. simpl in Hnid.
      assert (nid = n_id n) as -> by set_solver. eexists. split; [apply elem_of_app; right; by apply elem_of_list_singleton|]. done.
  - simpl. intros m vid [Hm| ->%elem_of_list_singleton]%elem_of_app Hvid.
    + destruct (co_inc2 _ HC _ _ Hm Hvid) as (v & Hv & <- & Hmv). exists (f v).
      split; [by apply elem_of_list_fmap_1|]. split; [done|]. unfold f. case_decide; [|done]. simpl. set_solver.
    + simpl in *. 
      apply Hin in Hvid as Hv'. apply vids_elem in Hv' as (v & Hv & <-). exists (f v).
      split; [by apply elem_of_list_fmap_1|]. split; [done|]. unfold f. rewrite decide_True by done. simpl. set_solver.
Qed.

(** ** adding a vertex with nets *)
Lemma wpe_add_to_nets E H v (Q : hg → Prop) :
  nmap_ok H → NoDup (v_nets v) → (∀ nid, nid ∈ v_nets v → nid ∈ nids H) →
  Q (with_nets ((λ n, if decide (n_id n ∈ v_nets v) then n_add_vertex (v_id v) n else n) <$> h_nets H) H) →
  wpe E (add_to_nets H v) Q.
Proof.
  intros HN Hnd Hin HQ. unfold add_to_nets.
  eapply (wpe_foldM E _ (λ ds H', H' = with_nets ((λ n, if decide (n_id n ∈ ds) then n_add_vertex (v_id v) n else n) <$> h_nets H) H)).
  - transitivity (with_nets (h_nets H) H); [by rewrite with_nets_self|]. f_equal. symmetry.
    rewrite <-(list_fmap_id (h_nets H)) at 2. apply list_fmap_ext. intros i n _. by rewrite decide_False by set_solver.
  - intros ds nid ts H' Heq ->.
    assert (nid ∈ nids H) as (n & Hn & <-)%nids_elem by (apply Hin; rewrite Heq; set_solver).
    pose proof Hn as [k Hk]%elem_of_list_lookup.
    assert (n_id n ∉ ds) as Hds.
    { rewrite Heq in Hnd. apply NoDup_app in Hnd as (_ & Hnd & _). intros Hds. apply (Hnd _ Hds). set_solver. }
    apply wpe_bind. unfold local_id_net. simpl. eapply wpe_of_option_Some; [by eapply nmap_ok_lookup|].
    apply wpe_bind. eapply wpe_nidx; [by rewrite list_lookup_fmap, Hk|]. apply wpe_ret.
    unfold upd_net, with_nets. simpl. f_equal.
    rewrite (alter_eq_fmap _ n_id _ k (if decide (n_id n ∈ ds) then n_add_vertex (v_id v) n else n)).
    + rewrite <-list_fmap_compose. apply list_fmap_ext. intros i m Hm. simpl.
      rewrite (decide_False (P := n_id n ∈ ds)) by done.
      assert (n_id (if decide (n_id m ∈ ds) then n_add_vertex (v_id v) m else m) = n_id m) as -> by by case_decide.
      destruct (decide (n_id m = n_id n)) as [He|He].
      * rewrite He, (decide_False (P := n_id n ∈ ds)), decide_True by set_solver. done.
      * destruct (decide (n_id m ∈ ds)); [rewrite decide_True by set_solver|rewrite decide_False by set_solver]; done.
    + rewrite <-list_fmap_compose. erewrite list_fmap_ext; [by eapply ids_ok_NoDup|].
      intros i m Hm. simpl. by case_decide.
    + by rewrite list_lookup_fmap, Hk.
  - intros H' ->. done.
Qed.

Lemma add_vertex_consistent H id ns w :
  consistent H → id ∉ vids H → NoDup ns → (∀ nid, nid ∈ ns → nid ∈ nids H) →
  consistent (with_nets ((λ n, if decide (n_id n ∈ ns) then n_add_vertex id n else n) <$> h_nets H)
    (add_vertex H id ns w)).
Proof.
  intros HC Hid Hnd Hin. set (f := λ n, if decide (n_id n ∈ ns) then n_add_vertex id n else n).
  assert (∀ n, n_id (f n) = n_id n) as Hf by (intros v; unfold f; by case_decide).
  assert (∀ n, n ∈ h_nets H → id ∉ n_verts n) as Hnew.
  { intros n Hn Hv. apply Hid. by eapply net_in_vids. }
  apply consistent_intro.
  - unfold vmap_ok, vids. simpl. rewrite fmap_app. simpl.
    rewrite <-(fmap_length v_id). apply ids_ok_snoc; [by apply co_vmap_ok|done].
  - apply (nmap_ok_ids H); [|done|by apply co_nmap_ok]. unfold nids. simpl.
    rewrite <-list_fmap_compose. apply list_fmap_ext. intros ? x _; first [done|exact (Hf x)].
  - simpl. intros m [Hm| ->%elem_of_list_singleton]%elem_of_app; [by apply (co_vnets _ HC)|done].
  - simpl. intros v' (v & -> & Hv)%elem_of_list_fmap. unfold f. case_decide; [|by apply (co_nverts _ HC)].
    simpl. apply NoDup_app. split_and!; [by apply (co_nverts _ HC)| |apply NoDup_singleton].
    intros x Hx ->%elem_of_list_singleton. by apply (Hnew v).
  - simpl. intros m nid [Hm| ->%elem_of_list_singleton]%elem_of_app Hnid.
    + destruct (co_inc1 _ HC _ _ Hm Hnid) as (v & Hv & <- & Hmv). exists (f v).
      split; [by apply elem_of_list_fmap_1|]. split; [done|]. unfold f. case_decide; [|done]. simpl. set_solver.
    + simpl in *. apply Hin in Hnid as Hv'. apply nids_elem in Hv' as (v & Hv & <-). exists (f v).
      split; [by apply elem_of_list_fmap_1|]. split; [done|]. unfold f. rewrite decide_True by done. simpl. set_solver.
  - simpl. intros v' vid (v & -> & Hv)%elem_of_list_fmap Hvid. rewrite Hf.
    destruct (decide (vid ∈ n_verts v)) as [Ho|Ho].
    + destruct (co_inc2 _ HC _ _ Hv Ho) as (m & Hm & ? & ?). exists m. set_solver.
    + unfold f in Hvid. case_decide; [|done]. simpl in Hvid.
      assert (vid = id) as -> by set_solver. eexists. split; [apply elem_of_app; right; by apply elem_of_list_singleton|]. done.
Qed.

(** ** removing a vertex from all nets, then from the vertex list *)
Lemma delete_vertex_consistent H i v :
  consistent H → h_verts H !! i = Some v →
  consistent (remove_vertex_result (remove_from_nets H (v_id v)) i v).
Proof.
  intros HC Hi.
  assert (vmap_ok (remove_from_nets H (v_id v))) as HV by (apply (vmap_ok_ids H); [done..|by apply co_vmap_ok]).
  pose proof (remove_vertex_result_removed (remove_from_nets H (v_id v)) i v Hi) as [R1 _ _ _ _ _].
  set (H' := remove_vertex_result _ _ _) in *.
  assert (∀ u, u ∈ h_verts H' ↔ u ∈ h_verts H ∧ v_id u ≠ v_id v) as Hv'.
  { intros u. change (h_verts (remove_from_nets H (v_id v))) with (h_verts H) in R1.
    pose proof (co_vid _ HC) as Hnd. rewrite R1 in Hnd. csimpl in Hnd. apply NoDup_cons in Hnd as [Hnd _].
    split.
    - intros Hu. split; [rewrite R1; by right|]. intros Heq. apply Hnd. rewrite <-Heq. by apply elem_of_list_fmap_1.
    - intros [Hu Hne]. rewrite R1 in Hu. apply elem_of_cons in Hu as [->|]; done. }
  apply consistent_intro.
  - by apply remove_vertex_result_vmap.
  - apply (nmap_ok_ids H); [|done|by apply co_nmap_ok].
    unfold nids. simpl. rewrite <-list_fmap_compose. apply list_fmap_ext. intros ? x _; first [done|exact (Hf x)].
  - intros u [Hu _]%Hv'. by apply (co_vnets _ HC).
  - simpl. intros n' (n & -> & Hn)%elem_of_list_fmap. simpl. apply NoDup_remove_value. by apply (co_nverts _ HC).
  - intros u nid [Hu Hne]%Hv' Hnid. destruct (co_inc1 _ HC _ _ Hu Hnid) as (n & Hn & <- & Hin).
    exists (set_nverts (remove_value (v_id v) (n_verts n)) n). split; [|split; [done|]].
    + simpl. apply elem_of_list_fmap. eauto.
    + simpl. apply elem_of_remove_value; [by apply (co_nverts _ HC)|done].
  - simpl. intros n' vid (n & -> & Hn)%elem_of_list_fmap. simpl.
    intros [Hin Hne]%elem_of_remove_value; [|by apply (co_nverts _ HC)].
    destruct (co_inc2 _ HC _ _ Hn Hin) as (u & Hu & <- & Hnu). exists u. split; [by apply Hv'|done].
Qed.

(** ** the copy constructor *)
Lemma wpe_copy_hg E H (Q : hg → Prop) :
  consistent H →
  Q (mk_hg (h_gsize H) (h_gnets H) (h_verts H)
      ((λ n, Net (n_id n) (v_id <$> filter (λ v, n_id n ∈ v_nets v) (h_verts H)) 1 (n_gsize n)) <$> h_nets H)
      (h_nz H)) →
  wpe E (copy_hg H) Q.
Proof.
  intros HC HQ. unfold copy_hg.
  set (F := λ (vs : list vertex) (n : net), Net (n_id n) (v_id <$> filter (λ v, n_id n ∈ v_nets v) vs) 1 (n_gsize n)).
  apply wpe_bind. eapply (wpe_foldM E _ (λ ds ns, ns = F ds <$> h_nets H)); [done| |].
  2: { intros ns ->. apply wpe_ret. exact HQ. }
  intros ds v ts ns Heq ->.
  assert (v ∈ h_verts H) as Hv by (rewrite Heq; set_solver).
  eapply (wpe_foldM E _ (λ nds ns, ns = (λ n, if decide (n_id n ∈ nds) then n_add_vertex (v_id v) (F ds n) else F ds n) <$> h_nets H)).
  - apply list_fmap_ext. intros i n _. by rewrite decide_False by set_solver.
  - intros nds nid nts ns Hnets ->.
    assert (nid ∈ v_nets v) as Hnid by (rewrite Hnets; set_solver).
    destruct (co_inc1 _ HC _ _ Hv Hnid) as (n & Hn & <- & Hvn).
    pose proof Hn as [k Hk]%elem_of_list_lookup.
    assert (n_id n ∉ nds) as Hds.
    { pose proof (co_vnets _ HC _ Hv) as Hnd. rewrite Hnets in Hnd.
      apply NoDup_app in Hnd as (_ & Hnd & _). intros Hds. apply (Hnd _ Hds). set_solver. }
    apply wpe_bind. eapply wpe_local_id_net; [by apply co_nmap_ok|done|].
    apply wpe_bind. eapply wpe_nidx; [by rewrite list_lookup_fmap, Hk|]. apply wpe_ret.
    apply list_eq. intros j. destruct (decide (j = k)) as [->|Hne].
    + rewrite list_lookup_alter, !list_lookup_fmap, Hk. simpl. f_equal.
      rewrite decide_False by done. rewrite decide_True by set_solver. done.
    + rewrite list_lookup_alter_ne, !list_lookup_fmap by done.
      destruct (h_nets H !! j) as [m|] eqn:Hj; [|done]. simpl. f_equal.
      assert (n_id m ≠ n_id n).
      { intros Hid'. apply Hne. eapply NoDup_fmap_inj; [apply (co_nid _ HC)|done..]. }
      destruct (decide (n_id m ∈ nds)); [rewrite decide_True by set_solver|rewrite decide_False by set_solver]; done.
  - intros ns ->. apply list_fmap_ext. intros i n Hi. unfold F, n_add_vertex. simpl.
    rewrite filter_app, filter_cons. destruct (decide (n_id n ∈ v_nets v)).
    + by rewrite fmap_app.
    + by rewrite app_nil_r.
Qed.

Definition copied (H : hg) : hg := mk_hg (h_gsize H) (h_gnets H) (h_verts H)
      ((λ n, Net (n_id n) (v_id <$> filter (λ v, n_id n ∈ v_nets v) (h_verts H)) 1 (n_gsize n)) <$> h_nets H)
      (h_nz H).

Lemma copied_consistent H : consistent H → consistent (copied H).
Proof.
  intros HC. apply mk_hg_consistent.
  - apply (co_vid _ HC).
  - rewrite <-list_fmap_compose. erewrite list_fmap_ext; [apply (co_nid _ HC)|done].
  - apply (co_vnets _ HC).
  - intros n' (n & -> & Hn)%elem_of_list_fmap. simpl. rewrite <-net_verts_perm by done. by apply (co_nverts _ HC).
  - intros v nid Hv Hnid. destruct (co_inc1 _ HC _ _ Hv Hnid) as (n & Hn & <- & Hin).
    eexists. split; [by apply elem_of_list_fmap_1|]. split; [done|]. simpl. by rewrite <-net_verts_perm.
  - intros n' vid (n & -> & Hn)%elem_of_list_fmap Hvid. simpl in *. rewrite <-net_verts_perm in Hvid by done.
    destruct (co_inc2 _ HC _ _ Hn Hvid) as (v & Hv & <- & ?). eauto.
Qed.

Lemma copied_nets H : consistent H →
  Forall2 (λ n n', n_id n = n_id n' ∧ n_verts n ≡ₚ n_verts n' ∧ n_gsize n = n_gsize n' ∧ n_cost n' = 1)
    (h_nets H) (h_nets (copied H)).
Proof.
  intros HC. simpl. apply Forall2_fmap_r, Forall_Forall2_diag, Forall_forall. intros n Hn.
  split_and!; try done. unfold compose. simpl. by apply net_verts_perm.
Qed.

(** ** remove_free_nets *)
Lemma with_nets_same_ids_consistent H (f : net → net) :
  (∀ n, n_id (f n) = n_id n ∧ n_verts (f n) = n_verts n) → consistent H → consistent (with_nets (f <$> h_nets H) H).
Proof.
  intros Hf HC. apply consistent_intro.
  - apply (vmap_ok_ids H); [done..|by apply co_vmap_ok].
  - apply (nmap_ok_ids H); [|done|by apply co_nmap_ok].
    unfold nids. simpl. rewrite <-list_fmap_compose. apply list_fmap_ext. intros i n _. apply Hf.
  - apply (co_vnets _ HC).
  - simpl. intros n' (n & -> & Hn)%elem_of_list_fmap. rewrite (proj2 (Hf n)). by apply (co_nverts _ HC).
  - simpl. intros v nid Hv Hnid. destruct (co_inc1 _ HC _ _ Hv Hnid) as (n & Hn & <- & Hin).
    exists (f n). split; [by apply elem_of_list_fmap_1|]. destruct (Hf n) as [-> ->]. done.
  - simpl. intros n' vid (n & -> & Hn)%elem_of_list_fmap. destruct (Hf n) as [-> ->]. by apply (co_inc2 _ HC).
Qed.

(** the nets that are left, with their size recorded *)
Record free_nets_removed (m : Z) (H H' : hg) : Prop := {
  fr_nets : h_nets H' ≡ₚ (λ n, set_ngsize (Z.of_nat (length (n_verts n))) n)
      <$> filter (λ n, m < Z.of_nat (length (n_verts n))) (h_nets H);
  fr_verts : Forall2 (λ v v', v_id v' = v_id v ∧ v_weight v' = v_weight v ∧ v_part v' = v_part v ∧
               (∀ nid, nid ∈ v_nets v' ↔ nid ∈ v_nets v ∧ nid ∈ nids H')) (h_verts H) (h_verts H');
  fr_gsize : h_gsize H' = h_gsize H;
  fr_gnets : h_gnets H' = h_gnets H;
  fr_nz : h_nz H' = h_nz H;
  fr_dups : h_dups H' = h_dups H;
}.

Lemma filter_fmap {A B} (f : A → B) (P : B → Prop) {HP : ∀ x, Decision (P x)} (l : list A) :
  filter P (f <$> l) = f <$> filter (λ x, P (f x)) l.
Proof.
  induction l as [|x l IH]; [done|]. csimpl. rewrite !filter_cons, IH.
  destruct (decide (P (f x))); done.
Qed.

Lemma wpe_remove_free_nets E H m (Q : hg → Prop) :
  consistent H → (∀ H', free_nets_removed m H H' → consistent H' → h_vmap H' = h_vmap H → Q H') → wpe E (remove_free_nets H m) Q.
Proof.
  intros HC HQ. unfold remove_free_nets.
  set (small n := bool_decide (Z.of_nat (length (n_verts n)) ≤ m)).
  set (ids := list_to_set _ : gset Z). set (f := λ n, if small n then n else set_ngsize (Z.of_nat (length (n_verts n))) n).
  assert (∀ n, n_id (f n) = n_id n ∧ n_verts (f n) = n_verts n) as Hf.
  { intros n. unfold f. by destruct (small n). }
  pose proof (with_nets_same_ids_consistent H f Hf HC) as HC1. set (H1 := with_nets _ H) in *.
  assert (∀ id, id ∈ ids ↔ ∃ n, n ∈ h_nets H ∧ n_id n = id ∧ Z.of_nat (length (n_verts n)) ≤ m) as Hids.
  { intros id. unfold ids. rewrite elem_of_list_to_set, elem_of_list_fmap. split.
    - intros (n & -> & [Hs Hn]%elem_of_list_filter). exists n. split_and!; try done. by apply bool_decide_eq_true in Hs.
    - intros (n & Hn & <- & Hs). exists n. split; [done|]. apply elem_of_list_filter. split; [|done]. by apply bool_decide_eq_true. }
  apply wpe_bind, wpe_shuffle. intros order Ho.
  assert (∀ id, id ∈ order ↔ id ∈ ids) as Hord by (intros id; by rewrite Ho, elem_of_elements).
  apply wpe_remove_nets; [done|rewrite Ho; apply NoDup_elements|..].
  { intros id (n & Hn & <- & _)%Hord%Hids. apply nids_elem. exists (f n). split; [|apply Hf].
    simpl. by apply elem_of_list_fmap_1. }
  intros H' [R1 R2 R3 R4 R5] HC' Hvm' Hd'. apply HQ; [|done|done].
  assert (h_nets H' ≡ₚ (λ n, set_ngsize (Z.of_nat (length (n_verts n))) n)
      <$> filter (λ n, m < Z.of_nat (length (n_verts n))) (h_nets H)) as Hnets.
  { rewrite R1. simpl. rewrite filter_fmap. apply reflexive_eq.
    transitivity (f <$> filter (λ n, m < Z.of_nat (length (n_verts n))) (h_nets H)).
    + f_equal. apply filter_ext. intros n Hn. rewrite (proj1 (Hf n)), Hord, Hids. split.
      * intros Hno. destruct (decide (m < Z.of_nat (length (n_verts n)))) as [|Hlt]; [done|].
        destruct Hno. exists n. split_and!; [done..|lia].
      * intros Hlt (n' & Hn' & Heq & Hle).
        assert (n' = n) as -> by (eapply (nmap_ok_elem_eq H); [by apply co_nmap_ok|done..]). lia.
    + apply list_fmap_ext. intros i n [Hlt _]%elem_of_list_lookup_2%elem_of_list_filter.
      unfold f, small. rewrite bool_decide_eq_false_2 by lia. done. }
  split; try done.
  apply Forall2_same_length_lookup. split; [by apply (Forall2_length _ _ _ R2)|].
  intros i v v' Hi Hi'. pose proof (Forall2_lookup_lr _ _ _ _ _ _ R2 Hi Hi') as (E1 & E2 & E3 & E4).
  pose proof (elem_of_list_lookup_2 _ _ _ Hi) as Hv. split_and!; try done. intros nid.
  rewrite E4, elem_of_list_filter. split.
  - intros [Hno Hin]. split; [done|]. destruct (co_inc1 _ HC _ _ Hv Hin) as (n & Hn & <- & _).
    unfold nids. rewrite Hnets. rewrite <-list_fmap_compose. apply elem_of_list_fmap. exists n. split; [done|].
    apply elem_of_list_filter. split; [|done]. rewrite Hord, Hids in Hno.
    destruct (decide (m < Z.of_nat (length (n_verts n)))) as [|Hlt]; [done|]. destruct Hno. exists n. split_and!; [done..|lia].
  - intros [Hin Hk]. split; [|done]. rewrite Hord, Hids. intros (n & Hn & <- & Hle).
    unfold nids in Hk. rewrite Hnets, <-list_fmap_compose in Hk.
    apply elem_of_list_fmap in Hk as (n' & Heq & [Hlt Hn']%elem_of_list_filter). simpl in Heq.
    assert (n = n') as -> by (eapply (nmap_ok_elem_eq H); [by apply co_nmap_ok|done..]). lia.
Qed.
