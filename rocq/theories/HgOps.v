(** Proofs about the operations of the hypergraph class. *)
From Verif Require Export HgBasics.

Lemma with_verts_self H : with_verts (h_verts H) H = H.
Proof. by destruct H. Qed.
Lemma with_nets_self H : with_nets (h_nets H) H = H.
Proof. by destruct H. Qed.

(** ** folding a vertex update over a list of ids *)
Lemma wpe_fold_upd_vert E (f : vertex → vertex) us H (Q : hg → Prop) :
  (∀ v, v_id (f v) = v_id v) →
  vmap_ok H → NoDup us → (∀ u, u ∈ us → u ∈ vids H) →
  Q (with_verts ((λ v, if decide (v_id v ∈ us) then f v else v) <$> h_verts H) H) →
  wpe E (foldM (λ H u, j <- local_id H u ;; ret (upd_vert j f H)) us H) Q.
Proof.
  intros Hf HV Hnd Hus HQ.
  eapply (wpe_foldM E _ (λ done H',
    H' = with_verts ((λ v, if decide (v_id v ∈ done) then f v else v) <$> h_verts H) H)).
  - rewrite <-(with_verts_self H) at 1. f_equal.
    rewrite <-(list_fmap_id (h_verts H)) at 1. apply list_fmap_ext. intros i v _.
    rewrite decide_False by set_solver. done.
  - intros done u todo H' Hl ->.
    set (g := λ v, if decide (v_id v ∈ done) then f v else v).
    assert (v_id <$> (g <$> h_verts H) = vids H) as Hids.
    { rewrite <-list_fmap_compose. apply list_fmap_ext. intros i v _. unfold g. simpl.
      case_decide; [apply Hf|done]. }
    assert (vmap_ok (with_verts (g <$> h_verts H) H)) as HV'.
    { by apply (vmap_ok_ids H). }
    assert (u ∈ vids H) as Hu by (apply Hus; subst; set_solver).
    apply vids_elem in Hu as (v & [i Hi]%elem_of_list_lookup & <-).
    assert (v_id v ∉ done) as Hnin.
    { subst us. apply NoDup_app in Hnd as (_ & Hnd & _). intros Hin. apply (Hnd _ Hin). set_solver. }
    apply wpe_bind. replace (v_id v) with (v_id (g v)) by (unfold g; rewrite decide_False by done; done).
    eapply (wpe_local_id _ _ i); [done|simpl; by rewrite list_lookup_fmap, Hi|].
    apply wpe_ret. unfold upd_vert. simpl. unfold with_verts. simpl. f_equal.
    assert (NoDup (v_id <$> (g <$> h_verts H))) as Hnd'.
    { rewrite Hids. by eapply ids_ok_NoDup. }
    rewrite (alter_eq_fmap f v_id _ i (g v)); [|done|by rewrite list_lookup_fmap, Hi].
    rewrite <-list_fmap_compose. apply list_fmap_ext. intros j w Hw. simpl. unfold g.
    rewrite !(decide_False (P:= v_id v ∈ done)) by done.
    replace (v_id (if decide (v_id w ∈ done) then f w else w)) with (v_id w)
      by (case_decide; [by rewrite Hf|done]).
    destruct (decide (v_id w = v_id v)) as [Heq|Hne].
    + rewrite Heq, decide_False by done. rewrite decide_True by set_solver. done.
    + destruct (decide (v_id w ∈ done)).
      * rewrite decide_True by set_solver. done.
      * rewrite decide_False by set_solver. done.
  - intros H' ->. done.
Qed.

Lemma vids_with_verts_fmap (f : vertex → vertex) H :
  (∀ v, v_id (f v) = v_id v) → vids (with_verts (f <$> h_verts H) H) = vids H.
Proof.
  intros Hf. unfold vids. simpl. rewrite <-list_fmap_compose. apply list_fmap_ext.
  intros i v _. apply Hf.
Qed.

(** ** remove_net *)
Lemma net_in_vids H n u : consistent H → n ∈ h_nets H → u ∈ n_verts n → u ∈ vids H.
Proof.
  intros HC Hn Hu. destruct (co_inc2 _ HC _ _ Hn Hu) as (v & ? & <- & _).
  apply vids_elem. eauto.
Qed.

(** The vertices after removal of net [nid]. *)
Definition rm_verts (nid : Z) (H : hg) : list vertex := vertex_remove_net nid <$> h_verts H.

Lemma rm_verts_eq H n :
  consistent H → n ∈ h_nets H →
  (λ v, if decide (v_id v ∈ n_verts n) then vertex_remove_net (n_id n) v else v) <$> h_verts H
  = rm_verts (n_id n) H.
Proof.
  intros HC Hn. apply list_fmap_ext. intros i v Hv. case_decide as Hin; [done|].
  apply elem_of_list_lookup_2 in Hv.
  unfold vertex_remove_net. rewrite remove_value_id; [by destruct v|].
  intros Hnid. destruct (co_inc1 _ HC _ _ Hv Hnid) as (n' & Hn' & Hid & Hin').
  assert (n' = n) as -> by (eapply nmap_ok_elem_eq; eauto using co_nmap_ok). done.
Qed.

Definition remove_net_result (H : hg) (i : nat) (n : net) : hg :=
  Hg (h_gsize H) (h_gnets H) (rm_verts (n_id n) H) (swap_pop (h_nets H) i) (h_nz H)
     (h_vmap H)
     (delete (n_id n) (<[default (n_id n) (n_id <$> (swap_pop (h_nets H) i !! i)) := i]> (h_nmap H)))
     (h_dups H).

Lemma wpe_remove_net_by_index E H i n (Q : hg → Prop) :
  consistent H → h_nets H !! i = Some n →
  Q (remove_net_result H i n) →
  wpe E (remove_net_by_index H i) Q.
Proof.
  intros HC Hi HQ. pose proof (elem_of_list_lookup_2 _ _ _ Hi) as Hn.
  apply wpe_bind. eapply wpe_nidx; [done|].
  apply wpe_bind. apply wpe_fold_upd_vert; [done|by apply co_vmap_ok|by apply (co_nverts _ HC)|..].
  { intros u Hu. by eapply net_in_vids. }
  rewrite rm_verts_eq by done. simpl.
  apply wpe_bind. unfold remove_net_result in HQ.
  destruct (swap_pop (h_nets H) i !! i) as [n'|] eqn:Hs; simpl in HQ.
  - apply wpe_ret, wpe_ret. exact HQ.
  - apply wpe_bind, wpe_log, wpe_ret, wpe_ret. exact HQ.
Qed.

Lemma remove_net_result_nmap H i n :
  nmap_ok H → h_nets H !! i = Some n → nmap_ok (remove_net_result H i n).
Proof.
  intros HN Hi. unfold nmap_ok, remove_net_result, nids. simpl.
  rewrite swap_pop_fmap. eapply ids_ok_swap_pop; [done|..].
  - by rewrite list_lookup_fmap, Hi.
  - rewrite <-swap_pop_fmap, list_lookup_fmap. done.
Qed.

Lemma vertex_remove_net_nets nid v : NoDup (v_nets v) →
  v_nets (vertex_remove_net nid v) ≡ₚ filter (λ m, m ≠ nid) (v_nets v).
Proof. intros. simpl. by apply remove_value_filter. Qed.

Lemma remove_net_result_removed H i n :
  consistent H → h_nets H !! i = Some n → net_removed n H (remove_net_result H i n).
Proof.
  intros HC Hi. split; try done; simpl.
  - by apply swap_pop_perm.
  - unfold rm_verts. apply Forall2_fmap_r, Forall_Forall2_diag, Forall_forall. intros v Hv.
    split_and!; try done. apply vertex_remove_net_nets. by apply (co_vnets _ HC).
Qed.

(** Removal keeps consistency. *)
Lemma net_removed_consistent n H H' :
  consistent H → net_removed n H H' → vmap_ok H' → nmap_ok H' → consistent H'.
Proof.
  intros HC HR HV HN.
  assert (∀ v', v' ∈ h_verts H' → ∃ v, v ∈ h_verts H ∧ v_id v' = v_id v ∧
     v_nets v' ≡ₚ filter (λ m, m ≠ n_id n) (v_nets v)) as Hback.
  { intros v' [j Hj]%elem_of_list_lookup.
    destruct (Forall2_lookup_r _ _ _ _ _ (nr_verts _ _ _ HR) Hj) as (v & Hv & ? & ? & ? & ?).
    exists v. split; [by eapply elem_of_list_lookup_2|]. eauto. }
  assert (∀ v, v ∈ h_verts H → ∃ v', v' ∈ h_verts H' ∧ v_id v' = v_id v ∧
     v_nets v' ≡ₚ filter (λ m, m ≠ n_id n) (v_nets v)) as Hforth.
  { intros v [j Hj]%elem_of_list_lookup.
    destruct (Forall2_lookup_l _ _ _ _ _ (nr_verts _ _ _ HR) Hj) as (v' & Hv & ? & ? & ? & ?).
    exists v'. split; [by eapply elem_of_list_lookup_2|]. eauto. }
  assert (∀ m, m ∈ h_nets H' → m ∈ h_nets H ∧ n_id m ≠ n_id n) as Hm.
  { intros m Hm. pose proof (co_nid _ HC) as Hnd. rewrite (nr_nets _ _ _ HR) in Hnd.
    rewrite fmap_cons in Hnd. apply NoDup_cons in Hnd as [Hnin _].
    split; [rewrite (nr_nets _ _ _ HR); set_solver|].
    intros Heq. apply Hnin. apply elem_of_list_fmap. eauto. }
  apply consistent_intro; [done|done|..].
  - intros v' (v & Hv & _ & Hp)%Hback. rewrite Hp. apply NoDup_filter. by apply (co_vnets _ HC).
  - intros m (Hm' & _)%Hm. by apply (co_nverts _ HC).
  - intros v' nid (v & Hv & Hid & Hp)%Hback Hnid. rewrite Hp in Hnid.
    apply elem_of_list_filter in Hnid as [Hne Hnid].
    destruct (co_inc1 _ HC _ _ Hv Hnid) as (m & Hmm & Hmid & Hin).
    exists m. rewrite (nr_nets _ _ _ HR) in Hmm.
    apply elem_of_cons in Hmm as [->|Hmm]; [done|]. rewrite Hid. done.
  - intros m vid (Hm' & Hne)%Hm Hvid.
    destruct (co_inc2 _ HC _ _ Hm' Hvid) as (v & Hv & Hid & Hin).
    destruct (Hforth v Hv) as (v' & Hv' & Hid' & Hp). exists v'.
    split; [done|]. split; [congruence|]. rewrite Hp. by apply elem_of_list_filter.
Qed.

Lemma remove_net_result_consistent H i n :
  consistent H → h_nets H !! i = Some n → consistent (remove_net_result H i n).
Proof.
  intros HC Hi. eapply net_removed_consistent; [done|by apply remove_net_result_removed|..].
  - eapply vmap_ok_ids; [| |by apply co_vmap_ok]; [|done].
    unfold vids, remove_net_result, rm_verts; simpl. rewrite <-list_fmap_compose.
    by apply list_fmap_ext.
  - apply remove_net_result_nmap; [by apply co_nmap_ok|done].
Qed.

Lemma wpe_remove_net E H n (Q : hg → Prop) :
  consistent H → n ∈ h_nets H →
  (∀ H', net_removed n H H' → consistent H' → h_vmap H' = h_vmap H → Q H') →
  wpe E (remove_net H (n_id n)) Q.
Proof.
  intros HC [i Hi]%elem_of_list_lookup HQ. apply wpe_bind.
  eapply wpe_local_id_net; [by apply co_nmap_ok|done|].
  eapply wpe_remove_net_by_index; [done..|]. apply HQ; [|by apply remove_net_result_consistent|done].
  by apply remove_net_result_removed.
Qed.

(** the exact log of a removal *)
Lemma remove_net_by_index_log H i n w :
  consistent H → h_nets H !! i = Some n →
  ∃ w', remove_net_by_index H i w = Ok (remove_net_result H i n, w') ∧
    w_log w' = (if decide (S i = length (h_nets H)) then w_log w ++ [StaleNetRead] else w_log w).
Proof.
  intros HC Hi.
  pose proof (elem_of_list_lookup_2 _ _ _ Hi) as Hn.
  assert (∀ us H w, vmap_ok H → (∀ u, u ∈ us → u ∈ vids H) →
    ∃ H', vmap_ok H' ∧ vids H' = vids H ∧
    foldM (λ H u, j <- local_id H u ;; ret (upd_vert j (vertex_remove_net (n_id n)) H)) us H w = Ok (H', w)) as Hfold.
  { clear. induction us as [|u us IH]; intros H w HV Hus; [exists H; done|]. simpl.
    assert (u ∈ vids H) as Hu by set_solver.
    apply vids_elem in Hu as (v & [i Hi]%elem_of_list_lookup & <-).
    pose proof (vmap_ok_lookup _ _ _ HV Hi) as Hm.
    set (H1 := upd_vert i (vertex_remove_net (n_id n)) H).
    assert (vids H1 = vids H) as Hids by (by apply alter_fmap_id).
    assert (vmap_ok H1) as HV1 by (by eapply vmap_ok_ids).
    destruct (IH H1 w HV1) as (H' & ? & Heq & Hf); [rewrite Hids; set_solver|].
    exists H'. split; [done|]. split; [congruence|].
    unfold bind at 1. unfold bind at 1. unfold local_id, bind. rewrite Hm. simpl.
    rewrite bool_decide_true by (by eapply lookup_lt_Some). simpl. exact Hf. }
  pose proof (wpe_remove_net_by_index (λ _, False) H i n
    (λ H', H' = remove_net_result H i n) HC Hi eq_refl w) as Hres.
  destruct (remove_net_by_index H i w) as [[H' w']|] eqn:Hrun; [|done]. subst H'.
  exists w'. split; [done|]. revert Hrun. unfold remove_net_by_index.
  unfold bind at 1. unfold nidx. rewrite Hi. simpl. unfold bind at 1.
  assert (vmap_ok H) as HV by by apply co_vmap_ok.
  pose proof (wpe_fold_upd_vert (λ _, False) (vertex_remove_net (n_id n)) (n_verts n) H
     (λ H', h_nets H' = h_nets H) ltac:(done) HV ltac:(by apply (co_nverts _ HC))
     ltac:(intros u Hu; by eapply net_in_vids) eq_refl w) as Hnets.
  destruct (Hfold (n_verts n) H w HV) as (H1 & _ & _ & Hf).
  { intros u Hu. by eapply net_in_vids. }
  rewrite Hf in *. rewrite Hnets.
  pose proof (lookup_lt_Some _ _ _ Hi).
  rewrite swap_pop_lookup by done. rewrite (decide_True (P:=i=i)) by done.
  destruct (decide (S i < length (h_nets H))%nat).
  - rewrite decide_False by lia.
    destruct (lookup_lt_is_Some_2 (h_nets H) (length (h_nets H) - 1)) as [y Hy]; [lia|].
    rewrite Hy. unfold bind, ret. intros Hrun. assert (w' = w) as -> by congruence. done.
  - rewrite decide_True by lia. unfold bind, log_tag, ret. intros Hrun.
    assert (w' = World (w_tape w) (w_log w ++ [StaleNetRead])) as -> by congruence. done.
Qed.

(** ** remove_free_vertex *)
Definition remove_vertex_result (H : hg) (i : nat) (v : vertex) : hg :=
  with_vmap (delete (v_id v) (<[default (v_id v) (v_id <$> (swap_pop (h_verts H) i !! i)) := i]> (h_vmap H)))
    (with_verts (swap_pop (h_verts H) i) H).

Lemma remove_free_vertex_run H i v w :
  vmap_ok H → h_verts H !! i = Some v →
  ∃ w', remove_free_vertex H (v_id v) w = Ok (remove_vertex_result H i v, w') ∧
    w_tape w' = w_tape w ∧
    w_log w' = (if decide (S i = length (h_verts H)) then w_log w ++ [StaleVertexRead] else w_log w).
Proof.
  intros HV Hi. unfold remove_free_vertex.
  rewrite (vmap_ok_lookup _ _ _ HV Hi). simpl. unfold bind, nidx. rewrite Hi. simpl.
  pose proof (lookup_lt_Some _ _ _ Hi).
  unfold remove_vertex_result.
  rewrite swap_pop_lookup by done. rewrite (decide_True (P:=i=i)) by done.
  destruct (decide (S i < length (h_verts H))%nat).
  - rewrite decide_False by lia.
    destruct (lookup_lt_is_Some_2 (h_verts H) (length (h_verts H) - 1)) as [y Hy]; [lia|].
    rewrite Hy. eexists. split; [reflexivity|]. done.
  - rewrite decide_True by lia. eexists. split; [reflexivity|]. done.
Qed.

Lemma wpe_remove_free_vertex E H i v (Q : hg → Prop) :
  vmap_ok H → h_verts H !! i = Some v → Q (remove_vertex_result H i v) →
  wpe E (remove_free_vertex H (v_id v)) Q.
Proof.
  intros HV Hi HQ w. destruct (remove_free_vertex_run H i v w HV Hi) as (w' & -> & _). done.
Qed.

Lemma remove_vertex_result_vmap H i v :
  vmap_ok H → h_verts H !! i = Some v → vmap_ok (remove_vertex_result H i v).
Proof.
  intros HN Hi. unfold vmap_ok, remove_vertex_result, vids. simpl.
  rewrite swap_pop_fmap. eapply ids_ok_swap_pop; [done|..].
  - by rewrite list_lookup_fmap, Hi.
  - rewrite <-swap_pop_fmap, list_lookup_fmap. done.
Qed.

Lemma remove_vertex_result_removed H i v :
  h_verts H !! i = Some v → vertex_removed v H (remove_vertex_result H i v).
Proof. intros Hi. split; try done; simpl. by apply swap_pop_perm. Qed.

Lemma vertex_removed_consistent v H H' :
  consistent H → v_nets v = [] → vertex_removed v H H' →
  h_nmap H' = h_nmap H → vmap_ok H' → consistent H'.
Proof.
  intros HC Hfree HR Hnm HV.
  assert (∀ x, x ∈ h_verts H' → x ∈ h_verts H) as Hsub.
  { intros x Hx. rewrite (vr_verts _ _ _ HR). set_solver. }
  apply consistent_intro; [done|..].
  - eapply nmap_ok_ids; [|done|by apply co_nmap_ok]. unfold nids. by rewrite (vr_nets _ _ _ HR).
  - intros x Hx. apply (co_vnets _ HC). auto.
  - intros n. rewrite (vr_nets _ _ _ HR). apply (co_nverts _ HC).
  - intros x nid Hx Hnid. rewrite (vr_nets _ _ _ HR). apply (co_inc1 _ HC); auto.
  - intros n vid. rewrite (vr_nets _ _ _ HR). intros Hn Hvid.
    destruct (co_inc2 _ HC _ _ Hn Hvid) as (x & Hx & ? & Hnx). exists x. split; [|done].
    rewrite (vr_verts _ _ _ HR) in Hx. apply elem_of_cons in Hx as [->|]; [|done].
    rewrite Hfree in Hnx. set_solver.
Qed.

Lemma remove_vertex_result_consistent H i v :
  consistent H → h_verts H !! i = Some v → v_nets v = [] → consistent (remove_vertex_result H i v).
Proof.
  intros HC Hi Hf. eapply vertex_removed_consistent; [done..| |done|].
  - by apply remove_vertex_result_removed.
  - apply remove_vertex_result_vmap; [by apply co_vmap_ok|done].
Qed.

(** ** add_vertex without nets, construction *)
Lemma add_vertex_free_consistent H id w :
  consistent H → id ∉ vids H → consistent (add_vertex H id [] w).
Proof.
  intros HC Hid. apply consistent_intro; simpl.
  - unfold vmap_ok, add_vertex, vids; simpl. rewrite fmap_app. simpl.
    rewrite <-(fmap_length v_id). apply ids_ok_snoc; [by apply co_vmap_ok|done].
  - apply (nmap_ok_ids H); [done..|by apply co_nmap_ok].
  - intros v [Hv| ->%elem_of_list_singleton]%elem_of_app; [by apply (co_vnets _ HC)|]. simpl. constructor.
  - apply (co_nverts _ HC).
  - intros v nid [Hv| ->%elem_of_list_singleton]%elem_of_app; [by apply (co_inc1 _ HC)|]. simpl. set_solver.
  - intros n vid Hn Hvid. destruct (co_inc2 _ HC _ _ Hn Hvid) as (v & ? & ? & ?).
    exists v. split; [set_solver|done].
Qed.

Lemma mk_hg_consistent gs gn vs ns nz :
  NoDup (v_id <$> vs) → NoDup (n_id <$> ns) →
  (∀ v, v ∈ vs → NoDup (v_nets v)) → (∀ n, n ∈ ns → NoDup (n_verts n)) →
  (∀ v nid, v ∈ vs → nid ∈ v_nets v → ∃ n, n ∈ ns ∧ n_id n = nid ∧ v_id v ∈ n_verts n) →
  (∀ n vid, n ∈ ns → vid ∈ n_verts n → ∃ v, v ∈ vs ∧ v_id v = vid ∧ n_id n ∈ v_nets v) →
  consistent (mk_hg gs gn vs ns nz).
Proof.
  intros. apply consistent_intro; try done.
  - unfold vmap_ok, mk_hg, vids; simpl. by apply ids_ok_index_map.
  - unfold nmap_ok, mk_hg, nids; simpl. by apply ids_ok_index_map.
Qed.

(** ** same_shape *)
Lemma same_vertex_refl v : same_vertex v v.
Proof. done. Qed.
Lemma same_net_refl n : same_net n n.
Proof. done. Qed.
Lemma Forall2_refl {A} (R : A → A → Prop) l : (∀ x, R x x) → Forall2 R l l.
Proof. intros. induction l; constructor; auto. Qed.
Lemma same_shape_refl H : same_shape H H.
Proof. split; try done; by apply Forall2_refl. Qed.
Lemma same_shape_sym H H' : same_shape H H' → same_shape H' H.
Proof.
  intros []; split; try done; apply Forall2_flip; eapply Forall2_impl; try done.
  - intros ?? (?&?&?). by split_and!.
  - intros ?? (?&?&?&?). by split_and!.
Qed.
Lemma same_shape_trans H1 H2 H3 : same_shape H1 H2 → same_shape H2 H3 → same_shape H1 H3.
Proof.
  intros [] []; split; try congruence; eapply Forall2_transitive; try done.
  - intros ??? (?&?&?) (?&?&?). split_and!; congruence.
  - intros ??? (?&?&?&?) (?&?&?&?). split_and!; try congruence. by etrans.
Qed.
Lemma same_shape_vids H H' : same_shape H H' → vids H = vids H'.
Proof.
  intros HS. unfold vids.
  pose proof (ss_verts _ _ HS) as Hf. induction Hf as [|v v' l l' (Hid & _) _ IH]; csimpl; congruence.
Qed.
Lemma same_shape_nids H H' : same_shape H H' → nids H = nids H'.
Proof.
  intros HS. unfold nids.
  pose proof (ss_nets _ _ HS) as Hf. induction Hf as [|v v' l l' (Hid & _) _ IH]; csimpl; congruence.
Qed.
Lemma same_shape_tot_weight H H' : same_shape H H' → tot_weight H = tot_weight H'.
Proof.
  intros HS. unfold tot_weight.
  pose proof (ss_verts _ _ HS) as Hf. induction Hf as [|v v' l l' (_ & _ & Hw) _ IH]; csimpl; congruence.
Qed.
Lemma same_shape_consistent H H' : same_shape H H' → consistent H → consistent H'.
Proof.
  intros HS HC.
  assert (∀ v', v' ∈ h_verts H' → ∃ v, v ∈ h_verts H ∧ same_vertex v v') as Hvb.
  { intros v' [j Hj]%elem_of_list_lookup.
    destruct (Forall2_lookup_r _ _ _ _ _ (ss_verts _ _ HS) Hj) as (v & ? & ?); eauto using elem_of_list_lookup_2. }
  assert (∀ v, v ∈ h_verts H → ∃ v', v' ∈ h_verts H' ∧ same_vertex v v') as Hvf.
  { intros v' [j Hj]%elem_of_list_lookup.
    destruct (Forall2_lookup_l _ _ _ _ _ (ss_verts _ _ HS) Hj) as (v & ? & ?); eauto using elem_of_list_lookup_2. }
  assert (∀ v', v' ∈ h_nets H' → ∃ v, v ∈ h_nets H ∧ same_net v v') as Hnb.
  { intros v' [j Hj]%elem_of_list_lookup.
    destruct (Forall2_lookup_r _ _ _ _ _ (ss_nets _ _ HS) Hj) as (v & ? & ?); eauto using elem_of_list_lookup_2. }
  assert (∀ v, v ∈ h_nets H → ∃ v', v' ∈ h_nets H' ∧ same_net v v') as Hnf.
  { intros v' [j Hj]%elem_of_list_lookup.
    destruct (Forall2_lookup_l _ _ _ _ _ (ss_nets _ _ HS) Hj) as (v & ? & ?); eauto using elem_of_list_lookup_2. }
  apply consistent_intro.
  - eapply vmap_ok_ids; [| |by apply co_vmap_ok]; [symmetry; by apply same_shape_vids|].
    symmetry. apply HS.
  - eapply nmap_ok_ids; [| |by apply co_nmap_ok]; [symmetry; by apply same_shape_nids|].
    symmetry. apply HS.
  - intros v' (v & Hv & _ & <- & _)%Hvb. by apply (co_vnets _ HC).
  - intros n' (n & Hn & _ & Hp & _)%Hnb. rewrite <-Hp. by apply (co_nverts _ HC).
  - intros v' nid (v & Hv & <- & <- & _)%Hvb Hnid.
    destruct (co_inc1 _ HC _ _ Hv Hnid) as (n & (n' & Hn' & Hid & Hp & _)%Hnf & <- & Hin).
    exists n'. split; [done|]. split; [done|]. by rewrite <-Hp.
  - intros n' vid (n & Hn & <- & Hp & _)%Hnb Hvid. rewrite <-Hp in Hvid.
    destruct (co_inc2 _ HC _ _ Hn Hvid) as (v & (v' & Hv' & Hid & Hns & _)%Hvf & <- & Hin).
    exists v'. split; [done|]. split; [done|]. by rewrite <-Hns.
Qed.
