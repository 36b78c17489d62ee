(** Proofs about contraction. *)
From Verif Require Export Coarsen SpecMulti LabelPropProof InitialProof.

(** ** vertices by id *)
Definition by_id (H : hg) (id : Z) : vertex :=
  match list_find (λ v, v_id v = id) (h_verts H) with Some (_, v) => v | None => Vertex id [] 0 (-1) end.
Lemma by_id_elem H v : NoDup (vids H) → v ∈ h_verts H → by_id H (v_id v) = v.
Proof.
  intros Hnd Hv. unfold by_id. destruct (list_find_id v_id (h_verts H) v Hnd Hv) as [i Hi]. by rewrite Hi.
Qed.
Lemma by_id_vid H x : x ∈ vids H → by_id H x ∈ h_verts H ∧ v_id (by_id H x) = x.
Proof.
  intros (v & Hv & Hx)%vids_elem. unfold by_id.
  destruct (list_find (λ v, v_id v = x) (h_verts H)) as [[i u]|] eqn:Hf.
  - apply list_find_Some in Hf as (Hi & Hu & _). split; [by eapply elem_of_list_lookup_2|done].
  - apply list_find_None in Hf. rewrite Forall_forall in Hf. by destruct (Hf v Hv).
Qed.

(** ** phase 2: contract_hypergraph *)
Definition inc_nets (N : list net) (vs : list vertex) : list net :=
  (λ n, set_nverts (v_id <$> filter (λ v, n_id n ∈ v_nets v) vs) n) <$> N.

Lemma inc_nets_ids N vs : n_id <$> inc_nets N vs = n_id <$> N.
Proof. unfold inc_nets. rewrite <-list_fmap_compose. by apply list_fmap_ext. Qed.

Lemma inc_nets_add N vs c ns i n x : NoDup (n_id <$> N) → N !! i = Some n → n_id n = x → x ∉ ns →
  alter (n_add_vertex (v_id c)) i (inc_nets N (vs ++ [set_vnets ns c])) = inc_nets N (vs ++ [set_vnets (ns ++ [x]) c]).
Proof.
  intros Hnd Hi Hx Hns. apply list_eq. intros j. unfold inc_nets.
  destruct (decide (j = i)) as [->|Hne].
  - rewrite list_lookup_alter, !list_lookup_fmap, Hi. simpl. f_equal. unfold n_add_vertex, set_nverts. simpl. f_equal.
    rewrite !filter_app, !fmap_app, !filter_cons, !filter_nil. simpl. rewrite decide_False by (by rewrite Hx).
    rewrite decide_True by (rewrite Hx; set_solver). simpl. by rewrite app_nil_r.
  - rewrite list_lookup_alter_ne by done. rewrite !list_lookup_fmap. destruct (N !! j) as [m|] eqn:Hj; [|done]. simpl. f_equal.
    unfold set_nverts. f_equal. rewrite !filter_app, !fmap_app. f_equal. rewrite !filter_cons, !filter_nil. simpl.
    assert (n_id m ≠ x).
    { intros He. apply Hne. eapply (NoDup_fmap_inj n_id N); [done..|congruence]. }
    destruct (decide (n_id m ∈ ns)).
    + rewrite decide_True by set_solver. done.
    + rewrite decide_False by set_solver. done.
Qed.

(** absorbing one vertex *)
Definition absorb (c u : vertex) : vertex :=
  Vertex (v_id c) (v_nets c ++ filter (λ x, x ∉ v_nets c) (v_nets u)) (v_weight c + v_weight u) (v_part c).

Definition absorb_all (H : hg) (c : vertex) (ms : list Z) : vertex := foldl (λ c m, absorb c (by_id H m)) c ms.

Definition c_push (C : contraction) (id : Z) (ms : list Z) : contraction :=
  Contr (c_samples C ++ [id]) (c_matches C ++ [(λ m, (m, 0)) <$> ms]) (c_free C) (c_local_free C) (c_global_free C).

Lemma absorb_all_id H c ms : v_id (absorb_all H c ms) = v_id c.
Proof. revert c. induction ms as [|m ms IH]; intros c; [done|]. simpl. by rewrite IH. Qed.
Lemma absorb_all_part H c ms : v_part (absorb_all H c ms) = v_part c.
Proof. revert c. induction ms as [|m ms IH]; intros c; [done|]. simpl. by rewrite IH. Qed.
Lemma absorb_all_weight H c ms : v_weight (absorb_all H c ms) = v_weight c + zsum ((λ m, v_weight (by_id H m)) <$> ms).
Proof.
  revert c. induction ms as [|m ms IH]; intros c; [simpl; unfold zsum; simpl; lia|]. csimpl. rewrite IH, zsum_cons. simpl. lia.
Qed.
Lemma absorb_all_nets H c ms x : x ∈ v_nets (absorb_all H c ms) ↔ x ∈ v_nets c ∨ ∃ m, m ∈ ms ∧ x ∈ v_nets (by_id H m).
Proof.
  revert c. induction ms as [|m ms IH]; intros c; [simpl; split; [auto|intros [?|(? & []%elem_of_nil & _)]; done]|].
  simpl. rewrite IH. simpl. rewrite elem_of_app, elem_of_list_filter. split.
  - intros [[Hx|[_ Hx]]|(m' & Hm' & Hx)]; [by left|right; exists m; set_solver|right; exists m'; set_solver].
  - intros [Hx|(m' & [->|Hm']%elem_of_cons & Hx)]; [by left; left| |right; eauto].
    destruct (decide (x ∈ v_nets c)); [by left; left|]. left. by right.
Qed.
Lemma absorb_all_nodup H c ms : consistent H → NoDup (v_nets c) → (∀ m, m ∈ ms → m ∈ vids H) → NoDup (v_nets (absorb_all H c ms)).
Proof.
  revert c. induction ms as [|m ms IH]; intros c HC Hc Hms; [done|]. simpl. apply IH; [done| |set_solver]. simpl.
  apply NoDup_app. split_and!; [done|intros x Hx; rewrite elem_of_list_filter; tauto|].
  apply NoDup_filter. apply (co_vnets _ HC). apply by_id_vid. set_solver.
Qed.

Section contract.
  Context (E : err → Prop) (H : hg) (HC : consistent H).
  Context (HC0 : hg).
  Let N := h_nets HC0.
  Hypothesis Nids : n_id <$> N = nids H.
  Hypothesis Nmap : nmap_ok HC0.

  Lemma N_nodup : NoDup (n_id <$> N).
  Proof. rewrite Nids. apply (co_nid _ HC). Qed.

  Definition hcs (done : list vertex) (cur cur' : vertex) (rest : list vertex) : hg :=
    with_nets (inc_nets N (done ++ [cur'])) (with_verts (done ++ cur :: rest) HC0).

  Lemma wpe_hcs_upd_net done cur c ns rest x (Q : hg → Prop) :
    x ∈ nids H → x ∉ ns → Q (hcs done cur (set_vnets (ns ++ [x]) c) rest) →
    wpe E (upd_net_id (hcs done cur (set_vnets ns c) rest) x (n_add_vertex (v_id c))) Q.
  Proof.
    intros Hx Hns HQ. rewrite <-Nids in Hx. apply elem_of_list_fmap in Hx as (n & -> & Hn). apply elem_of_list_lookup in Hn as [i Hi].
    unfold upd_net_id. apply wpe_bind. eapply wpe_of_option_Some; [simpl; by eapply nmap_ok_lookup|].
    apply wpe_bind, wpe_assert.
    { apply bool_decide_eq_true. unfold hcs. simpl. unfold inc_nets. rewrite fmap_length. by eapply lookup_lt_Some. }
    apply wpe_ret. unfold upd_net, hcs. simpl. erewrite inc_nets_add; [exact HQ|apply N_nodup|done..].
  Qed.

  Lemma hcs_upd_vert done cur cur' rest f : upd_vert (length done) f (hcs done cur cur' rest) = hcs done (f cur) cur' rest.
  Proof.
    unfold upd_vert, hcs, with_verts, with_nets. simpl. f_equal.
    rewrite <-(Nat.add_0_r (length done)). by rewrite alter_app_r.
  Qed.

  Lemma wpe_absorb done c rest u (Q : hg * gset Z → Prop) :
    u ∈ h_verts H →
    Q (hcs done (absorb c u) (absorb c u) rest, list_to_set (v_nets (absorb c u))) →
    wpe E (foldM (λ t n,
      if decide (n ∈ snd t) then ret t else
      HC' <- upd_net_id (upd_vert (length done) (v_add_net n) (fst t)) n (n_add_vertex (v_id c)) ;;
      ret (HC', {[n]} ∪ snd t)) (v_nets u) (upd_vert (length done) (add_weight (v_weight u)) (hcs done c c rest), list_to_set (v_nets c))) Q.
  Proof.
    intros Hu HQ. rewrite hcs_upd_vert. pose proof (co_vnets _ HC u Hu) as Hnd.
    apply (wpe_foldM _ _ (λ ds s, let c' := Vertex (v_id c) (v_nets c ++ filter (λ x, x ∉ v_nets c) ds) (v_weight c + v_weight u) (v_part c) in
      s = (hcs done c' c' rest, list_to_set (v_nets c')))).
    - simpl. rewrite filter_nil, app_nil_r. f_equal. unfold hcs. f_equal. unfold inc_nets. apply list_fmap_ext. intros j n _. f_equal.
      rewrite !filter_app, !fmap_app, !filter_cons, !filter_nil. simpl. destruct (decide (n_id n ∈ v_nets c)); done.
    - intros ds x ts s Heq ->. cbn [fst snd].
      assert (x ∉ ds) as Hxd. { rewrite Heq in Hnd. apply NoDup_app in Hnd as (_ & Hd & _). intros Hx. specialize (Hd x Hx). set_solver. }
      rewrite filter_app, filter_cons, filter_nil.
      case_decide as Hin; simpl in Hin; rewrite elem_of_list_to_set, elem_of_app, elem_of_list_filter in Hin.
      + destruct Hin as [Hin|[_ Hin]]; [|done]. apply wpe_ret. rewrite decide_False by tauto. by rewrite app_nil_r.
      + rewrite decide_True by tauto. apply wpe_bind. rewrite hcs_upd_vert. set (ns := v_nets c ++ filter (λ x0, x0 ∉ v_nets c) ds).
        pose (c1 := Vertex (v_id c) ns (v_weight c + v_weight u) (v_part c)).
        apply (wpe_hcs_upd_net done _ c1 ns).
        * destruct (co_inc1 _ HC u x Hu) as (n & Hn & <- & _); [rewrite Heq; set_solver|]. by apply elem_of_list_fmap_1.
        * unfold ns. rewrite elem_of_app, elem_of_list_filter. tauto.
        * apply wpe_ret. unfold set_vnets, v_add_net. simpl. rewrite app_assoc. fold ns. f_equal.
          rewrite list_to_set_app_L. simpl. set_solver.
    - intros s ->. simpl. done.
  Qed.

  Lemma wpe_contract_vertex matches done c rest i ms C (Q : hg * contraction → Prop) :
    h_vmap H !! v_id c = Some i → (i < length (h_verts H))%nat → matches !! i = Some ms →
    NoDup (v_nets c) → (∀ x, x ∈ v_nets c → x ∈ nids H) →
    (∀ m, m ∈ ms → m ∈ vids H) → length (c_matches C) = length done →
    Q (hcs done (absorb_all H c ms) (absorb_all H c ms) rest, c_push C (v_id c) ms) →
    wpe E (contract_vertex H matches (with_nets (inc_nets N done) (with_verts (done ++ c :: rest) HC0), C) (length done)) Q.
  Proof.
    intros Hi Hil Hms Hcn Hcin Hmin Hlen HQ. unfold contract_vertex. apply wpe_bind.
    eapply wpe_nidx; [simpl; by rewrite lookup_app_r, Nat.sub_diag by lia|].
    apply wpe_bind. apply wpe_bind. eapply wpe_of_option_Some; [exact Hi|]. apply wpe_bind, wpe_assert; [by apply bool_decide_eq_true|].
    apply wpe_ret. apply wpe_bind. cbn [fst snd].
    apply (wpe_foldM _ _ (λ ds s, s = hcs done c (set_vnets ds c) rest)).
    { unfold hcs. f_equal. unfold inc_nets. apply list_fmap_ext. intros j n _. f_equal. rewrite filter_app, fmap_app, filter_cons, filter_nil. simpl. by rewrite app_nil_r. }
    { intros ds x ts s Heq ->. apply wpe_hcs_upd_net; [apply Hcin; rewrite Heq; set_solver| |done].
      rewrite Heq in Hcn. apply NoDup_app in Hcn as (_ & Hd & _). intros Hx. specialize (Hd x Hx). set_solver. }
    intros s ->. replace (set_vnets (v_nets c) c) with c by (by destruct c).
    apply wpe_bind. eapply wpe_nidx; [exact Hms|].
    case_decide as Hne.
    { subst ms. apply wpe_ret. simpl in HQ. unfold c_push in HQ. simpl in HQ. exact HQ. }
    apply wpe_bind. cbn [fst snd].
    assert (∀ ms', v_id (absorb_all H c ms') = v_id c) as Hid by (intros; apply absorb_all_id).
    apply (wpe_foldM _ _ (λ ds s, s = (hcs done (absorb_all H c ds) (absorb_all H c ds) rest, c_push C (v_id c) ds, list_to_set (v_nets (absorb_all H c ds))))).
    { simpl. done. }
    { intros ds m ts s Heq ->. cbn [fst snd]. apply wpe_bind. unfold add_match. apply wpe_bind, wpe_assert.
      { apply bool_decide_eq_true. unfold c_push. simpl. rewrite app_length. simpl. lia. }
      apply wpe_ret. apply wpe_bind.
      destruct (by_id_vid H m) as [Hu Hmid]; [apply Hmin; rewrite Heq; set_solver|].
      rewrite <-Hmid at 1. apply wpe_vert; [by apply co_vmap_ok|done|].
      apply wpe_bind. rewrite <-(Hid ds). apply wpe_absorb; [done|]. cbn [fst snd]. apply wpe_ret.
      unfold absorb_all. rewrite foldl_app. simpl. f_equal. f_equal. unfold c_push. simpl. f_equal.
      rewrite Nat2Z.id, <-Hlen. rewrite <-(Nat.add_0_r (length (c_matches C))), alter_app_r. simpl. by rewrite fmap_app. }
    intros s ->. apply wpe_ret. exact HQ.
  Qed.
End contract.

(** ** the contracted hypergraph before free nets and free vertices are removed *)
Definition fresh (v : vertex) : vertex := Vertex (v_id v) (v_nets v) (v_weight v) (-1).
Definition coarse_verts (H : hg) (cl : list (Z * list Z)) : list vertex :=
  (λ c, absorb_all H (fresh (by_id H (fst c))) (snd c)) <$> cl.
Definition empty_nets (H : hg) : list net := (λ n, Net (n_id n) [] (n_cost n) 0) <$> h_nets H.
Definition coarse0 (H : hg) (cl : list (Z * list Z)) : hg :=
  mk_hg (Z.of_nat (length cl)) (h_gnets H) (coarse_verts H cl) (inc_nets (empty_nets H) (coarse_verts H cl)) 0.

Lemma coarse_verts_ids H cl : (∀ c, c ∈ cl → fst c ∈ vids H) → v_id <$> coarse_verts H cl = fst <$> cl.
Proof.
  intros Hc. unfold coarse_verts. rewrite <-list_fmap_compose. apply list_fmap_ext. intros i c Hi. simpl. rewrite absorb_all_id. simpl.
  apply by_id_vid, Hc. by eapply elem_of_list_lookup_2.
Qed.

Definition new_verts (H : hg) (cl : list (Z * list Z)) : list vertex := (λ c : Z * list Z, fresh (by_id H (fst c))) <$> cl.
Definition contraction_of (cl : list (Z * list Z)) (free : list (Z * Z)) (lf gf : Z) : contraction :=
  Contr (fst <$> cl) ((λ c : Z * list Z, (λ m : Z, (m, 0)) <$> snd c) <$> cl) free lf gf.

Lemma wpe_contract_fold E H matches cl (Q : hg * contraction → Prop) :
  consistent H →
  (∀ c, c ∈ cl → fst c ∈ vids H ∧ (∀ m, m ∈ snd c → m ∈ vids H)) →
  (∀ c i, c ∈ cl → h_vmap H !! fst c = Some i → matches !! i = Some (snd c)) →
  Q (coarse0 H cl, contraction_of cl [] 0 0) →
  let new_v := new_verts H cl in
  wpe E (foldM (contract_vertex H matches) (seq 0 (length new_v))
    (mk_hg (Z.of_nat (length new_v)) (h_gnets H) new_v (empty_nets H) 0, new_contraction)) Q.
Proof.
  intros HC Hcl Hms HQ new_v. set (HC0 := mk_hg _ _ new_v _ 0). set (N := empty_nets H).
  assert (n_id <$> h_nets HC0 = nids H) as Nids.
  { unfold HC0, empty_nets, nids. simpl. rewrite <-list_fmap_compose. by apply list_fmap_ext. }
  assert (nmap_ok HC0) as Nmap.
  { unfold nmap_ok, HC0, nids. simpl. apply ids_ok_index_map. change (NoDup (n_id <$> h_nets HC0)). rewrite Nids. apply (co_nid _ HC). }
  assert (length new_v = length cl) as Hlen by (unfold new_v; apply fmap_length).
  apply (wpe_foldM _ _ (λ ds s, s = (with_nets (inc_nets N (coarse_verts H (take (length ds) cl)))
      (with_verts (coarse_verts H (take (length ds) cl) ++ drop (length ds) new_v) HC0),
      contraction_of (take (length ds) cl) [] 0 0))).
  - simpl. unfold new_contraction. f_equal. unfold HC0, mk_hg, with_nets, with_verts, update_map, update_map_nets, with_vmap, with_nmap. simpl.
    f_equal. unfold inc_nets, N, empty_nets. rewrite <-list_fmap_compose. by apply list_fmap_ext.
  - intros ds k ts s Heq ->.
    assert (k = length ds ∧ (k < length cl)%nat) as [-> Hk].
    { assert (seq 0 (length new_v) !! length ds = Some k) as Hl by (rewrite Heq, lookup_app_r, Nat.sub_diag; [done|lia]).
      apply lookup_seq in Hl. lia. }
    destruct (lookup_lt_is_Some_2 cl (length ds) Hk) as [c Hc]. pose proof (elem_of_list_lookup_2 _ _ _ Hc) as Hcin.
    destruct (Hcl c Hcin) as [Hcv Hcm]. destruct (by_id_vid H (fst c) Hcv) as [Hbv Hbi].
    assert (new_v !! length ds = Some (fresh (by_id H (fst c)))) as Hnv by (unfold new_v, new_verts; by rewrite list_lookup_fmap, Hc).
    rewrite (drop_S _ _ _ Hnv). pose proof (proj1 (elem_of_list_lookup _ _) Hbv) as [i Hi].
    assert (h_vmap H !! fst c = Some i) as Hvi by (rewrite <-Hbi; apply vmap_ok_lookup; [by apply co_vmap_ok|done]).
    assert (length (coarse_verts H (take (length ds) cl)) = length ds) as Hld by (unfold coarse_verts; rewrite fmap_length, take_length; lia).
    rewrite <-Hld at 5.
    eapply (wpe_contract_vertex E H HC HC0 Nids Nmap matches _ _ _ i (snd c)); simpl.
    + by rewrite Hbi.
    + by eapply lookup_lt_Some.
    + eapply Hms; eauto.
    + by apply (co_vnets _ HC).
    + intros x Hx. destruct (co_inc1 _ HC _ _ Hbv Hx) as (n & Hn & <- & _). by apply elem_of_list_fmap_1.
    + done.
    + rewrite Hld, fmap_length, take_length. lia.
    + rewrite app_length. simpl. rewrite Nat.add_1_r. rewrite (take_S_r _ _ _ Hc). unfold coarse_verts. rewrite !fmap_app. simpl.
      unfold c_push, contraction_of. simpl. rewrite <-app_assoc. simpl. rewrite !fmap_app. simpl. rewrite Hbi. done.
  - intros s ->. rewrite seq_length, Hlen, !take_ge, drop_ge by lia. rewrite app_nil_r.
    replace (with_nets (inc_nets N (coarse_verts H cl)) (with_verts (coarse_verts H cl) HC0)) with (coarse0 H cl); [done|].
    unfold coarse0, mk_hg, with_nets, with_verts, HC0, update_map, update_map_nets, with_vmap, with_nmap, mk_hg. simpl. f_equal.
    + by rewrite Hlen.
    + f_equal. rewrite coarse_verts_ids by (intros c Hc; by apply Hcl). unfold new_v, new_verts. rewrite <-list_fmap_compose. apply list_fmap_ext.
      intros i c Hc. simpl. symmetry. apply by_id_vid, Hcl. by eapply elem_of_list_lookup_2.
    + by rewrite inc_nets_ids.
Qed.

(** ** representatives *)
Lemma elem_of_concat {A} (x : A) (ls : list (list A)) : x ∈ concat ls ↔ ∃ l, x ∈ l ∧ l ∈ ls.
Proof.
  induction ls as [|l ls IH]; simpl; [split; [intros []%elem_of_nil|intros (? & _ & []%elem_of_nil)]|].
  rewrite elem_of_app, IH. split.
  - intros [Hx|(l' & Hx & Hl)]; [exists l|exists l']; set_solver.
  - intros (l' & Hx & [->|Hl]%elem_of_cons); eauto.
Qed.
Lemma rep_spec H cl c u : consistent H → clustering H cl → c ∈ cl → u = fst c ∨ u ∈ snd c → rep cl u = fst c.
Proof.
  intros HC Hcl Hc Hu. unfold clustering in Hcl.
  assert (NoDup ((fst <$> cl) ++ concat (snd <$> cl))) as Hnd by (rewrite Hcl; apply (co_vid _ HC)).
  clear Hcl HC. unfold rep. revert Hc. induction cl as [|c0 cl IH]; intros Hc; [set_solver|].
  csimpl in Hnd. cbn [list_find]. apply NoDup_cons in Hnd as [Hn0 Hnd].
  apply NoDup_app in Hnd as (Hnd1 & Hnd2 & Hnd3). rewrite elem_of_app in Hn0. csimpl in Hnd2. csimpl in Hnd3.
  apply NoDup_app in Hnd3 as (Hnd4 & Hnd5 & Hnd6).
  apply elem_of_cons in Hc as [->|Hc].
  - rewrite decide_True by done. done.
  - rewrite decide_False.
    + specialize (IH ltac:(apply NoDup_app; split_and!; [done|intros x Hx; specialize (Hnd2 x Hx); set_solver|done]) Hc).
      destruct (list_find _ cl) as [[i c1]|]; simpl in *; done.
    + intros Hu0. destruct Hu as [->|Hu].
      * assert (c.1 ∈ cl.*1) as Hin by (by apply elem_of_list_fmap_1).
        destruct Hu0 as [He|Hin2]; [apply Hn0; left; by rewrite <-He|]. specialize (Hnd2 _ Hin). set_solver.
      * assert (u ∈ concat (snd <$> cl)) as Hin.
        { apply elem_of_concat. exists (snd c). split; [done|]. by apply elem_of_list_fmap_1. }
        destruct Hu0 as [->|Hin2]; [apply Hn0; right; set_solver|]. by destruct (Hnd5 u).
Qed.

Lemma clustering_elem H cl u : clustering H cl → u ∈ vids H ↔ ∃ c, c ∈ cl ∧ (u = fst c ∨ u ∈ snd c).
Proof.
  intros Hcl. unfold clustering in Hcl. fold (vids H) in Hcl. rewrite <-Hcl, elem_of_app, elem_of_list_fmap, elem_of_concat. split.
  - intros [(c & -> & Hc)|(ms & Hu & (c & -> & Hc)%elem_of_list_fmap)]; exists c; auto.
  - intros (c & Hc & [->|Hu]); [left; eauto|right]. exists (snd c). split; [done|]. by apply elem_of_list_fmap_1.
Qed.
Lemma clustering_sub H cl c : clustering H cl → c ∈ cl → fst c ∈ vids H ∧ (∀ m, m ∈ snd c → m ∈ vids H).
Proof.
  intros Hcl Hc. split; [|intros m Hm]; apply (clustering_elem H cl _ Hcl); eauto.
Qed.
Lemma clustering_nodup H cl : consistent H → clustering H cl → NoDup (fst <$> cl).
Proof.
  intros HC Hcl. assert (NoDup ((fst <$> cl) ++ concat (snd <$> cl))) as Hnd by (rewrite Hcl; apply (co_vid _ HC)).
  by apply NoDup_app in Hnd as (? & _ & _).
Qed.

(** ** the coarse hypergraph *)
Lemma coarse_verts_elem H cl v : consistent H → clustering H cl → v ∈ coarse_verts H cl →
  ∃ c, c ∈ cl ∧ v = absorb_all H (fresh (by_id H (fst c))) (snd c) ∧ v_id v = fst c ∧
    ∀ x, x ∈ v_nets v ↔ ∃ u, u ∈ h_verts H ∧ (v_id u = fst c ∨ v_id u ∈ snd c) ∧ x ∈ v_nets u.
Proof.
  intros HC Hcl (c & -> & Hc)%elem_of_list_fmap. exists c. destruct (clustering_sub H cl c Hcl Hc) as [Hf Hs].
  destruct (by_id_vid H _ Hf) as [Hb Hi]. pose proof (co_vid _ HC) as Hnd.
  split; [done|]. split; [done|]. split; [by rewrite absorb_all_id|]. intros x. rewrite absorb_all_nets. simpl. split.
  - intros [Hx|(m & Hm & Hx)]; [exists (by_id H (fst c)); auto|]. destruct (by_id_vid H m (Hs m Hm)) as [Hb' Hi'].
    exists (by_id H m). rewrite Hi'. auto.
  - intros (u & Hu & [He|Hm] & Hx).
    + left. rewrite <-He, by_id_elem; done.
    + right. exists (v_id u). split; [done|]. by rewrite by_id_elem.
Qed.

Lemma NoDup_ids_filter (P : vertex → Prop) `{∀ v, Decision (P v)} (vs : list vertex) : NoDup (v_id <$> vs) → NoDup (v_id <$> filter P vs).
Proof. apply NoDup_fmap_filter. Qed.

Lemma coarse0_consistent H cl : consistent H → clustering H cl → consistent (coarse0 H cl).
Proof.
  intros HC Hcl. assert (∀ c, c ∈ cl → fst c ∈ vids H) as Hsub by (intros c Hc; by apply (clustering_sub H cl)).
  pose proof (coarse_verts_ids H cl Hsub) as Hids.
  assert (NoDup (v_id <$> coarse_verts H cl)) as Hnd by (rewrite Hids; by eapply clustering_nodup).
  unfold coarse0. apply mk_hg_consistent.
  - done.
  - rewrite inc_nets_ids. unfold empty_nets. rewrite <-list_fmap_compose. apply (co_nid _ HC).
  - intros v (c & -> & Hc)%elem_of_list_fmap. destruct (clustering_sub H cl c Hcl Hc) as [Hf Hs].
    apply absorb_all_nodup; [done| |done]. simpl. apply (co_vnets _ HC). by apply by_id_vid.
  - intros n (m & -> & Hm)%elem_of_list_fmap. simpl. by apply NoDup_ids_filter.
  - intros v nid Hv Hnid. destruct (coarse_verts_elem H cl v HC Hcl Hv) as (c & Hc & _ & Hid & Hnets).
    destruct (proj1 (Hnets nid) Hnid) as (u & Hu & _ & Hx). destruct (co_inc1 _ HC _ _ Hu Hx) as (n & Hn & <- & _).
    exists (set_nverts (v_id <$> filter (λ v, n_id n ∈ v_nets v) (coarse_verts H cl)) (Net (n_id n) [] (n_cost n) 0)).
    split; [unfold inc_nets, empty_nets; rewrite <-list_fmap_compose; apply elem_of_list_fmap; by exists n|]. split; [done|].
    simpl. apply elem_of_list_fmap_1. by apply elem_of_list_filter.
  - intros n vid (m & -> & Hm)%elem_of_list_fmap. simpl. intros (v & -> & [Hn Hv]%elem_of_list_filter)%elem_of_list_fmap. eauto.
Qed.

Lemma coarse_touched H cl n σ : consistent H → clustering H cl → n ∈ h_nets H →
  parts_touched σ (v_id <$> filter (λ v, n_id n ∈ v_nets v) (coarse_verts H cl)) = parts_touched (σ ∘ rep cl) (n_verts n).
Proof.
  intros HC Hcl Hn. apply set_eq. intros p. rewrite !parts_touched_elem. split.
  - intros (r & (v & -> & [Hx Hv]%elem_of_list_filter)%elem_of_list_fmap & Hp).
    destruct (coarse_verts_elem H cl v HC Hcl Hv) as (c & Hc & _ & Hid & Hnets).
    destruct (proj1 (Hnets _) Hx) as (u & Hu & Hcu & Hnu). exists (v_id u). split; [by apply (incidence_iff H u n HC Hu Hn)|]. simpl.
    rewrite (rep_spec H cl c) by done. by rewrite <-Hid.
  - intros (uid & Hu & Hp). destruct (co_inc2 _ HC _ _ Hn Hu) as (u & Huv & <- & Hnu).
    assert (v_id u ∈ vids H) as (c & Hc & Hcu)%(clustering_elem H cl _ Hcl) by (by apply elem_of_list_fmap_1).
    assert (absorb_all H (fresh (by_id H (fst c))) (snd c) ∈ coarse_verts H cl) as Hv by (by apply (elem_of_list_fmap_1 (λ c, absorb_all H (fresh (by_id H (fst c))) (snd c)))).
    exists (fst c). simpl in Hp. rewrite (rep_spec H cl c) in Hp by done. split; [|done].
    apply elem_of_list_fmap. eexists. split; [|apply elem_of_list_filter; split; [|exact Hv]].
    + rewrite absorb_all_id. simpl. symmetry. apply by_id_vid. by apply (clustering_sub H cl).
    + destruct (coarse_verts_elem H cl _ HC Hcl Hv) as (c' & Hc' & He & Hid & Hnets). apply Hnets. exists u.
      rewrite absorb_all_id in Hid. simpl in Hid. rewrite (proj2 (by_id_vid H (fst c) (proj1 (clustering_sub H cl c Hcl Hc)))) in Hid.
      assert (c' = c) as ->; [|auto].
      eapply (NoDup_fmap_elem fst cl); [by eapply clustering_nodup|done..].
Qed.

Lemma lambda_touched σ σ' vs vs' : parts_touched σ vs = parts_touched σ' vs' → lambda σ vs = lambda σ' vs'.
Proof. unfold lambda. by intros ->. Qed.
Lemma touched_nil σ vs : parts_touched σ vs = ∅ ↔ vs = [].
Proof.
  split; [|by intros ->]. destruct vs as [|u vs]; [done|]. unfold parts_touched. csimpl. set_solver.
Qed.

Lemma coarse0_cuts H cl σ : consistent H → clustering H cl →
  cut_net_size (net_list (coarse0 H cl)) σ = cut_net_size (net_list H) (σ ∘ rep cl) ∧
  lambda_size (net_list (coarse0 H cl)) σ = lambda_size (net_list H) (σ ∘ rep cl).
Proof.
  intros HC Hcl. unfold cut_net_size, lambda_size, net_list, coarse0, mk_hg, update_map_nets, update_map, with_vmap, with_nmap. simpl. unfold inc_nets, empty_nets.
  rewrite <-!list_fmap_compose. split; apply zsum_fmap_ext; intros n Hn; simpl; pose proof (coarse_touched H cl n σ HC Hcl Hn) as Ht;
    pose proof (lambda_touched _ _ _ _ Ht) as Hl.
  - rewrite Hl. done.
  - rewrite Hl. assert ((v_id <$> filter (λ v, n_id n ∈ v_nets v) (coarse_verts H cl) = []) ↔ n_verts n = []) as Hi.
    { rewrite <-(touched_nil σ), <-(touched_nil (σ ∘ rep cl) (n_verts n)), Ht. done. }
    destruct (decide (n_verts n = [])) as [He|He].
    + rewrite decide_True by tauto. done.
    + rewrite decide_False by tauto. done.
Qed.

(** ** weights *)
Lemma verts_by_id H : consistent H → by_id H <$> vids H = h_verts H.
Proof.
  intros HC. unfold vids. rewrite <-list_fmap_compose. rewrite <-(list_fmap_id (h_verts H)) at 2.
  apply list_fmap_ext. intros i v Hv. simpl. apply by_id_elem; [apply (co_vid _ HC)|by eapply elem_of_list_lookup_2].
Qed.
Lemma zsum_concat {A} (f : A → Z) (ls : list (list A)) : zsum (f <$> concat ls) = zsum ((λ l, zsum (f <$> l)) <$> ls).
Proof. induction ls as [|l ls IH]; [done|]. csimpl. rewrite fmap_app, zsum_app, IH, zsum_cons. done. Qed.
Lemma zsum_clusters H cl (f : vertex → Z) : consistent H → clustering H cl →
  zsum (f <$> h_verts H) = zsum ((λ c, f (by_id H (fst c)) + zsum ((λ m, f (by_id H m)) <$> snd c)) <$> cl).
Proof.
  intros HC Hcl. rewrite <-(verts_by_id H HC), <-list_fmap_compose. unfold clustering in Hcl. fold (vids H) in Hcl. rewrite <-Hcl.
  rewrite fmap_app, zsum_app, zsum_concat, <-!list_fmap_compose. rewrite zsum_fmap_add. f_equal.
Qed.
Lemma coarse0_weight H cl (g : Z → Prop) `{∀ x, Decision (g x)} : consistent H → clustering H cl →
  zsum ((λ v, if decide (g (v_id v)) then v_weight v else 0) <$> h_verts (coarse0 H cl)) =
  zsum ((λ v, if decide (g (rep cl (v_id v))) then v_weight v else 0) <$> h_verts H).
Proof.
  intros HC Hcl. rewrite (zsum_clusters H cl) by done. simpl. unfold coarse_verts. rewrite <-list_fmap_compose. apply zsum_fmap_ext.
  intros c Hc. simpl. destruct (clustering_sub H cl c Hcl Hc) as [Hf Hs].
  rewrite absorb_all_id, absorb_all_weight. simpl. rewrite (proj2 (by_id_vid H _ Hf)). rewrite (rep_spec H cl c) by auto.
  destruct (decide (g (fst c))) as [Hg|Hg].
  - f_equal. apply zsum_fmap_ext. intros m Hm. rewrite (proj2 (by_id_vid H m (Hs m Hm))), (rep_spec H cl c) by auto. by rewrite decide_True.
  - rewrite zsum_fmap_zero; [done|]. intros m Hm. rewrite (proj2 (by_id_vid H m (Hs m Hm))), (rep_spec H cl c) by auto. by rewrite decide_False.
Qed.

(** ** setting free vertices aside *)
Definition is_free (v : vertex) : Prop := v_nets v = [].
Global Instance is_free_dec v : Decision (is_free v).
Proof. unfold is_free. apply _. Defined.
Definition free_of (vs : list vertex) : list (Z * Z) := (λ v, (v_id v, v_weight v)) <$> filter is_free vs.

Record set_aside (H H' : hg) : Prop := {
  sa_verts : h_verts H ≡ₚ filter is_free (h_verts H) ++ h_verts H';
  sa_nets : h_nets H' = h_nets H;
  sa_gnets : h_gnets H' = h_gnets H;
  sa_nz : h_nz H' = h_nz H;
  sa_dups : h_dups H' = h_dups H;
  sa_gsize : h_gsize H' = Z.of_nat (length (h_verts H'));
}.

Lemma with_gsize_consistent s H : consistent H → consistent (with_gsize s H).
Proof. intros HC. destruct HC. split; done. Qed.

Lemma wpe_remove_free_list E fs H (Q : hg → Prop) :
  consistent H → NoDup (v_id <$> fs) → (∀ v, v ∈ fs → v ∈ h_verts H ∧ is_free v) →
  (∀ H', consistent H' → h_verts H ≡ₚ fs ++ h_verts H' → h_nets H' = h_nets H → h_gnets H' = h_gnets H → h_nz H' = h_nz H → h_dups H' = h_dups H → Q H') →
  wpe E (foldM (λ H f, remove_free_vertex H (fst f)) ((λ v, (v_id v, v_weight v)) <$> fs) H) Q.
Proof.
  revert H Q. induction fs as [|v fs IH]; intros H Q HC Hnd Hfs HQ; csimpl; cbn [foldM].
  - apply wpe_ret. by apply HQ.
  - csimpl in Hnd. apply NoDup_cons in Hnd as [Hv Hnd]. destruct (Hfs v) as [Hvin Hvf]; [set_solver|].
    apply elem_of_list_lookup in Hvin as [i Hi]. apply wpe_bind. cbn [fst]. eapply wpe_remove_free_vertex; [by apply co_vmap_ok|exact Hi|].
    pose proof (remove_vertex_result_removed H i v Hi) as [R1 R2 R3 R4 R5 R6].
    apply IH.
    + by apply remove_vertex_result_consistent.
    + done.
    + intros u Hu. destruct (Hfs u) as [Huin Huf]; [set_solver|]. split; [|done]. rewrite R1 in Huin. apply elem_of_cons in Huin as [->|]; [|done].
      destruct Hv. by apply elem_of_list_fmap_1.
    + intros H' HC' Hp Hn Hgn Hnz Hd. apply HQ; [done|by rewrite R1, Hp|congruence..].
Qed.

Lemma wpe_merge_free E C H (Q : contraction * hg → Prop) :
  consistent H → c_free C = [] →
  (∀ H' t, consistent H' → set_aside H H' → t = zsum (snd <$> free_of (h_verts H)) →
     Q (Contr (c_samples C) (c_matches C) (free_of (h_verts H)) t t, H')) →
  wpe E (merge_free_vertices C H) Q.
Proof.
  intros HC Hfr HQ. unfold merge_free_vertices, remove_free_vertices. apply wpe_bind. rewrite Hfr. cbn [c_free app]. apply wpe_bind.
  apply (wpe_remove_free_list E (filter is_free (h_verts H))).
  - done.
  - apply NoDup_ids_filter, (co_vid _ HC).
  - intros v [Hv Hf]%elem_of_list_filter. done.
  - intros H' HC' Hp Hn Hgn Hnz Hd. apply wpe_ret. cbn [fst snd]. apply wpe_ret. cbn [fst snd c_samples c_matches c_free].
    apply HQ; [by apply with_gsize_consistent|by split|]. rewrite foldl_add_zsum. done.
Qed.

(** ** all of contract_hypergraph *)
Record contracted (H : hg) (cl : list (Z * list Z)) (HC : hg) (free : list (Z * Z)) : Prop := {
  cd_cons : consistent HC;
  cd_ids : (v_id <$> h_verts HC) ++ (fst <$> free) ≡ₚ fst <$> cl;
  cd_weights : ∀ id w, (id, w) ∈ ((λ v, (v_id v, v_weight v)) <$> h_verts HC) ++ free →
    w = zsum ((λ v, if decide (rep cl (v_id v) = id) then v_weight v else 0) <$> h_verts H);
  cd_cut : ∀ σ, cut_net_size (net_list HC) σ = cut_net_size (net_list H) (σ ∘ rep cl) ∧
                lambda_size (net_list HC) σ = lambda_size (net_list H) (σ ∘ rep cl);
  cd_weight : ∀ σ p, assigned_weight HC free σ p = assigned_weight H [] (σ ∘ rep cl) p;
  cd_nets : ∀ n, n ∈ h_nets HC → (2 ≤ length (n_verts n))%nat ∧ n_gsize n = Z.of_nat (length (n_verts n)) ∧
      ∃ m, m ∈ h_nets H ∧ n_id m = n_id n ∧ n_cost m = n_cost n ∧ ∀ u, u ∈ n_verts n ↔ ∃ x, x ∈ n_verts m ∧ rep cl x = u;
  cd_verts : ∀ v, v ∈ h_verts HC → v_nets v ≠ [] ∧ v_part v = -1;
  cd_gsize : h_gsize HC = Z.of_nat (length (h_verts HC));
  cd_gnets : h_gnets HC = h_gnets H;
  cd_dups : h_dups HC = [];
}.

Lemma small_net_cut c vs σ : (length vs ≤ 1)%nat → (if decide (1 < lambda σ vs) then c else 0) = 0 ∧ (if decide (vs = []) then 0 else c * (lambda σ vs - 1)) = 0.
Proof.
  intros Hl. destruct vs as [|u [|? ?]]; simpl in Hl; [..|lia].
  - rewrite lambda_nil. rewrite decide_False by lia. rewrite decide_True by done. done.
  - assert (lambda σ [u] = 1) as ->.
    { pose proof (lambda_pos σ [u] ltac:(done)). destruct (decide (1 < lambda σ [u])) as [(a & b & Ha & Hb & Hab)%lambda_gt_1|]; [|lia]. set_solver. }
    rewrite decide_False by lia. split; [done|]. rewrite decide_False by done. lia.
Qed.
Lemma free_nets_removed_cuts H H' σ : free_nets_removed 1 H H' →
  cut_net_size (net_list H') σ = cut_net_size (net_list H) σ ∧ lambda_size (net_list H') σ = lambda_size (net_list H) σ.
Proof.
  intros [Hn _ _ _ _ _]. unfold cut_net_size, lambda_size, net_list. rewrite Hn. rewrite <-!list_fmap_compose.
  split; rewrite zsum_filter_if; apply zsum_fmap_ext; intros n Hin; simpl; destruct (decide (1 < Z.of_nat (length (n_verts n)))); try done;
    symmetry; apply small_net_cut; lia.
Qed.

Definition idw (v : vertex) : Z * Z := (v_id v, v_weight v).
Definition fidw (σ : Z → Z) (p : Z) (f : Z * Z) : Z := if decide (σ (fst f) = p) then snd f else 0.
Lemma assigned_idw H free σ p : assigned_weight H free σ p = zsum (fidw σ p <$> (idw <$> h_verts H) ++ free).
Proof. unfold assigned_weight. rewrite fmap_app, zsum_app, <-list_fmap_compose. done. Qed.

Lemma set_aside_idw H H' : set_aside H H' → (idw <$> h_verts H') ++ free_of (h_verts H) ≡ₚ idw <$> h_verts H.
Proof. intros Hs. rewrite (sa_verts _ _ Hs) at 2. rewrite fmap_app. unfold free_of. by rewrite Permutation_app_comm. Qed.

Lemma fr_idw m H H' : free_nets_removed m H H' → idw <$> h_verts H' = idw <$> h_verts H.
Proof.
  intros Hf. pose proof (fr_verts _ _ _ Hf) as Hv. symmetry. induction Hv as [|v v' vs vs' (Hi & Hw & _) _ IH]; [done|]. csimpl. rewrite IH. unfold idw. by rewrite Hi, Hw.
Qed.

Lemma wpe_contract_seq E H matches cl (Q : hg * contraction → Prop) :
  consistent H → clustering H cl →
  (∀ c i, c ∈ cl → h_vmap H !! fst c = Some i → matches !! i = Some (snd c)) →
  (∀ HC free t, contracted H cl HC free → t = zsum (snd <$> free) → Q (HC, contraction_of cl free t t)) →
  wpe E (contract_seq H new_contraction matches (new_verts H cl)) Q.
Proof.
  intros HC Hcl Hms HQ. unfold contract_seq. apply wpe_bind.
  apply wpe_contract_fold; [done|intros c Hc; by apply (clustering_sub H cl)|done|].
  pose proof (coarse0_consistent H cl HC Hcl) as HC0. set (K := coarse0 H cl) in *.
  apply wpe_bind. cbn [fst snd]. apply wpe_remove_free_nets; [done|]. intros K2 Hfr HC2 Hvm.
  apply wpe_bind. apply wpe_merge_free; [done|done|]. intros K3 t HC3 Hsa Ht. apply wpe_ret. cbn [fst snd c_samples c_matches].
  apply (HQ K3 (free_of (h_verts K2)) t); [|done].
  assert ((idw <$> h_verts K3) ++ free_of (h_verts K2) ≡ₚ idw <$> h_verts K) as Hidw.
  { rewrite (set_aside_idw _ _ Hsa). by rewrite (fr_idw _ _ _ Hfr). }
  assert (∀ c, c ∈ cl → fst c ∈ vids H) as Hsub by (intros c Hc; by apply (clustering_sub H cl)).
  assert (NoDup (vids K)) as HndK by apply (co_vid _ HC0).
  split.
  - done.
  - assert (v_id <$> h_verts K = fst <$> cl) as <- by (by apply coarse_verts_ids).
    assert (∀ vs, v_id <$> vs = fst <$> (idw <$> vs)) as Hfi by (intros vs; by rewrite <-list_fmap_compose).
    rewrite !Hfi, <-fmap_app. by rewrite Hidw.
  - intros id w Hin. change (λ v, (v_id v, v_weight v)) with idw in Hin. rewrite Hidw in Hin. apply elem_of_list_fmap in Hin as (v & Heq & Hv).
    unfold idw in Heq. injection Heq as -> ->. etransitivity; [|etransitivity; [apply (coarse0_weight H cl (λ x, x = v_id v)); done|]]; [|apply zsum_fmap_ext; intros u _; by repeat case_decide]. fold K.
    rewrite (zsum_single _ _ v); [by rewrite decide_True| | |].
    + by eapply NoDup_fmap_1.
    + done.
    + intros u Hu Hne. rewrite decide_False; [done|]. intros He. apply Hne. by eapply (NoDup_fmap_elem v_id (h_verts K)).
  - intros σ. destruct (coarse0_cuts H cl σ HC Hcl) as [<- <-]. fold K. destruct (free_nets_removed_cuts K K2 σ Hfr) as [<- <-].
    unfold net_list. by rewrite (sa_nets _ _ Hsa).
  - intros σ p. rewrite assigned_idw, Hidw. unfold assigned_weight. rewrite <-list_fmap_compose.
    change (zsum (_ <$> [])) with 0. rewrite Z.add_0_r. etransitivity; [|etransitivity; [apply (coarse0_weight H cl (λ x, σ x = p)); done|]]; [|apply zsum_fmap_ext; intros u _; by repeat case_decide]. done.
  - intros n Hn. rewrite (sa_nets _ _ Hsa), (fr_nets _ _ _ Hfr) in Hn. apply elem_of_list_fmap in Hn as (n0 & -> & [Hl Hn]%elem_of_list_filter).
    cbn [set_ngsize n_verts n_gsize n_id n_cost]. split; [lia|]. split; [done|].
    assert (n0 ∈ inc_nets (empty_nets H) (coarse_verts H cl)) as Hn0 by done.
    apply elem_of_list_fmap in Hn0 as (n1 & -> & (m & -> & Hm)%elem_of_list_fmap). exists m. split; [done|]. split; [done|]. split; [done|].
    simpl. intros u. rewrite elem_of_list_fmap. split.
    + intros (v & -> & [Hx Hv]%elem_of_list_filter). destruct (coarse_verts_elem H cl v HC Hcl Hv) as (c & Hc & _ & Hid & Hnets).
      destruct (proj1 (Hnets _) Hx) as (x & Hxv & Hcu & Hnu). exists (v_id x). split; [by apply (incidence_iff H x m HC Hxv Hm)|]. rewrite Hid. by apply (rep_spec H cl c).
    + intros (x & Hx & <-). pose proof (coarse_touched H cl m (λ z, z) HC Hcl Hm) as Htt.
      assert (rep cl x ∈ parts_touched ((λ z, z) ∘ rep cl) (n_verts m)) as Hin by (apply parts_touched_elem; exists x; done).
      rewrite <-Htt in Hin. apply parts_touched_elem in Hin as (r & Hr & <-). by apply elem_of_list_fmap in Hr.
  - intros v Hv. split.
    + intros Hf. assert (NoDup (v_id <$> filter is_free (h_verts K2) ++ h_verts K3)) as Hnd by (rewrite <-(sa_verts _ _ Hsa); apply (co_vid _ HC2)).
      rewrite fmap_app in Hnd. apply NoDup_app in Hnd as (_ & Hd & _). apply (Hd (v_id v)); [|by apply elem_of_list_fmap_1].
      apply elem_of_list_fmap_1. apply elem_of_list_filter. split; [done|]. rewrite (sa_verts _ _ Hsa). set_solver.
    + assert (v ∈ h_verts K2) as Hv2 by (rewrite (sa_verts _ _ Hsa); set_solver). apply elem_of_list_lookup in Hv2 as [i Hi].
      destruct (Forall2_lookup_r _ _ _ _ _ (fr_verts _ _ _ Hfr) Hi) as (v0 & Hv0 & _ & _ & -> & _).
      assert (v0 ∈ coarse_verts H cl) as (c & -> & _)%elem_of_list_fmap by (by eapply elem_of_list_lookup_2). by rewrite absorb_all_part.
  - apply (sa_gsize _ _ Hsa).
  - rewrite (sa_gnets _ _ Hsa), (fr_gnets _ _ _ Hfr). done.
  - rewrite (sa_dups _ _ Hsa), (fr_dups _ _ _ Hfr). done.
Qed.
