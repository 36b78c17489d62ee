(** Proofs about parallel coarsening: the coarse hypergraph of one processor. *)
From Verif Require Export CparInfo.

Lemma elem_of_alter {A} (f : A → A) (i : nat) (l : list A) (y : A) : y ∈ alter f i l ↔
  (∃ x, l !! i = Some x ∧ y = f x) ∨ ∃ j, j ≠ i ∧ l !! j = Some y.
Proof.
  rewrite elem_of_list_lookup. split.
  - intros [j Hj]. destruct (decide (j = i)) as [->|Hne].
    + rewrite list_lookup_alter in Hj. destruct (l !! i) as [x|]; [|done]. injection Hj as <-. left. eauto.
    + rewrite list_lookup_alter_ne in Hj by done. right. eauto.
  - intros [(x & Hx & ->)|(j & Hne & Hj)].
    + exists i. by rewrite list_lookup_alter, Hx.
    + exists j. by rewrite list_lookup_alter_ne.
Qed.
Lemma fmap_alter_same {A B} (g : A → B) (f : A → A) i (l : list A) : (∀ x, g (f x) = g x) → g <$> alter f i l = g <$> l.
Proof.
  intros Hf. apply list_eq. intros j. rewrite !list_lookup_fmap. destruct (decide (j = i)) as [->|Hne].
  - rewrite list_lookup_alter. destruct (l !! i); [simpl; by rewrite Hf|done].
  - by rewrite list_lookup_alter_ne.
Qed.

(** adding an incidence to both sides *)
Lemma linked_edge vs ns k v i n : linked vs ns → vs !! k = Some v → ns !! i = Some n → n_id n ∉ v_nets v →
  linked (alter (v_add_net (n_id n)) k vs) (alter (n_add_vertex (v_id v)) i ns).
Proof.
  intros [H1 H2 H3 H4 H5 H6] Hk Hi Hn.
  assert (v ∈ vs) as Hv by (by eapply elem_of_list_lookup_2). assert (n ∈ ns) as Hnn by (by eapply elem_of_list_lookup_2).
  assert (∀ j x, vs !! j = Some x → v_id x = v_id v → j = k) as Hvu.
  { intros j x Hj He. eapply NoDup_lookup; [exact H1|by rewrite list_lookup_fmap, Hj|]. rewrite list_lookup_fmap, Hk. simpl. congruence. }
  assert (∀ j x, ns !! j = Some x → n_id x = n_id n → j = i) as Hnu.
  { intros j x Hj He. eapply NoDup_lookup; [exact H2|by rewrite list_lookup_fmap, Hj|]. rewrite list_lookup_fmap, Hi. simpl. congruence. }
  assert (v_id v ∉ n_verts n) as Hvn.
  { intros Hin. destruct (H6 n _ Hnn Hin) as (x & [j Hj]%elem_of_list_lookup & He & Hx). pose proof (Hvu _ _ Hj He) as ->. rewrite Hk in Hj. injection Hj as <-. done. }
  split.
  - by rewrite fmap_alter_same.
  - by rewrite fmap_alter_same.
  - intros x [(y & Hy & ->)|(j & _ & Hj)]%elem_of_alter; [|apply H3; by eapply elem_of_list_lookup_2].
    rewrite Hk in Hy. injection Hy as <-. simpl. apply NoDup_app. split_and!; [by apply H3| |apply NoDup_singleton]. intros x Hx ->%elem_of_list_singleton. done.
  - intros x [(y & Hy & ->)|(j & _ & Hj)]%elem_of_alter; [|apply H4; by eapply elem_of_list_lookup_2].
    rewrite Hi in Hy. injection Hy as <-. simpl. apply NoDup_app. split_and!; [by apply H4| |apply NoDup_singleton]. intros x Hx ->%elem_of_list_singleton. done.
  - assert (∀ y u, y ∈ ns → u ∈ n_verts y → ∃ m, m ∈ alter (n_add_vertex (v_id v)) i ns ∧ n_id m = n_id y ∧ u ∈ n_verts m) as Hkeep.
    { intros y u [j Hj]%elem_of_list_lookup Hu. destruct (decide (j = i)) as [->|Hne].
      - rewrite Hi in Hj. injection Hj as <-. exists (n_add_vertex (v_id v) n). split; [apply elem_of_alter; left; eauto|]. split; [done|]. simpl. set_solver.
      - exists y. split; [apply elem_of_alter; right; eauto|]. done. }
    intros x nid [(y & Hy & ->)|(j & _ & Hj)]%elem_of_alter Hnid.
    + rewrite Hk in Hy. injection Hy as <-. simpl in *. apply elem_of_app in Hnid as [Hnid| ->%elem_of_list_singleton].
      * destruct (H5 v nid Hv Hnid) as (y & Hy & <- & Hu). by apply Hkeep.
      * exists (n_add_vertex (v_id v) n). split; [apply elem_of_alter; left; eauto|]. split; [done|]. simpl. set_solver.
    + destruct (H5 x nid ltac:(by eapply elem_of_list_lookup_2) Hnid) as (y & Hy & <- & Hu). by apply Hkeep.
  - assert (∀ u nid, u ∈ vs → nid ∈ v_nets u → ∃ x, x ∈ alter (v_add_net (n_id n)) k vs ∧ v_id x = v_id u ∧ nid ∈ v_nets x) as Hkeep.
    { intros y u [j Hj]%elem_of_list_lookup Hu. destruct (decide (j = k)) as [->|Hne].
      - rewrite Hk in Hj. injection Hj as <-. exists (v_add_net (n_id n) v). split; [apply elem_of_alter; left; eauto|]. split; [done|]. simpl. set_solver.
      - exists y. split; [apply elem_of_alter; right; eauto|]. done. }
    intros x vid [(y & Hy & ->)|(j & _ & Hj)]%elem_of_alter Hvid.
    + rewrite Hi in Hy. injection Hy as <-. simpl in *. apply elem_of_app in Hvid as [Hvid| ->%elem_of_list_singleton].
      * destruct (H6 n vid Hnn Hvid) as (y & Hy & <- & Hu). by apply Hkeep.
      * exists (v_add_net (n_id n) v). split; [apply elem_of_alter; left; eauto|]. split; [done|]. simpl. set_solver.
    + destruct (H6 x vid ltac:(by eapply elem_of_list_lookup_2) Hvid) as (y & Hy & <- & Hu). by apply Hkeep.
Qed.
Lemma linked_new_vertex vs ns v : linked vs ns → v_id v ∉ v_id <$> vs → v_nets v = [] → linked (vs ++ [v]) ns.
Proof.
  intros HL Hid Hn. eapply linked_perm; [apply Permutation_cons_append|]. destruct HL as [H1 H2 H3 H4 H5 H6]. split; try done.
  - rewrite fmap_cons. by apply NoDup_cons.
  - intros x [->|Hx]%elem_of_cons; [rewrite Hn; apply NoDup_nil_2|by apply H3].
  - intros x nid [->|Hx]%elem_of_cons Hnid; [rewrite Hn in Hnid; set_solver|by apply H5].
  - intros n vid Hx Hv. destruct (H6 n vid Hx Hv) as (x & ? & ?). exists x. set_solver.
Qed.
Lemma linked_mk_hg gs gn vs ns nz : linked vs ns → consistent (mk_hg gs gn vs ns nz).
Proof. intros [H1 H2 H3 H4 H5 H6]. by apply mk_hg_consistent. Qed.
Lemma consistent_relink H H' : consistent H → linked (h_verts H') (h_nets H') → v_id <$> h_verts H' = v_id <$> h_verts H →
  n_id <$> h_nets H' = n_id <$> h_nets H → h_vmap H' = h_vmap H → h_nmap H' = h_nmap H → consistent H'.
Proof.
  intros HC [H1 H2 H3 H4 H5 H6] Hv Hn Hvm Hnm. apply consistent_intro; try done.
  - unfold vmap_ok, vids. rewrite Hv, Hvm. by apply co_vmap_ok.
  - unfold nmap_ok, nids. rewrite Hn, Hnm. by apply co_nmap_ok.
Qed.

(** ** the unmatched vertices *)
(** the nets of state [s] are exact and come from the hypergraphs [src] *)
Record cp_ok (src : list net) (vs : list vertex) (s : cp_state) : Prop := {
  cp_linked : linked vs (cp_nets s);
  cp_ids : ids_ok (n_id <$> cp_nets s) (cp_map s);
  cp_src : ∀ n, n ∈ cp_nets s → ∃ e, e ∈ src ∧ n_id e = n_id n ∧ n_cost e = n_cost n;
}.
Lemma cp_push_ok src vs n c s : cp_ok src vs s → (∃ e, e ∈ src ∧ n_id e = n ∧ n_cost e = c) →
  cp_ok src vs (cp_push n c s) ∧ cp_verts (cp_push n c s) = cp_verts s ∧ n ∈ n_id <$> cp_nets (cp_push n c s) ∧
  ∀ x, x ∈ n_id <$> cp_nets s → x ∈ n_id <$> cp_nets (cp_push n c s).
Proof.
  intros [H1 H2 H3] He. unfold cp_push. destruct (cp_map s !! n) as [i|] eqn:Hn.
  - apply H2 in Hn. split_and!; try done. by eapply elem_of_list_lookup_2.
  - assert (n ∉ n_id <$> cp_nets s) as Hni.
    { intros [i Hi]%elem_of_list_lookup. apply H2 in Hi. congruence. }
    split_and!; cbn [cp_verts cp_nets cp_map]; try done.
    + split; cbn [cp_nets cp_map].
      * by apply linked_new_net.
      * rewrite fmap_app. simpl. rewrite <-(fmap_length n_id (cp_nets s)). by apply ids_ok_snoc.
      * intros x [Hx| ->%elem_of_list_singleton]%elem_of_app; [by apply H3|]. simpl. done.
    + rewrite fmap_app. set_solver.
    + intros x Hx. rewrite fmap_app. set_solver.
Qed.

Lemma wpe_cp_vertex E H v s (Q : cp_state → Prop) : consistent H → v ∈ h_verts H → cp_ok (h_nets H) (cp_verts s) s → v_id v ∉ v_id <$> cp_verts s →
  (∀ s', cp_ok (h_nets H) (cp_verts s') s' → cp_verts s' = cp_verts s ++ [CoarsenProof.fresh v] → Q s') → wpe E (cp_vertex H v s) Q.
Proof.
  intros HC Hv Hok Hid HQ. unfold cp_vertex.
  eapply (wpe_foldM E _ (λ ds s', cp_ok (h_nets H) (cp_verts s ++ [Vertex (v_id v) ds (v_weight v) (-1)]) s' ∧ cp_verts s' = cp_verts s ++ [CoarsenProof.fresh v])).
  - split; [|done]. destruct Hok as [H1 H2 H3]. split; [|done|done]. cbn [cp_nets]. by apply linked_new_vertex.
  - intros ds n ts s' Heq [Hok' Hv']. assert (n ∈ v_nets v) as Hn by (rewrite Heq; set_solver).
    destruct (co_inc1 _ HC _ _ Hv Hn) as (e & He & <- & _).
    assert (n_id e ∉ ds) as Hnd.
    { pose proof (co_vnets _ HC v Hv) as Hnd. rewrite Heq in Hnd. apply NoDup_app in Hnd as (_ & Hd & _). intros Hin. apply (Hd _ Hin). set_solver. }
    apply wpe_bind. eapply (wpe_mono E _ (λ s1, s1 = cp_push (n_id e) (n_cost e) s')).
    { destruct (cp_map s' !! n_id e) as [i|] eqn:Hm.
      - apply wpe_ret. unfold cp_push. by rewrite Hm.
      - apply wpe_bind. eapply wpe_get_net; [by apply co_nmap_ok|done|]. by apply wpe_ret. }
    intros s1 ->. destruct (cp_push_ok _ _ (n_id e) (n_cost e) s' Hok') as ([P1 P2 P3] & Pv & Pin & _); [eauto|].
    set (s1 := cp_push (n_id e) (n_cost e) s') in *. apply elem_of_list_lookup in Pin as [i Hi].
    apply wpe_bind. eapply wpe_of_option_Some; [apply P2; exact Hi|]. rewrite list_lookup_fmap in Hi.
    destruct (cp_nets s1 !! i) as [m|] eqn:Hm; [|done]. simpl in Hi. injection Hi as Hi.
    apply wpe_bind. eapply wpe_nidx; [exact Hm|]. apply wpe_ret. cbn [cp_verts cp_nets cp_map]. split; [|by rewrite Pv].
    split; cbn [cp_nets cp_map].
    + pose proof (linked_edge _ _ (length (cp_verts s)) _ i m P1 (list_lookup_middle _ [] _ _ eq_refl) Hm) as Hle.
      rewrite alter_app_r_alt, Nat.sub_diag in Hle by lia. simpl in Hle. rewrite Hi in Hle. by apply Hle.
    + by rewrite fmap_alter_same.
    + intros x [(y & Hy & ->)|(j & _ & Hj)]%elem_of_alter; [|apply P3; by eapply elem_of_list_lookup_2].
      apply (P3 y). by eapply elem_of_list_lookup_2.
  - intros s' [Hok' Hv']. apply HQ; [|done]. rewrite Hv'. exact Hok'.
Qed.

Lemma wpe_cp_unmatched E H (M : list Z) matched (Q : cp_state → Prop) : consistent H → length matched = length (h_verts H) →
  (∀ i v b, h_verts H !! i = Some v → matched !! i = Some b → b = true ↔ v_id v ∈ M) →
  (∀ s, cp_ok (h_nets H) (cp_verts s) s → cp_verts s = CoarsenProof.fresh <$> filter (λ v, v_id v ∉ M) (h_verts H) → Q s) →
  wpe E (cp_unmatched H matched) Q.
Proof.
  intros HC Hl Hm HQ. unfold cp_unmatched.
  apply (wpe_foldM_seq E _ (λ k s, cp_ok (h_nets H) (cp_verts s) s ∧ cp_verts s = CoarsenProof.fresh <$> filter (λ v, v_id v ∉ M) (take k (h_verts H)))).
  - split; [|done]. split; cbn [cp_verts cp_nets cp_map].
    + split; [apply NoDup_nil_2|apply NoDup_nil_2|..]; intros ?; set_solver.
    + intros id i. simpl. rewrite lookup_empty, lookup_nil. done.
    + intros n. set_solver.
  - intros k s Hk [Hok Hv]. destruct (lookup_lt_is_Some_2 (h_verts H) k Hk) as [v Hkv]. destruct (lookup_lt_is_Some_2 matched k) as [b Hb]; [lia|].
    apply wpe_bind. eapply wpe_nidx; [exact Hb|]. specialize (Hm k v b Hkv Hb). rewrite (take_S_r _ _ _ Hkv), filter_app.
    destruct b.
    + apply wpe_ret. split; [done|]. rewrite filter_cons_False by tauto. by rewrite app_nil_r.
    + apply wpe_bind. eapply wpe_vert_at; [exact Hkv|]. apply wpe_cp_vertex; [done|by eapply elem_of_list_lookup_2|done| |].
      * rewrite Hv, <-list_fmap_compose. intros (x & He & [_ Hx]%elem_of_list_filter)%elem_of_list_fmap. simpl in He.
        apply elem_of_take in Hx as (j & Hj & Hlt). assert (k = j); [|lia].
        eapply NoDup_lookup; [exact (co_vid _ HC)|by rewrite list_lookup_fmap, Hkv|]. rewrite list_lookup_fmap, Hj. simpl. congruence.
      * intros s' Hok' Hv'. split; [done|]. rewrite Hv', Hv, fmap_app. f_equal. rewrite filter_cons_True; [done|]. intros Hx. by apply Hm in Hx.
  - intros s [Hok Hv]. apply HQ; [done|]. rewrite Hv. by rewrite take_ge by done.
Qed.

(** ** what the samples are told *)
Lemma wpe_cp_infos E src number (box : list info_msg) s (Q : list Z * list (gset Z) * cp_state → Prop) :
  (∀ m, m ∈ box → 0 ≤ fst m < Z.of_nat number ∧ ∀ n c, (n, c) ∈ snd (snd m) → ∃ e, e ∈ src ∧ n_id e = n ∧ n_cost e = c) →
  cp_ok src (cp_verts s) s →
  (∀ ws ls s', length ws = number → length ls = number →
     (∀ i w, ws !! i = Some w → w = zsum ((λ m : info_msg, if decide (fst m = Z.of_nat i) then fst (snd m) else 0) <$> box)) →
     (∀ i X n, ls !! i = Some X → n ∈ X ↔ ∃ m, m ∈ box ∧ fst m = Z.of_nat i ∧ n ∈ fst <$> snd (snd m)) →
     cp_ok src (cp_verts s') s' → cp_verts s' = cp_verts s →
     (∀ n, n ∈ n_id <$> cp_nets s → n ∈ n_id <$> cp_nets s') →
     (∀ m n, m ∈ box → n ∈ fst <$> snd (snd m) → n ∈ n_id <$> cp_nets s') → Q (ws, ls, s')) →
  wpe E (cp_infos number box s) Q.
Proof.
  intros Hbox Hok HQ. unfold cp_infos.
  apply (wpe_foldM E _ (λ ds (x : list Z * list (gset Z) * cp_state), length (fst (fst x)) = number ∧ length (snd (fst x)) = number ∧
     (∀ i w, fst (fst x) !! i = Some w → w = zsum ((λ m : info_msg, if decide (fst m = Z.of_nat i) then fst (snd m) else 0) <$> ds)) ∧
     (∀ i X n, snd (fst x) !! i = Some X → n ∈ X ↔ ∃ m, m ∈ ds ∧ fst m = Z.of_nat i ∧ n ∈ fst <$> snd (snd m)) ∧
     cp_ok src (cp_verts (snd x)) (snd x) ∧ cp_verts (snd x) = cp_verts s ∧
     (∀ n, n ∈ n_id <$> cp_nets s → n ∈ n_id <$> cp_nets (snd x)) ∧
     (∀ m n, m ∈ ds → n ∈ fst <$> snd (snd m) → n ∈ n_id <$> cp_nets (snd x)))).
  - cbn [fst snd]. split_and!; try done; try apply replicate_length.
    + intros i w [-> _]%lookup_replicate. done.
    + intros i X n [-> _]%lookup_replicate. split; [set_solver|]. by intros (m & []%elem_of_nil & _).
    + by intros m n []%elem_of_nil.
  - intros ds m ts [[ws ls] s1] Heq (I1 & I2 & I3 & I4 & I5 & I6 & I7 & I8). cbn [fst snd] in *.
    destruct (Hbox m ltac:(rewrite Heq; set_solver)) as [Hr Hnc].
    destruct (lookup_lt_is_Some_2 ws (Z.to_nat (fst m))) as [w Hw]; [lia|]. destruct (lookup_lt_is_Some_2 ls (Z.to_nat (fst m))) as [X HX]; [lia|].
    unfold aadd. apply wpe_bind, wpe_bind. eapply wpe_idx; [apply zlookup_Some; split; [lia|exact Hw]|]. apply wpe_ret.
    apply wpe_bind, wpe_bind. eapply wpe_idx; [apply zlookup_Some; split; [lia|exact HX]|]. apply wpe_ret. apply wpe_ret. cbn [fst snd].
    assert (∀ l s0, (∀ n c, (n, c) ∈ l → ∃ e, e ∈ src ∧ n_id e = n ∧ n_cost e = c) → cp_ok src (cp_verts s0) s0 →
      let s' := foldl (λ s (nc : Z * Z), cp_push (fst nc) (snd nc) s) s0 l in
      cp_ok src (cp_verts s') s' ∧ cp_verts s' = cp_verts s0 ∧ (∀ n, n ∈ n_id <$> cp_nets s0 → n ∈ n_id <$> cp_nets s') ∧
      ∀ n, n ∈ fst <$> l → n ∈ n_id <$> cp_nets s') as Hpush.
    { induction l as [|[n c] l IH]; intros s0 Hl H0; cbn [foldl fst snd]; cbv zeta.
      - split_and!; try done. by intros n []%elem_of_nil.
      - destruct (cp_push_ok src _ n c s0 H0) as (P1 & P2 & P3 & P4); [apply Hl; set_solver|].
        destruct (IH (cp_push n c s0)) as (Q1 & Q2 & Q3 & Q4); [intros; apply Hl; set_solver|by rewrite P2|]. cbv zeta in *.
        split_and!; [done|congruence|intros x Hx; by apply Q3, P4|]. csimpl. intros x [->|Hx]%elem_of_cons; [by apply Q3|by apply Q4]. }
    destruct (Hpush (snd (snd m)) s1 Hnc I5) as (P1 & P2 & P3 & P4). cbv zeta in *.
    set (s2 := foldl _ s1 _) in *. unfold zinsert. split_and!.
    + by rewrite insert_length.
    + by rewrite insert_length.
    + intros i w' Hi. rewrite fmap_app, zsum_app. csimpl. unfold zsum at 2. simpl.
      apply list_lookup_insert_Some in Hi as [(<- & <- & _)|[Hne Hi]].
      * rewrite decide_True by lia. rewrite (I3 _ _ Hw). lia.
      * rewrite decide_False by lia. rewrite (I3 _ _ Hi). lia.
    + intros i Y n Hi. apply list_lookup_insert_Some in Hi as [(<- & <- & _)|[Hne Hi]].
      * rewrite elem_of_union, elem_of_list_to_set, (I4 _ _ n HX). split.
        -- intros [Hn|(x & Hx & He & Hn)]; [exists m|exists x]; split_and!; try done; [set_solver|lia|set_solver].
        -- intros (x & [Hx| ->%elem_of_list_singleton]%elem_of_app & He & Hn); [right; eauto|by left].
      * rewrite (I4 _ _ n Hi). split.
        -- intros (x & Hx & He & Hn). exists x. split_and!; try done. set_solver.
        -- intros (x & [Hx| ->%elem_of_list_singleton]%elem_of_app & He & Hn); [eauto|lia].
    + done.
    + congruence.
    + intros n Hn. by apply P3, I7.
    + intros x n [Hx| ->%elem_of_list_singleton]%elem_of_app Hn; [apply P3; by eapply I8|by apply P4].
  - intros [[ws ls] s1] (I1 & I2 & I3 & I4 & I5 & I6 & I7 & I8). by apply HQ.
Qed.
