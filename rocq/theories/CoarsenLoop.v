(** Proofs about the matching loop of coarsen_hypergraph_seq. *)
From Verif Require Export CoarsenProof.

Definition vat (H : hg) (i : nat) : vertex := default (Vertex (-1) [] 0 (-1)) (h_verts H !! i).
Definition mat (s : cs_state) (i : nat) : bool := default false (cs_matched s !! i).
Definition mlist (s : cs_state) (i : nat) : list Z := default [] (cs_matches s !! i).

Lemma vat_lookup H i v : h_verts H !! i = Some v → vat H i = v.
Proof. unfold vat. by intros ->. Qed.

Definition nbr_at (H : hg) (i u : nat) : Prop := ∃ x, x ∈ v_nets (vat H i) ∧ x ∈ v_nets (vat H u).

Lemma wpe_cs_visit E H matched i v ip (Q : list nat * list dbl → Prop) :
  consistent H → h_verts H !! i = Some v → length matched = length (h_verts H) → length ip = length (h_verts H) →
  (∀ vis ip', length ip' = length (h_verts H) →
     (∀ u, u ∈ vis → (u < length (h_verts H))%nat ∧ matched !! u = Some false ∧ u ≠ i ∧ nbr_at H u i) → Q (vis, ip')) →
  wpe E (cs_visit H matched i v ip) Q.
Proof.
  intros HC Hi Hlm Hli HQ. unfold cs_visit. pose proof (elem_of_list_lookup_2 _ _ _ Hi) as Hv.
  set (I := λ s : list nat * list dbl, length (snd s) = length (h_verts H) ∧
     ∀ u, u ∈ fst s → (u < length (h_verts H))%nat ∧ matched !! u = Some false ∧ u ≠ i ∧ nbr_at H u i).
  apply (wpe_foldM_inv _ _ I).
  - split; [done|]. set_solver.
  - intros nid s Hnid Is. destruct (co_inc1 _ HC v nid Hv Hnid) as (n & Hn & <- & _).
    apply wpe_bind. apply wpe_get_net; [by apply co_nmap_ok|done|].
    apply (wpe_foldM_inv _ _ I); [done| |done]. clear s Is. intros uid s Huid [Is1 Is2].
    destruct (co_inc2 _ HC n uid Hn Huid) as (u & Hu & <- & Hnu). apply elem_of_list_lookup in Hu as [j Hj].
    apply wpe_bind. eapply wpe_local_id; [by apply co_vmap_ok|done|].
    pose proof (lookup_lt_Some _ _ _ Hj) as Hjl.
    destruct (lookup_lt_is_Some_2 matched j) as [m Hm]; [lia|]. apply wpe_bind. eapply wpe_nidx; [done|].
    destruct m; [by apply wpe_ret|]. cbn [negb andb]. case_bool_decide as Hji; [|by apply wpe_ret].
    destruct (lookup_lt_is_Some_2 (snd s) j) as [x Hx]; [lia|]. apply wpe_bind. eapply wpe_nidx; [done|]. apply wpe_ret.
    split; cbn [fst snd]; [by rewrite insert_length|]. intros k Hk. destruct (d_eq x d_zero); [|by apply Is2].
    apply elem_of_app in Hk as [Hk| ->%elem_of_list_singleton]; [by apply Is2|]. split_and!; try done.
    exists (n_id n). rewrite (vat_lookup H j u), (vat_lookup H i v) by done. done.
  - intros s [H1 H2]. destruct s. by apply HQ.
Qed.

Lemma wpe_cs_best E H mcs matches v vis ip (Q : list dbl * dbl * option nat → Prop) :
  length matches = length (h_verts H) → length ip = length (h_verts H) → (∀ u, u ∈ vis → (u < length (h_verts H))%nat) →
  (∀ ip' d o, length ip' = length (h_verts H) →
     (∀ u, o = Some u → u ∈ vis ∧ Z.of_nat (length (default [] (matches !! u))) < mcs) → Q (ip', d, o)) →
  wpe E (cs_best H mcs matches v vis ip) Q.
Proof.
  intros Hlm Hli Hvis HQ. unfold cs_best.
  apply (wpe_foldM_inv _ _ (λ s, length (fst (fst s)) = length (h_verts H) ∧
     ∀ u, snd s = Some u → u ∈ vis ∧ Z.of_nat (length (default [] (matches !! u))) < mcs)).
  - done.
  - intros u [[ip1 d] o] Hu [I1 I2]. cbn [fst snd] in *. pose proof (Hvis u Hu) as Hul.
    destruct (lookup_lt_is_Some_2 ip1 u) as [x Hx]; [lia|]. apply wpe_bind. eapply wpe_nidx; [done|].
    destruct (lookup_lt_is_Some_2 (h_verts H) u) as [vu Hvu]; [lia|]. apply wpe_bind. eapply wpe_vert_at; [done|].
    destruct (lookup_lt_is_Some_2 matches u) as [mu Hmu]; [lia|]. apply wpe_bind. eapply wpe_nidx; [done|]. apply wpe_ret.
    destruct (_ && _) eqn:Hb; cbn [fst snd]; rewrite insert_length; [|done]. split; [done|]. intros u' [= <-].
    apply andb_prop in Hb as [_ Hb]. apply bool_decide_eq_true in Hb. rewrite Hmu. done.
  - intros [[ip1 d] o] [I1 I2]. by apply HQ.
Qed.

Lemma concat_alter_app (M : list (list Z)) u ms x : M !! u = Some ms → concat (alter (λ ms, ms ++ [x]) u M) ≡ₚ concat M ++ [x].
Proof.
  revert u. induction M as [|m M IH]; intros [|u] Hu; simpl in *; try done.
  - injection Hu as ->. change (alter _ 0%nat (ms :: M)) with ((ms ++ [x]) :: M). simpl. rewrite <-!app_assoc. f_equiv. apply Permutation_app_comm.
  - change (alter ?f (S u) (m :: M)) with (m :: alter f u M). simpl. rewrite (IH u Hu). by rewrite app_assoc.
Qed.

Lemma mlist_alter s u x i new ip b : mlist (CS (alter (λ ms, ms ++ [x]) u (cs_matches s)) b new ip) i =
  if decide (i = u ∧ (u < length (cs_matches s))%nat) then mlist s i ++ [x] else mlist s i.
Proof.
  unfold mlist. simpl. case_decide as Hd.
  - destruct Hd as [-> Hl]. rewrite list_lookup_alter. destruct (lookup_lt_is_Some_2 _ _ Hl) as [ms ->]. done.
  - destruct (decide (i = u)) as [->|Hne].
    + rewrite !lookup_ge_None_2; [done|lia|rewrite alter_length; lia].
    + by rewrite list_lookup_alter_ne.
Qed.

Record cs_inv (H : hg) (mcs : Z) (ds : list nat) (s : cs_state) : Prop := {
  ci_len1 : length (cs_matches s) = length (h_verts H);
  ci_len2 : length (cs_matched s) = length (h_verts H);
  ci_len3 : length (cs_ip s) = length (h_verts H);
  ci_new : cs_new s = (λ i, fresh (vat H i)) <$> filter (λ i, mat s i = false) ds;
  ci_in : ∀ i, mat s i = true → i ∈ ds;
  ci_cat : concat (cs_matches s) ≡ₚ (λ i, v_id (vat H i)) <$> filter (λ i, mat s i = true) ds;
  ci_un : ∀ i, mlist s i ≠ [] → mat s i = false;
  ci_size : ∀ i, Z.of_nat (length (mlist s i)) ≤ Z.max 0 mcs;
  ci_nbr : ∀ i x, x ∈ mlist s i → ∃ j, x = v_id (vat H j) ∧ (j < length (h_verts H))%nat ∧ nbr_at H i j;
}.

Lemma filter_nat_ext (P R : nat → Prop) `{∀ x, Decision (P x)} `{∀ x, Decision (R x)} (l : list nat) : (∀ x, x ∈ l → P x ↔ R x) → filter P l = filter R l.
Proof.
  intros Hx. induction l as [|x l IH]; [done|]. rewrite !filter_cons. rewrite IH by set_solver.
  destruct (decide (P x)), (decide (R x)); try done; exfalso; specialize (Hx x ltac:(set_solver)); tauto.
Qed.

Lemma wpe_cs_vertex E H mcs order ds i ts s :
  consistent H → order = ds ++ i :: ts → NoDup order → (∀ j, j ∈ order → (j < length (h_verts H))%nat) →
  cs_inv H mcs ds s → wpe E (cs_vertex H mcs s i) (cs_inv H mcs (ds ++ [i])).
Proof.
  intros HC Heq Hnd Hlt Is. destruct Is as [L1 L2 L3 Hnew Hin Hcat Hun Hsz Hnb].
  assert (i < length (h_verts H))%nat as Hi by (apply Hlt; rewrite Heq; set_solver).
  assert (i ∉ ds) as Hids. { rewrite Heq in Hnd. apply NoDup_app in Hnd as (_ & Hd & _). intros Hx. specialize (Hd i Hx). set_solver. }
  assert (mat s i = false) as Hmi. { destruct (mat s i) eqn:Hm; [|done]. destruct Hids. by apply Hin. }
  destruct (lookup_lt_is_Some_2 (h_verts H) i Hi) as [v Hv].
  destruct (lookup_lt_is_Some_2 (cs_matches s) i) as [mi Hmis]; [lia|].
  assert (∀ ip', length ip' = length (h_verts H) → cs_inv H mcs (ds ++ [i]) (CS (cs_matches s) (cs_matched s) (add_v_to_list (cs_new s) v) ip')) as Hun'.
  { intros ip' Hip. split; simpl; try done.
    - unfold add_v_to_list. rewrite Hnew, filter_app, fmap_app. f_equal. rewrite filter_cons, filter_nil, decide_True by done. csimpl.
      rewrite (vat_lookup H i v Hv). done.
    - intros j Hj. apply elem_of_app. left. by apply Hin.
    - rewrite filter_app, fmap_app, filter_cons, filter_nil. rewrite decide_False by (unfold mat in *; simpl; congruence). simpl. by rewrite app_nil_r. }
  unfold cs_vertex. apply wpe_bind. eapply wpe_vert_at; [done|]. apply wpe_bind. eapply wpe_nidx; [done|].
  case_decide as Hmn; [|apply wpe_ret; by apply Hun']. subst mi.
  apply wpe_bind. apply wpe_cs_visit; [done..|]. intros vis ip1 Hip1 Hvis. cbn [fst snd].
  apply wpe_bind. apply wpe_cs_best; [done|done|intros u Hu; by apply Hvis|]. intros ip2 d o Hip2 Ho. cbn [fst snd].
  assert (∀ l ip, length (foldl (λ ip u, <[u:=d_zero]> ip) ip l) = length ip) as Hfold.
  { induction l as [|x l IH]; intros ip; [done|]. simpl. by rewrite IH, insert_length. }
  destruct o as [u|]; apply wpe_ret; [|apply Hun'; by rewrite Hfold].
  destruct (Ho u eq_refl) as [Huv Hroom]. destruct (Hvis u Huv) as (Hul & Hum & Hui & Hnbr).
  match goal with |- cs_inv _ _ _ ?s' => remember s' as s1 eqn:Hs1 end.
  assert (∀ j, mat s1 j = if decide (j = i) then true else mat s j) as Hmat.
  { intros j. subst s1. unfold mat. simpl. case_decide as Hj; [subst j; rewrite list_lookup_insert by lia; done|by rewrite list_lookup_insert_ne]. }
  assert (∀ j, mlist s1 j = if decide (j = u) then mlist s j ++ [v_id v] else mlist s j) as Hml.
  { intros j. subst s1. rewrite mlist_alter. do 2 case_decide; try done; exfalso; intuition lia. }
  split.
  - subst s1. simpl. by rewrite alter_length.
  - subst s1. simpl. by rewrite insert_length.
  - subst s1. simpl. by rewrite Hfold.
  - transitivity (cs_new s); [by subst s1|]. rewrite Hnew, filter_app, filter_cons, filter_nil. rewrite decide_False by (by rewrite Hmat, decide_True). rewrite app_nil_r. f_equal.
    apply filter_nat_ext. intros j Hj. rewrite Hmat, decide_False; [done|]. intros ->. done.
  - intros j. rewrite Hmat. case_decide as Hj; [subst; set_solver|]. intros Hm. apply elem_of_app. left. by apply Hin.
  - destruct (lookup_lt_is_Some_2 (cs_matches s) u) as [mu Hmu]; [lia|].
    transitivity (concat (cs_matches s) ++ [v_id v]); [rewrite Hs1; by apply (concat_alter_app _ _ mu)|]. rewrite Hcat.
    rewrite filter_app, fmap_app, filter_cons, filter_nil. rewrite decide_True by (by rewrite Hmat, decide_True). csimpl. rewrite (vat_lookup H i v Hv).
    f_equiv. rewrite (filter_nat_ext (λ j, mat s1 j = true) (λ j, mat s j = true) ds); [done|]. intros j Hj. rewrite Hmat, decide_False; [done|]. intros ->. done.
  - intros j. rewrite Hml, Hmat. case_decide as Hj.
    + subst j. intros _. rewrite decide_False by done. unfold mat. by rewrite Hum.
    + intros Hne. case_decide as Hji; [|by apply Hun]. subst j. destruct Hne. unfold mlist. by rewrite Hmis.
  - intros j. rewrite Hml. case_decide as Hj; [|apply Hsz]. subst j. rewrite app_length. simpl.
    unfold mlist in *. lia.
  - intros j x. rewrite Hml. case_decide as Hj; [|apply Hnb]. subst j.
    intros [Hx| ->%elem_of_list_singleton]%elem_of_app; [by apply Hnb|]. exists i. rewrite (vat_lookup H i v Hv). done.
Qed.

(** the clusters found by the loop *)
Definition found (H : hg) (order : list nat) (s : cs_state) : list (Z * list Z) :=
  (λ i, (v_id (vat H i), mlist s i)) <$> filter (λ i, mat s i = false) order.

Lemma perm_filter_split (f : nat → bool) (l : list nat) : filter (λ i, f i = false) l ++ filter (λ i, f i = true) l ≡ₚ l.
Proof.
  induction l as [|x l IH]; [done|]. rewrite !filter_cons. destruct (f x) eqn:Hx.
  - rewrite decide_False, decide_True by done. by rewrite <-Permutation_middle, IH.
  - rewrite decide_True, decide_False by done. simpl. by rewrite IH.
Qed.
Lemma concat_perm (l k : list (list Z)) : l ≡ₚ k → concat l ≡ₚ concat k.
Proof. induction 1; simpl; [done|by f_equiv|rewrite !app_assoc; f_equiv; apply Permutation_app_comm|by etransitivity]. Qed.
Lemma concat_nils {A} (f : A → list Z) (l : list A) : (∀ x, x ∈ l → f x = []) → concat (f <$> l) = [].
Proof. induction l as [|x l IH]; intros Hx; [done|]. csimpl. rewrite Hx, IH by set_solver. done. Qed.
Lemma list_vat H : vat H <$> seq 0 (length (h_verts H)) = h_verts H.
Proof.
  apply list_eq. intros i. rewrite list_lookup_fmap. destruct (decide (i < length (h_verts H))%nat) as [Hi|Hi].
  - rewrite lookup_seq_lt by done. simpl. unfold vat. by destruct (lookup_lt_is_Some_2 _ _ Hi) as [v ->].
  - rewrite lookup_seq_ge, lookup_ge_None_2 by lia. done.
Qed.
Lemma list_mlist s : mlist s <$> seq 0 (length (cs_matches s)) = cs_matches s.
Proof.
  apply list_eq. intros i. rewrite list_lookup_fmap. destruct (decide (i < length (cs_matches s))%nat) as [Hi|Hi].
  - rewrite lookup_seq_lt by done. simpl. unfold mlist. by destruct (lookup_lt_is_Some_2 _ _ Hi) as [v ->].
  - rewrite lookup_seq_ge, lookup_ge_None_2 by lia. done.
Qed.

Lemma found_clustering H mcs order s : order ≡ₚ seq 0 (length (h_verts H)) → cs_inv H mcs order s → clustering H (found H order s).
Proof.
  intros Ho Is. destruct Is as [L1 L2 L3 Hnew Hin Hcat Hun Hsz Hnb]. unfold clustering, found. rewrite <-!list_fmap_compose. simpl.
  assert (concat ((snd ∘ (λ i, (v_id (vat H i), mlist s i))) <$> filter (λ i, mat s i = false) order) ≡ₚ concat (cs_matches s)) as ->.
  { rewrite <-(list_mlist s), L1, <-Ho. rewrite <-(perm_filter_split (mat s) order) at 2. rewrite fmap_app, concat_app.
    rewrite (concat_nils (mlist s) (filter (λ i, mat s i = true) order)); [by rewrite app_nil_r|].
    intros i [Hm _]%elem_of_list_filter. destruct (mlist s i) eqn:He; [done|]. rewrite Hun in Hm; [done|]. by rewrite He. }
  rewrite Hcat. transitivity ((λ i, v_id (vat H i)) <$> order).
  - rewrite <-(perm_filter_split (mat s) order) at 3. rewrite fmap_app. done.
  - rewrite <-(list_vat H), <-list_fmap_compose. by rewrite Ho.
Qed.

Lemma wpe_coarsen_seq E H opts (Q : hg * contraction → Prop) :
  consistent H →
  (∀ HC cl free t, clustering H cl →
     (∀ c, c ∈ cl → Z.of_nat (length (snd c)) ≤ Z.max 0 (o_max_clustersize opts) ∧ ∀ m, m ∈ snd c → neighbours H (fst c) m) →
     contracted H cl HC free → t = zsum (snd <$> free) → Q (HC, contraction_of cl free t t)) →
  wpe E (coarsen_seq H new_contraction opts) Q.
Proof.
  intros HC HQ. unfold coarsen_seq. apply wpe_bind, wpe_shuffle. intros order Ho. apply wpe_bind.
  set (n := length (h_verts H)) in *.
  assert (NoDup order) as Hnd by (rewrite Ho; apply NoDup_seq).
  assert (∀ j, j ∈ order → (j < n)%nat) as Hlt by (intros j Hj; rewrite Ho in Hj; apply elem_of_seq in Hj; lia).
  apply (wpe_foldM _ _ (cs_inv H (o_max_clustersize opts))).
  - split; simpl; try (by rewrite replicate_length); try done.
    + intros i. unfold mat. simpl. destruct (replicate n false !! i) eqn:Hr; [apply lookup_replicate in Hr as [-> _]|]; done.
    + clear. induction n as [|k IH]; simpl; done.
    + intros i. unfold mlist. simpl. destruct (replicate n [] !! i) eqn:Hr; [apply lookup_replicate in Hr as [-> _]|]; done.
    + intros i. unfold mlist. simpl. destruct (replicate n [] !! i) eqn:Hr; [apply lookup_replicate in Hr as [-> _]|]; simpl; lia.
    + intros i x. unfold mlist. simpl. destruct (replicate n [] !! i) eqn:Hr; [apply lookup_replicate in Hr as [-> _]|]; simpl; set_solver.
  - intros ds i ts s Heq Is. by eapply wpe_cs_vertex.
  - intros s Is. pose proof (found_clustering H _ order s Ho Is) as Hcl. destruct Is as [L1 L2 L3 Hnew Hin Hcat Hun Hsz Hnb].
    assert (cs_new s = new_verts H (found H order s)) as ->.
    { rewrite Hnew. unfold new_verts, found. rewrite <-list_fmap_compose. apply list_fmap_ext. intros k i Hk. simpl. f_equal.
      apply elem_of_list_lookup_2, elem_of_list_filter in Hk as [_ Hk]. specialize (Hlt i Hk).
      destruct (lookup_lt_is_Some_2 (h_verts H) i Hlt) as [v Hv]. rewrite (vat_lookup H i v Hv). symmetry. apply by_id_elem; [apply (co_vid _ HC)|by eapply elem_of_list_lookup_2]. }
    apply wpe_contract_seq; [done|done| |].
    + intros c i (j & -> & [_ Hj]%elem_of_list_filter)%elem_of_list_fmap. simpl. specialize (Hlt j Hj).
      destruct (lookup_lt_is_Some_2 (h_verts H) j Hlt) as [v Hv]. rewrite (vat_lookup H j v Hv). rewrite (vmap_ok_lookup H j v) by (done || by apply co_vmap_ok).
      intros [= <-]. unfold mlist. destruct (lookup_lt_is_Some_2 (cs_matches s) j) as [ms ->]; [lia|]. done.
    + intros HC' free t Hcd Ht. apply HQ; try done. intros c (j & -> & [_ Hj]%elem_of_list_filter)%elem_of_list_fmap. simpl. split; [apply Hsz|].
      intros m Hm. destruct (Hnb j m Hm) as (k & -> & Hk & x & Hx1 & Hx2). specialize (Hlt j Hj).
      destruct (lookup_lt_is_Some_2 (h_verts H) j Hlt) as [v Hv]. destruct (lookup_lt_is_Some_2 (h_verts H) k Hk) as [u Hu].
      rewrite (vat_lookup H j v), (vat_lookup H k u) in * by done. exists v, u, x. split_and!; try done; by eapply elem_of_list_lookup_2.
Qed.
