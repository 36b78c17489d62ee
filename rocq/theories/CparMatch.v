(** Proofs about parallel coarsening: announcing samples, requests for matches, acceptance. *)
From Verif Require Export CoarsenPar RedProof.

(** ** list facts *)
Lemma submseteq_NoDup {A} (l k : list A) : l ⊆+ k → NoDup k → NoDup l.
Proof. intros [k' Hk]%submseteq_Permutation Hnd. rewrite Hk in Hnd. apply NoDup_app in Hnd. tauto. Qed.
Lemma submseteq_fmap {A B} (f : A → B) (l k : list A) : l ⊆+ k → f <$> l ⊆+ f <$> k.
Proof. intros [k' Hk]%submseteq_Permutation. rewrite Hk, fmap_app. apply submseteq_inserts_r. done. Qed.
Lemma submseteq_concat {A} (ls ks : list (list A)) : Forall2 submseteq ls ks → concat ls ⊆+ concat ks.
Proof. induction 1; simpl; [done|]. by apply submseteq_app. Qed.
Lemma elem_of_submseteq_1 {A} (l k : list A) x : l ⊆+ k → x ∈ l → x ∈ k.
Proof. intros Hs Hx. by eapply elem_of_submseteq. Qed.
Lemma concat_alter_snoc {A} (r : list (list A)) k x : (k < length r)%nat →
  concat (alter (λ l : list A, l ++ [x]) k r) ≡ₚ x :: concat r.
Proof.
  revert k; induction r as [|l r IH]; intros [|k] Hk; simpl in *; [lia|lia| |].
  - rewrite <-app_assoc. simpl. by rewrite <-Permutation_middle.
  - change (list_alter (λ l : list A, l ++ [x]) k r) with (alter (λ l : list A, l ++ [x]) k r). rewrite IH by lia. by rewrite <-Permutation_middle.
Qed.
Lemma zinsert_alter {A} (l : list A) (i : Z) (f : A → A) x : zlookup l i = Some x → zinsert i (f x) l = alter f (Z.to_nat i) l.
Proof.
  intros [Hi Hx]%zlookup_Some. unfold zinsert. apply list_eq. intros j. destruct (decide (j = Z.to_nat i)) as [->|].
  - rewrite list_lookup_insert by (by eapply lookup_lt_Some). rewrite list_lookup_alter, Hx. done.
  - rewrite list_lookup_insert_ne, list_lookup_alter_ne by done. done.
Qed.

(** ** announcing *)
Definition announced (p : nat) (s : nat) (H : hg) (sm : list Z) (out : list (Z * sample_msg)) : Prop :=
  ∀ m, m ∈ out → 0 ≤ fst m < Z.of_nat p ∧ ∃ k i v, sm !! k = Some i ∧ zlookup (h_verts H) i = Some v ∧
    snd m = (Z.of_nat s, (Z.of_nat k, v_nets v)).
Definition in_range (H : hg) (sm : list Z) : Prop := ∀ i, i ∈ sm → 0 ≤ i < Z.of_nat (length (h_verts H)).
Lemma in_range_lookup H sm k i : in_range H sm → sm !! k = Some i → ∃ v, zlookup (h_verts H) i = Some v.
Proof.
  intros Hr Hk. specialize (Hr i ltac:(by eapply elem_of_list_lookup_2)).
  destruct (lookup_lt_is_Some_2 (h_verts H) (Z.to_nat i)) as [v Hv]; [lia|]. exists v. apply zlookup_Some. split; [lia|done].
Qed.
Lemma wpe_vert_zl E H i v (Q : vertex → Prop) : zlookup (h_verts H) i = Some v → Q v → wpe E (vert_z H i) Q.
Proof. intros Hv HQ. unfold vert_z. by eapply wpe_of_option_Some. Qed.
Lemma wpe_announce E p s H sm (Q : list (Z * sample_msg) → Prop) : in_range H sm → (∀ out, announced p s H sm out → Q out) →
  wpe E (announce p s H sm) Q.
Proof.
  intros Hr HQ. unfold announce. apply wpe_bind.
  eapply (wpe_ranks E _ _ (λ k out, announced p s H sm out)).
  - intros k Hk. destruct (lookup_lt_is_Some_2 sm k Hk) as [i Hi]. destruct (in_range_lookup H sm k i Hr Hi) as [v Hv].
    apply wpe_bind. eapply wpe_nidx; [done|]. apply wpe_bind. eapply wpe_vert_zl; [done|]. apply wpe_ret.
    intros m (t & -> & Ht%elem_of_seq)%elem_of_list_fmap. cbn [fst snd]. split; [lia|]. exists k, i, v. done.
  - intros l Hl HR. apply wpe_ret, HQ. intros m (x & Hm & [k Hx]%elem_of_list_lookup)%CoarsenProof.elem_of_concat.
    by apply (HR k x).
Qed.

Lemma wpe_add_samples E H sm C (Q : contraction → Prop) : in_range H sm →
  (∀ ids, Forall2 (λ i id, ∃ v, zlookup (h_verts H) i = Some v ∧ v_id v = id) sm ids →
     Q (Contr (c_samples C ++ ids) (replicate (length sm) []) (c_free C) (c_local_free C) (c_global_free C))) →
  wpe E (add_samples H sm C) Q.
Proof.
  intros Hr HQ. unfold add_samples. apply wpe_bind.
  eapply (wpe_mapP E _ (λ _ i id, ∃ v, zlookup (h_verts H) i = Some v ∧ v_id v = id)).
  - intros k i Hi. destruct (in_range_lookup H sm k i Hr Hi) as [v Hv]. apply wpe_bind. eapply wpe_vert_zl; [done|]. apply wpe_ret. eauto.
  - intros ids Hl HR. apply wpe_ret, HQ. apply Forall2_same_length_lookup. split; [done|]. intros i x y. apply HR.
Qed.

(** ** the best sample of every vertex *)
(** the candidate [b] of vertex number [i]: none, or a sample that shares a net with it *)
Definition candidate (H : hg) (S : Z) (box : list sample_msg) (i : nat) (b : dbl * Z) : Prop :=
  snd b = -1 ∨ ∃ m v n, m ∈ box ∧ h_verts H !! i = Some v ∧ n ∈ v_nets v ∧ n ∈ snd (snd m) ∧ snd b = fst m * S + fst (snd m).

Lemma wpe_ip_add E H nets cur (Q : list dbl * gset Z → Prop) : consistent H → length cur = length (h_verts H) →
  (∀ cur' X, length cur' = length (h_verts H) →
     (∀ i, i ∈ X → ∃ v n, zlookup (h_verts H) i = Some v ∧ n ∈ v_nets v ∧ n ∈ nets) → Q (cur', X)) →
  wpe E (ip_add H nets cur) Q.
Proof.
  intros HC Hl HQ. unfold ip_add.
  set (I := λ s : list dbl * gset Z, length (fst s) = length (h_verts H) ∧
    ∀ i, i ∈ snd s → ∃ v n, zlookup (h_verts H) i = Some v ∧ n ∈ v_nets v ∧ n ∈ nets).
  apply (wpe_foldM_inv E _ I).
  - split; [done|]. cbn [snd]. set_solver.
  - intros nid s Hnid HI. destruct (is_local_net H nid) eqn:Hloc; [|by apply wpe_ret].
    apply bool_decide_eq_true in Hloc as [j Hj]. apply (co_nmap _ HC) in Hj as (n & Hn & <-).
    apply elem_of_list_lookup_2 in Hn. apply wpe_bind. eapply wpe_get_net; [by apply co_nmap_ok|done|].
    apply (wpe_foldM_inv E _ I); [done| |done].
    intros u s' Hu [Hl' HX]. destruct (co_inc2 _ HC n u Hn Hu) as (v & Hv & <- & Hnv). apply elem_of_list_lookup in Hv as [i Hi].
    apply wpe_bind. eapply wpe_local_id; [by apply co_vmap_ok|exact Hi|]. apply wpe_bind.
    destruct (lookup_lt_is_Some_2 (fst s') i) as [x Hx]; [rewrite Hl'; by eapply lookup_lt_Some|]. eapply wpe_nidx; [exact Hx|].
    apply wpe_ret. split; cbn [fst snd]; [by rewrite insert_length|].
    intros k [->%elem_of_singleton|Hk]%elem_of_union; [|by apply HX]. exists v, (n_id n). split; [|done].
    apply zlookup_Some. split; [lia|]. by rewrite Nat2Z.id.
  - intros [cur' X] [H1 H2]. by apply HQ.
Qed.

Lemma candidate_mono H S box box' i b : (∀ m, m ∈ box → m ∈ box') → candidate H S box i b → candidate H S box' i b.
Proof. intros Hb [?|(m & v & n & Hm & ?)]; [by left|right]. exists m, v, n. split; [by apply Hb|done]. Qed.

Lemma wpe_best_matches E H S sm box (Q : list (dbl * Z) → Prop) : consistent H → in_range H sm →
  (∀ best, length best = length (h_verts H) → (∀ i b, best !! i = Some b → candidate H S box i b) →
     (∀ i b, Z.of_nat i ∈ sm → best !! i = Some b → snd b = -1) → Q best) →
  wpe E (best_matches H S sm box) Q.
Proof.
  intros HC Hr HQ. unfold best_matches. apply wpe_bind.
  set (I := λ s : list (dbl * Z) * list dbl, length (fst s) = length (h_verts H) ∧ length (snd s) = length (h_verts H) ∧
    ∀ i b, fst s !! i = Some b → candidate H S box i b).
  apply (wpe_foldM_inv E _ I).
  - split_and!; [apply replicate_length..|]. intros i b [-> _]%lookup_replicate. by left.
  - intros m s Hm (H1 & H2 & H3). apply wpe_bind, wpe_ip_add; [done..|]. intros cur X Hcur HX. cbn [fst snd].
    apply wpe_bind, wpe_shuffle. intros order Ho. apply (wpe_foldM_inv E _ I); [done| |done].
    intros i s' Hi (H1' & H2' & H3'). rewrite Ho in Hi. apply elem_of_elements in Hi. destruct (HX i Hi) as (v & n & Hv & Hnv & Hnm).
    pose proof Hv as [Hi0 Hv']%zlookup_Some. pose proof (lookup_lt_Some _ _ _ Hv') as Hlt.
    unfold ip_judge. apply wpe_bind. eapply wpe_vert_zl; [done|].
    destruct (lookup_lt_is_Some_2 (snd s') (Z.to_nat i)) as [x Hx]; [lia|].
    destruct (lookup_lt_is_Some_2 (fst s') (Z.to_nat i)) as [b Hb]; [lia|].
    apply wpe_bind. eapply wpe_idx; [by apply zlookup_Some|]. apply wpe_bind. eapply wpe_idx; [by apply zlookup_Some|].
    apply wpe_ret. split_and!; cbn [fst snd].
    + destruct (d_lt _ _); unfold zinsert; rewrite ?insert_length; done.
    + unfold zinsert. by rewrite insert_length.
    + destruct (d_lt _ _); [|done]. unfold zinsert. intros j b' Hb'. apply list_lookup_insert_Some in Hb' as [(<- & <- & _)|[_ Hb']]; [|by apply H3'].
      right. exists m, v, n. done.
  - intros s (H1 & H2 & H3). cbn [fst].
    apply (wpe_foldM E _ (λ ds b, length b = length (h_verts H) ∧ (∀ i x, b !! i = Some x → candidate H S box i x) ∧
      ∀ i x, Z.of_nat i ∈ ds → b !! i = Some x → snd x = -1)).
    + split_and!; [done..|]. by intros i x ?%elem_of_nil.
    + intros ds i ts b Heq (G1 & G2 & G3). assert (i ∈ sm) as Hi by (rewrite Heq; set_solver). specialize (Hr i Hi).
      destruct (lookup_lt_is_Some_2 b (Z.to_nat i)) as [x Hx]; [lia|]. apply wpe_bind. eapply wpe_idx; [apply zlookup_Some; split; [lia|done]|].
      apply wpe_ret. unfold zinsert. split_and!.
      * by rewrite insert_length.
      * intros j y Hy. apply list_lookup_insert_Some in Hy as [(<- & <- & _)|[_ Hy]]; [by left|by apply G2].
      * intros j y Hj Hy. apply list_lookup_insert_Some in Hy as [(<- & <- & _)|[Hne Hy]]; [done|].
        apply elem_of_app in Hj as [Hj|Hj%elem_of_list_singleton]; [by apply (G3 j)|]. lia.
    + intros b (G1 & G2 & G3). by apply HQ.
Qed.

(** ** requests *)
(** the entries [(id, ip)] of list number [k]: a vertex that is no sample and shares a net with sample [k] *)
Definition suits (H : hg) (S : Z) (sm : list Z) (box : list sample_msg) (k id : Z) : Prop :=
  ∃ i v m n, h_verts H !! i = Some v ∧ v_id v = id ∧ Z.of_nat i ∉ sm ∧ m ∈ box ∧ n ∈ v_nets v ∧ n ∈ snd (snd m) ∧
    k = fst m * S + fst (snd m).
Lemma wpe_requested E H S sm box total best (Q : list (list (Z * dbl)) → Prop) : consistent H →
  length best = length (h_verts H) → (∀ i b, best !! i = Some b → candidate H S box i b) →
  (∀ i b, Z.of_nat i ∈ sm → best !! i = Some b → snd b = -1) →
  (∀ m, m ∈ box → 0 ≤ fst m * S + fst (snd m) < total) →
  (∀ reqs, length reqs = Z.to_nat total → fst <$> concat reqs ⊆+ v_id <$> h_verts H →
     (∀ k l x, reqs !! k = Some l → x ∈ l → suits H S sm box (Z.of_nat k) (fst x)) → Q reqs) →
  wpe E (requested_matches H total best) Q.
Proof.
  intros HC Hl Hcand Hs Hbox HQ. unfold requested_matches.
  apply (wpe_foldM E _ (λ ds r, length r = Z.to_nat total ∧ fst <$> concat r ⊆+ v_id <$> ds ∧
    ∀ k l x, r !! k = Some l → x ∈ l → suits H S sm box (Z.of_nat k) (fst x))).
  - split_and!; [apply replicate_length| |].
    + replace (concat (replicate (Z.to_nat total) [])) with (@nil (Z * dbl)); [done|].
      clear; by induction (Z.to_nat total).
    + intros k l x [-> _]%lookup_replicate. by intros ?%elem_of_nil.
  - intros ds v ts r Heq (G1 & G2 & G3).
    assert (h_verts H !! length ds = Some v) as Hv by (rewrite Heq, lookup_app_r, Nat.sub_diag by lia; done).
    apply wpe_bind. eapply wpe_local_id; [by apply co_vmap_ok|done|].
    destruct (lookup_lt_is_Some_2 best (length ds)) as [b Hb]; [rewrite Hl; by eapply lookup_lt_Some|].
    apply wpe_bind. eapply wpe_nidx; [done|]. rewrite fmap_app. case_decide as Hm; cycle 1.
    { apply wpe_ret. split_and!; [done| |done]. by apply submseteq_inserts_r. }
    destruct (Hcand _ _ Hb) as [|(m & v' & n & Hmb & Hv' & Hn1 & Hn2 & Hk)]; [done|].
    rewrite Hv in Hv'. injection Hv' as <-. specialize (Hbox m Hmb). rewrite <-Hk in Hbox.
    destruct (lookup_lt_is_Some_2 r (Z.to_nat (snd b))) as [l0 Hl0]; [lia|].
    assert (zlookup r (snd b) = Some l0) as Hz by (apply zlookup_Some; split; [lia|done]).
    unfold aadd. apply wpe_bind. eapply wpe_idx; [exact Hz|]. apply wpe_ret.
    pose proof (zinsert_alter r (snd b) (λ l, l ++ [(v_id v, fst b)]) l0 Hz) as Hza. cbv beta in Hza. rewrite Hza. split_and!.
    + by rewrite alter_length.
    + rewrite concat_alter_snoc by lia. csimpl. rewrite Permutation_app_comm. simpl. by apply submseteq_skip.
    + intros k l x Hkl Hx. destruct (decide (k = Z.to_nat (snd b))) as [->|Hne].
      * rewrite list_lookup_alter, Hl0 in Hkl. injection Hkl as <-. apply elem_of_app in Hx as [Hx| ->%elem_of_list_singleton]; [by eapply G3|].
        exists (length ds), v, m, n. split_and!; try done; [|rewrite Z2Nat.id by lia; done].
        intros Hin. by specialize (Hs _ _ Hin Hb).
      * rewrite list_lookup_alter_ne in Hkl by done. by eapply G3.
  - intros r (G1 & G2 & G3). by apply HQ.
Qed.

Lemma wpe_best_reqs E mcs l (Q : list (Z * (Z * dbl)) → Prop) :
  (∀ l', l' ⊆+ l → Z.of_nat (length l') ≤ Z.max 0 mcs → Q l') → wpe E (best_reqs mcs l) Q.
Proof.
  intros HQ. unfold best_reqs. case_decide as Hd; [|apply wpe_ret, HQ; [done|lia]].
  apply wpe_bind. unfold nth_element. apply wpe_bind, wpe_shuffle. intros l0 H0.
  set (s := merge_sort ip_le l0). assert (s ≡ₚ l) as Hs by (unfold s; by rewrite merge_sort_Permutation).
  apply wpe_bind, wpe_shuffle. intros a Ha. apply wpe_bind, wpe_shuffle. intros b Hb. apply wpe_ret, wpe_ret, HQ.
  - transitivity (a ++ take 1 (drop (Z.to_nat mcs) s) ++ b); [apply sublist_submseteq, sublist_take|].
    rewrite Ha, Hb, <-Hs. apply Permutation_submseteq.
    rewrite <-(take_drop (Z.to_nat mcs) s) at 4. f_equiv.
    rewrite <-(take_drop 1 (drop (Z.to_nat mcs) s)) at 2. rewrite drop_drop. by rewrite Nat.add_1_r.
  - rewrite take_length. lia.
Qed.

Lemma wpe_send_requests E s S mcs reqs p (Q : list (Z * request_msg) → Prop) : 0 ≤ S → length reqs = Z.to_nat (Z.of_nat p * S) →
  (∀ out, (λ m : Z * request_msg, fst (snd (snd (snd m)))) <$> out ⊆+ fst <$> concat reqs →
     (∀ m, m ∈ out → 0 ≤ fst m < Z.of_nat p ∧ 0 ≤ fst (snd m) < S ∧ fst (snd (snd m)) = Z.of_nat s ∧
        ∃ k l, reqs !! k = Some l ∧ snd (snd (snd m)) ∈ l ∧ Z.of_nat k = fst m * S + fst (snd m)) → Q out) →
  wpe E (send_requests s S mcs reqs) Q.
Proof.
  intros HS Hl HQ. unfold send_requests. apply wpe_bind.
  eapply (wpe_ranks E _ _ (λ k out, ∀ l, reqs !! k = Some l →
    (λ m : Z * request_msg, fst (snd (snd (snd m)))) <$> out ⊆+ fst <$> l ∧
    ∀ m, m ∈ out → 0 ≤ fst m < Z.of_nat p ∧ 0 ≤ fst (snd m) < S ∧ fst (snd (snd m)) = Z.of_nat s ∧
       snd (snd (snd m)) ∈ l ∧ Z.of_nat k = fst m * S + fst (snd m))).
  - intros k Hk. destruct (lookup_lt_is_Some_2 reqs k Hk) as [l Hkl]. rewrite Hl in Hk.
    assert (0 < S) as HS0 by (destruct (decide (S = 0)) as [->|]; [rewrite Z.mul_0_r in Hk; lia|lia]).
    apply wpe_bind. eapply wpe_nidx; [done|]. apply wpe_bind, wpe_guard; [by apply bool_decide_eq_true; lia|].
    apply wpe_bind, wpe_best_reqs. intros l' Hl' _. apply wpe_ret. intros l1 Hl1. rewrite Hkl in Hl1. injection Hl1 as <-. split.
    + rewrite <-list_fmap_compose. rewrite (list_fmap_ext _ (λ x : Z * (Z * dbl), fst (snd x))) by done.
      transitivity ((λ x : Z * (Z * dbl), fst (snd x)) <$> ((λ x, (Z.of_nat s, x)) <$> l)); [by apply submseteq_fmap|].
      rewrite <-list_fmap_compose. done.
    + intros m (x & -> & Hx)%elem_of_list_fmap. eapply elem_of_submseteq_1 in Hx; [|exact Hl']. apply elem_of_list_fmap in Hx as (y & -> & Hy).
      cbn [fst snd]. pose proof (Z.div_mod (Z.of_nat k) S ltac:(lia)). pose proof (Z.mod_pos_bound (Z.of_nat k) S HS0).
      split_and!; try done; try lia; [apply Z.div_pos; lia|]. apply Z.div_lt_upper_bound; lia.
  - intros ls Hlen HR. apply wpe_ret, HQ.
    + rewrite !fmap_concat. apply submseteq_concat. apply Forall2_fmap. apply Forall2_same_length_lookup. split; [done|].
      intros k x y Hx Hy. by apply (HR k x).
    + intros m (x & Hm & [k Hx]%elem_of_list_lookup)%CoarsenProof.elem_of_concat.
      destruct (lookup_lt_is_Some_2 reqs k) as [l Hkl]; [rewrite <-Hlen; by eapply lookup_lt_Some|].
      destruct (HR k x Hx l Hkl) as [_ Hm']. destruct (Hm' m Hm) as (?&?&?&?&?). split_and!; try done; lia || eauto.
Qed.
