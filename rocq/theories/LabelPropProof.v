(** Proofs about label propagation: count tables and their updates. *)
From Verif Require Export KlfmProof LabelProp SpecMulti.

(** ** Counts of an assignment of labels; -1 stands for "no label" *)
Definition lcount (lab : Z → Z) (n : net) (k : Z) : Z := zcount (λ u, lab u = k) (n_verts n).

Lemma zcount_fupd (σ : Z → Z) id p q (vl : list Z) : NoDup vl →
  zcount (λ u, fupd σ id p u = q) vl = zcount (λ u, σ u = q) vl
    + (if decide (id ∈ vl) then (if decide (q = p) then 1 else 0) - (if decide (q = σ id) then 1 else 0) else 0).
Proof.
  intros Hnd. destruct (decide (p = σ id)) as [->|Hp].
  - rewrite (zcount_ext _ (λ u, σ u = q)); [repeat case_decide; lia|].
    intros u _. unfold fupd. destruct (decide (u = id)) as [->|]; done.
  - rewrite zcount_flip by done. repeat case_decide; lia || congruence.
Qed.
Lemma lcount_fupd lab n id p q : NoDup (n_verts n) →
  lcount (fupd lab id p) n q = lcount lab n q
    + (if decide (id ∈ n_verts n) then (if decide (q = p) then 1 else 0) - (if decide (q = lab id) then 1 else 0) else 0).
Proof. apply zcount_fupd. Qed.
Lemma lcount_ext lab lab' n q : (∀ u, u ∈ n_verts n → lab u = lab' u) → lcount lab n q = lcount lab' n q.
Proof. intros Hl. apply zcount_ext. intros u Hu. by rewrite Hl. Qed.
Lemma lcount_nonneg lab n q : 0 ≤ lcount lab n q.
Proof. unfold lcount. apply zcount_nonneg. Qed.

Lemma ind_snoc (x n k j d : Z) (ds : list Z) : n ∉ ds →
  (if decide (x ∈ ds ∧ k = j) then d else 0) + (if decide (x = n ∧ k = j) then d else 0)
  = if decide (x ∈ ds ++ [n] ∧ k = j) then d else 0.
Proof.
  intros Hn. destruct (decide (k = j)) as [->|Hk].
  - destruct (decide (x = n)) as [->|Hx].
    + rewrite decide_False by tauto. rewrite !decide_True by (split; set_solver). lia.
    + rewrite (decide_False (P := x = n ∧ _)) by tauto. rewrite Z.add_0_r. f_equal.
      destruct (decide (x ∈ ds)); [rewrite !decide_True by (split; set_solver)|rewrite !decide_False by set_solver]; done.
  - rewrite !decide_False by tauto. done.
Qed.

Section rows.
  Context {R : Type} (radd : R → Z → Z → M R) (rget : R → Z → M Z) (rowof : (Z → Z) → R) (l : Z).
  Context (rowof_ext : ∀ f g, (∀ k, 0 ≤ k < l → f k = g k) → rowof f = rowof g).
  Context (wpe_radd : ∀ E f j d (Q : R → Prop), 0 ≤ j < l →
    Q (rowof (λ k, f k + (if decide (k = j) then d else 0))) → wpe E (radd (rowof f) j d) Q).
  Context (wpe_rget : ∀ E f j (Q : Z → Prop), 0 ≤ j < l → Q (f j) → wpe E (rget (rowof f) j) Q).

  Definition ctab (H : hg) (f : net → Z → Z) : list R := (λ n, rowof (f n)) <$> h_nets H.
  Lemma ctab_ext H f g : (∀ n k, n ∈ h_nets H → 0 ≤ k < l → f n k = g n k) → ctab H f = ctab H g.
  Proof.
    intros Hfg. apply list_fmap_ext. intros i n Hn. apply rowof_ext. intros k Hk. apply Hfg; [|done]. by eapply elem_of_list_lookup_2.
  Qed.

  Lemma wpe_cadd_row E H f n j d (Q : list R → Prop) : consistent H → n ∈ h_nets H → 0 ≤ j < l →
    Q (ctab H (λ m k, f m k + (if decide (n_id m = n_id n ∧ k = j) then d else 0))) →
    wpe E (cadd_row radd H (ctab H f) (n_id n) j d) Q.
  Proof.
    intros HC [i Hi]%elem_of_list_lookup Hj HQ.
    apply wpe_bind. eapply wpe_local_id_net; [by apply co_nmap_ok|done|].
    apply wpe_bind. eapply wpe_nidx; [unfold ctab; by rewrite list_lookup_fmap, Hi|].
    apply wpe_bind, wpe_radd; [done|]. apply wpe_ret.
    match goal with |- Q ?x => assert (x = ctab H (λ m k, f m k + (if decide (n_id m = n_id n ∧ k = j) then d else 0))) as ->; [|done] end.
    apply list_eq. intros q. unfold ctab. destruct (decide (i = q)) as [<-|Hne].
    - rewrite list_lookup_insert by (rewrite fmap_length; by eapply lookup_lt_Some).
      rewrite list_lookup_fmap, Hi. simpl. f_equal. apply rowof_ext. intros k _. f_equal.
      destruct (decide (k = j)), (decide (n_id n = n_id n ∧ k = j)); tauto.
    - rewrite list_lookup_insert_ne by done. rewrite !list_lookup_fmap.
      destruct (h_nets H !! q) as [m|] eqn:Hq; [|done]. simpl. f_equal. apply rowof_ext. intros k _.
      rewrite decide_False; [lia|]. intros [Hid _]. apply Hne. symmetry.
      eapply NoDup_fmap_inj; [apply (co_nid _ HC)|done..].
  Qed.

  Lemma wpe_cadd_all E H f v j d (Q : list R → Prop) : consistent H → v ∈ h_verts H → 0 ≤ j < l →
    Q (ctab H (λ m k, f m k + (if decide (v_id v ∈ n_verts m ∧ k = j) then d else 0))) →
    wpe E (foldM (λ C n, cadd_row radd H C n j d) (v_nets v) (ctab H f)) Q.
  Proof.
    intros HC Hv Hj HQ.
    eapply (wpe_foldM E _ (λ ds C, C = ctab H (λ m k, f m k + (if decide (n_id m ∈ ds ∧ k = j) then d else 0)))).
    - apply ctab_ext. intros m k Hm Hk. rewrite decide_False by set_solver. lia.
    - intros ds nid ts C Heq ->. assert (nid ∈ v_nets v) as Hin by (rewrite Heq; set_solver).
      destruct (co_inc1 _ HC _ _ Hv Hin) as (n & Hn & <- & _).
      eapply wpe_cadd_row; [done|done|done|]. apply ctab_ext. intros m k Hm Hk.
      assert (n_id n ∉ ds) as Hds.
      { pose proof (co_vnets _ HC _ Hv) as Hnd. rewrite Heq in Hnd. apply NoDup_app in Hnd as (_ & Hnd & _).
        intros Hds. apply (Hnd _ Hds). set_solver. }
      rewrite <-Z.add_assoc, ind_snoc by done. done.
    - intros C ->. assert (ctab H (λ m k, f m k + (if decide (n_id m ∈ v_nets v ∧ k = j) then d else 0)) =
        ctab H (λ m k, f m k + (if decide (v_id v ∈ n_verts m ∧ k = j) then d else 0))) as ->; [|done].
      apply ctab_ext. intros m k Hm Hk. f_equal. apply decide_ext. by rewrite (incidence_iff H v m).
  Qed.

  (** the rows of the nets of [v] without [v], added up *)
  Definition vote (H : hg) (lab : Z → Z) (ns : list Z) (k : Z) : Z :=
    zsum ((λ nid, default 0 ((λ m, lcount lab m k) <$> net_of H nid)) <$> ns).

  Lemma wpe_votes E H lab v j (Q : list R * list Z → Prop) : consistent H → v ∈ h_verts H → 0 ≤ j < l → lab (v_id v) = j →
    Q (ctab H (lcount (fupd lab (v_id v) (-1))), vote H (fupd lab (v_id v) (-1)) (v_nets v) <$> seqZ 0 l) →
    wpe E (votes radd rget H l j (v_nets v) (ctab H (lcount lab))) Q.
  Proof.
    intros HC Hv Hj Hlab HQ. set (lab' := fupd lab (v_id v) (-1)) in *.
    assert (∀ m k, m ∈ h_nets H → 0 ≤ k < l → lcount lab' m k = lcount lab m k + (if decide (n_id m ∈ v_nets v ∧ k = j) then -1 else 0)) as Hlab'.
    { intros m k Hm Hk. unfold lab'. rewrite lcount_fupd by (by apply (co_nverts _ HC)).
      pose proof (incidence_iff H v m HC Hv Hm) as Hi. rewrite Hlab. repeat case_decide; try lia; tauto. }
    eapply (wpe_foldM E _ (λ ds s, s.1 = ctab H (λ m k, lcount lab m k + (if decide (n_id m ∈ ds ∧ k = j) then -1 else 0)) ∧
      s.2 = vote H lab' ds <$> seqZ 0 l)).
    - cbn [fst snd]. split.
      + apply ctab_ext. intros m k Hm Hk. rewrite decide_False by set_solver. lia.
      + apply list_eq. intros i. rewrite list_lookup_fmap. destruct (decide (Z.of_nat i < l)).
        * rewrite lookup_replicate_2 by lia. rewrite lookup_seqZ_lt by lia. done.
        * rewrite lookup_seqZ_ge by lia. simpl. apply lookup_ge_None. rewrite replicate_length. lia.
    - intros ds nid ts [C T] Heq [HCe HT]. simpl in *. subst C T.
      assert (nid ∈ v_nets v) as Hin by (rewrite Heq; set_solver).
      destruct (co_inc1 _ HC _ _ Hv Hin) as (n & Hn & <- & _).
      pose proof Hn as [i Hi]%elem_of_list_lookup.
      assert (n_id n ∉ ds) as Hds.
      { pose proof (co_vnets _ HC _ Hv) as Hnd. rewrite Heq in Hnd. apply NoDup_app in Hnd as (_ & Hnd & _).
        intros Hds. apply (Hnd _ Hds). set_solver. }
      apply wpe_bind. eapply wpe_cadd_row; [done|done|done|].
      set (C1 := ctab H _). assert (C1 = ctab H (λ m k, lcount lab m k + (if decide (n_id m ∈ ds ++ [n_id n] ∧ k = j) then -1 else 0))) as HC1.
      { apply ctab_ext. intros m k Hm Hk. rewrite <-Z.add_assoc, ind_snoc by done. done. }
      apply wpe_bind.
      eapply (wpe_foldM E _ (λ qs T, T = (λ k, vote H lab' ds k + (if decide (k ∈ qs) then lcount lab' n k else 0)) <$> seqZ 0 l)).
      + apply list_fmap_ext. intros _ k _. rewrite decide_False by set_solver. lia.
      + intros qs q ts' T Hq ->. assert (0 ≤ q < l) as Hql by (assert (q ∈ seqZ 0 l) as ?%elem_of_seqZ by (rewrite Hq; set_solver); lia).
        apply wpe_bind. eapply wpe_local_id_net; [by apply co_nmap_ok|done|].
        apply wpe_bind. rewrite HC1. eapply wpe_nidx; [unfold ctab; by rewrite list_lookup_fmap, Hi|].
        apply wpe_bind, wpe_rget; [done|]. apply wpe_bind. eapply wpe_idx; [by apply zlookup_fmap_seqZ|]. apply wpe_ret.
        assert (q ∉ qs) as Hqn.
        { pose proof (NoDup_seqZ 0 l) as Hnd. rewrite Hq in Hnd. apply NoDup_app in Hnd as (_ & Hnd & _). intros Hqs. apply (Hnd _ Hqs). set_solver. }
        apply zinsert_fmap_seqZ; [done|..].
        * rewrite (decide_True (P := q ∈ qs ++ [q])) by set_solver. rewrite (decide_False (P := q ∈ qs)) by done.
          rewrite Hlab' by done. rewrite Z.add_0_r. f_equal. f_equal. apply decide_ext. set_solver.
        * intros k Hk Hne. f_equal. destruct (decide (k ∈ qs)); [rewrite decide_True by set_solver|rewrite decide_False by set_solver]; done.
      + intros T ->. apply wpe_ret. simpl. split; [done|]. apply list_fmap_ext. intros q k Hq%elem_of_list_lookup_2.
        rewrite decide_True by done. unfold vote. rewrite fmap_app, zsum_app. f_equal. csimpl.
        rewrite (net_of_id H i n) by (done || by apply co_nmap_ok). simpl. rewrite zsum_cons. unfold zsum. simpl. lia.
    - intros [C T] [HCe HT]. simpl in *. subst C T.
      assert (ctab H (λ m k, lcount lab m k + (if decide (n_id m ∈ v_nets v ∧ k = j) then -1 else 0)) = ctab H (lcount lab')) as ->; [|done].
      apply ctab_ext. intros m k Hm Hk. by rewrite Hlab'.
  Qed.

  Lemma vote_nonneg H lab ns k : 0 ≤ vote H lab ns k.
  Proof.
    apply zsum_nonneg. intros x (nid & -> & _)%elem_of_list_fmap. destruct (net_of H nid); simpl; [apply lcount_nonneg|lia].
  Qed.

  (** giving a label to a vertex that has none *)
  Lemma wpe_cadd_label E H lab v j (Q : list R → Prop) : consistent H → v ∈ h_verts H → 0 ≤ j < l → lab (v_id v) = -1 →
    Q (ctab H (lcount (fupd lab (v_id v) j))) →
    wpe E (foldM (λ C n, cadd_row radd H C n j 1) (v_nets v) (ctab H (lcount lab))) Q.
  Proof.
    intros HC Hv Hj Hlab HQ. eapply wpe_cadd_all; [done..|].
    match goal with |- Q ?x => assert (x = ctab H (lcount (fupd lab (v_id v) j))) as ->; [|done] end.
    apply ctab_ext. intros m k Hm Hk. rewrite lcount_fupd by (by apply (co_nverts _ HC)). rewrite Hlab. repeat case_decide; try lia; tauto.
  Qed.
End rows.

(** the two row types *)
Lemma list_row_ext l (f g : Z → Z) : (∀ k, 0 ≤ k < l → f k = g k) → f <$> seqZ 0 l = g <$> seqZ 0 l.
Proof. intros Hfg. apply list_fmap_ext. intros i k Hk%elem_of_list_lookup_2. apply Hfg. apply elem_of_seqZ in Hk. lia. Qed.
Lemma wpe_ladd l E f j d (Q : list Z → Prop) : 0 ≤ j < l →
  Q ((λ k, f k + (if decide (k = j) then d else 0)) <$> seqZ 0 l) → wpe E (ladd (f <$> seqZ 0 l) j d) Q.
Proof.
  intros Hj HQ. apply wpe_bind. eapply wpe_idx; [by apply zlookup_fmap_seqZ|]. apply wpe_ret.
  erewrite zinsert_fmap_seqZ; [exact HQ|done|simpl; by rewrite decide_True|].
  intros k Hk Hne. simpl. rewrite decide_False by done. lia.
Qed.
Lemma wpe_lget l E f j (Q : Z → Prop) : 0 ≤ j < l → Q (f j) → wpe E (idx (f <$> seqZ 0 l) j) Q.
Proof. intros Hj HQ. eapply wpe_idx; [by apply zlookup_fmap_seqZ|done]. Qed.

Definition pairrow (f : Z → Z) : Z * Z := (f 0, f 1).
Lemma pair_row_ext (f g : Z → Z) : (∀ k, 0 ≤ k < 2 → f k = g k) → pairrow f = pairrow g.
Proof. intros Hfg. unfold pairrow. by rewrite !Hfg by lia. Qed.
Lemma wpe_padd_row E f j d (Q : Z * Z → Prop) : 0 ≤ j < 2 →
  Q (pairrow (λ k, f k + (if decide (k = j) then d else 0))) → wpe E (padd (pairrow f) j d) Q.
Proof.
  intros Hj HQ. assert (j = 0 ∨ j = 1) as [-> | ->] by lia; unfold padd, pairrow in *; simpl in *; apply wpe_ret;
    rewrite Z.add_0_r in HQ; done.
Qed.
Lemma wpe_pget_row E f j (Q : Z → Prop) : 0 ≤ j < 2 → Q (f j) → wpe E (pget (pairrow f) j) Q.
Proof. intros Hj HQ. assert (j = 0 ∨ j = 1) as [-> | ->] by lia; by apply wpe_ret. Qed.

Lemma wpe_pget E c p (Q : Z → Prop) : p = 0 ∨ p = 1 → Q (sel c p) → wpe E (pget c p) Q.
Proof. intros [-> | ->] HQ; by apply wpe_ret. Qed.
Lemma wpe_padd E (c : Z * Z) p d (Q : Z * Z → Prop) : p = 0 ∨ p = 1 →
  Q (if decide (p = 0) then (fst c + d, snd c) else (fst c, snd c + d)) → wpe E (padd c p d) Q.
Proof. intros [-> | ->] HQ; by apply wpe_ret. Qed.

(** argmax: a non-empty list of labels with the largest value *)
Lemma wpe_argmax E f l (Q : Z * list Z → Prop) : 0 < l → (∀ k, 0 ≤ k < l → 0 ≤ f k) →
  (∀ m js, js ≠ [] → m ≠ -1 → (∀ j, j ∈ js → 0 ≤ j < l ∧ f j = m) → (∀ k, 0 ≤ k < l → f k ≤ m) → Q (m, js)) →
  wpe E (argmax (f <$> seqZ 0 l) l) Q.
Proof.
  intros Hl Hf HQ.
  eapply (wpe_foldM E _ (λ qs s, (qs = [] → s = (-1, [])) ∧ (qs ≠ [] → s.2 ≠ [] ∧ 0 ≤ s.1) ∧
    (∀ j, j ∈ s.2 → 0 ≤ j < l ∧ f j = s.1) ∧ ∀ k, k ∈ qs → f k ≤ s.1)).
  - simpl. split_and!; try done; set_solver.
  - intros qs q ts [m js] Heq (He & Hne & Hj & Hm). simpl in *.
    assert (0 ≤ q < l) as Hq by (assert (q ∈ seqZ 0 l) as ?%elem_of_seqZ by (rewrite Heq; set_solver); lia). specialize (Hf q Hq).
    assert (-1 ≤ m) as Hm1. { destruct qs; [specialize (He eq_refl); injection He; lia|]. destruct Hne as [_ ?]; [done|lia]. }
    apply wpe_bind, wpe_lget; [done|]. gdec as H1; [|gdec as H2]; apply wpe_ret; simpl.
    + split_and!; [intros [_ ?]%app_eq_nil; done|intros _; split; [by destruct js|lia]| |].
      * intros j [Hjs| ->%elem_of_list_singleton]%elem_of_app; [by apply Hj|done].
      * intros k [Hk| ->%elem_of_list_singleton]%elem_of_app; [by apply Hm|lia].
    + split_and!; [intros [_ ?]%app_eq_nil; done|intros _; split; [done|lia]| |].
      * intros j ->%elem_of_list_singleton. done.
      * intros k [Hk| ->%elem_of_list_singleton]%elem_of_app; [specialize (Hm k Hk); lia|lia].
    + split_and!; [intros [_ ?]%app_eq_nil; done|intros _| |].
      * destruct qs; [specialize (He eq_refl); injection He as -> ->; lia|]. by apply Hne.
      * done.
      * intros k [Hk| ->%elem_of_list_singleton]%elem_of_app; [by apply Hm|lia].
  - intros [m js] (_ & Hne & Hj & Hm). assert (seqZ 0 l ≠ []) as Hsn.
    { intros He%(f_equal length). rewrite seqZ_length in He. simpl in He. lia. }
    destruct (Hne Hsn) as [Hjs Hm0]. simpl in *. apply HQ; [done|lia|done|]. intros k Hk. apply Hm. apply elem_of_seqZ. lia.
Qed.

Lemma wpe_umod E z l (Q : Z → Prop) : 0 < l → (∀ j, 0 ≤ j < l → Q j) → wpe E (umod z l) Q.
Proof. intros Hl HQ. unfold umod. rewrite decide_False by lia. apply wpe_ret, HQ. by apply Z.mod_pos_bound. Qed.

(** ** Labels of vertices *)
Definition lab_of (H : hg) (L : list Z) (u : Z) : Z :=
  match h_vmap H !! u with Some i => default (-1) (L !! i) | None => -1 end.
Lemma lab_of_lookup H L i v : vmap_ok H → h_verts H !! i = Some v → lab_of H L (v_id v) = default (-1) (L !! i).
Proof. intros HV Hi. unfold lab_of. by rewrite (vmap_ok_lookup _ _ _ HV Hi). Qed.
Lemma lab_of_snoc H L v j u : vmap_ok H → h_verts H !! length L = Some v → lab_of H (L ++ [j]) u = fupd (lab_of H L) (v_id v) j u.
Proof.
  intros HV Hi. unfold fupd. destruct (decide (u = v_id v)) as [->|Hne].
  - rewrite (lab_of_lookup _ _ _ _ HV Hi). rewrite lookup_app_r by lia. by rewrite Nat.sub_diag.
  - unfold lab_of. destruct (h_vmap H !! u) as [q|] eqn:Hq; [|done].
    destruct (vmap_ok_inv _ _ _ HV Hq) as (v' & Hv' & <-).
    assert (q ≠ length L). { intros ->. rewrite Hi in Hv'. by injection Hv' as ->. }
    destruct (decide (q < length L)%nat); [by rewrite lookup_app_l|].
    rewrite !(lookup_ge_None_2 _ q); [done|lia|rewrite app_length; simpl; lia].
Qed.
Lemma lab_of_insert H L i v j u : vmap_ok H → h_verts H !! i = Some v → (i < length L)%nat →
  lab_of H (<[i := j]> L) u = fupd (lab_of H L) (v_id v) j u.
Proof.
  intros HV Hi Hlt. unfold fupd. destruct (decide (u = v_id v)) as [->|Hne].
  - rewrite (lab_of_lookup _ _ _ _ HV Hi). by rewrite list_lookup_insert.
  - unfold lab_of. destruct (h_vmap H !! u) as [q|] eqn:Hq; [|done].
    destruct (vmap_ok_inv _ _ _ HV Hq) as (v' & Hv' & <-).
    assert (i ≠ q). { intros ->. rewrite Hi in Hv'. by injection Hv' as ->. }
    by rewrite list_lookup_insert_ne.
Qed.
Lemma lab_of_nil H u : lab_of H [] u = -1.
Proof. unfold lab_of. destruct (h_vmap H !! u); done. Qed.

(** ** relabel *)
Lemma relabel_lookup H L i v : length L = length (h_verts H) → h_verts (relabel H L) !! i = Some v →
  ∃ v0 p, h_verts H !! i = Some v0 ∧ L !! i = Some p ∧ v = set_part p v0.
Proof. intros Hl Hi. simpl in Hi. apply lookup_zip_with_Some in Hi as (v0 & p & -> & ? & ?). eauto. Qed.
Lemma relabel_shape H L : length L = length (h_verts H) → same_shape H (relabel H L).
Proof.
  intros Hl. split; try done; simpl.
  - apply Forall2_same_length_lookup. split; [rewrite zip_with_length; lia|].
    intros i v v' Hv Hv'. apply lookup_zip_with_Some in Hv' as (v0 & p & -> & Hv0 & _).
    rewrite Hv in Hv0. injection Hv0 as <-. done.
  - apply Forall2_same_length_lookup. split; [done|]. intros i n n' Hn Hn'. rewrite Hn in Hn'. injection Hn' as <-. done.
Qed.
Lemma relabel_consistent H L : length L = length (h_verts H) → consistent H → consistent (relabel H L).
Proof. intros Hl. apply same_shape_consistent. by apply relabel_shape. Qed.
Lemma lab_of_part_of H L u : consistent H → length L = length (h_verts H) → part_of (relabel H L) u = lab_of H L u.
Proof.
  intros HC Hl. pose proof (relabel_consistent _ _ Hl HC) as HC'. unfold lab_of.
  destruct (h_vmap H !! u) as [i|] eqn:Hi.
  - destruct (vmap_ok_inv _ _ _ (co_vmap_ok _ HC) Hi) as (v & Hv & <-).
    destruct (lookup_lt_is_Some_2 L i) as [p Hp]; [rewrite Hl; by eapply lookup_lt_Some|].
    assert (set_part p v ∈ h_verts (relabel H L)) as Hin.
    { eapply elem_of_list_lookup_2. simpl. apply lookup_zip_with_Some. eauto. }
    change (v_id v) with (v_id (set_part p v)). rewrite part_of_elem by (apply (co_vid _ HC') || done). by rewrite Hp.
  - apply part_of_absent. intros Hu. apply vids_elem in Hu as (v & Hv & <-).
    apply elem_of_list_lookup in Hv as [i Hv]. apply relabel_lookup in Hv as (v0 & p & Hv0 & _ & ->); [|done].
    simpl in Hi. rewrite (vmap_ok_lookup _ _ _ (co_vmap_ok _ HC) Hv0) in Hi. done.
Qed.
Lemma lcount_count_in H L n k : consistent H → length L = length (h_verts H) → lcount (lab_of H L) n k = count_in (relabel H L) n k.
Proof. intros HC Hl. apply zcount_ext. intros u _. by rewrite lab_of_part_of. Qed.

Lemma zcount_insert (L : list Z) i j a k : L !! i = Some j →
  zcount (λ x, x = k) (<[i := a]> L) = zcount (λ x, x = k) L + (if decide (k = a) then 1 else 0) - (if decide (k = j) then 1 else 0).
Proof.
  intros Hi. rewrite insert_take_drop by (by eapply lookup_lt_Some). pose proof (f_equal (zcount (λ x, x = k)) (take_drop_middle L i j Hi)) as He.
  rewrite <-He. rewrite !zcount_app, !zcount_cons. repeat case_decide; lia || congruence.
Qed.

(** ** label_propagation *)
Notation lrow l := (λ f : Z → Z, f <$> seqZ 0 l).
Record lp_ok (H : hg) (l : Z) (st : lp_state) : Prop := {
  lk_range : Forall (λ j, 0 ≤ j < l) (lp_L st);
  lk_size : lp_size st = group_size (lp_L st) <$> seqZ 0 l;
  lk_C : lp_C st = ctab (lrow l) H (lcount (lab_of H (lp_L st)));
}.

Lemma replicate_fmap_seqZ l : replicate (Z.to_nat l) 0 = (λ _ : Z, 0) <$> seqZ 0 l.
Proof.
  apply list_eq. intros i. rewrite list_lookup_fmap. destruct (decide (Z.of_nat i < l)).
  - rewrite lookup_replicate_2 by lia. rewrite lookup_seqZ_lt by lia. done.
  - rewrite lookup_seqZ_ge by lia. simpl. apply lookup_ge_None. rewrite replicate_length. lia.
Qed.

Lemma wpe_lp_init E H l (Q : lp_state → Prop) : consistent H → 0 < l →
  (∀ st, lp_ok H l st → length (lp_L st) = length (h_verts H) → Q st) → wpe E (lp_init H l) Q.
Proof.
  intros HC Hl HQ. apply wpe_bind. apply wpe_guard; [by apply bool_decide_eq_true_2; lia|].
  eapply (wpe_foldM E _ (λ ds st, lp_ok H l st ∧ length (lp_L st) = length ds)).
  - split; [|done]. split; simpl.
    + constructor.
    + apply replicate_fmap_seqZ.
    + unfold ctab. rewrite replicate_fmap_seqZ. apply list_eq. intros i. rewrite list_lookup_fmap.
      destruct (h_nets H !! i) as [n|] eqn:Hi.
      * rewrite lookup_replicate_2 by (by eapply lookup_lt_Some). simpl. f_equal. apply list_fmap_ext. intros q k Hk%elem_of_list_lookup_2%elem_of_seqZ.
        symmetry. apply zcount_none. intros u _. rewrite lab_of_nil. lia.
      * simpl. apply lookup_ge_None in Hi. apply lookup_ge_None. rewrite replicate_length. lia.
  - intros ds v ts st Heq [[Hr Hs HCt] Hlen].
    assert (h_verts H !! length (lp_L st) = Some v) as Hi by (rewrite Heq, Hlen; by apply list_lookup_middle).
    apply wpe_bind, wpe_rng. intros z _. apply wpe_bind, wpe_umod; [done|]. intros j Hj.
    apply wpe_bind. rewrite Hs. apply wpe_ladd; [done|]. apply wpe_bind. rewrite HCt.
    assert (lab_of H (lp_L st) (v_id v) = -1) as Hun.
    { rewrite (lab_of_lookup H _ _ _ (co_vmap_ok _ HC) Hi). by rewrite (lookup_ge_None_2 (lp_L st) (length (lp_L st))) by lia. }
    apply (wpe_cadd_label _ idx (lrow l) l); [apply list_row_ext|apply wpe_ladd|apply wpe_lget|done|by eapply elem_of_list_lookup_2|done|done|].
    apply wpe_ret. split; [|simpl; rewrite !app_length; simpl; lia]. split; simpl.
    + apply Forall_app. split; [done|]. by apply Forall_singleton.
    + apply list_fmap_ext. intros _ k _. unfold group_size. rewrite zcount_app, zcount_cons, zcount_nil. repeat case_decide; lia.
    + apply (ctab_ext _ l); [apply list_row_ext|]. intros n k _ _. apply lcount_ext. intros u _. symmetry. apply lab_of_snoc; [by apply co_vmap_ok|done].
  - intros st [Hok Hlen]. by apply HQ.
Qed.

(** One vertex.  [b] are lower bounds for the sizes of the groups. *)
Definition lp_inv (H : hg) (l : Z) (b : Z → Z) (st : lp_state) : Prop :=
  lp_ok H l st ∧ length (lp_L st) = length (h_verts H) ∧ ∀ k, 0 ≤ k < l → b k ≤ group_size (lp_L st) k.

Lemma wpe_lp_vertex E H l min_size b c st i : consistent H → 0 < l → (∀ k, b k ≤ min_size) →
  (i < length (h_verts H))%nat → lp_inv H l b st →
  wpe E (lp_vertex H l min_size (c, st) i) (λ r, lp_inv H l b (snd r)).
Proof.
  intros HC Hl Hb Hi ([Hr Hs HCt] & Hlen & Hlow). simpl in *. unfold lp_vertex. simpl.
  destruct (lookup_lt_is_Some_2 (lp_L st) i) as [j Hj]; [lia|].
  destruct (lookup_lt_is_Some_2 (h_verts H) i) as [v Hv]; [lia|].
  assert (0 ≤ j < l) as Hjl by (by eapply (Forall_lookup_1 _ _ _ _ Hr)).
  apply wpe_bind. eapply wpe_nidx; [done|]. apply wpe_bind. rewrite Hs at 1. eapply wpe_idx; [by apply zlookup_fmap_seqZ|].
  gdec as Hsz; [|by apply wpe_ret].
  apply wpe_bind. eapply wpe_vert_at; [done|]. apply wpe_bind. rewrite HCt.
  assert (lab_of H (lp_L st) (v_id v) = j) as Hlab by (rewrite (lab_of_lookup H _ _ _ (co_vmap_ok _ HC) Hv), Hj; done).
  set (lab := lab_of H (lp_L st)) in *.
  apply (wpe_votes _ _ (lrow l) l); [apply list_row_ext|apply wpe_ladd|apply wpe_lget|done|by eapply elem_of_list_lookup_2|done|done|].
  apply wpe_bind. simpl. apply wpe_argmax; [done|intros; apply vote_nonneg|]. intros m js Hjs _ Hjr _. simpl.
  apply wpe_bind, wpe_rng. intros z _. apply wpe_bind, wpe_umod; [destruct js; simpl; [done|lia]|]. intros q Hq.
  destruct (zlookup_is_Some js q Hq) as [nl Hnl]. apply wpe_bind. eapply wpe_idx; [done|].
  assert (0 ≤ nl < l) as Hnll. { apply Hjr. apply zlookup_Some in Hnl as [_ Hnl]. by eapply elem_of_list_lookup_2. }
  apply wpe_bind. eapply (wpe_mono _ _ (λ r : bool * list Z * list Z, snd (fst r) = <[i := nl]> (lp_L st) ∧ snd r = group_size (<[i := nl]> (lp_L st)) <$> seqZ 0 l)).
  { gdec as Hne.
    - apply wpe_bind. rewrite Hs. apply wpe_ladd; [done|]. apply wpe_bind. apply wpe_ladd; [done|]. apply wpe_ret. simpl. split; [done|].
      apply list_fmap_ext. intros _ k _. unfold group_size. rewrite (zcount_insert _ _ j) by done. repeat case_decide; lia.
    - apply wpe_ret. simpl. assert (nl = j) as -> by (destruct (decide (nl = j)); tauto). rewrite list_insert_id by done. done. }
  intros [[c' L'] sz'] [HL' Hsz']. simpl in HL', Hsz'. subst L' sz'. simpl.
  apply wpe_bind.
  apply (wpe_cadd_label _ idx (lrow l) l); [apply list_row_ext|apply wpe_ladd|apply wpe_lget|done|by eapply elem_of_list_lookup_2|done|unfold fupd; by rewrite decide_True|].
  apply wpe_ret. simpl. split_and!; simpl.
  - split; simpl; [by apply Forall_insert|done|].
    apply (ctab_ext _ l); [apply list_row_ext|]. intros n k _ _. apply lcount_ext. intros u _.
    rewrite (lab_of_insert H _ _ v) by (done || lia || by apply co_vmap_ok). unfold fupd. destruct (decide (u = v_id v)); done.
  - by rewrite insert_length.
  - intros k Hk. unfold group_size. rewrite (zcount_insert _ _ j) by done. specialize (Hlow k Hk). specialize (Hb k).
    unfold group_size in *. repeat case_decide; subst; lia.
Qed.

Lemma wpe_lp_loop E H l max_iter min_size b st (Q : lp_state → Prop) : consistent H → 0 < l → (∀ k, b k ≤ min_size) → lp_inv H l b st →
  (∀ st', lp_inv H l b st' → Q st') → wpe E (lp_loop H l max_iter min_size st) Q.
Proof.
  intros HC Hl Hb Hi HQ. apply wpe_bind.
  eapply wpe_mono; [eapply (wpe_loopM E _ (λ s, lp_inv H l b (snd s) ∧ snd (fst s) ≡ₚ seq 0 (length (h_verts H)))
    (λ s, Z.to_nat (max_iter - snd (fst (fst s)))) (λ s, lp_inv H l b (snd s)))|].
  - intros [[[c it] ind] s] [Hs Hp]. simpl in *. gdec as Hc; [|by apply wpe_ret].
    apply wpe_bind, wpe_shuffle. intros ind' Hp'. apply wpe_bind.
    eapply (wpe_foldM_inv E _ (λ r, lp_inv H l b (snd r))); [done| |].
    + intros i [c' s'] Hin Hs'. simpl in *. apply wpe_lp_vertex; try done.
      assert (i ∈ seq 0 (length (h_verts H))) as Hin' by (by rewrite <-Hp, <-Hp'). apply elem_of_seq in Hin'. lia.
    + intros [c' s'] Hs'. simpl in *. apply wpe_ret. split; [split; [done|by rewrite Hp']|simpl; lia].
  - done.
  - simpl. lia.
  - intros s Hs. apply wpe_ret. auto.
Qed.

Lemma wpe_label_propagation E H l max_iter min_size (Q : list Z → Prop) : consistent H → 0 < l →
  (∀ L, length L = length (h_verts H) → Forall (λ j, 0 ≤ j < l) L → Q L) →
  wpe E (label_propagation H l max_iter min_size) Q.
Proof.
  intros HC Hl HQ. apply wpe_bind. apply wpe_lp_init; [done..|]. intros st Hok Hlen. apply wpe_bind.
  apply (wpe_lp_loop _ _ _ _ _ (λ k, Z.min min_size 0)); [done|done|lia| |].
  - split_and!; [done..|]. intros k _. unfold group_size. pose proof (zcount_nonneg (λ j, j = k) (lp_L st)). lia.
  - intros st' (Hok' & Hlen' & _). apply wpe_ret, HQ; [done|]. by apply (lk_range _ _ _ Hok').
Qed.

(** ** label_propagation_bisect *)
Record lpb_ok (H : hg) (mx : Z * Z) (st : lpb_state) : Prop := {
  bk_range : Forall (λ j, j = 0 ∨ j = 1) (lb_L st);
  bk_room : lb_room st = (fst mx - pwt H (lab_of H (lb_L st)) 0, snd mx - pwt H (lab_of H (lb_L st)) 1);
  bk_C : lb_C st = ctab pairrow H (lcount (lab_of H (lb_L st)));
}.

Lemma pwt_fupd H lab v a p : consistent H → v ∈ h_verts H →
  pwt H (fupd lab (v_id v) a) p = pwt H lab p + (if decide (p = a) then v_weight v else 0) - (if decide (p = lab (v_id v)) then v_weight v else 0).
Proof.
  intros HC Hv. unfold pwt. erewrite (zsum_fmap_diff_one _ _ _ v); [by rewrite <-Z.add_sub_assoc|eapply NoDup_fmap_1, (co_vid _ HC)|done|..].
  - intros y Hy Hne. unfold fupd. rewrite (decide_False (P := v_id y = v_id v)); [done|].
    intros Hid. apply Hne. by eapply (vmap_ok_elem_eq H y v (co_vmap_ok _ HC)).
  - unfold fupd. rewrite (decide_True (P := v_id v = v_id v)) by done. repeat case_decide; lia || congruence.
Qed.
Lemma pwt_lab_ext H lab lab' p : (∀ u, lab u = lab' u) → pwt H lab p = pwt H lab' p.
Proof. intros Hl. apply pwt_ext; [apply same_shape_refl|done]. Qed.

Definition lpb_inv (H : hg) (mx : Z * Z) (lo : Z → Z) (st : lpb_state) : Prop :=
  lpb_ok H mx st ∧ length (lb_L st) = length (h_verts H) ∧ ∀ p, p = 0 ∨ p = 1 → lo p ≤ sel (lb_room st) p.

Lemma pwt_total H lab : (∀ v, v ∈ h_verts H → lab (v_id v) = 0 ∨ lab (v_id v) = 1) → pwt H lab 0 + pwt H lab 1 = tot_weight H.
Proof.
  intros Hl. unfold pwt, tot_weight. rewrite <-zsum_fmap_add. apply zsum_fmap_ext. intros v Hv.
  destruct (Hl v Hv) as [-> | ->]; simpl; lia.
Qed.

(** weight of the vertices of [ds] with label [p] *)
Lemma wpe_lpb_init E H mx b (Q : lpb_state → Prop) : consistent H →
  (∀ st, lpb_ok H mx st → length (lb_L st) = length (h_verts H) →
    (weights_below H b → 0 ≤ fst mx → 0 ≤ snd mx → tot_weight H + b ≤ fst mx + snd mx → 0 ≤ fst (lb_room st) ∧ 0 ≤ snd (lb_room st)) → Q st) →
  wpe E (lpb_init H (replicate (length (h_nets H)) (0, 0)) mx) Q.
Proof.
  intros HC HQ.
  eapply (wpe_foldM E _ (λ ds st, lpb_ok H mx st ∧ length (lb_L st) = length ds ∧
    fst (lb_room st) + snd (lb_room st) = fst mx + snd mx - zsum (v_weight <$> ds) ∧
    (weights_below H b → 0 ≤ fst mx → 0 ≤ snd mx → tot_weight H + b ≤ fst mx + snd mx → 0 ≤ fst (lb_room st) ∧ 0 ≤ snd (lb_room st)))).
  - split; [|split; [done|split; [simpl; unfold zsum; simpl; lia|done]]]. split; simpl.
    + constructor.
    + assert (∀ p, 0 ≤ p → pwt H (lab_of H []) p = 0) as Hp0.
      { intros p Hp. apply zsum_fmap_zero. intros v _. rewrite lab_of_nil. rewrite decide_False by lia. done. }
      rewrite !Hp0 by lia. rewrite !Z.sub_0_r. by destruct mx.
    + unfold ctab. apply list_eq. intros i. rewrite list_lookup_fmap.
      destruct (h_nets H !! i) as [n|] eqn:Hi.
      * rewrite lookup_replicate_2 by (by eapply lookup_lt_Some). simpl. f_equal. unfold pairrow.
        assert (∀ k, 0 ≤ k → lcount (lab_of H []) n k = 0) as Hz; [|by rewrite !Hz by lia].
        intros k Hk. apply zcount_none. intros u _. rewrite lab_of_nil. lia.
      * simpl. apply lookup_ge_None in Hi. apply lookup_ge_None. rewrite replicate_length. lia.
  - intros ds v ts st Heq ([Hr Hs HCt] & Hlen & Hsum & Hlim).
    assert (h_verts H !! length (lb_L st) = Some v) as Hi by (rewrite Heq, Hlen; by apply list_lookup_middle).
    assert (v ∈ h_verts H) as Hv by (by eapply elem_of_list_lookup_2).
    apply wpe_bind, wpe_rng. intros z _. apply wpe_bind, wpe_umod; [done|]. intros j0 Hj0.
    assert (j0 = 0 ∨ j0 = 1) as Hj0' by lia.
    apply wpe_bind. apply wpe_pget; [done|].
    set (j := if decide _ then _ else _).
    assert (j = 0 ∨ j = 1) as Hj. { unfold j. case_decide; [|done]. rewrite flip_part_01 by done. lia. }
    assert (lab_of H (lb_L st) (v_id v) = -1) as Hun.
    { rewrite (lab_of_lookup H _ _ _ (co_vmap_ok _ HC) Hi). by rewrite (lookup_ge_None_2 (lb_L st) (length (lb_L st))) by lia. }
    assert (∀ p, pwt H (lab_of H (lb_L st ++ [j])) p = pwt H (fupd (lab_of H (lb_L st)) (v_id v) j) p) as Hpw.
    { intros p. apply pwt_lab_ext. intros u. apply lab_of_snoc; [by apply co_vmap_ok|done]. }
    assert (∀ p, 0 ≤ p → pwt H (lab_of H (lb_L st ++ [j])) p = pwt H (lab_of H (lb_L st)) p + (if decide (p = j) then v_weight v else 0)) as Hpw'.
    { intros p Hp. rewrite Hpw, pwt_fupd by done. rewrite Hun. repeat case_decide; lia. }
    apply wpe_bind. apply wpe_padd; [done|]. apply wpe_bind. rewrite HCt.
    apply (wpe_cadd_label _ pget pairrow 2); [apply pair_row_ext|apply wpe_padd_row|apply wpe_pget_row|done|done|lia|done|].
    apply wpe_ret. split_and!.
    + split; simpl.
      * apply Forall_app. split; [done|]. by apply Forall_singleton.
      * rewrite !Hpw' by lia. rewrite Hs. simpl. destruct Hj as [-> | ->]; simpl; f_equal; lia.
      * apply (ctab_ext _ 2); [apply pair_row_ext|]. intros n k _ _. apply lcount_ext. intros u _. symmetry. apply lab_of_snoc; [by apply co_vmap_ok|done].
    + simpl. rewrite !app_length. simpl. lia.
    + simpl. rewrite fmap_app, zsum_app. csimpl. rewrite zsum_cons. unfold zsum at 2; simpl. destruct Hj as [-> | ->]; simpl; lia.
    + intros Hw H0 H1 Hsl. destruct (Hlim Hw H0 H1 Hsl) as [Hr0 Hr1]. simpl.
      assert (zsum (v_weight <$> ds) + v_weight v ≤ tot_weight H) as Htw.
      { unfold tot_weight. rewrite Heq, fmap_app, zsum_app. csimpl. rewrite zsum_cons.
        assert (0 ≤ zsum (v_weight <$> ts)); [|lia]. apply zsum_nonneg. intros x (y & -> & Hy)%elem_of_list_fmap.
        apply Hw. rewrite Heq. set_solver. }
      pose proof (Hw v Hv) as Hwv. clear Hpw Hpw' Hj. unfold j. rewrite !flip_part_01 by done. clear j.
      destruct Hj0' as [-> | ->]; simpl in *; repeat case_decide; unfold sel in *; simpl in *; lia.
  - intros st (Hok & Hlen & _ & Hlim). by apply HQ.
Qed.

Lemma wpe_lpb_vertex E H mx lo c st i : consistent H → (∀ p, lo p ≤ 0) → (∀ v, v ∈ h_verts H → 0 ≤ v_weight v) →
  (i < length (h_verts H))%nat → lpb_inv H mx lo st →
  wpe E (lpb_vertex H (c, st) i) (λ r, lpb_inv H mx lo (snd r)).
Proof.
  intros HC Hlo Hw Hi ([Hr Hs HCt] & Hlen & Hlow). simpl in *. unfold lpb_vertex. simpl.
  destruct (lookup_lt_is_Some_2 (lb_L st) i) as [j Hj]; [lia|].
  destruct (lookup_lt_is_Some_2 (h_verts H) i) as [v Hv]; [lia|].
  assert (v ∈ h_verts H) as Hvin by (by eapply elem_of_list_lookup_2).
  assert (j = 0 ∨ j = 1) as Hjl by (by eapply (Forall_lookup_1 _ _ _ _ Hr)).
  apply wpe_bind. eapply wpe_vert_at; [done|]. apply wpe_bind. eapply wpe_nidx; [done|]. apply wpe_bind. rewrite HCt.
  assert (lab_of H (lb_L st) (v_id v) = j) as Hlab by (rewrite (lab_of_lookup H _ _ _ (co_vmap_ok _ HC) Hv), Hj; done).
  apply (wpe_votes _ _ pairrow 2); [apply pair_row_ext|apply wpe_padd_row|apply wpe_pget_row|done|done|lia|done|].
  apply wpe_bind. cbn [fst snd]. apply wpe_argmax; [done|intros; apply vote_nonneg|]. intros m js Hjs Hm1 Hjr _. cbn [fst snd].
  rewrite decide_True by done.
  apply wpe_bind. eapply (wpe_mono _ _ (λ r : bool * list Z * (Z * Z) * Z, ∃ nl, snd r = nl ∧ (nl = 0 ∨ nl = 1) ∧
    snd (fst (fst r)) = <[i := nl]> (lb_L st) ∧
    snd (fst r) = (fst (lb_room st) + (if decide (0 = j) then v_weight v else 0) - (if decide (0 = nl) then v_weight v else 0),
                   snd (lb_room st) + (if decide (1 = j) then v_weight v else 0) - (if decide (1 = nl) then v_weight v else 0)) ∧
    (nl ≠ j → 0 ≤ sel (lb_room st) nl - v_weight v))).
  { apply wpe_bind, wpe_rng. intros z _. apply wpe_bind, wpe_umod; [destruct js; simpl; [done|lia]|]. intros q Hq.
    destruct (zlookup_is_Some js q Hq) as [nl Hnl]. apply wpe_bind. eapply wpe_idx; [done|].
    assert (0 ≤ nl < 2) as Hnll. { apply Hjr. apply zlookup_Some in Hnl as [_ Hnl]. by eapply elem_of_list_lookup_2. }
    assert (nl = 0 ∨ nl = 1) as Hnl01 by lia.
    apply wpe_bind, wpe_pget; [done|]. gdec as Hc.
    - apply wpe_bind, wpe_padd; [done|]. apply wpe_bind, wpe_padd; [done|]. apply wpe_ret. simpl. exists nl.
      split_and!; [done..| |lia]. destruct Hjl as [-> | ->], Hnl01 as [-> | ->]; simpl; f_equal; lia.
    - apply wpe_ret. simpl. exists j. rewrite list_insert_id by done. split_and!; [done..| |done].
      destruct (lb_room st). simpl. f_equal; repeat case_decide; lia. }
  intros [[[c' L'] room'] nl'] (nl & Heq1 & Hnl01 & Heq2 & Heq3 & Hroom). simpl in Heq1, Heq2, Heq3. subst nl' L' room'. simpl.
  apply wpe_bind.
  apply (wpe_cadd_label _ pget pairrow 2); [apply pair_row_ext|apply wpe_padd_row|apply wpe_pget_row|done|done|lia|unfold fupd; by rewrite decide_True|].
  assert (∀ p, pwt H (lab_of H (<[i:=nl]> (lb_L st))) p = pwt H (lab_of H (lb_L st)) p + (if decide (p = nl) then v_weight v else 0) - (if decide (p = j) then v_weight v else 0)) as Hpw.
  { intros p. rewrite (pwt_lab_ext _ _ (fupd (lab_of H (lb_L st)) (v_id v) nl)).
    - rewrite pwt_fupd by done. by rewrite Hlab.
    - intros u. by apply (lab_of_insert H _ _ v); [apply co_vmap_ok|..|lia]. }
  apply wpe_ret. simpl. split; [|split]; simpl.
  - split; simpl; [by apply Forall_insert| |].
    + rewrite Hs. simpl. rewrite !Hpw. f_equal; lia.
    + apply (ctab_ext _ 2); [apply pair_row_ext|]. intros n k _ _. apply lcount_ext. intros u _.
      rewrite (lab_of_insert H _ _ v) by (done || lia || by apply co_vmap_ok). unfold fupd. destruct (decide (u = v_id v)); done.
  - by rewrite insert_length.
  - intros p Hp. specialize (Hlow p Hp). specialize (Hlo p). specialize (Hw v Hvin).
    destruct (decide (nl = j)) as [->|Hne].
    + destruct Hp as [-> | ->]; unfold sel in *; simpl in *; repeat case_decide; lia.
    + specialize (Hroom Hne). destruct Hp as [-> | ->]; simpl in *; destruct Hnl01 as [-> | ->]; unfold sel in *; simpl in *; repeat case_decide; lia.
Qed.

Lemma wpe_lpb_loop E H mx lo max_iter st (Q : lpb_state → Prop) : consistent H → (∀ p, lo p ≤ 0) → (∀ v, v ∈ h_verts H → 0 ≤ v_weight v) →
  lpb_inv H mx lo st → (∀ st', lpb_inv H mx lo st' → Q st') → wpe E (lpb_loop H max_iter st) Q.
Proof.
  intros HC Hl Hb Hi HQ. apply wpe_bind.
  eapply wpe_mono; [eapply (wpe_loopM E _ (λ s, lpb_inv H mx lo (snd s) ∧ snd (fst s) ≡ₚ seq 0 (length (h_verts H)))
    (λ s, Z.to_nat (max_iter - snd (fst (fst s)))) (λ s, lpb_inv H mx lo (snd s)))|].
  - intros [[[c it] ind] s] [Hs Hp]. simpl in *. gdec as Hc; [|by apply wpe_ret].
    apply wpe_bind, wpe_shuffle. intros ind' Hp'. apply wpe_bind.
    eapply (wpe_foldM_inv E _ (λ r, lpb_inv H mx lo (snd r))); [done| |].
    + intros i [c' s'] Hin Hs'. simpl in *. apply wpe_lpb_vertex; try done.
      assert (i ∈ seq 0 (length (h_verts H))) as Hin' by (by rewrite <-Hp, <-Hp'). apply elem_of_seq in Hin'. lia.
    + intros [c' s'] Hs'. simpl in *. apply wpe_ret. split; [split; [done|by rewrite Hp']|simpl; lia].
  - done.
  - simpl. lia.
  - intros s Hs. apply wpe_ret. auto.
Qed.

Lemma ctab_pair_exact H L : consistent H → length L = length (h_verts H) → exact_counts (relabel H L) (ctab pairrow H (lcount (lab_of H L))).
Proof.
  intros HC Hl. apply list_fmap_ext. intros i n Hn. unfold pairrow. by rewrite !lcount_count_in.
Qed.
Lemma pwt_relabel H L p : consistent H → length L = length (h_verts H) → pwt H (lab_of H L) p = part_weight (relabel H L) p.
Proof.
  intros HC Hl. rewrite part_weight_pwt by (apply (co_vid _ (relabel_consistent _ _ Hl HC))).
  apply pwt_ext; [by apply relabel_shape|]. intros u. by rewrite lab_of_part_of.
Qed.

Lemma wpe_label_propagation_bisect E H max_iter mx b (Q : list Z * list (Z * Z) → Prop) : consistent H →
  (∀ v, v ∈ h_verts H → 0 ≤ v_weight v) →
  (∀ L C, length L = length (h_verts H) → Forall (λ j, j = 0 ∨ j = 1) L → exact_counts (relabel H L) C →
    (weights_below H b → 0 ≤ fst mx → 0 ≤ snd mx → tot_weight H + b ≤ fst mx + snd mx →
      part_weight (relabel H L) 0 ≤ fst mx ∧ part_weight (relabel H L) 1 ≤ snd mx) → Q (L, C)) →
  wpe E (label_propagation_bisect H (replicate (length (h_nets H)) (0, 0)) max_iter mx) Q.
Proof.
  intros HC Hw HQ. apply wpe_bind. apply (wpe_lpb_init _ _ _ b); [done|]. intros st Hok Hlen Hlim. apply wpe_bind.
  apply (wpe_lpb_loop _ _ mx (λ p, Z.min 0 (sel (lb_room st) p))); [done|intros p; lia|done| |].
  - split; [done|]. split; [done|]. intros p _. lia.
  - intros st' (Hok' & Hlen' & Hlo). apply wpe_ret, HQ; [done|apply (bk_range _ _ _ Hok')|..].
    + rewrite (bk_C _ _ _ Hok'). by apply ctab_pair_exact.
    + intros H1 H2 H3 H4. destruct (Hlim H1 H2 H3 H4). rewrite <-!pwt_relabel by done.
      pose proof (bk_room _ _ _ Hok') as Hroom. pose proof (Hlo 0 ltac:(auto)) as Hlo0. pose proof (Hlo 1 ltac:(auto)) as Hlo1.
      rewrite Hroom in Hlo0, Hlo1. unfold sel in *. simpl in *. lia.
Qed.

Lemma wpe_set_parts E H L (Q : hg → Prop) : length L = length (h_verts H) → Q (relabel H L) → wpe E (set_parts H L) Q.
Proof.
  intros Hl HQ. eapply (wpe_foldM E _ (λ ds H', H' = relabel H (take (length ds) L ++ drop (length ds) (v_part <$> h_verts H)))).
  - simpl. unfold relabel. rewrite <-(zip_with_fmap_r (λ v p, Vertex (v_id v) (v_nets v) (v_weight v) p)). destruct H as [a b vs ns c d e f]. simpl. f_equal.
    clear. induction vs as [|[] vs IH]; [done|]. simpl. f_equal. exact IH.
  - intros ds i ts H' Heq ->. assert (i = length ds) as ->.
    { assert (seq 0 (length (h_verts H)) !! length ds = Some i) as Hs by (rewrite Heq; by apply list_lookup_middle).
      apply lookup_seq in Hs. lia. }
    assert (length ds < length L)%nat as Hlt.
    { rewrite Hl. apply (f_equal length) in Heq. rewrite seq_length, app_length in Heq. simpl in Heq. lia. }
    destruct (lookup_lt_is_Some_2 L (length ds) Hlt) as [p Hp]. apply wpe_bind. eapply wpe_nidx; [done|]. apply wpe_ret.
    unfold upd_vert, with_verts, relabel. simpl. f_equal. apply list_eq. intros q.
    destruct (decide (q = length ds)) as [->|Hne].
    + rewrite list_lookup_alter. rewrite !lookup_zip_with. destruct (lookup_lt_is_Some_2 (h_verts H) (length ds)) as [v Hv]; [lia|].
      rewrite Hv. simpl. rewrite lookup_app_r by (rewrite take_length; lia). rewrite take_length, lookup_drop, list_lookup_fmap.
      replace (length ds + (length ds - length ds `min` length L))%nat with (length ds) by lia. rewrite Hv. simpl.
      rewrite lookup_app_l by (rewrite take_length, app_length; simpl; lia). rewrite lookup_take by (rewrite app_length; simpl; lia). rewrite Hp. done.
    + rewrite list_lookup_alter_ne by done. rewrite !lookup_zip_with. destruct (h_verts H !! q) as [v|] eqn:Hv; [|done]. simpl.
      pose proof (lookup_lt_Some _ _ _ Hv) as Hq. f_equal.
      assert ((take (length ds) L ++ drop (length ds) (v_part <$> h_verts H)) !! q = (take (length (ds ++ [length ds])) L ++ drop (length (ds ++ [length ds])) (v_part <$> h_verts H)) !! q) as ->; [|done].
      rewrite app_length. simpl. destruct (decide (q < length ds)%nat).
      * rewrite !lookup_app_l by (rewrite take_length; lia). rewrite !lookup_take by lia. done.
      * rewrite !lookup_app_r by (rewrite take_length; lia). rewrite !take_length, !lookup_drop. f_equal. lia.
  - intros H' ->. rewrite seq_length, <-Hl. rewrite firstn_all. rewrite drop_ge by (rewrite fmap_length; lia). by rewrite app_nil_r.
Qed.
