(** Recursive bisection with one processor: the invariant of the stack of work items. *)
From Verif Require Export LimitProof CutNetProof ReorderProof FinalBisect.

Lemma rb_pre_mono H H' : rb_pre H → consistent H' → idw <$> h_verts H' ≡ₚ idw <$> h_verts H → h_gnets H' = h_gnets H →
  (∀ n, n ∈ h_nets H' → n_id n ∈ nids H) → rb_pre H'.
Proof.
  intros [HC [Hg Hn] Hs Hw Hc Ht] HC' Hp Hg' Hn'.
  assert (∀ v, v ∈ h_verts H' → ∃ u, u ∈ h_verts H ∧ v_id u = v_id v ∧ v_weight u = v_weight v) as Hsub.
  { intros v Hv. apply (elem_of_list_fmap_1 idw) in Hv. rewrite Hp in Hv. apply elem_of_list_fmap in Hv as (u & [= -> ->] & Hu). eauto. }
  split; [done| | | | |].
  - split; [by rewrite Hg'|]. intros n (m & Hm & Heq)%Hn'%nids_elem. rewrite Hg', <-Heq. by apply Hn.
  - intros v (u & Hu & <- & _)%Hsub. by apply Hs.
  - intros v (u & Hu & _ & <-)%Hsub. by apply Hw.
  - eapply Z.le_lt_trans; [|exact Hc]. apply Nat2Z.inj_le. rewrite <-(fmap_length n_id (h_nets H')), <-(fmap_length n_id (h_nets H)).
    apply submseteq_length, NoDup_submseteq; [apply (co_nid _ HC')|]. intros id (n & -> & Hin)%elem_of_list_fmap. by apply Hn'.
  - unfold tot_weight in *. change v_weight with (snd ∘ idw). rewrite list_fmap_compose, Hp, <-list_fmap_compose. exact Ht.
Qed.

(** ** Vertices as pairs of weight and part *)
Definition wpair (v : vertex) : Z * Z := (v_weight v, v_part v).
Definition lpw (l : list (Z * Z)) (p : Z) : Z := zsum (fst <$> filter (λ x, snd x = p) l).

Lemma lpw_app l1 l2 p : lpw (l1 ++ l2) p = lpw l1 p + lpw l2 p.
Proof. unfold lpw. by rewrite filter_app, fmap_app, zsum_app. Qed.
Lemma lpw_zero l p : (∀ x, x ∈ l → snd x ≠ p) → lpw l p = 0.
Proof. intros Hl. unfold lpw. rewrite filter_none; [done|]. intros x Hx. by apply Hl. Qed.
Lemma lpw_all l p : (∀ x, x ∈ l → snd x = p) → lpw l p = zsum (fst <$> l).
Proof. intros Hl. unfold lpw. rewrite filter_all; [done|]. intros x Hx. by apply Hl. Qed.
Lemma lpw_perm l l' p : l ≡ₚ l' → lpw l p = lpw l' p.
Proof. intros Hp. unfold lpw. by rewrite Hp. Qed.
Lemma lpw_nonneg l p : (∀ x, x ∈ l → 0 ≤ fst x) → 0 ≤ lpw l p.
Proof. intros Hl. unfold lpw. apply zsum_nonneg. intros w (x & -> & [_ Hx]%elem_of_list_filter)%elem_of_list_fmap. by apply Hl. Qed.
Lemma lpw_two l p q : p ≠ q → (∀ x, x ∈ l → snd x = p ∨ snd x = q) → lpw l p + lpw l q = zsum (fst <$> l).
Proof.
  intros Hpq. induction l as [|x l IH]; intros Hl; [done|]. unfold lpw in *. rewrite !filter_cons. csimpl. rewrite zsum_cons.
  specialize (IH ltac:(set_solver)). destruct (Hl x ltac:(set_solver)) as [Hx|Hx].
  - rewrite decide_True by done. rewrite decide_False by congruence. csimpl. rewrite zsum_cons. lia.
  - rewrite decide_False by congruence. rewrite decide_True by done. csimpl. rewrite zsum_cons. lia.
Qed.
Lemma lpw_part_weight H p : lpw (wpair <$> h_verts H) p = part_weight H p.
Proof.
  unfold lpw, part_weight. f_equal. induction (h_verts H) as [|v l IH]; [done|]. rewrite fmap_cons, !filter_cons.
  change (snd (wpair v)) with (v_part v). destruct (decide (v_part v = p)); csimpl; by rewrite IH.
Qed.

(** the bisection of a range, in terms of segments *)
Definition relabelled (low high : Z) (v v' : vertex) : Prop := v' = set_part low v ∨ v' = set_part high v.
Definition bisected_range (H : hg) (st en low high : Z) (H' : hg) (R' : list vertex) : Prop :=
  same_but_parts H H' ∧ consistent H' ∧ Forall2 (relabelled low high) (range H st en) R' ∧
  h_verts H' = take (Z.to_nat st) (h_verts H) ++ R' ++ drop (Z.to_nat en) (h_verts H).
(** the bisection functions: within the limits if [strict] *)
Definition bis_ok (strict : Prop) (bis : hg → options → Z * Z → Z → Z → Z * Z → M (hg * (Z * Z))) : Prop :=
  ∀ (E : err → Prop) H opts mx st en low high (Q : hg * (Z * Z) → Prop),
    (strict → E Abort) → rb_pre H → 0 ≤ fst mx → 0 ≤ snd mx → 0 ≤ st ≤ en → en ≤ Z.of_nat (length (h_verts H)) → low ≠ high →
    (∀ H' R', bisected_range H st en low high H' R' →
       (strict → lpw (wpair <$> R') low ≤ fst mx ∧ lpw (wpair <$> R') high ≤ snd mx) →
       Q (H', (lpw (wpair <$> R') low, lpw (wpair <$> R') high))) →
    wpe E (bis H opts mx st en (low, high)) Q.

Lemma range_length H st en : 0 ≤ st ≤ en → en ≤ Z.of_nat (length (h_verts H)) → Z.of_nat (length (range H st en)) = en - st.
Proof. intros. unfold range. rewrite take_length, drop_length. lia. Qed.

Lemma lpw_fmap l p : lpw l p = zsum ((λ x, if decide (snd x = p) then fst x else 0) <$> l).
Proof. unfold lpw. induction l as [|x l IH]; [done|]. rewrite filter_cons. csimpl. rewrite zsum_cons, <-IH. case_decide; csimpl; rewrite ?zsum_cons; lia. Qed.

Lemma range_labelled_segment H st en low high side H' : 0 ≤ st ≤ en → en ≤ Z.of_nat (length (h_verts H)) → low ≠ high →
  range_labelled H st en low high side H' → consistent H' →
  bisected_range H st en low high H' (range H' st en) ∧
  lpw (wpair <$> range H' st en) low = side_weight H st en side 0 ∧ lpw (wpair <$> range H' st en) high = side_weight H st en side 1.
Proof.
  intros Hst Hen Hlh (Hside & Hsame & Hlen & Hv) HC'.
  assert (length (range H' st en) = length (range H st en)) as Hrl.
  { apply Nat2Z.inj. rewrite !range_length; lia. }
  assert (∀ q v, range H st en !! q = Some v → range H' st en !! q = Some (set_part (if decide (side (st + Z.of_nat q) = 0) then low else high) v)) as Hr.
  { intros q v Hq. apply range_lookup_inv in Hq as [Hq Hvq]; [|lia]. apply Hv in Hvq. rewrite decide_True in Hvq by lia.
    pose proof (range_lookup H' st en (st + Z.of_nat q) _ ltac:(lia) ltac:(lia) Hvq) as Hx.
    replace (Z.to_nat (st + Z.of_nat q - st)) with q in Hx by lia. exact Hx. }
  split; [split; [done|split; [done|split]]|].
  - apply Forall2_same_length_lookup. split; [done|]. intros q v v' Hq Hq'. rewrite (Hr _ _ Hq) in Hq'. injection Hq' as <-.
    unfold relabelled. case_decide; auto.
  - apply list_eq. intros q. destruct (decide (Z.of_nat q < st)) as [H1|H1]; [|destruct (decide (Z.of_nat q < en)) as [H2|H2]].
    + rewrite lookup_app_l by (rewrite take_length; lia). rewrite lookup_take by lia.
      destruct (lookup_lt_is_Some_2 (h_verts H) q) as [v Hq]; [lia|]. rewrite Hq.
      assert (vertex_at H (Z.of_nat q) = Some v) as Hq' by (unfold vertex_at; rewrite decide_True by lia; by rewrite Nat2Z.id).
      apply Hv in Hq'. rewrite decide_False in Hq' by lia. unfold vertex_at in Hq'. rewrite decide_True in Hq' by lia. by rewrite Nat2Z.id in Hq'.
    + rewrite lookup_app_r by (rewrite take_length; lia). rewrite lookup_app_l by (rewrite Hrl, take_length; pose proof (range_length H st en); lia).
      rewrite take_length, Nat.min_l by lia. unfold range. rewrite lookup_take by lia. rewrite lookup_drop. f_equal. lia.
    + rewrite lookup_app_r by (rewrite take_length; lia). rewrite lookup_app_r by (rewrite Hrl, take_length; pose proof (range_length H st en); lia).
      rewrite Hrl, take_length, Nat.min_l by lia. rewrite lookup_drop. pose proof (range_length H st en).
      replace (Z.to_nat en + (q - Z.to_nat st - length (range H st en)))%nat with q by lia.
      destruct (h_verts H !! q) as [v|] eqn:Hq.
      * assert (vertex_at H (Z.of_nat q) = Some v) as Hq' by (unfold vertex_at; rewrite decide_True by lia; by rewrite Nat2Z.id).
        apply Hv in Hq'. rewrite decide_False in Hq' by lia. unfold vertex_at in Hq'. rewrite decide_True in Hq' by lia. by rewrite Nat2Z.id in Hq'.
      * apply lookup_ge_None in Hq. apply lookup_ge_None. lia.
  - assert (∀ p l, (∀ x, (side x = p ↔ (if decide (side x = 0) then low else high) = l)) → lpw (wpair <$> range H' st en) l = side_weight H st en side p) as Hw.
    { intros p l Hpl. rewrite lpw_fmap, <-list_fmap_compose. unfold side_weight. f_equal. apply list_eq. intros q. rewrite !list_lookup_fmap.
      destruct (range H st en !! q) as [v|] eqn:Hq.
      - rewrite (Hr _ _ Hq). pose proof (range_lookup_inv H st en q v ltac:(lia) Hq) as [Hlt Hvq].
        rewrite lookup_seqZ_lt by lia. simpl. f_equal. unfold weight_at. rewrite Hvq. destruct (Hpl (st + Z.of_nat q)) as [Hp1 Hp2].
        destruct (decide (side (st + Z.of_nat q) = p)); [rewrite decide_True by auto; done|rewrite decide_False by auto; done].
      - apply lookup_ge_None in Hq. rewrite (proj2 (lookup_ge_None _ _)) by lia. rewrite lookup_seqZ_ge; [done|]. pose proof (range_length H st en). lia. }
    split; apply Hw; intros x; destruct (Hside x) as [-> | ->]; simpl; split; congruence.
Qed.

Lemma bisected_consistent H H' : consistent H → same_but_parts H H' → Forall2 same_vertex (h_verts H) (h_verts H') → consistent H'.
Proof.
  intros HC (Hgs & Hgn & Hn & Hnz & Hvm & Hnm & Hd) Hv. eapply same_shape_consistent; [|exact HC].
  split; try done. rewrite Hn. apply HgOps.Forall2_refl. done.
Qed.
Lemma range_labelled_same_vertex H st en low high side H' : range_labelled H st en low high side H' → Forall2 same_vertex (h_verts H) (h_verts H').
Proof.
  intros (_ & _ & Hlen & Hv). apply Forall2_same_length_lookup. split; [done|]. intros q v v' Hq Hq'.
  assert (vertex_at H (Z.of_nat q) = Some v) as Hx by (unfold vertex_at; rewrite decide_True by lia; by rewrite Nat2Z.id).
  apply Hv in Hx. unfold vertex_at in Hx. rewrite decide_True in Hx by lia. rewrite Nat2Z.id, Hq' in Hx. injection Hx as ->. by case_decide.
Qed.

Lemma bisect1_ok bp : lawful_family bp → bis_ok False (bisect1 bp).
Proof.
  intros Hbp E H opts mx st en low high Q _ Hpre Hm0 Hm1 Hst Hen Hlh HQ. unfold bisect1.
  assert (∀ side H', range_labelled H st en low high side H' → Q (H', (side_weight H st en side 0, side_weight H st en side 1))) as HQ'.
  { intros side H' HR. assert (consistent H') as HC'.
    { eapply bisected_consistent; [apply Hpre|apply HR|by eapply range_labelled_same_vertex]. }
    destruct (range_labelled_segment H st en low high side H') as (Hb & <- & <-); [done..|]. by apply HQ. }
  destruct (o_bisection opts).
  - apply wpe_of_run. intros w.
    destruct (C20_random_bisection_partial_proof H mx st en low high w) as (side & H' & w' & Hs & Hrun & Hsame & Hl & Hv & _); [lia|lia|].
    eexists _, w'. split; [exact Hrun|]. apply HQ'. done.
  - eapply wpe_bisect_multilevel1; [done|apply Hpre|apply Hpre|apply Hpre|apply Hpre|apply Hpre| |done..|].
    { pose proof (rp_total _ Hpre). unfold long_max. lia. }
    intros side H' HR _ _. by apply HQ'.
Qed.

(** a bisection function that gives up if a limit is exceeded *)
Definition checked (bis : hg → options → Z * Z → Z → Z → Z * Z → M (hg * (Z * Z)))
    (H : hg) (opts : options) (mx : Z * Z) (st en : Z) (labels : Z * Z) : M (hg * (Z * Z)) :=
  r <- bis H opts mx st en labels ;;
  guardM Abort (bool_decide (fst (snd r) ≤ fst mx ∧ snd (snd r) ≤ snd mx)) ;;;
  ret r.
Lemma checked_ok bis : bis_ok False bis → bis_ok True (checked bis).
Proof.
  intros Hb E H opts mx st en low high Q HE Hpre Hm0 Hm1 Hst Hen Hlh HQ. unfold checked. apply wpe_bind. apply Hb; [done..|].
  intros H' R' HR _. cbn [fst snd]. unfold guardM. case_bool_decide as Hd.
  - apply wpe_bind, wpe_ret, wpe_ret. by apply HQ.
  - apply wpe_bind, wpe_fail. by apply HE.
Qed.

(** ** Reordering in terms of segments *)
Lemma wpe_reorder_seg E H A R B low high (Q : hg * Z → Prop) : h_verts H = A ++ R ++ B → low ≠ high →
  Forall (λ v, v_part v = low ∨ v_part v = high) R →
  (∀ R0 R1, R1 ≠ [] → R0 ++ R1 ≡ₚ R → Forall (λ v, v_part v = low) R0 → Forall (λ v, v_part v = high) R1 →
     Q (update_map (with_verts (A ++ R0 ++ R1 ++ B) H), Z.of_nat (length A) + Z.of_nat (length R0))) →
  (Forall (λ v, v_part v = low) R → Q (update_map H, Z.of_nat (length A) + Z.of_nat (length R) - 1)) →
  wpe E (reorder_hypergraph H (Z.of_nat (length A)) (Z.of_nat (length A) + Z.of_nat (length R)) low high) Q.
Proof.
  intros Hv Hlh Hp HQ1 HQ2. set (st := Z.of_nat (length A)) in *. set (en := st + Z.of_nat (length R)) in *.
  assert (∀ i, st ≤ i < en → zlookup (h_verts H) i = R !! Z.to_nat (i - st)) as Hin.
  { intros i Hi. unfold st, en in Hi. replace i with (Z.of_nat (length A + Z.to_nat (i - st))) at 1 by (unfold st; lia).
    rewrite zlookup_nat, Hv, lookup_app_r by lia. rewrite lookup_app_l by (unfold st; lia). f_equal. lia. }
  apply wpe_reorder; [done|unfold st; lia|unfold en; lia|rewrite Hv, !app_length; unfold en, st; lia| | |].
  - intros i v Hi Hl. rewrite Hin in Hl by done. by apply (Forall_lookup_1 _ _ _ _ Hp Hl).
  - intros l e He [Hperm Hout] Hlow Hhigh.
    assert (length l = length A + length R + length B)%nat as Hlen by (rewrite Hperm, Hv, !app_length; lia).
    set (R0 := take (Z.to_nat (e - st)) (drop (Z.to_nat st) l)). set (R1 := take (Z.to_nat (en - e)) (drop (Z.to_nat e) l)).
    assert (length R0 = Z.to_nat (e - st)) as Hl0 by (unfold R0; rewrite take_length, drop_length; unfold st, en in *; lia).
    assert (length R1 = Z.to_nat (en - e)) as Hl1 by (unfold R1; rewrite take_length, drop_length; unfold st, en in *; lia).
    assert (l = A ++ R0 ++ R1 ++ B) as Hsplit.
    { assert (take (length A) l = A) as HA.
      { apply list_eq. intros q. destruct (decide (q < length A)%nat) as [Hq|Hq].
        - rewrite lookup_take by done. rewrite <-zlookup_nat, Hout by (unfold st; lia). rewrite zlookup_nat, Hv. by rewrite lookup_app_l.
        - rewrite lookup_take_ge by lia. symmetry. apply lookup_ge_None. lia. }
      assert (drop (Z.to_nat en) l = B) as HB.
      { apply list_eq. intros q. rewrite lookup_drop, <-zlookup_nat, Hout by (unfold en, st; lia). rewrite zlookup_nat, Hv.
        rewrite !lookup_app_r by (unfold en, st; lia). f_equal. unfold en, st. lia. }
      rewrite <-HA at 1. rewrite <-HB at 1. unfold R0, R1. replace (length A) with (Z.to_nat st) by (unfold st; lia).
      rewrite <-(take_drop (Z.to_nat st) l) at 1. f_equal.
      rewrite <-(take_drop (Z.to_nat (e - st)) (drop (Z.to_nat st) l)) at 1. f_equal. rewrite drop_drop.
      replace (Z.to_nat st + Z.to_nat (e - st))%nat with (Z.to_nat e) by (unfold st in *; lia).
      rewrite <-(take_drop (Z.to_nat (en - e)) (drop (Z.to_nat e) l)) at 1. f_equal. rewrite drop_drop. f_equal. unfold st in *. lia. }
    rewrite Hsplit. replace e with (st + Z.of_nat (length R0)) by lia. apply HQ1.
    + intros Hnil. rewrite Hnil in Hl1. simpl in Hl1. lia.
    + rewrite Hv, Hsplit in Hperm. apply Permutation_app_inv_l in Hperm. rewrite app_assoc in Hperm. by apply Permutation_app_inv_r in Hperm.
    + apply Forall_lookup. intros q v Hq. pose proof (lookup_lt_Some _ _ _ Hq). destruct (Hlow (st + Z.of_nat q)) as (u & Hu & Hup); [lia|].
      replace (st + Z.of_nat q) with (Z.of_nat (length A + q)) in Hu by (unfold st; lia).
      rewrite zlookup_nat, Hsplit, lookup_app_r, lookup_app_l in Hu by lia. replace (length A + q - length A)%nat with q in Hu by lia. congruence.
    + apply Forall_lookup. intros q v Hq. pose proof (lookup_lt_Some _ _ _ Hq). destruct (Hhigh (e + Z.of_nat q)) as (u & Hu & Hup); [lia|].
      replace (e + Z.of_nat q) with (Z.of_nat (length A + (length R0 + q))) in Hu by (unfold st in *; lia).
      rewrite zlookup_nat, Hsplit, lookup_app_r, lookup_app_r, lookup_app_l in Hu by lia.
      replace (length A + (length R0 + q) - length A - length R0)%nat with q in Hu by lia. congruence.
  - intros Hall. apply HQ2. apply Forall_lookup. intros q v Hq. pose proof (lookup_lt_Some _ _ _ Hq). destruct (Hall (st + Z.of_nat q)) as (u & Hu & Hup); [unfold en; lia|].
    rewrite Hin in Hu by (unfold en; lia). replace (Z.to_nat (st + Z.of_nat q - st)) with q in Hu by lia. congruence.
Qed.

(** ** The stack of work items *)
Notation vkey := vertex_data.
Definition jlen (j : job) : Z := j_high j - j_low j.
(** a work item that can be processed, or has no weight *)
Definition j_ok (k W n : Z) (j : job) : Prop :=
  0 ≤ j_low j ∧ j_low j < j_high j ∧ j_high j < k ∧ 0 ≤ j_weight j ≤ W ∧ (j_weight j = 0 ∨ (0 ≤ j_st j ≤ j_en j ∧ j_en j ≤ n)).
(** the work items cover the labels from [lab] on and the vertices from [off] on *)
Inductive stack (strict : Prop) (k W : Z) : Z → Z → list job → list (Z * Z) → Prop :=
| stack_nil lab off V : lab ≤ k → (∀ x, x ∈ V → 0 ≤ snd x < k) → (strict → lab = k ∧ V = []) → stack strict k W lab off [] V
| stack_cons lab off j js R V : j_low j = lab → lab < j_high j → j_st j = off → j_en j = off + Z.of_nat (length R) → 0 ≤ j_weight j ≤ W →
    stack strict k W (j_high j + 1) (j_en j) js V → stack strict k W lab off (j :: js) (R ++ V).

Lemma stack_ok strict k W lab off jobs V n : stack strict k W lab off jobs V → 0 ≤ lab → 0 ≤ off → off + Z.of_nat (length V) ≤ n →
  lab ≤ k ∧ Forall (j_ok k W n) jobs.
Proof.
  intros Hs. induction Hs as [lab off V Hl _ _|lab off j js R V Hl Hh Hst Hen Hw Hs IH]; intros Hlab Hoff Hn; [split; [lia|constructor]|].
  rewrite app_length in Hn. destruct IH as [IH1 IH2]; [lia|lia|lia|]. split; [lia|]. constructor; [|done].
  unfold j_ok. split; [lia|]. split; [lia|]. split; [lia|]. split; [lia|]. right. lia.
Qed.
Lemma stack_app strict k W lab off j jobs V : stack strict k W lab off (j :: jobs) V → ∃ R V', V = R ++ V' ∧ j_low j = lab ∧ lab < j_high j ∧ j_st j = off ∧ j_en j = off + Z.of_nat (length R) ∧
  0 ≤ j_weight j ≤ W ∧ stack strict k W (j_high j + 1) (j_en j) jobs V'.
Proof. inversion 1; subst. eauto 10. Qed.

(** the labels of the two halves *)
Lemma halves low high : low < high → 0 < k_low_of low high ∧ 0 < k_high_of low high ∧ k_low_of low high ≤ k_high_of low high ∧ k_low_of low high + k_high_of low high = high - low + 1 ∧
  labels_0 low high = (low, low + k_low_of low high - 1) ∧ labels_1 low high = (low + k_low_of low high, high).
Proof.
  intros Hlh. unfold k_high_of, labels_0, labels_1, k_low_of.
  pose proof (Z.div_mod (high - low + 1) 2 ltac:(lia)). pose proof (Z.mod_pos_bound (high - low + 1) 2 ltac:(lia)).
  unfold k_high_of, k_low_of. split_and!; [lia|lia|lia|lia| |done]. f_equal. lia.
Qed.

Section rec.
  Context (strict : Prop) (bis : hg → options → Z * Z → Z → Z → Z * Z → M (hg * (Z * Z))) (Hbis : bis_ok strict bis).
  Context (H0 : hg) (opts : options) (k M : Z) (Hk : 2 ≤ k ≤ 2 ^ 50) (HM : 0 ≤ M) (HMk : M * k ≤ 2 ^ 50) (HC0 : consistent H0).
  Context (W : Z) (HW50 : W ≤ 2 ^ 50) (HWt : tot_weight H0 ≤ W) (lo : Z) (Hlo : 0 ≤ lo).

  (** the relation to the input *)
  Definition kept (H : hg) (cut : list net) : Prop :=
    idw <$> h_verts H ≡ₚ idw <$> h_verts H0 ∧ h_gsize H = h_gsize H0 ∧ h_gnets H = h_gnets H0 ∧ h_nz H = h_nz H0 ∧
    match o_metric opts with
    | LambdaMinusOne => cut = [] ∧ h_nets H = h_nets H0 ∧ vkey <$> h_verts H ≡ₚ vkey <$> h_verts H0
    | CutNet => (core <$> h_nets H) ++ cut ≡ₚ core <$> h_nets H0 ∧ Forall wide cut
    end.
  Definition good (H : hg) (cut : list net) : Prop := rb_pre H ∧ kept H cut.

  Lemma vkey_idw (vs vs' : list vertex) : vkey <$> vs ≡ₚ vkey <$> vs' → idw <$> vs ≡ₚ idw <$> vs'.
  Proof.
    intros Hp. change idw with ((λ x : Z * list Z * Z, (fst (fst x), snd x)) ∘ vkey). by rewrite !list_fmap_compose, Hp.
  Qed.
  Lemma good_step H H1 cut : good H cut → consistent H1 → h_nets H1 = h_nets H → h_gsize H1 = h_gsize H → h_gnets H1 = h_gnets H → h_nz H1 = h_nz H →
    vkey <$> h_verts H1 ≡ₚ vkey <$> h_verts H → good H1 cut.
  Proof.
    intros [Hpre (Hi & Hgs & Hgn & Hnz & Hm)] HC Hn Hgs' Hgn' Hnz' Hv. split.
    - eapply rb_pre_mono; [exact Hpre|done|by apply vkey_idw|done|]. intros n. rewrite Hn. intros Hin. apply nids_elem. eauto.
    - split; [by rewrite (vkey_idw _ _ Hv)|]. split; [congruence|]. split; [congruence|]. split; [congruence|].
      rewrite Hn. destruct (o_metric opts); [done|]. destruct Hm as (? & ? & Hvk). split; [done|]. split; [done|]. by rewrite Hv.
  Qed.
  Lemma good_weight H cut : good H cut → zsum (fst <$> (wpair <$> h_verts H)) = tot_weight H0.
  Proof.
    intros [_ [Hi _]]. rewrite <-list_fmap_compose. change (fst ∘ wpair) with (snd ∘ idw). by rewrite list_fmap_compose, Hi, <-list_fmap_compose.
  Qed.
  Lemma good_pos H cut x : good H cut → x ∈ wpair <$> h_verts H → 0 < fst x.
  Proof. intros [Hpre _] (v & -> & Hv)%elem_of_list_fmap. by apply (rp_weight _ Hpre). Qed.

  Lemma wpe_cut_step (E : err → Prop) (b : Prop) {Hb : Decision b} H cut (Q : hg * list net → Prop) : (b → o_metric opts = CutNet) → (b → E UB) → good H cut →
    (∀ H' cut', good H' cut' → wpair <$> h_verts H' = wpair <$> h_verts H → Q (H', cut')) →
    wpe E (if decide b then remove_cut_nets H cut else ret (H, cut)) Q.
  Proof.
    intros Hm HE Hg HQ. destruct (decide b) as [Hd|Hd]; [|apply wpe_ret; by apply HQ].
    specialize (Hm Hd). specialize (HE Hd). destruct Hg as [Hpre (Hi & Hgs & Hgn & Hnz & Hmm)].
    apply wpe_remove_cut_nets; [apply Hpre|done|]. intros H' add HR HC' _ _ Hadd Hne.
    assert (Forall2 (λ v v', idw v' = idw v ∧ wpair v' = wpair v) (h_verts H) (h_verts H')) as Hf.
    { eapply Forall2_impl; [apply (nsr_verts _ _ _ HR)|]. intros v v' (H1 & H2 & H3 & _). unfold idw, wpair. split; congruence. }
    assert (idw <$> h_verts H' = idw <$> h_verts H ∧ wpair <$> h_verts H' = wpair <$> h_verts H) as [Hidw Hwp].
    { clear -Hf. induction Hf as [|v v' l l' [H1 H2] _ [IH1 IH2]]; [done|]. csimpl. split; congruence. }
    apply HQ; [|exact Hwp]. split.
    - eapply rb_pre_mono; [exact Hpre|done|by rewrite Hidw|apply HR|]. intros n. rewrite (nsr_nets _ _ _ HR). intros [_ Hn]%elem_of_list_filter.
      apply nids_elem. eauto.
    - split; [by rewrite Hidw|]. split; [by rewrite (nsr_gsize _ _ _ HR)|]. split; [by rewrite (nsr_gnets _ _ _ HR)|]. split; [by rewrite (nsr_nz _ _ _ HR)|].
      rewrite Hm in Hmm |- *. destruct Hmm as [Hp Hw]. split.
      + rewrite <-Hp, Hadd, (nsr_nets _ _ _ HR).
        assert (filter (λ n, n_id n ∉ n_id <$> filter wide (h_nets H)) (h_nets H) = filter (λ n, ¬ wide n) (h_nets H)) as ->.
        { apply HgMore.filter_ext. intros n Hn. split; intros Hx Hy; apply Hx.
          - apply elem_of_list_fmap. exists n. split; [done|]. by apply elem_of_list_filter.
          - apply elem_of_list_fmap in Hy as (m & Hid & [Hm' Hin]%elem_of_list_filter). assert (n = m) as ->; [|done].
            apply elem_of_list_lookup in Hn as [i Hi']. apply elem_of_list_lookup in Hin as [i' Hin].
            assert (i = i') as -> by (eapply (NoDup_fmap_inj n_id (h_nets H)); [apply Hpre|done..]). congruence. }
        rewrite (Permutation_app_comm cut), app_assoc. f_equiv. rewrite <-fmap_app, Permutation_app_comm.
        f_equiv. clear. induction (h_nets H) as [|n l IH]; [done|]. rewrite !filter_cons. destruct (decide (wide n)) as [Hw|Hw].
        * rewrite decide_False by tauto. simpl. by rewrite IH.
        * rewrite decide_True by tauto. rewrite <-Permutation_middle. by rewrite IH.
      + apply Forall_app. split; [done|]. rewrite Hadd. apply Forall_forall. intros n (m & -> & [Hm' _]%elem_of_list_filter)%elem_of_list_fmap. exact Hm'.
  Qed.

  (** every remaining work item is in its place, and the vertices before them have their final part *)
  Definition exact (jobs : list job) (l : list (Z * Z)) : Prop :=
    ∃ D V lab, l = D ++ V ∧ stack strict k W lab (Z.of_nat (length D)) jobs V ∧ lo ≤ lab ∧ (∀ x, x ∈ D → lo ≤ snd x < lab) ∧
      (strict → ∀ p, lo ≤ p < lab → lpw D p ≤ M).
  Definition sane (jobs : list job) (H : hg) : Prop :=
    Forall (j_ok k W (Z.of_nat (length (h_verts H)))) jobs ∧ (exact jobs (wpair <$> h_verts H) ∨ Exists (λ j, j_weight j = 0) jobs).
  Definition pend (cur : job) (jobs : list job) : list job := if decide (0 < jlen cur) then cur :: jobs else jobs.

  Lemma exact_sane jobs H : exact jobs (wpair <$> h_verts H) → sane jobs H.
  Proof.
    intros He. split; [|by left]. destruct He as (D & V & lab & Heq & Hs & Hlab & _).
    eapply (stack_ok strict k W); [exact Hs|lia|lia|].
    apply (f_equal length) in Heq. rewrite fmap_length, app_length in Heq. lia.
  Qed.
  Lemma sane_ext jobs H H' : wpair <$> h_verts H' = wpair <$> h_verts H → sane jobs H → sane jobs H'.
  Proof.
    intros Hw [H1 H2]. split; [|by rewrite Hw]. assert (length (h_verts H') = length (h_verts H)) as ->; [|done].
    rewrite <-(fmap_length wpair), Hw. apply fmap_length.
  Qed.
  Lemma pend_Forall (P : job → Prop) cur jobs : (0 < jlen cur → P cur) → Forall P jobs → Forall P (pend cur jobs).
  Proof. intros H1 H2. unfold pend. case_decide; [constructor; auto|done]. Qed.
  Lemma pend_Exists (P : job → Prop) cur jobs : Exists P jobs → Exists P (pend cur jobs).
  Proof. intros H1. unfold pend. case_decide; [by apply Exists_cons_tl|done]. Qed.
  Lemma vkey_relabelled low high R R' : Forall2 (relabelled low high) R R' → vkey <$> R' = vkey <$> R.
  Proof. induction 1 as [|v v' l l' Hv _ IH]; [done|]. csimpl. rewrite IH. f_equal. by destruct Hv as [-> | ->]. Qed.
  Lemma weight_relabelled low high R R' : Forall2 (relabelled low high) R R' → fst <$> (wpair <$> R') = fst <$> (wpair <$> R).
  Proof. induction 1 as [|v v' l l' Hv _ IH]; [done|]. csimpl. rewrite IH. f_equal. by destruct Hv as [-> | ->]. Qed.
  Lemma part_relabelled low high R R' : Forall2 (relabelled low high) R R' → Forall (λ v, v_part v = low ∨ v_part v = high) R'.
  Proof. induction 1 as [|v v' l l' Hv _ IH]; constructor; [|done]. destruct Hv as [-> | ->]; auto. Qed.

  Lemma wpe_rb_split (E : err → Prop) s j (Q : rb_state * job → Prop) :
    (strict → E Abort) → (j_weight j = 0 → E UB) → (o_metric opts = CutNet → 2 ≤ jlen j ∨ rb_jobs s ≠ [] → E UB) →
    good (rb_H s) (rb_cut s) → sane (j :: rb_jobs s) (rb_H s) →
    (∀ s' j', good (rb_H s') (rb_cut s') → sane (pend j' (rb_jobs s')) (rb_H s') → 0 ≤ jlen j' < jlen j → rb_splits s' = rb_splits s + 1 →
       zsum (jlen <$> j' :: rb_jobs s') + 1 = zsum (jlen <$> j :: rb_jobs s) → (jlen j = 1 → rb_jobs s' = rb_jobs s) → Q (s', j')) →
    wpe E (rb_split bis M opts s j) Q.
  Proof.
    intros HE1 HE2 HE3 Hg [Hok Hex] HQ. destruct j as [st en low high w]. apply Forall_cons in Hok as [Hj Hok].
    unfold j_ok in Hj. cbn [j_st j_en j_low j_high j_weight] in *. destruct Hj as (Hlow & Hlh & Hhigh & Hw & Hrange).
    unfold rb_split. cbn [j_st j_en j_low j_high j_weight]. cbv zeta.
    destruct (halves low high Hlh) as (Hkl & Hkh & Hklh & Hks & Hl0 & Hl1). rewrite Hl0, Hl1. cbn [fst snd].
    set (kl := k_low_of low high) in *. set (kh := k_high_of low high) in *.
    apply wpe_bind. apply wpe_compute_max; [lia|lia|lia|done|nia|lia|done|]. intros a b Hwpos Ha Hb Hka Hkb.
    destruct Hrange as [?|[Hst Hen]]; [lia|].
    apply wpe_bind. apply Hbis; [done|apply Hg|done|done|done|done|lia|]. intros H1 R' (Hsame & HC1 & HR & Hv1) Hlim. cbn [fst snd] in Hlim |- *.
    set (A := take (Z.to_nat st) (h_verts (rb_H s))) in *. set (B := drop (Z.to_nat en) (h_verts (rb_H s))) in *.
    set (R := range (rb_H s) st en) in *.
    assert (h_verts (rb_H s) = A ++ R ++ B) as Hv0.
    { rewrite (range_split (rb_H s) st en). unfold A, R, B. f_equal. f_equal. rewrite drop_drop. f_equal. lia. }
    assert (Z.of_nat (length A) = st) as HlA by (unfold A; rewrite take_length; lia).
    assert (length R' = length R) as HlR' by (symmetry; by eapply Forall2_length).
    assert (st + Z.of_nat (length R') = en) as HlR by (rewrite HlR'; unfold R; rewrite range_length by lia; lia).
    pose proof (part_relabelled _ _ _ _ HR) as Hparts.
    assert (good H1 (rb_cut s)) as Hg1.
    { destruct Hsame as (? & ? & ? & ? & _). eapply good_step; [exact Hg|done..|]. rewrite Hv1, Hv0, !fmap_app. by rewrite (vkey_relabelled _ _ _ _ HR). }
    set (w0 := lpw (wpair <$> R') low) in *. set (w1 := lpw (wpair <$> R') high) in *.
    assert (∀ x, x ∈ wpair <$> R' → 0 < fst x) as Hpos.
    { intros x Hx. eapply good_pos; [exact Hg1|]. rewrite Hv1, !fmap_app. set_solver. }
    assert (0 ≤ w0 ∧ 0 ≤ w1) as [Hw0 Hw1] by (split; apply lpw_nonneg; intros x Hx; apply Z.lt_le_incl; by apply Hpos).
    assert (∀ x, x ∈ wpair <$> R' → snd x = low ∨ snd x = high) as Hparts'.
    { intros x (v & -> & Hv)%elem_of_list_fmap. rewrite Forall_forall in Hparts. by apply Hparts. }
    assert (w0 + w1 = zsum (fst <$> (wpair <$> R'))) as Hw01 by (apply lpw_two; [lia|done]).
    assert (w0 + w1 ≤ W) as HwW.
    { transitivity (tot_weight H0); [|exact HWt]. rewrite Hw01, <-(good_weight _ _ Hg1), Hv1, !fmap_app, !zsum_app.
      assert (∀ l, (∀ v, v ∈ l → v ∈ h_verts H1) → 0 ≤ zsum (fst <$> (wpair <$> l))) as Hx.
      { intros l Hl. apply zsum_nonneg. intros y (x & -> & Hx)%elem_of_list_fmap. apply Z.lt_le_incl. eapply good_pos; [exact Hg1|]. set_solver. }
      assert (0 ≤ zsum (fst <$> (wpair <$> A))) by (apply Hx; intros v Hv; rewrite Hv1; set_solver).
      assert (0 ≤ zsum (fst <$> (wpair <$> B))) by (apply Hx; intros v Hv; rewrite Hv1; set_solver). lia. }
    assert (length (h_verts H1) = length (h_verts (rb_H s))) as HlH1 by (rewrite Hv1, Hv0, !app_length; lia).
    (* the exact state before *)
    assert (Exists (λ j, j_weight j = 0) (rb_jobs s) ∨ ∃ D V, wpair <$> A = D ∧ wpair <$> B = V ∧
      stack strict k W (high + 1) en (rb_jobs s) V ∧ lo ≤ low ∧ (∀ x, x ∈ D → lo ≤ snd x < low) ∧ (strict → ∀ p, lo ≤ p < low → lpw D p ≤ M)) as Hex'.
    { destruct Hex as [(D & V & lab & Heq & Hs & Hlab & HD & HDM)|Hex].
      - right. apply stack_app in Hs as (Rp & V' & -> & Hs1 & Hs2 & Hs3 & Hs4 & Hs5 & Hs6). cbn [j_st j_en j_low j_high j_weight] in *. subst lab.
        rewrite Hv0, !fmap_app in Heq. apply app_inj_1 in Heq as [Heq1 Heq2]; [|rewrite fmap_length; lia].
        apply app_inj_1 in Heq2 as [Heq2 Heq3]; [|rewrite fmap_length; lia].
        exists D, V'. done.
      - left. apply Exists_cons in Hex as [Hx|Hx]; [cbn [j_weight] in Hx; lia|done]. }
    (* reordering and pushing *)
    set (cur := λ e, Job st e low (low + kl - 1) w0).
    apply wpe_bind. eapply (wpe_mono E _ (λ o : hg * Z * list job, good (fst (fst o)) (rb_cut s) ∧
      sane (pend (cur (snd (fst o))) (snd o)) (fst (fst o)) ∧ zsum (jlen <$> snd o) = zsum (jlen <$> rb_jobs s) + (kh - 1) ∧
      (snd o ≠ [] → 2 ≤ high - low ∨ rb_jobs s ≠ []) ∧ (high - low = 1 → snd o = rb_jobs s))).
    2:{ intros [[H2 e] jobs'] (Hg2 & Hs2 & Hsum & Hne & Hsame'). cbn [fst snd] in *. apply wpe_bind.
        eapply (wpe_cut_step E (o_metric opts = CutNet ∧ jobs' ≠ [])); [by intros [? _]| |exact Hg2|].
        { intros [Hm Hnj]. apply HE3; [done|]. unfold jlen. cbn [j_high j_low]. by apply Hne. }
        intros H3 cut3 Hg3 Hw3. apply wpe_ret. apply HQ; cbn [rb_H rb_jobs rb_cut rb_splits fst snd].
        - done.
        - by eapply sane_ext.
        - unfold jlen. cbn [j_high j_low]. lia.
        - done.
        - csimpl. rewrite !zsum_cons, Hsum. unfold jlen. cbn [j_high j_low]. lia.
        - unfold jlen. cbn [j_high j_low]. done. }
    destruct (decide (high - (low + kl) > 0)) as [Hre|Hre].
    - (* two or more labels on the high side *)
      apply wpe_bind. rewrite <-HlA at 1. replace en with (Z.of_nat (length A) + Z.of_nat (length R')) at 1 by lia.
      apply wpe_reorder_seg with B; [done|lia|done| |].
      + intros R0 R1 Hne Hperm HR0 HR1. apply wpe_ret. cbn [fst snd].
        set (H2 := update_map (with_verts (A ++ R0 ++ R1 ++ B) H1)).
        assert (A ++ R0 ++ R1 ++ B ≡ₚ h_verts H1) as Hp2 by (rewrite Hv1, (app_assoc R0), Hperm; done).
        assert (h_verts H2 = A ++ R0 ++ R1 ++ B) as Hv2 by done.
        assert (good H2 (rb_cut s)) as Hg2.
        { eapply good_step; [exact Hg1|by apply reordered_consistent|done..|]. rewrite Hv2. by rewrite Hp2. }
        assert (length R0 + length R1 = length R')%nat as HlR01 by (rewrite <-app_length; by rewrite Hperm).
        assert (w0 = zsum (fst <$> (wpair <$> R0)) ∧ w1 = zsum (fst <$> (wpair <$> R1))) as [Hw0' Hw1'].
        { assert (wpair <$> R' ≡ₚ (wpair <$> R0) ++ (wpair <$> R1)) as Hpw by (rewrite <-fmap_app; by rewrite Hperm).
          unfold w0, w1. rewrite !(lpw_perm _ _ _ Hpw), !lpw_app. rewrite Forall_forall in HR0, HR1. split.
          - rewrite lpw_all, (lpw_zero (wpair <$> R1)); [lia| |]; intros x (v & -> & Hv)%elem_of_list_fmap; cbn [wpair snd]; [rewrite HR1 by done; lia|by apply HR0].
          - rewrite lpw_zero, (lpw_all (wpair <$> R1)); [lia| |]; intros x (v & -> & Hv)%elem_of_list_fmap; cbn [wpair snd]; [by apply HR1|rewrite HR0 by done; lia]. }
        split; [exact Hg2|]. split; [|split; [csimpl; rewrite zsum_cons; unfold jlen; cbn [j_high j_low]; lia|split; [lia|lia]]].
        split.
        * rewrite Hv2, <-Hv2. assert (length (h_verts H2) = length (h_verts (rb_H s))) as ->.
          { rewrite Hv2, Hp2. exact HlH1. }
          apply pend_Forall.
          { intros Hl. unfold cur, jlen, j_ok in *. cbn [j_st j_en j_low j_high j_weight] in *. lia. }
          constructor; [|done]. unfold j_ok. cbn [j_st j_en j_low j_high j_weight]. lia.
        * destruct Hex' as [Hex'|(D & V & HD & HV & Hs & Hlol & Hp & HpM)]; [right; by apply pend_Exists, Exists_cons_tl|]. left.
          rewrite Hv2, !fmap_app, HD, HV.
          assert (stack strict k W (low + kl) (st + Z.of_nat (length R0)) (Job (st + Z.of_nat (length R0)) en (low + kl) high w1 :: rb_jobs s) ((wpair <$> R1) ++ V)) as Hs1.
          { constructor; cbn [j_st j_en j_low j_high j_weight]; rewrite ?fmap_length; try done; lia. }
          assert (Z.of_nat (length D) = st) as HlD by (rewrite <-HD, fmap_length; done).
          unfold pend, cur, jlen. cbn [j_st j_en j_low j_high j_weight]. rewrite HlA. case_decide as Hkl1.
          -- exists D, ((wpair <$> R0) ++ (wpair <$> R1) ++ V), low. split; [done|]. split; [|split; [lia|split; done]].
             constructor; cbn [j_st j_en j_low j_high j_weight]; rewrite ?fmap_length; try done; try lia.
             replace (low + kl - 1 + 1) with (low + kl) by lia. exact Hs1.
          -- assert (kl = 1) as Hkl' by lia. exists (D ++ (wpair <$> R0)), ((wpair <$> R1) ++ V), (low + kl). split; [by rewrite <-!app_assoc|].
             split; [rewrite app_length, fmap_length, Nat2Z.inj_add, HlD; exact Hs1|]. split; [lia|].
             rewrite Forall_forall in HR0. split.
             ++ intros x [Hx|(v & -> & Hv)%elem_of_list_fmap]%elem_of_app; [apply Hp in Hx; lia|]. cbn [wpair snd]. rewrite HR0 by done. lia.
             ++ intros Hstr p Hp'. rewrite lpw_app. destruct (decide (p < low)) as [Hpl|Hpl].
                ** rewrite (lpw_zero (wpair <$> R0)); [specialize (HpM Hstr p); lia|]. intros x (v & -> & Hv)%elem_of_list_fmap. cbn [wpair snd]. rewrite HR0 by done. lia.
                ** assert (p = low) as -> by lia. rewrite (lpw_zero D) by (intros x Hx; apply Hp in Hx; lia).
                   rewrite lpw_all by (intros x (v & -> & Hv)%elem_of_list_fmap; by apply HR0). rewrite <-Hw0'. destruct (Hlim Hstr). specialize (Hka Hkl'). lia.
      + intros Hall. apply wpe_ret. cbn [fst snd].
        assert (with_verts (h_verts H1) H1 = H1) as Hself by (by destruct H1).
        assert (consistent (update_map H1)) as HC2 by (rewrite <-Hself; by apply reordered_consistent).
        assert (w1 = 0) as Hw10.
        { apply lpw_zero. intros x (v & -> & Hv)%elem_of_list_fmap. rewrite Forall_forall in Hall. cbn [wpair snd]. rewrite Hall by done. lia. }
        split; [by eapply good_step; [exact Hg1|done..]|]. split; [|split; [csimpl; rewrite zsum_cons; unfold jlen; cbn [j_high j_low]; lia|split; [lia|lia]]].
        split.
        * change (h_verts (update_map H1)) with (h_verts H1). rewrite HlH1. apply pend_Forall.
          { intros Hl. unfold cur, jlen, j_ok in *. cbn [j_st j_en j_low j_high j_weight] in *. split; [lia|]. split; [lia|]. split; [lia|]. split; [lia|].
            destruct R' as [|v' R'']; [left; done|]. simpl in HlR |- *. right. lia. }
          constructor; [|done]. unfold j_ok. cbn [j_st j_en j_low j_high j_weight]. lia.
        * right. apply pend_Exists, Exists_cons_hd. cbn [j_weight]. done.
    - (* two labels *)
      assert (kl = 1 ∧ kh = 1) as [Hkl1 Hkh1] by lia. apply wpe_ret. cbn [fst snd]. split; [done|]. split; [|split; [lia|split; [by right|done]]].
      unfold pend, cur, jlen. cbn [j_st j_en j_low j_high j_weight]. rewrite decide_False by lia. split; [by rewrite HlH1|].
      destruct Hex' as [Hex'|(D & V & HD & HV & Hs & Hlol & Hp & HpM)]; [by right|]. left. rewrite Hv1, !fmap_app, HD, HV.
      exists (D ++ (wpair <$> R')), V, (high + 1). split; [by rewrite <-app_assoc|].
      split; [rewrite app_length, fmap_length; replace (Z.of_nat (length D + length R')) with en by (rewrite <-HD, fmap_length; lia); exact Hs|].
      split; [lia|]. split.
      + intros x [Hx|Hx]%elem_of_app; [apply Hp in Hx; lia|]. destruct (Hparts' x Hx); lia.
      + intros Hstr p Hp'. rewrite lpw_app. destruct (Hlim Hstr) as [Hlim0 Hlim1]. specialize (Hka Hkl1). specialize (Hkb Hkh1).
        destruct (decide (p < low)) as [Hpl|Hpl].
        * rewrite (lpw_zero (wpair <$> R')); [specialize (HpM Hstr p); lia|]. intros x Hx. destruct (Hparts' x Hx); lia.
        * rewrite (lpw_zero D) by (intros x Hx; apply Hp in Hx; lia). assert (p = low ∨ p = high) as [-> | ->] by lia; fold w0 w1; lia.
  Qed.

  Lemma wpe_rb_job (E : err → Prop) s j (Q : rb_state → Prop) : (strict → E Abort) → E UB → good (rb_H s) (rb_cut s) → sane (j :: rb_jobs s) (rb_H s) →
    (∀ s', good (rb_H s') (rb_cut s') → sane (rb_jobs s') (rb_H s') → rb_splits s < rb_splits s' →
       rb_splits s' + zsum (jlen <$> rb_jobs s') = rb_splits s + zsum (jlen <$> j :: rb_jobs s) → Q s') →
    wpe E (rb_job bis M opts s j) Q.
  Proof.
    intros HE1 HE2 Hg Hs HQ. unfold rb_job. apply wpe_bind.
    assert (0 < jlen j) as Hj. { destruct Hs as [Hok _]. apply Forall_cons in Hok as [Hj _]. unfold j_ok in Hj. unfold jlen. lia. }
    set (T := rb_splits s + zsum (jlen <$> j :: rb_jobs s)) in *.
    apply (wpe_loopM E _ (λ x : rb_state * job, good (rb_H (fst x)) (rb_cut (fst x)) ∧ sane (pend (snd x) (rb_jobs (fst x))) (rb_H (fst x)) ∧ 0 ≤ jlen (snd x) ∧
      rb_splits (fst x) + zsum (jlen <$> snd x :: rb_jobs (fst x)) = T ∧ (rb_splits s < rb_splits (fst x) ∨ 0 < jlen (snd x) ∧ rb_splits (fst x) = rb_splits s))
      (λ x, Z.to_nat (jlen (snd x)))).
    2:{ cbn [fst snd]. split; [done|]. split; [unfold pend; by rewrite decide_True|]. split; [lia|]. split; [done|]. right. done. }
    2:{ cbn [snd]. unfold jlen. lia. }
    intros [s1 cur] (Hg1 & Hs1 & Hc & HT & Hsp). cbn [fst snd] in *. change (j_high cur - j_low cur) with (jlen cur). destruct (decide (jlen cur > 0)) as [Hl|Hl].
    - unfold pend in Hs1. rewrite decide_True in Hs1 by lia. apply wpe_bind, wpe_rb_split; [done|done|done|done|done|].
      intros s' j' Hg' Hs' Hj' Hsp' Hsum _. apply wpe_ret. cbn [fst snd]. split; [|lia]. split; [done|]. split; [done|]. split; [lia|]. split; [lia|]. left. lia.
    - apply wpe_ret, wpe_ret. cbn [fst snd]. unfold pend in Hs1. rewrite decide_False in Hs1 by lia. apply HQ; [done|done|lia|].
      rewrite <-HT. csimpl. rewrite zsum_cons. lia.
  Qed.

  Lemma wpe_rb_loop (E : err → Prop) s (Q : rb_state → Prop) : (strict → E Abort) → E UB → good (rb_H s) (rb_cut s) → sane (rb_jobs s) (rb_H s) →
    zsum (jlen <$> rb_jobs s) ≤ k - 1 →
    (∀ s', good (rb_H s') (rb_cut s') → rb_jobs s' = [] → rb_splits s' = rb_splits s + zsum (jlen <$> rb_jobs s) →
       (∀ v, v ∈ h_verts (rb_H s') → 0 ≤ v_part v < k) → (strict → ∀ p, lo ≤ p < k → part_weight (rb_H s') p ≤ M) →
       (strict → ∀ v, v ∈ h_verts (rb_H s') → lo ≤ v_part v) → Q s') →
    wpe E (rb_loop bis k M opts s) Q.
  Proof.
    intros HE1 HE2 Hg Hs Hsum HQ. unfold rb_loop.
    apply (wpe_loopM E _ (λ s1, good (rb_H s1) (rb_cut s1) ∧ sane (rb_jobs s1) (rb_H s1) ∧ rb_splits s1 + zsum (jlen <$> rb_jobs s1) = rb_splits s + zsum (jlen <$> rb_jobs s) ∧ rb_splits s ≤ rb_splits s1)
      (λ s, Z.to_nat (zsum (jlen <$> rb_jobs s)))); [|done|lia].
    intros s1 (Hg1 & Hs1 & Hsum1 & Hsp1). destruct (rb_jobs s1) as [|j js] eqn:Hjs.
    - apply wpe_ret. change (zsum (jlen <$> [])) with 0 in Hsum1. destruct Hs1 as [_ [(D & V & lab & Heq & Hst & Hlab & HD & HDM)|Hx]]; [|by apply Exists_nil in Hx].
      inversion Hst as [? ? ? Hlk HV HVs|]; subst. apply HQ; [done|done|lia| | |].
      + intros v Hv. assert (wpair v ∈ D ++ V) as Hx by (rewrite <-Heq; by apply elem_of_list_fmap_1).
        apply elem_of_app in Hx as [Hx|Hx]; [apply HD in Hx|apply HV in Hx]; cbn [wpair snd] in Hx; lia.
      + intros Hstr p Hp. destruct (HVs Hstr) as [-> ->]. rewrite <-lpw_part_weight, Heq, app_nil_r. by apply HDM.
      + intros Hstr v Hv. destruct (HVs Hstr) as [-> ->]. assert (wpair v ∈ D ++ []) as Hx by (rewrite <-Heq; by apply elem_of_list_fmap_1).
        rewrite app_nil_r in Hx. apply HD in Hx. cbn [wpair snd] in Hx. lia.
    - apply wpe_bind, wpe_rb_job; [done|done|done|done|]. intros s' Hg' Hs' Hlt Hsum'. cbn [rb_splits rb_jobs] in *. apply wpe_ret. split; [split; [done|split; [done|split; lia]]|].
      assert (0 ≤ zsum (jlen <$> rb_jobs s')); [|lia]. apply zsum_nonneg. intros x (j' & -> & Hj')%elem_of_list_fmap.
      destruct Hs' as [Hok _]. rewrite Forall_forall in Hok. specialize (Hok j' Hj'). unfold j_ok in Hok. unfold jlen. lia.
  Qed.
End rec.
Lemma whole_exact strict k M H : 2 ≤ k → (∀ v, v ∈ h_verts H → 0 < v_weight v) →
  exact strict k M (tot_weight H) 0 [Job 0 (Z.of_nat (length (h_verts H))) 0 (k - 1) (tot_weight H)] (wpair <$> h_verts H).
Proof.
  intros Hk Hpos. exists [], (wpair <$> h_verts H), 0. split; [done|]. split; [|split; [lia|split; [set_solver|lia]]].
  rewrite <-(app_nil_r (wpair <$> h_verts H)).
  assert (0 ≤ tot_weight H). { apply zsum_nonneg. intros w (v & -> & Hv)%elem_of_list_fmap. apply Z.lt_le_incl. by apply Hpos. }
  constructor; cbn [j_st j_en j_low j_high j_weight]; try done; try lia.
  - by rewrite fmap_length.
  - constructor; [lia|set_solver|]. intros _. split; [lia|done].
Qed.

Lemma core_data n : net_data (core n) = net_data n.
Proof. done. Qed.

(** the end of recursive_bisect *)
Lemma wpe_rb_finish (E : err → Prop) H opts s k (Q : hg → Prop) : consistent H → good H opts (rb_H s) (rb_cut s) → rb_splits s = k - 1 → 2 ≤ k →
  (∀ H', wpair <$> h_verts H' = wpair <$> h_verts (rb_H s) →
     (o_metric opts = LambdaMinusOne → same_up_to_order_and_parts H H') → same_nets_up_to_order H H' → Q H') →
  wpe E (if decide (o_metric opts = CutNet) then
      c <- (if decide (rb_splits s * 2 < k) then remove_cut_nets (rb_H s) (rb_cut s) else ret (rb_H s, rb_cut s)) ;;
      add_cut_nets (fst c) (snd c)
    else ret (rb_H s)) Q.
Proof.
  intros HC0 [Hpre (Hi & Hgs & Hgn & Hnz & Hm)] Hsp Hk HQ. destruct (decide (o_metric opts = CutNet)) as [Hcn|Hcn].
  - rewrite Hcn in Hm. destruct Hm as [Hp Hw]. apply wpe_bind. rewrite decide_False by lia. apply wpe_ret. cbn [fst snd].
    assert (Forall (λ n, ∃ m, m ∈ h_nets H ∧ n = core m) (rb_cut s)) as Hcut.
    { apply Forall_forall. intros n Hn. assert (n ∈ core <$> h_nets H) as (m & -> & Hm)%elem_of_list_fmap by (rewrite <-Hp; set_solver). eauto. }
    rewrite Forall_forall in Hcut, Hw.
    apply wpe_add_cut_nets; [apply Hpre| | |].
    + assert (n_id <$> ((core <$> h_nets (rb_H s)) ++ rb_cut s) ≡ₚ n_id <$> (core <$> h_nets H)) as Hp' by (by rewrite Hp).
      rewrite fmap_app, <-!list_fmap_compose in Hp'. change (n_id ∘ core) with n_id in Hp'. unfold nids. rewrite Hp'. apply (co_nid _ HC0).
    + intros n Hn. split.
      * specialize (Hw n Hn). unfold wide in Hw. intros Hx. rewrite Hx in Hw. simpl in Hw. lia.
      * destruct (Hcut n Hn) as (m & Hm & ->). intros u Hu. cbn [core n_verts] in Hu.
        assert (vids (rb_H s) ≡ₚ vids H) as ->. { unfold vids. change v_id with (fst ∘ idw). by rewrite !list_fmap_compose, Hi. }
        eapply net_in_vids; [done|exact Hm|exact Hu].
    + intros H' Hv Hn _ _ Hgs' Hgn' Hnz'. apply HQ; [by rewrite Hv|congruence|]. split; [|split; [congruence|split; [congruence|split; [congruence|by rewrite Hv]]]].
      rewrite Hn. change net_data with (net_data ∘ core). rewrite !list_fmap_compose, <-Hp, fmap_app. f_equiv.
      rewrite <-list_fmap_compose. assert (core ∘ core <$> rb_cut s = rb_cut s) as ->; [|done].
      transitivity (id <$> rb_cut s); [|apply list_fmap_id]. apply list_fmap_ext. intros i n Hn'. destruct (Hcut n) as (m & _ & ->); [by eapply elem_of_list_lookup_2|done].
  - apply wpe_ret. destruct (o_metric opts) eqn:Hmm; [done|]. destruct Hm as (_ & Hn & Hv). apply HQ; [done| |].
    + intros _. split; [apply Hpre|]. done.
    + split; [by rewrite Hn|]. done.
Qed.

Lemma wpe_recursive_bisect strict bis (E : err → Prop) H k eps opts (Q : hg → Prop) : bis_ok strict bis → rb_pre H → 2 ≤ k ≤ 2 ^ 50 →
  (∀ M, d_trunc (d_div (d_mul (d_add d_one eps) (d_of_Z (tot_weight H))) (d_of_Z k)) = Some M → 0 ≤ M ∧ M * k ≤ 2 ^ 50) →
  (strict → E Abort) → E UB →
  (∀ H' M, d_trunc (d_div (d_mul (d_add d_one eps) (d_of_Z (tot_weight H))) (d_of_Z k)) = Some M →
     (∀ v, v ∈ h_verts H' → 0 ≤ v_part v < k) → (strict → ∀ p, 0 ≤ p < k → part_weight H' p ≤ M) →
     (o_metric opts = LambdaMinusOne → same_up_to_order_and_parts H H') → same_nets_up_to_order H H' → Q H') →
  wpe E (recursive_bisect_with bis H k eps opts) Q.
Proof.
  intros Hbis Hpre Hk HMM HE1 HE2 HQ. unfold recursive_bisect_with. apply wpe_bind.
  assert (global_weight [H] !! 0%nat = Some (tot_weight H)) as Hgw.
  { unfold global_weight, bulk_sum. csimpl. by rewrite total_weight_spec. }
  eapply wpe_nidx; [exact Hgw|]. apply wpe_bind. unfold max_weight, d_to_Z.
  destruct (d_trunc _) as [M|] eqn:HM; [|by apply wpe_fail]. apply wpe_of_option_Some with M; [done|].
  destruct (HMM M eq_refl) as [HM0 HMk].
  assert (good H opts H []) as Hg0.
  { split; [done|]. split; [done|]. split; [done|]. split; [done|]. split; [done|]. destruct (o_metric opts); [rewrite app_nil_r; by split|done]. }
  apply wpe_bind. eapply (wpe_rb_loop strict bis Hbis H opts k M Hk HM0 HMk (rp_cons _ Hpre) (tot_weight H) ltac:(apply Hpre) ltac:(done) 0 ltac:(lia)); [done|done|exact Hg0| | |].
  - eapply exact_sane; [lia|]. cbn [rb_jobs rb_H]. apply whole_exact; [lia|apply Hpre].
  - cbn [rb_splits rb_jobs]. csimpl. rewrite zsum_cons. change (zsum []) with 0. unfold jlen. cbn [j_high j_low]. lia.
  - intros s' Hg _ Hsp Hp HM' _. apply (wpe_rb_finish E H); [apply Hpre|done| |lia|].
    { rewrite Hsp. cbn [rb_splits rb_jobs]. csimpl. rewrite zsum_cons. change (zsum []) with 0. unfold jlen. cbn [j_high j_low]. lia. }
    intros H' Hv Hl Hs. eapply HQ; [done| | |done|done].
    + intros v Hv'. apply (elem_of_list_fmap_1 wpair) in Hv'. rewrite Hv in Hv'. apply elem_of_list_fmap in Hv' as (u & [= _ ->] & Hu). by apply Hp.
    + intros Hstr p Hpp. rewrite <-lpw_part_weight, Hv, lpw_part_weight. by apply HM'.
Qed.

Lemma wpe_loopM_S {St} E n (body : St → M (bool * St)) s (Q : St → Prop) :
  wpe E (body s) (λ '(b, s'), if b : bool then wpe E (loopM n body s') Q else Q s') → wpe E (loopM (S n) body s) Q.
Proof. intros Hb. simpl. apply wpe_bind. eapply wpe_mono; [exact Hb|]. intros [[] s'] Hs'; [done|by apply wpe_ret]. Qed.

(** two parts: one bisection, which cannot fail *)
Lemma wpe_recursive_bisect2 bis (E : err → Prop) H eps opts M (Q : hg → Prop) : bis_ok False bis → rb_pre H → 0 < tot_weight H →
  d_trunc (d_div (d_mul (d_add d_one eps) (d_of_Z (tot_weight H))) (d_of_Z 2)) = Some M → 0 ≤ M → M * 2 ≤ 2 ^ 50 →
  (∀ H', (∀ v, v ∈ h_verts H' → 0 ≤ v_part v < 2) →
     (o_metric opts = LambdaMinusOne → same_up_to_order_and_parts H H') → same_nets_up_to_order H H' → Q H') →
  wpe E (recursive_bisect_with bis H 2 eps opts) Q.
Proof.
  intros Hbis Hpre HW HM HM0 HMk HQ. unfold recursive_bisect_with. apply wpe_bind.
  assert (global_weight [H] !! 0%nat = Some (tot_weight H)) as Hgw.
  { unfold global_weight, bulk_sum. csimpl. by rewrite total_weight_spec. }
  eapply wpe_nidx; [exact Hgw|]. apply wpe_bind. unfold max_weight, d_to_Z. rewrite HM. apply wpe_of_option_Some with M; [done|].
  assert (good H opts H []) as Hg0.
  { split; [done|]. split; [done|]. split; [done|]. split; [done|]. split; [done|]. destruct (o_metric opts); [rewrite app_nil_r; by split|done]. }
  apply wpe_bind. unfold rb_loop. change (Z.to_nat 2 + 1)%nat with 3%nat. apply wpe_loopM_S. cbn [rb_jobs rb_H rb_cut rb_splits].
  apply wpe_bind. unfold rb_job. cbn [j_low j_high]. change (Z.to_nat (2 - 1 - 0) + 1)%nat with 2%nat. apply wpe_bind. apply wpe_loopM_S. cbn [fst snd j_low j_high].
  rewrite decide_True by lia. apply wpe_bind. eapply (wpe_rb_split False bis Hbis H opts 2 M ltac:(lia) HM0 HMk (rp_cons _ Hpre) (tot_weight H) ltac:(apply Hpre) ltac:(done) 0 ltac:(lia)); try done; try lia; try apply Hpre.
  - cbn [j_weight]. lia.
  - unfold jlen. cbn [j_low j_high rb_jobs]. intros _ [?|?]; [lia|done].
  - eapply exact_sane; [lia|]. cbn [rb_jobs rb_H]. apply (whole_exact False 2); [lia|apply Hpre].
  - intros s' j' Hg Hs Hj' Hsp _ Hjobs. cbn [rb_jobs rb_splits] in *. unfold jlen in Hj', Hjobs. cbn [j_low j_high] in *. specialize (Hjobs ltac:(lia)).
    apply wpe_ret. apply wpe_loopM_S. cbn [fst snd]. rewrite decide_False by lia. apply wpe_ret, wpe_ret. cbn [fst]. apply wpe_ret.
    apply wpe_loopM_S. rewrite Hjobs. apply wpe_ret.
    unfold pend in Hs. rewrite decide_False in Hs by (unfold jlen; lia). rewrite Hjobs in Hs.
    destruct Hs as [_ [(D & V & lab & Heq & Hst & Hlab & HD & HDM)|Hx]]; [|by apply Exists_nil in Hx].
    inversion Hst as [? ? ? Hlk HV HVs|]; subst.
    apply (wpe_rb_finish E H); [apply Hpre|done|lia|lia|]. intros H' Hv Hl Hsn. apply HQ; [|done|done].
    intros v Hv'. assert (wpair v ∈ D ++ V) as Hx by (rewrite <-Heq, <-Hv; by apply elem_of_list_fmap_1).
    apply elem_of_app in Hx as [Hx|Hx]; [apply HD in Hx|apply HV in Hx]; cbn [wpair snd] in Hx; lia.
Qed.

(** ** Runs of a program whose bisection function is checked are runs of the program *)
Definition run_of {A} (m m' : M A) : Prop := ∀ w a w', m w = Ok (a, w') → m' w = Ok (a, w').
Lemma run_refl {A} (m : M A) : run_of m m.
Proof. by intros w a w'. Qed.
Local Hint Resolve run_refl : core.
Lemma run_bind {A B} (m m' : M A) (f f' : A → M B) : run_of m m' → (∀ a, run_of (f a) (f' a)) → run_of (bind m f) (bind m' f').
Proof.
  intros Hm Hf w b w' Hr. unfold bind in *. destruct (m w) as [[a w1]|e] eqn:Hw; [|done]. rewrite (Hm _ _ _ Hw). by apply Hf.
Qed.
Lemma run_loop {St} n (b b' : St → M (bool * St)) s : (∀ s, run_of (b s) (b' s)) → run_of (loopM n b s) (loopM n b' s).
Proof.
  intros Hb. revert s. induction n as [|n IH]; intros s; [done|]. simpl. apply run_bind; [done|]. intros [[] s']; [apply IH|done].
Qed.
Lemma run_checked bis H opts mx st en labels : run_of (checked bis H opts mx st en labels) (bis H opts mx st en labels).
Proof.
  intros w a w' Hr. unfold checked, bind in Hr. destruct (bis H opts mx st en labels w) as [[r w1]|e]; [|done]. unfold guardM in Hr.
  case_bool_decide; [|done]. exact Hr.
Qed.
Lemma run_recursive bis bis' H k eps opts : (∀ H opts mx st en labels, run_of (bis H opts mx st en labels) (bis' H opts mx st en labels)) →
  run_of (recursive_bisect_with bis H k eps opts) (recursive_bisect_with bis' H k eps opts).
Proof.
  intros Hb. unfold recursive_bisect_with. apply run_bind; [done|]. intros gw. apply run_bind; [done|]. intros mw. apply run_bind; [|done].
  unfold rb_loop. apply run_loop. intros s. destruct (rb_jobs s) as [|j js]; [done|]. apply run_bind; [|done]. unfold rb_job.
  apply run_bind; [|done]. apply run_loop. intros x. case_decide; [|done]. apply run_bind; [|done].
  unfold rb_split. apply run_bind; [done|]. intros mx. apply run_bind; [apply Hb|done].
Qed.
