(** Proofs about weights, counts and cut sizes. *)
From Verif Require Export HgOps.

(** ** weights *)
Lemma total_weight_spec H : total_weight H = tot_weight H.
Proof. unfold total_weight, tot_weight. by rewrite foldl_add_zsum. Qed.

Lemma weight_part_spec H p : weight_part H p = part_weight H p.
Proof.
  unfold weight_part, part_weight.
  assert (∀ l z, foldl (λ t v, if decide (v_part v = p) then t + v_weight v else t) z l
    = z + zsum (v_weight <$> filter (λ v, v_part v = p) l)) as Hg; [|apply Hg].
  induction l as [|v l IH]; intros z; csimpl; [lia|].
  rewrite IH, filter_cons. destruct (decide (v_part v = p)); csimpl; lia.
Qed.

Definition pw (l : list vertex) (p : Z) : Z := zsum (v_weight <$> filter (λ v, v_part v = p) l).
Lemma pw_app l1 l2 p : pw (l1 ++ l2) p = pw l1 p + pw l2 p.
Proof. unfold pw. by rewrite filter_app, fmap_app, zsum_app. Qed.
Lemma pw_cons v l p : pw (v :: l) p = (if decide (v_part v = p) then v_weight v else 0) + pw l p.
Proof. unfold pw. rewrite filter_cons. destruct (decide (v_part v = p)); csimpl; lia. Qed.

Lemma zlookup_fmap_seqZ {A} (f : Z → A) k i :
  0 ≤ i < k → zlookup (f <$> seqZ 0 k) i = Some (f i).
Proof.
  intros Hi. apply zlookup_Some. split; [lia|]. rewrite list_lookup_fmap.
  rewrite lookup_seqZ_lt by lia. simpl. f_equal. f_equal. lia.
Qed.
Lemma zinsert_fmap_seqZ {A} (f g : Z → A) k i x :
  0 ≤ i < k → g i = x → (∀ j, 0 ≤ j < k → j ≠ i → g j = f j) →
  zinsert i x (f <$> seqZ 0 k) = g <$> seqZ 0 k.
Proof.
  intros Hi Hx Hg. unfold zinsert. apply list_eq. intros j.
  destruct (decide (j = Z.to_nat i)) as [->|Hne].
  - rewrite list_lookup_insert by (rewrite fmap_length, seqZ_length; lia).
    rewrite list_lookup_fmap, lookup_seqZ_lt by lia. simpl. rewrite <-Hx. do 2 f_equal. lia.
  - rewrite list_lookup_insert_ne by done. rewrite !list_lookup_fmap.
    destruct (decide (Z.of_nat j < k)).
    + rewrite lookup_seqZ_lt by lia. simpl. f_equal. symmetry. apply Hg; lia.
    + rewrite lookup_seqZ_ge by lia. done.
Qed.

Lemma wpe_weight_all_parts E H k (Q : list Z → Prop) :
  (∀ v, v ∈ h_verts H → 0 ≤ v_part v < k) →
  Q (part_weight H <$> seqZ 0 k) →
  wpe E (weight_all_parts H k) Q.
Proof.
  intros Hp HQ. unfold weight_all_parts.
  eapply (wpe_foldM E _ (λ done t, t = pw done <$> seqZ 0 k)).
  - apply list_eq. intros i. rewrite list_lookup_fmap.
    destruct (decide (Z.of_nat i < k)).
    + rewrite lookup_replicate_2 by lia. rewrite lookup_seqZ_lt by lia. done.
    + rewrite lookup_seqZ_ge by lia. simpl. apply lookup_ge_None. rewrite replicate_length. lia.
  - intros done v todo t Heq ->.
    assert (0 ≤ v_part v < k) by (apply Hp; rewrite Heq; set_solver).
    apply wpe_bind. eapply wpe_idx; [by apply zlookup_fmap_seqZ|].
    apply wpe_ret. apply zinsert_fmap_seqZ; [done|..].
    + rewrite pw_app, pw_cons, decide_True by done. unfold pw; simpl; lia.
    + intros j Hj Hne. rewrite pw_app, pw_cons, decide_False by done. unfold pw; simpl; lia.
  - intros t ->. exact HQ.
Qed.

Lemma weight_all_parts_UB H k v :
  v ∈ h_verts H → ¬ (0 ≤ v_part v < k) → ∀ w, weight_all_parts H k w = Err UB.
Proof.
  intros Hv Hn w. unfold weight_all_parts.
  assert (∀ l t w, length t = Z.to_nat k → v ∈ l →
    foldM (λ t v, x <- idx t (v_part v) ;; ret (zinsert (v_part v) (x + v_weight v) t)) l t w = Err UB) as Hg.
  { clear Hv w. intros l; induction l as [|u l IH]; intros t w Hlen Hin; [set_solver|].
    simpl. unfold bind at 1. unfold bind at 1.
    destruct (decide (0 ≤ v_part u < k)) as [Hr|Hr].
    - destruct (zlookup_is_Some t (v_part u)) as [x Hx]; [lia|].
      unfold idx. rewrite Hx. simpl. apply IH; [by rewrite zinsert_length|].
      apply elem_of_cons in Hin as [->|]; done.
    - unfold idx. destruct (zlookup t (v_part u)) eqn:Hx; [|done].
      apply zlookup_Some_lt in Hx. lia. }
  apply Hg; [by rewrite replicate_length|done].
Qed.

Lemma zsum_part_weights H k :
  (∀ v, v ∈ h_verts H → 0 ≤ v_part v < k) →
  zsum (part_weight H <$> seqZ 0 k) = tot_weight H.
Proof.
  unfold tot_weight. change (part_weight H) with (pw (h_verts H)).
  generalize (h_verts H) as l. clear H. intros l; induction l as [|v l IH]; intros Hp.
  - csimpl. rewrite zsum_fmap_zero; done.
  - csimpl. rewrite <-IH by set_solver.
    rewrite (zsum_fmap_ext _ (λ p, (if decide (v_part v = p) then v_weight v else 0) + pw l p))
      by (intros; apply pw_cons).
    rewrite zsum_fmap_add. f_equal.
    assert (v_part v ∈ seqZ 0 k) as Hin by (apply elem_of_seqZ; pose proof (Hp v); set_solver by lia).
    pose proof (NoDup_seqZ 0 k) as Hnd.
    apply elem_of_list_split in Hin as (l1 & l2 & Heq). rewrite Heq in *.
    rewrite fmap_app, zsum_app, fmap_cons, zsum_cons, decide_True by done.
    apply NoDup_app in Hnd as (_ & Hn1 & Hn2). apply NoDup_cons in Hn2 as [Hn2 _].
    rewrite !zsum_fmap_zero; [lia|..].
    + intros x Hx. rewrite decide_False; [done|]. intros <-. done.
    + intros x Hx. rewrite decide_False; [done|]. intros <-. apply (Hn1 _ Hx). set_solver.
Qed.

(** ** the two sides of the incidence relation *)
Lemma net_verts_perm H n :
  consistent H → n ∈ h_nets H →
  n_verts n ≡ₚ v_id <$> filter (λ v, n_id n ∈ v_nets v) (h_verts H).
Proof.
  intros HC Hn. apply NoDup_Permutation.
  - by apply (co_nverts _ HC).
  - pose proof (co_vid _ HC) as Hnd.
    assert (∀ l : list vertex, NoDup (v_id <$> l) → NoDup (v_id <$> filter (λ v, n_id n ∈ v_nets v) l)) as Hg; [|by apply Hg].
    clear. intros l; induction l as [|v l IH]; intros Hnd; [done|].
    rewrite fmap_cons in Hnd. apply NoDup_cons in Hnd as [Hv Hnd].
    rewrite filter_cons. destruct (decide _); [|auto]. rewrite fmap_cons. constructor; [|auto].
    intros (u & Hu & Hin%elem_of_list_filter)%elem_of_list_fmap.
    apply Hv. apply elem_of_list_fmap. exists u. tauto.
  - intros u. rewrite elem_of_list_fmap. split.
    + intros Hu. destruct (co_inc2 _ HC _ _ Hn Hu) as (v & Hv & <- & Hin).
      exists v. split; [done|]. by apply elem_of_list_filter.
    + intros (v & -> & [Hin Hv]%elem_of_list_filter).
      destruct (co_inc1 _ HC _ _ Hv Hin) as (n' & Hn' & Hid & Hu).
      assert (n' = n) as -> by (eapply nmap_ok_elem_eq; eauto using co_nmap_ok). done.
Qed.

Lemma incidence_iff H v n :
  consistent H → v ∈ h_verts H → n ∈ h_nets H → v_id v ∈ n_verts n ↔ n_id n ∈ v_nets v.
Proof.
  intros HC Hv Hn. split.
  - intros Hu. destruct (co_inc2 _ HC _ _ Hn Hu) as (v' & Hv' & Hid & Hin).
    assert (v' = v) as -> by (eapply vmap_ok_elem_eq; eauto using co_vmap_ok). done.
  - intros Hu. destruct (co_inc1 _ HC _ _ Hv Hu) as (n' & Hn' & Hid & Hin).
    assert (n' = n) as -> by (eapply nmap_ok_elem_eq; eauto using co_nmap_ok). done.
Qed.

(** ** init_counts *)
Definition cnt_inc (l : list vertex) (n : net) (p : Z) : Z :=
  zcount (λ v, n_id n ∈ v_nets v ∧ v_part v = p) l.

Lemma count_in_inc H n p :
  consistent H → n ∈ h_nets H → count_in H n p = cnt_inc (h_verts H) n p.
Proof.
  intros HC Hn. unfold count_in, cnt_inc.
  rewrite (zcount_perm _ _ _ (net_verts_perm H n HC Hn)).
  pose proof (co_vid _ HC) as Hnd.
  assert (∀ v, v ∈ h_verts H → part_of H (v_id v) = v_part v) as Hp.
  { intros. by apply part_of_elem. }
  revert Hp. clear HC Hn Hnd. generalize (h_verts H) as l.
  induction l as [|v l IH]; intros Hp; [done|].
  rewrite filter_cons, zcount_cons. specialize (IH ltac:(set_solver)).
  destruct (decide (n_id n ∈ v_nets v)).
  - rewrite fmap_cons, zcount_cons, IH. f_equal. rewrite Hp by set_solver.
    destruct (decide (v_part v = p)), (decide (n_id n ∈ v_nets v ∧ v_part v = p)); tauto.
  - rewrite IH, decide_False by tauto. lia.
Qed.

Lemma wpe_init_counts E H (Q : list (Z * Z) → Prop) :
  consistent H → bisected H →
  (∀ C, exact_counts H C → Q C) →
  wpe E (init_counts H) Q.
Proof.
  intros HC HB HQ. unfold init_counts.
  set (cnt l n := (cnt_inc l n 0, cnt_inc l n 1)).
  eapply (wpe_foldM E _ (λ done C, C = cnt done <$> h_nets H)).
  - unfold cnt, cnt_inc. apply list_eq. intros i. rewrite list_lookup_fmap.
    destruct (h_nets H !! i) eqn:Hi; simpl.
    + apply lookup_replicate_2. by eapply lookup_lt_Some.
    + apply lookup_ge_None. rewrite replicate_length. by apply lookup_ge_None.
  - intros done v todo C Heq ->.
    assert (v ∈ h_verts H) as Hv by (rewrite Heq; set_solver).
    pose proof (co_vnets _ HC _ Hv) as Hnd.
    set (cnt' (ds : list Z) (n : net) := (cnt_inc done n 0 + (if decide (n_id n ∈ ds ∧ v_part v = 0) then 1 else 0),
                    cnt_inc done n 1 + (if decide (n_id n ∈ ds ∧ v_part v = 1) then 1 else 0))).
    eapply (wpe_foldM E _ (λ ds C, C = cnt' ds <$> h_nets H)).
    + apply list_fmap_ext. intros i n _. unfold cnt', cnt.
      rewrite !decide_False by set_solver. f_equal; lia.
    + intros ds nid ts C Heq' ->.
      assert (nid ∈ v_nets v) as Hin by (rewrite Heq'; set_solver).
      destruct (co_inc1 _ HC _ _ Hv Hin) as (n & [i Hi]%elem_of_list_lookup & <- & _).
      apply wpe_bind. eapply wpe_local_id_net; [by apply co_nmap_ok|done|].
      apply wpe_bind. eapply wpe_nidx; [by rewrite list_lookup_fmap, Hi|].
      assert (n_id n ∉ ds) as Hds.
      { rewrite Heq' in Hnd. apply NoDup_app in Hnd as (_ & Hnd & _).
        intros Hds. apply (Hnd _ Hds). set_solver. }
      assert (∀ j m, h_nets H !! j = Some m → n_id m = n_id n → j = i) as Huniq.
      { intros j m Hj Hid. eapply NoDup_fmap_inj; [apply (co_nid _ HC)|done..]. }
      apply wpe_bind.
      assert (<[i:=cnt' (ds ++ [n_id n]) n]> (cnt' ds <$> h_nets H) = cnt' (ds ++ [n_id n]) <$> h_nets H) as Hins.
      { apply list_eq. intros j. destruct (decide (i = j)) as [<-|Hne].
        - rewrite list_lookup_insert by (rewrite fmap_length; by eapply lookup_lt_Some).
          by rewrite list_lookup_fmap, Hi.
        - rewrite list_lookup_insert_ne by done. rewrite !list_lookup_fmap.
          destruct (h_nets H !! j) as [m|] eqn:Hj; [|done]. simpl. f_equal.
          assert (n_id m ≠ n_id n) by (intros Hid; apply Hne; symmetry; eauto).
          unfold cnt'. f_equal; f_equal; apply decide_ext; set_solver. }
      unfold padd. destruct (HB v Hv) as [Hp|Hp]; rewrite Hp.
      * rewrite decide_True by done. apply wpe_ret, wpe_ret. rewrite <-Hins. f_equal.
        unfold cnt'. rewrite Hp. simpl. f_equal.
        -- rewrite decide_False by set_solver. rewrite decide_True by set_solver. lia.
        -- rewrite !decide_False by (intros [_ ?]; lia). done.
      * rewrite decide_False by done. rewrite decide_True by done.
        apply wpe_ret, wpe_ret. rewrite <-Hins. f_equal.
        unfold cnt'. rewrite Hp. simpl. f_equal.
        -- rewrite !decide_False by (intros [_ ?]; lia). done.
        -- rewrite decide_False by set_solver. rewrite decide_True by set_solver. lia.
    + intros C ->. apply list_fmap_ext. intros i n _. unfold cnt', cnt, cnt_inc.
      rewrite !zcount_app, !zcount_cons, !zcount_nil. f_equal; lia.
  - intros C ->. apply HQ. unfold exact_counts. apply list_fmap_ext. intros i n Hn.
    apply elem_of_list_lookup_2 in Hn. unfold cnt. by rewrite !count_in_inc.
Qed.

(** ** cutsize *)
Lemma wpe_net_labels E H n (Q : gset Z → Prop) :
  consistent H → n ∈ h_nets H → Q (parts_touched (part_of H) (n_verts n)) →
  wpe E (net_labels H n) Q.
Proof.
  intros HC Hn HQ. unfold net_labels.
  eapply (wpe_foldM E _ (λ done X, X = parts_touched (part_of H) done)).
  - done.
  - intros done u todo X Heq ->.
    assert (u ∈ n_verts n) as Hu by (rewrite Heq; set_solver).
    destruct (co_inc2 _ HC _ _ Hn Hu) as (v & Hv & <- & _).
    apply wpe_bind, wpe_vert; [by apply co_vmap_ok|done|]. apply wpe_ret.
    unfold parts_touched. rewrite fmap_app, list_to_set_app_L. csimpl.
    rewrite part_of_elem by (done || apply (co_vid _ HC)). set_solver.
  - intros X ->. done.
Qed.

Lemma wpe_cutsize E H m (Q : Z → Prop) :
  consistent H →
  Q (match m with CutNet => cut_net H | LambdaMinusOne => lambda_minus_one H end) →
  wpe E (cutsize H m) Q.
Proof.
  intros HC HQ. unfold cutsize.
  set (σ := part_of H).
  set (nl (l : list net) := (λ n, (n_cost n, n_verts n)) <$> l).
  eapply (wpe_foldM E _ (λ done r, r = match m with
      | CutNet => cut_net_size (nl done) σ | LambdaMinusOne => lambda_size (nl done) σ end)).
  - by destruct m.
  - intros done n todo r Heq ->.
    assert (n ∈ h_nets H) as Hn by (rewrite Heq; set_solver).
    apply wpe_bind, wpe_net_labels; [done..|]. apply wpe_ret. fold σ.
    unfold nl. rewrite fmap_app. destruct m.
    + unfold cut_net_size. rewrite fmap_app, zsum_app. simpl. unfold lambda.
      repeat case_decide; try lia.
    + unfold lambda_size. rewrite fmap_app, zsum_app. simpl. unfold lambda.
      destruct (decide (n_verts n = [])) as [->|Hne].
      * rewrite parts_touched_nil, size_empty. rewrite decide_False by lia. lia.
      * pose proof (lambda_pos σ _ Hne) as Hl. unfold lambda in Hl.
        case_decide; [lia|].
        assert (Z.of_nat (size (parts_touched σ (n_verts n))) = 1) as -> by lia. lia.
  - intros r ->. exact HQ.
Qed.

(** Bisections: both metrics and the counts agree. *)
Definition net_cut01 (H : hg) (n : net) : Z :=
  if decide (0 < count_in H n 0 ∧ 0 < count_in H n 1) then n_cost n else 0.
Definition cut01 (H : hg) : Z := zsum (net_cut01 H <$> h_nets H).

Lemma bisected_part_of H u : consistent H → bisected H → u ∈ vids H → part_of H u = 0 ∨ part_of H u = 1.
Proof.
  intros HC HB (v & Hv & <-)%vids_elem. rewrite part_of_elem by (done || apply (co_vid _ HC)). auto.
Qed.

Lemma lambda_counts H n :
  consistent H → bisected H → n ∈ h_nets H →
  lambda (part_of H) (n_verts n) =
    (if decide (0 < count_in H n 0) then 1 else 0) + (if decide (0 < count_in H n 1) then 1 else 0).
Proof.
  intros HC HB Hn. apply lambda_01. intros u Hu. apply bisected_part_of; [done..|].
  by eapply net_in_vids.
Qed.

Lemma cut_net_cut01 H : consistent H → bisected H → cut_net H = cut01 H.
Proof.
  intros HC HB. unfold cut_net, cut01, cut_net_size, net_list. rewrite <-list_fmap_compose.
  apply zsum_fmap_ext. intros n Hn. simpl. unfold net_cut01.
  rewrite lambda_counts by done. repeat case_decide; tauto || lia.
Qed.
Lemma lambda_cut01 H : consistent H → bisected H → lambda_minus_one H = cut01 H.
Proof.
  intros HC HB. unfold lambda_minus_one, cut01, lambda_size, net_list. rewrite <-list_fmap_compose.
  apply zsum_fmap_ext. intros n Hn. simpl. unfold net_cut01.
  rewrite lambda_counts by done.
  destruct (decide (n_verts n = [])) as [Hnil|Hne].
  - unfold count_in. rewrite Hnil. done.
  - pose proof (lambda_pos (part_of H) _ Hne) as Hpos. rewrite lambda_counts in Hpos by done.
    repeat case_decide; tauto || lia.
Qed.

Lemma wpe_cutsize_counts E H C (Q : Z → Prop) :
  exact_counts H C → Q (cut01 H) → wpe E (cutsize_counts H C) Q.
Proof.
  intros -> HQ. unfold cutsize_counts. rewrite fmap_length.
  eapply (wpe_foldM E _ (λ done r, r = zsum (net_cut01 H <$> take (length done) (h_nets H)))).
  - done.
  - intros done i todo r Heq ->.
    assert (i = length done ∧ (i < length (h_nets H))%nat) as [-> Hlt].
    { assert (seq 0 (length (h_nets H)) !! length done = Some i) as Hs
        by (rewrite Heq; by apply list_lookup_middle).
      apply lookup_seq in Hs. lia. }
    apply lookup_lt_is_Some in Hlt as [n Hn].
    apply wpe_bind. eapply wpe_nidx; [by rewrite list_lookup_fmap, Hn|].
    rewrite app_length, Nat.add_1_r, (take_S_r _ _ _ Hn), fmap_app, zsum_app. simpl.
    destruct (decide _) as [Hc|Hc]; simpl in Hc.
    + apply wpe_bind. eapply wpe_nidx; [done|]. apply wpe_ret.
      assert (net_cut01 H n = n_cost n) as -> by (unfold net_cut01; by rewrite decide_True). lia.
    + apply wpe_ret.
      assert (net_cut01 H n = 0) as -> by (unfold net_cut01; by rewrite decide_False). lia.
  - intros r ->. rewrite seq_length, take_ge by done. exact HQ.
Qed.

Lemma cut_net_le_lambda ns σ :
  (∀ c vs, (c, vs) ∈ ns → 0 ≤ c) → cut_net_size ns σ ≤ lambda_size ns σ.
Proof.
  intros Hc. apply zsum_fmap_le. intros [c vs] Hin.
  pose proof (Hc c vs Hin). destruct (decide (vs = [])) as [->|Hne].
  - rewrite lambda_nil. case_decide; lia.
  - pose proof (lambda_pos σ vs Hne). case_decide; nia.
Qed.

(** ** same_shape and counts/cuts *)
Lemma count_in_perm H n n' p : n_verts n ≡ₚ n_verts n' → count_in H n p = count_in H n' p.
Proof. intros. by apply zcount_perm. Qed.

Lemma count_in_total H n :
  consistent H → bisected H → n ∈ h_nets H →
  count_in H n 0 + count_in H n 1 = Z.of_nat (length (n_verts n)).
Proof.
  intros HC HB Hn. unfold count_in.
  assert (∀ u, u ∈ n_verts n → part_of H u = 0 ∨ part_of H u = 1) as Hp.
  { intros u Hu. apply bisected_part_of; [done..|]. by eapply net_in_vids. }
  revert Hp. generalize (n_verts n) as l. induction l as [|u l IH]; intros Hp; [done|].
  rewrite !zcount_cons. specialize (IH ltac:(set_solver)).
  destruct (Hp u ltac:(set_solver)) as [Hu|Hu]; rewrite Hu.
  - rewrite decide_True, decide_False by done. simpl. lia.
  - rewrite decide_False, decide_True by done. simpl. lia.
Qed.
