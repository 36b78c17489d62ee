(** Proofs about distributed cuts, counts, weights, load balance and owner_min. *)
From Verif Require Export ParRemove CoarsenProof.

Lemma wpe_mapP_eq {A B} E (f : A → M B) (h : A → B) (l : list A) (Q : list B → Prop) :
  (∀ i x, l !! i = Some x → wpe E (f x) (λ y, y = h x)) → Q (h <$> l) → wpe E (mapP f l) Q.
Proof.
  intros Hf HQ. apply (wpe_mapP E f (λ _ x y, y = h x)); [done|]. intros l' Hlen Hl'.
  replace l' with (h <$> l); [done|]. apply list_eq_same_length with (length l); [done|by rewrite fmap_length|].
  intros i y y' Hi Hy Hy'. rewrite list_lookup_fmap in Hy. destruct (l !! i) as [x|] eqn:Hx; [|done]. injection Hy as <-.
  symmetry. by eapply Hl'.
Qed.
Lemma wpe_ranks_eq {B} E (f : nat → M B) p (h : nat → B) (Q : list B → Prop) :
  (∀ t, (t < p)%nat → wpe E (f t) (λ y, y = h t)) → Q (h <$> seq 0 p) → wpe E (mapP f (seq 0 p)) Q.
Proof.
  intros Hf HQ. eapply wpe_mapP_eq; [|exact HQ]. intros i t Ht. apply lookup_seq in Ht as [-> Ht]. by apply Hf.
Qed.
Lemma foldl_zsum {A} (f : A → Z) (P : A → Prop) {HP : ∀ x, Decision (P x)} l z :
  foldl (λ r x, if decide (P x) then r + f x else r) z l = z + zsum ((λ x, if decide (P x) then f x else 0) <$> l).
Proof.
  revert z; induction l as [|x l IH]; intros z; csimpl; [unfold zsum; simpl; lia|]. rewrite IH, zsum_cons. case_decide; lia.
Qed.
Lemma zsum_filter_pos {A} (f : A → Z) l : (∀ x, 0 ≤ f x) → zsum (f <$> filter (λ x, f x > 0) l) = zsum (f <$> l).
Proof.
  intros Hf. induction l as [|x l IH]; [done|]. rewrite filter_cons. specialize (Hf x). case_decide; csimpl; rewrite ?zsum_cons, IH; lia.
Qed.
Lemma imap_replicate {A B} (f : nat → A → B) n x : imap f (replicate n x) = (λ i, f i x) <$> seq 0 n.
Proof.
  apply list_eq. intros i. rewrite list_lookup_imap, list_lookup_fmap. destruct (decide (i < n)%nat).
  - rewrite lookup_replicate_2, lookup_seq_lt by done. done.
  - rewrite (proj2 (lookup_ge_None (replicate n x) i)) by (rewrite replicate_length; lia).
    by rewrite (proj2 (lookup_ge_None (seq 0 n) i)) by (rewrite seq_length; lia).
Qed.
Lemma fmap_seq_seqZ {A} (f : Z → A) c : f <$> seqZ 0 c = (λ i : nat, f (Z.of_nat i)) <$> seq 0 (Z.to_nat c).
Proof. unfold seqZ. rewrite <-list_fmap_compose. apply list_fmap_ext. intros i x Hi. simpl. f_equal. lia. Qed.

Definition cut_op (x : gset Z * Z) (y : list Z * Z) : gset Z * Z := (list_to_set (fst y) ∪ fst x, snd y).
Lemma foldl_cut_op l x :
  fst (foldl cut_op x l) = list_to_set (concat (fst <$> l)) ∪ fst x ∧
  (∀ c, l ≠ [] → (∀ y, y ∈ l → snd y = c) → snd (foldl cut_op x l) = c).
Proof.
  revert x; induction l as [|y l IH]; intros x; csimpl.
  - split; [set_solver|]. done.
  - destruct (IH (cut_op x y)) as [IH1 IH2]. split.
    + rewrite IH1. unfold cut_op. simpl. set_solver.
    + intros c _ Hc. destruct l as [|y' l]; [apply Hc; set_solver|]. apply IH2; [done|]. set_solver.
Qed.

(** contribution of one net to the cut *)
Definition contribution (m : metric) (lam : Z) (c : Z) : Z :=
  if decide (1 < lam) then match m with CutNet => c | LambdaMinusOne => (lam - 1) * c end else 0.
Lemma cut_by_contribution m ns σ : cut_by m ns σ = zsum ((λ '(c, vs), contribution m (lambda σ vs) c) <$> ns).
Proof.
  destruct m; simpl; unfold cut_net_size, lambda_size; apply zsum_fmap_ext; intros [c vs] _; unfold contribution; [done|].
  destruct (decide (vs = [])) as [->|Hne]; [by rewrite lambda_nil|]. pose proof (lambda_pos σ vs Hne). case_decide; [lia|].
  assert (lambda σ vs = 1) as -> by lia. lia.
Qed.

Section cut.
  Context (bp : Z → Z → partitioning) (Hbp : lawful_family bp) (gn : Z) (Hs : list hg).
  Context (HD : distributed gn Hs) (Hgn : 0 ≤ gn) (Hne : Hs ≠ []).
  Let p := length Hs.
  Let part := bp (Z.of_nat p) gn.

  Lemma Hnp H : H ∈ Hs → net_partition bp p H = part.
  Proof. apply (net_partition_eq bp gn Hs HD). Qed.
  Lemma gverts_in_vids H n u : H ∈ Hs → n ∈ h_nets H → u ∈ n_verts n → u ∈ vids H.
  Proof. intros HH Hn Hu. eapply net_in_vids; [by apply (di_local _ _ HD)|done..]. Qed.

  Lemma wpe_cutsize_par E m (Q : list Z → Prop) :
    Q (replicate (length Hs) (cut_by m (whole_nets Hs gn) (gpart Hs))) → wpe E (cutsize_par bp Hs m) Q.
  Proof.
    intros HQ. pose proof (part_lawful bp Hbp gn Hs HD Hgn Hne) as HL. fold p part in HL. unfold cutsize_par. fold p.
    set (g := λ n : net, (n_id n, (elements (parts_touched (gpart Hs) (n_verts n)), n_cost n))).
    apply wpe_bind, (wpe_mapP_eq _ _ (λ H, (λ n, (pa_owner part (n_id n), g n)) <$> h_nets H)).
    { intros t H HH. assert (H ∈ Hs) as HHs by (by eapply elem_of_list_lookup_2).
      pose proof (di_local _ _ HD _ HHs) as HC.
      apply (wpe_mapP_eq _ _ (λ n, (pa_owner part (n_id n), g n))); [|done]. intros i n Hn. apply elem_of_list_lookup_2 in Hn.
      apply wpe_bind, wpe_net_labels; [done..|]. apply wpe_ret. rewrite (Hnp H HHs). unfold g. do 4 f_equal.
      apply parts_touched_ext. intros u Hu. symmetry. eapply gpart_local; [done..|]. by eapply gverts_in_vids. }
    apply wpe_bind, wpe_exchange.
    { intros m'. rewrite concat_fmap_nets, fmap_length. intros (n & -> & Hn)%elem_of_list_fmap. apply (la_owner _ _ _ HL). by apply (di_range _ _ HD). }
    rewrite fmap_length. intros ins Hlen Hins.
    assert (∀ t box, ins !! t = Some box →
       box ≡ₚ g <$> filter (λ n, pa_owner part (n_id n) = Z.of_nat t) (all_nets Hs)) as Hbox.
    { intros t box Hb. rewrite (Hins _ _ Hb), concat_fmap_nets, filter_fmap, <-list_fmap_compose. done. }
    clear Hins. apply wpe_bind.
    set (con nid := contribution m (lambda (gpart Hs) (gverts Hs nid)) (gcost Hs nid)).
    eapply (wpe_ranks_eq _ _ _ (λ t : nat, zsum ((λ i, con (pa_global part i (Z.of_nat t))) <$> seqZ 0 (pa_count part (Z.of_nat t))))).
    2: { apply wpe_ret. unfold bulk_sum. rewrite fmap_length, seq_length, foldl_add_acc.
      rewrite (zsum_owners p gn part con HL), Z.add_0_l. fold p in HQ. replace (zsum (con <$> seqZ 0 gn)) with (cut_by m (whole_nets Hs gn) (gpart Hs)); [done|].
      rewrite cut_by_contribution. unfold whole_nets. rewrite <-list_fmap_compose. done. }
    intros t Ht. destruct (lookup_lt_is_Some_2 Hs t Ht) as [H HH].
    destruct (lookup_lt_is_Some_2 ins t) as [box Hb]; [by rewrite Hlen|]. assert (H ∈ Hs) as HHs by (by eapply elem_of_list_lookup_2).
    apply wpe_bind, wpe_nidx with H; [done|]. apply wpe_bind, wpe_nidx with box; [done|].
    rewrite (Hnp H HHs).
    apply wpe_bind, (wpe_agg _ cut_op (λ m : Z * (list Z * Z), pa_local part (fst m)) snd).
    { intros m' Hm. rewrite replicate_length.
      pose proof (owner_box_loc gn Hs part g fst HD HL (λ _, eq_refl) t box m' (Hbox _ _ Hb) Hm). lia. }
    apply wpe_ret. rewrite imap_replicate, fmap_seq_seqZ.
    set (F := λ x : gset Z * Z, contribution m (Z.of_nat (size (fst x))) (snd x)).
    transitivity (zsum (F <$> ((λ i, agg cut_op (λ m0 : Z * (list Z * Z), pa_local part (fst m0)) snd box i (∅, 0)) <$> seq 0 (Z.to_nat (pa_count part (Z.of_nat t)))))).
    { etransitivity; [|apply Z.add_0_l]. generalize 0 at 1 3. generalize ((λ i, agg cut_op (λ m0 : Z * (list Z * Z), pa_local part (fst m0)) snd box i (∅, 0)) <$> seq 0 (Z.to_nat (pa_count part (Z.of_nat t)))).
      intros l. induction l as [|x l IH]; intros z; csimpl; [unfold zsum; simpl; lia|]. rewrite IH, zsum_cons. unfold F at 2, contribution.
      destruct (decide (1 < size (fst x))%nat); [rewrite decide_True by lia|rewrite decide_False by lia]; destruct m; lia. }
    rewrite <-list_fmap_compose. apply zsum_fmap_ext. intros i [_ Hi]%elem_of_seq. unfold compose, F, con, agg.
    set (nid := pa_global part (Z.of_nat i) (Z.of_nat t)).
    pose proof (owner_box_pieces gn Hs part g fst HD HL (λ _, eq_refl) t box (Z.of_nat i) (Hbox _ _ Hb) Ht ltac:(lia)) as Hp. fold nid in Hp.
    set (l := snd <$> _).
    assert (l ≡ₚ (λ n, (elements (parts_touched (gpart Hs) (n_verts n)), n_cost n)) <$> pieces Hs nid) as Hl.
    { unfold l. rewrite Hp. by rewrite <-list_fmap_compose. }
    destruct (foldl_cut_op l (∅, 0)) as [H1 H2].
    assert (fst (foldl cut_op (∅, 0) l) = parts_touched (gpart Hs) (gverts Hs nid)) as HX.
    { rewrite H1. apply set_eq. intros q. rewrite elem_of_union, elem_of_list_to_set, parts_touched_elem, elem_of_concat. split.
      - intros [(ls & Hq & ((ls' & c) & -> & Hls)%elem_of_list_fmap)|Hq]; [|by apply elem_of_empty in Hq].
        rewrite Hl in Hls. apply elem_of_list_fmap in Hls as (n & [= -> ->] & [Hid Hn]%elem_of_list_filter). simpl in Hq.
        apply elem_of_elements, parts_touched_elem in Hq as (u & Hu & <-). exists u. split; [|done]. apply gverts_elem. eauto.
      - intros (u & (n & Hn & Hid & Hu)%gverts_elem & <-). left. exists (elements (parts_touched (gpart Hs) (n_verts n))). split.
        + apply elem_of_elements, parts_touched_elem. eauto.
        + apply elem_of_list_fmap. exists (elements (parts_touched (gpart Hs) (n_verts n)), n_cost n). split; [done|].
          rewrite Hl. apply elem_of_list_fmap. exists n. split; [done|]. by apply elem_of_list_filter. }
    rewrite HX. fold (lambda (gpart Hs) (gverts Hs nid)). unfold contribution. case_decide as Hlt; [|done].
    assert (snd (foldl cut_op (∅, 0) l) = gcost Hs nid) as ->; [|done]. apply H2.
    - intros Hnil. rewrite Hnil in Hl. apply Permutation_nil in Hl. apply fmap_nil_inv in Hl. unfold gverts in Hlt. rewrite Hl in Hlt.
      csimpl in Hlt. rewrite lambda_nil in Hlt. lia.
    - intros y. rewrite Hl. intros (n & -> & [Hid Hn]%elem_of_list_filter)%elem_of_list_fmap. simpl. rewrite <-Hid. symmetry. by apply (gcost_elem gn).
  Qed.

  (** ** counts *)
  Lemma gcount_zsum nid q : gcount Hs nid q = zsum ((λ n, zcount (λ u, gpart Hs u = q) (n_verts n)) <$> pieces Hs nid).
  Proof.
    unfold gcount, gverts. generalize (pieces Hs nid). intros l. induction l as [|n l IH]; csimpl; [done|].
    rewrite zcount_app, zsum_cons, IH. done.
  Qed.
  Lemma gcount_sum nid : (∀ v, v ∈ all_verts Hs → v_part v = 0 ∨ v_part v = 1) → gcount Hs nid 0 + gcount Hs nid 1 = gsize Hs nid.
  Proof.
    intros HB. assert (∀ u, u ∈ gverts Hs nid → gpart Hs u = 0 ∨ gpart Hs u = 1) as Hu.
    { intros u (n & (H & HH & Hn)%all_nets_elem & _ & Hu)%gverts_elem.
      pose proof (gverts_in_vids H n u HH Hn Hu) as Hv. apply vids_elem in Hv as (v & Hv & <-).
      assert (v ∈ all_verts Hs) by (apply all_verts_elem; eauto).
      rewrite (gpart_elem Hs v (di_verts _ _ HD)) by done. by apply HB. }
    unfold gcount, gsize. revert Hu. generalize (gverts Hs nid). intros l. induction l as [|u l IH]; intros Hu; [done|].
    rewrite !zcount_cons. cbn [length]. specialize (IH ltac:(set_solver)). destruct (Hu u) as [Hq|Hq]; [set_solver|rewrite Hq..]; repeat case_decide; lia.
  Qed.

  Lemma wpe_init_counts_par E (Q : list (list (Z * Z)) → Prop) :
    (∀ v, v ∈ all_verts Hs → v_part v = 0 ∨ v_part v = 1) →
    (∀ n, n ∈ all_nets Hs → n_gsize n = gsize Hs (n_id n)) →
    Q ((λ H, (λ n, (gcount Hs (n_id n) 0, gcount Hs (n_id n) 1)) <$> h_nets H) <$> Hs) → wpe E (init_counts_par bp Hs) Q.
  Proof.
    intros HB Hgs HQ. pose proof (part_lawful bp Hbp gn Hs HD Hgn Hne) as HL. fold p part in HL. unfold init_counts_par. fold p.
    set (cnt q := λ n : net, zcount (λ u, gpart Hs u = q) (n_verts n)).
    apply wpe_bind, (wpe_mapP_eq _ _ (λ H, (λ n, (cnt 0 n, cnt 1 n)) <$> h_nets H)).
    { intros t H HH. assert (H ∈ Hs) as HHs by (by eapply elem_of_list_lookup_2).
      apply wpe_init_counts; [by apply (di_local _ _ HD)| |].
      - intros v Hv. apply HB. apply all_verts_elem. eauto.
      - intros C ->. apply list_fmap_ext. intros i n Hn. apply elem_of_list_lookup_2 in Hn. unfold count_in, cnt.
        f_equal; apply zcount_ext; intros u Hu; rewrite (gpart_local gn Hs H u HD HHs) by (by eapply gverts_in_vids); done. }
    set (g := λ n : net, (n_id n, cnt 0 n)).
    set (send := λ H, (λ n, (pa_owner part (n_id n), g n)) <$> filter (λ n, cnt 0 n > 0) (h_nets H)).
    apply wpe_bind. eapply (wpe_ranks _ _ _ (λ t y, ∀ H, Hs !! t = Some H → y = send H)).
    { intros t Ht. destruct (lookup_lt_is_Some_2 Hs t Ht) as [H HH]. assert (H ∈ Hs) as HHs by (by eapply elem_of_list_lookup_2).
      apply wpe_bind, wpe_nidx with H; [done|]. apply wpe_bind. eapply wpe_nidx; [by rewrite list_lookup_fmap, HH|].
      apply wpe_bind. rewrite fmap_length.
      eapply (wpe_foldM E _ (λ ds r, r = (λ n, (pa_owner part (n_id n), g n)) <$> filter (λ n, cnt 0 n > 0) (take (length ds) (h_nets H)))).
      - done.
      - intros ds i ts r Heq ->.
        assert (i = length ds ∧ i < length (h_nets H))%nat as [-> Hi].
        { assert (seq 0 (length (h_nets H)) !! length ds = Some i) as Hl by (rewrite Heq; by apply list_lookup_middle).
          apply lookup_seq in Hl. lia. }
        destruct (lookup_lt_is_Some_2 (h_nets H) (length ds) Hi) as [n Hn].
        apply wpe_bind. eapply wpe_nidx; [by rewrite list_lookup_fmap, Hn|].
        apply wpe_bind. eapply wpe_nidx; [exact Hn|]. apply wpe_ret. rewrite app_length. cbn [length fst snd]. rewrite Nat.add_1_r.
        rewrite (take_S_r _ _ n Hn), filter_app, fmap_app, filter_cons, filter_nil. rewrite (Hnp H HHs).
        case_decide; [done|]. csimpl. by rewrite app_nil_r.
      - intros r ->. apply wpe_ret. intros H' [= <-]%(eq_trans (eq_sym HH)). rewrite seq_length, firstn_all. done. }
    intros outs Hlo Hout.
    assert (outs = send <$> Hs) as ->.
    { apply list_eq_same_length with p; [by rewrite fmap_length|done|]. intros t y y' Ht Hy Hy'.
      rewrite list_lookup_fmap in Hy'. destruct (Hs !! t) as [H|] eqn:HH; [|done]. injection Hy' as <-. by apply (Hout _ _ Hy). }
    assert (concat (send <$> Hs) = (λ n, (pa_owner part (n_id n), g n)) <$> filter (λ n, cnt 0 n > 0) (all_nets Hs)) as Hcon.
    { unfold all_nets, send.
      assert (∀ l : list hg, concat ((λ H, (λ n, (pa_owner part (n_id n), g n)) <$> filter (λ n, cnt 0 n > 0) (h_nets H)) <$> l) =
        (λ n, (pa_owner part (n_id n), g n)) <$> filter (λ n, cnt 0 n > 0) (concat (h_nets <$> l))) as Hgen; [|apply Hgen].
      induction l as [|H l IH]; [done|]. csimpl. by rewrite filter_app, fmap_app, IH. }
    clear Hout Hlo. apply wpe_bind, wpe_exchange.
    { intros m'. rewrite Hcon, fmap_length. intros (n & -> & [_ Hn]%elem_of_list_filter)%elem_of_list_fmap. apply (la_owner _ _ _ HL). by apply (di_range _ _ HD). }
    rewrite fmap_length, Hcon. intros ins Hlen Hins.
    apply wpe_bind. eapply (wpe_ranks_eq _ _ _ (λ t : nat, (λ i, gcount Hs (pa_global part i (Z.of_nat t)) 0) <$> seqZ 0 (pa_count part (Z.of_nat t)))).
    { intros t Ht. destruct (lookup_lt_is_Some_2 Hs t Ht) as [H HH].
      destruct (lookup_lt_is_Some_2 ins t) as [box Hb]; [by rewrite Hlen|]. assert (H ∈ Hs) as HHs by (by eapply elem_of_list_lookup_2).
      apply wpe_bind, wpe_nidx with H; [done|]. apply wpe_bind, wpe_nidx with box; [done|].
      rewrite (Hnp H HHs).
      assert (box ≡ₚ g <$> filter (λ n, pa_owner part (n_id n) = Z.of_nat t ∧ cnt 0 n > 0) (all_nets Hs)) as Hbox.
      { rewrite (Hins _ _ Hb), filter_fmap, <-list_fmap_compose, filter_filter. done. }
      apply (wpe_agg _ Z.add (λ m : Z * Z, pa_local part (fst m)) snd).
      { intros m' Hm. rewrite replicate_length. rewrite Hbox in Hm. apply elem_of_list_fmap in Hm as (n & -> & [[Ho _] Hn]%elem_of_list_filter).
        simpl. pose proof (la_local _ _ _ HL (n_id n) (di_range _ _ HD _ Hn)). rewrite Ho in *. lia. }
      rewrite imap_replicate, fmap_seq_seqZ. apply list_fmap_ext. intros j i [-> Hi]%lookup_seq. rewrite agg_add.
      rewrite Hbox, filter_fmap, filter_filter, <-list_fmap_compose. unfold compose. simpl. rewrite gcount_zsum. fold (cnt 0).
      unfold pieces. rewrite <-(zsum_filter_pos (cnt 0) (filter (λ n, n_id n = pa_global part (Z.of_nat j) (Z.of_nat t)) (all_nets Hs))). 2: { intros n. apply zcount_nonneg. }
      rewrite filter_filter. f_equal. f_equal. apply HgMore.filter_ext. intros n Hn.
      pose proof (di_range _ _ HD _ Hn) as Hr. split.
      - intros (Hl & Ho & Hpos). split; [done|]. rewrite <-Ho. simpl. rewrite <-Hl. symmetry. by apply (la_global _ _ _ HL).
      - intros [Hpos ->]. destruct (la_inv _ _ _ HL (Z.of_nat t) (Z.of_nat j)) as (_ & ? & ?); [lia|lia|]. done. }
    eapply (wpe_ranks _ _ _ (λ t y, ∀ H, Hs !! t = Some H → y = (λ n, (gcount Hs (n_id n) 0, gcount Hs (n_id n) 1)) <$> h_nets H)).
    2: { intros l' Hl Hl'. replace l' with ((λ H, (λ n, (gcount Hs (n_id n) 0, gcount Hs (n_id n) 1)) <$> h_nets H) <$> Hs); [done|].
      symmetry. apply list_eq_same_length with p; [by rewrite fmap_length|done|]. intros t y y' Ht Hy Hy'.
      rewrite list_lookup_fmap in Hy'. destruct (Hs !! t) as [H|] eqn:HH; [|done]. injection Hy' as <-. by apply (Hl' _ _ Hy). }
    intros t Ht. destruct (lookup_lt_is_Some_2 Hs t Ht) as [H HH]. assert (H ∈ Hs) as HHs by (by eapply elem_of_list_lookup_2).
    apply wpe_bind, wpe_nidx with H; [done|]. rewrite (Hnp H HHs).
    apply (wpe_mapP_eq _ _ (λ n, (gcount Hs (n_id n) 0, gcount Hs (n_id n) 1))).
    2: { by intros H' [= <-]%(eq_trans (eq_sym HH)). }
    intros i n Hn. apply elem_of_list_lookup_2 in Hn. assert (n ∈ all_nets Hs) as Hna by (apply all_nets_elem; eauto).
    pose proof (di_range _ _ HD _ Hna) as Hr. pose proof (la_owner _ _ _ HL _ Hr) as Ho. pose proof (la_local _ _ _ HL _ Hr) as Hl.
    apply wpe_bind. eapply wpe_idx.
    { apply zlookup_Some. split; [lia|]. rewrite list_lookup_fmap, lookup_seq_lt by (fold p in Ho; lia). simpl. done. }
    apply wpe_bind. eapply wpe_idx.
    { apply zlookup_Some. split; [lia|]. rewrite Z2Nat.id by lia. rewrite list_lookup_fmap, lookup_seqZ_lt by lia. simpl. done. }
    apply wpe_ret. rewrite Z2Nat.id by lia. rewrite Z.add_0_l, (la_global _ _ _ HL) by done.
    f_equal. rewrite Hgs by done. rewrite <-gcount_sum by done. lia.
  Qed.
End cut.

(** ** owner_min *)
Lemma wpe_owner_min1 E xs (Q : Z → Prop) : xs ≠ [] →
  (∀ (r : nat) x, xs !! r = Some x → (∀ t y, xs !! t = Some y → x ≤ y ∧ (y = x → (t ≤ r)%nat)) → Q (Z.of_nat r)) →
  wpe E (owner_min1 xs) Q.
Proof.
  intros Hne HQ. unfold owner_min1. destruct xs as [|x0 xs']; [done|]. set (xs := x0 :: xs') in *.
  apply wpe_bind, wpe_idx with x0; [done|]. apply wpe_bind.
  eapply (wpe_foldM E _ (λ (ds : list nat) s, ∃ r : nat, snd s = Z.of_nat r ∧ xs !! r = Some (fst s) ∧
     (∀ (t : nat) y, (t ≤ length ds)%nat → xs !! t = Some y → fst s ≤ y ∧ (y = fst s → (t ≤ r)%nat)))).
  - exists 0%nat. split; [done|]. split; [done|]. intros t y Ht Hy. assert (t = 0)%nat as -> by (simpl in Ht; lia). injection Hy as <-. simpl. split; lia.
  - intros ds t ts s Heq (r & Hr & Hx & Hmin).
    assert (t = S (length ds) ∧ t < length xs)%nat as [-> Ht].
    { assert (seq 1 (length xs - 1) !! length ds = Some t) as Hl by (rewrite Heq; by apply list_lookup_middle).
      apply lookup_seq in Hl. lia. }
    destruct (lookup_lt_is_Some_2 xs _ Ht) as [y Hy]. apply wpe_bind, wpe_nidx with y; [done|]. apply wpe_ret.
    rewrite app_length. cbn [length]. case_decide as Hle.
    + exists (S (length ds)). cbn [fst snd]. split; [done|]. split; [done|]. intros t' y' Ht' Hy'.
      destruct (decide (t' = S (length ds))) as [->|]; [rewrite Hy in Hy'; injection Hy' as <-; lia|].
      destruct (Hmin t' y') as [? ?]; [lia|done|]. split; [lia|]. intros. lia.
    + exists r. split; [done|]. split; [done|]. intros t' y' Ht' Hy'.
      destruct (decide (t' = S (length ds))) as [->|]; [rewrite Hy in Hy'; injection Hy' as <-; lia|].
      destruct (Hmin t' y') as [? ?]; [lia|done|]. split; [lia|]. done.
  - intros s (r & Hr & Hx & Hmin). apply wpe_ret. rewrite Hr. apply (HQ r (fst s)); [done|]. intros t y Hy. apply Hmin; [|done].
    rewrite seq_length. apply lookup_lt_Some in Hy. lia.
Qed.
Lemma wpe_owner_min E xs (Q : list Z → Prop) : xs ≠ [] →
  (∀ (r : nat) x, xs !! r = Some x → (∀ t y, xs !! t = Some y → x ≤ y ∧ (y = x → (t ≤ r)%nat)) → Q (replicate (length xs) (Z.of_nat r))) →
  wpe E (owner_min xs) Q.
Proof.
  intros Hne HQ. unfold owner_min, gather_all.
  apply (wpe_mapP E _ (λ _ _ z, ∃ (r : nat) x, z = Z.of_nat r ∧ xs !! r = Some x ∧ (∀ t y, xs !! t = Some y → x ≤ y ∧ (y = x → (t ≤ r)%nat)))).
  { intros i l [-> Hi]%lookup_replicate. apply wpe_owner_min1; [done|]. intros r x Hx Hm. eauto 10. }
  rewrite replicate_length. intros l' Hlen Hl'.
  destruct (lookup_lt_is_Some_2 l' 0) as [z Hz]. { rewrite Hlen. destruct xs; [done|simpl; lia]. }
  destruct (Hl' 0%nat xs z) as (r & x & -> & Hx & Hm); [|done|].
  { apply lookup_replicate_2. destruct xs; [done|simpl; lia]. }
  replace l' with (replicate (length xs) (Z.of_nat r)); [by eapply HQ|].
  apply list_eq_same_length with (length xs); [done|apply replicate_length|].
  intros i a b Hi [-> _]%lookup_replicate Hb. destruct (Hl' i xs b) as (r' & x' & -> & Hx' & Hm'); [by apply lookup_replicate_2|done|].
  destruct (Hm _ _ Hx') as [? ?], (Hm' _ _ Hx) as [? ?]. assert (x = x') by lia. f_equal. lia.
Qed.

(** ** weights *)
Lemma gpart_weight_sum Hs q : zsum ((λ H, part_weight H q) <$> Hs) = gpart_weight Hs q.
Proof.
  unfold gpart_weight, all_verts. induction Hs as [|H Hs IH]; [done|]. csimpl. rewrite filter_app, fmap_app, zsum_app, zsum_cons, IH. done.
Qed.
Lemma gweight_sum Hs : zsum (tot_weight <$> Hs) = gweight Hs.
Proof.
  unfold gweight, all_verts. induction Hs as [|H Hs IH]; [done|]. csimpl. rewrite fmap_app, zsum_app, zsum_cons, IH. done.
Qed.
Lemma global_weight_spec Hs : global_weight Hs = replicate (length Hs) (gweight Hs).
Proof.
  unfold global_weight, bulk_sum. rewrite fmap_length, foldl_add_acc, Z.add_0_l. f_equal. rewrite <-gweight_sum. f_equal.
  apply list_fmap_ext. intros i H _. apply total_weight_spec.
Qed.
Lemma global_weight_part_spec Hs q : global_weight_part Hs q = replicate (length Hs) (gpart_weight Hs q).
Proof.
  unfold global_weight_part, bulk_sum. rewrite fmap_length, foldl_add_acc, Z.add_0_l. f_equal. rewrite <-gpart_weight_sum. f_equal.
  apply list_fmap_ext. intros i H _. apply weight_part_spec.
Qed.
Lemma wpe_global_weight_parts E Hs k (Q : list (list Z) → Prop) :
  (∀ v, v ∈ all_verts Hs → 0 ≤ v_part v < k) →
  Q (replicate (length Hs) (gpart_weight Hs <$> seqZ 0 k)) → wpe E (global_weight_parts Hs k) Q.
Proof.
  intros Hp HQ. unfold global_weight_parts. apply wpe_bind.
  apply (wpe_mapP_eq _ _ (λ H, part_weight H <$> seqZ 0 k)).
  { intros i H HH. apply wpe_weight_all_parts; [|done]. intros v Hv. apply Hp, all_verts_elem. exists H. split; [by eapply elem_of_list_lookup_2|done]. }
  apply wpe_ret. replace (foldl _ _ _) with (gpart_weight Hs <$> seqZ 0 k); [done|].
  assert (∀ (l : list hg) (f : Z → Z), foldl (zip_with Z.add) (f <$> seqZ 0 k) ((λ H, part_weight H <$> seqZ 0 k) <$> l) =
     (λ q, f q + gpart_weight l q) <$> seqZ 0 k) as Hgen.
  { induction l as [|H l IH]; intros f; csimpl.
    - apply list_fmap_ext. intros i q _. unfold gpart_weight, all_verts. csimpl. unfold zsum; simpl; lia.
    - rewrite zip_with_fmap_l, zip_with_fmap_r, zip_with_diag, IH. apply list_fmap_ext. intros i q _.
      rewrite <-(gpart_weight_sum (H :: l)). csimpl. rewrite zsum_cons, gpart_weight_sum. lia. }
  assert (replicate (Z.to_nat k) 0 = (λ _, 0) <$> seqZ 0 k) as ->.
  { rewrite fmap_seq_seqZ. apply list_eq. intros i. rewrite list_lookup_fmap. destruct (decide (i < Z.to_nat k)%nat).
    - rewrite lookup_replicate_2, lookup_seq_lt by done. done.
    - rewrite (proj2 (lookup_ge_None (replicate _ 0) i)) by (rewrite replicate_length; lia).
      by rewrite (proj2 (lookup_ge_None (seq 0 _) i)) by (rewrite seq_length; lia). }
  rewrite (Hgen Hs (λ _, 0)). done.
Qed.

Lemma wpe_max_element E l (Q : Z → Prop) : l ≠ [] → (∀ x, x ∈ l → (∀ y, y ∈ l → y ≤ x) → Q x) → wpe E (max_element l) Q.
Proof.
  intros Hne HQ. destruct l as [|x l]; [done|]. simpl. apply wpe_ret.
  assert (∀ l x, foldl Z.max x l ∈ x :: l ∧ ∀ y, y ∈ x :: l → y ≤ foldl Z.max x l) as Hm.
  { clear. induction l as [|z l IH]; intros x; simpl.
    - split; [set_solver|]. intros y ->%elem_of_list_singleton. done.
    - destruct (IH (Z.max x z)) as [IH1 IH2]. split.
      + apply elem_of_cons in IH1 as [->|IH1]; [|set_solver]. destruct (Z.max_spec x z) as [[_ ->]|[_ ->]]; set_solver.
      + intros y Hy. assert (Z.max x z ≤ foldl Z.max (Z.max x z) l) by (apply IH2; set_solver).
        apply elem_of_cons in Hy as [->|[->|Hy]%elem_of_cons]; [lia|lia|]. apply IH2. set_solver. }
  destruct (Hm l x). by apply HQ.
Qed.
Lemma wpe_load_balance E H k (Q : dbl → Prop) :
  0 < k → (∀ v, v ∈ h_verts H → 0 ≤ v_part v < k) →
  (∀ q, 0 ≤ q < k → (∀ q', 0 ≤ q' < k → part_weight H q' ≤ part_weight H q) →
     Q (d_sub (d_div (d_of_Z (part_weight H q * k)) (d_of_Z (tot_weight H))) d_one)) →
  wpe E (load_balance H k) Q.
Proof.
  intros Hk Hp HQ. unfold load_balance. apply wpe_bind, wpe_weight_all_parts; [done|].
  apply wpe_bind, wpe_max_element.
  { intros Hnil%fmap_nil_inv. assert (length (seqZ 0 k) = 0%nat) as Hl by (by rewrite Hnil). rewrite seqZ_length in Hl. lia. }
  intros x (q & -> & Hq%elem_of_seqZ)%elem_of_list_fmap Hmax. apply wpe_ret. rewrite total_weight_spec. apply HQ; [lia|].
  intros q' Hq'. apply Hmax. apply elem_of_list_fmap. exists q'. split; [done|]. apply elem_of_seqZ. lia.
Qed.
Lemma wpe_load_balance_par E Hs k (Q : list dbl → Prop) :
  0 < k → (∀ v, v ∈ all_verts Hs → 0 ≤ v_part v < k) →
  (∀ q, 0 ≤ q < k → (∀ q', 0 ≤ q' < k → gpart_weight Hs q' ≤ gpart_weight Hs q) →
     Q (replicate (length Hs) (d_sub (d_div (d_of_Z (gpart_weight Hs q * k)) (d_of_Z (gweight Hs))) d_one))) →
  wpe E (load_balance_par Hs k) Q.
Proof.
  intros Hk Hp HQ. unfold load_balance_par. apply wpe_bind, wpe_global_weight_parts; [done|].
  set (P x := ∃ q, x = gpart_weight Hs q ∧ 0 ≤ q < k ∧ ∀ q', 0 ≤ q' < k → gpart_weight Hs q' ≤ gpart_weight Hs q).
  assert (∃ x, P x) as [x0 HP0].
  { assert (wp (max_element (gpart_weight Hs <$> seqZ 0 k)) P) as Hw.
    { apply wpe_max_element.
      { intros Hnil%fmap_nil_inv. assert (length (seqZ 0 k) = 0%nat) as Hl by (by rewrite Hnil). rewrite seqZ_length in Hl. lia. }
      intros x (q & -> & Hq%elem_of_seqZ)%elem_of_list_fmap Hmax. exists q. split; [done|]. split; [lia|].
      intros q' Hq'. apply Hmax. apply elem_of_list_fmap. exists q'. split; [done|]. apply elem_of_seqZ. lia. }
    apply wp_run with (w := w0) in Hw as (x & _ & _ & Hx). eauto. }
  apply (wpe_ranks_eq _ _ _ (λ _, d_sub (d_div (d_of_Z (x0 * k)) (d_of_Z (gweight Hs))) d_one)).
  - intros t Ht. apply wpe_bind. eapply wpe_nidx; [by apply lookup_replicate_2|].
    apply wpe_bind. eapply wpe_nidx; [rewrite global_weight_spec; by apply lookup_replicate_2|].
    apply wpe_bind, wpe_max_element.
    { intros Hnil%fmap_nil_inv. assert (length (seqZ 0 k) = 0%nat) as Hl by (by rewrite Hnil). rewrite seqZ_length in Hl. lia. }
    intros x (q & -> & Hq%elem_of_seqZ)%elem_of_list_fmap Hmax. apply wpe_ret. do 4 f_equal.
    destruct HP0 as (q0 & -> & Hq0 & Hm). apply Z.le_antisymm; [apply Hm; lia|].
    apply Hmax, elem_of_list_fmap. exists q0. split; [done|]. apply elem_of_seqZ. lia.
  - destruct HP0 as (q0 & -> & Hq0 & Hm). specialize (HQ q0 Hq0 Hm).
    replace (_ <$> seq 0 (length Hs)) with (replicate (length Hs) (d_sub (d_div (d_of_Z (gpart_weight Hs q0 * k)) (d_of_Z (gweight Hs))) d_one)); [done|].
    symmetry. clear. generalize 0%nat. induction (length Hs) as [|n IH]; intros i; [done|]. csimpl. by rewrite IH.
Qed.
