(** The distributed reader on valid listings. *)
From Verif Require Export ReaderProof.

Lemma split_by_cons {A} (f : A → Z) x l (L : list nat) : NoDup L →
  concat ((λ s : nat, filter (λ y, f y = Z.of_nat s) (x :: l)) <$> L) ≡ₚ
  (if decide (0 ≤ f x ∧ Z.to_nat (f x) ∈ L) then [x] else []) ++ concat ((λ s : nat, filter (λ y, f y = Z.of_nat s) l) <$> L).
Proof.
  induction 1 as [|s L Hs HL IH].
  - rewrite decide_False; [done|]. intros [_ Hx]. by apply elem_of_nil in Hx.
  - rewrite !fmap_cons. cbn [concat]. rewrite IH, filter_cons. destruct (decide (f x = Z.of_nat s)) as [Heq|Hne].
    + rewrite (decide_True (P := 0 ≤ f x ∧ Z.to_nat (f x) ∈ s :: L)) by (split; [lia|]; rewrite Heq, Nat2Z.id; left).
      rewrite (decide_False (P := 0 ≤ f x ∧ Z.to_nat (f x) ∈ L)) by (rewrite Heq, Nat2Z.id; tauto). done.
    + destruct (decide (0 ≤ f x ∧ Z.to_nat (f x) ∈ L)) as [[Hx1 Hx2]|Hx].
      * rewrite decide_True by (split; [done|by right]). cbn [app]. by rewrite Permutation_middle.
      * rewrite decide_False; [done|]. intros [H1 [H2|H2]%elem_of_cons]; [lia|tauto].
Qed.
(** a list split by a function into [0,p) *)
Lemma concat_split_by {A} (f : A → Z) (l : list A) (p : nat) : (∀ x, x ∈ l → 0 ≤ f x < Z.of_nat p) →
  concat ((λ s : nat, filter (λ x, f x = Z.of_nat s) l) <$> seq 0 p) ≡ₚ l.
Proof.
  induction l as [|x l IH]; intros Hf.
  - clear Hf. induction (seq 0 p) as [|s L IHL]; [done|]. rewrite fmap_cons. cbn [concat]. by rewrite IHL.
  - rewrite split_by_cons by apply NoDup_seq. rewrite IH by set_solver. rewrite decide_True; [done|].
    pose proof (Hf x ltac:(left)). split; [lia|]. apply elem_of_seq. lia.
Qed.
Lemma filter_eq_NoDup {A} `{EqDecision A} (x : A) (l : list A) : NoDup l → x ∈ l → filter (λ y, y = x) l = [x].
Proof.
  induction 1 as [|y l Hy Hl IH]; intros Hx; [by apply elem_of_nil in Hx|]. rewrite filter_cons.
  destruct (decide (y = x)) as [->|Hne].
  - rewrite filter_none; [done|]. intros z Hz ->. done.
  - apply elem_of_cons in Hx as [->|Hx]; [done|]. by apply IH.
Qed.

Section readpar.
  Context (bp : Z → Z → partitioning) (Hbp : lawful_family bp) (p : nat) (Hp : (0 < p)%nat).
  Context (t : text) (sy : matrix_symmetry) (E V L : Z) (entries : list (Z * Z)) (mode : wmode).
  Context (Hlist : listing t sy E V L entries) (Hval : valid_listing sy E V L entries) (Hm : mode ≠ ModeOther).
  Context (HL32 : L < 4294967296) (Hnd : NoDup (nonzeros sy entries)).
  Notation part := (bp (Z.of_nat p) V).
  Notation nzs := (nonzeros sy entries).

  Definition ids_at (s : nat) : list Z := (λ i, pa_global part i (Z.of_nat s)) <$> seqZ 0 (pa_count part (Z.of_nat s)).
  Definition piece_at (s : nat) : hg :=
    mk_hg V E (columns nzs (mode_weight mode) (ids_at s)) (rows (mine part s nzs) E) (Z.of_nat (length nzs)).

  Lemma dims_nonneg : 0 ≤ E ∧ 0 ≤ V.
  Proof. clear Hnd. destruct Hlist as (? & ? & ? & ? & ? & _ & _ & _ & Hs & _). by eapply size_line_nonneg. Qed.
  Lemma part_lawful : lawful (Z.of_nat p) V part.
  Proof. apply Hbp; [lia|apply dims_nonneg]. Qed.
  Lemma ids_at_elem s j : (s < p)%nat → j ∈ ids_at s ↔ 0 ≤ j < V ∧ pa_owner part j = Z.of_nat s.
  Proof.
    intros Hs. pose proof part_lawful as Hlaw. unfold ids_at. rewrite elem_of_list_fmap. split.
    - intros (i & -> & Hi%elem_of_seqZ). destruct (la_inv _ _ _ Hlaw (Z.of_nat s) i ltac:(lia) ltac:(lia)) as (? & ? & _). done.
    - intros [Hj Ho]. pose proof (la_local _ _ _ Hlaw j Hj) as Hl. pose proof (la_global _ _ _ Hlaw j Hj) as Hg. rewrite Ho in *.
      exists (pa_local part j). split; [done|]. apply elem_of_seqZ. lia.
  Qed.
  Lemma ids_at_NoDup s : (s < p)%nat → NoDup (ids_at s).
  Proof.
    intros Hs. pose proof part_lawful as Hlaw. unfold ids_at. apply NoDup_fmap_2_strong; [|apply NoDup_seqZ].
    intros i i' Hi%elem_of_seqZ Hi'%elem_of_seqZ Heq.
    destruct (la_inv _ _ _ Hlaw (Z.of_nat s) i ltac:(lia) ltac:(lia)) as (_ & _ & <-).
    destruct (la_inv _ _ _ Hlaw (Z.of_nat s) i' ltac:(lia) ltac:(lia)) as (_ & _ & <-). by rewrite Heq.
  Qed.
  Lemma count_le s : (s < p)%nat → pa_count part (Z.of_nat s) ≤ V.
  Proof.
    intros Hs. pose proof dims_nonneg. destruct (decide (pa_count part (Z.of_nat s) ≤ V)) as [|Hgt]; [done|].
    assert (length (ids_at s) ≤ length (seqZ 0 V))%nat as Hle.
    { apply submseteq_length, NoDup_submseteq; [by apply ids_at_NoDup|]. intros j Hj%ids_at_elem; [|done]. apply elem_of_seqZ. lia. }
    unfold ids_at in Hle. rewrite fmap_length, !seqZ_length in Hle. lia.
  Qed.

  Lemma read_local_listing s : (s < p)%nat → wp (read_local bp t mode p s) (λ o, o = Some (piece_at s)).
  Proof.
    intros Hs. pose proof part_lawful as Hlaw. pose proof (count_le s Hs) as Hcnt. clear Hnd.
    destruct Hlist as (banner & comments & sizes & lines & body & -> & Hb & Hc & Hsz & Hl & Hbody).
    pose proof (vl_rows _ _ _ _ _ Hval) as HE. pose proof (vl_cols _ _ _ _ _ Hval) as HV. pose proof (vl_entries _ _ _ _ _ Hval) as HL.
    destruct (read_header_listing (symmetry_name sy) E V L banner comments sizes body Hb Hc Hsz) as (line & Hhd); [unfold two64; lia..|].
    unfold read_local. rewrite Hhd. cbn [fst snd].
    destruct (entry_lines_ok _ _ Hl) as [Hnl Hne]. pose proof (next_lines_listing lines body line Hnl Hne Hbody) as Hnext.
    pose proof (valid_entries _ _ _ _ _ _ Hval Hl) as Hent.
    apply wpe_bind. eapply wpe_of_option_Some; [done|].
    apply wpe_bind, wpe_new_lists; [unfold maxdim; lia|]. apply wpe_bind, wpe_new_lists; [done|].
    apply wpe_bind. eapply wpe_of_option_Some; [done|]. apply wpe_bind.
    change (((λ _ : Z, []) <$> seqZ 0 (pa_count part (Z.of_nat s))), ((λ _ : Z, []) <$> seqZ 0 E)) with (lists_par part s E []).
    assert (wp (match build_vertices mode (ids_at s) ((λ i, column nzs (pa_global part i (Z.of_nat s))) <$> seqZ 0 (pa_count part (Z.of_nat s))) with
            | None => ret None
            | Some vs => ret (Some (mk_hg V E vs (build_nets ((λ i, row (mine part s nzs) i) <$> seqZ 0 E)) (Z.of_nat (length nzs))))
            end) (λ o, o = Some (piece_at s))) as Hend.
    { replace ((λ i, column nzs (pa_global part i (Z.of_nat s))) <$> seqZ 0 (pa_count part (Z.of_nat s))) with (column nzs <$> ids_at s)
        by (unfold ids_at; by rewrite <-list_fmap_compose).
      rewrite build_vertices_eq by done. rewrite build_nets_seqZ. by apply wpe_ret. }
    pose proof (vl_count _ _ _ _ _ Hval) as ->. unfold lists_par in Hend. destruct sy; cbn [symmetry_name].
    - rewrite decide_True by done. apply wpe_bind. eapply wpe_of_option_Some; [done|].
      apply (wpe_read_general_par part (Z.of_nat p) s E V Hlaw ltac:(lia) HE HV _ entries lines); [done..|]. exact Hend.
    - rewrite decide_False by done. rewrite decide_True by done. apply wpe_bind. eapply wpe_of_option_Some; [done|].
      apply (wpe_read_symmetric_par part (Z.of_nat p) s E V Hlaw ltac:(lia) HE HV _ entries lines); [by apply (vl_square _ _ _ _ _ Hval)|done..|].
      exact Hend.
  Qed.

  Notation Hs0 := (piece_at <$> seq 0 p).
  Lemma piece_consistent s : (s < p)%nat → consistent (piece_at s).
  Proof.
    intros Hs. pose proof (nonzeros_range _ _ _ _ _ Hval) as Hr. rewrite Forall_forall in Hr. unfold piece_at. apply matrix_consistent.
    - done.
    - by apply NoDup_filter.
    - by apply ids_at_NoDup.
    - apply Forall_forall. intros ev Hev. apply (Hr ev Hev).
    - intros ev. unfold mine. rewrite elem_of_list_filter, ids_at_elem by done. split.
      + intros [Ho Hev]. pose proof (Hr ev Hev). split; [done|]. split; [lia|done].
      + intros [Hev [_ Ho]]. done.
  Qed.
  Lemma Hs0_elem H : H ∈ Hs0 → ∃ s, (s < p)%nat ∧ H = piece_at s.
  Proof. intros (s & -> & Hs%elem_of_seq)%elem_of_list_fmap. exists s. split; [lia|done]. Qed.
  Lemma Hs0_vids : v_id <$> all_verts Hs0 = concat (ids_at <$> seq 0 p).
  Proof.
    unfold all_verts. rewrite <-concat_fmap, <-!list_fmap_compose. f_equal. apply list_fmap_ext. intros k s _. cbn.
    unfold columns. rewrite <-list_fmap_compose. rewrite (list_fmap_ext _ id); [by rewrite list_fmap_id|done].
  Qed.
  Lemma Hs0_vids_perm : v_id <$> all_verts Hs0 ≡ₚ seqZ 0 V.
  Proof.
    rewrite Hs0_vids. pose proof part_lawful as Hlaw. rewrite <-(concat_split_by (pa_owner part) (seqZ 0 V) p).
    2: { intros j Hj%elem_of_seqZ. apply (la_owner _ _ _ Hlaw). lia. }
    apply concat_Forall2_perm, Forall2_same_length_lookup. rewrite !fmap_length. split; [done|]. intros k x y.
    rewrite !list_lookup_fmap. destruct (seq 0 p !! k) as [s|] eqn:Hk; [|done]. apply lookup_seq in Hk as [-> Hk]. intros [= <-] [= <-].
    apply NoDup_Permutation; [by apply ids_at_NoDup|apply NoDup_filter, NoDup_seqZ|]. intros j.
    rewrite ids_at_elem by lia. rewrite elem_of_list_filter, elem_of_seqZ. split; intros; split; try tauto; lia.
  Qed.
  Lemma Hs0_distributed : distributed E Hs0.
  Proof.
    split.
    - intros H (s & Hs & ->)%Hs0_elem. by apply piece_consistent.
    - by intros H (s & Hs & ->)%Hs0_elem.
    - rewrite Hs0_vids_perm. apply NoDup_seqZ.
    - intros n (H & (s & Hs & ->)%Hs0_elem & (i & -> & [_ Hi%elem_of_seqZ]%elem_of_list_filter)%elem_of_list_fmap)%all_nets_elem. cbn. lia.
    - intros n n' (H & (s & Hs & ->)%Hs0_elem & (i & -> & _)%elem_of_list_fmap)%all_nets_elem.
      by intros (H & (s' & Hs' & ->)%Hs0_elem & (i' & -> & _)%elem_of_list_fmap)%all_nets_elem.
  Qed.
  Lemma rows_piece l i : 0 ≤ i < E → concat (n_verts <$> filter (λ n, n_id n = i) (rows l E)) = row l i.
  Proof.
    intros Hi. unfold rows. rewrite filter_fmap, <-list_fmap_compose. unfold compose. cbn. rewrite filter_filter.
    destruct (decide (row l i = [])) as [Hnil|Hne].
    - rewrite filter_none; [by rewrite Hnil|]. intros x _ [-> ?]. done.
    - rewrite (HgMore.filter_ext _ (λ x, x = i)).
      + rewrite filter_eq_NoDup; [|apply NoDup_seqZ|by apply elem_of_seqZ]. cbn. by rewrite app_nil_r.
      + intros x _. split; [tauto|]. by intros ->.
  Qed.
  Lemma Hs0_gverts i : 0 ≤ i < E → gverts Hs0 i ≡ₚ row nzs i.
  Proof.
    intros Hi. pose proof part_lawful as Hlaw. unfold gverts, pieces, all_nets.
    assert (∀ ls, concat (n_verts <$> filter (λ n, n_id n = i) (concat (h_nets <$> (piece_at <$> ls)))) = concat ((λ s, row (mine part s nzs) i) <$> ls)) as ->.
    { induction ls as [|s ls IH]; [done|]. rewrite !fmap_cons. cbn [concat]. rewrite filter_app, fmap_app, concat_app, IH. f_equal. by apply rows_piece. }
    transitivity (row (concat ((λ s : nat, mine part s nzs) <$> seq 0 p)) i).
    - apply reflexive_eq. generalize (seq 0 p) as ls. induction ls as [|s ls IH]; [done|]. rewrite !fmap_cons. cbn [concat].
      rewrite IH. unfold row. by rewrite filter_app, fmap_app.
    - unfold row, mine. rewrite (concat_split_by (λ ev : Z * Z, pa_owner part (snd ev - 1)) nzs p); [done|].
      intros ev Hev. apply (la_owner _ _ _ Hlaw). pose proof (nonzeros_range _ _ _ _ _ Hval) as Hr. rewrite Forall_forall in Hr. pose proof (Hr ev Hev). lia.
  Qed.
End readpar.

Section readpar_main.
  Context (bp : Z → Z → partitioning) (Hbp : lawful_family bp) (p : nat) (Hp : (0 < p)%nat).
  Context (t : text) (sy : matrix_symmetry) (E V L : Z) (entries : list (Z * Z)) (mode : wmode).
  Context (Hlist : listing t sy E V L entries) (Hval : valid_listing sy E V L entries) (Hm : mode ≠ ModeOther).
  Context (HL32 : L < 4294967296) (Hnd : NoDup (nonzeros sy entries)).
  Notation Hs0 := (piece_at bp p sy E V entries mode <$> seq 0 p).

  Lemma wpe_read_hypergraph_par (Er : err → Prop) (Q : option (list hg) → Prop) :
    (∀ Hs', length Hs' = p →
       (∀ s H H', Hs0 !! s = Some H → Hs' !! s = Some H' → small_nets_removed 0 Hs0 H H' ∧ consistent H') → Q (Some Hs')) →
    wpe Er (read_hypergraph_par bp t mode p) Q.
  Proof.
    intros HQ. unfold read_hypergraph_par. apply wpe_bind.
    apply (wpe_mapP_eq Er _ (λ s, Some (piece_at bp p sy E V entries mode s))).
    { intros i s Hi. apply lookup_seq in Hi as [-> Hi]. apply wp_wpe. eapply read_local_listing; eauto; lia. }
    replace (mapM (λ o : option hg, o) ((λ s, Some (piece_at bp p sy E V entries mode s)) <$> seq 0 p)) with (Some Hs0).
    2: { symmetry. apply mapM_Some. generalize (seq 0 p) as l. induction l as [|s l IH]; constructor; done. }
    apply wpe_bind. destruct (dims_nonneg t sy E V L entries Hlist) as [HE _].
    apply (wpe_remove_free_nets_par bp Hbp E Hs0).
    - by eapply Hs0_distributed.
    - done.
    - intros Hnil. apply (f_equal length) in Hnil. rewrite fmap_length, seq_length in Hnil. cbn in Hnil. lia.
    - rewrite fmap_length, seq_length. intros Hs' Hlen HR. apply wpe_ret. by apply HQ.
  Qed.
End readpar_main.
