(** Proofs about remove_free_nets(world), distributed cuts and counts. *)
From Verif Require Export ParProof.

Section remove.
  Context (bp : Z → Z → partitioning) (Hbp : lawful_family bp) (gn : Z) (Hs : list hg).
  Context (HD : distributed gn Hs) (Hgn : 0 ≤ gn) (Hne : Hs ≠ []).

  Lemma sized_consistent H : consistent H → consistent (sized Hs H).
  Proof. intros HC. by apply (with_nets_same_ids_consistent H (λ n, set_ngsize (gsize Hs (n_id n)) n)). Qed.

  Lemma wpe_remove_free_nets_par E m (Q : list hg → Prop) :
    (∀ Hs', length Hs' = length Hs →
       (∀ t H H', Hs !! t = Some H → Hs' !! t = Some H' → small_nets_removed m Hs H H' ∧ consistent H') → Q Hs') →
    wpe E (remove_free_nets_par bp Hs m) Q.
  Proof.
    intros HQ. unfold remove_free_nets_par. apply wpe_bind, (wpe_global_net_sizes bp Hbp gn Hs HD Hgn Hne).
    eapply (wpe_mapP E _ (λ t _ H', ∀ H, Hs !! t = Some H → small_nets_removed m Hs H H' ∧ consistent H')).
    2: { rewrite fmap_length. intros l' Hlen Hl'. apply HQ; [done|]. intros t H H' HH HH'.
      apply (Hl' t (sized Hs H, (λ n, gsize Hs (n_id n)) <$> h_nets H) H'); [by rewrite list_lookup_fmap, HH|done|done]. }
    intros t r Hr. rewrite list_lookup_fmap in Hr. destruct (Hs !! t) as [H|] eqn:HH; [|done]. injection Hr as <-. cbn [fst snd].
    assert (H ∈ Hs) as HHs by (by eapply elem_of_list_lookup_2). pose proof (di_local _ _ HD _ HHs) as HC.
    pose proof (sized_consistent H HC) as HC1.
    apply wpe_bind. set (P := λ n : net, gsize Hs (n_id n) ≤ m ∨ n_verts n = []).
    eapply (wpe_foldM E _ (λ ds X, ∀ id, id ∈ X ↔ ∃ (i : nat) n, i ∈ ds ∧ h_nets H !! i = Some n ∧ P n ∧ n_id n = id)).
    { set_solver. }
    { intros ds i ts X Heq HX.
      assert (i < length (h_nets H))%nat as Hi.
      { assert (i ∈ seq 0 (length (h_nets (sized Hs H)))) as Hin by (rewrite Heq; set_solver). apply elem_of_seq in Hin.
        unfold sized in Hin. simpl in Hin. rewrite fmap_length in Hin. lia. }
      destruct (lookup_lt_is_Some_2 _ _ Hi) as [n Hn].
      apply wpe_bind. eapply wpe_nidx; [unfold sized; simpl; by rewrite list_lookup_fmap, Hn|].
      apply wpe_bind. eapply wpe_nidx; [by rewrite list_lookup_fmap, Hn|]. apply wpe_ret. intros id.
      change (n_verts (set_ngsize (gsize Hs (n_id n)) n)) with (n_verts n). change (n_id (set_ngsize (gsize Hs (n_id n)) n)) with (n_id n).
      change (gsize Hs (n_id n) ≤ m ∨ n_verts n = []) with (P n). split.
      - intros Hid. case_decide as HP.
        + apply elem_of_union in Hid as [Hid|Hid]; [apply elem_of_singleton in Hid as ->|apply HX in Hid].
          * exists i, n. split; [set_solver|done].
          * destruct Hid as (j & n' & Hj & ?). exists j, n'. split; [set_solver|done].
        + apply HX in Hid as (j & n' & Hj & ?). exists j, n'. split; [set_solver|done].
      - intros (j & n' & Hj & Hn' & HP & <-). apply elem_of_app in Hj as [Hj|Hj]; [|apply elem_of_list_singleton in Hj as ->].
        + assert (n_id n' ∈ X) by (apply HX; by exists j, n'). case_decide; set_solver.
        + rewrite Hn in Hn'. injection Hn' as <-. rewrite decide_True by done. set_solver. }
    intros X HX.
    assert (∀ id, id ∈ X ↔ ∃ n, n ∈ h_nets H ∧ P n ∧ n_id n = id) as HX'.
    { intros id. rewrite HX. split.
      - intros (i & n & _ & Hn & ? & ?). exists n. split; [by eapply elem_of_list_lookup_2|done].
      - intros (n & (i & Hn)%elem_of_list_lookup & ? & ?). exists i, n. split; [|done]. apply elem_of_seq.
        unfold sized. simpl. rewrite fmap_length. apply lookup_lt_Some in Hn. lia. }
    clear HX. apply wpe_bind, wpe_shuffle. intros order Ho.
    assert (∀ id, id ∈ order ↔ id ∈ X) as Hord by (intros id; by rewrite Ho, elem_of_elements).
    apply wpe_remove_nets; [done|rewrite Ho; apply NoDup_elements|..].
    { intros id (n & Hn & _ & <-)%Hord%HX'. apply nids_elem. exists (set_ngsize (gsize Hs (n_id n)) n). split; [|done].
      unfold sized. simpl. apply elem_of_list_fmap. eauto. }
    intros H' [R1 R2 R3 R4 R5] HC' Hvm' Hd' H0 [= <-]. split; [|done].
    split; try done.
    - rewrite R1. unfold sized. simpl. rewrite filter_fmap. apply reflexive_eq. f_equal.
      apply HgMore.filter_ext. intros n Hn. simpl. rewrite Hord, HX'. split.
      + intros Hno. split.
        * destruct (decide (m < gsize Hs (n_id n))) as [|Hlt]; [done|]. destruct Hno. exists n. split; [done|]. split; [left; lia|done].
        * intros Hnil. destruct Hno. exists n. split; [done|]. split; [by right|done].
      + intros [Hlt Hnil] (n' & Hn' & HP & Heq).
        assert (n' = n) as -> by (eapply (nmap_ok_elem_eq H); [by apply co_nmap_ok|done..]). destruct HP; [lia|done].
    - unfold sized in R2. simpl in R2.
      apply Forall2_same_length_lookup. split; [by apply (Forall2_length _ _ _ R2)|].
      intros i v v' Hi Hi'. pose proof (Forall2_lookup_lr _ _ _ _ _ _ R2 Hi Hi') as (E1 & E2 & E3 & E4).
      pose proof (elem_of_list_lookup_2 _ _ _ Hi) as Hv. split_and!; try done. rewrite E4. apply reflexive_eq.
      apply HgMore.filter_ext. intros nid Hnid. rewrite Hord, HX'. destruct (co_inc1 _ HC _ _ Hv Hnid) as (n & Hn & <- & Hin). split.
      + intros Hno. destruct (decide (m < gsize Hs (n_id n))) as [|Hlt]; [done|]. destruct Hno. exists n. split; [done|]. split; [left; lia|done].
      + intros Hlt (n' & Hn' & HP & Heq).
        assert (n' = n) as -> by (eapply (nmap_ok_elem_eq H); [by apply co_nmap_ok|done..]). destruct HP as [?|Hnil]; [lia|].
        rewrite Hnil in Hin. by apply elem_of_nil in Hin.
  Qed.
End remove.

(** consequences for the whole hypergraph *)
Lemma concat_Forall2_perm {A} (l l' : list (list A)) : Forall2 Permutation l l' → concat l ≡ₚ concat l'.
Proof. induction 1 as [|x y l l' Hxy _ IH]; [done|]. simpl. by rewrite Hxy, IH. Qed.
Lemma Forall2_lists {A} (R : A → A → Prop) (l l' : list A) : length l' = length l →
  (∀ t x y, l !! t = Some x → l' !! t = Some y → R x y) → Forall2 R l l'.
Proof. intros Hlen HR. apply Forall2_same_length_lookup. split; [done|]. intros i x y. apply HR. Qed.
Lemma concat_fmap_perm (l l' : list net) : l ≡ₚ l' → concat (n_verts <$> l) ≡ₚ concat (n_verts <$> l').
Proof.
  induction 1 as [|x l l' _ IH|x y l|l1 l2 l3 _ IH1 _ IH2]; csimpl; [done|by rewrite IH| |by rewrite IH1].
  rewrite !app_assoc. by rewrite (Permutation_app_comm (n_verts y)).
Qed.
Lemma concat_fmap_filter_nil (P : net → Prop) {HP : ∀ n, Decision (P n)} (l : list net) :
  (∀ n, n ∈ l → ¬ P n → n_verts n = []) → concat (n_verts <$> filter P l) = concat (n_verts <$> l).
Proof.
  induction l as [|n l IH]; intros Hl; [done|]. rewrite filter_cons. csimpl. destruct (decide (P n)); csimpl.
  - by rewrite IH by set_solver.
  - rewrite (Hl n) by set_solver. simpl. apply IH. set_solver.
Qed.

Section whole.
  Context (gn : Z) (Hs Hs' : list hg) (m : Z) (HD : distributed gn Hs) (Hlen : length Hs' = length Hs).
  Context (HR : ∀ t H H', Hs !! t = Some H → Hs' !! t = Some H' → small_nets_removed m Hs H H' ∧ consistent H').
  Let f := λ n, Net (n_id n) (n_verts n) (n_cost n) (gsize Hs (n_id n)).

  Lemma snr_all_nets : all_nets Hs' ≡ₚ f <$> filter (λ n, m < gsize Hs (n_id n) ∧ n_verts n ≠ []) (all_nets Hs).
  Proof.
    unfold all_nets.
    assert (∀ l : list hg, f <$> filter (λ n, m < gsize Hs (n_id n) ∧ n_verts n ≠ []) (concat (h_nets <$> l)) =
      concat ((λ H, f <$> filter (λ n, m < gsize Hs (n_id n) ∧ n_verts n ≠ []) (h_nets H)) <$> l)) as ->.
    { induction l as [|H l IH]; [done|]. csimpl. by rewrite filter_app, fmap_app, IH. }
    apply concat_Forall2_perm. apply Forall2_same_length_lookup. rewrite !fmap_length. split; [done|].
    intros t x y. rewrite !list_lookup_fmap. destruct (Hs' !! t) as [H'|] eqn:HH', (Hs !! t) as [H|] eqn:HH; try done.
    intros [= <-] [= <-]. destruct (HR _ _ _ HH HH') as [[Hn _ _ _ _ _ _] _]. exact Hn.
  Qed.
  Lemma snr_all_vids : v_id <$> all_verts Hs' = v_id <$> all_verts Hs.
  Proof.
    unfold all_verts. rewrite <-!concat_fmap, <-!list_fmap_compose. f_equal.
    apply list_eq_same_length with (length Hs); [by rewrite fmap_length|by rewrite fmap_length|].
    intros t x y Ht. rewrite !list_lookup_fmap. destruct (Hs' !! t) as [H'|] eqn:HH', (Hs !! t) as [H|] eqn:HH; try done.
    intros [= <-] [= <-]. destruct (HR _ _ _ HH HH') as [[_ Hv _ _ _ _ _] _]. unfold compose.
    clear -Hv. induction Hv as [|v v' l l' (Hid & _) _ IH]; csimpl; congruence.
  Qed.
  Lemma snr_distributed : distributed gn Hs'.
  Proof.
    assert (∀ n, n ∈ all_nets Hs' → ∃ n0, n0 ∈ all_nets Hs ∧ n = f n0) as Hin.
    { intros n. rewrite snr_all_nets. intros (n0 & -> & [_ Hn0]%elem_of_list_filter)%elem_of_list_fmap. eauto. }
    assert (∀ H', H' ∈ Hs' → ∃ t H, Hs !! t = Some H ∧ Hs' !! t = Some H') as Hl.
    { intros H' (t & HH')%elem_of_list_lookup. exists t. destruct (Hs !! t) as [H|] eqn:HH; [eauto|].
      apply lookup_ge_None in HH. apply lookup_lt_Some in HH'. lia. }
    split.
    - intros H' (t & H & HH & HH')%Hl. apply (HR _ _ _ HH HH').
    - intros H' (t & H & HH & HH')%Hl. destruct (HR _ _ _ HH HH') as [[_ _ _ Hg _ _ _] _]. rewrite Hg. by eapply distributed_gnets.
    - rewrite snr_all_vids. apply (di_verts _ _ HD).
    - intros n (n0 & Hn0 & ->)%Hin. simpl. by apply (di_range _ _ HD).
    - intros n n' (n0 & Hn0 & ->)%Hin (n1 & Hn1 & ->)%Hin. simpl. by apply (di_cost _ _ HD).
  Qed.
  Lemma snr_gverts nid : gverts Hs' nid ≡ₚ if decide (m < gsize Hs nid) then gverts Hs nid else [].
  Proof.
    unfold gverts, pieces. rewrite (concat_fmap_perm _ (filter (λ n, n_id n = nid) (f <$> filter (λ n, m < gsize Hs (n_id n) ∧ n_verts n ≠ []) (all_nets Hs))))
      by (by rewrite snr_all_nets).
    rewrite filter_fmap, <-list_fmap_compose. unfold compose. simpl. rewrite filter_filter. case_decide as Hlt.
    - rewrite <-(concat_fmap_filter_nil (λ n, n_verts n ≠ []) (filter (λ n, n_id n = nid) (all_nets Hs))).
      2: { intros n Hn Hnn. destruct (n_verts n); [done|]. by destruct Hnn. }
      rewrite filter_filter. apply reflexive_eq. do 2 f_equal. apply HgMore.filter_ext. intros n Hn. split; [tauto|].
      intros [? <-]. done.
    - rewrite filter_none; [done|]. intros n Hn (<- & ? & _). done.
  Qed.
  Lemma snr_gsize nid : gsize Hs' nid = if decide (m < gsize Hs nid) then gsize Hs nid else 0.
  Proof. unfold gsize at 1. rewrite snr_gverts. by case_decide. Qed.
  Lemma snr_gcost nid : gverts Hs' nid ≠ [] → gcost Hs' nid = gcost Hs nid.
  Proof.
    intros Hne. destruct (gverts Hs' nid) as [|u l] eqn:Heq; [done|].
    assert (u ∈ gverts Hs' nid) as (n & Hn & <- & Hu)%gverts_elem by (rewrite Heq; left).
    rewrite (gcost_elem gn Hs' n snr_distributed Hn).
    rewrite snr_all_nets in Hn. apply elem_of_list_fmap in Hn as (n0 & -> & [_ Hn0]%elem_of_list_filter). simpl.
    symmetry. by apply (gcost_elem gn).
  Qed.
  Lemma snr_cuts σ : m ≤ 1 →
    cut_net_size (whole_nets Hs' gn) σ = cut_net_size (whole_nets Hs gn) σ ∧
    lambda_size (whole_nets Hs' gn) σ = lambda_size (whole_nets Hs gn) σ.
  Proof.
    intros Hm. unfold cut_net_size, lambda_size, whole_nets. rewrite <-!list_fmap_compose.
    assert (∀ nid, gverts Hs' nid ≡ₚ gverts Hs nid ∨ (gverts Hs' nid = [] ∧ gsize Hs nid ≤ 1)) as Hc.
    { intros nid. pose proof (snr_gverts nid) as Hg. case_decide; [by left|]. right. split; [by apply Permutation_nil_r|lia]. }
    assert (∀ vs, Z.of_nat (length vs) ≤ 1 → lambda σ vs ≤ 1 ∧ (vs ≠ [] → lambda σ vs = 1)) as Hl1.
    { intros vs Hl. assert (¬ 1 < lambda σ vs) as Hgt.
      { rewrite lambda_gt_1. intros (u & v & Hu & Hv & Hne). destruct vs as [|x [|y vs]]; simpl in Hl; [set_solver| |lia].
        apply elem_of_list_singleton in Hu as ->. apply elem_of_list_singleton in Hv as ->. done. }
      split; [lia|]. intros Hnn. pose proof (lambda_pos σ vs Hnn). lia. }
    split; apply zsum_fmap_ext; intros nid _; simpl.
    - destruct (Hc nid) as [Hp|[Hnil Hle]].
      + rewrite (lambda_perm _ _ _ Hp). case_decide; [|done]. apply snr_gcost. intros Hnil. rewrite Hnil in Hp.
        apply Permutation_nil in Hp. rewrite Hp, lambda_nil in *. lia.
      + rewrite Hnil, lambda_nil. rewrite decide_False by lia. rewrite decide_False; [done|].
        destruct (Hl1 (gverts Hs nid)) as [? _]; [exact Hle|]. lia.
    - destruct (Hc nid) as [Hp|[Hnil Hle]].
      + destruct (decide (gverts Hs' nid = [])) as [Hnil|Hnn].
        * rewrite Hnil in Hp. apply Permutation_nil in Hp. rewrite decide_True by done. done.
        * rewrite decide_False. 2: { intros Hnil. rewrite Hnil in Hp. apply Hnn. by apply Permutation_nil_r. }
          rewrite (lambda_perm _ _ _ Hp). by rewrite snr_gcost.
      + rewrite decide_True by done. case_decide as Hg; [done|]. destruct (Hl1 (gverts Hs nid)) as [_ Hl]; [exact Hle|].
        rewrite Hl by done. lia.
  Qed.
End whole.
