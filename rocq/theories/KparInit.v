(** The initial books: init_cost_my_nets, init_previous_C, and the messages of a round. *)
From Verif Require Export KparUpdate.

Lemma foldl_last {A} (l : list A) a v : (∀ x, x ∈ l → x = v) → (l = [] → a = v) → foldl (λ _ x, x) a l = v.
Proof.
  revert a; induction l as [|x l IH]; intros a Hl Ha; simpl; [by apply Ha|]. apply IH; [set_solver|]. intros _. apply Hl. left.
Qed.
Lemma agg_last {A X} (loc : X → Z) (val : X → A) box i a v :
  (∀ m, m ∈ box → loc m = Z.of_nat i → val m = v) → ((∀ m, m ∈ box → loc m ≠ Z.of_nat i) → a = v) →
  agg (λ _ x, x) loc val box i a = v.
Proof.
  intros Hv Ha. unfold agg. apply foldl_last.
  - intros x (m & -> & [Hl Hm]%elem_of_list_filter)%elem_of_list_fmap. by apply Hv.
  - intros Hnil%fmap_nil_inv. apply Ha. intros m Hm Hl.
    assert (m ∈ filter (λ m, loc m = Z.of_nat i) box) as Hin by (by apply elem_of_list_filter). rewrite Hnil in Hin. by apply elem_of_nil in Hin.
Qed.
Lemma foldl_snoc {A} (l a : list A) : foldl (λ l x, l ++ [x]) a l = a ++ l.
Proof. revert a; induction l as [|x l IH]; intros a; simpl; [by rewrite app_nil_r|]. by rewrite IH, <-app_assoc. Qed.

Lemma gcost_absent Hs nid : (∀ n, n ∈ all_nets Hs → n_id n ≠ nid) → gcost Hs nid = 0.
Proof. intros Hn. unfold gcost, pieces. by rewrite filter_none. Qed.
Lemma gcount_absent Hs nid q : (∀ n, n ∈ all_nets Hs → n_id n ≠ nid) → gcount Hs nid q = 0.
Proof. intros Hn. unfold gcount, gverts, pieces. by rewrite filter_none. Qed.

Section init.
  Context (bp : Z → Z → partitioning) (Hbp : lawful_family bp) (gn : Z) (Hs : list hg).
  Context (HD : distributed gn Hs) (Hgn : 0 ≤ gn) (Hne : Hs ≠ []).
  Let p := length Hs.
  Let part := bp (Z.of_nat p) gn.

  Lemma wpe_init_cost_my_nets E (Q : list kowned → Prop) :
    (∀ ows, length ows = p → (∀ t ow, ows !! t = Some ow → table_ok part Hs t ow) → Q ows) →
    wpe E (init_cost_my_nets bp Hs) Q.
  Proof.
    intros HQ. pose proof (part_lawful bp Hbp gn Hs HD Hgn Hne) as HL. fold p part in HL. unfold init_cost_my_nets. fold p.
    assert (∀ H, H ∈ Hs → net_partition bp p H = part) as Hnp by (intros; by apply (net_partition_eq bp gn Hs HD)).
    assert ((λ H, (λ n, (pa_owner (net_partition bp p H) (n_id n), (pa_local (net_partition bp p H) (n_id n), n_cost n))) <$> h_nets H) <$> Hs =
            (λ H, (λ n, (pa_owner part (n_id n), (pa_local part (n_id n), n_cost n))) <$> h_nets H) <$> Hs) as ->.
    { apply list_fmap_ext. intros t H HH. by rewrite Hnp by (by eapply elem_of_list_lookup_2). }
    apply wpe_bind, wpe_exchange.
    { intros m'. rewrite concat_fmap_nets, fmap_length. intros (n & -> & Hn)%elem_of_list_fmap. apply (la_owner _ _ _ HL). by apply (di_range _ _ HD). }
    rewrite fmap_length. intros costs Hlc Hcosts.
    assert (∀ m, m ∈ concat (imap (λ s H, (λ n, (pa_owner (net_partition bp p H) (n_id n), (n_id n, Z.of_nat s))) <$> h_nets H) Hs) ↔
       ∃ (s : nat) H n, Hs !! s = Some H ∧ n ∈ h_nets H ∧ m = (pa_owner part (n_id n), (n_id n, Z.of_nat s))) as Hprocs0.
    { intros m. rewrite CoarsenProof.elem_of_concat. split.
      - intros (l & Hm & (s & H & -> & HH)%elem_of_lookup_imap). apply elem_of_list_fmap in Hm as (n & -> & Hn). exists s, H, n.
        rewrite Hnp by (by eapply elem_of_list_lookup_2). done.
      - intros (s & H & n & HH & Hn & ->). eexists. split; [|apply elem_of_lookup_imap; exists s, H; split; [done|exact HH]].
        apply elem_of_list_fmap. exists n. rewrite Hnp by (by eapply elem_of_list_lookup_2). done. }
    apply wpe_bind, wpe_exchange.
    { intros m'. rewrite Hprocs0, imap_length. intros (s & H & n & HH & Hn & ->). apply (la_owner _ _ _ HL). apply (di_range _ _ HD), all_nets_elem.
      exists H. split; [by eapply elem_of_list_lookup_2|done]. }
    rewrite imap_length. intros procs Hlp Hprocs.
    eapply (wpe_ranks _ _ _ (λ t ow, table_ok part Hs t ow)); [|done].
    intros t Ht. destruct (lookup_lt_is_Some_2 Hs t Ht) as [H HH]. destruct (lookup_lt_is_Some_2 costs t) as [cb Hcb]; [by rewrite Hlc|].
    destruct (lookup_lt_is_Some_2 procs t) as [pb Hpb]; [by rewrite Hlp|].
    apply wpe_bind, wpe_nidx with H; [done|]. apply wpe_bind, wpe_nidx with cb; [done|]. apply wpe_bind, wpe_nidx with pb; [done|].
    rewrite Hnp by (by eapply elem_of_list_lookup_2).
    assert (∀ m, m ∈ cb ↔ ∃ n, n ∈ all_nets Hs ∧ pa_owner part (n_id n) = Z.of_nat t ∧ m = (pa_local part (n_id n), n_cost n)) as Hcm.
    { intros m. rewrite (Hcosts t cb Hcb), concat_fmap_nets, filter_fmap, <-list_fmap_compose, elem_of_list_fmap. split.
      - intros (n & -> & [Ho Hn]%elem_of_list_filter). eauto.
      - intros (n & Hn & Ho & ->). exists n. split; [done|]. by apply elem_of_list_filter. }
    assert (∀ m, m ∈ pb ↔ ∃ (s : nat) H n, Hs !! s = Some H ∧ n ∈ h_nets H ∧ pa_owner part (n_id n) = Z.of_nat t ∧ m = (n_id n, Z.of_nat s)) as Hpm.
    { intros m. rewrite (Hprocs t pb Hpb), elem_of_list_fmap. split.
      - intros (m' & -> & [Ho Hm]%elem_of_list_filter). apply Hprocs0 in Hm as (s & H' & n & HH' & Hn & ->). eauto 10.
      - intros (s & H' & n & HH' & Hn & Ho & ->). exists (pa_owner part (n_id n), (n_id n, Z.of_nat s)). split; [done|].
        apply elem_of_list_filter. split; [done|]. apply Hprocs0. eauto 10. }
    clear Hcosts Hprocs Hprocs0.
    assert (∀ n, n ∈ all_nets Hs → pa_owner part (n_id n) = Z.of_nat t → 0 ≤ pa_local part (n_id n) < pa_count part (Z.of_nat t)) as Hloc.
    { intros n Hn Ho. rewrite <-Ho. apply (la_local _ _ _ HL). by apply (di_range _ _ HD). }
    assert (∀ n (i : nat), n ∈ all_nets Hs → (i < Z.to_nat (pa_count part (Z.of_nat t)))%nat →
      pa_owner part (n_id n) = Z.of_nat t ∧ pa_local part (n_id n) = Z.of_nat i ↔ n_id n = pa_global part (Z.of_nat i) (Z.of_nat t)) as Hglob.
    { intros n i Hn Hi. pose proof (di_range _ _ HD _ Hn) as Hr. split.
      - intros [<- <-]. symmetry. by apply (la_global _ _ _ HL).
      - intros ->. destruct (la_inv _ _ _ HL (Z.of_nat t) (Z.of_nat i)) as (_ & ? & ?); [lia|lia|]. done. }
    apply wpe_bind, (wpe_agg _ (λ _ x, x) (λ m : Z * Z, fst m) snd).
    { intros m (n & Hn & Ho & ->)%Hcm. rewrite replicate_length. specialize (Hloc n Hn Ho). simpl. lia. }
    apply wpe_bind, (wpe_agg _ (λ l x, l ++ [x]) (λ m : Z * Z, pa_local part (fst m)) snd).
    { intros m (s & H' & n & HH' & Hn & Ho & ->)%Hpm. rewrite replicate_length. simpl.
      assert (n ∈ all_nets Hs) as Hna by (apply all_nets_elem; exists H'; split; [by eapply elem_of_list_lookup_2|done]). specialize (Hloc n Hna Ho). lia. }
    apply wpe_ret. split; cbn [ow_cost ow_procs].
    - rewrite imap_replicate, fmap_seq_seqZ. apply list_fmap_ext. intros j i [-> Hi]%lookup_seq. cbn [Nat.add].
      apply agg_last.
      + intros m (n & Hn & Ho & ->)%Hcm Hl. simpl in *. rewrite <-(proj1 (Hglob n j Hn Hi) (conj Ho Hl)). symmetry. by apply (gcost_elem gn).
      + intros Hno. symmetry. apply gcost_absent. intros n Hn Hid. apply (Hglob n j Hn Hi) in Hid as [Ho Hl].
        apply (Hno (pa_local part (n_id n), n_cost n)); [|done]. apply Hcm. eauto.
    - by rewrite imap_length, replicate_length.
    - intros i ps Hps u. rewrite list_lookup_imap in Hps. destruct (replicate _ _ !! i) as [e|] eqn:He; [|done]. apply lookup_replicate in He as [-> Hi].
      simpl in Hps. injection Hps as <-. unfold agg. rewrite foldl_snoc. simpl. rewrite elem_of_list_fmap. split.
      + intros (m & -> & [Hl Hm]%elem_of_list_filter). apply Hpm in Hm as (s & H' & n & HH' & Hn & Ho & ->). simpl in *.
        exists s, H'. split; [done|]. split; [done|]. apply nids_elem. exists n. split; [done|]. apply Hglob; [|done|done].
        apply all_nets_elem. exists H'. split; [by eapply elem_of_list_lookup_2|done].
      + intros (s & H' & -> & HH' & (n & Hn & Hid)%nids_elem). exists (n_id n, Z.of_nat s). split; [done|].
        assert (n ∈ all_nets Hs) as Hna by (apply all_nets_elem; exists H'; split; [by eapply elem_of_list_lookup_2|done]).
        destruct (proj2 (Hglob n i Hna Hi) Hid) as [Ho Hl]. apply elem_of_list_filter. split; [done|]. apply Hpm. eauto 10.
  Qed.

  Lemma wpe_init_previous_C E Cs ows (Q : list (list (Z * Z) * Z) → Prop) :
    Cs = (λ H, (λ n, counts_of Hs (n_id n)) <$> h_nets H) <$> Hs →
    length ows = p → (∀ t ow, ows !! t = Some ow → ow_cost ow = (λ i, gcost Hs (pa_global part i (Z.of_nat t))) <$> seqZ 0 (pa_count part (Z.of_nat t))) →
    Q ((λ t, (own_of part Hs t, mycut part Hs t)) <$> seq 0 p) →
    wpe E (init_previous_C bp Hs Cs ows) Q.
  Proof.
    intros -> Hlw Htab HQ. pose proof (part_lawful bp Hbp gn Hs HD Hgn Hne) as HL. fold p part in HL. unfold init_previous_C. fold p.
    assert (∀ H, H ∈ Hs → net_partition bp p H = part) as Hnp by (intros; by apply (net_partition_eq bp gn Hs HD)).
    set (f := λ n : net, (pa_owner part (n_id n), (pa_local part (n_id n), counts_of Hs (n_id n)))).
    apply wpe_bind. eapply (wpe_ranks _ _ _ (λ t y, ∀ H, Hs !! t = Some H → y = f <$> h_nets H)).
    { intros t Ht. destruct (lookup_lt_is_Some_2 Hs t Ht) as [H HH]. apply wpe_bind, wpe_nidx with H; [done|].
      apply wpe_bind. eapply wpe_nidx; [by rewrite list_lookup_fmap, HH|]. rewrite Hnp by (by eapply elem_of_list_lookup_2). rewrite fmap_length.
      eapply (wpe_ranks _ _ _ (λ i y, ∀ n, h_nets H !! i = Some n → y = f n)).
      - intros i Hi. destruct (lookup_lt_is_Some_2 (h_nets H) i Hi) as [n Hn]. apply wpe_bind, wpe_nidx with n; [done|].
        apply wpe_bind. eapply wpe_nidx; [by rewrite list_lookup_fmap, Hn|]. apply wpe_ret. intros n' [= <-]%(eq_trans (eq_sym Hn)). done.
      - intros l Hl Hly H' [= <-]%(eq_trans (eq_sym HH)). apply list_eq_same_length with (length (h_nets H)); [by rewrite fmap_length|done|].
        intros i x y Hi Hx Hy. rewrite list_lookup_fmap in Hy. destruct (h_nets H !! i) as [n|] eqn:Hn; [|done]. injection Hy as <-. by apply (Hly i x). }
    intros outs Hlo Hout.
    assert (outs = (λ H, f <$> h_nets H) <$> Hs) as ->.
    { apply list_eq_same_length with p; [by rewrite fmap_length|done|]. intros t y y' Ht Hy Hy'.
      rewrite list_lookup_fmap in Hy'. destruct (Hs !! t) as [H|] eqn:HH; [|done]. injection Hy' as <-. by apply (Hout _ _ Hy). }
    clear Hout Hlo. apply wpe_bind, wpe_exchange.
    { intros m'. rewrite concat_fmap_nets, fmap_length. intros (n & -> & Hn)%elem_of_list_fmap. apply (la_owner _ _ _ HL). by apply (di_range _ _ HD). }
    rewrite fmap_length. intros ins Hli Hins.
    apply (wpe_ranks_eq _ _ _ (λ t, (own_of part Hs t, mycut part Hs t))); [|done].
    intros t Ht. destruct (lookup_lt_is_Some_2 Hs t Ht) as [H HH]. destruct (lookup_lt_is_Some_2 ins t) as [box Hb]; [by rewrite Hli|].
    destruct (lookup_lt_is_Some_2 ows t) as [ow How]; [by rewrite Hlw|].
    apply wpe_bind, wpe_nidx with H; [done|]. apply wpe_bind, wpe_nidx with box; [done|]. apply wpe_bind, wpe_nidx with ow; [done|].
    rewrite Hnp by (by eapply elem_of_list_lookup_2).
    assert (∀ m, m ∈ box ↔ ∃ n, n ∈ all_nets Hs ∧ pa_owner part (n_id n) = Z.of_nat t ∧ m = (pa_local part (n_id n), counts_of Hs (n_id n))) as Hcm.
    { intros m. rewrite (Hins t box Hb), concat_fmap_nets, filter_fmap, <-list_fmap_compose, elem_of_list_fmap. split.
      - intros (n & -> & [Ho Hn]%elem_of_list_filter). eauto.
      - intros (n & Hn & Ho & ->). exists n. split; [done|]. by apply elem_of_list_filter. }
    set (count := Z.to_nat (pa_count part (Z.of_nat t))).
    apply wpe_bind, (wpe_agg _ (λ _ x, x) (λ m : Z * (Z * Z), fst m) snd).
    { intros m (n & Hn & Ho & ->)%Hcm. rewrite replicate_length. simpl. pose proof (la_local _ _ _ HL (n_id n) (di_range _ _ HD _ Hn)) as Hl. rewrite Ho in Hl. lia. }
    match goal with |- wpe _ (bind (foldM _ _ _) _) _ => idtac end.
    assert (imap (agg (λ _ x, x) (λ m : Z * (Z * Z), fst m) snd box) (replicate count (0, 0)) = own_of part Hs t) as ->.
    { rewrite imap_replicate. unfold own_of. rewrite fmap_seq_seqZ. apply list_fmap_ext. intros j i [-> Hi]%lookup_seq. cbn [Nat.add].
      assert (∀ n, n ∈ all_nets Hs →
        pa_owner part (n_id n) = Z.of_nat t ∧ pa_local part (n_id n) = Z.of_nat j ↔ n_id n = pa_global part (Z.of_nat j) (Z.of_nat t)) as Hglob.
      { intros n Hn. pose proof (di_range _ _ HD _ Hn) as Hr. split.
        - intros [<- <-]. symmetry. by apply (la_global _ _ _ HL).
        - intros ->. destruct (la_inv _ _ _ HL (Z.of_nat t) (Z.of_nat j)) as (_ & ? & ?); [lia|lia|]. done. }
      apply agg_last.
      - intros m (n & Hn & Ho & ->)%Hcm Hl. simpl in *. f_equal. by apply Hglob.
      - intros Hno. unfold counts_of. rewrite !gcount_absent; [done|..]; intros n Hn Hid; apply (Hglob n Hn) in Hid as [Ho Hl];
        (apply (Hno (pa_local part (n_id n), counts_of Hs (n_id n))); [|done]; apply Hcm; eauto). }
    apply wpe_bind. specialize (Htab t ow How).
    eapply (wpe_foldM_seq E _ (λ j r, r = zsum ((λ i : nat, gcost Hs (pa_global part (Z.of_nat i) (Z.of_nat t)) * both (counts_of Hs (pa_global part (Z.of_nat i) (Z.of_nat t)))) <$> seq 0 j))).
    - done.
    - intros i r Hi ->. apply wpe_bind. eapply wpe_nidx; [by apply own_of_lookup|].
      rewrite seq_S, fmap_app, zsum_app. csimpl. rewrite zsum_cons. set (c := counts_of Hs _). set (z := zsum _). change (zsum []) with 0.
      assert (both c = if decide (fst c = 0 ∨ snd c = 0) then 0 else 1) as -> by done. case_decide as Hz.
      + apply wpe_ret. rewrite decide_True by done. lia.
      + apply wpe_bind. eapply wpe_nidx; [rewrite Htab, list_lookup_fmap, lookup_seqZ0 by done; done|]. apply wpe_ret. rewrite decide_False by done. lia.
    - intros r ->. apply wpe_ret. f_equal. unfold mycut. by rewrite fmap_seq_seqZ.
  Qed.
End init.

(** ** the messages of a round *)
Section round.
  Context (bp : Z → Z → partitioning) (gn : Z) (Bs : list hg) (HD : distributed gn Bs).
  Let p := length Bs.
  Let part := bp (Z.of_nat p) gn.

  Lemma wpe_changed_counts E t B k (Q : list (Z * (Z * Z)) → Prop) :
    Bs !! t = Some B → booked part Bs t B k → (∀ out, sends part Bs B (kp_H k) out → Q out) → wpe E (changed_counts bp p k) Q.
  Proof.
    intros HB Hbk HQ. unfold changed_counts. set (H := kp_H k).
    pose proof (bk_shape _ _ _ _ _ Hbk) as Hsh. fold H in Hsh.
    assert (consistent H) as HC. { eapply same_shape_consistent; [done|]. apply (di_local _ _ HD). by eapply elem_of_list_lookup_2. }
    assert (net_partition bp p H = part) as Hnp.
    { unfold net_partition, part. rewrite <-(ss_gnets _ _ Hsh). by rewrite (distributed_gnets gn Bs t B HD HB). }
    rewrite Hnp.
    set (d := λ n, count_in H n 0 - lcount B (n_id n) 0).
    set (msg := λ n, (pa_owner part (n_id n), (n_id n, gcount Bs (n_id n) 0 + d n))).
    eapply (wpe_foldM_seq E _ (λ j r, r = msg <$> filter (λ n, d n ≠ 0) (take j (h_nets H)))).
    - done.
    - intros i r Hi ->. destruct (lookup_lt_is_Some_2 (h_nets H) i Hi) as [n Hn].
      apply wpe_bind, wpe_nidx with n; [done|]. apply wpe_bind. eapply wpe_nidx.
      { rewrite (bk_prev _ _ _ _ _ Hbk). fold H. by rewrite list_lookup_fmap, Hn. }
      apply wpe_bind. eapply wpe_nidx; [apply (tracks_lookup _ _ _ _ _ _ (bk_tracks _ _ _ _ _ Hbk) Hn)|]. fold H. apply wpe_ret. cbn [fst snd].
      rewrite (take_S_r _ _ n Hn), filter_app, fmap_app, filter_cons, filter_nil. fold (d n).
      destruct (decide (d n ≠ 0)); [rewrite decide_True by (simpl; lia)|rewrite decide_False by (simpl; lia)]; [done|]. csimpl. by rewrite app_nil_r.
    - intros r ->. rewrite take_ge by done. apply HQ. exists (list_to_set (n_id <$> filter (λ n, d n ≠ 0) (h_nets H))). split.
      + apply reflexive_eq. unfold msg. f_equal. apply HgMore.filter_ext. intros n Hn. fold H in Hn. rewrite elem_of_list_to_set, elem_of_list_fmap. split.
        * intros Hd. exists n. split; [done|]. by apply elem_of_list_filter.
        * intros (n' & Hid & [Hd Hn']%elem_of_list_filter). destruct (elem_of_list_lookup_1 _ _ Hn) as [i Hi]. destruct (elem_of_list_lookup_1 _ _ Hn') as [j Hj].
          assert (i = j) as ->; [|rewrite Hi in Hj; injection Hj as ->; exact Hd]. eapply (NoDup_lookup (nids H)); [apply (co_nid _ HC)|..]; unfold nids; rewrite list_lookup_fmap; [by rewrite Hi|rewrite Hj; simpl; by f_equal].
      + intros n Hn HY. destruct (decide (d n = 0)) as [Hd|Hd]; [unfold d in Hd; fold H; lia|]. exfalso. apply HY. rewrite elem_of_list_to_set, elem_of_list_fmap.
        exists n. split; [done|]. by apply elem_of_list_filter.
  Qed.
End round.
