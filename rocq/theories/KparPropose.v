(** The first half of a round: moves are found, proposed and possibly taken back. *)
From Verif Require Export KparSync.

(** ** the messages with the proposals *)
Lemma filter_dest {A} (x : A) p t : (t < p)%nat →
  filter (λ m : Z * A, fst m = Z.of_nat t) ((λ t : nat, (Z.of_nat t, x)) <$> seq 0 p) = [(Z.of_nat t, x)].
Proof.
  intros Ht. assert (∀ s n, (t < s + n)%nat → (s ≤ t)%nat →
    filter (λ m : Z * A, fst m = Z.of_nat t) ((λ t : nat, (Z.of_nat t, x)) <$> seq s n) = [(Z.of_nat t, x)]) as Hg; [|apply Hg; lia].
  intros s n. revert s. induction n as [|n IH]; intros s Hlt Hle; [lia|]. cbn [seq]. csimpl. rewrite filter_cons. cbn [fst].
  destruct (decide (Z.of_nat s = Z.of_nat t)) as [Heq|Hne].
  - assert (s = t) as -> by lia. f_equal. apply filter_none. intros m (j & -> & Hj%elem_of_seq)%elem_of_list_fmap. cbn [fst]. lia.
  - apply IH; lia.
Qed.
Lemma concat_imap_single {A B} (g : nat → A → B) (l : list A) : concat (imap (λ i x, [g i x]) l) = imap g l.
Proof. revert g. induction l as [|x l IH]; intros g; [done|]. rewrite !imap_cons. simpl. f_equal. apply (IH (λ i, g (Datatypes.S i))). Qed.
Lemma fmap_concat {A B} (f : A → B) (ls : list (list A)) : f <$> concat ls = concat ((λ l : list A, f <$> l) <$> ls).
Proof. induction ls as [|l ls IH]; [done|]. csimpl. by rewrite fmap_app, IH. Qed.

Definition prop_msgs (p : nat) (mss : list (list kmove)) : list (list (Z * proposal)) :=
  imap (λ s ms, concat (imap (λ tag m,
    (λ t : nat, (Z.of_nat t, Proposal (km_gain m) (km_change m) (Z.of_nat s) (Z.of_nat tag))) <$> seq 0 p) ms)) mss.
Lemma prop_msgs_to p mss t : (t < p)%nat →
  snd <$> filter (λ m : Z * proposal, fst m = Z.of_nat t) (concat (prop_msgs p mss)) = proposals mss.
Proof.
  intros Ht. unfold prop_msgs, proposals. rewrite KparReject.concat_filter, fmap_concat, <-list_fmap_compose. f_equal.
  apply list_eq. intros s. rewrite list_lookup_fmap, !list_lookup_imap. destruct (mss !! s) as [ms|]; [|done]. simpl. f_equal.
  rewrite KparReject.concat_filter, fmap_concat, <-list_fmap_compose. rewrite <-(concat_imap_single (λ i m, Proposal (km_gain m) (km_change m) (Z.of_nat s) (Z.of_nat i)) ms). f_equal.
  apply list_eq. intros i. rewrite list_lookup_fmap, !list_lookup_imap. destruct (ms !! i) as [m|]; [|done]. simpl. f_equal.
  by rewrite filter_dest.
Qed.
Lemma prop_msgs_range p mss m : m ∈ concat (prop_msgs p mss) → 0 ≤ fst m < Z.of_nat p.
Proof.
  intros (out & Hm & [s Ho]%elem_of_list_lookup)%CoarsenProof.elem_of_concat. unfold prop_msgs in Ho. rewrite list_lookup_imap in Ho.
  destruct (mss !! s) as [ms|]; [|done]. simpl in Ho. injection Ho as <-.
  apply CoarsenProof.elem_of_concat in Hm as (l & Hm & [i Hl]%elem_of_list_lookup). rewrite list_lookup_imap in Hl. destruct (ms !! i) as [x|]; [|done].
  simpl in Hl. injection Hl as <-. apply elem_of_list_fmap in Hm as (j & -> & Hj%elem_of_seq). simpl. lia.
Qed.

(** ** rejection *)
Lemma wpe_reject_any (E : err → Prop) p s box ws mx : E UB → wpe E (reject_unbalanced_moves p s box ws mx) (λ _, True).
Proof.
  intros HE. unfold reject_unbalanced_moves.
  assert (∀ q r, wpe E (reject_0 mx q r) (λ _, True)) as H0.
  { induction q as [|m q IH]; intros r; simpl; [by apply wpe_ret|]. case_decide; [|by apply wpe_ret].
    apply wpe_bind, wpe_mono with (λ _, True); [|intros r' _; apply IH].
    case_decide; [|by apply wpe_ret]. apply wpe_bind, wpe_idx_any; [done|]. intros [] _; [by apply wpe_ret|]. case_decide; [|by apply wpe_ret].
    apply wpe_bind. unfold aadd. apply wpe_bind, wpe_idx_any; [done|]. intros a _. apply wpe_ret. by apply wpe_ret. }
  assert (∀ q r, wpe E (reject_1 mx q r) (λ _, True)) as H1.
  { induction q as [|m q IH]; intros r; simpl; [by apply wpe_ret|]. case_decide; [|by apply wpe_ret].
    apply wpe_bind, wpe_mono with (λ _, True); [|intros r' _; apply IH].
    case_decide; [|by apply wpe_ret]. apply wpe_bind, wpe_idx_any; [done|]. intros [] _; [by apply wpe_ret|]. case_decide; [|by apply wpe_ret].
    apply wpe_bind. unfold aadd. apply wpe_bind, wpe_idx_any; [done|]. intros a _. apply wpe_ret. by apply wpe_ret. }
  apply wpe_bind. eapply wpe_mono; [apply H0|]. intros r0 _. apply wpe_bind. eapply wpe_mono; [apply H1|]. intros r1 _.
  apply wpe_bind, wpe_idx_any; [done|]. intros num _. by apply wpe_ret.
Qed.
Lemma wpe_reject_none (E : err → Prop) p s mss box ws mx D (Q : Z * (Z * Z) → Prop) :
  (s < p)%nat → box ≡ₚ proposals mss → D = zsum (total_change <$> mss) → within (fst ws + D, snd ws - D) mx →
  Q (0, (fst ws + D, snd ws - D)) → wpe E (reject_unbalanced_moves p (Z.of_nat s) box ws mx) Q.
Proof.
  intros Hs Hbox HD [Hw0 Hw1] HQ. unfold reject_unbalanced_moves. rewrite foldl_changes.
  assert (changes (merge_sort prop_le box) = D) as ->.
  { rewrite HD, <-proposals_changes. unfold changes. by rewrite merge_sort_Permutation, Hbox. }
  simpl in Hw0, Hw1. set (r := Rej _ _ _). set (q := merge_sort prop_le box).
  assert (reject_0 mx q r = ret (r, q)) as ->. { destruct q; simpl; [done|]. rewrite decide_False by lia. done. }
  assert (reject_1 mx q r = ret (r, q)) as Hr1. { destruct q; simpl; [done|]. rewrite decide_False by lia. done. }
  apply wpe_bind, wpe_ret. cbn [fst snd]. rewrite Hr1. apply wpe_bind, wpe_ret. cbn [fst snd].
  apply wpe_bind, wpe_idx with 0; [|by apply wpe_ret].
  apply zlookup_Some. split; [lia|]. rewrite Nat2Z.id. simpl. by apply lookup_replicate.
Qed.

Lemma gweight_parts Hs q : (∀ v, v ∈ all_verts Hs → 0 ≤ v_weight v) → gpart_weight Hs q ≤ gweight Hs.
Proof.
  intros Hw. unfold gpart_weight, gweight. rewrite (zsum_filter_if (λ v, v_part v = q) v_weight). apply zsum_fmap_le.
  intros v Hv. pose proof (Hw v Hv). case_decide; lia.
Qed.
Lemma same_shapes_weights Hs Hs' : same_shapes Hs Hs' → (∀ v, v ∈ all_verts Hs → 0 ≤ v_weight v) → ∀ v, v ∈ all_verts Hs' → 0 ≤ v_weight v.
Proof.
  intros HSh Hw v' (H' & [t HH']%elem_of_list_lookup & [i Hv']%elem_of_list_lookup)%all_verts_elem.
  destruct (Forall2_lookup_r _ _ _ _ _ HSh HH') as (H & HH & Hsh). destruct (Forall2_lookup_r _ _ _ _ _ (ss_verts _ _ Hsh) Hv') as (v & Hv & _ & _ & <-).
  apply Hw, all_verts_elem. exists H. split; by eapply elem_of_list_lookup_2.
Qed.
Lemma or_all {A} (P : Prop) (R : A → Prop) (l : list A) : (∀ x, x ∈ l → P ∨ R x) → P ∨ ∀ x, x ∈ l → R x.
Proof.
  induction l as [|x l IH]; intros Hl; [right; by intros x Hx%elem_of_nil|].
  destruct (Hl x ltac:(left)) as [|Hx]; [by left|]. destruct IH as [|Hall]; [intros y Hy; apply Hl; by right|by left|].
  right. intros y [->|Hy]%elem_of_cons; [done|by apply Hall].
Qed.
(** the weights of the two parts over all processors *)
Definition gws (Hs : list hg) : Z * Z := (gpart_weight Hs 0, gpart_weight Hs 1).

Section round.
  Context (bp : Z → Z → partitioning) (Hbp : lawful_family bp) (gn : Z) (Hgn : 0 ≤ gn).
  Context (E : err → Prop) (m : metric) (mx : Z * Z) (number : Z) (Hs0 : list hg) (ows : list kowned).
  Context (HD0 : distributed gn Hs0) (Hpre : ∀ H, H ∈ Hs0 → klfm_pre H).
  (** either undefined behaviour is accepted, or no move can be rejected *)
  Context (Hcalm : E UB ∨ (∀ n, n ∈ all_nets Hs0 → n_verts n ≠ []) ∧ (length Hs0 = 1%nat ∨ within (gweight Hs0, gweight Hs0) mx)).

  Lemma weights_nonneg : ∀ v, v ∈ all_verts Hs0 → 0 ≤ v_weight v.
  Proof. intros v (H & HH & Hv)%all_verts_elem. by apply (kp_weight _ (Hpre H HH)). Qed.

  (** the gain structure of a processor and the moves since the best point *)
  Definition gready (k : kproc) : Prop :=
    ∃ S L, gok E S L (kp_G k) ∧ costs_ok S (kp_H k) ∧ NoDup (kp_nim k) ∧ ∀ u, u ∈ kp_nim k → u ∈ L ∧ u ∈ vids (kp_H k).
  Definition true_weights (ks : list kproc) : Prop :=
    E UB ∨ (∀ k, k ∈ ks → kp_ws k = gws (kp_H <$> ks)) ∧ within (gws (kp_H <$> ks)) mx.

  Lemma wpe_propose ks (Q : list (kproc * list kmove) → Prop) :
    let part := bp (Z.of_nat (length ks)) gn in
    let Bs := kp_H <$> ks in
    synced bp gn ows ks → same_shapes Hs0 Bs → (∀ k, k ∈ ks → gready k) → true_weights ks →
    (∀ us, length us = length ks →
       (∀ t k u, ks !! t = Some k → us !! t = Some u → ∃ S L L',
          moved_set E part Bs t (kp_H k) k S L L' (kept (snd u)) (fst u) ∧ gok E S L (kp_G k) ∧ costs_ok S (kp_H k) ∧ NoDup (kp_nim k) ∧
          (∀ x, x ∈ kp_nim k → x ∈ L ∧ x ∈ vids (kp_H k)) ∧
          kp_best (fst u) = kp_best k ∧ kp_nim (fst u) = kp_nim k ∧ kp_done (fst u) = kp_done k) →
       true_weights (fst <$> us) → Q us) →
    wpe E (propose mx number ks) Q.
  Proof.
    intros part Bs HS HSh Hgr Hwt HQ. unfold propose. set (p := length ks) in *.
    pose proof (sy_dist _ _ _ _ HS) as HD. fold Bs in HD.
    assert (length Bs = p) as HlB by (unfold Bs; by rewrite fmap_length).
    assert (∀ t k, ks !! t = Some k → kp_H k ∈ Bs ∧ klfm_pre (kp_H k)) as Hat.
    { intros t k Hk. assert (Bs !! t = Some (kp_H k)) as HB by (unfold Bs; by rewrite list_lookup_fmap, Hk). split; [by eapply elem_of_list_lookup_2|].
      destruct (Forall2_lookup_r _ _ _ _ _ HSh HB) as (H0 & HH0 & Hsh). eapply klfm_pre_shape; [|done]. apply Hpre. by eapply elem_of_list_lookup_2. }
    apply wpe_bind. eapply (wpe_mapP _ _ (λ t k f, ∃ S L L', finv E part Bs t (kp_H k) k S L mx L' f ∧ gok E S L (kp_G k) ∧ costs_ok S (kp_H k) ∧ NoDup (kp_nim k) ∧
      ∀ u, u ∈ kp_nim k → u ∈ L ∧ u ∈ vids (kp_H k))).
    { intros t k Hk. destruct (Hat t k Hk) as [HkB Hpk]. destruct (Hgr k) as (S & L & HG & Hcs & Hnd & Hnim); [by eapply elem_of_list_lookup_2|].
      eapply (wpe_find_top_moves E part gn Bs t (kp_H k) k S L mx number); [done|done|done|by apply (sy_ok _ _ _ _ HS)|done|done|].
      intros L' f Hf. by exists S, L, L'. }
    fold p. intros fs Hlf Hfs. set (mss := fs_moves <$> fs).
    assert (imap (λ s f, concat (imap (λ tag mv, (λ t : nat, (Z.of_nat t, Proposal (km_gain mv) (km_change mv) (Z.of_nat s) (Z.of_nat tag))) <$> seq 0 p) (fs_moves f))) fs
      = prop_msgs p mss) as ->.
    { unfold prop_msgs, mss. apply list_eq. intros s. rewrite !list_lookup_imap, list_lookup_fmap. by destruct (fs !! s). }
    assert (length mss = p) as Hlm by (unfold mss; by rewrite fmap_length).
    assert (length (prop_msgs p mss) = p) as Hlpm by (unfold prop_msgs; by rewrite imap_length).
    apply wpe_bind, wpe_exchange; [rewrite Hlpm; apply prop_msgs_range|]. rewrite Hlpm. intros boxes Hlb Hboxes.
    assert (∀ t box, boxes !! t = Some box → box ≡ₚ proposals mss) as Hbox.
    { intros t box Hb. rewrite (Hboxes t box Hb), prop_msgs_to; [done|]. apply lookup_lt_Some in Hb. lia. }
    clear Hboxes. set (D := zsum (total_change <$> mss)). set (Fs := (λ f, g_H (fs_G f)) <$> fs).
    assert (∀ t f, fs !! t = Some f → ∃ k, ks !! t = Some k ∧ ∃ S L L', finv E part Bs t (kp_H k) k S L mx L' f ∧ gok E S L (kp_G k) ∧ costs_ok S (kp_H k) ∧ NoDup (kp_nim k) ∧
      ∀ u, u ∈ kp_nim k → u ∈ L ∧ u ∈ vids (kp_H k)) as Hf.
    { intros t f Hft. destruct (lookup_lt_is_Some_2 ks t) as [k Hk]; [apply lookup_lt_Some in Hft; unfold p in *; lia|]. exists k. split; [done|]. by apply (Hfs t). }
    (* the true weights after the moves *)
    assert (gws Fs = (fst (gws Bs) + D, snd (gws Bs) - D)) as HFs.
    { assert (∀ (sel : Z * Z → Z) s, (∀ t k f, ks !! t = Some k → fs !! t = Some f → sel (pws (g_H (fs_G f))) = sel (pws (kp_H k)) + s * total_change (fs_moves f)) →
        zsum ((λ f, sel (pws (g_H (fs_G f)))) <$> fs) = zsum ((λ k, sel (pws (kp_H k))) <$> ks) + s * D) as Hgen.
      { intros sel s Heq. unfold D, mss. clear -Heq Hlf. unfold p in Hlf. clear p. revert ks Hlf Heq. induction fs as [|f fs' IH]; intros [|k ks'] Hl Heq; try done; [unfold zsum; simpl; lia|].
        csimpl. rewrite !zsum_cons. rewrite (IH ks'); [|simpl in Hl; lia|intros t; apply (Heq (Datatypes.S t))]. rewrite (Heq 0%nat k f) by done. lia. }
      assert (∀ t k f, ks !! t = Some k → fs !! t = Some f → pws (g_H (fs_G f)) = (fst (pws (kp_H k)) + total_change (fs_moves f), snd (pws (kp_H k)) - total_change (fs_moves f))) as Hw.
      { intros t k f Hk Hft. destruct (Hf t f Hft) as (k' & Hk' & S & L & L' & HF & _). rewrite Hk in Hk'. injection Hk' as <-. apply (fi_wt _ _ _ _ _ _ _ _ _ _ _ HF). }
      pose proof (Hgen fst 1) as H1. pose proof (Hgen snd (-1)) as H2. unfold gws. cbn [fst snd]. rewrite <-!gpart_weight_sum. unfold Fs, Bs. rewrite <-!list_fmap_compose.
      unfold compose. change (λ x, part_weight (g_H (fs_G x)) 0) with (λ x, fst (pws (g_H (fs_G x)))). change (λ x, part_weight (g_H (fs_G x)) 1) with (λ x, snd (pws (g_H (fs_G x)))).
      change (λ x, part_weight (kp_H x) 0) with (λ x, fst (pws (kp_H x))). change (λ x, part_weight (kp_H x) 1) with (λ x, snd (pws (kp_H x))).
      rewrite H1, H2; [f_equal; lia|..]; intros t k f Hk Hft; rewrite (Hw t k f Hk Hft); simpl; lia. }
    assert (same_shapes Bs Fs) as HShF.
    { apply Forall2_same_length_lookup_2; [unfold Fs; rewrite fmap_length; lia|]. intros t B F HB HF. unfold Fs in HF. rewrite list_lookup_fmap in HF.
      destruct (fs !! t) as [f|] eqn:Hft; [|done]. injection HF as <-. destruct (Hf t f Hft) as (k & Hk & S & L & L' & HF & _).
      unfold Bs in HB. rewrite list_lookup_fmap, Hk in HB. injection HB as <-. apply (bk_shape _ _ _ _ _ (ko_book _ _ _ _ _ (fi_ok _ _ _ _ _ _ _ _ _ _ _ HF))). }
    assert (E UB ∨ (∀ k, k ∈ ks → kp_ws k = gws Bs) ∧ within (gws Fs) mx) as Hmode.
    { destruct Hwt as [HE|[Hws Hin]]; [by left|]. destruct Hcalm as [HE|[_ Hlim]]; [by left|]. right. split; [done|]. destruct Hlim as [H1|[H1 H2]].
      - assert (p = 1%nat) as Hp1 by (rewrite <-HlB; by rewrite <-(Forall2_length _ _ _ HSh)).
        destruct fs as [|f [|? ?]]; try (simpl in Hlf; lia). destruct (Hf 0%nat f eq_refl) as (k & Hk & S & L & L' & HF & _).
        assert (k ∈ ks) as Hkin by (by eapply elem_of_list_lookup_2). pose proof (fi_feas _ _ _ _ _ _ _ _ _ _ _ HF) as Hfe.
        rewrite (Hws k Hkin) in Hfe. specialize (Hfe Hin (length (fs_moves f))). rewrite firstn_all in Hfe. rewrite HFs.
        assert (D = total_change (fs_moves f)) as ->; [|done]. unfold D, mss. csimpl. rewrite zsum_cons. unfold zsum; simpl; lia.
      - pose proof (same_shapes_trans _ _ _ HSh HShF) as HSh2. pose proof (same_shapes_weights _ _ HSh2 weights_nonneg) as Hnn.
        pose proof (same_shapes_gweight _ _ HSh2) as Hgw. simpl in H1, H2.
        split; unfold gws; simpl; [pose proof (gweight_parts Fs 0 Hnn)|pose proof (gweight_parts Fs 1 Hnn)]; lia. }
    eapply (wpe_ranks _ _ _ (λ t u, ∃ k f S L L', ks !! t = Some k ∧ fs !! t = Some f ∧
        moved_set E part Bs t (kp_H k) k S L L' (kept (snd u)) (fst u) ∧ gok E S L (kp_G k) ∧ costs_ok S (kp_H k) ∧ NoDup (kp_nim k) ∧
          (∀ x, x ∈ kp_nim k → x ∈ L ∧ x ∈ vids (kp_H k)) ∧
          kp_best (fst u) = kp_best k ∧ kp_nim (fst u) = kp_nim k ∧ kp_done (fst u) = kp_done k ∧ (E UB ∨ kp_ws (fst u) = gws Fs ∧ kp_H (fst u) = g_H (fs_G f)))).
    { intros t Ht. destruct (lookup_lt_is_Some_2 fs t) as [f Hft]; [lia|]. destruct (lookup_lt_is_Some_2 boxes t) as [box Hbt]; [lia|].
      destruct (Hf t f Hft) as (k & Hk & S & L & L' & HF & HG & Hcs & Hnd & Hnim). destruct (Hat t k Hk) as [HkB Hpk].
      apply wpe_bind, wpe_nidx with k; [done|]. apply wpe_bind, wpe_nidx with f; [done|]. apply wpe_bind, wpe_nidx with box; [done|].
      apply wpe_bind. eapply (wpe_mono _ _ (λ r, E UB ∨ r = (0, gws Fs) ∧ kp_ws k = gws Bs)).
      { destruct Hmode as [HE|[Hws Hin]].
        - eapply wpe_mono; [by apply wpe_reject_any|]. intros r _. by left.
        - assert (kp_ws k = gws Bs) as Hwk by (apply Hws; by eapply elem_of_list_lookup_2).
          eapply (wpe_reject_none _ p t mss box _ _ D); [done|by eapply Hbox|done|rewrite Hwk, <-HFs; done|]. right. rewrite Hwk, <-HFs. done. }
      intros r Hr. apply wpe_bind. eapply (wpe_undo_moves E part Bs t (kp_H k) k S L mx Hpk); [by apply (sy_ok _ _ _ _ HS)|exact HF|..].
      { intros Hne. destruct Hr as [HE|[-> _]]; done. }
      intros u Hu0 [M1 M2 M3 M4 M5 M6]. apply wpe_ret. exists k, f, S, L, L'. cbn [fst snd]. split_and!; try done.
      - split; try done. by eapply kok_same.
      - destruct Hr as [HE|[-> _]]; [by left|]. right. simpl. destruct (Hu0 eq_refl) as [-> _]. done. }
    intros us Hlu Hus. apply HQ; [done|..].
    - intros t k u Hk Hu. destruct (Hus t u Hu) as (k' & f & S & L & L' & Hk' & _ & HM & HG & Hcs & Hnd & Hnim & Hb & Hn & Hd & _).
      rewrite Hk in Hk'. injection Hk' as <-. exists S, L, L'. done.
    - destruct Hmode as [HE|[Hws Hin]]; [by left|]. destruct Hcalm as [HE|_]; [by left|].
      assert (E UB ∨ kp_H <$> (fst <$> us) = Fs ∧ ∀ u, u ∈ us → kp_ws (fst u) = gws Fs) as [HE|[HeqF Hwu]]; [|by left|].
      { destruct (or_all (E UB) (λ t : nat, ∀ u f, us !! t = Some u → fs !! t = Some f → kp_ws (fst u) = gws Fs ∧ kp_H (fst u) = g_H (fs_G f)) (seq 0 p)) as [HE|Hall]; [|by left|right].
        { intros t Ht%elem_of_seq. destruct (lookup_lt_is_Some_2 us t) as [u Hu]; [lia|].
          destruct (Hus t u Hu) as (k & f & S & L & L' & _ & Hft & _ & _ & _ & _ & _ & _ & _ & _ & [HE|Hr]); [by left|right].
          intros u' f' [= <-]%(eq_trans (eq_sym Hu)) [= <-]%(eq_trans (eq_sym Hft)). done. }
        split.
        - unfold Fs. apply list_eq_same_length with p; [by rewrite fmap_length|by rewrite !fmap_length|]. intros t x y Ht. rewrite !list_lookup_fmap.
          destruct (us !! t) as [u|] eqn:Hu; [|done]. destruct (fs !! t) as [f|] eqn:Hft; [|done]. simpl. intros [= <-] [= <-].
          eapply (Hall t); [apply elem_of_seq; lia|done..].
        - intros u [t Hu]%elem_of_list_lookup. pose proof (lookup_lt_Some _ _ _ Hu) as Ht. destruct (lookup_lt_is_Some_2 fs t) as [f Hft]; [lia|].
          eapply (Hall t); [apply elem_of_seq; lia|done..]. }
      right. rewrite HeqF. split; [|done]. intros k1 (u & -> & Hu)%elem_of_list_fmap. by apply Hwu.
  Qed.
End round.
