(** Proofs about the distributed part of hypergraph.cpp. *)
From Verif Require Export ParBase.

(** ** list facts *)
Lemma concat_fmap {A B} (f : A → B) (ls : list (list A)) : concat ((λ l : list A, f <$> l) <$> ls) = f <$> concat ls.
Proof. induction ls as [|l ls IH]; [done|]. csimpl. by rewrite fmap_app, IH. Qed.
Lemma concat_fmap_nets {B} (f : net → B) (Hs : list hg) : concat ((λ H, f <$> h_nets H) <$> Hs) = f <$> all_nets Hs.
Proof. unfold all_nets. rewrite <-concat_fmap, <-list_fmap_compose. done. Qed.
Lemma zsum_lengths {A} (ls : list (list A)) : zsum ((λ l : list A, Z.of_nat (length l)) <$> ls) = Z.of_nat (length (concat ls)).
Proof. induction ls as [|l ls IH]; [done|]. csimpl. rewrite zsum_cons, app_length, IH. lia. Qed.
Lemma gsize_zsum Hs nid : gsize Hs nid = zsum ((λ n, Z.of_nat (length (n_verts n))) <$> pieces Hs nid).
Proof. unfold gsize, gverts. rewrite <-zsum_lengths, <-list_fmap_compose. done. Qed.
Lemma gsize_nonneg Hs nid : 0 ≤ gsize Hs nid.
Proof. unfold gsize. lia. Qed.

(** ** messages sent to the owner of a net *)
Section owner.
  Context {A : Type} (gn : Z) (Hs : list hg) (part : partitioning) (g : net → A) (key : A → Z).
  Context (HD : distributed gn Hs) (HL : lawful (Z.of_nat (length Hs)) gn part) (Hkey : ∀ n, key (g n) = n_id n).

  Lemma owner_box_loc (t : nat) (box : list A) m :
    box ≡ₚ g <$> filter (λ n, pa_owner part (n_id n) = Z.of_nat t) (all_nets Hs) → m ∈ box →
    0 ≤ pa_local part (key m) < pa_count part (Z.of_nat t).
  Proof.
    intros Hbox Hm. rewrite Hbox in Hm. apply elem_of_list_fmap in Hm as (n & -> & [Ho Hn]%elem_of_list_filter).
    rewrite Hkey, <-Ho. apply (la_local _ _ _ HL). by apply (di_range _ _ HD).
  Qed.
  Lemma owner_box_pieces (t : nat) (box : list A) i :
    box ≡ₚ g <$> filter (λ n, pa_owner part (n_id n) = Z.of_nat t) (all_nets Hs) →
    (t < length Hs)%nat → 0 ≤ i < pa_count part (Z.of_nat t) →
    filter (λ m, pa_local part (key m) = i) box ≡ₚ g <$> pieces Hs (pa_global part i (Z.of_nat t)).
  Proof.
    intros Hbox Ht Hi. rewrite Hbox, filter_fmap, filter_filter. apply reflexive_eq. f_equal.
    unfold pieces. apply HgMore.filter_ext. intros n Hn. rewrite Hkey. pose proof (di_range _ _ HD _ Hn) as Hr. split.
    - intros [<- <-]. symmetry. by apply (la_global _ _ _ HL).
    - intros ->. destruct (la_inv _ _ _ HL (Z.of_nat t) i) as (_ & ? & ?); [lia|done|]. done.
  Qed.
End owner.

Lemma distributed_gnets gn Hs t H : distributed gn Hs → Hs !! t = Some H → h_gnets H = gn.
Proof. intros HD HH. apply (di_gnets _ _ HD). by eapply elem_of_list_lookup_2. Qed.

(** ** global_net_sizes *)
Lemma wpe_set_global_net_sizes E H (f : net → Z) (Q : hg → Prop) :
  Q (with_nets ((λ n, set_ngsize (f n) n) <$> h_nets H) H) → wpe E (set_global_net_sizes H (f <$> h_nets H)) Q.
Proof.
  intros HQ. unfold set_global_net_sizes.
  eapply (wpe_foldM E _ (λ ds H', H' = with_nets (((λ n, set_ngsize (f n) n) <$> take (length ds) (h_nets H)) ++ drop (length ds) (h_nets H)) H)).
  - simpl. by rewrite drop_0, with_nets_self.
  - intros ds i ts H' Heq ->.
    assert (i = length ds ∧ i < length (h_nets H))%nat as [-> Hi].
    { assert (seq 0 (length (h_nets H)) !! length ds = Some i) as Hl by (rewrite Heq; by apply list_lookup_middle).
      apply lookup_seq in Hl. lia. }
    destruct (lookup_lt_is_Some_2 (h_nets H) (length ds) Hi) as [n Hn].
    apply wpe_bind. eapply wpe_nidx; [by rewrite list_lookup_fmap, Hn|]. apply wpe_ret. unfold upd_net, with_nets. simpl. f_equal.
    rewrite app_length. simpl. rewrite Nat.add_1_r.
    rewrite (drop_S _ n _ Hn). rewrite (take_S_r _ _ n Hn), fmap_app, <-app_assoc. csimpl.
    rewrite alter_app_r_alt by (rewrite fmap_length, take_length; lia).
    rewrite fmap_length, take_length, Nat.min_l by lia. rewrite Nat.sub_diag. done.
  - intros H'. rewrite seq_length. rewrite firstn_all, drop_all, app_nil_r. by intros ->.
Qed.

Section sizes.
  Context (bp : Z → Z → partitioning) (Hbp : lawful_family bp) (gn : Z) (Hs : list hg).
  Context (HD : distributed gn Hs) (Hgn : 0 ≤ gn) (Hne : Hs ≠ []).
  Let p := length Hs.
  Let part := bp (Z.of_nat p) gn.

  Lemma part_lawful : lawful (Z.of_nat (length Hs)) gn part.
  Proof. apply Hbp; [|done]. destruct Hs; [done|simpl; lia]. Qed.

  Lemma net_partition_eq H : H ∈ Hs → net_partition bp p H = part.
  Proof. intros HH. unfold net_partition, part. by rewrite (di_gnets _ _ HD _ HH). Qed.

  Definition sized (H : hg) : hg := with_nets ((λ n, set_ngsize (gsize Hs (n_id n)) n) <$> h_nets H) H.

  Lemma wpe_global_net_sizes E (Q : list (hg * list Z) → Prop) :
    Q ((λ H, (sized H, (λ n, gsize Hs (n_id n)) <$> h_nets H)) <$> Hs) → wpe E (global_net_sizes bp Hs) Q.
  Proof.
    intros HQ. pose proof part_lawful as HL. unfold global_net_sizes. fold p.
    set (g := λ n : net, (n_id n, Z.of_nat (length (n_verts n)))).
    assert (concat ((λ H, (λ n, (pa_owner (net_partition bp p H) (n_id n), (n_id n, Z.of_nat (length (n_verts n))))) <$> h_nets H) <$> Hs) =
            (λ n, (pa_owner part (n_id n), g n)) <$> all_nets Hs) as Hout.
    { rewrite <-concat_fmap_nets. f_equal. apply list_fmap_ext. intros t H HH.
      rewrite net_partition_eq by (by eapply elem_of_list_lookup_2). done. }
    apply wpe_bind, wpe_exchange.
    { intros m. rewrite Hout, fmap_length. intros (n & -> & Hn)%elem_of_list_fmap. apply (la_owner _ _ _ HL). by apply (di_range _ _ HD). }
    rewrite fmap_length. intros ins Hlen Hins.
    assert (∀ t box, ins !! t = Some box →
       box ≡ₚ g <$> filter (λ n, pa_owner part (n_id n) = Z.of_nat t) (all_nets Hs)) as Hbox.
    { intros t box Hb. rewrite (Hins _ _ Hb), Hout, filter_fmap, <-list_fmap_compose. done. }
    clear Hins Hout. apply wpe_bind.
    eapply (wpe_ranks _ _ _ (λ (t : nat) (out : list (Z * (Z * Z))), ∀ m, m ∈ out ↔
       ∃ (t' : nat) i, (t' < p)%nat ∧ 0 ≤ i < pa_count part (Z.of_nat t) ∧
         0 < gsize Hs (pa_global part i (Z.of_nat t)) ∧ m = (Z.of_nat t', (pa_global part i (Z.of_nat t), gsize Hs (pa_global part i (Z.of_nat t)))))).
    { intros t Ht. destruct (lookup_lt_is_Some_2 Hs t Ht) as [H HH].
      destruct (lookup_lt_is_Some_2 ins t) as [box Hb]; [by rewrite Hlen|].
      apply wpe_bind, wpe_nidx with H; [done|]. apply wpe_bind, wpe_nidx with box; [done|].
      rewrite net_partition_eq by (by eapply elem_of_list_lookup_2).
      apply wpe_bind, (wpe_agg _ Z.add (λ m : Z * Z, pa_local part (fst m)) snd).
      { intros m Hm. rewrite replicate_length.
        pose proof (owner_box_loc gn Hs part g fst HD HL (λ _, eq_refl) t box m (Hbox _ _ Hb) Hm). lia. }
      apply wpe_ret. intros m. rewrite elem_of_list_In, in_concat.
      assert (∀ i, (i < Z.to_nat (pa_count part (Z.of_nat t)))%nat →
        agg Z.add (λ m : Z * Z, pa_local part (fst m)) snd box i 0 = gsize Hs (pa_global part (Z.of_nat i) (Z.of_nat t))) as Hagg.
      { intros i Hi. rewrite agg_add.
        rewrite (owner_box_pieces gn Hs part g fst HD HL (λ _, eq_refl) t box (Z.of_nat i) (Hbox _ _ Hb)); [|done|lia].
        rewrite gsize_zsum, <-list_fmap_compose. done. }
      split.
      - intros (l & Hl & Hm). apply elem_of_list_In, elem_of_lookup_imap in Hl as (i & s & -> & Hs').
        rewrite list_lookup_imap in Hs'. destruct (replicate _ _ !! i) as [z|] eqn:Hz; [|done].
        apply lookup_replicate in Hz as [-> Hi]. simpl in Hs'. rewrite Hagg in Hs' by done. injection Hs' as <-.
        apply elem_of_list_In in Hm. case_decide as Hpos; [|by apply elem_of_nil in Hm].
        apply elem_of_list_fmap in Hm as (t' & -> & [_ Ht']%elem_of_seq). exists t', (Z.of_nat i). split; [lia|]. split; [lia|]. split; [lia|done].
      - intros (t' & i & Ht' & Hi & Hpos & ->).
        eexists. split.
        + apply elem_of_list_In, elem_of_lookup_imap. exists (Z.to_nat i). eexists. split; [done|].
          rewrite list_lookup_imap, lookup_replicate_2 by lia. simpl. done.
        + rewrite Hagg by lia. rewrite Z2Nat.id by lia. rewrite decide_True by lia.
          apply elem_of_list_In, elem_of_list_fmap. exists t'. split; [done|]. apply elem_of_seq. lia. }
    intros outs Hlo Hout. apply wpe_bind, wpe_exchange.
    { intros m Hm. apply elem_of_list_In, in_concat in Hm as (l & Hl & Hm). apply elem_of_list_In, elem_of_list_lookup in Hl as (t & Hl).
      apply elem_of_list_In in Hm. apply (Hout _ _ Hl) in Hm as (t' & i & Ht' & _ & _ & ->). simpl. lia. }
    intros ins' Hlen' Hins'.
    assert (∀ t box, ins' !! t = Some box → ∀ m, m ∈ box ↔ ∃ nid, 0 ≤ nid < gn ∧ 0 < gsize Hs nid ∧ m = (nid, gsize Hs nid)) as Hbox'.
    { intros t box Hb m. rewrite (Hins' _ _ Hb). rewrite elem_of_list_fmap. split.
      - intros ((t1 & m1) & -> & [_ Hm]%elem_of_list_filter). apply elem_of_list_In, in_concat in Hm as (l & Hl & Hm).
        apply elem_of_list_In, elem_of_list_lookup in Hl as (t0 & Hl). apply elem_of_list_In in Hm.
        apply (Hout _ _ Hl) in Hm as (t' & i & Ht' & Hi & Hpos & [= -> ->]). apply lookup_lt_Some in Hl.
        exists (pa_global part i (Z.of_nat t0)). split; [|done]. apply (la_inv _ _ _ HL); [lia|done].
      - intros (nid & Hnid & Hpos & ->). exists (Z.of_nat t, (nid, gsize Hs nid)). split; [done|].
        apply elem_of_list_filter. split; [done|]. apply lookup_lt_Some in Hb.
        pose proof (la_owner _ _ _ HL _ Hnid) as Ho. destruct (lookup_lt_is_Some_2 outs (Z.to_nat (pa_owner part nid))) as [l Hl]; [fold p in Ho; lia|].
        apply elem_of_list_In, in_concat. exists l. split; [apply elem_of_list_In; by eapply elem_of_list_lookup_2|]. apply elem_of_list_In.
        apply (Hout _ _ Hl). exists t, (pa_local part nid). rewrite Z2Nat.id by lia.
        rewrite (la_global _ _ _ HL) by done. split; [lia|]. split; [by apply (la_local _ _ _ HL)|done]. }
    rewrite Hlo in Hlen'. clear Hins' Hout outs Hlo Hbox Hlen.
    eapply (wpe_ranks _ _ _ (λ t y, ∀ H, Hs !! t = Some H → y = (sized H, (λ n, gsize Hs (n_id n)) <$> h_nets H))).
    2: { intros l' Hl Hl'. replace l' with ((λ H, (sized H, (λ n, gsize Hs (n_id n)) <$> h_nets H)) <$> Hs); [done|].
      symmetry. apply list_eq_same_length with p; [by rewrite fmap_length|done|]. intros t y y' Ht Hy Hy'.
      rewrite list_lookup_fmap in Hy'. destruct (Hs !! t) as [H|] eqn:HH; [|done]. injection Hy' as <-. by apply (Hl' _ _ Hy). }
    intros t Ht. destruct (lookup_lt_is_Some_2 Hs t Ht) as [H HH].
    destruct (lookup_lt_is_Some_2 ins' t) as [box Hb]; [by rewrite Hlen'|]. specialize (Hbox' _ _ Hb).
    assert (H ∈ Hs) as HHs by (by eapply elem_of_list_lookup_2). pose proof (di_local _ _ HD _ HHs) as HC.
    apply wpe_bind, wpe_nidx with H; [done|]. apply wpe_bind, wpe_nidx with box; [done|].
    apply wpe_bind. eapply (wpe_foldM E _ (λ (ds : list (Z * Z)) r, r = (λ n, if decide (n_id n ∈ fst <$> ds) then gsize Hs (n_id n) else 0) <$> h_nets H)).
    - apply list_eq. intros i. rewrite list_lookup_fmap. destruct (h_nets H !! i) as [n|] eqn:Hn; simpl.
      + rewrite lookup_replicate_2 by (by apply lookup_lt_Some in Hn). done.
      + apply lookup_ge_None in Hn. by apply lookup_ge_None; rewrite replicate_length.
    - intros ds m ts r Heq ->.
      assert (m ∈ box) as (nid & Hnid & Hpos & ->)%Hbox' by (rewrite Heq; set_solver). simpl.
      unfold is_local_net. destruct (h_nmap H !! nid) as [i|] eqn:Hi.
      + rewrite bool_decide_true by eauto. apply wpe_bind. unfold local_id_net. eapply wpe_of_option_Some; [exact Hi|].
        destruct (nmap_ok_inv _ _ _ (co_nmap_ok _ HC) Hi) as (n & Hn & Hnid'). unfold aadd. apply wpe_bind.
        eapply wpe_idx. { rewrite zlookup_nat, list_lookup_fmap, Hn. simpl. done. }
        apply wpe_ret. unfold zinsert. rewrite Nat2Z.id. apply list_eq. intros j. rewrite list_lookup_fmap.
        destruct (decide (j = i)) as [->|Hji].
        * rewrite list_lookup_insert by (rewrite fmap_length; by apply lookup_lt_Some in Hn). rewrite Hn. simpl.
          rewrite decide_True; [by rewrite Hnid'|]. rewrite fmap_app, Hnid'. set_solver.
        * rewrite list_lookup_insert_ne, list_lookup_fmap by done. destruct (h_nets H !! j) as [n'|] eqn:Hn'; [|done]. simpl. f_equal.
          assert (n_id n' ≠ nid).
          { intros Heq'. apply Hji. apply (nmap_ok_lookup _ _ _ (co_nmap_ok _ HC)) in Hn'. rewrite Heq', Hi in Hn'. by injection Hn'. }
          rewrite fmap_app. destruct (decide (n_id n' ∈ fst <$> ds)); [rewrite decide_True by set_solver; done|rewrite decide_False by set_solver; done].
      + rewrite bool_decide_false by (by intros [? [=]]). apply wpe_ret. apply list_fmap_ext. intros j n' Hn'.
        assert (n_id n' ≠ nid).
        { intros Heq'. apply (nmap_ok_lookup _ _ _ (co_nmap_ok _ HC)) in Hn'. rewrite Heq', Hi in Hn'. done. }
        rewrite fmap_app. destruct (decide (n_id n' ∈ fst <$> ds)); [rewrite decide_True by set_solver; done|rewrite decide_False by set_solver; done].
    - intros r ->.
      assert ((λ n, if decide (n_id n ∈ fst <$> box) then gsize Hs (n_id n) else 0) <$> h_nets H = (λ n, gsize Hs (n_id n)) <$> h_nets H) as ->.
      { apply list_fmap_ext. intros j n Hn. case_decide as Hd; [done|]. symmetry.
        destruct (decide (0 < gsize Hs (n_id n))) as [Hpos|]; [|pose proof (gsize_nonneg Hs (n_id n)); lia].
        destruct Hd. apply elem_of_list_fmap. exists (n_id n, gsize Hs (n_id n)). split; [done|]. apply Hbox'. exists (n_id n).
        split; [|done]. apply (di_range _ _ HD), all_nets_elem. exists H. split; [done|]. by eapply elem_of_list_lookup_2. }
      apply wpe_bind, wpe_set_global_net_sizes, wpe_ret. intros H' [= <-]%(eq_trans (eq_sym HH)). done.
  Qed.
End sizes.
