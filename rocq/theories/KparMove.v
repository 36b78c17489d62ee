(** Local moves on a distributed hypergraph: the counts a processor holds follow its own moves. *)
From Verif Require Export KparReject ParCut GainInit KlfmProof.

(** ** move with local counts *)
Lemma wpe_move_loc E H C Cl v (Q : hg * list (Z * Z) * list (Z * Z) → Prop) :
  consistent H → bisected H → nets_sorted H → exact_counts H Cl → length C = length (h_nets H) → v ∈ h_verts H →
  (∀ H' Cl', moved v H H' → exact_counts H' Cl' → Q (H', mix (v_part v) (1 - v_part v) H C (v_nets v), Cl')) →
  wpe E (move_loc H C Cl (v_id v)) Q.
Proof.
  intros HC HB HS HCt Hl0 Hv HQ. pose proof Hv as [i Hi]%elem_of_list_lookup.
  apply wpe_bind. eapply wpe_local_id; [by apply co_vmap_ok|done|].
  apply wpe_bind. eapply wpe_nidx; [done|].
  apply wpe_bind. apply wpe_move_sorted; [done..|]. intros H' HM.
  assert (consistent H') as HC' by (eapply same_shape_consistent; [apply HM|done]).
  apply wpe_bind. eapply wpe_nidx.
  { rewrite (mv_verts _ _ _ HM), list_lookup_fmap, Hi. simpl. rewrite decide_True by done. done. }
  simpl. pose proof (HB v Hv) as Hp. assert (1 - v_part v = 0 ∨ 1 - v_part v = 1) as Hp' by lia.
  pose proof (exact_counts_length _ _ HCt) as Hl. pose proof (co_nmap_ok _ HC') as HN'.
  apply wpe_bind.
  eapply (wpe_foldM E _ (λ ds st, st = (mix (v_part v) (1 - v_part v) H C ds, mix (v_part v) (1 - v_part v) H Cl ds))).
  - by rewrite !mix_nil.
  - intros ds nid ts ? Heq ->.
    assert (nid ∈ v_nets v) as Hnid by (rewrite Heq; set_solver).
    destruct (co_inc1 _ HC _ _ Hv Hnid) as (n & [k Hk]%elem_of_list_lookup & <- & Hvn).
    destruct (Forall2_lookup_l _ _ _ _ _ (ss_nets _ _ (mv_shape _ _ _ HM)) Hk) as (n' & Hk' & (Hid & _)).
    assert (n_id n ∉ ds) as Hds.
    { pose proof (co_vnets _ HC _ Hv) as Hnd. rewrite Heq in Hnd.
      apply NoDup_app in Hnd as (_ & Hnd & _). intros Hds. apply (Hnd _ Hds). set_solver. }
    pose proof (lookup_lt_Some _ _ _ Hk) as Hklt.
    destruct (lookup_lt_is_Some_2 C k) as [c Hc]; [by rewrite Hl0|].
    destruct (lookup_lt_is_Some_2 Cl k) as [cl Hcl]; [by rewrite Hl|].
    assert (mix (v_part v) (1 - v_part v) H C ds !! k = Some c) as Hc'.
    { rewrite (mix_lookup _ _ _ _ _ _ _ _ Hk Hc). by rewrite decide_False. }
    assert (mix (v_part v) (1 - v_part v) H Cl ds !! k = Some cl) as Hcl'.
    { rewrite (mix_lookup _ _ _ _ _ _ _ _ Hk Hcl). by rewrite decide_False. }
    assert (∀ x : Z * Z,
      (if decide (1 - v_part v = 0) then (fst (if decide (v_part v = 0) then (x.1 + -1, x.2) else (x.1, x.2 + -1)) + 1, snd (if decide (v_part v = 0) then (x.1 + -1, x.2) else (x.1, x.2 + -1)))
       else (fst (if decide (v_part v = 0) then (x.1 + -1, x.2) else (x.1, x.2 + -1)), snd (if decide (v_part v = 0) then (x.1 + -1, x.2) else (x.1, x.2 + -1)) + 1)) =
      bump (v_part v) (1 - v_part v) x) as Hb.
    { intros x. unfold bump. destruct Hp as [-> | ->]; simpl; f_equal; lia. }
    cbn [fst snd].
    apply wpe_bind. eapply (wpe_cadd _ _ _ _ k); [done|done|done|exact Hc'|done|].
    apply wpe_bind. eapply (wpe_cadd _ _ _ _ k); [done|done|done|apply list_lookup_insert; by eapply lookup_lt_Some|done|].
    apply wpe_bind. eapply (wpe_cadd _ _ _ _ k); [done|done|done|exact Hcl'|done|].
    apply wpe_bind. eapply (wpe_cadd _ _ _ _ k); [done|done|done|apply list_lookup_insert; by eapply lookup_lt_Some|done|].
    rewrite !list_insert_insert, !Hb. apply wpe_ret.
    rewrite (mix_snoc _ _ _ _ _ _ _ _ (co_nid _ HC) Hl0 Hk Hc Hds). rewrite (mix_snoc _ _ _ _ _ _ _ _ (co_nid _ HC) Hl Hk Hcl Hds). done.
  - intros ? ->. apply wpe_ret. simpl. apply HQ; [done|]. by apply mix_exact.
Qed.

(** ** local counts by net id *)
Definition lcount (H : hg) (nid p : Z) : Z := zsum ((λ n, count_in H n p) <$> filter (λ n, n_id n = nid) (h_nets H)).

Lemma filter_id_single H n : NoDup (nids H) → n ∈ h_nets H → filter (λ n', n_id n' = n_id n) (h_nets H) = [n].
Proof.
  intros Hnd [i Hi]%elem_of_list_lookup. apply elem_of_list_split_length in Hi as (l1 & l2 & Heq & _).
  unfold nids in Hnd. rewrite Heq in *. rewrite fmap_app in Hnd. csimpl in Hnd. apply NoDup_app in Hnd as (_ & Hd & [Hn _]%NoDup_cons).
  rewrite filter_app, filter_cons, decide_True by done.
  rewrite (filter_none _ l1), (filter_none _ l2); [done|..].
  - intros x Hx Hid. apply Hn. rewrite <-Hid. by apply elem_of_list_fmap_1.
  - intros x Hx Hid. apply (Hd (n_id x)); [by apply elem_of_list_fmap_1|]. rewrite Hid. left.
Qed.
Lemma lcount_elem H n p : consistent H → n ∈ h_nets H → lcount H (n_id n) p = count_in H n p.
Proof. intros HC Hn. unfold lcount. rewrite (filter_id_single H n (co_nid _ HC) Hn). csimpl. rewrite zsum_cons. unfold zsum. simpl. lia. Qed.
Lemma lcount_absent H nid p : nid ∉ nids H → lcount H nid p = 0.
Proof.
  intros Hn. unfold lcount. rewrite filter_none; [done|]. intros x Hx <-. apply Hn. by apply elem_of_list_fmap_1.
Qed.
Lemma lcount_nonneg H nid p : 0 ≤ lcount H nid p.
Proof.
  unfold lcount. apply zsum_nonneg. intros x (n & -> & _)%elem_of_list_fmap. apply zcount_nonneg.
Qed.

Lemma gcount_local gn Hs nid p : distributed gn Hs → gcount Hs nid p = zsum ((λ H, lcount H nid p) <$> Hs).
Proof.
  intros HD. rewrite gcount_zsum. unfold pieces, all_nets. rewrite concat_filter, <-list_fmap_compose.
  assert (∀ l : list hg, (∀ H, H ∈ l → H ∈ Hs) →
    zsum ((λ n, zcount (λ u, gpart Hs u = p) (n_verts n)) <$> concat ((filter (λ n, n_id n = nid) ∘ h_nets) <$> l)) =
    zsum ((λ H, lcount H nid p) <$> l)) as Hgen; [|by apply Hgen].
  induction l as [|H l IH]; intros Hl; [done|]. csimpl. rewrite fmap_app, zsum_app, zsum_cons, IH by set_solver. f_equal.
  unfold lcount. apply zsum_fmap_ext. intros n [_ Hn]%elem_of_list_filter. unfold count_in. apply zcount_ext. intros u Hu.
  assert (H ∈ Hs) as HH by (apply Hl; left). rewrite (gpart_local gn Hs H u HD HH); [done|].
  eapply net_in_vids; [by apply (di_local _ _ HD)|done..].
Qed.

(** ** only parts change *)
Definition same_shapes : list hg → list hg → Prop := Forall2 same_shape.

Lemma same_shapes_distributed gn Hs Hs' : same_shapes Hs Hs' → distributed gn Hs → distributed gn Hs'.
Proof.
  intros HF [H1 H2 H3 H4 H5].
  assert (∀ H', H' ∈ Hs' → ∃ H, H ∈ Hs ∧ same_shape H H') as Hex.
  { intros H' [t HH']%elem_of_list_lookup. destruct (Forall2_lookup_r _ _ _ _ _ HF HH') as (H & HH & Hsh). exists H.
    split; [by eapply elem_of_list_lookup_2|done]. }
  assert (∀ n', n' ∈ all_nets Hs' → ∃ n, n ∈ all_nets Hs ∧ same_net n n') as Hexn.
  { intros n' (H' & HH' & [i Hn']%elem_of_list_lookup)%all_nets_elem. destruct (Hex H' HH') as (H & HH & Hsh).
    destruct (Forall2_lookup_r _ _ _ _ _ (ss_nets _ _ Hsh) Hn') as (n & Hn & Hsn). exists n. split; [|done].
    apply all_nets_elem. exists H. split; [done|by eapply elem_of_list_lookup_2]. }
  split.
  - intros H' HH'. destruct (Hex H' HH') as (H & HH & Hsh). eapply same_shape_consistent; [done|by apply H1].
  - intros H' HH'. destruct (Hex H' HH') as (H & HH & Hsh). rewrite <-(ss_gnets _ _ Hsh). by apply H2.
  - replace (v_id <$> all_verts Hs') with (v_id <$> all_verts Hs); [done|]. clear -HF. unfold all_verts.
    induction HF as [|H H' Hs Hs' Hsh HF IH]; [done|]. csimpl. rewrite !fmap_app, IH. f_equal. by apply same_shape_vids.
  - intros n' Hn'. destruct (Hexn n' Hn') as (n & Hn & (<- & _)). by apply H4.
  - intros n1 n2 Hn1 Hn2 Hid. destruct (Hexn n1 Hn1) as (m1 & Hm1 & (Hi1 & _ & <- & _)).
    destruct (Hexn n2 Hn2) as (m2 & Hm2 & (Hi2 & _ & <- & _)). apply H5; [done..|congruence].
Qed.
Lemma same_shape_pieces H H' nid : same_shape H H' →
  Forall2 same_net (filter (λ n, n_id n = nid) (h_nets H)) (filter (λ n, n_id n = nid) (h_nets H')).
Proof.
  intros Hsh. pose proof (ss_nets _ _ Hsh) as HF. induction HF as [|n n' l l' Hn HF IH]; [constructor|].
  rewrite !filter_cons. destruct Hn as (Hid & Hrest). destruct (decide (n_id n = nid)).
  - rewrite decide_True by congruence. constructor; [done|]. done.
  - rewrite decide_False by congruence. done.
Qed.
Lemma Forall2_concat {A B} (R : A → B → Prop) (ls : list (list A)) (ks : list (list B)) :
  Forall2 (Forall2 R) ls ks → Forall2 R (concat ls) (concat ks).
Proof. induction 1; simpl; [constructor|]. by apply Forall2_app. Qed.
Lemma same_shapes_pieces Hs Hs' nid : same_shapes Hs Hs' → Forall2 same_net (pieces Hs nid) (pieces Hs' nid).
Proof.
  intros HF. unfold pieces, all_nets. rewrite !concat_filter. apply Forall2_concat.
  rewrite <-!list_fmap_compose. apply Forall2_fmap_2. eapply Forall2_impl; [exact HF|]. intros H H' Hsh. by apply same_shape_pieces.
Qed.
Lemma same_shapes_gcost Hs Hs' nid : same_shapes Hs Hs' → gcost Hs' nid = gcost Hs nid.
Proof.
  intros HF. pose proof (same_shapes_pieces _ _ nid HF) as HP. unfold gcost. destruct HP as [|n n' l l' (_ & _ & Hc & _)]; done.
Qed.
Lemma same_shapes_gverts Hs Hs' nid : same_shapes Hs Hs' → gverts Hs' nid ≡ₚ gverts Hs nid.
Proof.
  intros HF. pose proof (same_shapes_pieces _ _ nid HF) as HP. unfold gverts.
  induction HP as [|n n' l l' (_ & Hp & _) HP IH]; [done|]. csimpl. rewrite IH. by rewrite Hp.
Qed.
Lemma same_shapes_gsize Hs Hs' nid : same_shapes Hs Hs' → gsize Hs' nid = gsize Hs nid.
Proof. intros HF. unfold gsize. by rewrite (same_shapes_gverts Hs Hs'). Qed.
Lemma same_shapes_gweight Hs Hs' : same_shapes Hs Hs' → gweight Hs' = gweight Hs.
Proof.
  intros HF. rewrite <-!gweight_sum. induction HF as [|H H' l l' Hsh HF IH]; [done|]. csimpl. rewrite !zsum_cons, IH.
  by rewrite (same_shape_tot_weight H H').
Qed.
Lemma same_shapes_trans H1 H2 H3 : same_shapes H1 H2 → same_shapes H2 H3 → same_shapes H1 H3.
Proof. intros Ha Hb. eapply Forall2_transitive; [|exact Ha|exact Hb]. intros x y z. apply same_shape_trans. Qed.
Lemma same_shapes_refl Hs : same_shapes Hs Hs.
Proof. induction Hs; constructor; [apply same_shape_refl|done]. Qed.

(** ** the counts of a processor *)
(** [B] is what the processor had at the last exchange, when the counts were those of [Bs]; its own
    moves since then are taken into account *)
Definition tracks (Bs : list hg) (B H : hg) (C : list (Z * Z)) : Prop :=
  C = (λ n, (gcount Bs (n_id n) 0 + (count_in H n 0 - lcount B (n_id n) 0),
             gcount Bs (n_id n) 1 + (count_in H n 1 - lcount B (n_id n) 1))) <$> h_nets H.

Lemma tracks_length Bs B H C : tracks Bs B H C → length C = length (h_nets H).
Proof. intros ->. apply fmap_length. Qed.
Lemma tracks_lookup Bs B H C i n : tracks Bs B H C → h_nets H !! i = Some n →
  C !! i = Some (gcount Bs (n_id n) 0 + (count_in H n 0 - lcount B (n_id n) 0),
                 gcount Bs (n_id n) 1 + (count_in H n 1 - lcount B (n_id n) 1)).
Proof. intros -> Hn. by rewrite list_lookup_fmap, Hn. Qed.
Lemma tracks_init Bs B : consistent B → tracks Bs B B ((λ n, (gcount Bs (n_id n) 0, gcount Bs (n_id n) 1)) <$> h_nets B).
Proof.
  intros HC. unfold tracks. apply list_fmap_ext. intros i n Hn%elem_of_list_lookup_2.
  rewrite !lcount_elem by done. f_equal; lia.
Qed.
Lemma tracks_moved Bs B H C v H' : tracks Bs B H C → consistent H → bisected H → v ∈ h_verts H → moved v H H' →
  tracks Bs B H' (mix (v_part v) (1 - v_part v) H C (v_nets v)).
Proof.
  intros HT HC HB Hv HM. pose proof (ss_nets _ _ (mv_shape _ _ _ HM)) as Hf2. unfold tracks. apply list_eq. intros i.
  rewrite list_lookup_fmap. destruct (h_nets H !! i) as [n|] eqn:Hn.
  - destruct (Forall2_lookup_l _ _ _ _ _ Hf2 Hn) as (n' & Hn' & Hid & Hpm & _). symmetry in Hpm.
    rewrite (mix_lookup _ _ _ _ _ _ _ _ Hn (tracks_lookup _ _ _ _ _ _ HT Hn)), Hn'. simpl. f_equal.
    pose proof (elem_of_list_lookup_2 _ _ _ Hn) as Hnn. rewrite <-Hid.
    rewrite !(moved_count_p v H H' n n') by auto. pose proof (HB v Hv) as Hp.
    destruct (decide (n_id n ∈ v_nets v)); [|f_equal; lia]. unfold bump. simpl.
    destruct Hp as [-> | ->]; simpl; f_equal; lia.
  - assert (h_nets H' !! i = None) as ->.
    { apply lookup_ge_None. rewrite <-(Forall2_length _ _ _ Hf2). by apply lookup_ge_None. }
    apply lookup_ge_None. rewrite mix_length by (by eapply tracks_length). by apply lookup_ge_None.
Qed.
Lemma zsum_elem_le (l : list Z) x : (∀ y, y ∈ l → 0 ≤ y) → x ∈ l → x ≤ zsum l.
Proof.
  intros Hl [l1 [l2 ->]]%elem_of_list_split. rewrite zsum_app, zsum_cons.
  assert (0 ≤ zsum l1) by (apply zsum_nonneg; set_solver). assert (0 ≤ zsum l2) by (apply zsum_nonneg; set_solver). lia.
Qed.
Lemma gcount_ge_local gn Bs B nid p : distributed gn Bs → B ∈ Bs → lcount B nid p ≤ gcount Bs nid p.
Proof.
  intros HD HB. rewrite (gcount_local gn) by done. apply zsum_elem_le.
  - intros y (H & -> & _)%elem_of_list_fmap. apply lcount_nonneg.
  - apply elem_of_list_fmap. eauto.
Qed.
Lemma tracks_dominates gn Bs B H C : distributed gn Bs → B ∈ Bs → tracks Bs B H C → dominates H C.
Proof.
  intros HD HB HT. split; [by eapply tracks_length|]. intros i n c p Hn Hc Hp.
  rewrite (tracks_lookup _ _ _ _ _ _ HT Hn) in Hc. injection Hc as <-.
  pose proof (gcount_ge_local gn Bs B (n_id n) p HD HB). destruct Hp as [-> | ->]; unfold sel; simpl; lia.
Qed.
