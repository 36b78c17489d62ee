(** Histories of local moves and exchanges of counts. *)
From Verif Require Export KparInit.

(** ** the sum of the tracked cuts *)
Lemma both_lambda (Hs : list hg) nid : (∀ u, u ∈ gverts Hs nid → gpart Hs u = 0 ∨ gpart Hs u = 1) →
  both (counts_of Hs nid) = if decide (1 < lambda (gpart Hs) (gverts Hs nid)) then 1 else 0.
Proof.
  intros HB. unfold both, counts_of, gcount. cbn [fst snd]. set (vs := gverts Hs nid) in *. set (σ := gpart Hs) in *.
  destruct (decide (1 < lambda σ vs)) as [Hl|Hl].
  - rewrite decide_False; [done|]. apply lambda_gt_1 in Hl as (u & v & Hu & Hv & Hne).
    assert (∀ x q, x ∈ vs → σ x = q → 0 < zcount (λ y, σ y = q) vs) as Hpos.
    { intros x q Hx Hq. apply zcount_pos. eauto. }
    intros [H0|H0]; destruct (HB u Hu) as [Hu'|Hu'], (HB v Hv) as [Hv'|Hv']; try congruence.
    + pose proof (Hpos u 0 Hu Hu'). lia.
    + pose proof (Hpos v 0 Hv Hv'). lia.
    + pose proof (Hpos v 1 Hv Hv'). lia.
    + pose proof (Hpos u 1 Hu Hu'). lia.
  - rewrite decide_True; [done|].
    destruct (decide (zcount (λ y, σ y = 0) vs = 0)) as [|H0]; [by left|]. destruct (decide (zcount (λ y, σ y = 1) vs = 0)) as [|H1]; [by right|].
    exfalso. apply Hl, lambda_gt_1.
    assert (0 < zcount (λ y, σ y = 0) vs) as (u & Hu & Hu')%zcount_pos by (pose proof (zcount_nonneg (λ y, σ y = 0) vs); lia).
    assert (0 < zcount (λ y, σ y = 1) vs) as (v & Hv & Hv')%zcount_pos by (pose proof (zcount_nonneg (λ y, σ y = 1) vs); lia).
    exists u, v. split; [done|]. split; [done|]. congruence.
Qed.

Section cut.
  Context (bp : Z → Z → partitioning) (Hbp : lawful_family bp) (gn : Z) (Hs : list hg).
  Context (HD : distributed gn Hs) (Hgn : 0 ≤ gn) (Hne : Hs ≠ []).
  Let p := length Hs.
  Let part := bp (Z.of_nat p) gn.

  Lemma gpart_bis nid u : (∀ v, v ∈ all_verts Hs → v_part v = 0 ∨ v_part v = 1) → u ∈ gverts Hs nid → gpart Hs u = 0 ∨ gpart Hs u = 1.
  Proof.
    intros HB (n & (H & HH & Hn)%all_nets_elem & _ & Hu)%gverts_elem.
    assert (u ∈ vids H) as (v & Hv & <-)%vids_elem by (eapply net_in_vids; [by apply (di_local _ _ HD)|done..]).
    assert (v ∈ all_verts Hs) by (apply all_verts_elem; eauto).
    rewrite (gpart_elem Hs v (di_verts _ _ HD)) by done. by apply HB.
  Qed.

  Lemma mycut_sum m : (∀ v, v ∈ all_verts Hs → v_part v = 0 ∨ v_part v = 1) →
    zsum (mycut part Hs <$> seq 0 p) = cut_by m (whole_nets Hs gn) (gpart Hs).
  Proof.
    intros HB. pose proof (part_lawful bp Hbp gn Hs HD Hgn Hne) as HL. fold p part in HL.
    unfold mycut. rewrite (zsum_owners p gn part (λ nid, gcost Hs nid * both (counts_of Hs nid)) HL).
    rewrite cut_by_contribution. unfold whole_nets. rewrite <-list_fmap_compose. apply zsum_fmap_ext. intros nid _. simpl.
    rewrite both_lambda by (intros u Hu; by eapply gpart_bis). unfold contribution. case_decide as Hl; [|lia].
    rewrite lambda_01 in * by (intros u Hu; by eapply gpart_bis). destruct m; repeat case_decide; lia.
  Qed.
End cut.

(** ** gains are updated without touching anything else *)
Lemma wlp_any {A} (m : M A) : wlp m (λ _, True).
Proof. intros w. by destruct (m w) as [[? ?]|]. Qed.
Lemma wlp_add_gain G u d : wlp (add_gain G u d) (λ G', g_H G' = g_H G ∧ g_C G' = g_C G).
Proof.
  unfold add_gain. apply wpe_bind. eapply wpe_mono; [apply wlp_any|]. intros i _. apply wpe_bind. eapply wpe_mono; [apply wlp_any|]. intros old _.
  case_decide; [by apply wpe_ret|]. apply wpe_bind. eapply wpe_mono; [apply wlp_any|]. intros x _.
  apply wpe_bind. eapply wpe_mono; [apply wlp_any|]. intros b _. apply wpe_bind. eapply wpe_mono; [apply wlp_any|]. intros r _.
  apply wpe_bind. eapply wpe_mono; [apply wlp_any|]. intros b' _. apply wpe_bind. eapply wpe_mono; [apply wlp_any|]. intros bs _. by apply wpe_ret.
Qed.
Lemma wlp_update_gains G n c c' : wlp (update_gains G n c c') (λ G', g_H G' = g_H G ∧ g_C G' = g_C G).
Proof.
  set (P G' := g_H G' = g_H G ∧ g_C G' = g_C G).
  assert (∀ G1 d, P G1 → wlp (foldM (λ G u, add_gain G u d) (n_verts n) G1) P) as Hall.
  { intros G1 d H1. apply (wpe_foldM_inv _ _ P); [done| |done]. intros u G2 _ [? ?]. eapply wpe_mono; [apply wlp_add_gain|]. intros G3 [? ?]. split; congruence. }
  assert (∀ G1 q d, P G1 → wlp (u <- boundary n q ;; x <- vert (g_H G) u ;; if decide (v_part x = q) then add_gain G1 u d else ret G1) P) as Hone.
  { intros G1 q d H1. apply wpe_bind. eapply wpe_mono; [apply wlp_any|]. intros u _. apply wpe_bind. eapply wpe_mono; [apply wlp_any|]. intros x _.
    case_decide; [|by apply wpe_ret]. destruct H1. eapply wpe_mono; [apply wlp_add_gain|]. intros G3 [? ?]. split; congruence. }
  unfold update_gains.
  apply wpe_bind, wpe_mono with P; [case_decide; [apply Hall|apply wpe_ret]; done|]. intros G1 H1.
  apply wpe_bind, wpe_mono with P; [case_decide; [apply Hone|apply wpe_ret]; done|]. intros G2 H2.
  apply wpe_bind, wpe_mono with P; [case_decide; [apply Hone|apply wpe_ret]; done|]. intros G3 H3.
  apply wpe_bind, wpe_mono with P; [case_decide; [apply Hall|apply wpe_ret]; done|]. intros G4 H4.
  apply wpe_bind, wpe_mono with P; [case_decide; [apply Hone|apply wpe_ret]; done|]. intros G5 H5.
  case_decide; [apply Hone|apply wpe_ret]; done.
Qed.

(** ** one processor *)
Record kok (part : partitioning) (Bs : list hg) (t : nat) (B : hg) (k : kproc) : Prop := {
  ko_book : booked part Bs t B k;
  ko_bis : bisected (kp_H k);
  ko_sorted : nets_sorted (kp_H k);
  ko_loc : exact_counts (kp_H k) (kp_Cl k);
}.

Lemma wpe_kp_move E part Bs t B k v (Q : hg * list (Z * Z) * list (Z * Z) → Prop) :
  consistent B → kok part Bs t B k → v ∈ h_verts (kp_H k) →
  (∀ r, moved v (kp_H k) (fst (fst r)) → kok part Bs t B (kp_moved k r) → Q r) →
  wpe E (move_loc (kp_H k) (kp_C k) (kp_Cl k) (v_id v)) Q.
Proof.
  intros HCB [[Hsh Htr Hown Hprev Hcut] HB HS HCl] Hv HQ.
  assert (consistent (kp_H k)) as HC by (by eapply same_shape_consistent).
  apply wpe_move_loc; [done..|by eapply tracks_length|done|]. intros H' Cl' HM HCl'. apply HQ; [done|].
  assert (same_shape B H') as Hsh' by (eapply same_shape_trans; [done|apply HM]).
  split; unfold kp_moved, kp_H, kp_C; simpl.
  - split; unfold kp_H, kp_C; simpl; [done|by apply tracks_moved|done| |done].
    rewrite Hprev. pose proof (ss_nets _ _ (mv_shape _ _ _ HM)) as HF.
    clear -HF. induction HF as [|n n' l l' (Hid & _) HF IH]; [done|]. csimpl. by rewrite IH, Hid.
  - by eapply moved_bisected.
  - apply HM.
  - done.
Qed.

Lemma table_ok_shape part Bs Hs t ow : same_shapes Bs Hs → table_ok part Bs t ow → table_ok part Hs t ow.
Proof.
  intros HSh [Hc Hl Hp]. split; [|done|].
  - rewrite Hc. apply list_fmap_ext. intros. symmetry. by apply same_shapes_gcost.
  - intros i ps Hps u. rewrite (Hp i ps Hps). split.
    + intros (s & B & Hu & HB & Hin). destruct (Forall2_lookup_l _ _ _ _ _ HSh HB) as (H & HH & Hsh). exists s, H.
      by rewrite <-(same_shape_nids _ _ Hsh).
    + intros (s & H & Hu & HH & Hin). destruct (Forall2_lookup_r _ _ _ _ _ HSh HH) as (B & HB & Hsh). exists s, B.
      by rewrite (same_shape_nids _ _ Hsh).
Qed.
Lemma same_shapes_gsizes Bs Hs : same_shapes Bs Hs → (∀ n, n ∈ all_nets Bs → n_gsize n = gsize Bs (n_id n)) →
  (∀ n, n ∈ all_nets Hs → n_gsize n = gsize Hs (n_id n)).
Proof.
  intros HSh Hgs n (H & [t HH]%elem_of_list_lookup & [i Hn]%elem_of_list_lookup)%all_nets_elem.
  destruct (Forall2_lookup_r _ _ _ _ _ HSh HH) as (B & HB & Hsh). destruct (Forall2_lookup_r _ _ _ _ _ (ss_nets _ _ Hsh) Hn) as (n0 & Hn0 & (Hid & _ & _ & Hgz)).
  rewrite <-Hgz, <-Hid, (same_shapes_gsize Bs Hs _ HSh). apply Hgs. apply all_nets_elem. exists B. split; by eapply elem_of_list_lookup_2.
Qed.

Section hist.
  Context (bp : Z → Z → partitioning).

  Context (Hbp : lawful_family bp) (gn : Z) (Hgn : 0 ≤ gn).

  (** the state after an exchange: everything is exact *)
  Record synced (ows : list kowned) (ks : list kproc) : Prop := {
    sy_dist : distributed gn (kp_H <$> ks);
    sy_ne : ks ≠ [];
    sy_bis : ∀ v, v ∈ all_verts (kp_H <$> ks) → v_part v = 0 ∨ v_part v = 1;
    sy_gs : ∀ n, n ∈ all_nets (kp_H <$> ks) → n_gsize n = gsize (kp_H <$> ks) (n_id n);
    sy_len : length ows = length ks;
    sy_tab : ∀ t ow, ows !! t = Some ow → table_ok (bp (Z.of_nat (length ks)) gn) (kp_H <$> ks) t ow;
    sy_ok : ∀ t k, ks !! t = Some k → kok (bp (Z.of_nat (length ks)) gn) (kp_H <$> ks) t (kp_H k) k;
  }.

  Lemma synced_counts ows ks t k : synced ows ks → ks !! t = Some k → kp_C k = (λ n, counts_of (kp_H <$> ks) (n_id n)) <$> h_nets (kp_H k).
  Proof.
    intros HS Hk. pose proof (bk_tracks _ _ _ _ _ (ko_book _ _ _ _ _ (sy_ok _ _ HS t k Hk))) as ->.
    assert (consistent (kp_H k)) as HC. { apply (di_local _ _ (sy_dist _ _ HS)). apply elem_of_list_fmap. exists k. split; [done|by eapply elem_of_list_lookup_2]. }
    apply list_fmap_ext. intros i n Hn%elem_of_list_lookup_2. rewrite !lcount_elem by done. unfold counts_of. f_equal; lia.
  Qed.
  Lemma synced_cut m ows ks : synced ows ks → zsum (kp_cut <$> ks) = cut_by m (whole_nets (kp_H <$> ks) gn) (gpart (kp_H <$> ks)).
  Proof.
    intros HS. rewrite <-(mycut_sum bp Hbp gn (kp_H <$> ks)); [|apply HS|done| |apply HS].
    2: { intros Hnil%fmap_nil_inv. by apply (sy_ne _ _ HS). }
    rewrite fmap_length. f_equal. apply list_eq_same_length with (length ks); [by rewrite fmap_length, seq_length|by rewrite fmap_length|].
    intros t x y Ht. rewrite !list_lookup_fmap, lookup_seq_lt by done. destruct (ks !! t) as [k|] eqn:Hk; [|done]. simpl. intros [= <-] [= <-].
    apply (bk_cut _ _ _ _ _ (ko_book _ _ _ _ _ (sy_ok _ _ HS t k Hk))).
  Qed.

  Lemma mod2 x n : x = 0 ∨ x = 1 → (1 - x + n) `mod` 2 = (x + (1 + n)) `mod` 2.
  Proof.
    intros [-> | ->]; [done|]. replace (1 - 1 + n) with n by lia. replace (1 + (1 + n)) with (n + 1 * 2) by lia.
    by rewrite Z.mod_add by lia.
  Qed.
  Lemma mod2_le x : x = 0 ∨ x = 1 → x `mod` 2 = x.
  Proof. by intros [-> | ->]. Qed.

  (** only the hypergraph, counts and local counts change *)
  Definition kp_rest (k k' : kproc) : Prop :=
    kp_ws k' = kp_ws k ∧ kp_own k' = kp_own k ∧ kp_prev0 k' = kp_prev0 k ∧ kp_cut k' = kp_cut k ∧ kp_best k' = kp_best k ∧
    kp_nim k' = kp_nim k ∧ kp_done k' = kp_done k.

  Lemma wpe_local_moves E part Bs t B k vs (Q : kproc → Prop) :
    consistent B → kok part Bs t B k → (∀ u, u ∈ vs → u ∈ vids B) →
    (∀ k', kok part Bs t B k' → (∀ u, u ∈ vids B → part_of (kp_H k') u = (part_of (kp_H k) u + zcount (λ x, x = u) vs) `mod` 2) → Q k') →
    wpe E (local_moves k vs) Q.
  Proof.
    intros HCB Hk Hvs HQ. unfold local_moves.
    eapply (wpe_foldM E _ (λ ds k', kok part Bs t B k' ∧
       ∀ u, u ∈ vids B → part_of (kp_H k') u = (part_of (kp_H k) u + zcount (λ x, x = u) ds) `mod` 2)).
    - split; [done|]. intros u Hu. rewrite zcount_nil, Z.add_0_r. symmetry. apply mod2_le.
      rewrite (same_shape_vids _ _ (bk_shape _ _ _ _ _ (ko_book _ _ _ _ _ Hk))) in Hu. apply vids_elem in Hu as (x & Hx & <-).
      rewrite part_of_elem; [|apply (same_shape_consistent _ _ (bk_shape _ _ _ _ _ (ko_book _ _ _ _ _ Hk)) HCB)|done]. by apply (ko_bis _ _ _ _ _ Hk).
    - intros ds u ts k1 Heq [Hk1 Hp1]. pose proof (bk_shape _ _ _ _ _ (ko_book _ _ _ _ _ Hk1)) as Hsh.
      assert (consistent (kp_H k1)) as HC1 by (by eapply same_shape_consistent).
      assert (u ∈ vids (kp_H k1)) as (v & Hv & <-)%vids_elem. { rewrite <-(same_shape_vids _ _ Hsh). apply Hvs. rewrite Heq. set_solver. }
      apply wpe_bind. apply (wpe_kp_move _ part Bs t B k1 v); [done..|]. intros r HM Hk'. apply wpe_ret. split; [done|].
      intros u Hu. change (kp_H (kp_moved k1 r)) with (fst (fst r)). rewrite (moved_part_of v (kp_H k1)) by done.
      rewrite zcount_app, zcount_cons, zcount_nil.
      destruct (decide (u = v_id v)) as [->|Hne].
      + rewrite decide_True by done. pose proof (Hp1 _ Hu) as Hp. rewrite part_of_elem in Hp by (done || apply HC1).
        rewrite Hp. set (a := part_of (kp_H k) (v_id v) + zcount (λ x, x = v_id v) ds).
        replace (part_of (kp_H k) (v_id v) + (zcount (λ x, x = v_id v) ds + (1 + 0))) with (a + 1) by (unfold a; lia).
        pose proof (Z.mod_pos_bound a 2 ltac:(lia)). rewrite (Z.add_mod a 1 2) by lia. assert (a `mod` 2 = 0 ∨ a `mod` 2 = 1) as [-> | ->] by lia; done.
      + rewrite decide_False by done. rewrite Hp1 by done. do 2 f_equal. lia.
    - intros k' [Hk' Hp']. by apply HQ.
  Qed.

  Lemma wpe_count_round (E : err → Prop) (ug : bool) ows ks moves (Q : list kproc → Prop) :
    (ug = true → ∀ e, E e) → synced ows ks → legal_moves (kp_H <$> ks) moves →
    (∀ ks', synced ows ks' → same_shapes (kp_H <$> ks) (kp_H <$> ks') →
       (∀ u, u ∈ v_id <$> all_verts (kp_H <$> ks) →
          gpart (kp_H <$> ks') u = (gpart (kp_H <$> ks) u + zcount (λ x, x = u) (concat moves)) `mod` 2) → Q ks') →
    wpe E (count_round bp ug ows ks moves) Q.
  Proof.
    intros HE HS [Hlm Hleg] HQ. unfold count_round. set (p := length ks). set (Bs := kp_H <$> ks). set (part := bp (Z.of_nat p) gn).
    rewrite fmap_length in Hlm. pose proof (sy_dist _ _ HS) as HD. fold Bs in HD, Hleg.
    assert (length Bs = p) as HlB by (unfold Bs, p; by rewrite fmap_length).
    assert (Bs ≠ []) as HneB by (intros Hnil; apply fmap_nil_inv in Hnil; by apply (sy_ne _ _ HS)).
    apply wpe_bind. eapply (wpe_ranks _ _ _ (λ t k', ∀ k vs, ks !! t = Some k → moves !! t = Some vs →
       kok part Bs t (kp_H k) k' ∧ ∀ u, u ∈ vids (kp_H k) → part_of (kp_H k') u = (part_of (kp_H k) u + zcount (λ x, x = u) vs) `mod` 2)).
    { intros t Ht. destruct (lookup_lt_is_Some_2 ks t Ht) as [k Hk]. destruct (lookup_lt_is_Some_2 moves t) as [vs Hvs]; [unfold p in Ht; lia|].
      apply wpe_bind, wpe_nidx with k; [done|]. apply wpe_bind, wpe_nidx with vs; [done|].
      assert (Bs !! t = Some (kp_H k)) as HB by (unfold Bs; by rewrite list_lookup_fmap, Hk).
      apply (wpe_local_moves _ part Bs t (kp_H k)).
      - apply (di_local _ _ HD). by eapply elem_of_list_lookup_2.
      - apply (sy_ok _ _ HS t k Hk).
      - intros u Hu. by eapply Hleg.
      - intros k' Hk' Hp' k0 vs0 [= <-]%(eq_trans (eq_sym Hk)) [= <-]%(eq_trans (eq_sym Hvs)). done. }
    intros ks1 Hl1 Hks1. set (Hs := kp_H <$> ks1).
    assert (∀ t k1, ks1 !! t = Some k1 → ∃ k vs, ks !! t = Some k ∧ moves !! t = Some vs ∧ kok part Bs t (kp_H k) k1 ∧
       ∀ u, u ∈ vids (kp_H k) → part_of (kp_H k1) u = (part_of (kp_H k) u + zcount (λ x, x = u) vs) `mod` 2) as Hex.
    { intros t k1 Hk1. pose proof (lookup_lt_Some _ _ _ Hk1) as Ht. destruct (lookup_lt_is_Some_2 ks t) as [k Hk]; [unfold p in *; lia|].
      destruct (lookup_lt_is_Some_2 moves t) as [vs Hvs]; [unfold p in *; lia|]. exists k, vs. split; [done|]. split; [done|]. by eapply Hks1. }
    clear Hks1.
    assert (same_shapes Bs Hs) as HSh.
    { apply Forall2_same_length_lookup_2; [unfold Hs; rewrite fmap_length; lia|]. intros t B H HB HH. unfold Hs in HH. rewrite list_lookup_fmap in HH.
      destruct (ks1 !! t) as [k1|] eqn:Hk1; [|done]. injection HH as <-. destruct (Hex t k1 Hk1) as (k & vs & Hk & _ & Hok & _).
      unfold Bs in HB. rewrite list_lookup_fmap, Hk in HB. injection HB as <-. apply (bk_shape _ _ _ _ _ (ko_book _ _ _ _ _ Hok)). }
    pose proof (same_shapes_distributed gn Bs Hs HSh HD) as HD'.
    assert (∀ v, v ∈ all_verts Hs → v_part v = 0 ∨ v_part v = 1) as HBis.
    { intros v (H & HH & Hv)%all_verts_elem. apply elem_of_list_fmap in HH as (k1 & -> & [t Hk1]%elem_of_list_lookup).
      destruct (Hex t k1 Hk1) as (k & vs & _ & _ & Hok & _). by apply (ko_bis _ _ _ _ _ Hok). }
    assert (∀ t B k1, Bs !! t = Some B → ks1 !! t = Some k1 → kok part Bs t B k1) as Hok1.
    { intros t B k1 HB Hk1. destruct (Hex t k1 Hk1) as (k & vs & Hk & _ & Hok & _). unfold Bs in HB. rewrite list_lookup_fmap, Hk in HB. by injection HB as <-. }
    apply wpe_bind. eapply (wpe_mapP _ _ (λ t k1 out, ∀ B, Bs !! t = Some B → sends part Bs B (kp_H k1) out)).
    { intros t k1 Hk1. destruct (Hex t k1 Hk1) as (k & vs & Hk & _ & Hok & _).
      assert (Bs !! t = Some (kp_H k)) as HB by (unfold Bs; by rewrite list_lookup_fmap, Hk). rewrite <-HlB.
      eapply (wpe_changed_counts bp gn Bs HD E t (kp_H k)); [done|rewrite HlB; apply Hok|]. rewrite HlB. intros out Hout B [= <-]%(eq_trans (eq_sym HB)). done. }
    intros outs Hlo Houts. rewrite Hl1 in Hlo. pose proof (part_lawful bp Hbp gn Bs HD Hgn HneB) as HL. rewrite HlB in HL. fold part in HL.
    apply wpe_bind, wpe_exchange.
    { intros m (out & Hm & [t Ho]%elem_of_list_lookup)%CoarsenProof.elem_of_concat. pose proof (lookup_lt_Some _ _ _ Ho) as Ht.
      destruct (lookup_lt_is_Some_2 ks1 t) as [k1 Hk1]; [lia|]. destruct (lookup_lt_is_Some_2 Bs t) as [B HB]; [lia|].
      destruct (Houts t k1 out Hk1 Ho B HB) as (Y & Hperm & _). rewrite Hperm in Hm. apply elem_of_list_fmap in Hm as (n & -> & [_ Hn]%elem_of_list_filter).
      rewrite Hlo. apply (la_owner _ _ _ HL), (di_range _ _ HD'), all_nets_elem. exists (kp_H k1). split; [|done].
      apply elem_of_list_fmap. exists k1. split; [done|by eapply elem_of_list_lookup_2]. }
    rewrite Hlo. intros ins Hli Hins.
    eapply (wpe_update_C bp Hbp gn Bs HD Hgn HneB Hs HSh E ug ows outs ins ks1 (λ t G, ∀ k1, ks1 !! t = Some k1 → g_H G = kp_H k1 ∧ g_C G = kp_C k1)).
    - done.
    - apply (sy_bis _ _ HS).
    - done.
    - apply (sy_gs _ _ HS).
    - rewrite HlB. apply HS.
    - rewrite HlB. apply (sy_tab _ _ HS).
    - rewrite HlB. intros t B k1 HB Hk1. by apply Hok1.
    - by rewrite HlB.
    - rewrite HlB. intros t B k1 out HB Hk1 Ho. by eapply Houts.
    - by rewrite HlB.
    - done.
    - intros t k1 G Hk1 HG. by apply HG.
    - intros t k1 Hk1. destruct ug.
      + intros prev0 _. specialize (HE eq_refl). apply (wpe_weaken (λ _, True)); [|by intros e _].
        eapply (wpe_foldM_inv _ _ (λ G, g_H G = kp_H k1 ∧ g_C G = kp_C k1)); [done| |].
        * intros i G _ [HG1 HG2]. apply wpe_bind. eapply wpe_mono; [apply wlp_any|]. intros n _. apply wpe_bind. eapply wpe_mono; [apply wlp_any|]. intros c0 _.
          apply wpe_bind. eapply wpe_mono; [apply wlp_any|]. intros c _. case_decide; [|by apply wpe_ret]. eapply wpe_mono; [apply wlp_update_gains|].
          intros G' [? ?]. split; congruence.
        * intros G HG k0 [= <-]%(eq_trans (eq_sym Hk1)). done.
      + intros k0 [= <-]%(eq_trans (eq_sym Hk1)). done.
    - intros ks' Hl' Hks'. rewrite HlB in *. fold part in Hks'.
      assert (∀ t k', ks' !! t = Some k' → ∃ k1, ks1 !! t = Some k1 ∧ kp_H k' = kp_H k1 ∧ kok part Hs t (kp_H k1) k') as Hex'.
      { intros t k' Hk'. pose proof (lookup_lt_Some _ _ _ Hk') as Ht. destruct (lookup_lt_is_Some_2 ks1 t) as [k1 Hk1]; [lia|]. exists k1. split; [done|].
        destruct (Hks' t k1 Hk1) as (G & HG & Hk''). rewrite Hk' in Hk''. injection Hk'' as ->. destruct (HG k1 Hk1) as [HG1 HG2].
        destruct (Hex t k1 Hk1) as (k & vs & _ & _ & Hok & _).
        assert (consistent (kp_H k1)) as HC1. { apply (di_local _ _ HD'). apply elem_of_list_fmap. exists k1. split; [done|by eapply elem_of_list_lookup_2]. }
        unfold kp_H at 1 3. simpl. rewrite HG1. split; [done|]. split; unfold kp_H, kp_C; simpl; rewrite ?HG1; [|apply Hok..].
        split; unfold kp_H, kp_C; simpl; rewrite ?HG1; [apply same_shape_refl|by apply tracks_init|done|done|done]. }
      assert (kp_H <$> ks' = Hs) as HeqH.
      { unfold Hs. apply list_eq_same_length with p; [by rewrite fmap_length|by rewrite fmap_length|]. intros t x y Ht. rewrite !list_lookup_fmap.
        destruct (ks' !! t) as [k'|] eqn:Hk'; [|done]. destruct (Hex' t k' Hk') as (k1 & Hk1 & HH & _). rewrite Hk1. simpl. congruence. }
      apply HQ; rewrite ?HeqH.
      + split; rewrite ?HeqH, ?Hl'; fold p part.
        * done.
        * intros ->. simpl in Hl'. unfold p in Hl'. pose proof (sy_ne _ _ HS). by destruct ks.
        * done.
        * eapply same_shapes_gsizes; [done|apply HS].
        * apply HS.
        * intros t ow How. eapply table_ok_shape; [done|]. by apply (sy_tab _ _ HS).
        * intros t k' Hk'. destruct (Hex' t k' Hk') as (k1 & Hk1 & HH & Hok). by rewrite HH.
      + done.
      + intros u (v & -> & (B & HB & Hv)%all_verts_elem)%elem_of_list_fmap. pose proof HB as [t HBt]%elem_of_list_lookup.
        assert (v_id v ∈ vids B) as Hvin by (apply vids_elem; eauto).
        unfold Bs in HBt. rewrite list_lookup_fmap in HBt. destruct (ks !! t) as [k|] eqn:Hk; [|done]. injection HBt as <-.
        pose proof (lookup_lt_Some _ _ _ Hk) as Ht. destruct (lookup_lt_is_Some_2 ks1 t) as [k1 Hk1]; [unfold p in *; lia|].
        destruct (Hex t k1 Hk1) as (k0 & vs & Hk0 & Hvs & Hok & Hpar). rewrite Hk in Hk0. injection Hk0 as <-.
        assert (kp_H k1 ∈ Hs) as HH1. { apply elem_of_list_fmap. exists k1. split; [done|by eapply elem_of_list_lookup_2]. }
        rewrite (gpart_local gn Hs (kp_H k1) _ HD' HH1), (gpart_local gn Bs (kp_H k) _ HD HB), Hpar; [|done..|].
        2: { by rewrite <-(same_shape_vids _ _ (bk_shape _ _ _ _ _ (ko_book _ _ _ _ _ Hok))). }
        do 2 f_equal. clear -Hvs Hleg HD Hk Hvin Hlm. (* the other processors do not move it *)
        assert (∀ s vs', moves !! s = Some vs' → s ≠ t → zcount (λ x, x = v_id v) vs' = 0) as Hz.
        { intros s vs' Hs' Hne. destruct (decide (zcount (λ x, x = v_id v) vs' = 0)) as [|Hnz]; [done|].
          assert (0 < zcount (λ x, x = v_id v) vs') as (x & Hx & ->)%zcount_pos by (pose proof (zcount_nonneg (λ x, x = v_id v) vs'); lia).
          pose proof (lookup_lt_Some _ _ _ Hs') as Hsl. destruct (lookup_lt_is_Some_2 ks s) as [k' Hk']; [lia|].
          assert (Bs !! s = Some (kp_H k')) as HBs by (unfold Bs; by rewrite list_lookup_fmap, Hk').
          assert (Bs !! t = Some (kp_H k)) as HBt by (unfold Bs; by rewrite list_lookup_fmap, Hk).
          pose proof (Hleg s _ _ _ HBs Hs' Hx) as Hin. exfalso. pose proof (di_verts _ _ HD) as Hnd.
          revert HBs HBt Hin Hvin Hne Hnd. clear. unfold all_verts. revert s t. induction Bs as [|B Bs' IH]; intros s t; [done|]. csimpl. rewrite fmap_app.
          intros HBs HBt Hin Hvin Hne (_ & Hdis & Hnd)%NoDup_app.
          assert (∀ (l : list hg) r H x, l !! r = Some H → x ∈ vids H → x ∈ v_id <$> concat (h_verts <$> l)) as Hcc.
          { clear. intros l r H x HH (y & Hy & <-)%vids_elem. apply elem_of_list_fmap. exists y. split; [done|]. apply CoarsenProof.elem_of_concat.
            exists (h_verts H). split; [done|]. apply elem_of_list_fmap. exists H. split; [done|by eapply elem_of_list_lookup_2]. }
          destruct s as [|s], t as [|t]; simplify_eq/=.
          - apply (Hdis (v_id v)); [done|]. by eapply Hcc.
          - apply (Hdis (v_id v)); [done|]. by eapply Hcc.
          - eapply (IH s t); eauto. }
        revert Hvs Hz. clear. revert t. induction moves as [|l moves IH]; intros t; [done|]. simpl. rewrite zcount_app. destruct t as [|t]; simpl.
        * intros [= ->] Hz. assert (zcount (λ x, x = v_id v) (concat moves) = 0) as ->; [|lia].
          assert (∀ s vs', moves !! s = Some vs' → zcount (λ x, x = v_id v) vs' = 0) as Hz' by (intros s vs' Hs; by apply (Hz (Datatypes.S s))).
          clear -Hz'. induction moves as [|l moves IH]; [done|]. simpl. rewrite zcount_app, (Hz' 0%nat l), IH; [done|intros s; apply (Hz' (Datatypes.S s))|done].
        * intros Hvs Hz. rewrite (Hz 0%nat l) by done. rewrite (IH t); [lia|done|]. intros s vs' Hs Hne. apply (Hz (Datatypes.S s)); [done|lia].
  Qed.

  (** the local start of KLFM_par *)
  Lemma wpe_sort_world E Hs Cs ws (Q : list kin → Prop) :
    distributed gn Hs → (∀ v, v ∈ all_verts Hs → v_part v = 0 ∨ v_part v = 1) →
    Cs = (λ H, (λ n, counts_of Hs (n_id n)) <$> h_nets H) <$> Hs →
    (∀ ins, length ins = length Hs → same_shapes Hs (kn_H <$> ins) → h_verts <$> (kn_H <$> ins) = h_verts <$> Hs →
       (∀ t k, ins !! t = Some k → kn_C k = (λ n, counts_of (kn_H <$> ins) (n_id n)) <$> h_nets (kn_H k) ∧ kn_ws k = ws ∧
          nets_sorted (kn_H k) ∧ exact_counts (kn_H k) (kn_Cl k)) → Q ins) →
    wpe E (mapP (λ t, H <- nidx Hs t ;; C <- nidx Cs t ;; Cl <- init_counts H ;; H1 <- sort_vertices_on_part H Cl ;; ret (KIn H1 C Cl ws)) (seq 0 (length Hs))) Q.
  Proof.
    intros HD HB HCs HQ.
    eapply (wpe_ranks _ _ _ (λ t k, ∀ H, Hs !! t = Some H → same_shape H (kn_H k) ∧ h_verts (kn_H k) = h_verts H ∧
       kn_C k = (λ n, counts_of Hs (n_id n)) <$> h_nets (kn_H k) ∧ kn_ws k = ws ∧ nets_sorted (kn_H k) ∧ exact_counts (kn_H k) (kn_Cl k))).
    { intros t Ht. destruct (lookup_lt_is_Some_2 Hs t Ht) as [H HH]. assert (H ∈ Hs) as HHs by (by eapply elem_of_list_lookup_2).
      pose proof (di_local _ _ HD _ HHs) as HC. assert (bisected H) as HBH by (intros v Hv; apply HB, all_verts_elem; eauto).
      apply wpe_bind, wpe_nidx with H; [done|]. apply wpe_bind. eapply wpe_nidx; [by rewrite HCs, list_lookup_fmap, HH|].
      apply wpe_bind, wpe_init_counts; [done..|]. intros Cl HCl. apply wpe_bind, wpe_sort_vertices_on_part; [done..|].
      intros H1 Hsh Hvs Hsrt HCl1. apply wpe_ret. intros H' [= <-]%(eq_trans (eq_sym HH)). simpl. split_and!; [done..| |done|done|done].
      pose proof (ss_nets _ _ Hsh) as HF. clear -HF. induction HF as [|n n' l l' (Hid & _) HF IH]; [done|]. csimpl. by rewrite IH, Hid. }
    intros ins Hl Hins.
    assert (∀ t k, ins !! t = Some k → ∃ H, Hs !! t = Some H ∧ same_shape H (kn_H k) ∧ h_verts (kn_H k) = h_verts H ∧
       kn_C k = (λ n, counts_of Hs (n_id n)) <$> h_nets (kn_H k) ∧ kn_ws k = ws ∧ nets_sorted (kn_H k) ∧ exact_counts (kn_H k) (kn_Cl k)) as Hex.
    { intros t k Hk. pose proof (lookup_lt_Some _ _ _ Hk) as Ht. destruct (lookup_lt_is_Some_2 Hs t) as [H HH]; [lia|]. exists H. split; [done|]. by eapply Hins. }
    assert (same_shapes Hs (kn_H <$> ins)) as HSh.
    { apply Forall2_same_length_lookup_2; [by rewrite fmap_length|]. intros t H H1 HH HH1. rewrite list_lookup_fmap in HH1.
      destruct (ins !! t) as [k|] eqn:Hk; [|done]. injection HH1 as <-. destruct (Hex t k Hk) as (H' & HH' & Hsh & _). congruence. }
    assert (h_verts <$> (kn_H <$> ins) = h_verts <$> Hs) as Hvs.
    { apply list_eq_same_length with (length Hs); [by rewrite fmap_length|by rewrite !fmap_length|]. intros t x y Ht. rewrite !list_lookup_fmap.
      destruct (ins !! t) as [k|] eqn:Hk; [|done]. destruct (Hex t k Hk) as (H' & HH' & _ & Hv & _). rewrite HH'. simpl. congruence. }
    assert (∀ u, gpart (kn_H <$> ins) u = gpart Hs u) as Hgp by (intros u; unfold gpart, all_verts; by rewrite Hvs).
    assert (∀ nid, counts_of (kn_H <$> ins) nid = counts_of Hs nid) as Hco.
    { intros nid. unfold counts_of, gcount. f_equal; rewrite (zcount_perm _ _ _ (same_shapes_gverts Hs _ nid HSh)); apply zcount_ext; intros u _; by rewrite Hgp. }
    apply HQ; [done..|]. intros t k Hk. destruct (Hex t k Hk) as (H' & HH' & Hsh & Hv & HC & Hrest). split; [|apply Hrest].
    rewrite HC. apply list_fmap_ext. intros i n _. by rewrite Hco.
  Qed.

  Lemma wpe_count_history (E : err → Prop) (ug : bool) Hs bs rounds (Q : list kproc → Prop) :
    (ug = true → ∀ e, E e) →
    distributed gn Hs → Hs ≠ [] → (∀ v, v ∈ all_verts Hs → v_part v = 0 ∨ v_part v = 1) →
    (∀ n, n ∈ all_nets Hs → n_gsize n = gsize Hs (n_id n)) →
    (∀ moves, moves ∈ rounds → legal_moves Hs moves) →
    (∀ ows ks, synced ows ks → same_shapes Hs (kp_H <$> ks) →
       (∀ u, u ∈ v_id <$> all_verts Hs → gpart (kp_H <$> ks) u = (gpart Hs u + zcount (λ x, x = u) (concat (concat rounds))) `mod` 2) → Q ks) →
    wpe E (count_history bp ug Hs bs rounds) Q.
  Proof.
    intros HE HD Hne HB Hgs Hleg HQ. unfold count_history. set (p := length Hs).
    apply wpe_bind, (wpe_init_counts_par bp Hbp gn Hs HD Hgn Hne); [done..|].
    apply wpe_bind, wpe_sort_world; [done..|]. intros ins Hl HSh Hvs Hins. set (Hs1 := kn_H <$> ins) in *.
    pose proof (same_shapes_distributed gn Hs Hs1 HSh HD) as HD1.
    assert (length Hs1 = p) as Hl1 by (unfold Hs1; by rewrite fmap_length).
    assert (Hs1 ≠ []) as Hne1. { intros Hnil. rewrite Hnil in HSh. inversion HSh. by subst. }
    assert (∀ v, v ∈ all_verts Hs1 → v_part v = 0 ∨ v_part v = 1) as HB1 by (unfold all_verts; rewrite Hvs; apply HB).
    apply wpe_bind, (wpe_init_cost_my_nets bp Hbp gn Hs1 HD1 Hgn Hne1). rewrite Hl1. intros ows Hlw Htab.
    apply wpe_bind, (wpe_init_previous_C bp Hbp gn Hs1 HD1 Hgn Hne1).
    { apply list_eq_same_length with p; [by rewrite fmap_length|by rewrite fmap_length|]. intros t x y Ht. unfold Hs1. rewrite !list_lookup_fmap.
      destruct (ins !! t) as [k|] eqn:Hk; [|done]. simpl. intros [= <-] [= <-]. by apply (Hins t k Hk). }
    { by rewrite Hl1. }
    { rewrite Hl1. intros t ow How. apply (Htab t ow How). }
    rewrite Hl1. set (part := bp (Z.of_nat p) gn) in *.
    apply wpe_bind. eapply (wpe_ranks _ _ _ (λ t k', ∀ k, ins !! t = Some k → kp_H k' = kn_H k ∧ kok part Hs1 t (kn_H k) k')).
    { intros t Ht. destruct (lookup_lt_is_Some_2 ins t) as [k Hk]; [by rewrite Hl|]. destruct (Hins t k Hk) as (HkC & _ & Hsrt & HCl).
      apply wpe_bind, wpe_nidx with k; [done|]. apply wpe_bind. eapply wpe_nidx; [by rewrite list_lookup_fmap, lookup_seq_lt by done|].
      apply wpe_ret. intros k0 [= <-]%(eq_trans (eq_sym Hk)). cbn [fst snd]. unfold kp_H. simpl. split; [done|].
      assert (Hs1 !! t = Some (kn_H k)) as HH1 by (unfold Hs1; by rewrite list_lookup_fmap, Hk).
      assert (consistent (kn_H k)) as HC by (apply (di_local _ _ HD1); by eapply elem_of_list_lookup_2).
      split; unfold kp_H, kp_C; simpl; [|intros v Hv; apply HB1, all_verts_elem; exists (kn_H k); split; [by eapply elem_of_list_lookup_2|done]|done|done].
      split; unfold kp_H, kp_C; simpl; [apply same_shape_refl|rewrite HkC; by apply tracks_init|done| |done].
      rewrite HkC, <-list_fmap_compose. done. }
    intros ks Hlk Hks.
    assert (kp_H <$> ks = Hs1) as HeqH.
    { unfold Hs1. apply list_eq_same_length with p; [by rewrite fmap_length|by rewrite fmap_length|]. intros t x y Ht. rewrite !list_lookup_fmap.
      destruct (ks !! t) as [k'|] eqn:Hk'; [|done]. pose proof (lookup_lt_Some _ _ _ Hk'). destruct (lookup_lt_is_Some_2 ins t) as [k Hk]; [lia|].
      destruct (Hks t k' Hk' k Hk) as [HH _]. rewrite Hk. simpl. congruence. }
    assert (synced ows ks) as HS.
    { split; rewrite ?HeqH, ?Hlk; fold part.
      - done.
      - intros ->. simpl in HeqH. by rewrite <-HeqH in Hne1.
      - done.
      - by eapply same_shapes_gsizes.
      - done.
      - done.
      - intros t k' Hk'. pose proof (lookup_lt_Some _ _ _ Hk'). destruct (lookup_lt_is_Some_2 ins t) as [k Hk]; [lia|].
        destruct (Hks t k' Hk' k Hk) as [HH Hok]. by rewrite HH. }
    assert (∀ u, gpart Hs1 u = gpart Hs u) as Hgp by (intros u; unfold gpart, all_verts; by rewrite Hvs).
    assert (∀ u, u ∈ v_id <$> all_verts Hs → gpart Hs u = 0 ∨ gpart Hs u = 1) as Hg01.
    { intros u (v & -> & Hv)%elem_of_list_fmap. rewrite gpart_elem by (done || apply HD). by apply HB. }
    eapply (wpe_foldM E _ (λ ds ks, synced ows ks ∧ same_shapes Hs (kp_H <$> ks) ∧
       ∀ u, u ∈ v_id <$> all_verts Hs → gpart (kp_H <$> ks) u = (gpart Hs u + zcount (λ x, x = u) (concat (concat ds))) `mod` 2)).
    - split; [done|]. rewrite HeqH. split; [done|]. intros u Hu. simpl. rewrite zcount_nil, Z.add_0_r, Hgp. symmetry. apply mod2_le. by apply Hg01.
    - intros ds moves ts ks1 Heq (HS1 & HSh1 & Hp1).
      assert (legal_moves Hs moves) as [Hlm Hlg] by (apply Hleg; rewrite Heq; set_solver).
      assert (v_id <$> all_verts (kp_H <$> ks1) = v_id <$> all_verts Hs) as Hids.
      { clear -HSh1. unfold all_verts. revert HSh1. generalize (kp_H <$> ks1). intros Hs1 HSh1. induction HSh1 as [|B H Bs' Hs' Hsh HF IH]; [done|]. csimpl. rewrite !fmap_app, IH. f_equal.
        symmetry. by apply same_shape_vids. }
      apply (wpe_count_round E ug ows ks1 moves); [done..| |].
      { split; [by rewrite <-(Forall2_length _ _ _ HSh1)|]. intros t H vs u HH Hvs' Hu. destruct (Forall2_lookup_r _ _ _ _ _ HSh1 HH) as (B & HBt & Hsh).
        pose proof (same_shape_vids _ _ Hsh) as Hv. unfold vids in Hv. rewrite <-Hv. by eapply Hlg. }
      intros ks2 HS2 HSh2 Hp2. split; [done|]. split; [by eapply same_shapes_trans|]. intros u Hu.
      rewrite Hp2 by (by rewrite Hids). rewrite Hp1 by done. rewrite !concat_app, zcount_app. simpl. rewrite app_nil_r.
      rewrite Z.add_mod_idemp_l by lia. f_equal. lia.
    - intros ks1 (HS1 & HSh1 & Hp1). by eapply HQ.
  Qed.
End hist.
