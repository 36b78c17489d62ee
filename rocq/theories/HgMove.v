(** Proofs about sort_vertices_on_part, move_sorted and move. *)
From Verif Require Export HgCuts.

(** split all decisions of the goal and of the hypotheses *)
Ltac dz := repeat match goal with
  | |- context [decide ?P] => destruct (decide P)
  | H : context [decide ?P] |- _ => destruct (decide P)
  end; try lia.

(** ** part-sorted vertex lists, positionally *)
Definition sorted_at (σ : Z → Z) (vl : list Z) (c : Z) : Prop :=
  0 ≤ c ≤ Z.of_nat (length vl) ∧
  ∀ k x, zlookup vl k = Some x → σ x = if decide (k < c) then 0 else 1.

Lemma zcount_lookup_lt (P : Z → Prop) {HPd : ∀ x, Decision (P x)} (vl : list Z) c :
  0 ≤ c ≤ Z.of_nat (length vl) →
  (∀ k x, zlookup vl k = Some x → P x ↔ k < c) → zcount P vl = c.
Proof.
  intros Hc HP. rewrite <-(take_drop (Z.to_nat c) vl), zcount_app.
  rewrite zcount_all, zcount_none.
  - rewrite take_length. lia.
  - intros x [k Hk]%elem_of_list_lookup. rewrite lookup_drop in Hk.
    rewrite (HP (Z.of_nat (Z.to_nat c + k))); [lia|]. by rewrite zlookup_nat.
  - intros x [k Hk]%elem_of_list_lookup. apply lookup_take_Some in Hk as [Hk Hlt].
    apply (HP (Z.of_nat k)); [by rewrite zlookup_nat|lia].
Qed.

Lemma sorted_at_count0 σ vl c : sorted_at σ vl c → zcount (λ u, σ u = 0) vl = c.
Proof.
  intros [Hc Hs]. apply zcount_lookup_lt; [done|]. intros k x Hk%Hs. rewrite Hk.
  case_decide; split; lia.
Qed.
Lemma sorted_at_count1 σ vl c : sorted_at σ vl c → zcount (λ u, σ u = 1) vl = Z.of_nat (length vl) - c.
Proof.
  intros [Hc Hs]. rewrite <-(take_drop (Z.to_nat c) vl), zcount_app.
  rewrite zcount_none, zcount_all.
  - rewrite app_length, drop_length, take_length. lia.
  - intros x [k Hk]%elem_of_list_lookup. rewrite lookup_drop in Hk.
    rewrite (Hs (Z.of_nat (Z.to_nat c + k))); [|by rewrite zlookup_nat].
    rewrite decide_False by lia. done.
  - intros x [k Hk]%elem_of_list_lookup. apply lookup_take_Some in Hk as [Hk Hlt].
    rewrite (Hs (Z.of_nat k)); [|by rewrite zlookup_nat].
    rewrite decide_True by lia. done.
Qed.

(** all nets sorted, with their counts as boundary *)
Definition nets_sorted (H : hg) : Prop :=
  ∀ n, n ∈ h_nets H → sorted_at (part_of H) (n_verts n) (count_in H n 0).

Lemma part_sorted_iff H :
  part_sorted H ↔ nets_sorted H.
Proof.
  split.
  - intros HS n Hn. destruct (HS n Hn) as (l0 & l1 & Hl & H0 & H1).
    assert (count_in H n 0 = Z.of_nat (length l0)) as Hc.
    { unfold count_in. rewrite Hl, zcount_app, zcount_all, zcount_none; [lia|..].
      - intros x Hx. rewrite (H1 x Hx). done.
      - done. }
    rewrite Hc, Hl. split; [rewrite app_length; lia|].
    intros k x [Hk Hx]%zlookup_Some. apply lookup_app_Some in Hx as [Hx|[? Hx]].
    + rewrite decide_True by (apply lookup_lt_Some in Hx; lia).
      apply H0. by eapply elem_of_list_lookup_2.
    + rewrite decide_False by lia. apply H1. by eapply elem_of_list_lookup_2.
  - intros HS n Hn. destruct (HS n Hn) as [Hc Hs].
    exists (take (Z.to_nat (count_in H n 0)) (n_verts n)), (drop (Z.to_nat (count_in H n 0)) (n_verts n)).
    split; [by rewrite take_drop|]. split.
    + intros x [k Hk]%elem_of_list_lookup. apply lookup_take_Some in Hk as [Hk Hlt].
      rewrite (Hs (Z.of_nat k)); [|by rewrite zlookup_nat]. rewrite decide_True by lia. done.
    + intros x [k Hk]%elem_of_list_lookup. rewrite lookup_drop in Hk.
      rewrite (Hs (Z.of_nat (Z.to_nat (count_in H n 0) + k))); [|by rewrite zlookup_nat].
      rewrite decide_False by lia. done.
Qed.

(** ** sort_vertices_on_part *)
Lemma zlookup_perm_elem {A} (l l' : list A) k x : l' ≡ₚ l → zlookup l' k = Some x → x ∈ l.
Proof. intros Hp [_ Hx]%zlookup_Some. rewrite <-Hp. by eapply elem_of_list_lookup_2. Qed.

Lemma wpe_vert_id E H u (Q : vertex → Prop) :
  vmap_ok H → u ∈ vids H → (∀ v, v ∈ h_verts H → v_id v = u → v_part v = part_of H u → Q v) →
  wpe E (vert H u) Q.
Proof.
  intros HV (v & Hv & <-)%vids_elem HQ. apply wpe_vert; [done..|]. apply HQ; [done..|].
  rewrite part_of_elem; [done| |done]. by eapply ids_ok_NoDup.
Qed.

(** a zero exists strictly between *)
Lemma exists_zero_between σ (vl : list Z) index en :
  0 ≤ index → index < zcount (λ u, σ u = 0) vl → en < Z.of_nat (length vl) →
  (∀ k x, zlookup vl k = Some x → index = k → σ x ≠ 0) →
  (∀ k x, zlookup vl k = Some x → en < k → σ x = 1) →
  ∃ k x, zlookup vl k = Some x ∧ index < k ≤ en ∧ σ x = 0.
Proof.
  intros Hi Hlt Hen Hne Hsuf.
  assert (0 < zcount (λ u, σ u = 0) (drop (Z.to_nat index) vl)) as Hpos.
  { rewrite <-(take_drop (Z.to_nat index) vl), zcount_app in Hlt.
    pose proof (zcount_le_length (λ u, σ u = 0) (take (Z.to_nat index) vl)) as Hle.
    rewrite take_length in Hle. lia. }
  apply zcount_pos in Hpos as (x & [k Hk]%elem_of_list_lookup & Hx).
  rewrite lookup_drop in Hk. rewrite <-zlookup_nat in Hk.
  exists (Z.of_nat (Z.to_nat index + k)), x. split; [done|]. split; [|done]. split.
  - destruct (decide (index = Z.of_nat (Z.to_nat index + k))) as [Heq|]; [|lia].
    destruct (Hne _ _ Hk Heq Hx).
  - destruct (decide (en < Z.of_nat (Z.to_nat index + k))); [|lia].
    rewrite (Hsuf _ _ Hk) in Hx by done. done.
Qed.

Lemma wpe_sort_net_on_part E H vl0 (Q : list Z → Prop) :
  vmap_ok H → (∀ u, u ∈ vl0 → u ∈ vids H) →
  (∀ u, u ∈ vl0 → part_of H u = 0 ∨ part_of H u = 1) →
  (∀ vl, vl ≡ₚ vl0 → sorted_at (part_of H) vl (zcount (λ u, part_of H u = 0) vl0) → Q vl) →
  wpe E (sort_net_on_part H (zcount (λ u, part_of H u = 0) vl0) vl0) Q.
Proof.
  intros HV Hids H01 HQ. set (σ := part_of H) in *. set (c0 := zcount (λ u, σ u = 0) vl0).
  pose proof (zcount_nonneg (λ u, σ u = 0) vl0) as Hc0. fold c0 in Hc0.
  pose proof (zcount_le_length (λ u, σ u = 0) vl0) as Hc0'. fold c0 in Hc0'.
  unfold sort_net_on_part. apply wpe_bind.
  set (Inv := λ s : list Z * Z * Z, let '(vl, index, en) := s in
     vl ≡ₚ vl0 ∧ 0 ≤ index ≤ c0 ∧ -1 ≤ en < Z.of_nat (length vl) ∧
     (∀ k x, zlookup vl k = Some x → k < index → σ x = 0) ∧
     (∀ k x, zlookup vl k = Some x → en < k → σ x = 1)).
  set (mu := λ s : list Z * Z * Z, let '(vl, index, en) := s in Z.to_nat (c0 - index + (en + 1))).
  eapply (wpe_loopM E _ Inv mu).
  - intros [[vl index] en] (Hp & Hi & He & Hpre & Hsuf).
    assert (length vl = length vl0) as Hlen by by apply Permutation_length.
    destruct (decide (index < c0)) as [Hlt|Hge].
    + destruct (zlookup_is_Some vl index) as [u Hu]; [lia|].
      apply wpe_bind. eapply wpe_idx; [done|].
      apply wpe_bind. apply wpe_vert_id; [done|apply Hids; by eapply zlookup_perm_elem|].
      intros v _ _ Hv. fold σ in Hv. rewrite Hv. destruct (decide (σ u = 0)) as [Hz|Hz].
      * apply wpe_ret. split; [|unfold mu; lia]. split; [done|]. split; [lia|]. split; [lia|].
        split; [|done]. intros k x Hk Hki.
        destruct (decide (k = index)) as [->|]; [congruence|]. apply (Hpre k x); [done|lia].
      * assert (zcount (λ u, σ u = 0) vl = c0) as Hcv by (by apply zcount_perm).
        assert (σ u = 1) as Hu1.
        { destruct (H01 u); [by eapply zlookup_perm_elem|done|done]. }
        apply wpe_bind. eapply wpe_mono.
        { apply (wpe_loopM E _ (λ en' : Z, index < en' ≤ en ∧
           (∀ k x, zlookup vl k = Some x → en' < k → σ x = 1)) (λ e : Z, Z.to_nat (e + 1))
           (λ en' : Z, index < en' ≤ en ∧ (∀ x, zlookup vl en' = Some x → σ x = 0) ∧
           (∀ k x, zlookup vl k = Some x → en' < k → σ x = 1))).
        -- intros en' [Hr Hs'].
           destruct (zlookup_is_Some vl en') as [y Hy]; [lia|].
           apply wpe_bind. eapply wpe_idx; [done|].
           apply wpe_bind. apply wpe_vert_id; [done|apply Hids; by eapply zlookup_perm_elem|].
           intros v' _ _ Hv'. fold σ in Hv'. rewrite Hv'. 
           destruct (exists_zero_between σ vl index en') as (k & x & Hk & Hkr & Hx);
             [lia|lia|lia| |done|].
           { intros k x Hk <-. congruence. }
           destruct (decide (σ y = 1)) as [Hy1|Hy1].
           ++ apply wpe_ret. split; [|lia].
              assert (k ≠ en') by (intros ->; simplify_eq; congruence).
              split; [lia|]. intros k' x' Hk' Hlt'.
              destruct (decide (k' = en')) as [->|]; [congruence|]. apply (Hs' k' x'); [done|lia].
           ++ apply wpe_ret. split; [done|]. split; [|done]. intros x' Hx'. assert (x' = y) as -> by congruence.
              destruct (H01 y); [by eapply zlookup_perm_elem|done|done].
        -- assert (index < en).
           { destruct (exists_zero_between σ vl index en) as (k & x & Hk & Hkr & Hx);
               [lia|lia|lia| |done|lia]. intros k x Hk <-. congruence. }
           split; [lia|done].
        -- lia. }
        { intros en' (Hr & Hz' & Hs'). apply wpe_bind.
           apply wpe_iter_swap; [lia|lia|]. intros x y Hx Hy Hpp. apply wpe_ret.
           split; [|unfold mu; lia].
           unfold Inv. split; [by rewrite Hpp|]. split; [done|].
           split; [rewrite !zinsert_length; lia|].
           split; intros k z; rewrite (zswap_lookup _ _ _ _ _ _ Hx Hy); intros Hk Hki.
           ++ rewrite decide_False in Hk by lia. rewrite decide_False in Hk by lia. by apply (Hpre k).
           ++ destruct (decide (k = index)); [lia|]. destruct (decide (k = en')); [congruence|].
              apply (Hs' k z); [done|lia]. }
    + apply wpe_ret. apply wpe_ret. apply HQ; [done|]. split; [lia|].
      assert (index = c0) as -> by lia.
      fold c0. intros k x Hk. destruct (decide (k < c0)) as [Hlt|Hlt]; [by apply (Hpre k)|].
      destruct (H01 x) as [H0|]; [by eapply zlookup_perm_elem| |done].
      exfalso. assert (zcount (λ u, σ u = 0) vl = c0) as Hcv by (by apply zcount_perm).
      rewrite <-(take_drop (Z.to_nat c0) vl), zcount_app in Hcv.
      rewrite zcount_all in Hcv.
      * rewrite take_length in Hcv.
        assert (0 < zcount (λ u, σ u = 0) (drop (Z.to_nat c0) vl)); [|lia].
        apply zcount_pos. exists x. split; [|done].
        apply zlookup_Some in Hk as [Hk0 Hk].
        apply elem_of_list_lookup. exists (Z.to_nat k - Z.to_nat c0)%nat. rewrite lookup_drop.
        replace (Z.to_nat c0 + (Z.to_nat k - Z.to_nat c0))%nat with (Z.to_nat k) by lia. done.
      * intros y [j Hj]%elem_of_list_lookup. apply lookup_take_Some in Hj as [Hj Hjl].
        apply (Hpre (Z.of_nat j)); [by rewrite zlookup_nat|lia].
  - split; [done|]. split; [lia|]. split; [lia|]. split.
    + intros k x Hk%zlookup_Some_lt. lia.
    + intros k x Hk%zlookup_Some_lt. lia.
  - unfold mu. lia.
Qed.

(** Only the orders inside nets change. *)
Lemma wpe_sort_vertices_on_part E H C (Q : hg → Prop) :
  consistent H → bisected H → exact_counts H C →
  (∀ H', same_shape H H' → h_verts H' = h_verts H → nets_sorted H' → exact_counts H' C → Q H') →
  wpe E (sort_vertices_on_part H C) Q.
Proof.
  intros HC HB HCt HQ. unfold sort_vertices_on_part.
  eapply (wpe_foldM E _ (λ done H', same_shape H H' ∧ h_verts H' = h_verts H ∧
    (∀ j n, (j < length done)%nat → h_nets H' !! j = Some n →
        sorted_at (part_of H) (n_verts n) (count_in H n 0)))).
  - split; [apply same_shape_refl|]. split; [done|]. simpl. lia.
  - intros done i todo H' Heq (HS & Hvs & Hsorted).
    assert (i = length done ∧ (i < length (h_nets H))%nat) as [-> Hlt].
    { assert (seq 0 (length (h_nets H)) !! length done = Some i) as Hs
        by (rewrite Heq; by apply list_lookup_middle).
      apply lookup_seq in Hs. lia. }
    apply lookup_lt_is_Some in Hlt as [n Hn].
    destruct (Forall2_lookup_l _ _ _ _ _ (ss_nets _ _ HS) Hn) as (n' & Hn' & Hid & Hp & Hcost & Hgs).
    assert (consistent H') as HC' by (by eapply same_shape_consistent).
    assert (∀ u, part_of H' u = part_of H u) as Hpart.
    { intros u. apply part_of_ext. by rewrite Hvs. }
    apply wpe_bind. eapply wpe_nidx; [done|].
    apply wpe_bind. eapply wpe_nidx.
    { rewrite HCt, list_lookup_fmap, Hn. done. }
    simpl. pose proof (elem_of_list_lookup_2 _ _ _ Hn) as Hin.
    pose proof (elem_of_list_lookup_2 _ _ _ Hn') as Hin'.
    assert (∀ u, u ∈ n_verts n' → u ∈ vids H') as Hvid.
    { intros u Hu. by eapply net_in_vids. }
    assert (vids H' = vids H) as Hvids by (unfold vids; by rewrite Hvs).
    apply wpe_bind.
    replace (count_in H n 0) with (zcount (λ u, part_of H' u = 0) (n_verts n')).
    2: { unfold count_in. rewrite <-(zcount_perm _ _ _ Hp). apply zcount_ext.
         intros u _. by rewrite Hpart. }
    apply wpe_sort_net_on_part; [by apply co_vmap_ok|done|..].
    { intros u Hu%Hvid. rewrite Hpart. apply bisected_part_of; [done..|]. by rewrite <-Hvids. }
    intros vl Hvl Hsrt. apply wpe_ret. split_and!.
    + split; try apply HS. simpl. pose proof (ss_nets _ _ HS) as Hf2.
      apply Forall2_same_length_lookup. rewrite alter_length.
      split; [by eapply Forall2_length|]. intros j a b Ha Hb.
      destruct (Forall2_lookup_l _ _ _ _ _ Hf2 Ha) as (b' & Hb' & Hs).
      destruct (decide (j = length done)) as [->|Hne].
      * rewrite list_lookup_alter, Hb' in Hb. simplify_eq/=.
        destruct Hs as (? & ? & ? & ?). split_and!; try done. simpl. by rewrite Hvl.
      * rewrite list_lookup_alter_ne in Hb by done. by simplify_eq.
    + done.
    + intros j m Hj Hm. simpl in Hm. rewrite app_length in Hj. simpl in Hj.
      destruct (decide (j = length done)) as [->|Hne].
      * rewrite list_lookup_alter, Hn' in Hm. simplify_eq/=.
        unfold count_in. simpl.
        assert (∀ x, zcount (λ u, part_of H u = 0) x = zcount (λ u, part_of H' u = 0) x) as Hz.
        { intros x. apply zcount_ext. intros u _. by rewrite Hpart. }
        rewrite Hz, (zcount_perm _ _ _ Hvl). destruct Hsrt as [? Hs']. split; [done|].
        intros k x. rewrite <-Hpart. apply Hs'.
      * rewrite list_lookup_alter_ne in Hm by done. apply (Hsorted j m); [lia|done].
  - intros H' (HS & Hvs & Hsorted).
    assert (∀ u, part_of H' u = part_of H u) as Hpart.
    { intros u. apply part_of_ext. by rewrite Hvs. }
    assert (∀ n p, count_in H' n p = count_in H n p) as Hcnt.
    { intros n p. apply zcount_ext. intros u _. by rewrite Hpart. }
    apply HQ; [done|done|..].
    + intros n [j Hj]%elem_of_list_lookup. rewrite Hcnt.
      assert (j < length (seq 0 (length (h_nets H))))%nat as Hlt.
      { rewrite seq_length, (Forall2_length _ _ _ (ss_nets _ _ HS)). by eapply lookup_lt_Some. }
      destruct (Hsorted j n Hlt Hj) as [? Hs']. split; [done|]. intros k x. rewrite Hpart. apply Hs'.
    + unfold exact_counts. rewrite HCt. pose proof (ss_nets _ _ HS) as Hf2.
      clear -Hf2 Hcnt. induction Hf2 as [|n n' l l' (_ & Hp & _) _ IH]; [done|].
      csimpl. rewrite IH, !Hcnt. f_equal. f_equal; by apply count_in_perm.
Qed.

(** ** move_sorted *)
Lemma wpe_scan_for E vl id start j (Q : Z → Prop) :
  NoDup vl → 0 ≤ start ≤ j → zlookup vl j = Some id → Q j → wpe E (scan_for vl id start) Q.
Proof.
  intros Hnd Hs Hj HQ. unfold scan_for. pose proof (zlookup_Some_lt _ _ _ Hj).
  apply (wpe_loopM E _ (λ i, 0 ≤ i ≤ j) (λ i, Z.to_nat (j - i))); [|lia|lia].
  intros i Hi. destruct (zlookup_is_Some vl i) as [x Hx]; [lia|].
  apply wpe_bind. eapply wpe_idx; [done|].
  destruct (decide (x = id)) as [->|Hne]; apply wpe_ret.
  - assert (i = j) as ->; [|done].
    apply zlookup_Some in Hx as [_ Hx]. apply zlookup_Some in Hj as [_ Hj].
    pose proof (NoDup_lookup _ _ _ _ Hnd Hx Hj). lia.
  - assert (i ≠ j) by (intros ->; congruence). lia.
Qed.

(** A part assignment changed at one vertex. *)
Definition fupd (σ : Z → Z) (id p : Z) : Z → Z := λ u, if decide (u = id) then p else σ u.

(** Effect of the swap of move_sorted on one sorted vertex list. *)
Lemma move_net_sorted σ (vl : list Z) c0 id p j y :
  NoDup vl → sorted_at σ vl c0 → zlookup vl j = Some id →
  σ id = 1 - p → p = 0 ∨ p = 1 →
  let tgt := if decide (p = 0) then c0 else c0 - 1 in
  let c0' := if decide (p = 0) then c0 + 1 else c0 - 1 in
  zlookup vl tgt = Some y →
  let vl' := zinsert j y (zinsert tgt id vl) in
  sorted_at (fupd σ id p) vl' c0' ∧ zlookup vl' tgt = Some id.
Proof.
  intros Hnd [Hc Hs] Hj Hid Hp tgt c0' Hy vl'.
  pose proof (zlookup_Some_lt _ _ _ Hj). pose proof (zlookup_Some_lt _ _ _ Hy).
  assert (∀ k, zlookup vl' k = if decide (k = j) then Some y else if decide (k = tgt) then Some id else zlookup vl k) as Hl.
  { intros k. by apply zswap_lookup. }
  assert (∀ k, zlookup vl k = Some id → k = j) as Huniq.
  { intros k [? Hk]%zlookup_Some. apply zlookup_Some in Hj as [? Hj].
    pose proof (NoDup_lookup _ _ _ _ Hnd Hk Hj). lia. }
  pose proof (Hs _ _ Hj) as Hsj. pose proof (Hs _ _ Hy) as Hsy.
  split.
  - split.
    + unfold vl'. rewrite !zinsert_length. unfold c0'. unfold tgt in *.
      destruct (decide (p = 0)); [lia|]. lia.
    + intros k x. rewrite Hl. unfold fupd.
      destruct (decide (k = j)) as [->|Hkj].
      * intros [= <-]. destruct (decide (y = id)) as [->|Hyid].
        -- assert (tgt = j) as Htj by auto. rewrite <-Htj. unfold tgt, c0'.
           clear Hl; dz.
        -- assert (tgt ≠ j) by (intros Heq; rewrite Heq in Hy; congruence).
           rewrite Hsy. unfold tgt, c0' in *. rewrite Hid in Hsj.
           clear Hl; dz.
      * destruct (decide (k = tgt)) as [->|Hkt].
        -- intros [= <-]. rewrite decide_True by done. unfold tgt, c0'.
           clear Hl; dz.
        -- intros Hk. rewrite decide_False by (intros ->; apply Hkj; auto).
           rewrite (Hs _ _ Hk). unfold tgt, c0' in *.
           clear Hl; dz.
  - rewrite Hl. destruct (decide (tgt = j)) as [Heq|]; [|by rewrite decide_True].
    rewrite Heq in Hy. congruence.
Qed.

(** What [move_sorted] does. *)
Record moved (v : vertex) (H H' : hg) : Prop := {
  mv_shape : same_shape H H';
  mv_verts : h_verts H' = (λ u, if decide (v_id u = v_id v) then set_part (1 - v_part v) u else u) <$> h_verts H;
  mv_nets : ∀ i n n', h_nets H !! i = Some n → h_nets H' !! i = Some n' →
    v_id v ∉ n_verts n → n' = n;
  mv_sorted : nets_sorted H';
  mv_pos : ∀ n', n' ∈ h_nets H' → v_id v ∈ n_verts n' →
    zlookup (n_verts n') (if decide (v_part v = 1) then count_in H' n' 0 - 1 else count_in H' n' 0) = Some (v_id v);
}.

Lemma flip_part_01 p : p = 0 ∨ p = 1 → flip_part p = 1 - p.
Proof. by intros [-> | ->]. Qed.

Lemma moved_part_of v H H' u :
  consistent H → v ∈ h_verts H → moved v H H' →
  part_of H' u = if decide (u = v_id v) then 1 - v_part v else part_of H u.
Proof.
  intros HC Hv HM. assert (consistent H') as HC' by (eapply same_shape_consistent; [apply HM|done]).
  assert (vids H' = vids H) as Hvids by (symmetry; apply same_shape_vids, HM).
  destruct (decide (u ∈ vids H)) as [Hu|Hu].
  - apply vids_elem in Hu as (x & Hx & <-).
    assert ((if decide (v_id x = v_id v) then set_part (1 - v_part v) x else x) ∈ h_verts H') as Hx'.
    { rewrite (mv_verts _ _ _ HM). apply elem_of_list_fmap. eauto. }
    rewrite (part_of_elem H x) by (done || apply (co_vid _ HC)).
    pose proof (part_of_elem H' _ (co_vid _ HC') Hx') as Hpo.
    case_decide; exact Hpo.
  - rewrite !part_of_absent by (by rewrite ?Hvids). rewrite decide_False; [done|].
    intros ->. apply Hu. apply vids_elem. eauto.
Qed.

Lemma moved_part_of_fun v H H' :
  consistent H → v ∈ h_verts H → moved v H H' →
  ∀ u, part_of H' u = fupd (part_of H) (v_id v) (1 - v_part v) u.
Proof.
  intros HC Hv HM u. by rewrite (moved_part_of v H H').
Qed.

Lemma moved_bisected v H H' : v ∈ h_verts H → bisected H → moved v H H' → bisected H'.
Proof.
  intros Hv HB HM u Hu. rewrite (mv_verts _ _ _ HM) in Hu.
  apply elem_of_list_fmap in Hu as (x & -> & Hx). case_decide; [|by apply HB].
  simpl. destruct (HB v Hv) as [-> | ->]; auto.
Qed.

(** counts after flipping one vertex *)
Lemma zcount_flip (σ : Z → Z) id p q (vl : list Z) :
  NoDup vl → p ≠ σ id →
  zcount (λ u, (fupd σ id p) u = q) vl = zcount (λ u, σ u = q) vl
    + (if decide (id ∈ vl) then (if decide (q = p) then 1 else if decide (q = σ id) then -1 else 0) else 0).
Proof.
  intros Hnd Hp. induction vl as [|u vl IH].
  - rewrite decide_False by set_solver. done.
  - apply NoDup_cons in Hnd as [Hu Hnd]. rewrite !zcount_cons, IH by done.
    destruct (decide (u = id)) as [->|Hne].
    + assert (fupd σ id p id = p) as -> by (unfold fupd; by rewrite decide_True).
      rewrite (decide_False (P := id ∈ vl)) by done. rewrite (decide_True (P := id ∈ id :: vl)) by set_solver.
      destruct (decide (p = q)), (decide (σ id = q)), (decide (q = p)), (decide (q = σ id)); lia || congruence.
    + assert (fupd σ id p u = σ u) as -> by (unfold fupd; by rewrite decide_False).
      destruct (decide (id ∈ vl)), (decide (id ∈ u :: vl)); [| | |]; try set_solver; dz.
Qed.

Lemma moved_count v H H' n n' q :
  consistent H → bisected H → v ∈ h_verts H → n ∈ h_nets H → moved v H H' →
  n_verts n' ≡ₚ n_verts n →
  count_in H' n' q = count_in H n q
    + (if decide (v_id v ∈ n_verts n) then
         (if decide (q = 1 - v_part v) then 1 else if decide (q = v_part v) then -1 else 0) else 0).
Proof.
  intros HC HB Hv Hn HM Hp. unfold count_in. rewrite (zcount_perm _ _ _ Hp).
  rewrite (zcount_ext _ (λ u, fupd (part_of H) (v_id v) (1 - v_part v) u = q))
    by (intros u _; by rewrite (moved_part_of_fun v H H')).
  assert (part_of H (v_id v) = v_part v) as Hpv by (apply part_of_elem; [apply (co_vid _ HC)|done]).
  rewrite zcount_flip; [|by apply (co_nverts _ HC)|rewrite Hpv; destruct (HB v Hv) as [-> | ->]; done].
  by rewrite Hpv.
Qed.

Lemma wpe_move_sorted E H C v (Q : hg → Prop) :
  consistent H → bisected H → nets_sorted H → exact_counts H C → v ∈ h_verts H →
  (∀ H', moved v H H' → Q H') →
  wpe E (move_sorted H C (v_id v)) Q.
Proof.
  intros HC HB HS HCt Hv HQ. pose proof Hv as [i Hi]%elem_of_list_lookup.
  apply wpe_bind. eapply wpe_local_id; [by apply co_vmap_ok|done|].
  apply wpe_bind. eapply wpe_nidx; [done|].
  rewrite flip_part_01 by auto. set (p := 1 - v_part v).
  assert (p = 0 ∨ p = 1) as Hp01 by (destruct (HB v Hv); lia).
  set (σ' := fupd (part_of H) (v_id v) p).
  set (H1 := upd_vert i (set_part p) H).
  assert (h_verts H1 = (λ u, if decide (v_id u = v_id v) then set_part p u else u) <$> h_verts H) as HH1.
  { unfold H1. simpl. apply alter_eq_fmap; [apply (co_vid _ HC)|done]. }
  assert (part_of H (v_id v) = 1 - p) as Hpv.
  { rewrite part_of_elem by (done || apply (co_vid _ HC)). lia. }
  (* invariant: verts fixed, nets with index... *)
  set (okn (ds : list Z) (n n' : net) := same_net n n' ∧
    (if decide (n_id n ∈ ds) then
       sorted_at σ' (n_verts n') (if decide (p = 0) then count_in H n 0 + 1 else count_in H n 0 - 1) ∧
       zlookup (n_verts n') (if decide (p = 0) then count_in H n 0 else count_in H n 0 - 1) = Some (v_id v)
     else n' = n)).
  eapply (wpe_foldM E _ (λ ds H', ∃ ns, H' = with_nets ns H1 ∧ Forall2 (okn ds) (h_nets H) ns)).
  - exists (h_nets H1). split; [by rewrite with_nets_self|]. simpl.
    apply Forall_Forall2_diag, Forall_forall. intros n _. split; [done|].
    rewrite decide_False by set_solver. done.
  - intros ds nid ts H' Heq (ns & -> & Hf2).
    assert (nid ∈ v_nets v) as Hnid by (rewrite Heq; set_solver).
    destruct (co_inc1 _ HC _ _ Hv Hnid) as (n & Hn & <- & Hvn).
    pose proof Hn as [k Hk]%elem_of_list_lookup.
    destruct (Forall2_lookup_l _ _ _ _ _ Hf2 Hk) as (n' & Hk' & (Hid & Hp & Hco & Hgs) & Hok).
    assert (n_id n ∉ ds) as Hds.
    { pose proof (co_vnets _ HC _ Hv) as Hnd. rewrite Heq in Hnd.
      apply NoDup_app in Hnd as (_ & Hnd & _). intros Hds. apply (Hnd _ Hds). set_solver. }
    rewrite decide_False in Hok by done. subst n'.
    assert (nids (with_nets ns H1) = nids H) as Hnids.
    { unfold nids. simpl. clear -Hf2. induction Hf2 as [|a b l l' [(Hid & _) _] _ IH]; [done|].
      csimpl. congruence. }
    assert (nmap_ok (with_nets ns H1)) as HN by (apply (nmap_ok_ids H); [done|done|by apply co_nmap_ok]).
    apply wpe_bind. apply wpe_get_net; [done|by eapply elem_of_list_lookup_2|].
    apply wpe_bind. apply wpe_bind. eapply (wpe_local_id_net _ _ k); [done|done|].
    apply wpe_bind. eapply wpe_nidx.
    { rewrite HCt, list_lookup_fmap, Hk. done. }
    unfold pget. rewrite decide_True by done. apply wpe_ret. simpl.
    destruct (HS n Hn) as [Hc0 Hso]. set (c0 := count_in H n 0) in *.
    set (tgt := if decide (p = 0) then c0 else c0 - 1).
    pose proof (co_nverts _ HC _ Hn) as Hndn.
    pose proof Hvn as [j0 Hj0]%elem_of_list_lookup. rewrite <-zlookup_nat in Hj0.
    set (j := Z.of_nat j0) in *.
    pose proof (zlookup_Some_lt _ _ _ Hj0) as Hjlt.
    pose proof (Hso _ _ Hj0) as Hsj. rewrite Hpv in Hsj.
    assert (if decide (p = 0) then c0 ≤ j else j < c0) as Hjr.
    { destruct (decide (p = 0)); destruct (decide (j < c0)); lia. }
    apply wpe_bind. apply wpe_scan_for with j; [done| |done|].
    { destruct (decide (p = 0)); lia. }
    apply wpe_bind. apply wpe_iter_swap; [lia|unfold tgt; destruct (decide (p = 0)); lia|].
    intros x y Hx Hy Hpp. rewrite Hj0 in Hx. injection Hx as <-.
    eapply (wpe_upd_net_id _ _ k); [done|done|].
    destruct (move_net_sorted (part_of H) (n_verts n) c0 (v_id v) p j y) as [Hsorted Hpos]; try done.
    eexists. split; [reflexivity|]. simpl.
    apply Forall2_same_length_lookup. rewrite alter_length.
    split; [by eapply Forall2_length|]. intros a m m' Hm Hm'.
    destruct (Forall2_lookup_l _ _ _ _ _ Hf2 Hm) as (m2 & Hm2 & Hsn & Hok).
    destruct (decide (a = k)) as [->|Hne].
    + rewrite list_lookup_alter, Hm2 in Hm'. simplify_eq/=. split.
      * by split_and!.
      * rewrite decide_True by set_solver. simpl. done.
    + rewrite list_lookup_alter_ne, Hm2 in Hm' by done. injection Hm' as <-.
      split; [done|]. assert (n_id m ≠ n_id n) as Hidne.
      { intros Hid'. apply Hne. eapply NoDup_fmap_inj; [apply (co_nid _ HC)|done..]. }
      destruct (decide (n_id m ∈ ds)).
      * rewrite decide_True by set_solver. done.
      * rewrite decide_False by set_solver. done.
  - intros H' (ns & -> & Hf2). apply HQ.
    assert (same_shape H (with_nets ns H1)) as HSh.
    { split; try done.
      - simpl. change (alter (set_part p) i (h_verts H)) with (h_verts H1). rewrite HH1.
        apply Forall2_fmap_r, Forall_Forall2_diag, Forall_forall. intros u _. unfold same_vertex, compose. by destruct (decide (v_id u = v_id v)).
      - simpl. eapply Forall2_impl; [done|]. by intros ?? []. }
    assert (consistent (with_nets ns H1)) as HC' by (by eapply same_shape_consistent).
    assert (∀ u, part_of (with_nets ns H1) u = σ' u) as Hpart.
    { intros u. unfold σ', fupd.
      assert (vids (with_nets ns H1) = vids H) as Hvids by (symmetry; by apply same_shape_vids).
      destruct (decide (u ∈ vids H)) as [Hu|Hu].
      - apply vids_elem in Hu as (x & Hx & <-).
        assert ((if decide (v_id x = v_id v) then set_part p x else x) ∈ h_verts (with_nets ns H1)) as Hx'.
        { change (h_verts (with_nets ns H1)) with (h_verts H1). rewrite HH1. apply elem_of_list_fmap. eauto. }
        rewrite (part_of_elem H x) by (done || apply (co_vid _ HC)).
        pose proof (part_of_elem _ _ (co_vid _ HC') Hx') as Hpo.
        destruct (decide (v_id x = v_id v)); exact Hpo.
      - rewrite !part_of_absent by (by rewrite ?Hvids). rewrite decide_False; [done|].
        intros ->. apply Hu. apply vids_elem. eauto. }
    assert (∀ k n n', h_nets H !! k = Some n → ns !! k = Some n' → v_id v ∉ n_verts n → n' = n) as Huntouched.
    { intros k n n' Hk Hk' Hvn. destruct (Forall2_lookup_l _ _ _ _ _ Hf2 Hk) as (n'' & Hk'' & _ & Hok).
      rewrite decide_False in Hok; [congruence|]. intros Hin. apply Hvn.
      apply (incidence_iff H); [done..|by eapply elem_of_list_lookup_2|done]. }
    assert (∀ n', n' ∈ ns → ∃ n, n ∈ h_nets H ∧ n_verts n ≡ₚ n_verts n' ∧
      (if decide (v_id v ∈ n_verts n) then
       sorted_at σ' (n_verts n') (if decide (p = 0) then count_in H n 0 + 1 else count_in H n 0 - 1) ∧
       zlookup (n_verts n') (if decide (p = 0) then count_in H n 0 else count_in H n 0 - 1) = Some (v_id v)
     else n' = n)) as Hns.
    { intros n' [k Hk']%elem_of_list_lookup.
      destruct (Forall2_lookup_r _ _ _ _ _ Hf2 Hk') as (n & Hk & (_ & Hp & _) & Hok).
      assert (n ∈ h_nets H) as Hn by by eapply elem_of_list_lookup_2.
      exists n. split; [done|]. split; [done|].
      destruct (decide (v_id v ∈ n_verts n)) as [Hin|Hin].
      - rewrite decide_True in Hok; [done|]. by apply (incidence_iff H).
      - eapply Huntouched; done. }
    assert (∀ n', n' ∈ ns → ∃ n, n ∈ h_nets H ∧ n_verts n ≡ₚ n_verts n' ∧
       sorted_at σ' (n_verts n') (count_in (with_nets ns H1) n' 0)) as Hsrt.
    { intros n' (n & Hn & Hp & Hok)%Hns. exists n. split; [done|]. split; [done|].
      assert (count_in (with_nets ns H1) n' 0 = zcount (λ u, σ' u = 0) (n_verts n')) as ->.
      { apply zcount_ext. intros u _. by rewrite Hpart. }
      destruct (decide (v_id v ∈ n_verts n)) as [Hin|Hin].
      - destruct Hok as [Hso _]. rewrite (sorted_at_count0 _ _ _ Hso). done.
      - subst n'. destruct (HS n Hn) as [Hc Hso].
        assert (zcount (λ u, σ' u = 0) (n_verts n) = count_in H n 0) as ->.
        { apply zcount_ext. intros u Hu. unfold σ', fupd.
          rewrite decide_False by (by intros ->). done. }
        split; [done|]. intros k x Hk. unfold σ', fupd.
        rewrite decide_False by (intros ->; apply Hin; apply zlookup_Some in Hk as [_ Hk]; by eapply elem_of_list_lookup_2).
        by apply Hso. }
    split.
    + done.
    + simpl. fold p. exact HH1.
    + exact Huntouched.
    + intros n' Hn'. simpl in Hn'. destruct (Hsrt n' Hn') as (_ & _ & _ & Hc & Hso).
      split; [done|]. intros k x Hk. rewrite Hpart. by apply Hso.
    + intros n' Hn' Hin'. simpl in Hn'. destruct (Hns n' Hn') as (n & Hn & Hp & Hok).
      rewrite decide_True in Hok by (by rewrite Hp). destruct Hok as [Hso Hpos].
      assert (count_in (with_nets ns H1) n' 0 = zcount (λ u, σ' u = 0) (n_verts n')) as ->.
      { apply zcount_ext. intros u _. by rewrite Hpart. }
      rewrite (sorted_at_count0 _ _ _ Hso). rewrite <-Hpos. f_equal.
      destruct (decide (v_part v = 1)), (decide (p = 0)); lia.
Qed.

(** the counts loop of [move] *)
Definition bump (from to : Z) (c : Z * Z) : Z * Z :=
  (fst c + (if decide (from = 0) then -1 else 0) + (if decide (to = 0) then 1 else 0),
   snd c + (if decide (from = 1) then -1 else 0) + (if decide (to = 1) then 1 else 0)).

Lemma wpe_cget E H C nid i n c p (Q : Z → Prop) :
  nmap_ok H → h_nets H !! i = Some n → n_id n = nid → C !! i = Some c → p = 0 ∨ p = 1 →
  Q (if decide (p = 0) then fst c else snd c) → wpe E (cget H C nid p) Q.
Proof.
  intros HN Hi <- Hc Hp HQ. apply wpe_bind. eapply wpe_local_id_net; [done..|].
  apply wpe_bind. eapply wpe_nidx; [done|]. unfold pget.
  destruct Hp as [-> | ->]; simpl; by apply wpe_ret.
Qed.

Lemma wpe_cadd E H C nid i n c p d (Q : list (Z * Z) → Prop) :
  nmap_ok H → h_nets H !! i = Some n → n_id n = nid → C !! i = Some c → p = 0 ∨ p = 1 →
  Q (<[i := (if decide (p = 0) then (fst c + d, snd c) else (fst c, snd c + d))]> C) →
  wpe E (cadd H C nid p d) Q.
Proof.
  intros HN Hi <- Hc Hp HQ. apply wpe_bind. eapply wpe_local_id_net; [done..|].
  apply wpe_bind. eapply wpe_nidx; [done|]. apply wpe_bind. unfold padd.
  destruct Hp as [-> | ->]; simpl; by apply wpe_ret, wpe_ret.
Qed.

Lemma wpe_move E H C v (Q : hg * list (Z * Z) → Prop) :
  consistent H → bisected H → nets_sorted H → exact_counts H C → v ∈ h_verts H →
  (∀ H' C', moved v H H' → exact_counts H' C' → Q (H', C')) →
  wpe E (move H C (v_id v)) Q.
Proof.
  intros HC HB HS HCt Hv HQ. pose proof Hv as [i Hi]%elem_of_list_lookup.
  apply wpe_bind. eapply wpe_local_id; [by apply co_vmap_ok|done|].
  apply wpe_bind. eapply wpe_nidx; [done|].
  apply wpe_bind. apply wpe_move_sorted; [done..|]. intros H' HM.
  assert (consistent H') as HC' by (eapply same_shape_consistent; [apply HM|done]).
  apply wpe_bind. eapply wpe_nidx.
  { rewrite (mv_verts _ _ _ HM), list_lookup_fmap, Hi. simpl. rewrite decide_True by done. done. }
  simpl. pose proof (HB v Hv) as Hp01.
  set (from := v_part v) in *. set (to := 1 - from).
  apply wpe_bind.
  set (cnt (ds : list Z) (n : net) :=
    let c := (count_in H n 0, count_in H n 1) in if decide (n_id n ∈ ds) then bump from to c else c).
  eapply (wpe_foldM E _ (λ ds C', C' = cnt ds <$> h_nets H)).
  - rewrite HCt. apply list_fmap_ext. intros k n _. unfold cnt. by rewrite decide_False by set_solver.
  - intros ds nid ts C' Heq ->.
    assert (nid ∈ v_nets v) as Hnid by (rewrite Heq; set_solver).
    destruct (co_inc1 _ HC _ _ Hv Hnid) as (n & [k Hk]%elem_of_list_lookup & <- & Hvn).
    destruct (Forall2_lookup_l _ _ _ _ _ (ss_nets _ _ (mv_shape _ _ _ HM)) Hk) as (n' & Hk' & (Hid & _)).
    assert (n_id n ∉ ds) as Hds.
    { pose proof (co_vnets _ HC _ Hv) as Hnd. rewrite Heq in Hnd.
      apply NoDup_app in Hnd as (_ & Hnd & _). intros Hds. apply (Hnd _ Hds). set_solver. }
    pose proof (lookup_lt_Some _ _ _ Hk) as Hklt.
    apply wpe_bind. eapply (wpe_cadd _ _ _ _ k); [by apply co_nmap_ok|done|done| |done|].
    { by rewrite list_lookup_fmap, Hk. }
    eapply (wpe_cadd _ _ _ _ k); [by apply co_nmap_ok|done|done| |unfold to; lia|].
    { rewrite list_lookup_insert; [done|]. by rewrite fmap_length. }
    rewrite list_insert_insert. apply list_eq. intros a.
    destruct (decide (a = k)) as [->|Hne].
    + rewrite list_lookup_insert by (by rewrite fmap_length).
      rewrite list_lookup_fmap, Hk. simpl. f_equal. unfold cnt.
      rewrite (decide_False (P := n_id n ∈ ds)) by done.
      rewrite (decide_True (P := n_id n ∈ ds ++ [n_id n])) by set_solver.
      unfold bump, to. destruct Hp01 as [-> | ->]; simpl; f_equal; lia.
    + rewrite list_lookup_insert_ne by done. rewrite !list_lookup_fmap.
      destruct (h_nets H !! a) as [m|] eqn:Ha; [|done]. simpl. f_equal. unfold cnt.
      assert (n_id m ≠ n_id n).
      { intros Hid'. apply Hne. eapply NoDup_fmap_inj; [apply (co_nid _ HC)|done..]. }
      destruct (decide (n_id m ∈ ds)).
      * rewrite decide_True by set_solver. done.
      * rewrite decide_False by set_solver. done.
  - intros C' ->. apply wpe_ret. apply HQ; [done|].
    unfold exact_counts. apply list_eq. intros k. rewrite !list_lookup_fmap.
    destruct (h_nets H !! k) as [n|] eqn:Hk.
    + destruct (Forall2_lookup_l _ _ _ _ _ (ss_nets _ _ (mv_shape _ _ _ HM)) Hk) as (n' & Hk' & (Hid & Hp & _)).
      rewrite Hk'. simpl. f_equal. pose proof (elem_of_list_lookup_2 _ _ _ Hk) as Hn.
      rewrite !(moved_count v H H' n n') by done. fold from.
      unfold cnt. pose proof (incidence_iff H v n HC Hv Hn) as Hiff.
      destruct (decide (n_id n ∈ v_nets v)).
      * rewrite !(decide_True (P := v_id v ∈ _)) by tauto. unfold bump, to. simpl.
        clear -Hp01. f_equal; dz.
      * rewrite !(decide_False (P := v_id v ∈ _)) by tauto. f_equal; lia.
    + assert (h_nets H' !! k = None) as ->; [|done].
      apply lookup_ge_None. rewrite <-(Forall2_length _ _ _ (ss_nets _ _ (mv_shape _ _ _ HM))).
      by apply lookup_ge_None.
Qed.
