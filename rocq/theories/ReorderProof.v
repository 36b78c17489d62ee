(** Proofs about reorder_hypergraph. *)
From Verif Require Export Recursive BisectProof.

(** a hypergraph with its vertices in another order and rebuilt id lookup *)
Lemma reordered_consistent H vs : consistent H → vs ≡ₚ h_verts H → consistent (update_map (with_verts vs H)).
Proof.
  intros HC Hp. destruct HC as [C1 C2 C3 C4 C5 C6 C7 C8]. apply consistent_intro; simpl.
  - apply ids_ok_index_map. unfold vids. simpl. by rewrite Hp.
  - intros id i. unfold nids. simpl. rewrite list_lookup_fmap, C4. destruct (h_nets H !! i); simpl; naive_solver.
  - intros v. rewrite Hp. apply C5.
  - apply C6.
  - intros v nid. rewrite Hp. apply C7.
  - intros n vid Hn Hv. destruct (C8 n vid Hn Hv) as (v & Hv1 & Hv2). exists v. by rewrite Hp.
Qed.

Lemma wpe_vert_z E H i v (Q : vertex → Prop) : zlookup (h_verts H) i = Some v → Q v → wpe E (vert_z H i) Q.
Proof. intros Hi HQ. unfold vert_z. by apply wpe_of_option_Some with v. Qed.

(** a list with the elements of [l0], the same outside [st,en) *)
Definition shuffled_in (st en : Z) (l0 l : list vertex) : Prop :=
  l ≡ₚ l0 ∧ ∀ i, ¬ (st ≤ i < en) → zlookup l i = zlookup l0 i.
Definition in_part (l : list vertex) (i p : Z) : Prop := ∃ v, zlookup l i = Some v ∧ v_part v = p.

Section reorder.
  Context (H0 : hg) (st en0 low high : Z) (Hlh : low ≠ high) (Hst : 0 ≤ st) (Hse : st ≤ en0) (Hen : en0 ≤ Z.of_nat (length (h_verts H0))).
  Context (Hpart : ∀ i v, st ≤ i < en0 → zlookup (h_verts H0) i = Some v → v_part v = low ∨ v_part v = high).

  (** every position of the range has one of the two parts *)
  Definition two_parts (l : list vertex) : Prop := ∀ i, st ≤ i < en0 → in_part l i low ∨ in_part l i high.
  Lemma two_parts0 : two_parts (h_verts H0).
  Proof. intros i Hi. destruct (zlookup_is_Some (h_verts H0) i) as [v Hv]; [lia|]. destruct (Hpart i v Hi Hv); [left|right]; by exists v. Qed.
  Lemma in_part_fun l i p q : in_part l i p → in_part l i q → p = q.
  Proof. intros (v & Hv & <-) (v' & Hv' & <-). congruence. Qed.

  Lemma wpe_ro_back E H pivot en (Q : Z → Prop) : two_parts (h_verts H) → length (h_verts H) = length (h_verts H0) →
    st ≤ pivot < en → en ≤ en0 →
    (∀ en', pivot < en' ≤ en → (∀ i, en' ≤ i < en → in_part (h_verts H) i high) →
       (in_part (h_verts H) (en' - 1) low ∨ en' - 1 = pivot) → Q en') →
    wpe E (ro_back H low pivot en) Q.
  Proof.
    intros H2 Hl Hp He HQ. unfold ro_back.
    apply (wpe_loopM E _ (λ e, pivot < e ≤ en ∧ ∀ i, e ≤ i < en → in_part (h_verts H) i high) (λ e, Z.to_nat (e - pivot))); [|split; [lia|intros; lia]|lia].
    intros e (He1 & He2). destruct (H2 (e - 1) ltac:(lia)) as [(v & Hv & Hv')|(v & Hv & Hv')].
    - apply wpe_bind, wpe_vert_z with v; [done|]. apply wpe_ret. rewrite decide_False by naive_solver. apply HQ; [lia|done|]. left. by exists v.
    - apply wpe_bind, wpe_vert_z with v; [done|]. apply wpe_ret. destruct (decide (e - 1 = pivot)) as [Heq|Hne].
      + rewrite decide_False by naive_solver. apply HQ; [lia|done|by right].
      + rewrite decide_True by (split; [congruence|done]). split; [|lia]. split; [lia|]. intros i Hi.
        destruct (decide (i = e - 1)) as [->|]; [by exists v|apply He2; lia].
  Qed.

  (** the loop: nothing found yet, in the middle, or finished *)
  Definition ro_inv (s : (hg * Z) * Z) : Prop :=
    let H := fst (fst s) in let en := snd (fst s) in let pivot := snd s in let l := h_verts H in
    H = with_verts l H0 ∧ shuffled_in st en0 (h_verts H0) l ∧ two_parts l ∧
    ((l = h_verts H0 ∧ en = en0 ∧ st ≤ pivot ≤ en ∧ ∀ i, st ≤ i < pivot → in_part l i low) ∨
     (st ≤ pivot ≤ en - 1 ∧ en ≤ en0 ∧ (∀ i, st ≤ i < pivot → in_part l i low) ∧ ∀ i, en - 1 ≤ i < en0 → in_part l i high) ∨
     (pivot = en ∧ st ≤ en - 1 < en0 ∧ (∀ i, st ≤ i < en - 1 → in_part l i low) ∧ ∀ i, en - 1 ≤ i < en0 → in_part l i high)).

  Lemma ro_swap_in_part l i j x y k p : zlookup l i = Some x → zlookup l j = Some y →
    in_part (zinsert i y (zinsert j x l)) k p ↔ (if decide (k = i) then v_part y = p else if decide (k = j) then v_part x = p else in_part l k p).
  Proof.
    intros Hx Hy. unfold in_part. setoid_rewrite zswap_lookup; [|done..]. repeat case_decide; naive_solver.
  Qed.

  Lemma wpe_reorder E (Q : hg * Z → Prop) :
    (∀ l e, st ≤ e < en0 → shuffled_in st en0 (h_verts H0) l → (∀ i, st ≤ i < e → in_part l i low) → (∀ i, e ≤ i < en0 → in_part l i high) →
       Q (update_map (with_verts l H0), e)) →
    ((∀ i, st ≤ i < en0 → in_part (h_verts H0) i low) → Q (update_map H0, en0 - 1)) →
    wpe E (reorder_hypergraph H0 st en0 low high) Q.
  Proof.
    intros HQ1 HQ2. unfold reorder_hypergraph. apply wpe_bind.
    assert (with_verts (h_verts H0) H0 = H0) as Hself by (by destruct H0).
    apply (wpe_loopM E _ ro_inv (λ s, Z.to_nat (snd (fst s) - snd s))).
    2:{ unfold ro_inv. cbn [fst snd]. split; [by rewrite Hself|]. split; [done|]. split; [apply two_parts0|]. left. split; [done|]. split; [done|]. split; [lia|intros; lia]. }
    2:{ cbn [fst snd]. lia. }
    intros [[H en] pivot] Hinv. unfold ro_inv in Hinv. cbn [fst snd] in *. destruct Hinv as (HH & [Hsp Hso] & H2 & Hcase).
    set (l := h_verts H) in *.
    assert (length l = length (h_verts H0)) as Hlen by (by rewrite Hsp).
    destruct (decide (pivot < en)) as [Hlt|Hge].
    2:{ apply wpe_ret. apply wpe_ret. destruct Hcase as [(Hl & -> & Hp & Hlow)|[(Hp & _)|(-> & Hp & Hlow & Hhigh)]]; [|lia|].
        - assert (H = H0) as -> by (rewrite HH, Hl; done). apply HQ2. intros i Hi. rewrite <-Hl. apply Hlow. lia.
        - cbn [fst snd]. rewrite HH. apply HQ1; [lia|by split|done|done]. }
    assert (st ≤ pivot ∧ en ≤ en0) as [Hp1 Hp2] by (destruct Hcase as [?|[?|?]]; lia).
    assert (∀ i, st ≤ i < pivot → in_part l i low) as Hlow by (destruct Hcase as [?|[?|?]]; [tauto|tauto|lia]).
    destruct (H2 pivot ltac:(lia)) as [(v & Hv & Hvp)|(v & Hv & Hvp)].
    - apply wpe_bind, wpe_bind, wpe_vert_z with v; [done|]. rewrite decide_False by congruence. apply wpe_ret, wpe_ret. cbn [fst snd]. split; [|lia].
      unfold ro_inv. cbn [fst snd]. fold l. split; [done|]. split; [by split|]. split; [done|].
      assert (∀ i, st ≤ i < pivot + 1 → in_part l i low) as Hlow'.
      { intros i Hi. destruct (decide (i = pivot)) as [->|]; [by exists v|apply Hlow; lia]. }
      destruct Hcase as [(Hl & -> & Hp & _)|[(Hp & He & _ & Hhigh)|(-> & _)]]; [left| |lia].
      + split; [done|]. split; [done|]. split; [lia|done].
      + right. left. split; [|done]. destruct (decide (pivot = en - 1)) as [->|]; [|lia].
        destruct Hlh. eapply in_part_fun; [by exists v|apply Hhigh; lia].
    - apply wpe_bind, wpe_bind, wpe_vert_z with v; [done|]. rewrite decide_True by done. apply wpe_bind.
      apply wpe_ro_back; [done|done|lia|done|]. fold l. intros en' He' Hback Hstop.
      assert (∀ i, en' ≤ i < en0 → in_part l i high) as Hback'.
      { intros i Hi. destruct (decide (i < en)); [apply Hback; lia|]. destruct Hcase as [(_ & -> & _)|[(_ & _ & _ & Hhigh)|(-> & _)]]; [lia|apply Hhigh; lia|lia]. }
      destruct (zlookup_is_Some l (en' - 1)) as [u Hu]; [lia|]. apply wpe_bind, wpe_vert_z with u; [done|].
      apply wpe_bind, wpe_iter_swap; [lia..|]. intros x y Hx Hy Hperm. rewrite Hv in Hx. injection Hx as <-. rewrite Hu in Hy. injection Hy as <-.
      apply wpe_ret, wpe_ret. cbn [fst snd]. split; [|lia]. set (l' := zinsert pivot u (zinsert (en' - 1) v l)) in *.
      assert (∀ k p, in_part l' k p ↔ (if decide (k = pivot) then v_part u = p else if decide (k = en' - 1) then v_part v = p else in_part l k p)) as Hsw
        by (intros k p; by apply ro_swap_in_part).
      unfold ro_inv. cbn [fst snd]. change (h_verts (with_verts l' H)) with l'. split; [by rewrite HH|]. split.
      { split; [by rewrite Hperm|]. intros i Hi. unfold l'. rewrite (zswap_lookup _ _ _ _ _ _ Hv Hu), !decide_False by lia. by apply Hso. }
      assert (v_part u = low ∨ v_part u = high) as Hup.
      { destruct (H2 (en' - 1) ltac:(lia)) as [(u' & Hu' & <-)|(u' & Hu' & <-)]; rewrite Hu in Hu'; injection Hu' as ->; auto. }
      split. { intros i Hi. rewrite !Hsw. repeat case_decide; [done|by right|by apply H2]. }
      right. destruct (decide (en' - 1 = pivot)) as [Heq|Hne].
      + right. split; [lia|]. split; [lia|]. split.
        * intros i Hi. rewrite Hsw, !decide_False by lia. apply Hlow. lia.
        * intros i Hi. rewrite Hsw. repeat case_decide; [|lia|apply Hback'; lia]. rewrite Heq in Hu. congruence.
      + left. destruct Hstop as [(u' & Hu' & Hul)|?]; [|done]. rewrite Hu in Hu'. injection Hu' as <-. split; [lia|]. split; [lia|]. split.
        * intros i Hi. rewrite Hsw. destruct (decide (i = pivot)); [done|]. rewrite decide_False by lia. apply Hlow. lia.
        * intros i Hi. rewrite Hsw. rewrite decide_False by lia. destruct (decide (i = en' - 1)); [done|]. apply Hback'. lia.
  Qed.
End reorder.
