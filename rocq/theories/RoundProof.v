(** Merging duplicate nets keeps net costs positive. *)
From Verif Require Export SpecSeqMatch HgDup.
Local Open Scope list_scope.
Local Open Scope Z_scope.

Lemma merged_verts ns m : n_verts (merged ns m) = n_verts m ∧ n_gsize (merged ns m) = n_gsize m.
Proof. unfold merged. by case_decide. Qed.
Lemma sorted_positive H n : positive_costs H → n ∈ h_nets (sort_vertices H) → (2 ≤ length (n_verts n))%nat → 1 ≤ n_cost n ≤ 2 ^ 53 ∧ 2 ≤ n_gsize n ≤ 2 ^ 53.
Proof.
  intros Hp (m & -> & Hm)%elem_of_list_fmap Hl. cbn in *. apply (Hp m Hm). by rewrite merge_sort_perm in Hl.
Qed.
Lemma weighed_nonneg H (g : list Z → Z) : positive_costs H → (∀ vs, 0 ≤ g vs) → (∀ vs, (length vs < 2)%nat → g vs = 0) →
  ∀ y, y ∈ (λ n, n_cost n * g (n_verts n)) <$> h_nets (sort_vertices H) → 0 ≤ y.
Proof.
  intros Hp Hg Hg0 y (n & -> & Hn)%elem_of_list_fmap. destruct (decide (2 ≤ length (n_verts n))%nat) as [Hl|Hl].
  - destruct (sorted_positive H n Hp Hn Hl) as [? _]. specialize (Hg (n_verts n)). nia.
  - rewrite Hg0 by lia. lia.
Qed.
Lemma simplify_positive H H' : consistent H → small_costs H → positive_costs H → simplified H H' → positive_costs H'.
Proof.
  intros HC Hsm Hp HS n' Hn' Hl.
  assert (n' ∈ h_nets H') as Hin by done. rewrite (si_nets _ _ HS) in Hin. apply elem_of_list_fmap in Hin as (m & Hnm & [_ Hm]%elem_of_list_filter).
  destruct (merged_verts (h_nets (sort_vertices H)) m) as [Hv Hgs]. rewrite <-Hnm in Hv, Hgs.
  destruct (sorted_positive H m Hp Hm ltac:(by rewrite <-Hv)) as [Hmc Hmg]. split; [|by rewrite Hgs].
  set (g := λ vs : list Z, if decide (vs = n_verts n') then 1 else 0).
  assert (zsum ((λ n, n_cost n * g (n_verts n)) <$> h_nets H') = n_cost n') as HL.
  { rewrite (zsum_single _ _ n'); [unfold g; rewrite decide_True by done; lia|..].
    - apply (NoDup_fmap_1 n_id), (co_nid _ (si_consistent _ _ HS)).
    - done.
    - intros n Hn Hne. unfold g. rewrite decide_False; [lia|]. intros He. apply Hne. by eapply simplified_distinct; [exact HC|exact HS|done|done|rewrite He]. }
  rewrite (simplified_zsum H H' g HC Hsm HS) in HL. rewrite <-HL.
  assert (∀ vs, 0 ≤ g vs ≤ 1) as Hg by (intros vs; unfold g; destruct (decide _); lia).
  split.
  - apply Z.le_trans with (n_cost m * g (n_verts m)); [unfold g; rewrite decide_True by done; lia|]. apply zsum_elem_le.
    + apply weighed_nonneg; [done|intros vs; apply Hg|]. intros vs Hvs. unfold g. rewrite decide_False; [done|]. intros ->. lia.
    + by apply (elem_of_list_fmap_1 (λ n, n_cost n * g (n_verts n))).
  - apply small_costs_sort in Hsm. unfold small_costs in Hsm.
    apply Z.le_trans with (zsum ((λ n, Z.abs (n_cost n)) <$> h_nets (sort_vertices H))); [|lia]. apply zsum_fmap_le. intros n Hn. specialize (Hg (n_verts n)). nia.
Qed.
Lemma simplify_keeps_net H H' : consistent H → small_costs H → positive_costs H → simplified H H' →
  (∃ n, n ∈ h_nets H ∧ (2 ≤ length (n_verts n))%nat) → ∃ n, n ∈ h_nets H' ∧ (2 ≤ length (n_verts n))%nat.
Proof.
  intros HC Hsm Hp HS (n & Hn & Hl). set (g := λ vs : list Z, if decide (2 ≤ length vs)%nat then 1 else 0).
  destruct (decide (Exists (λ n, (2 ≤ length (n_verts n))%nat) (h_nets H'))) as [He|He]; [by apply Exists_exists in He|].
  exfalso. pose proof (simplified_zsum H H' g HC Hsm HS) as Hz. rewrite zsum_fmap_zero in Hz; cycle 1.
  { intros n' Hn'. unfold g. rewrite decide_False; [lia|]. intros Hl'. apply He, Exists_exists. by exists n'. }
  set (m := set_nverts (merge_sort Z.le (n_verts n)) n).
  assert (m ∈ h_nets (sort_vertices H)) as Hm by (by apply (elem_of_list_fmap_1 (λ n, set_nverts (merge_sort Z.le (n_verts n)) n))).
  assert ((2 ≤ length (n_verts m))%nat) as Hlm by (cbn; by rewrite merge_sort_perm).
  destruct (sorted_positive H m Hp Hm Hlm) as [Hmc _].
  assert (n_cost m * g (n_verts m) ≤ zsum ((λ n, n_cost n * g (n_verts n)) <$> h_nets (sort_vertices H))) as Hle.
  { apply zsum_elem_le; [|by apply (elem_of_list_fmap_1 (λ n, n_cost n * g (n_verts n)))].
    apply weighed_nonneg; [done|intros vs; unfold g; destruct (decide _); lia|]. intros vs Hvs. unfold g. rewrite decide_False by lia. done. }
  rewrite <-Hz in Hle. unfold g in Hle. rewrite decide_True in Hle by done. lia.
Qed.
