(** Histories of moves (move), for property C09. *)
From Verif Require Export HgHist.

Definition moves (ids : list Z) (HC : hg * list (Z * Z)) : M (hg * list (Z * Z)) :=
  foldM (λ '(H, C) id, move H C id) ids HC.

(** number of times [u] occurs *)
Definition occ (u : Z) (ids : list Z) : Z := zcount (λ x, x = u) ids.

Lemma wpe_moves E ids H C (Q : hg * list (Z * Z) → Prop) :
  consistent H → bisected H → nets_sorted H → exact_counts H C →
  (∀ id, id ∈ ids → id ∈ vids H) →
  (∀ H' C', same_shape H H' → bisected H' → nets_sorted H' → exact_counts H' C' →
     (∀ u, part_of H' u = if decide (Z.odd (occ u ids) = true) then 1 - part_of H u else part_of H u) → Q (H', C')) →
  wpe E (moves ids (H, C)) Q.
Proof.
  intros HC HB HS HCt Hin HQ. unfold moves.
  eapply (wpe_foldM E _ (λ ds '(H', C'), same_shape H H' ∧ bisected H' ∧ nets_sorted H' ∧ exact_counts H' C' ∧
     (∀ u, part_of H' u = if decide (Z.odd (occ u ds) = true) then 1 - part_of H u else part_of H u))).
  - split_and!; try done. apply same_shape_refl.
  - intros ds id ts [H' C'] Heq (Hsh & HB' & HS' & HCt' & Hp).
    assert (consistent H') as HC' by by eapply same_shape_consistent.
    assert (id ∈ vids H') as Hid.
    { rewrite <-(same_shape_vids _ _ Hsh). apply Hin. rewrite Heq. set_solver. }
    apply vids_elem in Hid as (v & Hv & <-).
    apply wpe_move; [done..|]. intros H'' C'' HM HCt''. split_and!.
    + eapply same_shape_trans; [done|apply HM].
    + by eapply moved_bisected.
    + apply HM.
    + done.
    + intros u. rewrite (moved_part_of v H' H'') by done.
      unfold occ. rewrite zcount_app, zcount_cons, zcount_nil. fold (occ u ds).
      assert (part_of H' (v_id v) = v_part v) as Hpv.
      { apply part_of_elem; [by eapply ids_ok_NoDup, co_vmap_ok|done]. }
      destruct (decide (u = v_id v)) as [->|Hne].
      * rewrite <-Hpv, Hp. destruct (decide (v_id v = v_id v)); [|done].
        replace (occ (v_id v) ds + (1 + 0)) with (Z.succ (occ (v_id v) ds)) by lia.
        rewrite Z.odd_succ, <-Z.negb_odd. destruct (Z.odd (occ (v_id v) ds)); simpl; lia.
      * rewrite (decide_False (P := v_id v = u)) by congruence.
        replace (occ u ds + (0 + 0)) with (occ u ds) by lia. apply Hp.
  - intros [H' C'] (Hsh & HB' & HS' & HCt' & Hp). by apply HQ.
Qed.
