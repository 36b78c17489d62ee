(** Which moves are taken back: the last ones with the demanded direction, exactly as many as demanded. *)
From Verif Require Export KparUndo.

Definition blank : kmove := KMove (-1) 0 0.
Definition short (r : Z) (ms : list kmove) : Prop := Z.of_nat (length (filter (λ m, 0 < r * km_change m) ms)) < Z.abs r.
Definition step_rej (r : Z) : Z := if decide (r > 0) then r - 1 else r + 1.

Lemma undone_zero ms : undone 0 ms = [].
Proof. unfold undone. simpl. done. Qed.
Lemma undone_hit r ms m : 0 < r * km_change m → undone r (ms ++ [m]) = m :: undone (step_rej r) ms.
Proof.
  intros Hr. unfold undone. rewrite reverse_snoc, filter_cons, decide_True by done.
  assert (r ≠ 0) as Hr0 by (intros ->; lia).
  replace (Z.to_nat (Z.abs r)) with (S (Z.to_nat (Z.abs (step_rej r)))) by (unfold step_rej; case_decide; lia). simpl. f_equal.
  destruct (decide (step_rej r = 0)) as [-> |Hs]; [done|]. f_equal.
  apply list_filter_iff. intros m'. unfold step_rej in *. case_decide; nia.
Qed.
Lemma undone_miss r ms m : ¬ 0 < r * km_change m → undone r (ms ++ [m]) = undone r ms.
Proof. intros Hr. unfold undone. by rewrite reverse_snoc, filter_cons, decide_False by done. Qed.
Lemma short_hit r ms m : 0 < r * km_change m → short r (ms ++ [m]) ↔ short (step_rej r) ms.
Proof.
  intros Hr. unfold short. rewrite filter_app, filter_cons, decide_True, app_length by done. simpl.
  assert (r ≠ 0) as Hr0 by (intros ->; lia).
  destruct (decide (step_rej r = 0)) as [Hz|Hs].
  - rewrite Hz. simpl. unfold step_rej in Hz. case_decide; lia.
  - rewrite (list_filter_iff (λ m0, 0 < r * km_change m0) (λ m0, 0 < step_rej r * km_change m0)).
    + unfold step_rej. case_decide; lia.
    + intros m'. unfold step_rej in *. case_decide; nia.
Qed.
Lemma short_miss r ms m : ¬ 0 < r * km_change m → short r (ms ++ [m]) ↔ short r ms.
Proof. intros Hr. unfold short. by rewrite filter_app, filter_cons, decide_False, app_nil_r by done. Qed.
Lemma undone_elem r ms m : m ∈ undone r ms → m ∈ ms.
Proof. unfold undone. intros (i & Hi & _)%elem_of_take. apply elem_of_list_lookup_2, elem_of_list_filter in Hi as [_ Hi]. by rewrite elem_of_reverse in Hi. Qed.

Section take.
  Notation blanked r ms := ((λ m, if decide (m ∈ undone r ms) then blank else m) <$> (ms : list kmove)).

  Lemma wpe_undo_loop j : ∀ fuel G Cl pre L r, j = length pre → (j < fuel)%nat →
    consistent (g_H G) → bisected (g_H G) → nets_sorted (g_H G) → exact_counts (g_H G) Cl → length (g_C G) = length (h_nets (g_H G)) →
    NoDup (km_v <$> pre) → (∀ m, m ∈ pre → km_v m ∈ vids (g_H G)) →
    wpe (λ e, e = UB ∧ short r pre) (loopM fuel undo_body (US G Cl (pre ++ L) r (Z.of_nat j - 1)))
      (λ u, ¬ short r pre ∧ same_shape (g_H G) (g_H (us_G u)) ∧ us_moves u = blanked r pre ++ L ∧
        ∀ v, v ∈ vids (g_H G) → part_of (g_H (us_G u)) v = flipped (g_H G) (km_v <$> undone r pre) v).
  Proof.
    induction j as [|j IH]; intros fuel G Cl pre L r Hj Hf HC HB HS HCl HlC Hnd Hin; (destruct fuel as [|fuel]; [lia|]); cbn [loopM]; apply wpe_bind; unfold undo_body at 1;
      cbn [us_rej us_moves us_index us_G us_Cl].
    - destruct pre; [|done]. destruct (decide (r = 0)) as [-> |Hr].
      + apply wpe_ret, wpe_ret. split; [unfold short; simpl; lia|]. split; [apply same_shape_refl|]. done.
      + apply wpe_bind. unfold idx, zlookup. rewrite bool_decide_false by lia. apply wpe_fail. split; [done|]. unfold short. simpl. lia.
    - destruct (decide (r = 0)) as [-> |Hr].
      { apply wpe_ret, wpe_ret. split; [unfold short; simpl; lia|]. split; [apply same_shape_refl|].
        split; [|done]. cbn [us_moves]. f_equal. rewrite undone_zero. symmetry. rewrite <-(list_fmap_id pre) at 2. apply list_fmap_ext. intros i m Hm. rewrite decide_False by set_solver. done. }
      destruct pre as [|m pre _] using rev_ind; [done|]. rewrite app_length in Hj. simpl in Hj.
      assert (j = length pre) as Hj' by lia. rewrite fmap_app in Hnd. apply NoDup_app in Hnd as (Hnd & Hnm & _).
      assert (m ∉ pre) as Hmp. { intros Hm. eapply (Hnm (km_v m)); [by apply elem_of_list_fmap_1|]. simpl. set_solver. }
      apply wpe_bind. unfold idx. assert (zlookup ((pre ++ [m]) ++ L) (Z.of_nat (S j) - 1) = Some m) as ->.
      { apply zlookup_Some. split; [lia|]. replace (Z.to_nat (Z.of_nat (S j) - 1)) with (length pre) by lia. rewrite <-app_assoc. simpl. by apply list_lookup_middle. }
      apply wpe_ret.
      assert ((r > 0 ∧ km_change m > 0 ∨ r < 0 ∧ km_change m < 0) ↔ 0 < r * km_change m) as Hdir by nia.
      destruct (decide (r > 0 ∧ km_change m > 0 ∨ r < 0 ∧ km_change m < 0)) as [Hd|Hd]; rewrite Hdir in Hd.
      + assert (km_v m ∈ vids (g_H G)) as (v & Hv & Hvid)%vids_elem by (apply Hin; set_solver).
        apply wpe_bind. rewrite <-Hvid. eapply wpe_vert; [by apply co_vmap_ok|done|].
        apply wpe_bind. apply wpe_move_loc; [done..|]. intros H' Cl' HM HCl'. apply wpe_ret.
        fold (step_rej r). change (KMove (-1) 0 0) with blank.
        assert (zinsert (Z.of_nat (S j) - 1) blank ((pre ++ [m]) ++ L) = pre ++ blank :: L) as ->.
        { unfold zinsert. replace (Z.to_nat (Z.of_nat (S j) - 1)) with (length pre + 0)%nat by lia. rewrite <-app_assoc, insert_app_r. done. }
        replace (Z.of_nat (S j) - 1 - 1) with (Z.of_nat j - 1) by lia.
        pose proof (mv_shape _ _ _ HM) as Hsh. pose proof (same_shape_vids _ _ Hsh) as Hvs.
        eapply (wpe_weaken (λ e, e = UB ∧ short (step_rej r) pre)); [eapply wpe_mono; [apply (IH fuel)|]|]; cbn [g_H g_C with_C with_H us_G snd fst]; try done; try lia.
        * by eapply same_shape_consistent.
        * eapply moved_bisected; done.
        * apply HM.
        * rewrite mix_length by done. eapply Forall2_length, Hsh.
        * intros m' Hm'. rewrite <-Hvs. apply Hin. set_solver.
        * intros u (Hsr & Hsu & Hmu & Hpu). rewrite short_hit by done. split; [done|]. split; [by eapply same_shape_trans|].
          split.
          -- rewrite Hmu, fmap_app, <-app_assoc. simpl. rewrite undone_hit by done. rewrite decide_True by set_solver. f_equal.
             apply list_fmap_ext. intros i m' Hm'%elem_of_list_lookup_2. assert (m' ≠ m) by (intros ->; done).
             destruct (decide (m' ∈ undone (step_rej r) pre)); [rewrite decide_True by set_solver|rewrite decide_False by set_solver]; done.
          -- intros v' Hv'. rewrite Hpu by (by rewrite <-Hvs). rewrite undone_hit by done. csimpl. unfold flipped.
             rewrite (moved_part_of v (g_H G)) by done. rewrite Hvid.
             assert (km_v m ∉ km_v <$> undone (step_rej r) pre) as Hmu'.
             { intros (m' & Hm' & Hm'2%undone_elem)%elem_of_list_fmap. eapply (Hnm (km_v m)); [rewrite Hm'; by apply elem_of_list_fmap_1|]. simpl. set_solver. }
             destruct (decide (v' = km_v m)) as [->|Hvm].
             ++ rewrite decide_False by done. rewrite decide_True by set_solver.
                rewrite <-(part_of_elem (g_H G) v) by (done || apply HC). by rewrite Hvid.
             ++ destruct (decide (v' ∈ km_v <$> undone (step_rej r) pre)); [rewrite decide_True by set_solver|rewrite decide_False by set_solver]; done.
        * intros e [-> Hs]. split; [done|]. by apply short_hit.
      + apply wpe_ret. replace (Z.of_nat (S j) - 1 - 1) with (Z.of_nat j - 1) by lia. rewrite <-app_assoc.
        eapply (wpe_weaken (λ e, e = UB ∧ short r pre)); [eapply wpe_mono; [apply (IH fuel)|]|]; try done; try lia.
        * intros m' Hm'. apply Hin. set_solver.
        * intros u (Hsr & Hsu & Hmu & Hpu). rewrite short_miss, undone_miss by done. split; [done|]. split; [done|]. split; [|done].
          rewrite Hmu, fmap_app, <-app_assoc. simpl. f_equal. rewrite decide_False; [done|]. intros Hm%undone_elem. done.
        * intros e [-> Hs]. split; [done|]. by apply short_miss.
  Qed.
End take.
