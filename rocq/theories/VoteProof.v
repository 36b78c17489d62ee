(** Label propagation follows the votes of the neighbours. *)
From Verif Require Export SpecVote LabelPropProof.
Local Open Scope list_scope.

Lemma vote_spec H L v k j : consistent H → length L = length (h_verts H) → v ∈ h_verts H → lab_of H L (v_id v) = j → 0 ≤ k →
  vote H (fupd (lab_of H L) (v_id v) (-1)) (v_nets v) k = neighbour_votes H L v k.
Proof.
  intros HC Hl Hv Hj Hk. unfold vote, neighbour_votes.
  assert (∀ e, lcount (fupd (lab_of H L) (v_id v) (-1)) e k = zcount (λ u, u ≠ v_id v ∧ part_of (relabel H L) u = k) (n_verts e)) as Hcnt.
  { intros e. unfold lcount. apply zcount_ext. intros u _. rewrite lab_of_part_of by done. unfold fupd. destruct (decide (u = v_id v)); [|tauto].
    split; [lia|tauto]. }
  transitivity (zsum ((λ nid, default 0 ((λ e, zcount (λ u, u ≠ v_id v ∧ part_of (relabel H L) u = k) (n_verts e)) <$> net_of H nid)) <$> v_nets v)).
  { apply zsum_fmap_ext. intros nid _. destruct (net_of H nid) as [e|]; [|done]. simpl. apply Hcnt. }
  set (f := λ e : net, zcount (λ u, u ≠ v_id v ∧ part_of (relabel H L) u = k) (n_verts e)).
  change (zsum ((λ nid, default 0 (f <$> net_of H nid)) <$> v_nets v) = zsum ((λ e, if decide (n_id e ∈ v_nets v) then f e else 0) <$> h_nets H)).
  assert (∀ nid, nid ∈ v_nets v → ∃ e, e ∈ h_nets H ∧ n_id e = nid) as Hinc.
  { intros nid Hn. destruct (co_inc1 _ HC _ _ Hv Hn) as (n & ? & ? & _). eauto. }
  pose proof (co_vnets _ HC _ Hv) as Hnd. clear Hcnt. generalize dependent (v_nets v). intros ns. clear Hv Hj.
  induction ns as [|nid ns IH]; intros Hinc Hnd.
  - symmetry. transitivity 0; [|done]. apply zsum_fmap_zero. intros e _. destruct (decide (n_id e ∈ [])) as [?%elem_of_nil|]; done.
  - apply NoDup_cons in Hnd as [Hn Hnd]. csimpl. rewrite zsum_cons, IH by (done || (intros; apply Hinc; by right)).
    destruct (Hinc nid ltac:(left)) as (e & He & <-). pose proof He as [i Hi]%elem_of_list_lookup.
    rewrite (net_of_id H i e) by (done || by apply co_nmap_ok). simpl.
    rewrite (zsum_fmap_diff_one (λ e0, if decide (n_id e0 ∈ ns) then f e0 else 0) (λ e0, if decide (n_id e0 ∈ n_id e :: ns) then f e0 else 0) _ e (f e)); [lia|eapply NoDup_fmap_1, (co_nid _ HC)|done|..].
    + intros y Hy Hne. destruct (decide (n_id y ∈ ns)); [by rewrite decide_True by (by right)|]. rewrite decide_False; [done|].
      intros [Heq|?]%elem_of_cons; [|done]. apply Hne. apply elem_of_list_lookup in Hy as [i' Hi']. assert (i = i') as ->; [|congruence].
      eapply NoDup_fmap_inj; [apply (co_nid _ HC)|done|done|done].
    + rewrite (decide_True (P := n_id e ∈ n_id e :: ns)) by left. rewrite (decide_False (P := n_id e ∈ ns)) by done. lia.
Qed.

(** one vertex of label_propagation *)
Lemma wpe_lp_vertex_visit E H l min_size b c st i : consistent H → 0 < l → (∀ k, b k ≤ min_size) →
  (i < length (h_verts H))%nat → lp_inv H l b st →
  wpe E (lp_vertex H l min_size (c, st) i) (λ r, lp_inv H l b (snd r) ∧ lp_visit H l min_size (lp_L st) i (lp_L (snd r)) ∧
    (fst r = false → c = false ∧ lp_L (snd r) = lp_L st)).
Proof.
  intros HC Hl Hb Hi ([Hr Hs HCt] & Hlen & Hlow). simpl in *. unfold lp_vertex. simpl.
  destruct (lookup_lt_is_Some_2 (lp_L st) i) as [j Hj]; [lia|].
  destruct (lookup_lt_is_Some_2 (h_verts H) i) as [v Hv]; [lia|].
  assert (0 ≤ j < l) as Hjl by (by eapply (Forall_lookup_1 _ _ _ _ Hr)).
  apply wpe_bind. eapply wpe_nidx; [done|]. apply wpe_bind. rewrite Hs at 1. eapply wpe_idx; [by apply zlookup_fmap_seqZ|].
  gdec as Hsz.
  2: { apply wpe_ret. simpl. split_and!; [done| |done]. exists v, j. split_and!; [done..|]. by rewrite decide_False. }
  apply wpe_bind. eapply wpe_vert_at; [done|]. apply wpe_bind. rewrite HCt.
  assert (lab_of H (lp_L st) (v_id v) = j) as Hlab by (rewrite (lab_of_lookup H _ _ _ (co_vmap_ok _ HC) Hv), Hj; done).
  assert (∀ k, 0 ≤ k → vote H (fupd (lab_of H (lp_L st)) (v_id v) (-1)) (v_nets v) k = neighbour_votes H (lp_L st) v k) as Hvote.
  { intros k Hk. eapply vote_spec; [done|done|by eapply elem_of_list_lookup_2|done|done]. }
  set (lab := lab_of H (lp_L st)) in *.
  apply (wpe_votes _ _ (lrow l) l); [apply list_row_ext|apply wpe_ladd|apply wpe_lget|done|by eapply elem_of_list_lookup_2|done|done|].
  apply wpe_bind. simpl. apply wpe_argmax; [done|intros; apply vote_nonneg|]. intros m js Hjs _ Hjr Hmax. simpl.
  apply wpe_bind, wpe_rng. intros z _. apply wpe_bind, wpe_umod; [destruct js; simpl; [done|lia]|]. intros q Hq.
  destruct (zlookup_is_Some js q Hq) as [nl Hnl]. apply wpe_bind. eapply wpe_idx; [done|].
  assert (0 ≤ nl < l ∧ vote H (fupd lab (v_id v) (-1)) (v_nets v) nl = m) as [Hnll Hnlm].
  { apply Hjr. apply zlookup_Some in Hnl as [_ Hnl]. by eapply elem_of_list_lookup_2. }
  assert (favourite H l (lp_L st) v nl) as Hfav.
  { split; [done|]. intros k Hk. rewrite <-!Hvote by lia. rewrite Hnlm. by apply Hmax. }
  apply wpe_bind. eapply (wpe_mono _ _ (λ r : bool * list Z * list Z, snd (fst r) = <[i := nl]> (lp_L st) ∧ snd r = group_size (<[i := nl]> (lp_L st)) <$> seqZ 0 l ∧
    (fst (fst r) = false → c = false ∧ <[i := nl]> (lp_L st) = lp_L st))).
  { gdec as Hne.
    - apply wpe_bind. rewrite Hs. apply wpe_ladd; [done|]. apply wpe_bind. apply wpe_ladd; [done|]. apply wpe_ret. simpl. split; [done|]. split; [|done].
      apply list_fmap_ext. intros _ k _. unfold group_size. rewrite (zcount_insert _ _ j) by done. repeat case_decide; lia.
    - apply wpe_ret. simpl. assert (nl = j) as -> by (destruct (decide (nl = j)); tauto). rewrite list_insert_id by done. done. }
  intros [[c' L'] sz'] (HL' & Hsz' & Hc'). simpl in HL', Hsz', Hc'. subst L' sz'. simpl.
  apply wpe_bind.
  apply (wpe_cadd_label _ idx (lrow l) l); [apply list_row_ext|apply wpe_ladd|apply wpe_lget|done|by eapply elem_of_list_lookup_2|done|unfold fupd; by rewrite decide_True|].
  apply wpe_ret. simpl. split; [|split; [|done]].
  2: { exists v, j. split_and!; [done..|]. rewrite decide_True by done. by exists nl. }
  split_and!; simpl.
  - split; simpl; [by apply Forall_insert|done|].
    apply (ctab_ext _ l); [apply list_row_ext|]. intros n k _ _. apply lcount_ext. intros u _.
    rewrite (lab_of_insert H _ _ v) by (done || lia || by apply co_vmap_ok). unfold fupd. destruct (decide (u = v_id v)); done.
  - by rewrite insert_length.
  - intros k Hk. unfold group_size. rewrite (zcount_insert _ _ j) by done. specialize (Hlow k Hk). specialize (Hb k).
    unfold group_size in *. repeat case_decide; subst; lia.
Qed.

(** one vertex of label_propagation_bisect *)
Lemma wpe_lpb_vertex_visit E H mx lo c st i : consistent H → (∀ p, lo p ≤ 0) → (∀ v, v ∈ h_verts H → 0 ≤ v_weight v) →
  (i < length (h_verts H))%nat → lpb_inv H mx lo st →
  wpe E (lpb_vertex H (c, st) i) (λ r, lpb_inv H mx lo (snd r) ∧ lpb_visit H mx (lb_L st) i (lb_L (snd r)) ∧
    (fst r = false → c = false ∧ lb_L (snd r) = lb_L st)).
Proof.
  intros HC Hlo Hw Hi ([Hr Hs HCt] & Hlen & Hlow). simpl in *. unfold lpb_vertex. simpl.
  destruct (lookup_lt_is_Some_2 (lb_L st) i) as [j Hj]; [lia|].
  destruct (lookup_lt_is_Some_2 (h_verts H) i) as [v Hv]; [lia|].
  assert (v ∈ h_verts H) as Hvin by (by eapply elem_of_list_lookup_2).
  assert (j = 0 ∨ j = 1) as Hjl by (by eapply (Forall_lookup_1 _ _ _ _ Hr)).
  apply wpe_bind. eapply wpe_vert_at; [done|]. apply wpe_bind. eapply wpe_nidx; [done|]. apply wpe_bind. rewrite HCt.
  assert (lab_of H (lb_L st) (v_id v) = j) as Hlab by (rewrite (lab_of_lookup H _ _ _ (co_vmap_ok _ HC) Hv), Hj; done).
  assert (∀ k, 0 ≤ k → vote H (fupd (lab_of H (lb_L st)) (v_id v) (-1)) (v_nets v) k = neighbour_votes H (lb_L st) v k) as Hvote.
  { intros k Hk. by eapply vote_spec. }
  apply (wpe_votes _ _ pairrow 2); [apply pair_row_ext|apply wpe_padd_row|apply wpe_pget_row|done|done|lia|done|].
  apply wpe_bind. cbn [fst snd]. apply wpe_argmax; [done|intros; apply vote_nonneg|]. intros m js Hjs Hm1 Hjr Hmax. cbn [fst snd].
  rewrite decide_True by done.
  apply wpe_bind. eapply (wpe_mono _ _ (λ r : bool * list Z * (Z * Z) * Z, ∃ nl, snd r = nl ∧ (nl = 0 ∨ nl = 1) ∧
    snd (fst (fst r)) = <[i := nl]> (lb_L st) ∧
    snd (fst r) = (fst (lb_room st) + (if decide (0 = j) then v_weight v else 0) - (if decide (0 = nl) then v_weight v else 0),
                   snd (lb_room st) + (if decide (1 = j) then v_weight v else 0) - (if decide (1 = nl) then v_weight v else 0)) ∧
    (nl ≠ j → 0 ≤ sel (lb_room st) nl - v_weight v) ∧
    lpb_visit H mx (lb_L st) i (<[i := nl]> (lb_L st)) ∧
    (fst (fst (fst r)) = false → c = false ∧ <[i := nl]> (lb_L st) = lb_L st))).
  { apply wpe_bind, wpe_rng. intros z _. apply wpe_bind, wpe_umod; [destruct js; simpl; [done|lia]|]. intros q Hq.
    destruct (zlookup_is_Some js q Hq) as [nl Hnl]. apply wpe_bind. eapply wpe_idx; [done|].
    assert (0 ≤ nl < 2 ∧ vote H (fupd (lab_of H (lb_L st)) (v_id v) (-1)) (v_nets v) nl = m) as [Hnll Hnlm].
    { apply Hjr. apply zlookup_Some in Hnl as [_ Hnl]. by eapply elem_of_list_lookup_2. }
    assert (favourite H 2 (lb_L st) v nl) as Hfav.
    { split; [done|]. intros k Hk. rewrite <-!Hvote by lia. rewrite Hnlm. by apply Hmax. }
    assert (nl = 0 ∨ nl = 1) as Hnl01 by lia.
    assert (sel (lb_room st) nl = (if decide (nl = 0) then fst mx else snd mx) - part_weight (relabel H (lb_L st)) nl) as Hsel.
    { rewrite Hs, !pwt_relabel by done. destruct Hnl01 as [-> | ->]; done. }
    apply wpe_bind, wpe_pget; [done|]. gdec as Hc.
    - apply wpe_bind, wpe_padd; [done|]. apply wpe_bind, wpe_padd; [done|]. apply wpe_ret. simpl. exists nl.
      split_and!; [done..| |lia| |done]; [destruct Hjl as [-> | ->], Hnl01 as [-> | ->]; simpl; f_equal; lia|].
      exists v, j, nl. split_and!; [done..|]. rewrite decide_True; [done|]. split; [tauto|]. lia.
    - apply wpe_ret. simpl. exists j. rewrite list_insert_id by done. split_and!; [done..| |done| |done].
      + destruct (lb_room st). simpl. f_equal; repeat case_decide; lia.
      + exists v, j, nl. split_and!; [done..|]. rewrite decide_False; [done|]. intros [? ?]. apply Hc. split; [done|]. lia. }
  intros [[[c' L'] room'] nl'] (nl & Heq1 & Hnl01 & Heq2 & Heq3 & Hroom & Hvis & Hfl). simpl in Heq1, Heq2, Heq3, Hfl. subst nl' L' room'. simpl.
  apply wpe_bind.
  apply (wpe_cadd_label _ pget pairrow 2); [apply pair_row_ext|apply wpe_padd_row|apply wpe_pget_row|done|done|lia|unfold fupd; by rewrite decide_True|].
  assert (∀ p, pwt H (lab_of H (<[i:=nl]> (lb_L st))) p = pwt H (lab_of H (lb_L st)) p + (if decide (p = nl) then v_weight v else 0) - (if decide (p = j) then v_weight v else 0)) as Hpw.
  { intros p. rewrite (pwt_lab_ext _ _ (fupd (lab_of H (lb_L st)) (v_id v) nl)).
    - rewrite pwt_fupd by done. by rewrite Hlab.
    - intros u. by apply (lab_of_insert H _ _ v); [apply co_vmap_ok|..|lia]. }
  apply wpe_ret. simpl. split; [|split; done]. split; [|split]; simpl.
  - split; simpl; [by apply Forall_insert| |].
    + rewrite Hs. simpl. rewrite !Hpw. f_equal; lia.
    + apply (ctab_ext _ 2); [apply pair_row_ext|]. intros n k _ _. apply lcount_ext. intros u _.
      rewrite (lab_of_insert H _ _ v) by (done || lia || by apply co_vmap_ok). unfold fupd. destruct (decide (u = v_id v)); done.
  - by rewrite insert_length.
  - intros p Hp. specialize (Hlow p Hp). specialize (Hlo p). specialize (Hw v Hvin).
    destruct (decide (nl = j)) as [->|Hne].
    + destruct Hp as [-> | ->]; unfold sel in *; simpl in *; repeat case_decide; lia.
    + specialize (Hroom Hne). destruct Hp as [-> | ->]; simpl in *; destruct Hnl01 as [-> | ->]; unfold sel in *; simpl in *; repeat case_decide; lia.
Qed.

(** The loop of both: sweeps until nothing changes or the number of iterations is reached. *)
Lemma wpe_sweeps {S} E (vertex : bool * S → nat → M (bool * S)) (lab : S → list Z) (visit : list Z → nat → list Z → Prop) (Inv : S → Prop) size max_iter st0 (Q : S → Prop) :
  (∀ c st i, (i < size)%nat → Inv st → wpe E (vertex (c, st) i) (λ r, Inv (snd r) ∧ visit (lab st) i (lab (snd r)) ∧ (fst r = false → c = false ∧ lab (snd r) = lab st))) →
  Inv st0 →
  (∀ st' n, Inv st' → sweeps visit size n (lab st0) (lab st') → (n ≤ Z.to_nat max_iter)%nat → ((n < Z.to_nat max_iter)%nat → settled visit size (lab st')) → Q st') →
  wpe E (r <- loopM (Z.to_nat max_iter + 1)
    (λ s : bool * Z * list nat * S,
       if decide (fst (fst (fst s)) = true ∧ snd (fst (fst s)) < max_iter) then
         ind <- shuffleM (snd (fst s)) ;;
         r <- foldM vertex ind (false, snd s) ;;
         ret (true, (fst r, snd (fst (fst s)) + 1, ind, snd r))
       else ret (false, s)) (true, 0, seq 0 size, st0) ;;
  ret (snd r)) Q.
Proof.
  intros Hvx Hi0 HQ. apply wpe_bind.
  eapply wpe_mono; [eapply (wpe_loopM E _ (λ s, Inv (snd s) ∧ snd (fst s) ≡ₚ seq 0 size ∧
      ∃ n, snd (fst (fst s)) = Z.of_nat n ∧ (n ≤ Z.to_nat max_iter)%nat ∧ sweeps visit size n (lab st0) (lab (snd s)) ∧ (fst (fst (fst s)) = false → settled visit size (lab (snd s))))
    (λ s, Z.to_nat (max_iter - snd (fst (fst s)))) (λ s, Q (snd s)))|].
  - intros [[[c it] ind] s] (Hs & Hp & n & Hit & Hn & Hsw & Hset). simpl in *. gdec as Hc.
    2: { apply wpe_ret. simpl. apply (HQ s n); [done..|]. intros Hlt. apply Hset. destruct c; [|done]. exfalso. apply Hc. split; [done|lia]. }
    apply wpe_bind, wpe_shuffle. intros ind' Hp'. apply wpe_bind.
    assert (∀ i, i ∈ ind' ↔ (i < size)%nat) as Hin.
    { intros i. rewrite Hp', Hp, elem_of_seq. lia. }
    eapply (wpe_foldM E _ (λ ds r, Inv (snd r) ∧ visits visit ds (lab s) (lab (snd r)) ∧ (fst r = false → lab (snd r) = lab s ∧ ∀ i, i ∈ ds → visit (lab s) i (lab s)))).
    + simpl. split; [done|]. split; [constructor|]. intros _. split; [done|]. intros i Hn0. by apply elem_of_nil in Hn0.
    + intros ds i ts [c' s'] Heq (Hs' & Hvs & Hsame). simpl in *.
      eapply wpe_mono; [apply Hvx; [apply Hin; rewrite Heq; set_solver|done]|]. intros [c2 s2] (Hi2 & Hv2 & Hf2). simpl in *.
      split; [done|]. split; [by econstructor|]. intros Hc2. destruct (Hf2 Hc2) as [Hc1 Hl2]. destruct (Hsame Hc1) as [Hl1 Hall].
      rewrite Hl2. split; [done|]. intros k [Hk|Hk]%elem_of_app; [by apply Hall|]. apply elem_of_list_singleton in Hk as ->. by rewrite Hl2, Hl1 in Hv2.
    + intros [c' s'] (Hs' & Hvs & Hsame). simpl in *. apply wpe_ret. simpl. split; [|lia]. split; [done|]. split; [by rewrite Hp'|].
      exists (Datatypes.S n). split; [lia|]. split; [lia|]. split; [apply (sweeps_S _ _ n _ (lab s) _ ind'); [done|by rewrite Hp'|done]|].
      intros Hc'. destruct (Hsame Hc') as [-> Hall]. intros i Hi. by apply Hall, Hin.
  - simpl. split; [done|]. split; [done|]. exists 0%nat. split; [done|]. split; [lia|]. split; [constructor|done].
  - simpl. lia.
  - intros s Hs. by apply wpe_ret.
Qed.

Lemma wpe_label_propagation_votes E H l max_iter min_size (Q : list Z → Prop) : consistent H → 0 < l →
  (∀ L0 L n, length L0 = length (h_verts H) → Forall (λ j, 0 ≤ j < l) L0 → sweeps (lp_visit H l min_size) (length (h_verts H)) n L0 L →
    (n ≤ Z.to_nat max_iter)%nat → ((n < Z.to_nat max_iter)%nat → settled (lp_visit H l min_size) (length (h_verts H)) L) → Q L) →
  wpe E (label_propagation H l max_iter min_size) Q.
Proof.
  intros HC Hl HQ. apply wpe_bind. apply wpe_lp_init; [done..|]. intros st Hok Hlen. apply wpe_bind.
  apply (wpe_sweeps E _ lp_L (lp_visit H l min_size) (lp_inv H l (λ k, Z.min min_size 0))).
  - intros c s i Hi Hinv. apply wpe_lp_vertex_visit; [done|done|intros; lia|done|done].
  - split_and!; [done..|]. intros k _. unfold group_size. pose proof (zcount_nonneg (λ j, j = k) (lp_L st)). lia.
  - intros st' n _ Hsw Hn Hset. apply wpe_ret. eapply HQ; [done|apply (lk_range _ _ _ Hok)|done..].
Qed.

Lemma wpe_label_propagation_bisect_votes E H max_iter mx (Q : list Z * list (Z * Z) → Prop) : consistent H →
  (∀ v, v ∈ h_verts H → 0 ≤ v_weight v) →
  (∀ L0 L C n, length L0 = length (h_verts H) → Forall (λ j, j = 0 ∨ j = 1) L0 → sweeps (lpb_visit H mx) (length (h_verts H)) n L0 L →
    (n ≤ Z.to_nat max_iter)%nat → ((n < Z.to_nat max_iter)%nat → settled (lpb_visit H mx) (length (h_verts H)) L) → Q (L, C)) →
  wpe E (label_propagation_bisect H (replicate (length (h_nets H)) (0, 0)) max_iter mx) Q.
Proof.
  intros HC Hw HQ. apply wpe_bind. apply (wpe_lpb_init _ _ _ 0); [done|]. intros st Hok Hlen Hlim. apply wpe_bind.
  apply (wpe_sweeps E _ lb_L (lpb_visit H mx) (lpb_inv H mx (λ p, Z.min 0 (sel (lb_room st) p)))).
  - intros c s i Hi Hinv. apply wpe_lpb_vertex_visit; [done|intros; lia|done|done|done].
  - split; [done|]. split; [done|]. intros p _. lia.
  - intros st' n _ Hsw Hn Hset. apply wpe_ret. eapply HQ; [done|apply (bk_range _ _ _ Hok)|done..].
Qed.
