(** Proofs about uncoarsening and about free vertices. *)
From Verif Require Export CoarsenLoop.

(** ** projecting parts *)
Definition lab (H : hg) (g : Z → Z) : hg := with_verts ((λ v, set_part (g (v_id v)) v) <$> h_verts H) H.

Lemma lab_upd H g i v p : NoDup (vids H) → h_verts H !! i = Some v →
  upd_vert i (set_part p) (lab H g) = lab H (λ x, if decide (x = v_id v) then p else g x).
Proof.
  intros Hnd Hi. unfold upd_vert, lab, with_verts. simpl. f_equal. apply list_eq. intros j.
  destruct (decide (j = i)) as [->|Hne].
  - rewrite list_lookup_alter, !list_lookup_fmap, Hi. simpl. rewrite decide_True by done. done.
  - rewrite list_lookup_alter_ne, !list_lookup_fmap by done. destruct (h_verts H !! j) as [u|] eqn:Hj; [|done]. simpl.
    rewrite decide_False; [done|]. intros He. apply Hne. by eapply (NoDup_fmap_inj v_id (h_verts H)).
Qed.
Lemma lab_ext H g g' : (∀ x, x ∈ vids H → g x = g' x) → lab H g = lab H g'.
Proof.
  intros Hg. unfold lab. f_equal. apply list_fmap_ext. intros i v Hv. rewrite Hg; [done|]. apply elem_of_list_fmap_1. by eapply elem_of_list_lookup_2.
Qed.
Lemma lab_self H : NoDup (vids H) → lab H (part_of H) = H.
Proof.
  intros Hnd. unfold lab, with_verts. destruct H as [gs gn vs ns nz vm nm dp]. simpl. f_equal. rewrite <-(list_fmap_id vs) at 2. apply list_fmap_ext. intros i v Hv. simpl.
  rewrite part_of_elem; [by destruct v|done|]. simpl. by eapply elem_of_list_lookup_2.
Qed.
Lemma lab_lookup H g i v : h_verts H !! i = Some v → h_verts (lab H g) !! i = Some (set_part (g (v_id v)) v).
Proof. intros Hv. simpl. by rewrite list_lookup_fmap, Hv. Qed.
Lemma lab_vids H g : vids (lab H g) = vids H.
Proof. unfold vids. simpl. rewrite <-list_fmap_compose. by apply list_fmap_ext. Qed.
Lemma lab_consistent H g : consistent H → consistent (lab H g).
Proof.
  intros HC. eapply same_shape_consistent; [|done]. split; try done; simpl; [|by apply HgOps.Forall2_refl].
  rewrite Forall2_fmap_r. by apply HgOps.Forall2_refl.
Qed.
Lemma lab_part_of H g u : consistent H → u ∈ vids H → part_of (lab H g) u = g u.
Proof.
  intros HC (v & Hv & <-)%vids_elem. rewrite <-(part_of_elem (lab H g) (set_part (g (v_id v)) v)) at 1; [done|..].
  - rewrite lab_vids. apply (co_vid _ HC).
  - simpl. by apply (elem_of_list_fmap_1 (λ v, set_part (g (v_id v)) v)).
Qed.
Lemma lab_lab H g g' : lab (lab H g) g' = lab H g'.
Proof. unfold lab, with_verts. simpl. f_equal. rewrite <-list_fmap_compose. by apply list_fmap_ext. Qed.

Lemma wpe_lab_set E H g u p (Q : hg → Prop) : consistent H → u ∈ vids H →
  Q (lab H (λ x, if decide (x = u) then p else g x)) →
  wpe E (i <- local_id (lab H g) u ;; ret (upd_vert i (set_part p) (lab H g))) Q.
Proof.
  intros HC (v & Hv & <-)%vids_elem HQ. apply elem_of_list_lookup in Hv as [i Hi]. apply wpe_bind.
  eapply (wpe_local_id E (lab H g) i (set_part (g (v_id v)) v)).
  - apply co_vmap_ok. by apply lab_consistent.
  - by apply lab_lookup.
  - apply wpe_ret. rewrite (lab_upd H g i v) by (done || apply (co_vid _ HC)). done.
Qed.

Lemma wpe_uncoarsen E HC H C cl (Q : hg → Prop) :
  consistent H → consistent HC → clustering H cl → vids HC ≡ₚ fst <$> cl →
  c_samples C = fst <$> cl → c_matches C = (λ c : Z * list Z, (λ m : Z, (m, 0)) <$> snd c) <$> cl →
  Q (lab H (λ u, part_of HC (rep cl u))) →
  wpe E (uncoarsen HC H C) Q.
Proof.
  intros HCo HCc Hcl Hids Hs Hm HQ. unfold uncoarsen. pose proof (co_vid _ HCo) as Hnd.
  assert (∀ c u, c ∈ cl → u = fst c ∨ u ∈ snd c → rep cl u = fst c) as Hrep by (intros c u Hc Hu; by apply (rep_spec H cl c)).
  apply wpe_bind. apply (wpe_foldM _ _ (λ ds s, ∃ g, s = lab H g ∧ ∀ v, v ∈ ds → g (v_id v) = v_part v)).
  { exists (part_of H). split; [by rewrite lab_self|]. set_solver. }
  { intros ds v ts s Heq (g & -> & Hg).
    assert (v_id v ∈ fst <$> cl) as Hin by (rewrite <-Hids; apply elem_of_list_fmap_1; rewrite Heq; set_solver).
    apply elem_of_list_fmap in Hin as (c & Hvc & Hc). destruct (clustering_sub H cl c Hcl Hc) as [Hf _].
    rewrite <-Hvc in Hf. apply vids_elem in Hf as (x & Hx & Hxv). apply elem_of_list_lookup in Hx as [i Hi].
    assert (h_vmap (lab H g) !! v_id v = Some i) as -> by (rewrite <-Hxv; apply (vmap_ok_lookup H i x); [by apply co_vmap_ok|done]).
    apply wpe_bind. eapply wpe_vert_at; [by apply lab_lookup|]. apply wpe_ret. eexists. split; [by eapply lab_upd|].
    intros y Hy. simpl. apply elem_of_app in Hy as [Hy| ->%elem_of_list_singleton].
    - case_decide as Hd; [|by apply Hg]. assert (y = v) as ->; [|done]. eapply (NoDup_fmap_elem v_id (h_verts HC)); [apply (co_vid _ HCc)|rewrite Heq; set_solver..|congruence].
    - by rewrite decide_True. }
  intros s (g0 & -> & Hg0).
  assert (∀ x, x ∈ fst <$> cl → g0 x = part_of HC x) as Hg1.
  { intros x Hx. rewrite <-Hids in Hx. apply vids_elem in Hx as (v & Hv & <-). rewrite Hg0 by done. symmetry. apply part_of_elem; [apply (co_vid _ HCc)|done]. }
  rewrite Hs, Hm, fmap_length.
  apply (wpe_foldM _ _ (λ ds s, ∃ g, s = lab H g ∧ (∀ x, x ∈ fst <$> cl → g x = part_of HC x) ∧
     ∀ c u, c ∈ take (length ds) cl → u ∈ snd c → g u = part_of HC (fst c))).
  { exists g0. split; [done|]. split; [done|]. simpl. set_solver. }
  { intros ds k ts s Heq (g & -> & Hga & Hgb).
    assert (k = length ds ∧ (k < length cl)%nat) as [-> Hk].
    { assert (seq 0 (length cl) !! length ds = Some k) as Hl by (rewrite Heq, lookup_app_r, Nat.sub_diag; [done|lia]).
      apply lookup_seq in Hl. lia. }
    destruct (lookup_lt_is_Some_2 cl (length ds) Hk) as [c Hc]. pose proof (elem_of_list_lookup_2 _ _ _ Hc) as Hcin.
    apply wpe_bind. eapply wpe_nidx; [by rewrite list_lookup_fmap, Hc|]. cbn [option_fmap option_map].
    assert (fst c ∈ vids HC) as Hcv by (rewrite Hids; by apply elem_of_list_fmap_1). apply vids_elem in Hcv as (v & Hv & Hvc).
    apply wpe_bind. rewrite <-Hvc. apply wpe_vert; [by apply co_vmap_ok|done|].
    assert (part_of HC (fst c) = v_part v) as Hpv by (rewrite <-Hvc; apply part_of_elem; [apply (co_vid _ HCc)|done]).
    apply wpe_bind. eapply wpe_nidx; [by rewrite list_lookup_fmap, Hc|]. cbn [option_fmap option_map].
    apply (wpe_foldM _ _ (λ es s, ∃ g, s = lab H g ∧ (∀ x, x ∈ fst <$> cl → g x = part_of HC x) ∧
       (∀ c u, c ∈ take (length ds) cl → u ∈ snd c → g u = part_of HC (fst c)) ∧ (∀ m, m ∈ es → g (fst m) = v_part v))).
    { exists g. split_and!; try done. set_solver. }
    { clear g Hga Hgb. intros es m fs s Heq' (g & -> & Hga & Hgb & Hgc).
      assert (fst m ∈ snd c) as Hmc.
      { assert (m ∈ ((λ m : Z, (m, 0)) <$> snd c)) as (z & -> & Hz)%elem_of_list_fmap by (rewrite Heq'; set_solver). done. }
      apply wpe_lab_set; [done|by apply (clustering_sub H cl c Hcl Hcin)|]. eexists. split; [done|]. split_and!.
      - intros x Hx. case_decide as Hd; [|by apply Hga]. subst x. exfalso.
        assert (NoDup ((fst <$> cl) ++ concat (snd <$> cl))) as Hndc by (rewrite Hcl; apply (co_vid _ HCo)).
        apply NoDup_app in Hndc as (_ & Hd & _). apply (Hd (fst m) Hx). apply elem_of_concat. exists (snd c). split; [done|]. by apply elem_of_list_fmap_1.
      - intros c' u Hc' Hu. case_decide as Hd; [|by apply Hgb]. subst u.
        assert (c' ∈ cl) as Hc'in by (rewrite <-(take_drop (length ds) cl); set_solver).
        rewrite <-Hpv, <-(Hrep c (fst m)), <-(Hrep c' (fst m)) by auto. done.
      - intros m' Hm'. case_decide as Hd; [done|]. apply elem_of_app in Hm' as [Hm'| ->%elem_of_list_singleton]; [by apply Hgc|done]. }
    intros s (g' & -> & Hga' & Hgb' & Hgc'). exists g'. split; [done|]. split; [done|]. intros c' u Hc' Hu.
    rewrite app_length in Hc'. simpl in Hc'. rewrite Nat.add_1_r, (take_S_r _ _ _ Hc) in Hc'. apply elem_of_app in Hc' as [Hc'| ->%elem_of_list_singleton]; [by apply Hgb'|].
    rewrite Hpv. apply (Hgc' (u, 0)). by apply (elem_of_list_fmap_1 (λ m : Z, (m, 0))). }
  intros s (g & -> & Hga & Hgb). rewrite seq_length, take_ge in Hgb by lia.
  rewrite (lab_ext H g (λ u, part_of HC (rep cl u))); [done|]. intros u (c & Hc & Hu)%(clustering_elem H cl u Hcl).
  rewrite (Hrep c u Hc Hu). destruct Hu as [->|Hu]; [apply Hga; by apply elem_of_list_fmap_1|by apply Hgb].
Qed.

(** ** putting vertices back *)
Definition back (f : Z * Z) (p : Z) : vertex := Vertex (fst f) [] (snd f) p.
Record restored_verts (H : hg) (vs : list vertex) (H' : hg) : Prop := {
  rv_cons : consistent H';
  rv_verts : h_verts H' = h_verts H ++ vs;
  rv_nets : h_nets H' = h_nets H;
  rv_gsize : h_gsize H' = h_gsize H;
  rv_gnets : h_gnets H' = h_gnets H;
  rv_nz : h_nz H' = h_nz H;
  rv_nmap : h_nmap H' = h_nmap H;
  rv_dups : h_dups H' = h_dups H;
}.
Lemma wpe_put_back E H vs H1 f p (Q : hg → Prop) : restored_verts H vs H1 → fst f ∉ vids H1 →
  (∀ H', restored_verts H (vs ++ [back f p]) H' → Q H') → wpe E (put_back H1 (fst f) (snd f) p) Q.
Proof.
  intros [RC R1 R2 R3 R4 R5 R6 R7] Hf HQ. unfold put_back. pose proof (add_vertex_free_consistent H1 (fst f) (snd f) RC Hf) as HC2.
  apply wpe_bind. eapply (wpe_local_id E _ (length (h_verts H1)) (Vertex (fst f) [] (snd f) (-1))).
  - by apply co_vmap_ok.
  - simpl. rewrite lookup_app_r, Nat.sub_diag by lia. done.
  - apply wpe_ret. apply HQ. split; simpl; try done.
    + eapply same_shape_consistent; [apply set_part_shape|done].
    + rewrite <-(Nat.add_0_r (length (h_verts H1))), alter_app_r. simpl. rewrite R1, <-app_assoc. done.
Qed.

Lemma wpe_free_side E ws mx w (Q : Z → Prop) :
  (∀ p, p = 0 ∨ p = 1 → (fst ws + w ≤ fst mx ∨ snd ws + w ≤ snd mx → if decide (p = 0) then fst ws + w ≤ fst mx else snd ws + w ≤ snd mx) → Q p) →
  wpe E (free_side ws mx w) Q.
Proof.
  intros HQ. unfold free_side. destruct (decide (_ ∧ _)) as [Hb|Hb]; [apply wpe_ret, HQ; [by left|lia]|].
  assert (∀ p, p = 0 ∨ p = 1 → (p = 0 → fst ws + w ≤ fst mx) → (p = 1 → snd ws + w ≤ snd mx) → Q p) as HQ'.
  { intros p Hp H0 H1. apply HQ; [done|]. intros _. case_decide; [auto|]. destruct Hp; auto; lia. }
  destruct (decide (fst ws + w > fst mx)); [apply wpe_ret, HQ'; auto; lia|].
  destruct (decide (snd ws + w > snd mx)); [apply wpe_ret, HQ'; auto; lia|].
  repeat case_decide; [apply wpe_ret, HQ'; auto; lia..|].
  apply wpe_bind, wpe_rng. intros z _. apply wpe_umod; [done|]. intros j Hj. apply HQ'; lia.
Qed.

Definition add_side (ws : Z * Z) (p w : Z) : Z * Z := if decide (p = 0) then (fst ws + w, snd ws) else (fst ws, snd ws + w).

Lemma by_weight_total : Total by_weight.
Proof. intros a b. unfold by_weight. lia. Qed.

Lemma wpe_sort_free E l (Q : list (Z * Z) → Prop) : (∀ l', l' ≡ₚ l → Q l') → wpe E (sort_free l) Q.
Proof.
  intros HQ. unfold sort_free. apply wpe_bind, wpe_shuffle. intros l' Hl. apply wpe_ret, HQ. rewrite merge_sort_Permutation. done.
Qed.

(** weights of a list of vertices *)
Definition wparts (vs : list vertex) : Z * Z := (zsum (v_weight <$> filter (λ v, v_part v = 0) vs), zsum (v_weight <$> filter (λ v, v_part v = 1) vs)).
Lemma wparts_snoc vs f p : p = 0 ∨ p = 1 → wparts (vs ++ [back f p]) = add_side (wparts vs) p (snd f).
Proof.
  intros Hp. unfold wparts, add_side. rewrite !filter_app, !fmap_app, !zsum_app, !filter_cons, !filter_nil. simpl.
  destruct Hp as [-> | ->]; simpl; unfold zsum at 2 4; simpl; f_equal; lia.
Qed.

Lemma wpe_assign_free_ E C H ws mx (Q : contraction * hg * (Z * Z) → Prop) :
  consistent H → NoDup (vids H ++ (fst <$> c_free C)) →
  (∀ fs vs H', fs ≡ₚ c_free C → (λ v, (v_id v, v_weight v)) <$> vs = fs → (∀ v, v ∈ vs → v_nets v = [] ∧ (v_part v = 0 ∨ v_part v = 1)) →
     restored_verts H vs H' →
     let ws' := (fst ws + fst (wparts vs), snd ws + snd (wparts vs)) in
     (∀ b, (∀ f, f ∈ fs → 0 ≤ snd f ≤ b) → fst ws ≤ fst mx → snd ws ≤ snd mx →
        fst ws + snd ws + zsum (snd <$> fs) + b ≤ fst mx + snd mx → fst ws' ≤ fst mx ∧ snd ws' ≤ snd mx) →
     Q (Contr (c_samples C) (c_matches C) fs (c_local_free C) (c_global_free C), H', ws')) →
  wpe E (assign_free_vertices_ C H ws mx) Q.
Proof.
  intros HC Hnd HQ. unfold assign_free_vertices_. apply wpe_bind, wpe_sort_free. intros fs Hfs. apply wpe_bind.
  assert (NoDup (vids H ++ (fst <$> fs))) as Hnd' by (by rewrite Hfs). clear Hnd.
  apply (wpe_foldM _ _ (λ ds s, ∃ vs, (λ v, (v_id v, v_weight v)) <$> vs = ds ∧ (∀ v, v ∈ vs → v_nets v = [] ∧ (v_part v = 0 ∨ v_part v = 1)) ∧
     restored_verts H vs (fst s) ∧ snd s = (fst ws + fst (wparts vs), snd ws + snd (wparts vs)) ∧
     (∀ b, (∀ f, f ∈ fs → 0 ≤ snd f ≤ b) → fst ws ≤ fst mx → snd ws ≤ snd mx →
        fst ws + snd ws + zsum (snd <$> fs) + b ≤ fst mx + snd mx → fst (snd s) ≤ fst mx ∧ snd (snd s) ≤ snd mx) ∧
     fst (snd s) + snd (snd s) = fst ws + snd ws + zsum (snd <$> ds))).
  - exists []. split; [done|]. split; [set_solver|]. split; [split; try done; by rewrite app_nil_r|]. cbn [fst snd].
    unfold wparts, zsum. simpl. split; [destruct ws; f_equal; simpl; lia|]. split; [auto|lia].
  - intros ds f ts [H1 ws1] Heq (vs & Hvs & Hok & Hr & Hws & Hbal & Hsum). cbn [fst snd] in *.
    apply wpe_bind, wpe_free_side. intros p Hp Hfit.
    apply wpe_bind, wpe_padd; [done|]. apply wpe_bind.
    apply (wpe_put_back E H vs H1).
    { done. }
    { unfold vids. rewrite (rv_verts _ _ _ Hr), fmap_app. fold (vids H).
      assert (v_id <$> vs = fst <$> ds) as -> by (rewrite <-Hvs, <-list_fmap_compose; done).
      rewrite Heq, fmap_app, app_assoc in Hnd'. apply NoDup_app in Hnd' as (_ & Hd & _). intros Hin. apply (Hd _ Hin). csimpl. set_solver. }
    intros H' Hr'. apply wpe_ret. exists (vs ++ [back f p]). cbn [fst snd].
    split; [rewrite fmap_app, Hvs; simpl; by destruct f|]. split.
    { intros v [Hv| ->%elem_of_list_singleton]%elem_of_app; [by apply Hok|]. done. }
    split; [done|]. change (if decide (p = 0) then _ else _) with (add_side ws1 p (snd f)).
    split; [|split].
    + rewrite wparts_snoc by done. rewrite Hws. unfold add_side. case_decide; simpl; f_equal; lia.
    + intros b Hb Hw0 Hw1 Htot. destruct (Hbal b Hb Hw0 Hw1 Htot) as [B0 B1].
      assert (0 ≤ snd f ≤ b) as Hfb by (apply Hb; rewrite Heq; set_solver).
      assert (0 ≤ zsum (snd <$> ts)). { apply zsum_nonneg. intros x (y & -> & Hy)%elem_of_list_fmap. apply Hb. rewrite Heq. set_solver. }
      rewrite Heq, fmap_app, zsum_app in Htot. csimpl in Htot. rewrite zsum_cons in Htot.
      assert (fst ws1 + snd f ≤ fst mx ∨ snd ws1 + snd f ≤ snd mx) as Hor by lia. specialize (Hfit Hor).
      unfold add_side. case_decide; simpl; lia.
    + unfold add_side. rewrite fmap_app, zsum_app. simpl. unfold zsum at 2. simpl. case_decide; simpl; lia.
  - intros [H1 ws1] (vs & Hvs & Hok & Hr & Hws & Hbal & Hsum). cbn [fst snd] in *. apply wpe_ret. cbn [fst snd]. rewrite Hws in *. apply (HQ fs vs); done.
Qed.
