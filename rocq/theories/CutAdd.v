(** Proofs about add_cut_nets on all processors. *)
From Verif Require Export CutParProof.

(** ** Adding the stored nets with the vertices that are still here *)
Lemma is_local_vids H u : vmap_ok H → is_local H u = true ↔ u ∈ vids H.
Proof.
  intros HV. unfold is_local. rewrite bool_decide_eq_true. split.
  - intros [i Hi]. apply HV in Hi. by eapply elem_of_list_lookup_2.
  - intros [i Hi]%elem_of_list_lookup. exists i. by apply HV.
Qed.
Definition back (H : hg) (n : net) : net := Net (n_id n) (filter (λ v, is_local H v = true) (n_verts n)) (n_cost n) 0.
Definition msgs_of (H : hg) (n : net) : list (Z * (Z * Z)) := (λ v, (n_id n, (v, n_cost n))) <$> filter (λ v, is_local H v = false) (n_verts n).
(** the processor is the same but for its nets and what its vertices list *)
Definition same_frame (H H' : hg) : Prop :=
  h_vmap H' = h_vmap H ∧ h_gsize H' = h_gsize H ∧ h_gnets H' = h_gnets H ∧ h_nz H' = h_nz H.
Lemma wpe_give_back E (P : keeper) (Q : hg * list (Z * (Z * Z)) → Prop) : nmap_ok (fst P) → NoDup (nids (fst P) ++ (n_id <$> snd P)) →
  (∀ H1, same_frame (fst P) H1 → h_verts H1 = h_verts (fst P) → nmap_ok H1 →
     h_nets H1 = h_nets (fst P) ++ (back (fst P) <$> filter (λ n, n_verts n ≠ []) (snd P)) →
     Q (H1, concat (msgs_of (fst P) <$> snd P))) →
  wpe E (give_back P) Q.
Proof.
  destruct P as [H cut]. cbn [fst snd]. intros HN Hnd HQ. unfold give_back. cbn [fst snd].
  eapply (wpe_foldM E _ (λ ds s, snd s = concat (msgs_of H <$> ds) ∧ same_frame H (fst s) ∧ h_verts (fst s) = h_verts H ∧ nmap_ok (fst s) ∧
    h_nets (fst s) = h_nets H ++ (back H <$> filter (λ n, n_verts n ≠ []) ds))).
  - cbn [fst snd]. split; [done|]. split; [done|]. split; [done|]. split; [done|]. by rewrite app_nil_r.
  - intros ds n ts [H' out] Heq (Ho & Hf & Hv & Hm & Hn). cbn [fst snd] in *. apply wpe_ret. cbn [fst snd].
    assert (∀ u, is_local H' u = is_local H u) as Hloc. { intros u. unfold is_local. by destruct Hf as [-> _]. }
    assert (filter (λ v, is_local H' v = false) (n_verts n) = filter (λ v, is_local H v = false) (n_verts n)) as -> by (apply HgMore.filter_ext; intros; by rewrite Hloc).
    assert (filter (λ v, is_local H' v = true) (n_verts n) = filter (λ v, is_local H v = true) (n_verts n)) as -> by (apply HgMore.filter_ext; intros; by rewrite Hloc).
    split. { rewrite Ho, fmap_app, concat_app. csimpl. by rewrite app_nil_r. }
    rewrite filter_app, fmap_app, filter_cons. destruct (decide (n_verts n ≠ [])) as [Hne|Hne].
    + assert (n_id n ∉ nids H') as Hid.
      { unfold nids. rewrite Hn, fmap_app, <-list_fmap_compose. change (n_id ∘ back H) with n_id. rewrite Heq, fmap_app, fmap_cons, app_assoc in Hnd.
        apply NoDup_app in Hnd as (_ & Hnd & _). intros [Hx|(x & Hx & [_ Hx']%elem_of_list_filter)%elem_of_list_fmap]%elem_of_app.
        - apply (Hnd (n_id n)); [apply elem_of_app; left; exact Hx|by left].
        - apply (Hnd (n_id n)); [apply elem_of_app; right; rewrite Hx; by apply elem_of_list_fmap_1|by left]. }
      assert (match n_verts n with [] => H' | _ :: _ => add_net H' (n_id n) (filter (λ v, is_local H v = true) (n_verts n)) (n_cost n) end =
        add_net H' (n_id n) (filter (λ v, is_local H v = true) (n_verts n)) (n_cost n)) as -> by (clear -Hne; destruct (n_verts n); [by destruct Hne|done]).
      unfold add_net. destruct (h_nmap H' !! n_id n) as [i|] eqn:Hi. { apply Hm in Hi. destruct Hid. by eapply elem_of_list_lookup_2. }
      unfold same_frame. cbn [h_verts h_nets h_vmap h_gsize h_gnets h_nz with_nmap with_nets]. split; [exact Hf|]. split; [done|]. split; [|rewrite Hn, <-app_assoc; done].
      unfold nmap_ok, nids. cbn [h_nets h_nmap with_nmap with_nets]. rewrite fmap_app. csimpl. rewrite <-(fmap_length n_id). apply ids_ok_snoc; [done|done].
    + assert (n_verts n = []) as -> by (clear -Hne; destruct (n_verts n); [done|by destruct Hne]). csimpl. rewrite app_nil_r. done.
  - intros [H' out] (Ho & Hf & Hv & Hm & Hn). cbn [fst snd] in *. subst out. by apply HQ.
Qed.

(** ** Adding the vertices that have moved *)
Definition told (ms : list (Z * (Z * Z))) (v : vertex) : vertex :=
  Vertex (v_id v) (v_nets v ++ (fst <$> filter (λ m, fst (snd m) = v_id v) ms)) (v_weight v) (v_part v).
Definition arrived (H : hg) (ms : list (Z * (Z * Z))) (i : Z) : list Z :=
  (λ m : Z * (Z * Z), fst (snd m)) <$> filter (λ m, fst m = i ∧ fst (snd m) ∈ vids H) ms.
Lemma arrived_snoc H ms m i : arrived H (ms ++ [m]) i = arrived H ms i ++ if decide (fst m = i ∧ fst (snd m) ∈ vids H) then [fst (snd m)] else [].
Proof. unfold arrived. rewrite filter_app, fmap_app, filter_cons. case_decide; done. Qed.
Lemma told_snoc ms m v : told (ms ++ [m]) v = if decide (fst (snd m) = v_id v) then v_add_net (fst m) (told ms v) else told ms v.
Proof.
  unfold told. rewrite filter_app, fmap_app, filter_cons. case_decide; csimpl; unfold v_add_net; cbn [v_id v_nets v_weight v_part]; rewrite ?app_assoc, ?app_nil_r; done.
Qed.
Lemma wpe_take_in E box H (Q : hg → Prop) : nmap_ok H → vmap_ok H →
  (∀ H', same_frame H H' → h_verts H' = told box <$> h_verts H → nmap_ok H' →
     (∀ n', n' ∈ h_nets H' → (∃ n, n ∈ h_nets H ∧ n_id n' = n_id n ∧ n_cost n' = n_cost n ∧ n_verts n' = n_verts n ++ arrived H box (n_id n)) ∨
        (n_id n' ∉ nids H ∧ n_verts n' = arrived H box (n_id n') ∧ n_verts n' ≠ [] ∧ ∃ m, m ∈ box ∧ fst m = n_id n' ∧ snd (snd m) = n_cost n')) →
     (∀ i, i ∈ nids H' ↔ i ∈ nids H ∨ arrived H box i ≠ []) → Q H') →
  wpe E (take_in box H) Q.
Proof.
  intros HN HV HQ. unfold take_in.
  eapply (wpe_foldM E _ (λ ds H', same_frame H H' ∧ h_verts H' = told ds <$> h_verts H ∧ nmap_ok H' ∧
     (∀ n', n' ∈ h_nets H' → (∃ n, n ∈ h_nets H ∧ n_id n' = n_id n ∧ n_cost n' = n_cost n ∧ n_verts n' = n_verts n ++ arrived H ds (n_id n)) ∨
        (n_id n' ∉ nids H ∧ n_verts n' = arrived H ds (n_id n') ∧ n_verts n' ≠ [] ∧ ∃ m, m ∈ ds ∧ fst m = n_id n' ∧ snd (snd m) = n_cost n')) ∧
     (∀ i, i ∈ nids H' ↔ i ∈ nids H ∨ arrived H ds i ≠ []))).
  - split; [done|]. split. { rewrite <-(list_fmap_id (h_verts H)) at 1. apply list_fmap_ext. intros _ v _. unfold told, id. csimpl. rewrite app_nil_r. by destruct v. }
    split; [done|]. split; [|intros i; unfold arrived; csimpl; tauto]. intros n Hn. left. exists n. unfold arrived. csimpl. by rewrite app_nil_r.
  - intros ds [i [u c]] ts H' Heq (Hf & Hv & Hm & Hn & Hi). cbn [fst snd].
    assert (vids H' = vids H) as Hvid. { unfold vids. rewrite Hv, <-list_fmap_compose. by apply list_fmap_ext. }
    assert (vmap_ok H') as HV'. { unfold vmap_ok. rewrite Hvid. destruct Hf as [-> _]. exact HV. }
    destruct (is_local H' u) eqn:Hl; cycle 1.
    { assert (u ∉ vids H) as Hu. { rewrite <-Hvid. intros Hx. apply (is_local_vids _ _ HV') in Hx. congruence. }
      assert (∀ j, arrived H (ds ++ [(i, (u, c))]) j = arrived H ds j) as Harr. { intros j. rewrite arrived_snoc. cbn [fst snd]. rewrite decide_False by tauto. by rewrite app_nil_r. }
      apply wpe_ret. split; [done|]. split.
      { rewrite Hv. apply list_fmap_ext. intros j v Hj. rewrite told_snoc. cbn [fst snd]. rewrite decide_False; [done|]. intros ->. apply Hu, elem_of_list_fmap_1. by eapply elem_of_list_lookup_2. }
      split; [done|]. split; [|intros j; by rewrite Harr]. intros n' Hn'. destruct (Hn n' Hn') as [(n & H1 & H2 & H3 & H4)|(H1 & H2 & H3 & m & Hm' & H4)].
      - left. exists n. by rewrite Harr.
      - right. rewrite Harr. split_and!; [done..|]. exists m. split; [set_solver|done]. }
    apply (is_local_vids _ _ HV') in Hl. rewrite Hvid in Hl.
    assert (arrived H (ds ++ [(i, (u, c))]) i = arrived H ds i ++ [u]) as Harr_i. { rewrite arrived_snoc. cbn [fst snd]. by rewrite decide_True. }
    assert (∀ j, j ≠ i → arrived H (ds ++ [(i, (u, c))]) j = arrived H ds j) as Harr. { intros j Hj. rewrite arrived_snoc. cbn [fst snd]. rewrite decide_False by (intros [? _]; congruence). by rewrite app_nil_r. }
    (* the net *)
    apply wpe_bind.
    apply (wpe_mono E _ (λ H1, same_frame H H1 ∧ h_verts H1 = h_verts H' ∧ nmap_ok H1 ∧
     (∀ n', n' ∈ h_nets H1 → (∃ n, n ∈ h_nets H ∧ n_id n' = n_id n ∧ n_cost n' = n_cost n ∧ n_verts n' = n_verts n ++ arrived H (ds ++ [(i, (u, c))]) (n_id n)) ∨
        (n_id n' ∉ nids H ∧ n_verts n' = arrived H (ds ++ [(i, (u, c))]) (n_id n') ∧ n_verts n' ≠ [] ∧ ∃ m, m ∈ ds ++ [(i, (u, c))] ∧ fst m = n_id n' ∧ snd (snd m) = n_cost n')) ∧
     (∀ j, j ∈ nids H1 ↔ j ∈ nids H ∨ arrived H (ds ++ [(i, (u, c))]) j ≠ []))).
    { destruct (is_local_net H' i) eqn:Hln.
      - unfold is_local_net in Hln. apply bool_decide_eq_true in Hln as [x Hx]. apply Hm in Hx. unfold nids in Hx. apply list_lookup_fmap_Some in Hx as (n0 & Hx & Hid).
        rewrite Hid. eapply wpe_upd_net_id; [done|exact Hx|]. rewrite <-Hid.
        assert (nids (upd_net x (n_add_vertex u) H') = nids H') as Hnids.
        { unfold nids. cbn [upd_net h_nets with_nets]. apply list_eq. intros y. rewrite !list_lookup_fmap. destruct (decide (x = y)) as [<-|Hxy].
          - rewrite list_lookup_alter. by destruct (h_nets H' !! x).
          - by rewrite list_lookup_alter_ne. }
        split; [done|]. split; [done|]. split; [unfold nmap_ok; rewrite Hnids; exact Hm|]. split.
        + intros n' [y Hy]%elem_of_list_lookup. cbn [upd_net h_nets with_nets] in Hy. destruct (decide (x = y)) as [->|Hxy].
          * rewrite list_lookup_alter, Hx in Hy. injection Hy as <-. cbn [n_add_vertex n_id n_verts n_cost]. destruct (Hn n0) as [(n & H1 & H2 & H3 & H4)|(H1 & H2 & H3 & m & Hm' & H4 & H5)]; [by eapply elem_of_list_lookup_2| |].
            -- left. exists n. rewrite <-H2, <-Hid, Harr_i. split_and!; [done..|congruence|done|]. rewrite H4, <-H2, <-Hid. by rewrite app_assoc.
            -- right. rewrite <-Hid in *. rewrite Harr_i. split_and!; [done|by rewrite H2|by destruct (n_verts n0)|]. exists m. split; [set_solver|]. split; [done|]. done.
          * rewrite list_lookup_alter_ne in Hy by done.
            assert (n_id n' ≠ i) as Hne. { intros Heq'. apply Hxy. apply ids_ok_NoDup in Hm. eapply (NoDup_fmap_inj n_id (h_nets H')); [exact Hm|exact Hx|exact Hy|congruence]. }
            destruct (Hn n') as [(n & H1 & H2 & H3 & H4)|(H1 & H2 & H3 & m & Hm' & H4)]; [by eapply elem_of_list_lookup_2| |].
            -- left. exists n. rewrite Harr by congruence. done.
            -- right. rewrite Harr by done. split_and!; [done..|]. exists m. split; [set_solver|done].
        + intros j. rewrite Hnids, Hi. destruct (decide (j = i)) as [->|Hj]; [|by rewrite Harr]. rewrite Harr_i.
          assert (i ∈ nids H') as Hin. { rewrite Hid. apply elem_of_list_fmap_1. by eapply elem_of_list_lookup_2. } apply Hi in Hin.
          split; [intros _; right; by destruct (arrived H ds i)|done].
      - assert (i ∉ nids H') as Hid. { intros [x Hx]%elem_of_list_lookup. apply Hm in Hx. unfold is_local_net in Hln. apply bool_decide_eq_false in Hln. apply Hln. eauto. }
        assert (i ∉ nids H ∧ arrived H ds i = []) as [Hid' Hno]. { rewrite Hi in Hid. split; [tauto|]. destruct (arrived H ds i); [done|]. exfalso. apply Hid. by right. }
        apply wpe_ret. unfold add_net. destruct (h_nmap H' !! i) as [x|] eqn:Hx. { apply Hm in Hx. destruct Hid. by eapply elem_of_list_lookup_2. }
        unfold same_frame. cbn [h_verts h_nets h_vmap h_gsize h_gnets h_nz with_nmap with_nets]. split; [exact Hf|]. split; [done|]. split; [|split].
        + unfold nmap_ok, nids. cbn [h_nets h_nmap with_nmap with_nets]. rewrite fmap_app. csimpl. rewrite <-(fmap_length n_id). apply ids_ok_snoc; [done|done].
        + intros n' [Hn'|Hn']%elem_of_app.
          * assert (n_id n' ≠ i) as Hne. { intros <-. apply Hid. by apply elem_of_list_fmap_1. }
            destruct (Hn n' Hn') as [(n & H1 & H2 & H3 & H4)|(H1 & H2 & H3 & m & Hm' & H4)].
            -- left. exists n. rewrite Harr by congruence. done.
            -- right. rewrite Harr by done. split_and!; [done..|]. exists m. split; [set_solver|done].
          * apply elem_of_list_singleton in Hn' as ->. right. cbn [n_id n_verts n_cost]. rewrite Harr_i, Hno. split_and!; [done|done|done|]. exists (i, (u, c)). split; [set_solver|done].
        + intros j. unfold nids. cbn [h_nets with_nets with_nmap]. rewrite fmap_app, elem_of_app. fold (nids H'). csimpl. rewrite elem_of_list_singleton, Hi.
          destruct (decide (j = i)) as [->|Hj]; [|rewrite Harr by done; tauto]. rewrite Harr_i, Hno. simpl. split; [intros _; by right|intros _; by right]. }
    (* the vertex *)
    intros H1 (Hf1 & Hv1 & Hm1 & Hn1 & Hi1).
    assert (vids H1 = vids H) as Hvid1 by (unfold vids; by rewrite Hv1).
    assert (vmap_ok H1) as HV1. { unfold vmap_ok. rewrite Hvid1. destruct Hf1 as [-> _]. exact HV. }
    pose proof Hl as Hl1. rewrite <-Hvid1 in Hl1. unfold vids in Hl1. apply elem_of_list_fmap in Hl1 as (v1 & Hu1 & [x Hx]%elem_of_list_lookup). rewrite Hu1.
    apply wpe_bind. eapply wpe_local_id; [done|exact Hx|]. rewrite <-Hu1. apply wpe_ret.
    unfold same_frame, nmap_ok. cbn [h_verts h_nets h_vmap h_gsize h_gnets h_nz upd_vert with_verts]. split; [exact Hf1|]. split; [|split; [exact Hm1|split; [exact Hn1|exact Hi1]]].
    apply list_eq. intros y. rewrite list_lookup_fmap. destruct (decide (x = y)) as [<-|Hxy].
    + rewrite list_lookup_alter, Hx. rewrite Hv1, Hv, list_lookup_fmap in Hx. destruct (h_verts H !! x) as [v|] eqn:Hvx; [|done]. simpl in Hx |- *. injection Hx as <-.
      f_equal. rewrite told_snoc. cbn [fst snd]. rewrite decide_True; [done|]. exact Hu1.
    + rewrite list_lookup_alter_ne by done. rewrite Hv1, Hv, list_lookup_fmap. destruct (h_verts H !! y) as [v|] eqn:Hvy; [|done]. simpl. f_equal.
      rewrite told_snoc. cbn [fst snd]. rewrite decide_False; [done|]. intros Hv'. apply Hxy.
      assert (vids H !! x = Some u) as Hxu. { rewrite <-Hvid1. unfold vids. rewrite list_lookup_fmap, Hx. simpl. by rewrite Hu1. }
      assert (vids H !! y = Some u) as Hyu. { unfold vids. rewrite list_lookup_fmap, Hvy. simpl. by rewrite Hv'. }
      apply ids_ok_NoDup in HV. by eapply NoDup_lookup.
  - intros H' (Hf & Hv & Hm & Hn & Hi). by apply HQ.
Qed.

(** ** All processors *)
Lemma gverts_concat (Hs : list hg) i : gverts Hs i = concat ((λ H, concat (n_verts <$> filter (λ n, n_id n = i) (h_nets H))) <$> Hs).
Proof. unfold gverts, pieces, all_nets. induction Hs as [|H Hs IH]; [done|]. csimpl. by rewrite filter_app, fmap_app, concat_app, IH. Qed.
Lemma gverts_NoDup_sound (Hs : list hg) i : NoDup (v_id <$> all_verts Hs) →
  (∀ H, H ∈ Hs → NoDup (n_id <$> h_nets H) ∧ ∀ n, n ∈ h_nets H → NoDup (n_verts n) ∧ ∀ u, u ∈ n_verts n → u ∈ vids H) → NoDup (gverts Hs i).
Proof.
  intros HD Hok. eapply submseteq_NoDup; [|exact HD]. rewrite gverts_concat. unfold all_verts. rewrite fmap_concat_fmap.
  apply submseteq_concat, Forall2_fmap, Forall_Forall2_diag, Forall_forall. intros H HH. destruct (Hok H HH) as [Hni Hnv]. apply NoDup_submseteq.
  - clear -Hni Hnv. induction (h_nets H) as [|n ns IH]; [apply NoDup_nil; done|].
    csimpl in Hni. apply NoDup_cons in Hni as [Hn Hni]. rewrite filter_cons. case_decide as Hd; [|apply IH; [done|intros m Hm; apply Hnv; set_solver]]. csimpl.
    assert (filter (λ n, n_id n = i) ns = []) as ->.
    { apply elem_of_nil_inv. intros m [He Hm]%elem_of_list_filter. apply Hn. rewrite Hd, <-He. by apply elem_of_list_fmap_1. }
    csimpl. rewrite app_nil_r. apply Hnv. set_solver.
  - intros u (l & Hu & (n & -> & [_ Hn]%elem_of_list_filter)%elem_of_list_fmap)%CoarsenProof.elem_of_concat. by apply (Hnv n).
Qed.
Lemma kept_concat (ps : list keeper) i : kept_verts ps i = concat ((λ P : keeper, concat (n_verts <$> filter (λ n, n_id n = i) (snd P))) <$> ps).
Proof. unfold kept_verts, all_kept. induction ps as [|P ps IH]; [done|]. csimpl. by rewrite filter_app, fmap_app, concat_app, IH. Qed.
Lemma all_kept_elem (ps : list keeper) n : n ∈ all_kept ps ↔ ∃ P, P ∈ ps ∧ n ∈ snd P.
Proof.
  unfold all_kept. rewrite CoarsenProof.elem_of_concat. split.
  - intros (l & Hn & (P & -> & HP)%elem_of_list_fmap). eauto.
  - intros (P & HP & Hn). exists (snd P). split; [done|]. by apply elem_of_list_fmap_1.
Qed.
Lemma kept_elem (ps : list keeper) i u : u ∈ kept_verts ps i ↔ ∃ P n, P ∈ ps ∧ n ∈ snd P ∧ n_id n = i ∧ u ∈ n_verts n.
Proof.
  unfold kept_verts. rewrite CoarsenProof.elem_of_concat. split.
  - intros (l & Hu & (n & -> & [Hi (P & HP & Hn)%all_kept_elem]%elem_of_list_filter)%elem_of_list_fmap). by exists P, n.
  - intros (P & n & HP & Hn & Hi & Hu). exists (n_verts n). split; [done|]. apply elem_of_list_fmap_1, elem_of_list_filter. split; [done|]. apply all_kept_elem. eauto.
Qed.
Lemma NoDup_concat_inj {A} (ls : list (list A)) a b x y u : NoDup (concat ls) → ls !! a = Some x → ls !! b = Some y → u ∈ x → u ∈ y → a = b.
Proof.
  revert a b. induction ls as [|l ls IH]; intros a b Hnd Ha Hb Hx Hy; [done|]. simpl in Hnd. apply NoDup_app in Hnd as (_ & Hd & Hnd).
  destruct a as [|a], b as [|b]; simpl in *; [done| | |f_equal; by eapply IH].
  - injection Ha as ->. destruct (Hd u Hx). apply CoarsenProof.elem_of_concat. exists y. split; [done|]. by eapply elem_of_list_lookup_2.
  - injection Hb as ->. destruct (Hd u Hy). apply CoarsenProof.elem_of_concat. exists x. split; [done|]. by eapply elem_of_list_lookup_2.
Qed.
Lemma NoDup_pairs {A B} `{EqDecision A} (l : list (A * B)) : (∀ i, NoDup (snd <$> filter (λ x : A * B, fst x = i) l)) → NoDup l.
Proof.
  intros Hi. induction l as [|[i u] l IH]; [constructor|]. constructor.
  - intros Hin. specialize (Hi i). rewrite filter_cons, decide_True in Hi by done. csimpl in Hi. apply NoDup_cons in Hi as [Hi _]. apply Hi. apply elem_of_list_fmap. exists (i, u).
    split; [done|]. by apply elem_of_list_filter.
  - apply IH. intros j. specialize (Hi j). rewrite filter_cons in Hi. case_decide; [|done]. csimpl in Hi. by apply NoDup_cons in Hi as [_ Hi].
Qed.
Lemma fmap_NoDup_sublist {A} (l l' : list A) : sublist l l' → NoDup l' → NoDup l.
Proof. intros Hs Hnd. eapply submseteq_NoDup; [|exact Hnd]. by apply sublist_submseteq. Qed.

Lemma fmap_sublist {A B} (f : A → B) (l l' : list A) : sublist l l' → sublist (f <$> l) (f <$> l').
Proof. induction 1; csimpl; [done|by apply sublist_skip|by apply sublist_cons]. Qed.
Lemma at_once (l : list keeper) s P P' : l !! s = Some P → l !! s = Some P' → P = P'.
Proof. congruence. Qed.
Lemma lookup_fmap_1 {A B} (f : A → B) (l : list A) s x : l !! s = Some x → (f <$> l) !! s = Some (f x).
Proof. intros Hx. by rewrite list_lookup_fmap, Hx. Qed.
Section add_back.
  Context (gn : Z) (ps : list keeper) (HK : keepers_ok gn ps).
  Let msgs : list (Z * (Z * Z)) := concat ((λ P : keeper, concat (msgs_of (fst P) <$> snd P)) <$> ps).

  Lemma ps_vmap P : P ∈ ps → vmap_ok (fst P).
  Proof. intros HP. apply co_vmap_ok, (di_local _ _ (ko_dist _ _ HK)). by apply elem_of_list_fmap_1. Qed.
  Lemma msgs_elem i u c : (i, (u, c)) ∈ msgs ↔ ∃ P n, P ∈ ps ∧ n ∈ snd P ∧ n_id n = i ∧ n_cost n = c ∧ u ∈ n_verts n ∧ u ∉ vids (fst P).
  Proof.
    unfold msgs. rewrite CoarsenProof.elem_of_concat. split.
    - intros (l & Hm & (P & -> & HP)%elem_of_list_fmap). apply CoarsenProof.elem_of_concat in Hm as (l & Hm & (n & -> & Hn)%elem_of_list_fmap).
      unfold msgs_of in Hm. apply elem_of_list_fmap in Hm as (x & [= -> -> ->] & [Hx Hu]%elem_of_list_filter). exists P, n. split_and!; try done.
      intros Hv. apply (is_local_vids _ _ (ps_vmap P HP)) in Hv. congruence.
    - intros (P & n & HP & Hn & <- & <- & Hu & Hv). eexists. split; [|by apply elem_of_list_fmap_1]. apply CoarsenProof.elem_of_concat. eexists. split; [|by apply elem_of_list_fmap_1].
      unfold msgs_of. apply elem_of_list_fmap. exists u. split; [done|]. apply elem_of_list_filter. split; [|done]. destruct (is_local (fst P) u) eqn:Hl; [|done].
      by apply (is_local_vids _ _ (ps_vmap P HP)) in Hl.
  Qed.
  Lemma msgs_sublist i : sublist ((λ m : Z * (Z * Z), fst (snd m)) <$> filter (λ m : Z * (Z * Z), fst m = i) msgs) (kept_verts ps i).
  Proof.
    rewrite kept_concat. unfold msgs. clear HK msgs. induction ps as [|P l IH]; [done|]. csimpl. rewrite filter_app, fmap_app. apply sublist_app; [|done].
    clear IH. induction (snd P) as [|n c IH]; [done|]. csimpl. rewrite filter_app, fmap_app, (filter_cons _ n).
    assert (sublist ((λ m : Z * (Z * Z), fst (snd m)) <$> filter (λ m : Z * (Z * Z), fst m = i) (msgs_of (fst P) n)) (if decide (n_id n = i) then n_verts n else [])) as Hn.
    { unfold msgs_of. case_decide as Hd.
      - rewrite filter_all by (by intros m (x & -> & _)%elem_of_list_fmap). rewrite <-list_fmap_compose. rewrite (list_fmap_ext _ id), list_fmap_id by done.
        clear. induction (n_verts n) as [|u us IH]; [done|]. rewrite filter_cons. case_decide; [by apply sublist_skip|by apply sublist_cons].
      - rewrite filter_none; [done|]. by intros m (x & -> & _)%elem_of_list_fmap. }
    case_decide; [|]; csimpl; [by apply sublist_app|]. apply sublist_nil_r in Hn. by rewrite Hn.
  Qed.
  (** a vertex is in one piece of a net only *)
  Lemma kept_once s s' P P' n n' i u : ps !! s = Some P → ps !! s' = Some P' → n ∈ snd P → n' ∈ snd P' → n_id n = i → n_id n' = i → u ∈ n_verts n → u ∈ n_verts n' → s = s' ∧ n = n'.
  Proof.
    intros HP HP' Hn Hn' Hi Hi' Hu Hu'. pose proof (ko_verts _ _ HK i) as Hnd. rewrite kept_concat in Hnd.
    assert (s = s') as ->.
    { eapply (NoDup_concat_inj _ s s' _ _ u); [exact Hnd|by apply lookup_fmap_1|by apply lookup_fmap_1| |];
        (apply CoarsenProof.elem_of_concat; eexists; split; [|apply elem_of_list_fmap_1, elem_of_list_filter; split; [|done]; done]; done). }
    split; [done|]. assert (P = P') as -> by congruence. pose proof (ko_ids _ _ HK P' ltac:(by eapply elem_of_list_lookup_2)) as Hids.
    apply elem_of_list_lookup in Hn as [a Ha]. apply elem_of_list_lookup in Hn' as [b Hb]. assert (a = b) as -> by (eapply (NoDup_fmap_inj n_id (snd P')); [done..|congruence]). congruence.
  Qed.
  (** a vertex is on one processor only *)
  Lemma home_once s s' P P' u : ps !! s = Some P → ps !! s' = Some P' → u ∈ vids (fst P) → u ∈ vids (fst P') → s = s'.
  Proof.
    intros HP HP' Hu Hu'. pose proof (di_verts _ _ (ko_dist _ _ HK)) as Hnd. unfold all_verts in Hnd. rewrite fmap_concat_fmap, <-list_fmap_compose in Hnd.
    eapply (NoDup_concat_inj _ s s' _ _ u); [exact Hnd|by apply lookup_fmap_1|by apply lookup_fmap_1|done|done].
  Qed.

  Lemma wpe_add_cut_nets_par E (Q : list hg → Prop) : (∀ Hs', nets_back ps Hs' → Q Hs') → wpe E (add_cut_nets_par ps) Q.
  Proof.
    intros HQ. unfold add_cut_nets_par. apply wpe_bind.
    assert (∀ P, P ∈ ps → consistent (fst P)) as HC. { intros P HP. apply (di_local _ _ (ko_dist _ _ HK)). by apply elem_of_list_fmap_1. }
    assert (∀ P n, P ∈ ps → n ∈ h_nets (fst P) → n ∈ all_nets (fst <$> ps)) as Hnall. { intros P n HP Hn. apply all_nets_elem. exists (fst P). split; [by apply elem_of_list_fmap_1|done]. }
    assert (∀ P n, P ∈ ps → n ∈ snd P → n ∈ all_kept ps) as Hkall. { intros P n HP Hn. apply all_kept_elem. eauto. }
    eapply (wpe_mapP E _ (λ _ P r, same_frame (fst P) (fst r) ∧ h_verts (fst r) = h_verts (fst P) ∧ nmap_ok (fst r) ∧
      h_nets (fst r) = h_nets (fst P) ++ (back (fst P) <$> filter (λ n, n_verts n ≠ []) (snd P)) ∧ snd r = concat (msgs_of (fst P) <$> snd P))).
    { intros t P HP%elem_of_list_lookup_2. apply wpe_give_back; [by apply co_nmap_ok, HC| |done].
      apply NoDup_app. split; [apply (co_nid _ (HC P HP))|]. split; [|by apply (ko_ids _ _ HK)].
      intros i (n & Hn & <-)%nids_elem (n' & Hid & Hn')%elem_of_list_fmap. by eapply (ko_new _ _ HK n n'); eauto. }
    intros rs Hlr Hrs. apply wpe_bind.
    assert (concat (snd <$> rs) = msgs) as Hmsgs.
    { unfold msgs. f_equal. apply list_eq_same_length with (length ps); [by rewrite fmap_length|by rewrite fmap_length|].
      intros t x y Ht Hx Hy. apply list_lookup_fmap_Some in Hx as (r & Hr & ->). apply list_lookup_fmap_Some in Hy as (P & HP & ->). by apply (Hrs t P r). }
    replace ((λ r : hg * list (Z * (Z * Z)), to_all (length ps) (snd r)) <$> rs) with (to_all (length ps) <$> (snd <$> rs)) by (rewrite <-list_fmap_compose; by apply list_fmap_ext). apply wpe_exchange_all; [by rewrite fmap_length|]. intros boxes Hlb Hbox. rewrite Hmsgs in Hbox.
    eapply (wpe_ranks _ _ _ (λ t H', ∃ P box, ps !! t = Some P ∧ box ≡ₚ msgs ∧ same_frame (fst P) H' ∧ h_verts H' = told box <$> h_verts (fst P) ∧ nmap_ok H' ∧
       let H1 := h_nets (fst P) ++ (back (fst P) <$> filter (λ n, n_verts n ≠ []) (snd P)) in
       (∀ n', n' ∈ h_nets H' → (∃ n, n ∈ H1 ∧ n_id n' = n_id n ∧ n_cost n' = n_cost n ∧ n_verts n' = n_verts n ++ arrived (fst P) box (n_id n)) ∨
        (n_id n' ∉ n_id <$> H1 ∧ n_verts n' = arrived (fst P) box (n_id n') ∧ n_verts n' ≠ [] ∧ ∃ m, m ∈ box ∧ fst m = n_id n' ∧ snd (snd m) = n_cost n')) ∧
       (∀ i, i ∈ nids H' ↔ i ∈ n_id <$> H1 ∨ arrived (fst P) box i ≠ []))).
    { intros t Ht. destruct (lookup_lt_is_Some_2 ps t Ht) as [P HP]. destruct (lookup_lt_is_Some_2 rs t ltac:(rewrite Hlr; exact Ht)) as [r Hr]. destruct (lookup_lt_is_Some_2 boxes t ltac:(rewrite Hlb; exact Ht)) as [box Hb].
      destruct (Hrs t P r HP Hr) as (Hf & Hv & Hm & Hn & _). apply wpe_bind. eapply wpe_nidx; [exact Hr|]. apply wpe_bind. eapply wpe_nidx; [exact Hb|].
      assert (P ∈ ps) as HPin by (by eapply elem_of_list_lookup_2).
      assert (vids (fst r) = vids (fst P)) as Hvid by (unfold vids; by rewrite Hv).
      assert (∀ ms i, arrived (fst r) ms i = arrived (fst P) ms i) as Harr by (intros; unfold arrived; by rewrite Hvid).
      apply wpe_take_in; [done|unfold vmap_ok; rewrite Hvid; destruct Hf as [-> _]; by apply ps_vmap|].
      intros H' Hf' Hv' Hm' Hn' Hi'. exists P, box. split; [done|]. split; [by apply (Hbox t)|]. split.
      { unfold same_frame in *. destruct Hf as (? & ? & ? & ?), Hf' as (? & ? & ? & ?). split_and!; congruence. }
      split; [by rewrite Hv', Hv|]. split; [done|]. cbv zeta. rewrite <-Hn. split; [|intros i; rewrite Hi', Harr; done].
      intros n' [(n & ? & ? & ? & ?)|(? & ? & ? & ?)]%Hn'; [left; exists n; by rewrite <-Harr|right; by rewrite <-Harr]. }
    intros Hs' Hl' HR. apply HQ.
    assert (∀ t P H', ps !! t = Some P → Hs' !! t = Some H' → vids H' = vids (fst P)) as Hvids.
    { intros t P H' HP HH'. destruct (HR t H' HH') as (P0 & box & HP0 & _ & _ & Hv & _). assert (P0 = P) as -> by (by eapply at_once). unfold vids. rewrite Hv, <-list_fmap_compose. by apply list_fmap_ext. }
    assert (∀ box P, box ≡ₚ msgs → P ∈ ps → ∀ i, NoDup (arrived (fst P) box i) ∧ ∀ u, u ∈ arrived (fst P) box i ↔ u ∈ vids (fst P) ∧ ∃ P2 n, P2 ∈ ps ∧ n ∈ snd P2 ∧ n_id n = i ∧ u ∈ n_verts n ∧ u ∉ vids (fst P2)) as Harr.
    { intros box P Hp HP i. split.
      - unfold arrived. rewrite Hp. eapply fmap_NoDup_sublist; [|apply (ko_verts _ _ HK i)]. etrans; [|apply msgs_sublist]. apply fmap_sublist.
        clear. induction msgs as [|m l IH]; [done|]. rewrite !filter_cons. destruct (decide (fst m = i)) as [Hd|Hd].
        + case_decide; [by apply sublist_skip|by apply sublist_cons].
        + rewrite decide_False by tauto. done.
      - intros u. unfold arrived. rewrite Hp, elem_of_list_fmap. split.
        + intros ([j [x c]] & -> & [[Hj Hx] Hm]%elem_of_list_filter). cbn [fst snd] in *. apply msgs_elem in Hm as (P2 & n & H1 & H2 & H3 & H4 & H5 & H6). split; [done|]. exists P2, n. split_and!; try done. congruence.
        + intros (Hu & P2 & n & H1 & H2 & <- & H5 & H6). exists (n_id n, (u, n_cost n)). split; [done|]. apply elem_of_list_filter. split; [done|]. apply msgs_elem. exists P2, n. done. }
    (* the pieces on one processor *)
    assert (∀ t P H' n', ps !! t = Some P → Hs' !! t = Some H' → n' ∈ h_nets H' →
      NoDup (n_verts n') ∧ (∀ u, u ∈ n_verts n' ↔ u ∈ vids (fst P) ∧ (u ∈ gverts (fst <$> ps) (n_id n') ∨ u ∈ kept_verts ps (n_id n'))) ∧
      ∃ n, n ∈ all_nets (fst <$> ps) ++ all_kept ps ∧ n_id n = n_id n' ∧ n_cost n = n_cost n') as Hpiece.
    { intros t P H' n' HP HH' Hn'. destruct (HR t H' HH') as (P0 & box & HP0 & Hp & _ & _ & _ & Hcase & _). assert (P0 = P) as -> by (by eapply at_once).
      assert (P ∈ ps) as HPin by (by eapply elem_of_list_lookup_2). specialize (Harr box P Hp HPin).
      destruct (Hcase n' Hn') as [(n & Hn & Hid & Hc & Hv)|(Hno & Hv & Hne & [j [x c]] & Hm & Hj & Hc)].
      - apply elem_of_app in Hn as [Hn|(k & -> & [Hk Hkin]%elem_of_list_filter)%elem_of_list_fmap].
        + assert (arrived (fst P) box (n_id n) = []) as Hnil.
          { apply elem_of_nil_inv. intros u (_ & P2 & k & H1 & H2 & H3 & _)%Harr. eapply (ko_new _ _ HK n k); eauto. }
          rewrite Hnil, app_nil_r in Hv. rewrite Hv, Hid. pose proof (Hnall P n HPin Hn) as Hnin. split; [by apply (co_nverts _ (HC P HPin))|]. split.
          * intros u. split.
            -- intros Hu. split; [by eapply net_in_vids; [apply HC| |]|]. left. apply gverts_elem. eauto.
            -- intros [Hu [(n2 & (H2 & (P2 & -> & HP2)%elem_of_list_fmap & Hn2)%all_nets_elem & Hi2 & Hu2)%gverts_elem|(P2 & k & H1 & H2 & H3 & _)%kept_elem]].
               ++ apply elem_of_list_lookup in HP2 as [s Hs]. assert (s = t) as ->.
                  { eapply (home_once s t P2 P u); [done|done| |done]. eapply net_in_vids; [apply HC; by eapply elem_of_list_lookup_2|exact Hn2|done]. }
                  assert (P2 = P) as -> by (by eapply at_once). apply elem_of_list_lookup in Hn as [a Ha]. apply elem_of_list_lookup in Hn2 as [b Hb].
                  assert (a = b) as -> by (eapply (NoDup_fmap_inj n_id (h_nets (fst P))); [apply (co_nid _ (HC P HPin))|done..]). congruence.
               ++ exfalso. eapply (ko_new _ _ HK n k); eauto.
          * exists n. split; [apply elem_of_app; by left|done].
        + cbn [back n_id n_verts n_cost] in *. assert (∀ u, u ∈ filter (λ v, is_local (fst P) v = true) (n_verts k) ↔ u ∈ vids (fst P) ∧ u ∈ n_verts k) as Hloc.
          { intros u. rewrite elem_of_list_filter. by rewrite (is_local_vids _ _ (ps_vmap P HPin)). }
          rewrite Hv, Hid. destruct (Harr (n_id k)) as [Hand Ha]. pose proof (Hkall P k HPin Hkin) as Hkk. split; [|split].
          * apply NoDup_app. split; [|split; [|done]].
            -- apply NoDup_filter. eapply fmap_NoDup_sublist; [|apply (ko_verts _ _ HK (n_id k))]. apply elem_of_list_split in Hkk as (l1 & l2 & Hl). unfold kept_verts. rewrite Hl, filter_app, filter_cons, decide_True by done.
               rewrite fmap_app, concat_app. csimpl. apply sublist_inserts_l, sublist_inserts_r. done.
            -- intros u [Hu Huk]%Hloc (_ & P2 & n2 & HP2 & Hn2 & Hi2 & Hu2 & Hnv)%Ha. apply elem_of_list_lookup in HP2 as [s Hs].
               destruct (kept_once t s P P2 k n2 (n_id k) u) as [<- _]; [done..|]. assert (P2 = P) as -> by (by eapply at_once). done.
          * intros u. rewrite elem_of_app, Hloc, Ha. split.
            -- intros [[Hu Huk]|(Hu & P2 & n2 & HP2 & Hn2 & Hi2 & Hu2 & Hnv)]; (split; [done|]); right; apply kept_elem; eauto 10.
            -- intros [Hu [(n2 & Hn2 & Hi2 & Hu2)%gverts_elem|(P2 & n2 & HP2 & Hn2 & Hi2 & Hu2)%kept_elem]].
               ++ exfalso. by apply (ko_new _ _ HK n2 k).
               ++ destruct (decide (u ∈ vids (fst P2))) as [Hx|Hx]; [left|right; split; [done|]; exists P2, n2; done].
                  apply elem_of_list_lookup in HP2 as [s Hs]. assert (s = t) as -> by (by eapply (home_once s t P2 P u)). assert (P2 = P) as -> by (by eapply at_once). split; [done|].
                  pose proof (ko_ids _ _ HK P HPin) as Hids. apply elem_of_list_lookup in Hkin as [a Hka]. apply elem_of_list_lookup in Hn2 as [b Hb].
                  assert (a = b) as -> by (eapply (NoDup_fmap_inj n_id (snd P)); done). congruence.
          * exists k. split; [apply elem_of_app; by right|done].
      - cbn [fst snd] in Hj, Hc. rewrite Hp in Hm. apply msgs_elem in Hm as (P3 & k & HP3 & Hk & Hik & Hck & Huk & Hnk).
        rewrite Hv. destruct (Harr (n_id n')) as [Hand Ha]. split; [done|]. split.
        + intros u. rewrite Ha. split.
          * intros (Hu & P2 & n2 & HP2 & Hn2 & Hi2 & Hu2 & Hnv). split; [done|]. right. apply kept_elem. eauto 10.
          * intros [Hu [(n2 & Hn2 & Hi2 & Hu2)%gverts_elem|(P2 & n2 & HP2 & Hn2 & Hi2 & Hu2)%kept_elem]].
            -- exfalso. eapply (ko_new _ _ HK n2 k); [done|by eapply Hkall|congruence].
            -- split; [done|]. exists P2, n2. split_and!; try done. intros Hx. apply elem_of_list_lookup in HP2 as [s Hs].
               assert (s = t) as -> by (by eapply (home_once s t P2 P u)). assert (P2 = P) as -> by (by eapply at_once). apply Hno. rewrite fmap_app, elem_of_app. right.
               rewrite <-list_fmap_compose. apply elem_of_list_fmap. exists n2. split; [done|]. apply elem_of_list_filter. split; [by intros Hy; rewrite Hy in Hu2; apply elem_of_nil in Hu2|done].
        + exists k. split; [apply elem_of_app; right; eauto|]. split; congruence. }
    assert (∀ t H', Hs' !! t = Some H' → ∃ P, ps !! t = Some P) as HPt. { intros t H' Ht. destruct (HR t H' Ht) as (P & _ & HP & _). eauto. }
    assert (∀ H', H' ∈ Hs' → nets_sound H') as Hsound.
    { intros H' [t HH']%elem_of_list_lookup. destruct (HR t H' HH') as (P & box & HP & _ & Hf & _ & Hm & _). assert (P ∈ ps) as HPin by (by eapply elem_of_list_lookup_2). split.
      - by eapply ids_ok_NoDup.
      - intros id i. destruct Hf as [-> _]. rewrite (ps_vmap P HPin id i), <-(Hvids t P H' HP HH'). unfold vids. rewrite list_lookup_fmap. destruct (h_verts H' !! i) as [v|]; simpl; naive_solver.
      - intros id i. rewrite (Hm id i). unfold nids. rewrite list_lookup_fmap. destruct (h_nets H' !! i) as [v|]; simpl; naive_solver.
      - intros n Hn. destruct (Hpiece t P H' n HP HH' Hn) as (Hnd & Hu & _). split; [done|]. intros u Hx. change (u ∈ vids H'). rewrite (Hvids t P H' HP HH'). by apply Hu. }
    assert (length Hs' = length ps) as Hlen by done.
    split; [done| |exact Hsound| | |].
    - intros t P H' HP HH'. destruct (HR t H' HH') as (P0 & box & HP0 & _ & Hf & Hv & _). assert (P0 = P) as -> by (by eapply at_once). destruct Hf as (_ & ? & ? & ?). split_and!; [|done..].
      rewrite Hv, <-list_fmap_compose. by apply list_fmap_ext.
    - intros i. apply NoDup_Permutation.
      + apply gverts_NoDup_sound.
        * assert (v_id <$> all_verts Hs' = v_id <$> all_verts (fst <$> ps)) as ->; [|apply (ko_dist _ _ HK)].
          unfold all_verts. rewrite !fmap_concat_fmap. f_equal. rewrite <-list_fmap_compose. apply list_eq_same_length with (length ps); [by rewrite fmap_length|by rewrite fmap_length|].
          intros t x y _ Hx Hy. apply list_lookup_fmap_Some in Hx as (H' & HH' & ->). apply list_lookup_fmap_Some in Hy as (P & HP & ->). by apply (Hvids t).
        * intros H' HH'. destruct (Hsound H' HH') as [S1 S2 S3 S4]. done.
      + apply NoDup_app. split; [eapply gverts_NoDup, (ko_dist _ _ HK)|]. split; [|apply (ko_verts _ _ HK)]. intros u (n & Hn & Hi & _)%gverts_elem (P & k & HP & Hk & Hi' & _)%kept_elem.
        eapply (ko_new _ _ HK n k); eauto. congruence.
      + intros u. rewrite elem_of_app, gverts_elem. split.
        * intros (n' & (H' & [t HH']%elem_of_list_lookup & Hn')%all_nets_elem & <- & Hu). destruct (HPt t H' HH') as [P HP]. destruct (Hpiece t P H' n' HP HH' Hn') as (_ & Hx & _). by apply Hx.
        * intros Hu. assert (u ∈ v_id <$> all_verts (fst <$> ps)) as Hhome. { destruct Hu as [Hu|Hu]; [by eapply gverts_ids; [apply (ko_dist _ _ HK)|]|by apply (ko_known _ _ HK i)]. }
          apply elem_of_list_fmap in Hhome as (v & -> & (H & (P & -> & HP)%elem_of_list_fmap & Hv)%all_verts_elem). apply elem_of_list_lookup in HP as [t HP].
          assert (v_id v ∈ vids (fst P)) as Hvin by (by apply elem_of_list_fmap_1).
          destruct (lookup_lt_is_Some_2 Hs' t) as [H' HH']; [rewrite Hlen; by eapply lookup_lt_Some|].
          destruct (HR t H' HH') as (P0 & box & HP0 & Hp & _ & _ & _ & _ & Hids). assert (P0 = P) as -> by (by eapply at_once).
          assert (i ∈ nids H') as (n' & Hn' & Hi')%nids_elem.
          { apply Hids. destruct Hu as [(n & (H2 & (P2 & -> & HP2)%elem_of_list_fmap & Hn2)%all_nets_elem & Hi & Hu)%gverts_elem|(P2 & k & HP2 & Hk & Hi & Hu)%kept_elem].
            - left. rewrite fmap_app. apply elem_of_app. left. apply elem_of_list_lookup in HP2 as [s Hs]. assert (s = t) as ->.
              { eapply (home_once s t P2 P); [done|done| |done]. eapply net_in_vids; [apply HC; by eapply elem_of_list_lookup_2|exact Hn2|done]. }
              assert (P2 = P) as -> by (by eapply at_once). rewrite <-Hi. by apply elem_of_list_fmap_1.
            - apply elem_of_list_lookup in HP2 as [s Hs]. destruct (decide (v_id v ∈ vids (fst P2))) as [Hx|Hx].
              + left. assert (s = t) as -> by (by eapply (home_once s t P2 P)). assert (P2 = P) as -> by (by eapply at_once). rewrite fmap_app. apply elem_of_app. right.
                rewrite <-list_fmap_compose. apply elem_of_list_fmap. exists k. split; [done|]. apply elem_of_list_filter. split; [by intros Hy; rewrite Hy in Hu; apply elem_of_nil in Hu|done].
              + right. assert (v_id v ∈ arrived (fst P) box i) as Ha; [|intros Hnil; rewrite Hnil in Ha; by apply elem_of_nil in Ha].
                apply (Harr box P Hp ltac:(by eapply elem_of_list_lookup_2)). split; [done|]. exists P2, k. split; [by eapply elem_of_list_lookup_2|done]. }
          exists n'. split; [apply all_nets_elem; exists H'; split; [by eapply elem_of_list_lookup_2|done]|]. split; [done|].
          destruct (Hpiece t P H' n' HP HH' Hn') as (_ & Hx & _). apply Hx. split; [done|]. by rewrite Hi'.
    - intros n' (H' & [t HH']%elem_of_list_lookup & Hn')%all_nets_elem. destruct (HPt t H' HH') as [P HP]. by destruct (Hpiece t P H' n' HP HH' Hn') as (_ & _ & Hx).
    - intros t P H' j v v' HP HH' Hj Hj'. destruct (HR t H' HH') as (P0 & box & HP0 & Hp & _ & Hv & _). assert (P0 = P) as -> by (by eapply at_once).
      assert (P ∈ ps) as HPin by (by eapply elem_of_list_lookup_2).
      rewrite Hv, list_lookup_fmap, Hj in Hj'. injection Hj' as <-. cbn [told v_nets].
      assert (v_id v ∈ vids (fst P)) as Hvin by (apply elem_of_list_fmap_1; by eapply elem_of_list_lookup_2).
      assert (∀ i, i ∈ fst <$> filter (λ m : Z * (Z * Z), fst (snd m) = v_id v) box ↔ ∃ s P2 n, s ≠ t ∧ ps !! s = Some P2 ∧ n ∈ snd P2 ∧ n_id n = i ∧ v_id v ∈ n_verts n) as Hin.
      { intros i. rewrite Hp, elem_of_list_fmap. split.
        - intros ([i' [u c]] & -> & [Hu Hm]%elem_of_list_filter). cbn [fst snd] in *. apply msgs_elem in Hm as (P2 & n & HP2 & Hn & Hi & Hc & Hx & Hno). apply elem_of_list_lookup in HP2 as [s Hs].
          exists s, P2, n. split; [intros ->; assert (P2 = P) as -> by (by eapply at_once); congruence|]. split_and!; try done. congruence.
        - intros (s & P2 & n & Hne & Hs & Hn & <- & Hu). exists (n_id n, (v_id v, n_cost n)). split; [done|]. apply elem_of_list_filter. split; [done|]. apply msgs_elem.
          exists P2, n. split; [by eapply elem_of_list_lookup_2|]. split_and!; try done. intros Hx. apply Hne. by eapply (home_once s t P2 P). }
      split; [|intros i; by rewrite elem_of_app, Hin]. apply NoDup_app. split; [|split].
      + apply (co_vnets _ (HC P HPin)). by eapply elem_of_list_lookup_2.
      + intros i Hi (s & P2 & n & _ & Hs & Hn & Hid & _)%Hin. destruct (co_inc1 _ (HC P HPin) v i) as (n0 & Hn0 & Hi0 & _); [by eapply elem_of_list_lookup_2|done|].
        eapply (ko_new _ _ HK n0 n); [by eapply Hnall|eapply Hkall; [by eapply elem_of_list_lookup_2|done]|congruence].
      + rewrite Hp. assert (NoDup ((λ m : Z * (Z * Z), (fst m, fst (snd m))) <$> msgs)) as Hnd.
        { apply NoDup_pairs. intros i. eapply fmap_NoDup_sublist; [|apply (ko_verts _ _ HK i)]. etrans; [|apply msgs_sublist]. clear. induction msgs as [|m l IH]; [done|].
          csimpl. rewrite !filter_cons. cbn [fst]. case_decide; csimpl; [by apply sublist_skip|done]. }
        clear -Hnd. induction msgs as [|m l IH]; [constructor|]. csimpl in Hnd. apply NoDup_cons in Hnd as [Hno Hnd]. rewrite filter_cons. case_decide as Hd; [|by apply IH]. csimpl.
        constructor; [|by apply IH]. intros (m' & Hm' & [Hd' Hin']%elem_of_list_filter)%elem_of_list_fmap. apply Hno. apply elem_of_list_fmap. exists m'. split; [|done]. f_equal; congruence.
  Qed.
End add_back.
