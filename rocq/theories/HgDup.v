(** Proofs about simplify_duplicate_nets and reset_duplicate_nets. *)
From Verif Require Export HgMore.

Global Arguments zsum : simpl never.
Lemma zsum_nil : zsum [] = 0.
Proof. done. Qed.

(** ** double sums *)
Lemma zsum_fmap_swap {A B} (f : A → B → Z) (l : list A) (k : list B) :
  zsum ((λ a, zsum ((λ b, f a b) <$> k)) <$> l) = zsum ((λ b, zsum ((λ a, f a b) <$> l)) <$> k).
Proof.
  induction l as [|a l IH]; csimpl.
  - symmetry. apply zsum_fmap_zero. done.
  - rewrite zsum_cons, IH, <-zsum_fmap_add. apply zsum_fmap_ext. intros b _. done.
Qed.

Lemma zsum_filter_if {A} (P : A → Prop) {HP : ∀ x, Decision (P x)} (f : A → Z) (l : list A) :
  zsum (f <$> filter P l) = zsum ((λ x, if decide (P x) then f x else 0) <$> l).
Proof.
  induction l as [|x l IH]; [done|]. csimpl. rewrite filter_cons, zsum_cons, <-IH.
  destruct (decide (P x)); csimpl; rewrite ?zsum_cons, ?zsum_nil; lia.
Qed.

Lemma zsum_single {A} (f : A → Z) (l : list A) x :
  NoDup l → x ∈ l → (∀ y, y ∈ l → y ≠ x → f y = 0) → zsum (f <$> l) = f x.
Proof.
  induction l as [|y l IH]; intros Hnd Hx Hz; [set_solver|].
  apply NoDup_cons in Hnd as [Hy Hnd]. csimpl. rewrite zsum_cons.
  apply elem_of_cons in Hx as [->|Hx].
  - rewrite zsum_fmap_zero; [lia|]. intros z Hzl. apply Hz; set_solver.
  - rewrite IH; [|done..|set_solver]. rewrite Hz; [lia|set_solver|]. by intros ->.
Qed.

(** Merging: one representative per key carries the total of its class. *)
Lemma merge_sum {A} (key : A → list Z) (c : A → Z) (g : list Z → Z) (l : list A) (rep : A → Prop)
    {Hd : ∀ x, Decision (rep x)} :
  NoDup l →
  (∀ x, x ∈ l → ∃ r, r ∈ l ∧ rep r ∧ key r = key x) →
  (∀ r r', r ∈ l → r' ∈ l → rep r → rep r' → key r = key r' → r = r') →
  zsum ((λ r, zsum (c <$> filter (λ x, key x = key r) l) * g (key r)) <$> filter rep l)
  = zsum ((λ x, c x * g (key x)) <$> l).
Proof.
  intros Hnd Hex Huniq. rewrite zsum_filter_if.
  transitivity (zsum ((λ r, zsum ((λ x, if decide (rep r) then if decide (key x = key r) then c x * g (key x) else 0 else 0) <$> l)) <$> l)).
  - apply zsum_fmap_ext. intros r Hr. destruct (decide (rep r)).
    + rewrite zsum_filter_if, Z.mul_comm, <-zsum_fmap_mul. apply zsum_fmap_ext. intros x Hx.
      destruct (decide (key x = key r)) as [->|]; lia.
    + symmetry. by apply zsum_fmap_zero.
  - rewrite zsum_fmap_swap. apply zsum_fmap_ext. intros x Hx.
    destruct (Hex x Hx) as (r & Hr & Hrep & Hkey). rewrite (zsum_single _ l r); [|done..|].
    + rewrite decide_True by done. by rewrite decide_True.
    + intros y Hy Hne. destruct (decide (rep y)); [|done]. destruct (decide (key x = key y)) as [Hk|]; [|done].
      destruct Hne. apply Huniq; try done. congruence.
Qed.

Lemma NoDup_fmap_filter {A} (f : A → Z) (P : A → Prop) {HP : ∀ x, Decision (P x)} (l : list A) :
  NoDup (f <$> l) → NoDup (f <$> filter P l).
Proof.
  induction l as [|x l IH]; intros Hnd; [constructor|].
  csimpl in Hnd. apply NoDup_cons in Hnd as [Hx Hnd]. rewrite filter_cons. case_decide; [|by apply IH].
  csimpl. constructor; [|by apply IH]. intros (y & Heq & [_ Hy]%elem_of_list_filter)%elem_of_list_fmap.
  apply Hx. rewrite Heq. by apply elem_of_list_fmap_1.
Qed.

(** ** the two maps of simplify_duplicate_nets *)
Definition dup_maps (ns : list net) : gmap (list Z) Z * gmap (list Z) Z :=
  foldl (λ '(cm, im) n,
      (<[n_verts n := wrap32 (default 0 (cm !! n_verts n) + n_cost n)]> cm,
       <[n_verts n := n_id n]> im)) (∅ : gmap (list Z) Z, ∅ : gmap (list Z) Z) ns.

Lemma dup_maps_snoc ns n :
  dup_maps (ns ++ [n]) =
   (<[n_verts n := wrap32 (default 0 (fst (dup_maps ns) !! n_verts n) + n_cost n)]> (fst (dup_maps ns)),
    <[n_verts n := n_id n]> (snd (dup_maps ns))).
Proof. unfold dup_maps at 1. rewrite foldl_app. simpl. fold (dup_maps ns). by destruct (dup_maps ns). Qed.

Lemma wrap32_id z : -2147483648 ≤ z < 2147483648 → wrap32 z = z.
Proof. intros Hz. unfold wrap32. rewrite Z.mod_small by lia. lia. Qed.

Definition class_cost (ns : list net) (vl : list Z) : Z :=
  zsum (n_cost <$> filter (λ n, n_verts n = vl) ns).

Lemma class_cost_snoc ns n vl :
  class_cost (ns ++ [n]) vl = class_cost ns vl + (if decide (n_verts n = vl) then n_cost n else 0).
Proof.
  unfold class_cost. rewrite filter_app, fmap_app, zsum_app, filter_cons.
  destruct (decide (n_verts n = vl)); csimpl; rewrite ?zsum_cons, ?zsum_nil; simpl; lia.
Qed.

Lemma zsum_abs_le {A} (f : A → Z) (P : A → Prop) {HP : ∀ x, Decision (P x)} (l : list A) :
  Z.abs (zsum (f <$> filter P l)) ≤ zsum ((λ x, Z.abs (f x)) <$> l).
Proof.
  induction l as [|x l IH]; [done|]. csimpl. rewrite filter_cons, zsum_cons.
  destruct (decide (P x)); csimpl; rewrite ?zsum_cons, ?zsum_nil; lia.
Qed.

Lemma dup_maps_cost ns vl :
  zsum ((λ n, Z.abs (n_cost n)) <$> ns) < 2147483648 →
  default 0 (fst (dup_maps ns) !! vl) = class_cost ns vl.
Proof.
  induction ns as [|n ns IH] using rev_ind; intros Hb; [done|].
  rewrite fmap_app, zsum_app in Hb. csimpl in Hb. rewrite zsum_cons, zsum_nil in Hb.
  rewrite dup_maps_snoc, class_cost_snoc. simpl.
  assert (0 ≤ zsum ((λ n0 : net, Z.abs (n_cost n0)) <$> ns)) as Hnn.
  { apply zsum_nonneg. intros x (m & -> & _)%elem_of_list_fmap. lia. }
  destruct (decide (n_verts n = vl)) as [<-|Hne].
  - rewrite lookup_insert. simpl. rewrite IH by lia. apply wrap32_id.
    pose proof (zsum_abs_le n_cost (λ m, n_verts m = n_verts n) ns) as Hle. fold (class_cost ns (n_verts n)) in Hle. lia.
  - rewrite lookup_insert_ne by done. rewrite IH by lia. lia.
Qed.

Lemma dup_maps_id ns vl :
  match snd (dup_maps ns) !! vl with
  | Some id => ∃ n, n ∈ ns ∧ n_verts n = vl ∧ n_id n = id
  | None => ∀ n, n ∈ ns → n_verts n ≠ vl
  end.
Proof.
  induction ns as [|n ns IH] using rev_ind.
  { unfold dup_maps. simpl. rewrite lookup_empty. set_solver. }
  rewrite dup_maps_snoc. simpl. destruct (decide (n_verts n = vl)) as [<-|Hne].
  - rewrite lookup_insert. exists n. split; [|done]. apply elem_of_app. right. by apply elem_of_list_singleton.
  - rewrite lookup_insert_ne by done. destruct (_ !! vl).
    + destruct IH as (m & ? & ? & ?). exists m. split; [|done]. apply elem_of_app. by left.
    + intros m [Hm| ->%elem_of_list_singleton]%elem_of_app; [by apply IH|done].
Qed.

Definition kept_id (ns : list net) (n : net) : Z := default 0 (snd (dup_maps ns) !! n_verts n).
Definition merged (ns : list net) (n : net) : net :=
  if decide (kept_id ns n = n_id n) then set_cost (default 0 (fst (dup_maps ns) !! n_verts n)) n else n.
Definition is_kept (ns : list net) (n : net) : Prop := kept_id ns n = n_id n.

Global Instance is_kept_dec ns n : Decision (is_kept ns n) := decide (kept_id ns n = n_id n).

Lemma kept_id_spec ns n : n ∈ ns → ∃ r, r ∈ ns ∧ n_verts r = n_verts n ∧ kept_id ns n = n_id r.
Proof.
  intros Hn. unfold kept_id. pose proof (dup_maps_id ns (n_verts n)) as Hd.
  destruct (_ !! _) as [id|]; [|by destruct (Hd n Hn)].
  destruct Hd as (r & ? & ? & <-). eauto.
Qed.
Lemma kept_id_ext ns n n' : n_verts n = n_verts n' → kept_id ns n = kept_id ns n'.
Proof. unfold kept_id. by intros ->. Qed.

(** The unfolded result. *)
Lemma simplify_unfold H0 :
  simplify_duplicate_nets H0 =
    let H := sort_vertices H0 in
    foldM (λ H '(id, dup), remove_duplicate_net H id dup)
      ((λ n, (n_id n, kept_id (h_nets H) n)) <$> filter (λ n, ¬ is_kept (h_nets H) n) (h_nets H))
      (with_nets (merged (h_nets H) <$> h_nets H) H).
Proof. reflexivity. Qed.

Lemma sort_vertices_shape H : same_shape H (sort_vertices H).
Proof.
  split; try done.
  - apply Forall2_refl, same_vertex_refl.
  - simpl. apply Forall2_fmap_r, Forall_Forall2_diag, Forall_forall. intros n _.
    unfold compose. split_and!; try done. simpl. by rewrite merge_sort_perm.
Qed.

(** What simplify leaves. *)
Record simplified (H H' : hg) : Prop := {
  si_consistent : consistent H';
  si_vmap : h_vmap H' = h_vmap H;
  si_nets : h_nets H' ≡ₚ merged (h_nets (sort_vertices H)) <$>
              filter (is_kept (h_nets (sort_vertices H))) (h_nets (sort_vertices H));
  si_dups : h_dups H' = h_dups H ++ ((λ n, (n, kept_id (h_nets (sort_vertices H)) n)) <$>
              filter (λ n, ¬ is_kept (h_nets (sort_vertices H)) n) (h_nets (sort_vertices H)));
  si_verts : Forall2 (λ v v', v_id v' = v_id v ∧ v_weight v' = v_weight v ∧ v_part v' = v_part v ∧
       v_nets v' ≡ₚ filter (λ m, m ∉ n_id <$> filter (λ n, ¬ is_kept (h_nets (sort_vertices H)) n) (h_nets (sort_vertices H))) (v_nets v))
       (h_verts H) (h_verts H');
  si_gsize : h_gsize H' = h_gsize H;
  si_gnets : h_gnets H' = h_gnets H;
  si_nz : h_nz H' = h_nz H;
}.

Lemma with_dups_consistent d H : consistent H → consistent (with_dups d H).
Proof. intros [? ? ? ? ? ? ? ?]. split; done. Qed.

Lemma wpe_simplify E H0 (Q : hg → Prop) :
  consistent H0 → (∀ H', simplified H0 H' → Q H') → wpe E (simplify_duplicate_nets H0) Q.
Proof.
  intros HC0 HQ. rewrite simplify_unfold. cbv zeta.
  assert (consistent (sort_vertices H0)) as HC by (eapply same_shape_consistent; [apply sort_vertices_shape|done]).
  set (H := sort_vertices H0) in *. set (ns := h_nets H) in *.
  assert (∀ n, n_id (merged ns n) = n_id n ∧ n_verts (merged ns n) = n_verts n) as Hm.
  { intros n. unfold merged. by case_decide. }
  pose proof (with_nets_same_ids_consistent H (merged ns) Hm HC) as HC1. fold ns in HC1.
  set (H1 := with_nets (merged ns <$> ns) H) in *.
  set (rem := filter (λ n, ¬ is_kept ns n) ns).
  assert (NoDup (n_id <$> rem)) as Hnd.
  { apply NoDup_fmap_filter. apply (co_nid _ HC). }
  eapply (wpe_foldM E _ (λ ds H', ∃ rds rts, rem = rds ++ rts ∧ ds = (λ n, (n_id n, kept_id ns n)) <$> rds ∧
     nets_removed (n_id <$> rds) H1 H' ∧ consistent H' ∧ h_vmap H' = h_vmap H1 ∧
     h_dups H' = h_dups H1 ++ ((λ n, (n, kept_id ns n)) <$> rds))).
  - exists [], rem. split_and!; try done. { apply nets_removed_refl. } by rewrite app_nil_r.
  - intros ds [id dup] ts H' Heq (rds & rts & Hrem & -> & HR & HC' & Hvm & Hd).
    rewrite Hrem, fmap_app in Heq. apply app_inv_head in Heq.
    destruct rts as [|n rts]; [done|]. csimpl in Heq. injection Heq as <- <- <-.
    assert (n ∈ rem) as Hn by (rewrite Hrem; set_solver).
    apply elem_of_list_filter in Hn as [Hnk Hn].
    assert (merged ns n = n) as Hmn by (unfold merged; by rewrite decide_False).
    assert (n ∈ h_nets H') as Hn'.
    { rewrite (nsr_nets _ _ _ HR). apply elem_of_list_filter. split.
      - rewrite Hrem, fmap_app in Hnd. csimpl in Hnd. apply NoDup_app in Hnd as (_ & Hnd & _).
        intros Hin. apply (Hnd _ Hin). set_solver.
      - simpl. apply elem_of_list_fmap. eauto. }
    unfold remove_duplicate_net. apply wpe_bind. eapply wpe_get_net; [by apply co_nmap_ok|done|].
    pose proof (with_dups_consistent (h_dups H' ++ [(n, kept_id ns n)]) H' HC') as HC''.
    eapply (wpe_remove_net _ _ n); [done|done|]. intros H'' HR' HC3 Hvm3.
    exists (rds ++ [n]), rts. split_and!.
    + rewrite Hrem, <-app_assoc. done.
    + rewrite fmap_app. done.
    + rewrite fmap_app. csimpl. apply (nets_removed_snoc _ n H1 (with_dups (h_dups H' ++ [(n, kept_id ns n)]) H') H'');
        [by apply co_nmap_ok| |done]. destruct HR. by split.
    + done.
    + rewrite Hvm3. simpl. done.
    + rewrite (nr_dups _ _ _ HR'). simpl. rewrite Hd, fmap_app, <-app_assoc. done.
  - intros H' (rds & rts & Hrem & Heq & HR & HC' & Hvm & Hd).
    assert (rts = []) as ->.
    { apply (f_equal length) in Heq, Hrem. rewrite app_length in Hrem. rewrite !fmap_length in Heq.
      destruct rts; [done|]. simpl in Hrem. fold rem in Heq. lia. }
    rewrite app_nil_r in Hrem. subst rds. apply HQ. split; try done.
    + rewrite (nsr_nets _ _ _ HR). simpl. rewrite filter_fmap. fold H. fold ns.
      apply reflexive_eq. f_equal. apply filter_ext. intros n Hn. rewrite (proj1 (Hm n)).
      split.
      * intros Hno. destruct (decide (is_kept ns n)) as [|Hk]; [done|]. destruct Hno.
        apply elem_of_list_fmap_1. by apply elem_of_list_filter.
      * intros Hk (m & Heqm & [Hnk Hmm]%elem_of_list_filter)%elem_of_list_fmap.
        assert (n = m) as -> by (eapply (nmap_ok_elem_eq H); [by apply co_nmap_ok|done..]). done.
    + apply HR.
    + rewrite (nsr_gsize _ _ _ HR). done.
    + rewrite (nsr_gnets _ _ _ HR). done.
    + rewrite (nsr_nz _ _ _ HR). done.
Qed.

(** *** Cut preservation *)
Lemma cut_net_size_zsum ns σ :
  cut_net_size ns σ = zsum ((λ '(c, vs), c * (if decide (1 < lambda σ vs) then 1 else 0)) <$> ns).
Proof. unfold cut_net_size. apply zsum_fmap_ext. intros [c vs] _. case_decide; lia. Qed.
Lemma lambda_size_zsum ns σ :
  lambda_size ns σ = zsum ((λ '(c, vs), c * (if decide (vs = []) then 0 else lambda σ vs - 1)) <$> ns).
Proof. unfold lambda_size. apply zsum_fmap_ext. intros [c vs] _. case_decide; lia. Qed.

Definition small_costs (H : hg) : Prop :=
  zsum ((λ n, Z.abs (n_cost n)) <$> h_nets H) < 2147483648.

Lemma small_costs_sort H : small_costs H → small_costs (sort_vertices H).
Proof. unfold small_costs. simpl. rewrite <-list_fmap_compose. done. Qed.

Lemma simplified_zsum H H' (g : list Z → Z) :
  consistent H → small_costs H → simplified H H' →
  zsum ((λ n, n_cost n * g (n_verts n)) <$> h_nets H') = zsum ((λ n, n_cost n * g (n_verts n)) <$> h_nets (sort_vertices H)).
Proof.
  intros HC0 Hsm HS. apply small_costs_sort in Hsm.
  assert (consistent (sort_vertices H)) as HC by (eapply same_shape_consistent; [apply sort_vertices_shape|done]).
  rewrite (si_nets _ _ HS). set (ns := h_nets (sort_vertices H)) in *.
  rewrite <-list_fmap_compose.
  rewrite <-(merge_sum n_verts n_cost g ns (is_kept ns)).
  - apply zsum_fmap_ext. intros n [Hk Hn]%elem_of_list_filter. simpl. unfold merged.
    unfold is_kept in Hk. rewrite decide_True by done. simpl. rewrite dup_maps_cost by done. done.
  - apply (NoDup_fmap_1 n_id). apply (co_nid _ HC).
  - intros n Hn. destruct (kept_id_spec ns n Hn) as (r & Hr & Hv & Hk). exists r. split; [done|].
    split; [|done]. unfold is_kept. rewrite (kept_id_ext ns r n) by done. done.
  - intros r r' Hr Hr' Hk Hk' Heq. unfold is_kept in *.
    eapply (nmap_ok_elem_eq (sort_vertices H)); [by apply co_nmap_ok|done..|].
    rewrite <-Hk, <-Hk'. by apply kept_id_ext.
Qed.

Lemma simplified_cuts H H' σ :
  consistent H → small_costs H → simplified H H' →
  cut_net_size (net_list H') σ = cut_net_size (net_list H) σ ∧
  lambda_size (net_list H') σ = lambda_size (net_list H) σ.
Proof.
  intros HC Hsm HS.
  assert (Forall2 (λ a b, fst a = fst b ∧ snd a ≡ₚ snd b) (net_list H) (net_list (sort_vertices H))) as Hf2.
  { unfold net_list. simpl. rewrite <-list_fmap_compose. apply Forall2_fmap, Forall_Forall2_diag, Forall_forall.
    intros n _. simpl. split; [done|]. by rewrite merge_sort_perm. }
  split.
  - rewrite (cut_net_size_Forall2 _ _ σ σ Hf2) by done. rewrite !cut_net_size_zsum. unfold net_list.
    rewrite <-!list_fmap_compose. pose proof (simplified_zsum H H' (λ vs : list Z, if decide (1 < lambda σ vs) then 1 else 0) HC Hsm HS) as Hz. exact Hz.
  - rewrite (lambda_size_Forall2 _ _ σ σ Hf2) by done. rewrite !lambda_size_zsum. unfold net_list.
    rewrite <-!list_fmap_compose. pose proof (simplified_zsum H H' (λ vs : list Z, if decide (vs = []) then 0 else lambda σ vs - 1) HC Hsm HS) as Hz. exact Hz.
Qed.

(** Remaining nets are original nets with distinct vertex sets. *)
Lemma simplified_subset H H' n' :
  simplified H H' → n' ∈ h_nets H' →
  ∃ n, n ∈ h_nets H ∧ n_id n' = n_id n ∧ n_verts n' ≡ₚ n_verts n ∧ n_gsize n' = n_gsize n.
Proof.
  intros HS Hn'. rewrite (si_nets _ _ HS) in Hn'.
  apply elem_of_list_fmap in Hn' as (m & -> & [_ Hm]%elem_of_list_filter).
  simpl in Hm. apply elem_of_list_fmap in Hm as (n & -> & Hn). exists n. split; [done|].
  unfold merged. case_decide; simpl; rewrite merge_sort_perm; done.
Qed.

Lemma merge_sort_perm_eq (l l' : list Z) : l ≡ₚ l' → merge_sort Z.le l = merge_sort Z.le l'.
Proof.
  intros Hp. apply (Sorted_unique Z.le).
  - apply Sorted_merge_sort, _.
  - apply Sorted_merge_sort, _.
  - by rewrite !merge_sort_perm.
Qed.

Lemma simplified_distinct H H' n1 n2 :
  consistent H → simplified H H' → n1 ∈ h_nets H' → n2 ∈ h_nets H' →
  n_verts n1 ≡ₚ n_verts n2 → n1 = n2.
Proof.
  intros HC0 HS H1 H2 Hp. rewrite (si_nets _ _ HS) in H1, H2.
  assert (consistent (sort_vertices H)) as HC by (eapply same_shape_consistent; [apply sort_vertices_shape|done]).
  apply elem_of_list_fmap in H1 as (m1 & -> & [K1 M1]%elem_of_list_filter).
  apply elem_of_list_fmap in H2 as (m2 & -> & [K2 M2]%elem_of_list_filter).
  assert (n_verts m1 = n_verts m2) as Hv.
  { assert (∀ m, m ∈ h_nets (sort_vertices H) → ∃ l, n_verts m = merge_sort Z.le l) as Hso.
    { intros m Hm. simpl in Hm. apply elem_of_list_fmap in Hm as (n & -> & _). simpl. eauto. }
    destruct (Hso _ M1) as [l1 E1], (Hso _ M2) as [l2 E2].
    assert (n_verts m1 ≡ₚ n_verts m2) as Hp'.
    { unfold merged in Hp. repeat case_decide; done. }
    rewrite E1, E2 in *. rewrite !merge_sort_perm in Hp'. by apply merge_sort_perm_eq. }
  assert (m1 = m2) as ->; [|done]. unfold is_kept in *.
  eapply (nmap_ok_elem_eq (sort_vertices H)); [by apply co_nmap_ok|done..|].
  rewrite <-K1, <-K2. by apply kept_id_ext.
Qed.

(** Changing the cost or the global size of one net keeps consistency. *)
Lemma upd_net_consistent H i (f : net → net) :
  (∀ n, n_id (f n) = n_id n) → (∀ n, n_verts (f n) = n_verts n) → consistent H → consistent (upd_net i f H).
Proof.
  intros Hid Hvs HC.
  assert (∀ n, n ∈ h_nets (upd_net i f H) → ∃ m, m ∈ h_nets H ∧ n_id n = n_id m ∧ n_verts n = n_verts m) as Hto.
  { intros n (j & m & Hj & ->)%elem_of_alter. exists m. split; [by eapply elem_of_list_lookup_2|].
    case_decide; [|done]. by rewrite Hid, Hvs. }
  assert (∀ m, m ∈ h_nets H → ∃ n, n ∈ h_nets (upd_net i f H) ∧ n_id n = n_id m ∧ n_verts n = n_verts m) as Hfrom.
  { intros m [j Hj]%elem_of_list_lookup. exists (if decide (j = i) then f m else m).
    split; [apply elem_of_alter; eauto|]. case_decide; [|done]. by rewrite Hid, Hvs. }
  apply consistent_intro.
  - apply (vmap_ok_ids H); [done..|by apply co_vmap_ok].
  - apply (nmap_ok_ids H); [|done|by apply co_nmap_ok]. unfold nids. simpl. by apply alter_fmap_id.
  - apply (co_vnets _ HC).
  - intros n (m & Hm & _ & ->)%Hto. by apply (co_nverts _ HC).
  - intros v nid Hv Hnid. destruct (co_inc1 _ HC _ _ Hv Hnid) as (m & Hm & <- & Hin).
    destruct (Hfrom m Hm) as (n & Hn & Hi & Hvn). exists n. rewrite Hvn. done.
  - intros n vid (m & Hm & -> & ->)%Hto. by apply (co_inc2 _ HC).
Qed.

(** ** reset_duplicate_nets *)
Definition reset_net (ds : list (net * Z)) (n : net) : net :=
  set_cost (n_cost n - zsum ((λ d, n_cost d.1) <$> filter (λ d, d.2 = n_id n) ds)) n.
Definition reset_vert (ds : list (net * Z)) (v : vertex) : vertex :=
  set_vnets (v_nets v ++ (n_id ∘ fst <$> filter (λ d, v_id v ∈ n_verts d.1) ds)) v.
Definition reset_state (ds : list (net * Z)) (H : hg) (m : gmap Z nat) : hg :=
  with_nmap m (with_nets ((reset_net ds <$> h_nets H) ++ ((λ d, set_ngsize 0 d.1) <$> ds))
    (with_verts (reset_vert ds <$> h_verts H) H)).

Lemma wpe_reset_duplicate_nets E H (Q : hg → Prop) :
  consistent H →
  NoDup ((λ d, n_id d.1) <$> h_dups H) →
  (∀ d, d ∈ h_dups H → n_id d.1 ∉ nids H ∧ d.2 ∈ nids H ∧ NoDup (n_verts d.1) ∧ ∀ u, u ∈ n_verts d.1 → u ∈ vids H) →
  (∀ m, consistent (reset_state (h_dups H) H m) → Q (reset_state (h_dups H) H m)) →
  wpe E (reset_duplicate_nets H) Q.
Proof.
  intros HC Hnd Hd HQ. unfold reset_duplicate_nets.
  eapply (wpe_foldM E _ (λ ds H', ∃ m, H' = reset_state ds H m ∧ consistent H')).
  - exists (h_nmap H). split; [|done]. unfold reset_state. destruct H as [a b vs ns c d e f].
    unfold with_nmap, with_nets, with_verts. simpl. f_equal.
    + rewrite <-(list_fmap_id vs) at 1. apply list_fmap_ext. intros i [] _. unfold reset_vert, set_vnets. simpl. by rewrite app_nil_r.
    + rewrite app_nil_r. rewrite <-(list_fmap_id ns) at 1. apply list_fmap_ext. intros i [] _.
      unfold reset_net, set_cost. simpl. f_equal. unfold zsum. simpl. lia.
  - intros ds [n kept] ts H' Heq (m & -> & HC').
    assert ((n, kept) ∈ h_dups H) as Hin by (rewrite Heq; set_solver).
    destruct (Hd _ Hin) as (Hnew & Hkept & Hndv & Hvids). simpl in *.
    set (H' := reset_state ds H m) in *.
    assert (vids H' = vids H) as Hvids'.
    { unfold vids, H', reset_state. simpl. rewrite <-list_fmap_compose. done. }
    assert (nids H' = nids H ++ ((λ d, n_id d.1) <$> ds)) as Hnids'.
    { unfold nids, H', reset_state. simpl. rewrite fmap_app, <-!list_fmap_compose. done. }
    assert (n_id n ∉ nids H') as Hnew'.
    { rewrite Hnids', elem_of_app. intros [|Hds]; [done|].
      rewrite Heq, fmap_app in Hnd. csimpl in Hnd. apply NoDup_app in Hnd as (_ & Hnd & _). apply (Hnd _ Hds). set_solver. }
    apply wpe_bind. apply wpe_add_local_net; [by apply co_vmap_ok|done|by apply co_nmap_ok|done|by rewrite Hvids'|].
    assert (∀ u, u ∈ n_verts n → u ∈ vids H') as Hvn by (by rewrite Hvids').
    pose proof (add_local_net_consistent H' n HC' Hnew' Hndv Hvn) as HC1.
    set (H1 := with_verts _ _) in *.
    apply nids_elem in Hkept as (k & Hk & <-). pose proof Hk as [i Hi]%elem_of_list_lookup.
    assert (h_nets H1 !! i = Some (reset_net ds k)) as Hi1.
    { unfold H1, H'. simpl. rewrite lookup_app_l.
      - rewrite lookup_app_l; [by rewrite list_lookup_fmap, Hi|]. rewrite fmap_length. by eapply lookup_lt_Some.
      - rewrite app_length, fmap_length. apply lookup_lt_Some in Hi. lia. }
    apply wpe_bind. eapply (wpe_get_net _ _ (reset_net ds k)); [by apply co_nmap_ok|by eapply elem_of_list_lookup_2|].
    eapply (wpe_upd_net_id _ _ i (reset_net ds k)); [by apply co_nmap_ok|done|].
    match goal with |- ∃ m, ?H2 = _ ∧ _ => assert (H2 = reset_state (ds ++ [(n, n_id k)]) H (h_nmap H1)) as HH end.
    { unfold H1, H', reset_state, upd_net, with_nmap, with_nets, with_verts. simpl. f_equal.
      - rewrite <-list_fmap_compose. apply list_fmap_ext. intros j v Hj. simpl.
        unfold reset_vert. rewrite filter_app, filter_cons. simpl.
        destruct (decide (v_id v ∈ n_verts n)); unfold v_add_net, set_vnets; simpl; f_equal.
        + rewrite fmap_app, <-app_assoc. done.
        + rewrite app_nil_r. done.
      - apply list_eq. intros j. rewrite fmap_app. simpl. rewrite app_assoc.
        destruct (decide (j = i)) as [->|Hne].
        + rewrite list_lookup_alter. unfold H1, H' in Hi1. simpl in Hi1. rewrite Hi1. simpl.
          rewrite !lookup_app_l; rewrite ?app_length, ?fmap_length; [|apply lookup_lt_Some in Hi; lia..].
          rewrite list_lookup_fmap, Hi. simpl. f_equal. unfold reset_net, set_cost. simpl. f_equal.
          rewrite filter_app, fmap_app, zsum_app, filter_cons, decide_True by done. csimpl. rewrite zsum_cons, zsum_nil. simpl. lia.
        + rewrite list_lookup_alter_ne by done.
          destruct (decide (j < length (h_nets H))%nat) as [Hlt|Hge].
          * rewrite !lookup_app_l; rewrite ?app_length, ?fmap_length; [|lia..].
            rewrite !list_lookup_fmap. destruct (h_nets H !! j) as [n'|] eqn:Hj; [|done]. simpl. f_equal.
            unfold reset_net. f_equal. rewrite filter_app, filter_cons, decide_False; [by rewrite app_nil_r|].
            simpl. intros Hid. apply Hne. eapply NoDup_fmap_inj; [apply (co_nid _ HC)|done..].
          * rewrite <-!app_assoc. rewrite (lookup_app_r (reset_net ds <$> _)), (lookup_app_r (reset_net (ds ++ _) <$> _)); rewrite ?fmap_length; [done|lia..]. }
    exists (h_nmap H1). split; [exact HH|].
    apply upd_net_consistent; done.
  - intros H' (m & -> & HC'). by apply HQ.
Qed.

(** ** simplify, relabel, reset *)
Record restored (H H2 H3 : hg) : Prop := {
  re_consistent : consistent H3;
  re_nets : ∀ n, n ∈ h_nets H → ∃ n', n' ∈ h_nets H3 ∧ n_id n' = n_id n ∧ n_verts n' ≡ₚ n_verts n ∧
      n_cost n' = n_cost n ∧ (n_gsize n' = n_gsize n ∨ n_gsize n' = 0);
  re_nets' : ∀ n', n' ∈ h_nets H3 → n_id n' ∈ n_id <$> h_nets H;
  re_verts : Forall2 (λ v v', v_id v' = v_id v ∧ v_weight v' = v_weight v ∧ v_nets v' ≡ₚ v_nets v)
      (h_verts H) (h_verts H3);
  re_parts : v_part <$> h_verts H3 = v_part <$> h_verts H2;
}.

Lemma class_cost_split H n :
  let ns := h_nets (sort_vertices H) in
  consistent H → n ∈ ns → is_kept ns n →
  class_cost ns (n_verts n) = n_cost n + zsum (n_cost <$> filter (λ m, kept_id ns m = n_id n) (filter (λ m, ¬ is_kept ns m) ns)).
Proof.
  intros ns HC0 Hn Hk.
  assert (consistent (sort_vertices H)) as HC by (eapply same_shape_consistent; [apply sort_vertices_shape|done]).
  unfold class_cost. rewrite filter_filter, !zsum_filter_if.
  assert (NoDup ns) as Hnd by (apply (NoDup_fmap_1 n_id); apply (co_nid _ HC)).
  assert (n_cost n = zsum ((λ m, if decide (m = n) then n_cost m else 0) <$> ns)) as ->.
  { rewrite (zsum_single _ ns n); [by rewrite decide_True|done|done|]. intros y _ Hne. by rewrite decide_False. }
  rewrite <-zsum_fmap_add. apply zsum_fmap_ext. intros m Hm.
  destruct (kept_id_spec ns m Hm) as (r & Hr & Hvr & Hkr).
  destruct (decide (m = n)) as [->|Hne].
  - rewrite decide_True by done. rewrite decide_False by tauto. lia.
  - destruct (decide (n_verts m = n_verts n)) as [Hv|Hv].
    + rewrite decide_True; [lia|]. split.
      * rewrite (kept_id_ext ns m n) by done. done.
      * intros Hk'. apply Hne. eapply (nmap_ok_elem_eq (sort_vertices H)); [by apply co_nmap_ok|done..|].
        rewrite <-Hk, <-Hk'. by apply kept_id_ext.
    + rewrite decide_False; [lia|]. intros [Hk1 _]. apply Hv.
      assert (r = n) as <-; [|done]. eapply (nmap_ok_elem_eq (sort_vertices H)); [by apply co_nmap_ok|done..|]. congruence.
Qed.

Lemma simplified_restored H H' H2 m :
  consistent H → small_costs H → h_dups H = [] → simplified H H' → same_shape H' H2 →
  consistent (reset_state (h_dups H2) H2 m) →
  restored H H2 (reset_state (h_dups H2) H2 m).
Proof.
  intros HC0 Hsm Hd0 HS Hsh HC3. set (H3 := reset_state _ _ _) in *.
  assert (consistent (sort_vertices H)) as HC by (eapply same_shape_consistent; [apply sort_vertices_shape|done]).
  apply small_costs_sort in Hsm.
  assert (∀ n, n ∈ h_nets H → set_nverts (merge_sort Z.le (n_verts n)) n ∈ h_nets (sort_vertices H)) as Hsort.
  { intros n Hn. simpl. apply elem_of_list_fmap; eauto. }
  assert (∀ n, n ∈ h_nets (sort_vertices H) → n_id n ∈ nids H) as Hsort'.
  { intros n' (n & -> & Hn)%elem_of_list_fmap. apply nids_elem. eauto. }
  pose proof (si_nets _ _ HS) as Hnets. pose proof (si_dups _ _ HS) as Hdups. rewrite Hd0 in Hdups. simpl in Hdups.
  set (ns := h_nets (sort_vertices H)) in *. rewrite (ss_dups _ _ Hsh) in Hdups.
  assert (∀ n, n ∈ ns → ∃ n', n' ∈ h_nets H3 ∧ n_id n' = n_id n ∧ n_verts n' ≡ₚ n_verts n ∧
     n_cost n' = n_cost n ∧ (n_gsize n' = n_gsize n ∨ n_gsize n' = 0)) as Hto.
  { intros n Hn. destruct (decide (is_kept ns n)) as [Hk|Hk].
    - assert (merged ns n ∈ h_nets H') as Hm.
      { rewrite Hnets. apply elem_of_list_fmap_1. by apply elem_of_list_filter. }
      apply elem_of_list_lookup in Hm as [i Hi].
      destruct (Forall2_lookup_l _ _ _ _ _ (ss_nets _ _ Hsh) Hi) as (n2 & Hi2 & Hid & Hv & Hco & Hgs).
      unfold merged in Hid, Hv, Hco, Hgs. unfold is_kept in Hk. rewrite decide_True in Hid, Hv, Hco, Hgs by done.
      simpl in *. exists (reset_net (h_dups H2) n2). split_and!.
      + unfold H3, reset_state. simpl. apply elem_of_app. left. apply elem_of_list_fmap_1. by eapply elem_of_list_lookup_2.
      + done.
      + simpl. by rewrite Hv.
      + simpl. rewrite <-Hco, dup_maps_cost by done. pose proof (class_cost_split H n HC0 Hn Hk) as Hcc. cbv zeta in Hcc. change (h_nets (sort_vertices H)) with ns in Hcc. rewrite Hcc.
        rewrite Hdups, filter_fmap, <-list_fmap_compose. simpl. rewrite <-Hid.
        match goal with |- _ + zsum ?a - zsum ?b = _ => change b with a end. lia.
      + left. done.
    - exists (set_ngsize 0 n). split_and!; try done.
      + unfold H3, reset_state. simpl. apply elem_of_app. right. rewrite Hdups, <-list_fmap_compose.
        apply elem_of_list_fmap. exists n. split; [done|]. by apply elem_of_list_filter.
      + by right. }
  assert (∀ n', n' ∈ h_nets H3 → n_id n' ∈ nids H) as Hfrom.
  { intros n' Hn'. unfold H3, reset_state in Hn'. simpl in Hn'. apply elem_of_app in Hn' as [Hn'|Hn'].
    - apply elem_of_list_fmap in Hn' as (n2 & -> & [i Hi2]%elem_of_list_lookup). simpl.
      destruct (Forall2_lookup_r _ _ _ _ _ (ss_nets _ _ Hsh) Hi2) as (n1 & Hi & <- & _).
      apply elem_of_list_lookup_2 in Hi. rewrite Hnets in Hi.
      apply elem_of_list_fmap in Hi as (n & -> & [_ Hn]%elem_of_list_filter).
      assert (n_id (merged ns n) = n_id n) as -> by (unfold merged; by case_decide). by apply Hsort'.
    - rewrite Hdups, <-list_fmap_compose in Hn'. apply elem_of_list_fmap in Hn' as (n & -> & [_ Hn]%elem_of_list_filter).
      by apply (Hsort' n). }
  split.
  - done.
  - intros n Hn. destruct (Hto _ (Hsort n Hn)) as (n' & Hn' & Hid & Hv & Hc & Hg). exists n'.
    split_and!; try done. rewrite Hv. simpl. by rewrite merge_sort_perm.
  - intros n' Hn'. by apply Hfrom.
  - apply Forall2_same_length_lookup.
    assert (length (h_verts H3) = length (h_verts H)) as Hlen.
    { unfold H3. simpl. rewrite fmap_length, <-(Forall2_length _ _ _ (ss_verts _ _ Hsh)).
      symmetry. apply (Forall2_length _ _ _ (si_verts _ _ HS)). }
    split; [done|]. intros i v v3 Hv Hv3.
    destruct (Forall2_lookup_l _ _ _ _ _ (si_verts _ _ HS) Hv) as (v1 & Hv1 & E1 & E2 & E3 & E4).
    destruct (Forall2_lookup_l _ _ _ _ _ (ss_verts _ _ Hsh) Hv1) as (v2 & Hv2 & F1 & F2 & F3).
    unfold H3 in Hv3. simpl in Hv3. rewrite list_lookup_fmap, Hv2 in Hv3. simpl in Hv3.
    injection Hv3 as <-. simpl. split_and!; [congruence|congruence|].
    assert (v ∈ h_verts H) as Hvin by by eapply elem_of_list_lookup_2.
    assert (reset_vert (h_dups H2) v2 ∈ h_verts H3) as Hv3in.
    { unfold H3. simpl. apply elem_of_list_fmap_1. by eapply elem_of_list_lookup_2. }
    apply NoDup_Permutation.
    + apply (co_vnets _ HC3 _ Hv3in).
    + by apply (co_vnets _ HC0).
    + intros nid. rewrite elem_of_app, <-F2, E4, elem_of_list_filter. split.
      * intros [[_ ?]|Hin]; [done|]. apply elem_of_list_fmap in Hin as (d & -> & [Hin Hdin]%elem_of_list_filter).
        rewrite Hdups in Hdin. apply elem_of_list_fmap in Hdin as (n & -> & [_ Hn]%elem_of_list_filter). simpl in *.
        unfold ns in Hn. simpl in Hn. apply elem_of_list_fmap in Hn as (n0 & -> & Hn0). simpl in *.
        rewrite merge_sort_perm in Hin. rewrite <-F1, E1 in Hin. by apply (incidence_iff H).
      * intros Hin. destruct (co_inc1 _ HC0 _ _ Hvin Hin) as (n & Hn & <- & Hvn).
        set (rem := filter (λ n0, ¬ is_kept ns n0) ns).
        destruct (decide (n_id n ∈ n_id <$> rem)) as [Hr|Hr]; [|by left]. right.
        apply elem_of_list_fmap in Hr as (n0 & Hid & Hn0). rewrite Hdups. fold rem.
        apply elem_of_list_fmap. exists (n0, kept_id ns n0). split; [done|]. apply elem_of_list_filter.
        split; [|apply elem_of_list_fmap; eauto]. simpl.
        apply elem_of_list_filter in Hn0 as [_ Hn0].
        assert (n0 = set_nverts (merge_sort Z.le (n_verts n)) n) as ->.
        { eapply (nmap_ok_elem_eq (sort_vertices H)); [by apply co_nmap_ok|done|by apply Hsort|done]. }
        simpl. rewrite merge_sort_perm, <-F1, E1. done.
  - unfold H3. simpl. rewrite <-list_fmap_compose. done.
Qed.

Lemma wpe_simplify_reset E H H' H2 (Q : hg → Prop) :
  consistent H → small_costs H → h_dups H = [] → simplified H H' → same_shape H' H2 →
  (∀ H3, restored H H2 H3 → Q H3) → wpe E (reset_duplicate_nets H2) Q.
Proof.
  intros HC Hsm Hd HS Hsh HQ.
  assert (consistent H2) as HC2 by (eapply same_shape_consistent; [done|apply HS]).
  assert (consistent (sort_vertices H)) as HCs by (eapply same_shape_consistent; [apply sort_vertices_shape|done]).
  assert (nids H2 = nids H') as Hn2 by (symmetry; by apply same_shape_nids).
  assert (vids H2 = vids H) as Hv2.
  { rewrite <-(same_shape_vids _ _ Hsh). unfold vids. pose proof (si_verts _ _ HS) as Hf2.
    clear -Hf2. induction Hf2 as [|v v' l l' (E1 & _) _ IH]; [done|]. csimpl. congruence. }
  assert (h_dups H2 = (λ n, (n, kept_id (h_nets (sort_vertices H)) n)) <$>
              filter (λ n, ¬ is_kept (h_nets (sort_vertices H)) n) (h_nets (sort_vertices H))) as Hdups.
  { rewrite <-(ss_dups _ _ Hsh), (si_dups _ _ HS), Hd. done. }
  apply wpe_reset_duplicate_nets; [done|..].
  - rewrite Hdups, <-list_fmap_compose. change ((λ d, n_id d.1) ∘ _) with n_id. apply NoDup_fmap_filter.
    apply (co_nid _ HCs).
  - intros d Hdin. rewrite Hdups in Hdin. apply elem_of_list_fmap in Hdin as (n & -> & [Hk Hn]%elem_of_list_filter).
    cbn [fst snd]. split_and!.
    + rewrite Hn2. unfold nids. rewrite (si_nets _ _ HS). intros (n' & Heq & Hn')%elem_of_list_fmap.
      apply elem_of_list_fmap in Hn' as (m & -> & [Hkm Hm]%elem_of_list_filter).
      assert (n_id n = n_id m) as Hid by (rewrite Heq; unfold merged; by case_decide).
      assert (n = m) as -> by (eapply (nmap_ok_elem_eq (sort_vertices H)); [by apply co_nmap_ok|done..]). done.
    + rewrite Hn2. unfold nids. rewrite (si_nets _ _ HS).
      destruct (kept_id_spec _ n Hn) as (r & Hr & Hv & Hkr). rewrite Hkr. apply elem_of_list_fmap.
      exists (merged (h_nets (sort_vertices H)) r). split; [unfold merged; by case_decide|].
      apply elem_of_list_fmap_1, elem_of_list_filter. split; [|done].
      unfold is_kept. by rewrite (kept_id_ext _ r n).
    + by apply (co_nverts _ HCs).
    + intros u Hu. rewrite Hv2. by eapply (net_in_vids (sort_vertices H)) in Hu.
  - intros m HC3. apply HQ. by eapply simplified_restored.
Qed.
