(** Basic facts about hypergraphs: id maps, accessors, parts, cuts. *)
From Verif Require Export ListLemmas.

(** ** exact id maps *)
Definition ids_ok (ids : list Z) (m : gmap Z nat) : Prop :=
  ∀ id i, m !! id = Some i ↔ ids !! i = Some id.

Lemma ids_ok_NoDup ids m : ids_ok ids m → NoDup ids.
Proof.
  intros H. apply NoDup_alt. intros i j id Hi%H Hj%H. congruence.
Qed.

Lemma index_map_snoc l x : index_map (l ++ [x]) = <[x := length l]> (index_map l).
Proof.
  unfold index_map. rewrite imap_app, foldl_app. simpl. f_equal. lia.
Qed.

Lemma ids_ok_snoc ids m id :
  ids_ok ids m → id ∉ ids → ids_ok (ids ++ [id]) (<[id := length ids]> m).
Proof.
  intros Hm Hid id' i. rewrite lookup_insert_Some, (Hm id' i).
  rewrite lookup_app_Some, list_lookup_singleton_Some. split.
  - intros [[<- <-]|[Hne Hi]]; [right; split; [lia|split; [lia|done]]|by left].
  - intros [Hi|(? & ? & <-)].
    + right. split; [|done]. intros ->. apply elem_of_list_lookup_2 in Hi. done.
    + left. split; [done|lia].
Qed.

Lemma ids_ok_index_map ids : NoDup ids → ids_ok ids (index_map ids).
Proof.
  induction ids as [|x l IH] using rev_ind; intros Hnd.
  - intros id i. unfold index_map. simpl. rewrite lookup_empty, lookup_nil. done.
  - apply NoDup_app in Hnd as (Hnd & Hx & _). rewrite index_map_snoc.
    apply ids_ok_snoc; [by apply IH|]. intros Hin. apply (Hx x Hin). set_solver.
Qed.

Lemma swap_pop_fmap {A B} (f : A → B) (l : list A) i :
  f <$> swap_pop l i = swap_pop (f <$> l) i.
Proof.
  unfold swap_pop. rewrite fmap_last. destruct (last l) as [x|]; [|done]. simpl.
  by rewrite fmap_take, list_fmap_insert, fmap_length.
Qed.

Lemma ids_ok_swap_pop ids m i id id' :
  ids_ok ids m → ids !! i = Some id → id' = default id (swap_pop ids i !! i) →
  ids_ok (swap_pop ids i) (delete id (<[id' := i]> m)).
Proof.
  intros Hm Hi ->. pose proof (ids_ok_NoDup _ _ Hm) as Hnd.
  pose proof (lookup_lt_Some _ _ _ Hi) as Hlt.
  assert (∀ j x, ids !! j = Some x → x = id → j = i) as Hinj.
  { intros j x Hj ->. by eapply NoDup_lookup. }
  intros x j. rewrite lookup_delete_Some, lookup_insert_Some, (Hm x j).
  rewrite !swap_pop_lookup by done. rewrite (decide_True (P:=i=i)) by done.
  destruct (lookup_lt_is_Some_2 ids (length ids - 1)) as [y Hy]; [lia|].
  destruct (decide (S i < length ids)%nat) as [Hi'|Hi'].
  - rewrite Hy. simpl. split.
    + intros (Hne & [[<- <-]|[Hyx Hj]]).
      * rewrite decide_True by lia. rewrite decide_True by done. done.
      * pose proof (lookup_lt_Some _ _ _ Hj).
        destruct (decide (S j < length ids)%nat).
        -- destruct (decide (i = j)) as [->|]; [congruence|done].
        -- assert (j = length ids - 1)%nat as -> by lia. congruence.
    + destruct (decide (S j < length ids)%nat); [|done].
      destruct (decide (i = j)) as [<-|Hij]; intros Hj.
      * assert (y = x) as -> by congruence. split; [|by left].
        intros <-. assert (length ids - 1 = i)%nat by eauto. lia.
      * split; [intros <-; apply Hij; symmetry; eauto|]. right. split; [|done].
        intros <-. assert (j = length ids - 1)%nat by (by eapply NoDup_lookup). lia.
  - simpl. assert (i = length ids - 1)%nat as -> by lia.
    split.
    + intros (Hne & [[<- ?]|[Hyx Hj]]); [done|].
      pose proof (lookup_lt_Some _ _ _ Hj).
      destruct (decide (S j < length ids)%nat).
      * rewrite decide_False by lia. done.
      * assert (j = length ids - 1)%nat as -> by lia. congruence.
    + destruct (decide (S j < length ids)%nat); [|done].
      rewrite decide_False by lia. intros Hj.
      assert (id ≠ x) by (intros <-; assert (j = length ids - 1)%nat by eauto; lia).
      split; [done|]. right. done.
Qed.

(** ** consistency in terms of [ids_ok] *)
Definition vids (H : hg) : list Z := v_id <$> h_verts H.
Definition nids (H : hg) : list Z := n_id <$> h_nets H.
Definition vmap_ok (H : hg) : Prop := ids_ok (vids H) (h_vmap H).
Definition nmap_ok (H : hg) : Prop := ids_ok (nids H) (h_nmap H).

Lemma co_vmap_ok H : consistent H → vmap_ok H.
Proof.
  intros HC id i. rewrite (co_vmap _ HC). unfold vids. rewrite list_lookup_fmap.
  destruct (h_verts H !! i); simpl; naive_solver.
Qed.
Lemma co_nmap_ok H : consistent H → nmap_ok H.
Proof.
  intros HC id i. rewrite (co_nmap _ HC). unfold nids. rewrite list_lookup_fmap.
  destruct (h_nets H !! i); simpl; naive_solver.
Qed.

Lemma consistent_intro H :
  vmap_ok H → nmap_ok H →
  (∀ v, v ∈ h_verts H → NoDup (v_nets v)) →
  (∀ n, n ∈ h_nets H → NoDup (n_verts n)) →
  (∀ v nid, v ∈ h_verts H → nid ∈ v_nets v →
     ∃ n, n ∈ h_nets H ∧ n_id n = nid ∧ v_id v ∈ n_verts n) →
  (∀ n vid, n ∈ h_nets H → vid ∈ n_verts n →
     ∃ v, v ∈ h_verts H ∧ v_id v = vid ∧ n_id n ∈ v_nets v) →
  consistent H.
Proof.
  intros Hv Hn ????. split; try done.
  - by eapply ids_ok_NoDup.
  - by eapply ids_ok_NoDup.
  - intros id i. rewrite (Hv id i). unfold vids. rewrite list_lookup_fmap.
    destruct (h_verts H !! i); simpl; naive_solver.
  - intros id i. rewrite (Hn id i). unfold nids. rewrite list_lookup_fmap.
    destruct (h_nets H !! i); simpl; naive_solver.
Qed.

Lemma vmap_ok_ids H H' : vids H' = vids H → h_vmap H' = h_vmap H → vmap_ok H → vmap_ok H'.
Proof. unfold vmap_ok. by intros -> ->. Qed.
Lemma nmap_ok_ids H H' : nids H' = nids H → h_nmap H' = h_nmap H → nmap_ok H → nmap_ok H'.
Proof. unfold nmap_ok. by intros -> ->. Qed.

Lemma vmap_ok_lookup H i v : vmap_ok H → h_verts H !! i = Some v → h_vmap H !! v_id v = Some i.
Proof. intros HV Hi. apply HV. unfold vids. by rewrite list_lookup_fmap, Hi. Qed.
Lemma nmap_ok_lookup H i n : nmap_ok H → h_nets H !! i = Some n → h_nmap H !! n_id n = Some i.
Proof. intros HV Hi. apply HV. unfold nids. by rewrite list_lookup_fmap, Hi. Qed.

Lemma vmap_ok_inv H i id : vmap_ok H → h_vmap H !! id = Some i →
  ∃ v, h_verts H !! i = Some v ∧ v_id v = id.
Proof.
  intros HV Hi%HV. unfold vids in Hi. rewrite list_lookup_fmap in Hi.
  destruct (h_verts H !! i); simplify_eq/=; eauto.
Qed.
Lemma nmap_ok_inv H i id : nmap_ok H → h_nmap H !! id = Some i →
  ∃ n, h_nets H !! i = Some n ∧ n_id n = id.
Proof.
  intros HV Hi%HV. unfold nids in Hi. rewrite list_lookup_fmap in Hi.
  destruct (h_nets H !! i); simplify_eq/=; eauto.
Qed.

(** ids identify *)
Lemma vmap_ok_elem_eq H v v' : vmap_ok H → v ∈ h_verts H → v' ∈ h_verts H → v_id v = v_id v' → v = v'.
Proof. intros HV. apply NoDup_fmap_elem. by eapply ids_ok_NoDup. Qed.
Lemma nmap_ok_elem_eq H n n' : nmap_ok H → n ∈ h_nets H → n' ∈ h_nets H → n_id n = n_id n' → n = n'.
Proof. intros HV. apply NoDup_fmap_elem. by eapply ids_ok_NoDup. Qed.

(** ** accessors *)
Section accessors.
  Context (E : err → Prop).

  Lemma wpe_local_id H i v (Q : nat → Prop) :
    vmap_ok H → h_verts H !! i = Some v → Q i → wpe E (local_id H (v_id v)) Q.
  Proof.
    intros HV Hi HQ. apply wpe_bind.
    eapply wpe_of_option_Some; [by apply vmap_ok_lookup|].
    apply wpe_bind, wpe_assert; [|by apply wpe_ret].
    apply bool_decide_eq_true. by eapply lookup_lt_Some.
  Qed.

  Lemma wpe_vert H v (Q : vertex → Prop) :
    vmap_ok H → v ∈ h_verts H → Q v → wpe E (vert H (v_id v)) Q.
  Proof.
    intros HV [i Hi]%elem_of_list_lookup HQ. apply wpe_bind.
    eapply wpe_local_id; [done..|]. by eapply wpe_of_option_Some.
  Qed.

  Lemma wpe_local_id_net H i n (Q : nat → Prop) :
    nmap_ok H → h_nets H !! i = Some n → Q i → wpe E (local_id_net H (n_id n)) Q.
  Proof. intros HV Hi HQ. eapply wpe_of_option_Some; [by apply nmap_ok_lookup|done]. Qed.

  Lemma wpe_get_net H n (Q : net → Prop) :
    nmap_ok H → n ∈ h_nets H → Q n → wpe E (get_net H (n_id n)) Q.
  Proof.
    intros HV [i Hi]%elem_of_list_lookup HQ. apply wpe_bind.
    eapply wpe_of_option_Some; [by apply nmap_ok_lookup|]. by eapply wpe_of_option_Some.
  Qed.

  Lemma wpe_upd_net_id H i n f (Q : hg → Prop) :
    nmap_ok H → h_nets H !! i = Some n → Q (upd_net i f H) → wpe E (upd_net_id H (n_id n) f) Q.
  Proof.
    intros HV Hi HQ. apply wpe_bind.
    eapply wpe_of_option_Some; [by apply nmap_ok_lookup|].
    apply wpe_bind, wpe_assert; [|by apply wpe_ret].
    apply bool_decide_eq_true. by eapply lookup_lt_Some.
  Qed.
End accessors.

(** partial-correctness inversions: what a successful access tells *)
Lemma wlp_local_id (E : err → Prop) H id (Q : nat → Prop) :
  E Abort → (∀ i v, h_vmap H !! id = Some i → h_verts H !! i = Some v → Q i) →
  wpe E (local_id H id) Q.
Proof.
  intros HE HQ. apply wpe_bind, wpe_of_option; [|done]. intros i Hi.
  apply wpe_bind. unfold assertM. case_bool_decide as Hlt; [|by apply wpe_fail].
  apply wpe_ret. apply wpe_ret. apply lookup_lt_is_Some in Hlt as [v Hv]. by eapply HQ.
Qed.

(** ** record projections of updates *)
Lemma alter_fmap_id {A B} (f : A → A) (g : A → B) (i : nat) (l : list A) :
  (∀ x, g (f x) = g x) → g <$> alter f i l = g <$> l.
Proof.
  intros Hg. revert i; induction l as [|x l IH]; intros [|i]; csimpl; try done.
  - by rewrite Hg.
  - f_equal. apply IH.
Qed.

Lemma elem_of_alter {A} (f : A → A) (i : nat) (l : list A) y :
  y ∈ alter f i l ↔ ∃ j x, l !! j = Some x ∧ y = if decide (j = i) then f x else x.
Proof.
  rewrite elem_of_list_lookup. split.
  - intros [j Hj]. destruct (decide (j = i)) as [->|Hne].
    + rewrite list_lookup_alter in Hj. destruct (l !! i) as [x|] eqn:Hx; simplify_eq/=.
      exists i, x. by rewrite decide_True.
    + rewrite list_lookup_alter_ne in Hj by done. exists j, y. by rewrite decide_False.
  - intros (j & x & Hj & ->). exists j. destruct (decide (j = i)) as [->|Hne].
    + by rewrite list_lookup_alter, Hj.
    + by rewrite list_lookup_alter_ne.
Qed.

Lemma alter_eq_fmap {A} (f : A → A) (key : A → Z) (l : list A) (i : nat) x :
  NoDup (key <$> l) → l !! i = Some x →
  alter f i l = (λ y, if decide (key y = key x) then f y else y) <$> l.
Proof.
  intros Hnd Hi. apply list_eq. intros j. rewrite list_lookup_fmap.
  destruct (decide (i = j)) as [<-|Hne].
  - rewrite list_lookup_alter, Hi. simpl. by rewrite decide_True.
  - rewrite list_lookup_alter_ne by done. destruct (l !! j) as [y|] eqn:Hj; [|done]. simpl.
    rewrite decide_False; [done|]. intros Hk. apply Hne.
    symmetry. by eapply NoDup_fmap_inj.
Qed.

(** ** parts and weights by id *)
Lemma part_of_elem H v : NoDup (vids H) → v ∈ h_verts H → part_of H (v_id v) = v_part v.
Proof.
  intros Hnd Hv. unfold part_of. destruct (list_find_id v_id _ v Hnd Hv) as [i ->]. done.
Qed.
Lemma weight_of_elem H v : NoDup (vids H) → v ∈ h_verts H → weight_of H (v_id v) = v_weight v.
Proof.
  intros Hnd Hv. unfold weight_of. destruct (list_find_id v_id _ v Hnd Hv) as [i ->]. done.
Qed.
Lemma part_of_absent H id : id ∉ vids H → part_of H id = -1.
Proof.
  intros Hid. unfold part_of. destruct (list_find _ _) as [[i v]|] eqn:Hf; [|done].
  apply list_find_Some in Hf as (Hi & <- & _). destruct Hid. unfold vids.
  apply elem_of_list_fmap. exists v. split; [done|]. by eapply elem_of_list_lookup_2.
Qed.
Lemma vids_elem H id : id ∈ vids H ↔ ∃ v, v ∈ h_verts H ∧ v_id v = id.
Proof. unfold vids. rewrite elem_of_list_fmap. naive_solver. Qed.
Lemma nids_elem H id : id ∈ nids H ↔ ∃ n, n ∈ h_nets H ∧ n_id n = id.
Proof. unfold nids. rewrite elem_of_list_fmap. naive_solver. Qed.

(** [part_of] only depends on the ids and parts of the vertices. *)
Lemma part_of_ext H H' :
  (λ v, (v_id v, v_part v)) <$> h_verts H = (λ v, (v_id v, v_part v)) <$> h_verts H' →
  ∀ id, part_of H id = part_of H' id.
Proof.
  unfold part_of. generalize (h_verts H) as l, (h_verts H') as l'. clear.
  intros l. induction l as [|v l IH]; intros [|v' l'] Heq id; try done.
  csimpl in Heq. injection Heq as Hid Hp Heq. simpl. rewrite Hid. destruct (decide (v_id v' = id)); [done|].
  specialize (IH _ Heq id).
  destruct (list_find _ l) as [[]|], (list_find _ l') as [[]|]; simpl in *; try done.
Qed.

(** ** cut facts *)
Lemma parts_touched_perm σ vs vs' : vs ≡ₚ vs' → parts_touched σ vs = parts_touched σ vs'.
Proof. intros Hp. unfold parts_touched. apply leibniz_equiv. by rewrite Hp. Qed.
Lemma parts_touched_ext σ σ' vs : (∀ u, u ∈ vs → σ u = σ' u) →
  parts_touched σ vs = parts_touched σ' vs.
Proof.
  intros Hs. unfold parts_touched. f_equal. apply list_fmap_ext.
  intros i u Hu. apply Hs. by eapply elem_of_list_lookup_2.
Qed.
Lemma parts_touched_elem σ vs p : p ∈ parts_touched σ vs ↔ ∃ u, u ∈ vs ∧ σ u = p.
Proof. unfold parts_touched. rewrite elem_of_list_to_set, elem_of_list_fmap. naive_solver. Qed.
Lemma lambda_perm σ vs vs' : vs ≡ₚ vs' → lambda σ vs = lambda σ vs'.
Proof. intros. unfold lambda. by erewrite parts_touched_perm. Qed.
Lemma lambda_ext σ σ' vs : (∀ u, u ∈ vs → σ u = σ' u) → lambda σ vs = lambda σ' vs.
Proof. intros. unfold lambda. by erewrite parts_touched_ext. Qed.
Lemma lambda_nonneg σ vs : 0 ≤ lambda σ vs.
Proof. unfold lambda. lia. Qed.
Lemma parts_touched_nil σ : parts_touched σ [] = ∅.
Proof. done. Qed.
Lemma lambda_nil σ : lambda σ [] = 0.
Proof. unfold lambda. by rewrite parts_touched_nil, size_empty. Qed.
Lemma lambda_pos σ vs : vs ≠ [] → 0 < lambda σ vs.
Proof.
  intros Hne. unfold lambda. destruct vs as [|u vs]; [done|].
  assert (size (parts_touched σ (u :: vs)) ≠ 0)%nat; [|lia].
  apply size_non_empty_iff. unfold parts_touched. set_solver.
Qed.
(** "More than one part" means two vertices in different parts. *)
Lemma lambda_gt_1 σ vs : 1 < lambda σ vs ↔ ∃ u v, u ∈ vs ∧ v ∈ vs ∧ σ u ≠ σ v.
Proof.
  unfold lambda. split.
  - intros Hs. destruct vs as [|u vs]; [change (parts_touched σ []) with (∅ : gset Z) in Hs; rewrite size_empty in Hs; lia|].
    destruct (decide (Forall (λ v, σ v = σ u) vs)) as [Hall|Hnot].
    + exfalso. rewrite Forall_forall in Hall.
      assert (parts_touched σ (u :: vs) = {[σ u]}) as Heq.
      { apply set_eq. intros p. rewrite parts_touched_elem, elem_of_singleton. split.
        - intros (v & [->|Hv]%elem_of_cons & <-); [done|by apply Hall].
        - intros ->. exists u. set_solver. }
      rewrite Heq, size_singleton in Hs. lia.
    + apply not_Forall_Exists in Hnot; [|apply _].
      apply Exists_exists in Hnot as (v & Hv & Hne). simpl in Hne.
      exists v, u. set_solver.
  - intros (u & v & Hu & Hv & Hne).
    assert (2 ≤ size (parts_touched σ vs))%nat; [|lia].
    rewrite <-(size_singleton (C:=gset Z) (σ u)) at 1.
    assert (size ({[σ u; σ v]} : gset Z) = 2%nat) as Hs2.
    { rewrite size_union, !size_singleton by set_solver. done. }
    change (S (size ({[σ u]} : gset Z)) ≤ size (parts_touched σ vs))%nat.
    rewrite size_singleton, <-Hs2. apply subseteq_size.
    intros p Hp. apply parts_touched_elem.
    apply elem_of_union in Hp as [->%elem_of_singleton| ->%elem_of_singleton]; eauto.
Qed.

Global Instance cut_net_size_proper : Proper ((≡ₚ) ==> (=) ==> (=)) cut_net_size.
Proof. intros ns ns' Hp σ ? <-. unfold cut_net_size. by rewrite Hp. Qed.
Global Instance lambda_size_proper : Proper ((≡ₚ) ==> (=) ==> (=)) lambda_size.
Proof. intros ns ns' Hp σ ? <-. unfold lambda_size. by rewrite Hp. Qed.

(** Pointwise equality of net lists up to the order inside nets, and agreement of the assignments. *)
Lemma cut_net_size_Forall2 ns ns' σ σ' :
  Forall2 (λ a b, fst a = fst b ∧ snd a ≡ₚ snd b) ns ns' →
  (∀ a u, a ∈ ns → u ∈ snd a → σ u = σ' u) →
  cut_net_size ns σ = cut_net_size ns' σ'.
Proof.
  unfold cut_net_size. induction 1 as [|[c vs] [c' vs'] ns ns' [Hc Hp] _ IH]; intros Hs; [done|].
  csimpl in *. rewrite IH by (intros; eapply Hs; set_solver). f_equal. subst c'.
  rewrite (lambda_ext σ σ' vs), (lambda_perm σ' vs vs' Hp); [done|].
  intros u Hu. apply (Hs (c, vs)); set_solver.
Qed.
Lemma lambda_size_Forall2 ns ns' σ σ' :
  Forall2 (λ a b, fst a = fst b ∧ snd a ≡ₚ snd b) ns ns' →
  (∀ a u, a ∈ ns → u ∈ snd a → σ u = σ' u) →
  lambda_size ns σ = lambda_size ns' σ'.
Proof.
  unfold lambda_size. induction 1 as [|[c vs] [c' vs'] ns ns' [Hc Hp] _ IH]; intros Hs; [done|].
  csimpl in *. rewrite IH by (intros; eapply Hs; set_solver). f_equal. subst c'.
  rewrite (lambda_ext σ σ' vs), (lambda_perm σ' vs vs' Hp).
  - destruct (decide (vs = [])), (decide (vs' = [])); try done; subst.
    + by apply Permutation_nil_l in Hp.
    + by apply Permutation_nil_r in Hp.
  - intros u Hu. apply (Hs (c, vs)); set_solver.
Qed.

(** For 0/1 assignments the two metrics coincide, and both are given by counts. *)
Lemma lambda_01 σ vs :
  (∀ u, u ∈ vs → σ u = 0 ∨ σ u = 1) →
  lambda σ vs = (if decide (0 < zcount (λ u, σ u = 0) vs) then 1 else 0)
              + (if decide (0 < zcount (λ u, σ u = 1) vs) then 1 else 0).
Proof.
  intros Hs. unfold lambda.
  assert (parts_touched σ vs =
    (if decide (0 < zcount (λ u, σ u = 0) vs) then {[0]} else ∅) ∪
    (if decide (0 < zcount (λ u, σ u = 1) vs) then {[1]} else ∅)) as ->.
  { apply set_eq. intros p. rewrite parts_touched_elem, elem_of_union.
    destruct (decide (0 < zcount (λ u, σ u = 0) vs)) as [H0|H0];
    destruct (decide (0 < zcount (λ u, σ u = 1) vs)) as [H1|H1];
    rewrite zcount_pos in H0, H1; rewrite ?elem_of_singleton, ?elem_of_empty;
    (split; [intros (u & Hu & <-); destruct (Hs u Hu); naive_solver
            |naive_solver]). }
  repeat case_decide; rewrite ?size_union by set_solver;
    rewrite ?size_singleton, ?size_empty; done.
Qed.
