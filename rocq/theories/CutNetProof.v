(** Proofs about remove_cut_nets and add_cut_nets with one processor. *)
From Verif Require Export Recursive BisectProof.

(** what is kept of a net: id, vertices and cost *)
Definition core (n : net) : net := Net (n_id n) (n_verts n) (n_cost n) 0.
(** the nets that remove_cut_nets takes out *)
Definition wide (n : net) : Prop := (2 ≤ length (n_verts n))%nat.
Global Instance wide_dec n : Decision (wide n).
Proof. unfold wide. apply _. Defined.
Global Typeclasses Opaque wide.

Lemma wpe_net_is_cut (E : err → Prop) H n (Q : bool → Prop) : consistent H → n ∈ h_nets H → (n_verts n = [] → E UB) →
  (n_verts n ≠ [] → Q (bool_decide (wide n))) → wpe E (net_is_cut H n) Q.
Proof.
  intros HC Hn HE HQ. unfold net_is_cut. pose proof (co_nverts _ HC n Hn) as Hnd.
  destruct (n_verts n) as [|u us] eqn:Hus. { apply wpe_bind. simpl. apply wpe_fail. by apply HE. }
  assert (∀ x, x ∈ u :: us → x ∈ vids H) as Hin. { intros x Hx. eapply net_in_vids; [done|exact Hn|]. by rewrite Hus. }
  apply wpe_bind. eapply wpe_nidx; [done|].
  apply wpe_bind. apply wpe_vert_id; [by apply co_vmap_ok|apply Hin; set_solver|]. intros v0 Hv0 Hid0 _.
  eapply (wpe_foldM E _ (λ ds b, b = bool_decide (Exists (λ x, x ≠ u) ds))).
  - symmetry. apply bool_decide_false. intros Hx. by apply Exists_nil in Hx.
  - intros ds x ts b Heq ->. destruct (bool_decide_reflect (Exists (λ x, x ≠ u) ds)) as [Hb|Hb].
    + apply wpe_ret. cbv beta. symmetry. apply bool_decide_true. apply Exists_app. by left.
    + apply wpe_bind, wpe_vert_id; [by apply co_vmap_ok|apply Hin; rewrite Heq; set_solver|]. intros v Hv Hid _. apply wpe_ret. cbv beta.
      rewrite Hid0, Hid. apply bool_decide_ext. rewrite Exists_app, Exists_cons, Exists_nil. naive_solver.
  - intros b ->. assert (bool_decide (Exists (λ x, x ≠ u) (u :: us)) = bool_decide (wide n)) as ->; [|by apply HQ]. apply bool_decide_ext. unfold wide. rewrite Hus. simpl. split.
    + intros (x & Hx & Hne)%Exists_exists. destruct us; [set_solver|simpl; lia].
    + intros Hl. destruct us as [|y us]; [simpl in Hl; lia|]. apply Exists_exists. exists y. split; [set_solver|]. apply NoDup_cons in Hnd as [Hnd _]. set_solver.
Qed.

Lemma zip_filter_bool {A} (P : A → Prop) `{∀ x, Decision (P x)} (l : list A) (bs : list bool) : bs = (λ x, bool_decide (P x)) <$> l →
  snd <$> filter (λ x : bool * A, fst x = true) (zip bs l) = filter P l.
Proof.
  intros ->. induction l as [|x l IH]; [done|]. csimpl. rewrite !filter_cons. cbn [fst]. destruct (decide (P x)) as [Hp|Hp].
  - rewrite decide_True by (by apply bool_decide_eq_true). csimpl. by rewrite IH.
  - rewrite decide_False by (by rewrite bool_decide_eq_true). done.
Qed.

Lemma exchange1 {A} E (out : list (Z * A)) (Q : list (list A) → Prop) : (∀ m, m ∈ out → fst m = 0) →
  (∀ box, box ≡ₚ snd <$> out → Q [box]) → wpe E (exchange [out]) Q.
Proof.
  intros Hd HQ. apply wpe_exchange.
  { intros m. simpl. rewrite app_nil_r. intros Hm. rewrite (Hd m Hm). lia. }
  intros ins Hl Hbox. destruct ins as [|box [|]]; try done. apply HQ. rewrite (Hbox 0%nat box) by done. simpl. rewrite app_nil_r.
  rewrite filter_all; [done|]. intros m Hm. by apply Hd.
Qed.

Lemma nets_removed_ext ids ids' H H' : (∀ x, x ∈ ids ↔ x ∈ ids') → nets_removed ids H H' → nets_removed ids' H H'.
Proof.
  intros Hi [R1 R2 R3 R4 R5]. split; [| |done..].
  - rewrite R1. apply reflexive_eq, HgMore.filter_ext. intros n _. by rewrite Hi.
  - eapply Forall2_impl; [exact R2|]. cbn beta. intros v v' (E1 & E2 & E3 & E4). split_and!; [done..|]. rewrite E4.
    apply reflexive_eq, HgMore.filter_ext. intros n _. by rewrite Hi.
Qed.
Lemma perm_of_ids (ns ns' : list net) l : NoDup (n_id <$> l) → (∀ n, n ∈ ns → n ∈ l) → (∀ n, n ∈ ns' → n ∈ l) →
  n_id <$> ns ≡ₚ n_id <$> ns' → ns ≡ₚ ns'.
Proof.
  intros Hnd H1 H2 Hp.
  assert (∀ a b, a ∈ l → b ∈ l → n_id a = n_id b → a = b) as Hinj.
  { intros a b [i Hi]%elem_of_list_lookup [j Hj]%elem_of_list_lookup Hab.
    assert (i = j) as -> by (eapply (NoDup_fmap_inj n_id l); done). congruence. }
  revert ns' H1 H2 Hp. induction ns as [|n ns IH]; intros ns' H1 H2 Hp.
  - csimpl in Hp. apply Permutation_nil_l in Hp. symmetry in Hp. apply fmap_nil_inv in Hp as ->. done.
  - csimpl in Hp. assert (n_id n ∈ n_id <$> ns') as (m & Hm & Hm')%elem_of_list_fmap by (rewrite <-Hp; set_solver).
    assert (n = m) as -> by (apply Hinj; [apply H1; set_solver|by apply H2|done]).
    apply elem_of_Permutation in Hm' as [ns'' Hp']. rewrite Hp'. f_equiv. apply IH; [set_solver| |].
    + intros x Hx. apply H2. rewrite Hp'. set_solver.
    + rewrite Hp' in Hp. csimpl in Hp. by apply Permutation_cons_inv in Hp.
Qed.

Lemma wpe_remove_cut_nets (E : err → Prop) H cut (Q : hg * list net → Prop) : consistent H → ((∃ n, n ∈ h_nets H ∧ n_verts n = []) → E UB) →
  (∀ H' add, nets_removed (n_id <$> filter wide (h_nets H)) H H' → consistent H' → h_vmap H' = h_vmap H → h_dups H' = h_dups H →
     add ≡ₚ core <$> filter wide (h_nets H) → (∀ n, n ∈ h_nets H → n_verts n ≠ []) → Q (H', cut ++ add)) →
  wpe E (remove_cut_nets H cut) Q.
Proof.
  intros HC HE HQ. unfold remove_cut_nets. apply wpe_bind.
  apply (wpe_mapP E _ (λ _ n b, b = bool_decide (wide n) ∧ n_verts n ≠ [])).
  { intros i n Hi%elem_of_list_lookup_2. apply wpe_net_is_cut; [done|done|intros ?; apply HE; eauto|done]. }
  intros bs Hl Hbs. assert (bs = (λ n, bool_decide (wide n)) <$> h_nets H) as Hbs'.
  { apply list_eq. intros i. rewrite list_lookup_fmap. destruct (h_nets H !! i) as [n|] eqn:Hi; simpl.
    - destruct (bs !! i) as [b|] eqn:Hb; [by destruct (Hbs i n b Hi Hb) as [-> _]|]. apply lookup_ge_None in Hb. apply lookup_lt_Some in Hi. lia.
    - apply lookup_ge_None. apply lookup_ge_None in Hi. lia. }
  assert (∀ n, n ∈ h_nets H → n_verts n ≠ []) as Hne.
  { intros n [i Hi]%elem_of_list_lookup. destruct (bs !! i) as [b|] eqn:Hb; [by eapply (Hbs i n b)|]. apply lookup_ge_None in Hb. apply lookup_lt_Some in Hi. lia. }
  cbv zeta. rewrite (zip_filter_bool wide _ _ Hbs'). apply wpe_bind, exchange1.
  { by intros m (n & -> & _)%elem_of_list_fmap. }
  intros box Hbox. rewrite <-list_fmap_compose in Hbox. change (box ≡ₚ n_id <$> filter wide (h_nets H)) in Hbox.
  apply wpe_bind. eapply wpe_nidx; [done|].
  assert (NoDup box) as Hnd. { rewrite Hbox. apply NoDup_fmap_filter, (co_nid _ HC). }
  assert (∀ id, id ∈ box → id ∈ nids H) as Hin.
  { intros id. rewrite Hbox. intros (n & -> & Hn)%elem_of_list_fmap. apply elem_of_list_filter in Hn as [_ Hn]. apply nids_elem. eauto. }
  eapply (wpe_foldM E _ (λ ds s, nets_removed ds H (fst s) ∧ consistent (fst s) ∧ h_vmap (fst s) = h_vmap H ∧ h_dups (fst s) = h_dups H ∧
     ∃ ns, snd s = cut ++ (core <$> ns) ∧ n_id <$> ns = ds ∧ ∀ n, n ∈ ns → n ∈ h_nets H)).
  - split; [apply nets_removed_refl|]. split; [done|]. split; [done|]. split; [done|]. exists []. split; [by rewrite app_nil_r|]. split; [done|set_solver].
  - intros ds id ts [H' c] Heq (HR & HC' & Hvm & Hd & ns & Hc & Hns & Hsub). cbn [fst snd] in *.
    assert (id ∈ nids H) as (n & Hn & <-)%nids_elem by (apply Hin; rewrite Heq; set_solver).
    assert (n ∈ h_nets H') as Hn'.
    { rewrite (nsr_nets _ _ _ HR). apply elem_of_list_filter. split; [|done].
      rewrite Heq in Hnd. apply NoDup_app in Hnd as (_ & Hnd & _). intros Hds. apply (Hnd _ Hds). set_solver. }
    assert (is_local_net H' (n_id n) = true) as Hloc.
    { unfold is_local_net. apply bool_decide_true. apply elem_of_list_lookup in Hn' as [i Hi]. exists i. apply (co_nmap _ HC'). eauto. }
    rewrite Hloc. apply wpe_bind, wpe_get_net; [by apply co_nmap_ok|done|].
    apply wpe_bind, wpe_remove_net; [done..|]. intros H'' HR' HC'' Hvm'. apply wpe_ret. cbn [fst snd].
    split; [|split; [done|split; [congruence|split]]].
    + eapply (nets_removed_snoc _ _ _ H'); [by apply co_nmap_ok|done..].
    + rewrite (nr_dups _ _ _ HR'). done.
    + exists (ns ++ [n]). rewrite Hc, !fmap_app, Hns, <-app_assoc. split; [done|]. split; [done|]. set_solver.
  - intros [H' c] (HR & HC' & Hvm & Hd & ns & Hc & Hns & Hsub). cbn [fst snd] in *. subst c. apply HQ; [|exact HC'|exact Hvm|exact Hd| |exact Hne].
    + eapply nets_removed_ext; [|exact HR]. intros x. by rewrite Hbox.
    + f_equiv. eapply (perm_of_ids _ _ (h_nets H)); [apply (co_nid _ HC)|done| |by rewrite Hns, Hbox].
      intros n Hn. by apply elem_of_list_filter in Hn as [_ Hn].
Qed.

(** add_cut_nets: nets with known vertices and new ids are appended; the vertices are not told *)
Lemma wpe_add_cut_nets E H cut (Q : hg → Prop) : consistent H → NoDup (nids H ++ (n_id <$> cut)) →
  (∀ n, n ∈ cut → n_verts n ≠ [] ∧ ∀ u, u ∈ n_verts n → u ∈ vids H) →
  (∀ H', h_verts H' = h_verts H → h_nets H' = h_nets H ++ (core <$> cut) → nmap_ok H' → h_vmap H' = h_vmap H → h_gsize H' = h_gsize H →
     h_gnets H' = h_gnets H → h_nz H' = h_nz H → Q H') →
  wpe E (add_cut_nets H cut) Q.
Proof.
  intros HC Hnd Hcut HQ. unfold add_cut_nets. apply wpe_bind.
  eapply (wpe_foldM E _ (λ ds s, snd s = [] ∧ h_verts (fst s) = h_verts H ∧ h_nets (fst s) = h_nets H ++ (core <$> ds) ∧ nmap_ok (fst s) ∧
    h_vmap (fst s) = h_vmap H ∧ h_gsize (fst s) = h_gsize H ∧ h_gnets (fst s) = h_gnets H ∧ h_nz (fst s) = h_nz H)).
  - cbn [fst snd]. rewrite app_nil_r. split_and!; try done. by apply co_nmap_ok.
  - intros ds n ts [H' out] Heq (Ho & Hv & Hn & Hm & Hvm & Hgs & Hgn & Hnz). cbn [fst snd] in *. apply wpe_ret. cbn [fst snd].
    destruct (Hcut n) as [Hne Hin]; [rewrite Heq; set_solver|].
    assert (∀ u, u ∈ n_verts n → is_local H' u = true) as Hloc.
    { intros u Hu. unfold is_local. apply bool_decide_true. rewrite Hvm. pose proof (Hin u Hu) as Hi. apply elem_of_list_lookup in Hi as [i Hi].
      unfold vids in Hi. rewrite list_lookup_fmap in Hi. destruct (h_verts H !! i) as [v|] eqn:Hvi; [|done]. injection Hi as <-.
      exists i. apply (co_vmap _ HC). eauto. }
    assert (filter (λ v, is_local H' v = true) (n_verts n) = n_verts n) as -> by (apply filter_all; done).
    assert (filter (λ v, is_local H' v = false) (n_verts n) = []) as ->.
    { apply filter_none. intros u Hu. rewrite Hloc; done. }
    destruct (n_verts n) as [|u us] eqn:Hus; [done|].
    assert (n_id n ∉ nids H') as Hid.
    { unfold nids. rewrite Hn, fmap_app, <-list_fmap_compose. change (n_id ∘ core) with n_id. rewrite Heq, fmap_app, fmap_cons, app_assoc in Hnd.
      apply NoDup_app in Hnd as (_ & Hnd & _). intros Hx. apply (Hnd _ Hx). set_solver. }
    unfold add_net. destruct (h_nmap H' !! n_id n) as [i|] eqn:Hi. { apply Hm in Hi. destruct Hid. by eapply elem_of_list_lookup_2. }
    rewrite Ho. split; [done|]. cbn [h_verts h_nets h_vmap h_gsize h_gnets h_nz with_nmap with_nets]. split; [done|]. split.
    { rewrite Hn, fmap_app, <-app_assoc. f_equal. f_equal. csimpl. f_equal. unfold core. by rewrite Hus. }
    split; [|done]. unfold nmap_ok, nids. cbn [h_nets h_nmap with_nmap with_nets]. rewrite fmap_app. csimpl.
    rewrite <-(fmap_length n_id). apply ids_ok_snoc; [done|done].
  - intros [H' out] (Ho & Hv & Hn & Hm & Hvm & Hgs & Hgn & Hnz). cbn [fst snd] in *. rewrite Ho. apply wpe_bind, exchange1; [set_solver|].
    intros box Hbox. apply Permutation_nil_r in Hbox as ->. apply wpe_bind. eapply wpe_nidx; [done|]. simpl. apply wpe_ret. by apply HQ.
Qed.
