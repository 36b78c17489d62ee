(** Auxiliary facts about lists, sums, lookups. *)
From Verif Require Export Hypergraph.

(** ** sums and counts *)
Lemma zsum_app l1 l2 : zsum (l1 ++ l2) = zsum l1 + zsum l2.
Proof. induction l1; simpl; lia. Qed.
Lemma zsum_cons x l : zsum (x :: l) = x + zsum l.
Proof. done. Qed.
Lemma zsum_perm l1 l2 : l1 ≡ₚ l2 → zsum l1 = zsum l2.
Proof. induction 1; simpl; lia. Qed.
Global Instance zsum_proper : Proper ((≡ₚ) ==> (=)) zsum.
Proof. intros ???. by apply zsum_perm. Qed.
Lemma zsum_nonneg l : (∀ x, x ∈ l → 0 ≤ x) → 0 ≤ zsum l.
Proof.
  induction l as [|x l IH]; csimpl; intros H; [done|].
  pose proof (H x ltac:(set_solver)). pose proof (IH ltac:(set_solver)). lia.
Qed.
Lemma zsum_fmap_ext {A} (f g : A → Z) l :
  (∀ x, x ∈ l → f x = g x) → zsum (f <$> l) = zsum (g <$> l).
Proof. intros H. f_equal. apply list_fmap_ext. intros i x Hi. apply H. by eapply elem_of_list_lookup_2. Qed.
Lemma zsum_fmap_add {A} (f g : A → Z) l :
  zsum ((λ x, f x + g x) <$> l) = zsum (f <$> l) + zsum (g <$> l).
Proof. induction l; csimpl; lia. Qed.
Lemma zsum_fmap_mul {A} c (f : A → Z) l :
  zsum ((λ x, c * f x) <$> l) = c * zsum (f <$> l).
Proof. induction l as [|x l IH]; csimpl; [lia|]. rewrite IH. lia. Qed.
Lemma zsum_fmap_le {A} (f g : A → Z) l :
  (∀ x, x ∈ l → f x ≤ g x) → zsum (f <$> l) ≤ zsum (g <$> l).
Proof.
  induction l as [|x l IH]; csimpl; intros H; [done|].
  pose proof (H x ltac:(set_solver)). pose proof (IH ltac:(set_solver)). lia.
Qed.
Lemma zsum_fmap_zero {A} (f : A → Z) l : (∀ x, x ∈ l → f x = 0) → zsum (f <$> l) = 0.
Proof.
  induction l as [|x l IH]; csimpl; intros H; [done|].
  rewrite (H x) by set_solver. rewrite IH by set_solver. done.
Qed.
Lemma zsum_replicate n c : zsum (replicate n c) = Z.of_nat n * c.
Proof. induction n; simpl; lia. Qed.
Lemma zsum_elem_le l x : (∀ y, y ∈ l → 0 ≤ y) → x ∈ l → x ≤ zsum l.
Proof.
  intros H Hx. apply elem_of_list_split in Hx as (l1 & l2 & ->).
  rewrite zsum_app, zsum_cons.
  assert (0 ≤ zsum l1) by (apply zsum_nonneg; set_solver).
  assert (0 ≤ zsum l2) by (apply zsum_nonneg; set_solver). lia.
Qed.

Lemma foldl_add_zsum {A} (f : A → Z) l z : foldl (λ t x, t + f x) z l = z + zsum (f <$> l).
Proof. revert z; induction l as [|x l IH]; intros z; csimpl; [lia|]. rewrite IH. lia. Qed.

Section zcount.
  Context {A} (P : A → Prop) {HPd : ∀ x, Decision (P x)}.
  Lemma zcount_nil : zcount P [] = 0.
  Proof. done. Qed.
  Lemma zcount_cons x l : zcount P (x :: l) = (if decide (P x) then 1 else 0) + zcount P l.
  Proof. unfold zcount. rewrite filter_cons. destruct (decide (P x)); simpl; lia. Qed.
  Lemma zcount_app l1 l2 : zcount P (l1 ++ l2) = zcount P l1 + zcount P l2.
  Proof. unfold zcount. rewrite filter_app, app_length. lia. Qed.
  Lemma zcount_perm l1 l2 : l1 ≡ₚ l2 → zcount P l1 = zcount P l2.
  Proof. intros H. unfold zcount. by rewrite H. Qed.
  Lemma zcount_nonneg l : 0 ≤ zcount P l.
  Proof. unfold zcount. lia. Qed.
  Lemma zcount_le_length l : zcount P l ≤ Z.of_nat (length l).
  Proof. unfold zcount. pose proof (filter_length P l). lia. Qed.
  Lemma zcount_all l : (∀ x, x ∈ l → P x) → zcount P l = Z.of_nat (length l).
  Proof.
    induction l as [|x l IH]; intros Hl; [done|].
    rewrite zcount_cons, decide_True by (apply Hl; set_solver).
    rewrite IH by (intros; apply Hl; set_solver). simpl; lia.
  Qed.
  Lemma zcount_none l : (∀ x, x ∈ l → ¬ P x) → zcount P l = 0.
  Proof.
    induction l as [|x l IH]; intros Hl; [done|].
    rewrite zcount_cons, decide_False by (apply Hl; set_solver).
    rewrite IH by (intros; apply Hl; set_solver). simpl; lia.
  Qed.
  Lemma zcount_pos l : 0 < zcount P l ↔ ∃ x, x ∈ l ∧ P x.
  Proof.
    induction l as [|x l IH].
    - rewrite zcount_nil. split; [lia|]. intros (? & ? & _). set_solver.
    - rewrite zcount_cons. pose proof (zcount_nonneg l). destruct (decide (P x)).
      + split; [|lia]. intros _. exists x. set_solver.
      + rewrite Z.add_0_l, IH. set_solver.
  Qed.
  Lemma zcount_zero l : zcount P l = 0 ↔ ∀ x, x ∈ l → ¬ P x.
  Proof.
    split; [|apply zcount_none].
    intros H0 x Hx HP. assert (0 < zcount P l) by (apply zcount_pos; eauto). lia.
  Qed.
End zcount.

Lemma zcount_ext {A} (P Q : A → Prop) {HPd : ∀ x, Decision (P x)} {HQd : ∀ x, Decision (Q x)} l :
  (∀ x, x ∈ l → P x ↔ Q x) → zcount P l = zcount Q l.
Proof.
  induction l as [|x l IH]; intros H; [done|].
  rewrite !zcount_cons, IH by set_solver. f_equal.
  assert (P x ↔ Q x) by set_solver. destruct (decide (P x)), (decide (Q x)); tauto.
Qed.

Lemma filter_all {A} (P : A → Prop) {HPd : ∀ x, Decision (P x)} (l : list A) :
  (∀ x, x ∈ l → P x) → filter P l = l.
Proof.
  induction l as [|x l IH]; intros H; [done|].
  rewrite filter_cons, decide_True by (apply H; set_solver). f_equal. apply IH. set_solver.
Qed.
Lemma filter_none {A} (P : A → Prop) {HPd : ∀ x, Decision (P x)} (l : list A) :
  (∀ x, x ∈ l → ¬ P x) → filter P l = [].
Proof.
  induction l as [|x l IH]; intros H; [done|].
  rewrite filter_cons, decide_False by (apply H; set_solver). apply IH. set_solver.
Qed.

(** ** signed indices *)
Lemma zlookup_nat {A} (l : list A) (i : nat) : zlookup l (Z.of_nat i) = l !! i.
Proof. unfold zlookup. rewrite bool_decide_true by lia. by rewrite Nat2Z.id. Qed.
Lemma zlookup_Some {A} (l : list A) i x :
  zlookup l i = Some x ↔ 0 ≤ i ∧ l !! Z.to_nat i = Some x.
Proof. unfold zlookup. case_bool_decide; naive_solver. Qed.
Lemma zlookup_Some_lt {A} (l : list A) i x : zlookup l i = Some x → 0 ≤ i < Z.of_nat (length l).
Proof. intros [? ?%lookup_lt_Some]%zlookup_Some. lia. Qed.
Lemma zlookup_is_Some {A} (l : list A) i : 0 ≤ i < Z.of_nat (length l) → is_Some (zlookup l i).
Proof.
  intros ?. unfold zlookup. rewrite bool_decide_true by lia. apply lookup_lt_is_Some_2. lia.
Qed.
Lemma zinsert_length {A} (l : list A) i x : length (zinsert i x l) = length l.
Proof. apply insert_length. Qed.
Lemma zlookup_zinsert {A} (l : list A) i j x : 0 ≤ i < Z.of_nat (length l) →
  zlookup (zinsert i x l) j = if decide (i = j) then Some x else zlookup l j.
Proof.
  intros Hi. unfold zlookup, zinsert. case_bool_decide.
  - destruct (decide (i = j)) as [->|]; [apply list_lookup_insert; lia|].
    apply list_lookup_insert_ne. lia.
  - rewrite decide_False by lia. done.
Qed.

(** ** swap_pop *)
Lemma last_lookup_len {A} (l : list A) : last l = l !! (length l - 1)%nat.
Proof. rewrite last_lookup. f_equal. lia. Qed.

Lemma swap_pop_length {A} (l : list A) i : length (swap_pop l i) = (length l - 1)%nat.
Proof.
  unfold swap_pop. destruct (last l) eqn:Hl.
  - rewrite take_length, insert_length. lia.
  - apply last_None in Hl as ->. done.
Qed.

Lemma swap_pop_lookup {A} (l : list A) i j :
  (i < length l)%nat →
  swap_pop l i !! j =
    if decide (S j < length l)%nat then
      (if decide (i = j) then l !! (length l - 1)%nat else l !! j)
    else None.
Proof.
  intros Hi. unfold swap_pop. rewrite last_lookup_len.
  destruct (lookup_lt_is_Some_2 l (length l - 1)) as [x Hx]; [lia|]. rewrite Hx.
  destruct (decide (S j < length l)%nat).
  - rewrite lookup_take by lia. destruct (decide (i = j)) as [->|].
    + by rewrite list_lookup_insert.
    + by rewrite list_lookup_insert_ne.
  - by rewrite lookup_take_ge by lia.
Qed.

Lemma swap_pop_perm {A} (l : list A) i x : l !! i = Some x → l ≡ₚ x :: swap_pop l i.
Proof.
  intros Hx. unfold swap_pop.
  destruct (last l) as [y|] eqn:Hy; [|apply last_None in Hy as ->; done].
  apply last_Some in Hy as [l' ->].
  rewrite app_length. simpl. replace (length l' + 1 - 1)%nat with (length l') by lia.
  destruct (decide (i = length l')) as [->|Hne].
  - rewrite list_lookup_middle in Hx by done. injection Hx as [= ->].
    rewrite insert_app_r_alt, Nat.sub_diag by lia. simpl.
    rewrite take_app_alt by done. by rewrite Permutation_app_comm.
  - assert (i < length l')%nat.
    { apply lookup_lt_Some in Hx. rewrite app_length in Hx. simpl in *. lia. }
    rewrite lookup_app_l in Hx by lia.
    rewrite insert_app_l by lia.
    rewrite take_app_alt by (by rewrite insert_length).
    rewrite Permutation_app_comm. simpl.
    rewrite <-(take_drop_middle l' i x) at 1 by done.
    rewrite insert_take_drop by lia.
    rewrite <-!Permutation_middle. apply Permutation_swap.
Qed.

Lemma remove_value_perm x l : x ∈ l → l ≡ₚ x :: remove_value x l.
Proof.
  intros Hx. unfold remove_value.
  destruct (list_find _ l) as [[i y]|] eqn:Hf.
  - apply list_find_Some in Hf as (? & -> & _). by apply swap_pop_perm.
  - apply list_find_None in Hf. rewrite Forall_forall in Hf. by destruct (Hf x Hx).
Qed.
Lemma remove_value_id x l : x ∉ l → remove_value x l = l.
Proof.
  intros Hx. unfold remove_value.
  destruct (list_find _ l) as [[i y]|] eqn:Hf; [|done].
  apply list_find_Some in Hf as (Hl & -> & _). apply elem_of_list_lookup_2 in Hl. done.
Qed.
Lemma remove_value_filter x l : NoDup l → remove_value x l ≡ₚ filter (λ y, y ≠ x) l.
Proof.
  intros Hnd. destruct (decide (x ∈ l)) as [Hx|Hx].
  - apply (Permutation_cons_inv (a:=x)).
    rewrite <-remove_value_perm by done.
    apply elem_of_list_split in Hx as (l1 & l2 & ->).
    apply NoDup_app in Hnd as (_ & Hn1 & Hn2).
    apply NoDup_cons in Hn2 as [Hn2 _].
    rewrite filter_app, filter_cons, decide_False by (by intros []).
    rewrite <-Permutation_middle. apply Permutation_skip. f_equiv.
    + rewrite filter_all; [done|].
      intros y Hy ->. apply (Hn1 x Hy). set_solver.
    + rewrite filter_all; [done|]. intros y Hy ->. done.
  - rewrite remove_value_id by done.
    rewrite filter_all; [done|]. intros y Hy ->. done.
Qed.
Lemma elem_of_remove_value x y l : NoDup l → y ∈ remove_value x l ↔ y ∈ l ∧ y ≠ x.
Proof. intros Hnd. rewrite remove_value_filter by done. rewrite elem_of_list_filter. tauto. Qed.
Lemma NoDup_remove_value x l : NoDup l → NoDup (remove_value x l).
Proof. intros Hnd. rewrite remove_value_filter by done. by apply NoDup_filter. Qed.

(** ** iter_swap *)
Lemma zswap_perm {A} (l : list A) i j x y :
  zlookup l i = Some x → zlookup l j = Some y → zinsert i y (zinsert j x l) ≡ₚ l.
Proof.
  intros Hi Hj.
  apply zlookup_Some in Hi as [Hi0 Hi]. apply zlookup_Some in Hj as [Hj0 Hj].
  unfold zinsert. generalize dependent (Z.to_nat i). generalize dependent (Z.to_nat j).
  clear i j Hi0 Hj0. intros j Hj i Hi.
  destruct (decide (i = j)) as [->|Hne].
  { rewrite list_insert_insert. rewrite list_insert_id; [done|]. congruence. }
  assert (∀ (i j : nat) x y, (i < j)%nat → l !! i = Some x → l !! j = Some y →
     <[i:=y]> (<[j:=x]> l) ≡ₚ l) as Hlt.
  { clear. intros i j x y Hij Hi Hj.
    rewrite <-(take_drop_middle l j y) by done.
    pose proof (lookup_lt_Some _ _ _ Hj).
    rewrite insert_app_r_alt by (rewrite take_length; lia).
    rewrite take_length, Nat.min_l, Nat.sub_diag by lia. simpl.
    rewrite insert_app_l by (rewrite take_length; lia).
    assert (take j l !! i = Some x) as Hi' by (by rewrite lookup_take by lia).
    rewrite <-(take_drop_middle _ _ _ Hi') at 2.
    rewrite insert_take_drop by (rewrite take_length; lia).
    rewrite <-!app_assoc. simpl. f_equiv.
    rewrite <-!Permutation_middle. apply Permutation_swap. }
  destruct (decide (i < j)%nat); [by apply Hlt|].
  rewrite list_insert_commute by done. apply Hlt; [lia|done|done].
Qed.

Lemma wpe_iter_swap {A} E (l : list A) i j (Q : list A → Prop) :
  0 ≤ i < Z.of_nat (length l) → 0 ≤ j < Z.of_nat (length l) →
  (∀ x y, zlookup l i = Some x → zlookup l j = Some y →
     zinsert i y (zinsert j x l) ≡ₚ l → Q (zinsert i y (zinsert j x l))) →
  wpe E (iter_swap l i j) Q.
Proof.
  intros Hi Hj HQ.
  destruct (zlookup_is_Some l i Hi) as [x Hx]. destruct (zlookup_is_Some l j Hj) as [y Hy].
  apply wpe_bind, wpe_idx with x; [done|]. apply wpe_bind, wpe_idx with y; [done|].
  apply wpe_ret, HQ; [done..|]. by apply zswap_perm.
Qed.

Lemma zswap_lookup {A} (l : list A) i j x y k :
  zlookup l i = Some x → zlookup l j = Some y →
  zlookup (zinsert i y (zinsert j x l)) k =
    if decide (k = i) then Some y else if decide (k = j) then Some x else zlookup l k.
Proof.
  intros Hi Hj. pose proof (zlookup_Some_lt _ _ _ Hi). pose proof (zlookup_Some_lt _ _ _ Hj).
  rewrite zlookup_zinsert by (by rewrite zinsert_length).
  destruct (decide (i = k)), (decide (k = i)); try congruence.
  rewrite zlookup_zinsert by done.
  destruct (decide (j = k)), (decide (k = j)); congruence.
Qed.

(** ** sort *)
Lemma merge_sort_perm (l : list Z) : merge_sort Z.le l ≡ₚ l.
Proof. apply merge_sort_Permutation. Qed.

(** ** fmap/alter/NoDup *)
Lemma NoDup_fmap_inj {A} (f : A → Z) l i j x y :
  NoDup (f <$> l) → l !! i = Some x → l !! j = Some y → f x = f y → i = j.
Proof.
  intros Hnd Hi Hj Hf. eapply NoDup_lookup; [done|..]; rewrite list_lookup_fmap.
  - by rewrite Hi.
  - rewrite Hj. simpl. by rewrite Hf.
Qed.
Lemma NoDup_fmap_elem {A} (f : A → Z) l x y :
  NoDup (f <$> l) → x ∈ l → y ∈ l → f x = f y → x = y.
Proof.
  intros Hnd [i Hi]%elem_of_list_lookup [j Hj]%elem_of_list_lookup Hf.
  assert (i = j) as -> by eauto using NoDup_fmap_inj. congruence.
Qed.

Lemma list_find_id {A} (f : A → Z) (l : list A) x :
  NoDup (f <$> l) → x ∈ l → ∃ i, list_find (λ y, f y = f x) l = Some (i, x).
Proof.
  intros Hnd Hx. destruct (list_find_elem_of (λ y, f y = f x) l x Hx eq_refl) as [[i y] Hf].
  rewrite Hf. exists i. do 2 f_equal. apply list_find_Some in Hf as (Hi & Hy & _).
  eapply NoDup_fmap_elem; [done|by eapply elem_of_list_lookup_2|done|done].
Qed.
