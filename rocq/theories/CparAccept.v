(** Proofs about parallel coarsening: the accepted matches. *)
From Verif Require Export CparMatch ReaderPar KparCount.

(** the entries of lists, each with the number of its list *)
Definition tagged {A} (ls : list (list A)) : list (Z * A) := concat (imap (λ i l, pair (Z.of_nat i) <$> l) ls).
Lemma elem_of_tagged {A} (ls : list (list A)) i x : (i, x) ∈ tagged ls ↔ ∃ k l, i = Z.of_nat k ∧ ls !! k = Some l ∧ x ∈ l.
Proof.
  unfold tagged. rewrite CoarsenProof.elem_of_concat. split.
  - intros (l' & Hx & (k & l & -> & Hl)%elem_of_lookup_imap). apply elem_of_list_fmap in Hx as (y & [= -> ->] & Hy). eauto.
  - intros (k & l & -> & Hl & Hx). eexists. split; [|apply elem_of_lookup_imap; eauto]. by apply elem_of_list_fmap_1.
Qed.
Lemma concat_imap_alter {A B} (x : A) (r : list (list A)) : ∀ (f : nat → list A → list B) (g : nat → B) k,
  (∀ i l, f i (l ++ [x]) = f i l ++ [g i]) → (k < length r)%nat →
  concat (imap f (alter (λ l : list A, l ++ [x]) k r)) ≡ₚ g k :: concat (imap f r).
Proof.
  induction r as [|l r IH]; intros f g [|k] Hf Hk; simpl in *; [lia|lia| |].
  - rewrite Hf, <-app_assoc. simpl. by rewrite <-Permutation_middle.
  - change (imap (f ∘ S) (list_alter (λ l, l ++ [x]) k r)) with (imap (λ i, f (S i)) (alter (λ l : list A, l ++ [x]) k r)).
    rewrite (IH (λ i, f (S i)) (λ i, g (S i))); [|intros; apply Hf|lia]. by rewrite <-Permutation_middle.
Qed.
Lemma tagged_alter {A} (r : list (list A)) k x : (k < length r)%nat →
  tagged (alter (λ l : list A, l ++ [x]) k r) ≡ₚ (Z.of_nat k, x) :: tagged r.
Proof.
  intros Hk. apply (concat_imap_alter x r (λ i l, pair (Z.of_nat i) <$> l) (λ i, (Z.of_nat i, x))); [|done].
  intros i l. by rewrite fmap_app.
Qed.
Lemma tagged_replicate {A} n : tagged (replicate n (@nil A)) = [].
Proof.
  unfold tagged. assert (∀ f : nat → list A → list (Z * A), (∀ i, f i [] = []) → concat (imap f (replicate n [])) = []) as Hg; [|by apply Hg].
  induction n as [|n IH]; intros f Hf; [done|]. simpl. rewrite Hf. simpl. apply (IH (λ i, f (S i))). intros i. apply Hf.
Qed.
Lemma tagged_app {A} (l1 l2 : list (list A)) : tagged (l1 ++ l2) = tagged l1 ++ concat (imap (λ i l, pair (Z.of_nat (length l1 + i)) <$> l) l2).
Proof. unfold tagged. rewrite imap_app, concat_app. done. Qed.
Lemma tagged_snd {A} (ls : list (list A)) : snd <$> tagged ls = concat ls.
Proof.
  unfold tagged. assert (∀ f : nat → list A → list (Z * A), (∀ i l, snd <$> f i l = l) → snd <$> concat (imap f ls) = concat ls) as Hg.
  - induction ls as [|l ls IH]; intros f Hf; [done|]. simpl. rewrite fmap_app, Hf. f_equal. apply (IH (λ i, f (S i))). intros i l'. apply Hf.
  - apply Hg. intros i l. rewrite <-list_fmap_compose. unfold compose. simpl. by rewrite list_fmap_id.
Qed.

Lemma add_match_alter E k m t C (Q : contraction → Prop) : (k < length (c_matches C))%nat →
  Q (Contr (c_samples C) (alter (λ ms, ms ++ [(m, t)]) k (c_matches C)) (c_free C) (c_local_free C) (c_global_free C)) →
  wpe E (add_match (Z.of_nat k) m t C) Q.
Proof.
  intros Hk HQ. unfold add_match. apply wpe_bind, wpe_assert; [apply bool_decide_eq_true; lia|]. rewrite Nat2Z.id. by apply wpe_ret.
Qed.

(** the messages that tell the owners of the accepted vertices *)
Definition acc_msg (S : Z) (s : nat) (x : Z * (Z * Z)) : Z * (Z * Z) := (snd (snd x), (fst x + Z.of_nat s * S, fst (snd x))).
Definition req_entry (m : request_msg) : Z * (Z * Z) := (fst m, (fst (snd (snd m)), fst (snd m))).

Lemma wpe_accept E s S mcs number C box (Q : contraction * list (Z * (Z * Z)) → Prop) :
  c_matches C = replicate number [] → (∀ m, m ∈ box → 0 ≤ fst m < Z.of_nat number) →
  (∀ ms outs, length ms = number → tagged ms ⊆+ req_entry <$> box → (∀ l, l ∈ ms → Z.of_nat (length l) ≤ Z.max 0 mcs) →
     outs ≡ₚ acc_msg S s <$> tagged ms →
     Q (Contr (c_samples C) ms (c_free C) (c_local_free C) (c_global_free C), outs)) →
  wpe E (accept_requests s S mcs number C box) Q.
Proof.
  intros HCm Hbox HQ. unfold accept_requests. apply wpe_bind.
  apply (wpe_foldM E _ (λ ds a, length a = number ∧ tagged a ≡ₚ ds)).
  { rewrite replicate_length, tagged_replicate. done. }
  { intros ds m ts a Heq [Hl Ht]. specialize (Hbox m ltac:(rewrite Heq; set_solver)).
    destruct (lookup_lt_is_Some_2 a (Z.to_nat (fst m))) as [l Hla]; [lia|].
    assert (zlookup a (fst m) = Some l) as Hz by (apply zlookup_Some; split; [lia|done]).
    unfold aadd. apply wpe_bind. eapply wpe_idx; [exact Hz|]. apply wpe_ret.
    pose proof (zinsert_alter a (fst m) (λ l, l ++ [snd m]) l Hz) as Hza. cbv beta in Hza. rewrite Hza. split; [by rewrite alter_length|].
    rewrite tagged_alter by lia. rewrite Z2Nat.id by lia. rewrite Ht. destruct m as [i x]. cbn [fst snd]. by rewrite Permutation_cons_append. }
  intros a [Hl Ht].
  set (conv := λ x : Z * (Z * dbl), (fst (snd x), fst x)).
  (* state after the first k samples: their lists are final, the others empty *)
  apply (wpe_foldM_seq E _ (λ k (x : contraction * list (Z * (Z * Z))), ∃ ms, length ms = k ∧
     fst x = Contr (c_samples C) (ms ++ replicate (number - k) []) (c_free C) (c_local_free C) (c_global_free C) ∧
     Forall2 (λ l r, l ⊆+ conv <$> r ∧ Z.of_nat (length l) ≤ Z.max 0 mcs) ms (take k a) ∧
     snd x ≡ₚ acc_msg S s <$> tagged ms)).
  - exists []. simpl. rewrite Nat.sub_0_r, <-HCm. split_and!; [done|by destruct C|rewrite take_0; by apply Forall2_nil|done].
  - intros k [C1 outs] Hk (ms & Hlm & HC1 & Hf & Ho). cbn [fst snd] in *.
    destruct (lookup_lt_is_Some_2 a k) as [r Hr]; [lia|]. apply wpe_bind. eapply wpe_nidx; [exact Hr|]. apply wpe_bind, wpe_best_reqs.
    intros l' Hl' Hlen.
    apply (wpe_foldM E _ (λ ds (x : contraction * list (Z * (Z * Z))),
       fst x = Contr (c_samples C) ((ms ++ [conv <$> ds]) ++ replicate (number - Datatypes.S k) []) (c_free C) (c_local_free C) (c_global_free C) ∧
       snd x ≡ₚ acc_msg S s <$> tagged (ms ++ [conv <$> ds]))).
    + cbn [fst snd]. rewrite HC1. split.
      * f_equal. replace (number - k)%nat with (Datatypes.S (number - Datatypes.S k)) by lia. rewrite <-app_assoc. done.
      * rewrite Ho. rewrite tagged_app. simpl. by rewrite !app_nil_r.
    + intros ds m ts [C2 o2] Heq [HC2 Ho2]. cbn [fst snd] in *. apply wpe_bind. subst C2. apply add_match_alter.
      { cbn [c_matches]. rewrite !app_length, Hlm. simpl. lia. }
      cbn [c_samples c_matches c_free c_local_free c_global_free]. apply wpe_ret. cbn [fst snd].
      assert (alter (λ ms0 : list (Z * Z), ms0 ++ [(fst (snd m), fst m)]) k ((ms ++ [conv <$> ds]) ++ replicate (number - Datatypes.S k) []) =
        (ms ++ [conv <$> ds ++ [m]]) ++ replicate (number - Datatypes.S k) []) as Ha.
      { rewrite <-!app_assoc. rewrite <-Hlm. rewrite alter_app_r_alt by lia. rewrite Nat.sub_diag. simpl. by rewrite fmap_app. }
      rewrite Ha. split; [done|]. rewrite Ho2. rewrite !tagged_app. simpl. rewrite !app_nil_r, !fmap_app. simpl. rewrite <-app_assoc.
      f_equiv. f_equiv. unfold acc_msg, conv. simpl. rewrite Nat.add_0_r, Hlm. done.
    + intros [C2 o2] [HC2 Ho2]. cbn [fst snd] in *. exists (ms ++ [conv <$> l']). split_and!.
      * rewrite app_length. simpl. lia.
      * done.
      * rewrite (take_S_r _ _ _ Hr). apply Forall2_app; [done|]. apply Forall2_cons. split; [|done]. split; [by apply submseteq_fmap|].
        by rewrite fmap_length.
      * done.
  - intros [C1 outs] (ms & Hlm & HC1 & Hf & Ho). cbn [fst snd] in *. rewrite Nat.sub_diag, app_nil_r in HC1. subst C1.
    rewrite take_ge in Hf by lia. apply HQ; [done| | |done].
    + transitivity ((λ x : Z * (Z * (Z * dbl)), (fst x, conv (snd x))) <$> tagged a).
      2: { rewrite Ht. apply reflexive_eq. apply list_fmap_ext. done. }
      clear -Hf. unfold tagged.
      assert (∀ n, concat (imap (λ i l, pair (Z.of_nat (n + i)) <$> l) ms) ⊆+
        (λ x : Z * (Z * (Z * dbl)), (fst x, conv (snd x))) <$> concat (imap (λ i l, pair (Z.of_nat (n + i)) <$> l) a)) as Hg; [|by apply (Hg 0%nat)].
      induction Hf as [|l r ms a [Hlr _] Hf IH]; intros n; [done|]. rewrite !imap_cons. cbn [concat]. rewrite fmap_app. apply submseteq_app.
      * rewrite <-list_fmap_compose. transitivity (pair (Z.of_nat (n + 0)) <$> (conv <$> r)); [by apply submseteq_fmap|].
        rewrite <-list_fmap_compose. done.
      * specialize (IH (Datatypes.S n)).
        rewrite !(imap_ext (compose _ Datatypes.S) (λ i l, pair (Z.of_nat (Datatypes.S n + i)) <$> l)); [exact IH|..];
          intros i l0 _; unfold compose; do 2 f_equal; lia.
    + intros l [i Hi]%elem_of_list_lookup. destruct (Forall2_lookup_l _ _ _ _ _ Hf Hi) as (r & _ & _ & ?). done.
Qed.
