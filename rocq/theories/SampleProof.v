(** Proofs about sample_random and sample_lp. *)
From Verif Require Export InitialProof.
From Verif Require FloatProof.

(** ** sample_random *)
Lemma StronglySorted_snoc (L : list Z) x : StronglySorted Z.lt L → Forall (λ y, y < x) L → StronglySorted Z.lt (L ++ [x]).
Proof.
  induction L as [|y L IH]; intros Hs Hf; simpl.
  - constructor; [constructor|constructor].
  - apply StronglySorted_inv in Hs as [Hs Hy]. apply Forall_cons in Hf as [Hyx Hf]. constructor; [by apply IH|].
    apply Forall_app. split; [done|]. by apply Forall_singleton.
Qed.
Lemma StronglySorted_seqZ (n : nat) : ∀ a, StronglySorted Z.lt (seqZ a (Z.of_nat n)).
Proof.
  induction n as [|n IH]; intros a; [constructor|]. rewrite seqZ_cons by lia. constructor.
  - replace (Z.pred (Z.of_nat (S n))) with (Z.of_nat n) by lia. apply IH.
  - apply Forall_forall. intros x Hx%elem_of_seqZ. lia.
Qed.

Lemma wpe_sample_random E H ns (Q : list Z → Prop) : 0 < Z.of_nat (length (h_verts H)) ≤ 2 ^ 53 →
  (∀ L, Z.of_nat (length L) = Z.max 0 (Z.min ns (Z.of_nat (length (h_verts H)))) → StronglySorted Z.lt L →
    Forall (λ i, 0 ≤ i < Z.of_nat (length (h_verts H))) L → Q L) →
  wpe E (sample_random H ns) Q.
Proof.
  intros Hsz HQ. unfold sample_random. set (n := Z.of_nat (length (h_verts H))) in *.
  apply wpe_bind, wpe_assert; [by apply bool_decide_eq_true_2; lia|].
  destruct (decide (ns > n)).
  { apply wpe_ret, HQ; [rewrite seqZ_length; lia|apply StronglySorted_seqZ|]. apply Forall_forall. intros x Hx%elem_of_seqZ. lia. }
  apply wpe_bind.
  eapply wpe_mono; [eapply (wpe_loopM E _ (λ s : Z * Z * Z * list Z, Z.min ns 0 ≤ fst (fst (fst s)) ≤ snd (fst (fst s)) ∧ snd (fst (fst s)) = n - snd (fst s) ∧ 0 ≤ snd (fst s) ≤ n ∧
      (ns < 0 → fst (fst (fst s)) = ns) ∧ (0 ≤ ns → 0 ≤ fst (fst (fst s))) ∧
      Z.of_nat (length (snd s)) = ns - fst (fst (fst s)) ∧ StronglySorted Z.lt (snd s) ∧ Forall (λ i, 0 ≤ i < snd (fst s)) (snd s))
    (λ s, Z.to_nat (snd (fst (fst s)) + 1)) (λ s, Z.of_nat (length (snd s)) = Z.max 0 ns ∧ StronglySorted Z.lt (snd s) ∧ Forall (λ i, 0 ≤ i < n) (snd s)))|].
  - intros [[[sl sz] cur] L] (Hsl & Hcur & Hcn & Hneg & Hpos & Hlen & Hsort & HF). cbn [fst snd] in *. gdec as Hs.
    + apply wpe_bind, wpe_assert; [apply bool_decide_eq_true_2; lia|]. apply wpe_bind, wpe_rng. intros z Hz.
      set (take := d_le _ _). assert (sl = sz → take = true) as Ht.
      { intros ->. apply FloatProof.frac_le_one; unfold rng_max in *; lia. }
      apply wpe_ret. cbn [fst snd]. split; [|lia]. destruct take; cbn [fst snd].
      * split; [lia|]. split; [lia|]. split; [lia|]. split; [lia|]. split; [lia|]. split; [rewrite app_length; simpl; lia|]. split.
        -- apply StronglySorted_snoc; [done|]. eapply Forall_impl; [exact HF|]. simpl. lia.
        -- apply Forall_app. split; [eapply Forall_impl; [exact HF|simpl; lia]|]. apply Forall_singleton. lia.
      * assert (sl ≠ sz) by (intros He; by specialize (Ht He)). split; [lia|]. split; [lia|]. split; [lia|]. split; [lia|]. split; [lia|]. split; [lia|].
        split; [done|]. eapply Forall_impl; [exact HF|simpl; lia].
    + apply wpe_ret. cbn [fst snd]. split; [lia|]. split; [done|]. eapply Forall_impl; [exact HF|simpl; lia].
  - cbn [fst snd]. split; [lia|]. split; [lia|]. split; [lia|]. split; [lia|]. split; [lia|]. split; [simpl; lia|]. split; constructor.
  - cbn [fst snd]. lia.
  - intros s (H1 & H2 & H3). apply wpe_ret, HQ; [lia|done|done].
Qed.

(** ** sample_lp *)

(** Programs run on tapes all of whose 32-bit values satisfy [P]. *)
Section tape.
  Context (P : Z → Prop).
  Definition tape_ok (w : world) : Prop := ∀ n, P (w_tape w n `mod` 4294967296).
  Definition wpt {A} (m : M A) (Q : A → Prop) : Prop :=
    ∀ w, tape_ok w → match m w with Ok (a, w') => tape_ok w' ∧ Q a | Err _ => False end.
  Lemma wpt_ret {A} (a : A) (Q : A → Prop) : Q a → wpt (ret a) Q.
  Proof. intros HQ w Hw. done. Qed.
  Lemma wpt_bind {A B} (m : M A) (f : A → M B) (Q : B → Prop) : wpt m (λ a, wpt (f a) Q) → wpt (bind m f) Q.
  Proof. intros Hm w Hw. specialize (Hm w Hw). unfold bind. destruct (m w) as [[a w']|]; [|done]. destruct Hm as [Hw' Hf]. by apply Hf. Qed.
  Lemma wpt_mono {A} (m : M A) (Q Q' : A → Prop) : wpt m Q → (∀ a, Q a → Q' a) → wpt m Q'.
  Proof. intros Hm HQ w Hw. specialize (Hm w Hw). destruct (m w) as [[a w']|]; naive_solver. Qed.
  Lemma wpt_rng (Q : Z → Prop) : (∀ z, 0 ≤ z ≤ rng_max → P z → Q z) → wpt rng Q.
  Proof.
    intros HQ w Hw. simpl. split.
    - intros n. apply (Hw (S n)).
    - apply HQ; [|apply (Hw 0%nat)]. unfold rng_max. pose proof (Z.mod_pos_bound (w_tape w 0) 4294967296). lia.
  Qed.
  Lemma wpt_idx {A} (l : list A) i x (Q : A → Prop) : zlookup l i = Some x → Q x → wpt (idx l i) Q.
  Proof. intros Hl HQ. unfold idx. rewrite Hl. by apply wpt_ret. Qed.
  Lemma wpt_nidx {A} (l : list A) i x (Q : A → Prop) : l !! i = Some x → Q x → wpt (nidx l i) Q.
  Proof. intros Hl HQ. unfold nidx. rewrite Hl. by apply wpt_ret. Qed.
  Lemma wpt_loopM {S} (body : S → M (bool * S)) (I : S → Prop) (μ : S → nat) (Q : S → Prop) :
    (∀ s, I s → wpt (body s) (λ r, if fst r : bool then I (snd r) ∧ (μ (snd r) < μ s)%nat else Q (snd r))) →
    ∀ fuel s, I s → (μ s < fuel)%nat → wpt (loopM fuel body s) Q.
  Proof.
    intros Hb fuel. induction fuel as [|n IH]; intros s Hi Hm; [lia|]. cbn [loopM].
    apply wpt_bind. eapply wpt_mono; [by apply Hb|]. intros [[] s'] Hs'; simpl in *; [|by apply wpt_ret].
    apply IH; [tauto|lia].
  Qed.
End tape.

Lemma wpt_wpe {A} (m : M A) (Q : A → Prop) : wpt (λ _, True) m Q → wp m Q.
Proof. intros Hm w. specialize (Hm w (λ _, I)). destruct (m w) as [[a w2]|]; [|done]. by destruct Hm. Qed.

(** the test with a count of one fails only for the largest random value *)
Lemma last_test z : 0 ≤ z < rng_max → d_lt (d_div (d_of_Z z) (d_of_Z rng_max)) (d_div d_one (d_of_Z 1)) = true.
Proof.
  intros Hz. unfold d_one.
  assert (d_lt (d_div (d_of_Z (rng_max - 1)) (d_of_Z rng_max)) (d_div (d_of_Z 1) (d_of_Z 1)) = true) as Hmax by (vm_compute; reflexivity).
  unfold rng_max in *.
  assert (∀ a, 0 ≤ a ≤ 4294967295 → FloatProof.repr (d_div (d_of_Z a) (d_of_Z 4294967295)) (FloatProof.rnd (Reals.Rdefinitions.Rdiv (Reals.Rdefinitions.IZR a) (Reals.Rdefinitions.IZR 4294967295)))) as Hr.
  { intros a Ha. apply FloatProof.repr_frac; lia. }
  assert (FloatProof.repr (d_div (d_of_Z 1) (d_of_Z 1)) (FloatProof.rnd (Reals.Rdefinitions.Rdiv (Reals.Rdefinitions.IZR 1) (Reals.Rdefinitions.IZR 1)))) as H1 by (apply FloatProof.repr_frac; lia).
  apply (FloatProof.repr_lt _ _ _ _ (Hr (4294967295 - 1) ltac:(lia)) H1) in Hmax. apply (FloatProof.repr_lt _ _ _ _ (Hr z ltac:(lia)) H1).
  eapply FloatProof.rnd_div_le_lt; [| |exact Hmax]; lia.
Qed.

(** the loop of sample_lp *)
Definition is_sample_of (labels S SL : list Z) : Prop := Forall2 (λ s j, zlookup labels s = Some j) S SL.

Lemma sample_counts E (labels : list Z) l (Q : list Z → Prop) : Forall (λ j, 0 ≤ j < l) labels →
  Q (group_size labels <$> seqZ 0 l) → wpe E (foldM (λ c j, ladd c j 1) labels (replicate (Z.to_nat l) 0)) Q.
Proof.
  intros HF HQ. eapply (wpe_foldM E _ (λ ds c, c = group_size ds <$> seqZ 0 l)).
  - apply replicate_fmap_seqZ.
  - intros ds j ts c Heq ->. assert (0 ≤ j < l) as Hj by (rewrite Forall_forall in HF; apply HF; rewrite Heq; set_solver).
    apply wpe_ladd; [done|]. apply list_fmap_ext. intros _ k _. unfold group_size. rewrite zcount_app, zcount_cons, zcount_nil. repeat case_decide; lia || congruence.
  - by intros c ->.
Qed.

Lemma NoDup_filter_length_le (l1 l2 : list Z) : NoDup l1 → (∀ x, x ∈ l1 → x ∈ l2) → NoDup l2 → (length l2 ≤ length l1)%nat → ∀ x, x ∈ l2 → x ∈ l1.
Proof.
  intros H1 Hsub H2 Hlen x Hx. assert (l1 ⊆+ l2) as Hs by (by apply NoDup_submseteq).
  assert (l1 ≡ₚ l2) as ->; [|done]. by apply submseteq_Permutation_length_le.
Qed.

Lemma wpt_sample_labels (P : Z → Prop) H l labels (Q : list Z → Prop) : length labels = length (h_verts H) → Forall (λ j, 0 ≤ j < l) labels →
  (∀ S SL, is_sample_of labels S SL → StronglySorted Z.lt S → NoDup SL →
    ((∀ z, P z → z ≠ rng_max) → ∀ j, j ∈ labels → j ∈ SL) → Q S) →
  wpt P (sample_labels H l labels) Q.
Proof.
  intros Hlen HF HQ. apply wpt_bind.
  assert (∀ (R : list Z → Prop), R (group_size labels <$> seqZ 0 l) → wpt P (foldM (λ c j, ladd c j 1) labels (replicate (Z.to_nat l) 0)) R) as Hcnt.
  { intros R HR w Hw. pose proof (sample_counts (λ _, False) labels l (λ c, c = group_size labels <$> seqZ 0 l) HF eq_refl w) as Hc.
    destruct (foldM _ _ _ w) as [[c w']|] eqn:Hf; [|done]. subst c. split; [|done].
    assert (w' = w) as ->; [|done]. revert Hf. apply foldM_world. intros s x w1 s' w2. unfold ladd, bind, idx, of_option.
    destruct (zlookup s x); [|done]. unfold ret. by intros [= _ ->]. }
  apply Hcnt. set (counts := group_size labels <$> seqZ 0 l). apply wpt_bind.
  set (Inv := λ s : Z * nat * list Z * list bool * list Z, ∃ SL,
    let i := snd (fst (fst (fst s))) in
    (i ≤ length labels)%nat ∧ is_sample_of labels (snd s) SL ∧ StronglySorted Z.lt (snd s) ∧ Forall (λ x, x < Z.of_nat i) (snd s) ∧ NoDup SL ∧
    fst (fst (fst (fst s))) = Z.of_nat (length SL) ∧
    snd (fst (fst s)) = group_size (drop i labels) <$> seqZ 0 l ∧
    snd (fst s) = (λ j, bool_decide (j ∈ SL)) <$> seqZ 0 l ∧
    ((∀ z, P z → z ≠ rng_max) → ∀ j, j ∈ labels → j ∉ SL → 0 < group_size (drop i labels) j)).
  eapply wpt_mono; [eapply (wpt_loopM P _ Inv (λ s, (length labels - snd (fst (fst (fst s))))%nat)
    (λ s, Inv s ∧ ¬ (fst (fst (fst (fst s))) < l - zcount (λ c, c = 0) counts ∧ (snd (fst (fst (fst s))) < length (h_verts H))%nat)))|].
  - intros [[[[found i] cnt] fs] S] HI. pose proof HI as (SL & Hi & HS & Hsort & HSi & Hnd & Hfound & Hcn & Hfs & Hall). cbn [fst snd] in *. gdec as Hc; [|by apply wpt_ret].
    destruct (lookup_lt_is_Some_2 labels i) as [j Hj]; [lia|].
    assert (0 ≤ j < l) as Hjl by (by eapply (Forall_lookup_1 _ _ _ _ HF)).
    apply wpt_bind. eapply wpt_nidx; [done|]. apply wpt_bind. rewrite Hfs. eapply wpt_idx; [by apply zlookup_fmap_seqZ|].
    apply wpt_bind. rewrite Hcn. eapply wpt_idx; [by apply zlookup_fmap_seqZ|].
    assert (drop i labels = j :: drop (Datatypes.S i) labels) as Hdrop by (by apply drop_S).
    assert (∀ k, group_size (drop i labels) k = (if decide (j = k) then 1 else 0) + group_size (drop (Datatypes.S i) labels) k) as Hgs.
    { intros k. rewrite Hdrop. unfold group_size. by rewrite zcount_cons. }
    apply wpt_bind. eapply (wpt_mono _ _ (λ t : bool, (t = true → j ∉ SL) ∧
      ((∀ z, P z → z ≠ rng_max) → t = false → j ∉ SL → group_size (drop i labels) j ≠ 1))).
    { case_bool_decide as HjSL; [apply wpt_ret; done|]. apply wpt_bind, wpt_rng. intros z Hz HPz. apply wpt_ret. split; [done|].
      intros HP Ht _ Hone. rewrite Hone, last_test in Ht; [done|]. specialize (HP z HPz). lia. }
    intros t [Ht1 Ht2]. apply wpt_bind.
    assert (∀ (R : list Z → Prop), R (group_size (drop (Datatypes.S i) labels) <$> seqZ 0 l) → wpt P (ladd (group_size (drop i labels) <$> seqZ 0 l) j (-1)) R) as Hladd.
    { intros R HR. apply wpt_bind. eapply wpt_idx; [by apply zlookup_fmap_seqZ|]. apply wpt_ret.
      erewrite zinsert_fmap_seqZ; [exact HR|done|..].
      - simpl. rewrite Hgs, decide_True by done. lia.
      - intros k Hk Hne. simpl. rewrite Hgs, decide_False by done. lia. }
    apply Hladd. apply wpt_ret. cbn [fst snd]. split; [|destruct t; cbn [fst snd]; lia].
    destruct t.
    + specialize (Ht1 eq_refl). exists (SL ++ [j]). cbn [fst snd]. split_and!.
      * lia.
      * apply Forall2_app; [done|]. constructor; [by rewrite zlookup_nat|constructor].
      * apply StronglySorted_snoc; done.
      * apply Forall_app. split; [eapply Forall_impl; [exact HSi|simpl; lia]|]. apply Forall_singleton. lia.
      * apply NoDup_app. split; [done|]. split; [set_solver|apply NoDup_singleton].
      * rewrite app_length. simpl. lia.
      * done.
      * apply zinsert_fmap_seqZ; [done|..].
        -- apply bool_decide_eq_true_2. set_solver.
        -- intros k Hk Hne. apply bool_decide_ext. set_solver.
      * intros HP k Hk HkSL. assert (j ≠ k) by set_solver. specialize (Hall HP k Hk ltac:(set_solver)). rewrite Hgs, decide_False in Hall by done. lia.
    + exists SL. cbn [fst snd]. split_and!; try done.
      * lia.
      * eapply Forall_impl; [exact HSi|simpl; lia].
      * intros HP k Hk HkSL. specialize (Hall HP k Hk HkSL). rewrite Hgs in Hall.
        destruct (decide (j = k)) as [<-|]; [|lia]. specialize (Ht2 HP eq_refl HkSL). rewrite Hgs, decide_True in Ht2 by done. lia.
  - exists []. cbn [fst snd]. split_and!; try done; try constructor.
    + lia.
    + apply list_eq. intros q. rewrite list_lookup_fmap. destruct (decide (Z.of_nat q < l)); [rewrite lookup_replicate_2, lookup_seqZ_lt by lia; done|rewrite lookup_seqZ_ge by lia; apply lookup_ge_None; rewrite replicate_length; lia].
    + intros _ j Hj _. rewrite drop_0. apply zcount_pos. eauto.
  - cbn [fst snd]. lia.
  - intros [[[[found i] cnt] fs] S] [(SL & Hi & HS & Hsort & HSi & Hnd & Hfound & Hcn & Hfs & Hall) Hend]. cbn [fst snd] in *.
    apply wpt_ret. apply (HQ S SL); [done..|]. intros HP j Hj.
    destruct (decide (j ∈ SL)) as [|HjSL]; [done|]. specialize (Hall HP j Hj HjSL).
    assert (i < length labels)%nat as Hi'.
    { destruct (decide (i < length labels)%nat); [done|]. rewrite drop_ge in Hall by lia. unfold group_size in Hall. rewrite zcount_nil in Hall. lia. }
    assert (l - zcount (λ c, c = 0) counts ≤ Z.of_nat (length SL)) as Hge by lia.
    apply (NoDup_filter_length_le SL (filter (λ k, k ∈ labels) (seqZ 0 l))); [done|..].
    + intros x Hx. apply elem_of_list_filter. apply elem_of_list_lookup in Hx as [q Hq].
      destruct (Forall2_lookup_r _ _ _ _ _ HS Hq) as (s & _ & Hs). apply zlookup_Some in Hs as [_ Hs].
      assert (x ∈ labels) as Hxl by (by eapply elem_of_list_lookup_2). split; [done|]. apply elem_of_seqZ. rewrite Forall_forall in HF. specialize (HF x Hxl). lia.
    + apply NoDup_filter, NoDup_seqZ.
    + assert (zcount (λ c, c = 0) counts + Z.of_nat (length (filter (λ k, k ∈ labels) (seqZ 0 l))) = Z.of_nat (length (seqZ 0 l))) as Hz.
      { unfold counts. generalize (seqZ 0 l) as ks. clear. induction ks as [|k ks IH]; [done|]. csimpl. rewrite zcount_cons, filter_cons.
        assert (group_size labels k = 0 ↔ k ∉ labels) as Hk.
        { unfold group_size. rewrite zcount_zero. split; [intros Hx Hk; by apply (Hx k)|intros Hx x Hin ->; done]. }
        destruct (decide (group_size labels k = 0)); destruct (decide (k ∈ labels)); cbn [length]; try lia; tauto. }
      rewrite seqZ_length in Hz. destruct labels as [|j0 ?]; [set_solver|]. apply Forall_cons in HF as [Hj0 _]. lia.
    + apply elem_of_list_filter. split; [done|]. apply elem_of_seqZ. rewrite Forall_forall in HF. specialize (HF j Hj). lia.
Qed.
