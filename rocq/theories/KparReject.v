(** Rejection of proposed moves (KLFM_parallel.cpp:406-471). *)
From Verif Require Export SpecKpar ListLemmas WriterProof.

(** ** Lists sorted by an order that separates their elements *)
Lemma sorted_unique_on {A} (R : A → A → Prop) (l k : list A) :
  (∀ a b, a ∈ l → b ∈ l → R a b → R b a → a = b) → l ≡ₚ k → StronglySorted R l → StronglySorted R k → l = k.
Proof.
  revert k. induction l as [|a l IH]; intros k HA Hp Hl Hk.
  - symmetry. by apply Permutation_nil.
  - destruct k as [|b k]; [by apply Permutation_sym, Permutation_nil in Hp|].
    inversion Hl as [|? ? Hl' Ha]; subst. inversion Hk as [|? ? Hk' Hb]; subst.
    assert (a = b) as ->.
    { assert (a ∈ b :: k) as Hin by (rewrite <-Hp; left).
      assert (b ∈ a :: l) as Hb' by (rewrite Hp; left).
      apply elem_of_cons in Hin as [?|Hin]; [done|]. apply elem_of_cons in Hb' as [?|Hb']; [done|].
      rewrite Forall_forall in Ha, Hb. apply HA; [left|by right|by apply Ha|by apply Hb]. }
    f_equal. apply IH; [|by apply Permutation_cons_inv in Hp|done|done].
    intros x y Hx Hy. apply HA; by right.
Qed.

Lemma StronglySorted_filter {A} (R : A → A → Prop) (P : A → Prop) {HP : ∀ x, Decision (P x)} (l : list A) :
  StronglySorted R l → StronglySorted R (filter P l).
Proof.
  induction 1 as [|a l Hl IH Ha]; [constructor|]. rewrite filter_cons. destruct (decide (P a)); [|done].
  constructor; [done|]. rewrite Forall_forall in *. intros x [_ Hx]%elem_of_list_filter. by apply Ha.
Qed.

Lemma StronglySorted_snoc {A} (R : A → A → Prop) (l : list A) b :
  StronglySorted R l → (∀ a, a ∈ l → R a b) → StronglySorted R (l ++ [b]).
Proof.
  induction 1 as [|a l Hl IH Ha]; intros Hb; simpl; [repeat constructor|].
  constructor; [apply IH; intros x Hx; apply Hb; by right|].
  apply Forall_app. split; [done|]. constructor; [apply Hb; left|constructor].
Qed.

Global Instance prop_le_trans : Transitive prop_le.
Proof. intros a b c. unfold prop_le. lia. Qed.
Global Instance prop_le_total : Total prop_le.
Proof. intros a b. unfold prop_le. lia. Qed.

Definition prop_key (a : proposal) : Z * Z := (pr_gain a, pr_tag a).

Lemma fmap_key_inj {A B} (f : A → B) (l : list A) a b : NoDup (f <$> l) → a ∈ l → b ∈ l → f a = f b → a = b.
Proof.
  intros Hnd [i Hi]%elem_of_list_lookup [j Hj]%elem_of_list_lookup Heq.
  assert (i = j) as ->.
  { eapply NoDup_lookup; [done|rewrite list_lookup_fmap, Hi; done|rewrite list_lookup_fmap, Hj; simpl; by rewrite Heq]. }
  congruence.
Qed.

Lemma merge_sort_unique (box ps : list proposal) :
  NoDup (prop_key <$> ps) → box ≡ₚ ps → merge_sort prop_le box = merge_sort prop_le ps.
Proof.
  intros Hnd Hp. apply (sorted_unique_on prop_le); [|by rewrite !merge_sort_Permutation|apply (StronglySorted_merge_sort _)..].
  intros a b Ha Hb Hab Hba. rewrite merge_sort_Permutation, Hp in Ha, Hb.
  eapply (fmap_key_inj prop_key); [done..|]. unfold prop_le, prop_key in *. f_equal; lia.
Qed.

(** ** The two loops *)
Definition changes (R : list proposal) : Z := zsum (pr_change <$> R).
Definition of_proc (t : Z) (R : list proposal) : list proposal := filter (λ a, pr_proc a = t) R.

Record rejected0 (p : nat) (mx : Z * Z) (q : list proposal) (r r' : rejections) (q' R : list proposal) : Prop := {
  r0_len : length (rj_num r') = p ∧ length (rj_done r') = p;
  r0_sub : ∀ a, a ∈ R → a ∈ q ∧ pr_change a > 0;
  r0_num : ∀ t x, zlookup (rj_num r) t = Some x → zlookup (rj_num r') t = Some (x + Z.of_nat (length (of_proc t R)));
  r0_ws : rj_ws r' = (fst (rj_ws r) - changes R, snd (rj_ws r) + changes R);
  r0_prefix : ∀ t, ∃ k, of_proc t R = take k (filter (λ a, pr_change a > 0) (of_proc t q));
  r0_done : ∀ t, zlookup (rj_done r) t = Some true → of_proc t R = [];
  r0_other : R ≠ [] → snd (rj_ws r') ≤ snd mx;
  r0_skip : fst (rj_ws r) ≤ fst mx → R = [] ∧ q' = q ∧ r' = r;
  r0_stop : q' = [] ∨ fst (rj_ws r') ≤ fst mx;
  r0_rest : ∀ a, a ∈ q' → a ∈ q;
}.
Record rejected1 (p : nat) (mx : Z * Z) (q : list proposal) (r r' : rejections) (q' R : list proposal) : Prop := {
  r1_len : length (rj_num r') = p ∧ length (rj_done r') = p;
  r1_sub : ∀ a, a ∈ R → a ∈ q ∧ pr_change a < 0;
  r1_num : ∀ t x, zlookup (rj_num r) t = Some x → zlookup (rj_num r') t = Some (x - Z.of_nat (length (of_proc t R)));
  r1_ws : rj_ws r' = (fst (rj_ws r) - changes R, snd (rj_ws r) + changes R);
  r1_prefix : ∀ t, ∃ k, of_proc t R = take k (filter (λ a, pr_change a < 0) (of_proc t q));
  r1_done : ∀ t, zlookup (rj_done r) t = Some true → of_proc t R = [];
  r1_other : R ≠ [] → fst (rj_ws r') ≤ fst mx;
  r1_skip : snd (rj_ws r) ≤ snd mx → R = [] ∧ q' = q ∧ r' = r;
  r1_stop : q' = [] ∨ snd (rj_ws r') ≤ snd mx;
  r1_rest : ∀ a, a ∈ q' → a ∈ q;
}.

Lemma of_proc_cons t a R : of_proc t (a :: R) = if decide (pr_proc a = t) then a :: of_proc t R else of_proc t R.
Proof. unfold of_proc. rewrite filter_cons. done. Qed.

Lemma reject_0_run (p : nat) mx q r :
  (∀ a, a ∈ q → 0 ≤ pr_proc a < Z.of_nat p) → length (rj_num r) = p → length (rj_done r) = p →
  ∃ r' q' R, (∀ w, reject_0 mx q r w = Ok ((r', q'), w)) ∧ rejected0 p mx q r r' q' R.
Proof.
  revert r. induction q as [|m q IH]; intros r Hp Hn Hd.
  { exists r, [], []. split; [done|]. split; try done.
    - by intros a ?%elem_of_nil.
    - intros t x Hx. rewrite Hx. simpl. f_equal. lia.
    - unfold changes. simpl. rewrite Z.sub_0_r, Z.add_0_r. by destruct (rj_ws r).
    - intros t. by exists 0%nat.
    - by left. }
  cbn [reject_0]. destruct (decide (fst (rj_ws r) > fst mx)) as [Hov|Hov]; cycle 1.
  { exists r, (m :: q), []. split; [done|]. split; try done.
    - by intros a ?%elem_of_nil.
    - intros t x Hx. rewrite Hx. simpl. f_equal. lia.
    - unfold changes. simpl. rewrite Z.sub_0_r, Z.add_0_r. by destruct (rj_ws r).
    - intros t. by exists 0%nat.
    - right. lia. }
  assert (0 ≤ pr_proc m < Z.of_nat p) as Hpm by (apply Hp; left).
  assert (∀ a, a ∈ q → 0 ≤ pr_proc a < Z.of_nat p) as Hp' by (intros a Ha; apply Hp; by right).
  destruct (decide (pr_change m > 0)) as [Hc|Hc]; cycle 1.
  { destruct (IH r Hp' Hn Hd) as (r' & q' & R & Hrun & HR). exists r', q', R. split; [exact Hrun|].
    destruct HR as [Hl Hs Hnum Hws Hpre Hdn Hoth Hsk Hst Hre]. split; try done.
    - intros a Ha. destruct (Hs a Ha). split; [by right|done].
    - intros t. destruct (Hpre t) as [k Hk]. exists k. rewrite Hk, of_proc_cons.
      destruct (decide (pr_proc m = t)); [|done]. rewrite filter_cons, decide_False by done. done.
    - intros a Ha. right. by apply Hre. }
  destruct (zlookup_is_Some (rj_done r) (pr_proc m)) as [d Hdm]; [lia|].
  assert (∀ A (k : bool → M A) w, bind (idx (rj_done r) (pr_proc m)) k w = k d w) as Hid.
  { intros A k w. unfold idx. rewrite Hdm. done. }
  destruct d.
  { destruct (IH r Hp' Hn Hd) as (r' & q' & R & Hrun & HR). exists r', q', R.
    split. { intros w. unfold bind at 1. rewrite Hid. exact (Hrun w). }
    destruct HR as [Hl Hs Hnum Hws Hpre Hdn Hoth Hsk Hst Hre]. split; try done.
    - intros a Ha. destruct (Hs a Ha). split; [by right|done].
    - intros t. rewrite of_proc_cons. destruct (decide (pr_proc m = t)) as [<-|].
      + exists 0%nat. by rewrite (Hdn _ Hdm).
      + apply Hpre.
    - intros a Ha. right. by apply Hre. }
  destruct (decide (snd (rj_ws r) + pr_change m ≤ snd mx)) as [Hfit|Hfit].
  - destruct (zlookup_is_Some (rj_num r) (pr_proc m)) as [x Hx]; [lia|].
    set (r1 := Rej (zinsert (pr_proc m) (x + 1) (rj_num r)) (rj_done r) (fst (rj_ws r) - pr_change m, snd (rj_ws r) + pr_change m)).
    destruct (IH r1 Hp') as (r' & q' & R & Hrun & HR); [by simpl; rewrite zinsert_length|done|]. exists r', q', (m :: R).
    split. { intros w. unfold bind at 1. rewrite Hid. cbn [negb]. unfold aadd, idx. rewrite Hx. exact (Hrun w). }
    destruct HR as [Hl Hs Hnum Hws Hpre Hdn Hoth Hsk Hst Hre].
    assert (rj_ws r' = (fst (rj_ws r) - changes (m :: R), snd (rj_ws r) + changes (m :: R))) as Hws'.
    { rewrite Hws. unfold r1, changes. cbn [rj_ws fst snd]. csimpl. rewrite zsum_cons. f_equal; lia. }
    split; try done.
    + intros a [-> |Ha]%elem_of_cons; [split; [left|done]|]. destruct (Hs a Ha). split; [by right|done].
    + intros t y Hy. assert (zlookup (rj_num r1) t = Some (if decide (pr_proc m = t) then y + 1 else y)) as Hy'.
      { unfold r1. cbn [rj_num]. rewrite zlookup_zinsert by lia.
        destruct (decide (pr_proc m = t)) as [<-|]; [congruence|done]. }
      rewrite (Hnum _ _ Hy'), of_proc_cons. f_equal. destruct (decide (pr_proc m = t)); cbn [length]; lia.
    + intros t. destruct (Hpre t) as [k Hk]. rewrite !of_proc_cons. destruct (decide (pr_proc m = t)) as [<-|].
      * exists (Datatypes.S k). rewrite filter_cons, decide_True by done. simpl. by rewrite Hk.
      * by exists k.
    + intros t Ht. rewrite of_proc_cons. destruct (decide (pr_proc m = t)) as [<-|]; [congruence|]. by apply Hdn.
    + intros _. destruct R as [|a R]; [|by apply Hoth]. rewrite Hws'. unfold changes. csimpl. unfold zsum. simpl. lia.
    + intros a Ha. right. by apply Hre.
  - set (r1 := Rej (rj_num r) (zinsert (pr_proc m) true (rj_done r)) (rj_ws r)).
    destruct (IH r1 Hp') as (r' & q' & R & Hrun & HR); [done|by simpl; rewrite zinsert_length|]. exists r', q', R.
    split. { intros w. unfold bind at 1. rewrite Hid. exact (Hrun w). }
    destruct HR as [Hl Hs Hnum Hws Hpre Hdn Hoth Hsk Hst Hre].
    assert (zlookup (rj_done r1) (pr_proc m) = Some true) as Hd1.
    { simpl. rewrite zlookup_zinsert by lia. by rewrite decide_True. }
    split; try done.
    + intros a Ha. destruct (Hs a Ha). split; [by right|done].
    + intros t. rewrite of_proc_cons. destruct (decide (pr_proc m = t)) as [<-|].
      * exists 0%nat. by rewrite (Hdn _ Hd1).
      * apply Hpre.
    + intros t Ht. apply Hdn. simpl. rewrite zlookup_zinsert by lia. destruct (decide (pr_proc m = t)); done.
    + intros a Ha. right. by apply Hre.
Qed.

Lemma reject_1_run (p : nat) mx q r :
  (∀ a, a ∈ q → 0 ≤ pr_proc a < Z.of_nat p) → length (rj_num r) = p → length (rj_done r) = p →
  ∃ r' q' R, (∀ w, reject_1 mx q r w = Ok ((r', q'), w)) ∧ rejected1 p mx q r r' q' R.
Proof.
  revert r. induction q as [|m q IH]; intros r Hp Hn Hd.
  { exists r, [], []. split; [done|]. split; try done.
    - by intros a ?%elem_of_nil.
    - intros t x Hx. rewrite Hx. simpl. f_equal. lia.
    - unfold changes. simpl. rewrite Z.sub_0_r, Z.add_0_r. by destruct (rj_ws r).
    - intros t. by exists 0%nat.
    - by left. }
  cbn [reject_1]. destruct (decide (snd (rj_ws r) > snd mx)) as [Hov|Hov]; cycle 1.
  { exists r, (m :: q), []. split; [done|]. split; try done.
    - by intros a ?%elem_of_nil.
    - intros t x Hx. rewrite Hx. simpl. f_equal. lia.
    - unfold changes. simpl. rewrite Z.sub_0_r, Z.add_0_r. by destruct (rj_ws r).
    - intros t. by exists 0%nat.
    - right. lia. }
  assert (0 ≤ pr_proc m < Z.of_nat p) as Hpm by (apply Hp; left).
  assert (∀ a, a ∈ q → 0 ≤ pr_proc a < Z.of_nat p) as Hp' by (intros a Ha; apply Hp; by right).
  destruct (decide (pr_change m < 0)) as [Hc|Hc]; cycle 1.
  { destruct (IH r Hp' Hn Hd) as (r' & q' & R & Hrun & HR). exists r', q', R. split; [exact Hrun|].
    destruct HR as [Hl Hs Hnum Hws Hpre Hdn Hoth Hsk Hst Hre]. split; try done.
    - intros a Ha. destruct (Hs a Ha). split; [by right|done].
    - intros t. destruct (Hpre t) as [k Hk]. exists k. rewrite Hk, of_proc_cons.
      destruct (decide (pr_proc m = t)); [|done]. rewrite filter_cons, decide_False by done. done.
    - intros a Ha. right. by apply Hre. }
  destruct (zlookup_is_Some (rj_done r) (pr_proc m)) as [d Hdm]; [lia|].
  assert (∀ A (k : bool → M A) w, bind (idx (rj_done r) (pr_proc m)) k w = k d w) as Hid.
  { intros A k w. unfold idx. rewrite Hdm. done. }
  destruct d.
  { destruct (IH r Hp' Hn Hd) as (r' & q' & R & Hrun & HR). exists r', q', R.
    split. { intros w. unfold bind at 1. rewrite Hid. exact (Hrun w). }
    destruct HR as [Hl Hs Hnum Hws Hpre Hdn Hoth Hsk Hst Hre]. split; try done.
    - intros a Ha. destruct (Hs a Ha). split; [by right|done].
    - intros t. rewrite of_proc_cons. destruct (decide (pr_proc m = t)) as [<-|].
      + exists 0%nat. by rewrite (Hdn _ Hdm).
      + apply Hpre.
    - intros a Ha. right. by apply Hre. }
  destruct (decide (fst (rj_ws r) - pr_change m ≤ fst mx)) as [Hfit|Hfit].
  - destruct (zlookup_is_Some (rj_num r) (pr_proc m)) as [x Hx]; [lia|].
    set (r1 := Rej (zinsert (pr_proc m) (x + -1) (rj_num r)) (rj_done r) (fst (rj_ws r) - pr_change m, snd (rj_ws r) + pr_change m)).
    destruct (IH r1 Hp') as (r' & q' & R & Hrun & HR); [by simpl; rewrite zinsert_length|done|]. exists r', q', (m :: R).
    split. { intros w. unfold bind at 1. rewrite Hid. cbn [negb]. unfold aadd, idx. rewrite Hx. exact (Hrun w). }
    destruct HR as [Hl Hs Hnum Hws Hpre Hdn Hoth Hsk Hst Hre].
    assert (rj_ws r' = (fst (rj_ws r) - changes (m :: R), snd (rj_ws r) + changes (m :: R))) as Hws'.
    { rewrite Hws. unfold r1, changes. cbn [rj_ws fst snd]. csimpl. rewrite zsum_cons. f_equal; lia. }
    split; try done.
    + intros a [-> |Ha]%elem_of_cons; [split; [left|done]|]. destruct (Hs a Ha). split; [by right|done].
    + intros t y Hy. assert (zlookup (rj_num r1) t = Some (if decide (pr_proc m = t) then y + -1 else y)) as Hy'.
      { unfold r1. cbn [rj_num]. rewrite zlookup_zinsert by lia.
        destruct (decide (pr_proc m = t)) as [<-|]; [congruence|done]. }
      rewrite (Hnum _ _ Hy'), of_proc_cons. f_equal. destruct (decide (pr_proc m = t)); cbn [length]; lia.
    + intros t. destruct (Hpre t) as [k Hk]. rewrite !of_proc_cons. destruct (decide (pr_proc m = t)) as [<-|].
      * exists (Datatypes.S k). rewrite filter_cons, decide_True by done. simpl. by rewrite Hk.
      * by exists k.
    + intros t Ht. rewrite of_proc_cons. destruct (decide (pr_proc m = t)) as [<-|]; [congruence|]. by apply Hdn.
    + intros _. destruct R as [|a R]; [|by apply Hoth]. rewrite Hws'. unfold changes. csimpl. unfold zsum. simpl. lia.
    + intros a Ha. right. by apply Hre.
  - set (r1 := Rej (rj_num r) (zinsert (pr_proc m) true (rj_done r)) (rj_ws r)).
    destruct (IH r1 Hp') as (r' & q' & R & Hrun & HR); [done|by simpl; rewrite zinsert_length|]. exists r', q', R.
    split. { intros w. unfold bind at 1. rewrite Hid. exact (Hrun w). }
    destruct HR as [Hl Hs Hnum Hws Hpre Hdn Hoth Hsk Hst Hre].
    assert (zlookup (rj_done r1) (pr_proc m) = Some true) as Hd1.
    { simpl. rewrite zlookup_zinsert by lia. by rewrite decide_True. }
    split; try done.
    + intros a Ha. destruct (Hs a Ha). split; [by right|done].
    + intros t. rewrite of_proc_cons. destruct (decide (pr_proc m = t)) as [<-|].
      * exists 0%nat. by rewrite (Hdn _ Hd1).
      * apply Hpre.
    + intros t Ht. apply Hdn. simpl. rewrite zlookup_zinsert by lia. destruct (decide (pr_proc m = t)); done.
    + intros a Ha. right. by apply Hre.
Qed.

(** ** Both loops together *)
Definition signed (sg : bool) (a : proposal) : Prop := if sg then pr_change a > 0 else pr_change a < 0.
Global Instance signed_dec sg a : Decision (signed sg a).
Proof. destruct sg; unfold signed; apply _. Defined.
Definition sval (sg : bool) (n : nat) : Z := if sg then Z.of_nat n else - Z.of_nat n.

(** [R] are the proposals counted as rejected: all into the same part; the counts and weights follow
    from it; of every processor a prefix (in the sorted order) is rejected *)
Record rejection (p : nat) (mx : Z * Z) (q : list proposal) (ws : Z * Z) (num : list Z) (ws' : Z * Z) (sg : bool) (R : list proposal) : Prop := {
  re_len : length num = p;
  re_sub : ∀ a, a ∈ R → a ∈ q ∧ signed sg a;
  re_num : ∀ t, 0 ≤ t < Z.of_nat p → zlookup num t = Some (sval sg (length (of_proc t R)));
  re_ws : ws' = (fst ws - changes R, snd ws + changes R);
  re_prefix : ∀ t, ∃ k, of_proc t R = take k (filter (signed sg) (of_proc t q));
}.

Lemma changes_nil : changes [] = 0.
Proof. done. Qed.
Lemma foldl_changes q : foldl (λ b m, b + pr_change m) 0 q = changes q.
Proof.
  unfold changes. assert (∀ z, foldl (λ b m, b + pr_change m) z q = z + zsum (pr_change <$> q)) as ->; [|lia].
  induction q as [|m q IH]; intros z; csimpl; [unfold zsum; simpl; lia|]. rewrite IH, zsum_cons. lia.
Qed.

(** without the moves into part 0 that are still in the queue, part 0 is within its limit *)
Lemma reject_0_limit p mx q r r' q' R K :
  rejected0 p mx q r r' q' R → (∀ w, reject_0 mx q r w = Ok ((r', q'), w)) → length (rj_num r) = p → length (rj_done r) = p →
  (∀ a, a ∈ q → 0 ≤ pr_proc a < Z.of_nat p) →
  (∀ t, 0 ≤ t < Z.of_nat p → zlookup (rj_done r) t = Some false) →
  fst (rj_ws r) + snd (rj_ws r) = K → (∀ a, a ∈ q → pr_change a ≤ fst mx + snd mx - K) →
  fst (rj_ws r) - changes (filter (λ a, pr_change a > 0) q) ≤ fst mx →
  fst (rj_ws r') ≤ fst mx.
Proof.
  revert r R. induction q as [|m q IH]; intros r R HR Hrun Hn Hd Hp Hdone HK Hsl Hall.
  - specialize (Hrun w0). cbn in Hrun. injection Hrun as <- <-. rewrite filter_nil, changes_nil in Hall. lia.
  - cbn [reject_0] in Hrun. destruct (decide (fst (rj_ws r) > fst mx)) as [Hov|Hov]; cycle 1.
    { specialize (Hrun w0). injection Hrun as <- <-. lia. }
    assert (0 ≤ pr_proc m < Z.of_nat p) as Hpm by (apply Hp; left).
    assert (∀ a, a ∈ q → 0 ≤ pr_proc a < Z.of_nat p) as Hp' by (intros a Ha; apply Hp; by right).
    assert (∀ a, a ∈ q → pr_change a ≤ fst mx + snd mx - K) as Hsl' by (intros a Ha; apply Hsl; by right).
    pose proof (Hsl m (elem_of_list_here _ _)) as Hslm.
    rewrite filter_cons in Hall. destruct (decide (pr_change m > 0)) as [Hc|Hc]; cycle 1.
    { destruct (reject_0_run p mx q r Hp' Hn Hd) as (r1 & q1 & R1 & Hrun1 & HR1).
      specialize (Hrun w0). cbn in Hrun. rewrite Hrun1 in Hrun. injection Hrun as -> ->. by eapply IH. }
    pose proof (Hdone _ Hpm) as Hdm.
    destruct (zlookup_is_Some (rj_num r) (pr_proc m)) as [x Hx]; [lia|].
    specialize (Hrun w0). unfold bind at 1 2, idx at 1 in Hrun. rewrite Hdm in Hrun. cbn [of_option ret] in Hrun. cbn [ret] in Hrun.
    rewrite decide_True in Hrun by lia. unfold bind at 1, aadd, idx in Hrun. rewrite Hx in Hrun. cbn in Hrun.
    set (r1 := Rej (zinsert (pr_proc m) (x + 1) (rj_num r)) (rj_done r) (fst (rj_ws r) - pr_change m, snd (rj_ws r) + pr_change m)) in *.
    assert (length (rj_num r1) = p) as Hn1 by (simpl; by rewrite zinsert_length).
    destruct (reject_0_run p mx q r1 Hp' Hn1 Hd) as (r2 & q2 & R2 & Hrun2 & HR2).
    rewrite Hrun2 in Hrun. injection Hrun as -> ->. eapply (IH r1); try done.
    + simpl. lia.
    + cbn [rj_ws fst r1]. unfold changes in *. csimpl. rewrite fmap_cons, zsum_cons in Hall. lia.
Qed.

(** without the moves into part 1 that are still in the queue, part 1 is within its limit *)
Lemma reject_1_limit p mx q r r' q' R K :
  rejected1 p mx q r r' q' R → (∀ w, reject_1 mx q r w = Ok ((r', q'), w)) → length (rj_num r) = p → length (rj_done r) = p →
  (∀ a, a ∈ q → 0 ≤ pr_proc a < Z.of_nat p) →
  (∀ t, 0 ≤ t < Z.of_nat p → zlookup (rj_done r) t = Some false) →
  fst (rj_ws r) + snd (rj_ws r) = K → (∀ a, a ∈ q → - pr_change a ≤ fst mx + snd mx - K) →
  snd (rj_ws r) + changes (filter (λ a, pr_change a < 0) q) ≤ snd mx →
  snd (rj_ws r') ≤ snd mx.
Proof.
  revert r R. induction q as [|m q IH]; intros r R HR Hrun Hn Hd Hp Hdone HK Hsl Hall.
  - specialize (Hrun w0). cbn in Hrun. injection Hrun as <- <-. rewrite filter_nil, changes_nil in Hall. lia.
  - cbn [reject_1] in Hrun. destruct (decide (snd (rj_ws r) > snd mx)) as [Hov|Hov]; cycle 1.
    { specialize (Hrun w0). injection Hrun as <- <-. lia. }
    assert (0 ≤ pr_proc m < Z.of_nat p) as Hpm by (apply Hp; left).
    assert (∀ a, a ∈ q → 0 ≤ pr_proc a < Z.of_nat p) as Hp' by (intros a Ha; apply Hp; by right).
    assert (∀ a, a ∈ q → - pr_change a ≤ fst mx + snd mx - K) as Hsl' by (intros a Ha; apply Hsl; by right).
    pose proof (Hsl m (elem_of_list_here _ _)) as Hslm.
    rewrite filter_cons in Hall. destruct (decide (pr_change m < 0)) as [Hc|Hc]; cycle 1.
    { destruct (reject_1_run p mx q r Hp' Hn Hd) as (r1 & q1 & R1 & Hrun1 & HR1).
      specialize (Hrun w0). cbn in Hrun. rewrite Hrun1 in Hrun. injection Hrun as -> ->. by eapply IH. }
    pose proof (Hdone _ Hpm) as Hdm.
    destruct (zlookup_is_Some (rj_num r) (pr_proc m)) as [x Hx]; [lia|].
    specialize (Hrun w0). unfold bind at 1 2, idx at 1 in Hrun. rewrite Hdm in Hrun. cbn [of_option ret] in Hrun. cbn [ret] in Hrun.
    rewrite decide_True in Hrun by lia. unfold bind at 1, aadd, idx in Hrun. rewrite Hx in Hrun. cbn in Hrun.
    set (r1 := Rej (zinsert (pr_proc m) (x + -1) (rj_num r)) (rj_done r) (fst (rj_ws r) - pr_change m, snd (rj_ws r) + pr_change m)) in *.
    assert (length (rj_num r1) = p) as Hn1 by (simpl; by rewrite zinsert_length).
    destruct (reject_1_run p mx q r1 Hp' Hn1 Hd) as (r2 & q2 & R2 & Hrun2 & HR2).
    rewrite Hrun2 in Hrun. injection Hrun as -> ->. eapply (IH r1); try done.
    + simpl. lia.
    + cbn [rj_ws snd r1]. unfold changes in *. csimpl. rewrite fmap_cons, zsum_cons in Hall. lia.
Qed.

Lemma changes_filter_pos q : changes q - changes (filter (λ a, pr_change a > 0) q) ≤ 0.
Proof.
  unfold changes. induction q as [|a q IH]; [done|]. rewrite filter_cons. csimpl. rewrite zsum_cons.
  destruct (decide (pr_change a > 0)); csimpl; rewrite ?zsum_cons; lia.
Qed.
Lemma changes_filter_neg q : 0 ≤ changes q - changes (filter (λ a, pr_change a < 0) q).
Proof.
  unfold changes. induction q as [|a q IH]; [done|]. rewrite filter_cons. csimpl. rewrite zsum_cons.
  destruct (decide (pr_change a < 0)); csimpl; rewrite ?zsum_cons; lia.
Qed.

Lemma reject_queue_run (p : nat) mx q (ws1 : Z * Z) :
  (∀ a, a ∈ q → 0 ≤ pr_proc a < Z.of_nat p) →
  ∃ num ws' sg R, rejection p mx q ws1 num ws' sg R ∧
    (∀ s x w, zlookup num s = Some x →
      (r0 <- reject_0 mx q (Rej (replicate p 0) (replicate p false) ws1) ;;
       r1 <- reject_1 mx (snd r0) (fst r0) ;;
       n <- idx (rj_num (fst r1)) s ;;
       ret (n, rj_ws (fst r1))) w = Ok ((x, ws'), w)) ∧
    (within (fst ws1 - changes q, snd ws1 + changes q) mx →
     (∀ a, a ∈ q → Z.abs (pr_change a) ≤ fst mx + snd mx - (fst ws1 + snd ws1)) → within ws' mx).
Proof.
  intros Hp. set (r := Rej (replicate p 0) (replicate p false) ws1).
  assert (length (rj_num r) = p) as Hn by apply replicate_length.
  assert (length (rj_done r) = p) as Hd by apply replicate_length.
  assert (∀ t, 0 ≤ t < Z.of_nat p → zlookup (rj_num r) t = Some 0) as Hn0.
  { intros t Ht. apply zlookup_Some. split; [lia|]. apply lookup_replicate. split; [done|lia]. }
  assert (∀ t, 0 ≤ t < Z.of_nat p → zlookup (rj_done r) t = Some false) as Hd0.
  { intros t Ht. apply zlookup_Some. split; [lia|]. apply lookup_replicate. split; [done|lia]. }
  destruct (reject_0_run p mx q r Hp Hn Hd) as (r0 & q0 & R0 & Hrun0 & HR0).
  assert (∀ a, a ∈ q0 → 0 ≤ pr_proc a < Z.of_nat p) as Hp0.
  { intros a Ha. apply Hp. by eapply r0_rest. }
  destruct (r0_len _ _ _ _ _ _ _ HR0) as [Hn1 Hd1].
  destruct (reject_1_run p mx q0 r0 Hp0 Hn1 Hd1) as (r1 & q1 & R1 & Hrun1 & HR1).
  assert (∀ s x w, zlookup (rj_num r1) s = Some x →
    (r0 <- reject_0 mx q r ;; r1 <- reject_1 mx (snd r0) (fst r0) ;; n <- idx (rj_num (fst r1)) s ;;
       ret (n, rj_ws (fst r1))) w = Ok ((x, rj_ws r1), w)) as Hrun.
  { intros s x w Hx. unfold bind at 1. rewrite Hrun0. cbn [fst snd]. unfold bind at 1. rewrite Hrun1. cbn [fst snd].
    unfold bind, idx. rewrite Hx. done. }
  destruct (decide (fst ws1 ≤ fst mx)) as [Hle|Hgt].
  - destruct (r0_skip _ _ _ _ _ _ _ HR0 Hle) as (-> & -> & ->).
    exists (rj_num r1), (rj_ws r1), false, R1. split.
    + destruct HR1 as [Hl Hs Hnum Hws Hpre Hdn Hoth Hsk Hst Hre]. split.
      * apply Hl.
      * exact Hs.
      * intros t Ht. rewrite (Hnum t 0) by auto. done.
      * exact Hws.
      * exact Hpre.
    + split; [exact Hrun|]. intros [Hw0 Hw1] Habs. cbn [fst snd] in *.
      assert (snd (rj_ws r1) ≤ snd mx) as H1.
      { eapply (reject_1_limit p mx q r r1 q1 R1 (fst ws1 + snd ws1)); try done.
        - intros a Ha. pose proof (Habs a Ha). lia.
        - cbn [rj_ws r]. pose proof (changes_filter_neg q). lia. }
      split; [|done]. destruct R1 as [|a R1]; [|by eapply (r1_other _ _ _ _ _ _ _ HR1)].
      rewrite (r1_ws _ _ _ _ _ _ _ HR1), changes_nil. cbn [fst rj_ws r]. lia.
  - assert (R1 = []) as ->.
    { destruct R0 as [|a R0].
      - destruct (r0_stop _ _ _ _ _ _ _ HR0) as [-> |Hst].
        + destruct R1 as [|a R1]; [done|]. destruct (r1_sub _ _ _ _ _ _ _ HR1 a) as [Ha _]; [left|by apply elem_of_nil in Ha].
        + rewrite (r0_ws _ _ _ _ _ _ _ HR0), changes_nil in Hst. cbn [fst rj_ws r] in Hst. lia.
      - apply (r1_skip _ _ _ _ _ _ _ HR1). by apply (r0_other _ _ _ _ _ _ _ HR0). }
    assert (rj_ws r1 = rj_ws r0) as Hws1.
    { rewrite (r1_ws _ _ _ _ _ _ _ HR1), changes_nil, Z.sub_0_r, Z.add_0_r. by destruct (rj_ws r0). }
    exists (rj_num r1), (rj_ws r1), true, R0. split.
    + pose proof HR0 as [Hl Hs Hnum Hws Hpre Hdn Hoth Hsk Hst Hre]. split.
      * apply (r1_len _ _ _ _ _ _ _ HR1).
      * exact Hs.
      * intros t Ht. rewrite (r1_num _ _ _ _ _ _ _ HR1 t _ (Hnum t 0 (Hn0 t Ht))). f_equal. unfold sval. simpl. lia.
      * by rewrite Hws1.
      * exact Hpre.
    + split; [exact Hrun|]. intros [Hw0 Hw1] Habs. cbn [fst snd] in *. rewrite Hws1.
      assert (fst (rj_ws r0) ≤ fst mx) as H0.
      { eapply (reject_0_limit p mx q r r0 q0 R0 (fst ws1 + snd ws1)); try done.
        - intros a Ha. pose proof (Habs a Ha). lia.
        - cbn [rj_ws r]. pose proof (changes_filter_pos q). lia. }
      split; [done|]. destruct R0 as [|a R0]; [|by apply (r0_other _ _ _ _ _ _ _ HR0)].
      rewrite (r0_ws _ _ _ _ _ _ _ HR0), changes_nil in H0. cbn [fst rj_ws r] in H0. lia.
Qed.

(** ** The proposals of one processor *)
Definition props_of (s : Z) (ms : list kmove) : list proposal :=
  imap (λ i m, Proposal (km_gain m) (km_change m) s (Z.of_nat i)) ms.

Lemma props_of_elem s ms a : a ∈ props_of s ms →
  ∃ i m, ms !! i = Some m ∧ a = Proposal (km_gain m) (km_change m) s (Z.of_nat i).
Proof.
  intros [i Hi]%elem_of_list_lookup. unfold props_of in Hi. rewrite list_lookup_imap in Hi.
  destruct (ms !! i) as [m|] eqn:Hm; [|done]. injection Hi as <-. by exists i, m.
Qed.
Lemma of_proc_app t R R' : of_proc t (R ++ R') = of_proc t R ++ of_proc t R'.
Proof. apply filter_app. Qed.
Lemma of_proc_props_same s ms : of_proc s (props_of s ms) = props_of s ms.
Proof. apply filter_all. intros a (i & m & _ & ->)%props_of_elem. done. Qed.
Lemma of_proc_props_other t s ms : t ≠ s → of_proc t (props_of s ms) = [].
Proof. intros Hne. apply filter_none. intros a (i & m & _ & ->)%props_of_elem. simpl. congruence. Qed.

Lemma elem_of_concat {A} (ls : list (list A)) x : x ∈ concat ls ↔ ∃ l, x ∈ l ∧ l ∈ ls.
Proof.
  rewrite elem_of_list_In, in_concat. setoid_rewrite elem_of_list_In. naive_solver.
Qed.
Lemma proposals_elem mss a : a ∈ proposals mss ↔ ∃ t ms, mss !! t = Some ms ∧ a ∈ props_of (Z.of_nat t) ms.
Proof.
  unfold proposals. rewrite elem_of_concat. split.
  - intros (l & Hal & Hl). apply elem_of_list_lookup in Hl as [t Ht]. rewrite list_lookup_imap in Ht.
    destruct (mss !! t) as [ms|] eqn:Hms; [|done]. injection Ht as <-. by exists t, ms.
  - intros (t & ms & Ht & Ha). eexists. split; [exact Ha|]. apply elem_of_list_lookup. exists t.
    rewrite list_lookup_imap, Ht. done.
Qed.
Lemma concat_filter {A} (P : A → Prop) {HP : ∀ x, Decision (P x)} (ls : list (list A)) :
  filter P (concat ls) = concat (filter P <$> ls).
Proof. induction ls as [|l ls IH]; [done|]. csimpl. rewrite filter_app. by rewrite IH. Qed.
Lemma concat_one {A} (ls : list (list A)) t l :
  ls !! t = Some l → (∀ i x, ls !! i = Some x → i ≠ t → x = []) → concat ls = l.
Proof.
  revert t. induction ls as [|x ls IH]; intros t Ht Ho; [done|]. destruct t as [|t]; cbn [lookup list_lookup] in Ht.
  - injection Ht as ->. cbn [concat]. assert (concat ls = []) as ->; [|apply app_nil_r].
    clear IH. assert (∀ i x, ls !! i = Some x → x = []) as Hn by (intros i x Hi; by apply (Ho (Datatypes.S i))). clear Ho.
    induction ls as [|y ls IH]; [done|]. cbn [concat]. rewrite (Hn 0%nat y) by done. apply IH. intros i z Hi. by apply (Hn (Datatypes.S i)).
  - cbn [concat]. rewrite (Ho 0%nat x) by done. eapply IH; [done|]. intros i z Hi Hne. apply (Ho (Datatypes.S i)); [done|lia].
Qed.
Lemma of_proc_proposals mss t ms : mss !! t = Some ms → of_proc (Z.of_nat t) (proposals mss) = props_of (Z.of_nat t) ms.
Proof.
  intros Ht. unfold proposals, of_proc. rewrite concat_filter. apply (concat_one _ t).
  - rewrite list_lookup_fmap, list_lookup_imap, Ht. simpl. f_equal. apply of_proc_props_same.
  - intros i x Hi Hne. rewrite list_lookup_fmap, list_lookup_imap in Hi. destruct (mss !! i) as [ms'|]; [|done].
    simpl in Hi. injection Hi as <-. apply of_proc_props_other. lia.
Qed.
Lemma proposals_procs mss a : a ∈ proposals mss → 0 ≤ pr_proc a < Z.of_nat (length mss).
Proof. intros (t & ms & Ht%lookup_lt_Some & (i & m & _ & ->)%props_of_elem)%proposals_elem. simpl. lia. Qed.

(** ** Sums *)
Lemma changes_by_proc p R : (∀ a, a ∈ R → 0 ≤ pr_proc a < Z.of_nat p) →
  changes R = zsum ((λ t : nat, changes (of_proc (Z.of_nat t) R)) <$> seq 0 p).
Proof.
  intros Hp. unfold changes, of_proc.
  rewrite (zsum_fmap_ext _ (λ t : nat, zsum ((λ a, if decide (pr_proc a = Z.of_nat t) then pr_change a else 0) <$> R)))
    by (intros t _; apply zsum_filter_if).
  rewrite zsum_fmap_swap. apply zsum_fmap_ext. intros a Ha. symmetry.
  specialize (Hp a Ha). rewrite (zsum_single _ _ (Z.to_nat (pr_proc a))).
  - rewrite decide_True by lia. done.
  - apply NoDup_seq.
  - apply elem_of_seq. lia.
  - intros t _ Hne. rewrite decide_False by lia. done.
Qed.

Lemma fmap_filter {A B} (f : A → B) (P : B → Prop) (Q : A → Prop) {HP : ∀ x, Decision (P x)} {HQ : ∀ x, Decision (Q x)} (l : list A) :
  (∀ a, a ∈ l → Q a ↔ P (f a)) → f <$> filter Q l = filter P (f <$> l).
Proof.
  intros HPQ. induction l as [|a l IH]; [done|]. rewrite filter_cons. csimpl. rewrite filter_cons.
  assert (Q a ↔ P (f a)) as Ha by (apply HPQ; left).
  assert (f <$> filter Q l = filter P (f <$> l)) as Hl by (apply IH; intros b Hb; apply HPQ; by right).
  destruct (decide (Q a)); [rewrite decide_True by tauto|rewrite decide_False by tauto]; [csimpl|]; by rewrite Hl.
Qed.
Lemma zsum_const l c : (∀ x, x ∈ l → x = c) → zsum l = Z.of_nat (length l) * c.
Proof.
  induction l as [|x l IH]; intros Hc; [done|]. rewrite zsum_cons. cbn [length]. rewrite IH by (intros y Hy; apply Hc; by right).
  rewrite (Hc x) by left. lia.
Qed.

Definition sgZ (sg : bool) (c : Z) : Prop := if sg then c > 0 else c < 0.
Global Instance sgZ_dec sg c : Decision (sgZ sg c).
Proof. destruct sg; unfold sgZ; apply _. Defined.

Lemma total_change_undone sg n ms :
  total_change (undone (sval sg n) ms) = zsum (take n (filter (sgZ sg) (reverse (km_change <$> ms)))).
Proof.
  unfold total_change, undone. destruct (decide (n = 0%nat)) as [-> |Hn].
  { assert (Z.abs (sval sg 0) = 0) as -> by (destruct sg; done). done. }
  rewrite fmap_take. assert (Z.to_nat (Z.abs (sval sg n)) = n) as -> by (destruct sg; simpl; lia).
  rewrite (fmap_filter km_change (sgZ sg) (λ m, 0 < sval sg n * km_change m)).
  - by rewrite fmap_reverse.
  - intros m _. destruct sg; simpl; nia.
Qed.
Lemma props_of_changes s ms : pr_change <$> props_of s ms = km_change <$> ms.
Proof.
  unfold props_of. apply list_eq. intros i. rewrite !list_lookup_fmap, list_lookup_imap. by destruct (ms !! i).
Qed.
Lemma signed_sgZ sg a : signed sg a ↔ sgZ sg (pr_change a).
Proof. by destruct sg. Qed.

(** the part of the sorted queue of processor [t] *)
Lemma sorted_proc mss t ms : mss !! t = Some ms →
  of_proc (Z.of_nat t) (merge_sort prop_le (proposals mss)) ≡ₚ props_of (Z.of_nat t) ms.
Proof.
  intros Ht. rewrite <-(of_proc_proposals mss t ms Ht). unfold of_proc. by rewrite merge_sort_Permutation.
Qed.
Lemma sorted_proc_fall mss t ms : mss !! t = Some ms → gains_fall ms →
  of_proc (Z.of_nat t) (merge_sort prop_le (proposals mss)) = reverse (props_of (Z.of_nat t) ms).
Proof.
  intros Ht Hg. pose proof (sorted_proc mss t ms Ht) as Hp.
  apply (sorted_unique_on prop_le).
  - intros a b Ha Hb Hab Hba. rewrite Hp in Ha, Hb.
    apply props_of_elem in Ha as (i & m & Hi & ->). apply props_of_elem in Hb as (j & m' & Hj & ->).
    unfold prop_le in *. simpl in *. assert (i = j) as -> by lia. congruence.
  - by rewrite Hp, reverse_Permutation.
  - apply StronglySorted_filter. apply (StronglySorted_merge_sort _).
  - clear Hp Ht. unfold props_of.
    assert (∀ k, StronglySorted prop_le (reverse (imap (λ i m, Proposal (km_gain m) (km_change m) (Z.of_nat t) (Z.of_nat (k + i))) ms))) as Hk;
      [|exact (Hk 0%nat)].
    induction ms as [|m ms IH]; intros k; [constructor|]. rewrite imap_cons, reverse_cons.
    assert (gains_fall ms) as Hg'.
    { intros i j a b Hij Hi Hj. apply (Hg (Datatypes.S i) (Datatypes.S j)); [lia|done|done]. }
    specialize (IH Hg' (Datatypes.S k)).
    rewrite (imap_ext _ (λ i m, Proposal (km_gain m) (km_change m) (Z.of_nat t) (Z.of_nat (Datatypes.S k + i))))
      by (intros i x _; unfold compose; f_equal; lia).
    apply StronglySorted_snoc; [done|]. intros a Ha.
    rewrite elem_of_reverse in Ha. apply elem_of_list_lookup in Ha as [i Hi]. rewrite list_lookup_imap in Hi.
    destruct (ms !! i) as [m'|] eqn:Hm'; [|done]. simpl in Hi. injection Hi as <-.
    assert (km_gain m' ≤ km_gain m) as Hle by (apply (Hg 0%nat (Datatypes.S i)); [lia|done|done]).
    unfold prop_le. simpl. lia.
Qed.

(** ** The tracked weights against the moves that are taken back *)
Lemma rejection_counts p mx mss ws num ws' sg R t ms :
  rejection p mx (merge_sort prop_le (proposals mss)) ws num ws' sg R → mss !! t = Some ms →
  gains_fall ms ∨ same_weights ms →
  changes (of_proc (Z.of_nat t) R) = total_change (undone (sval sg (length (of_proc (Z.of_nat t) R))) ms).
Proof.
  intros HR Ht Hor. rewrite total_change_undone.
  destruct (re_prefix _ _ _ _ _ _ _ _ HR (Z.of_nat t)) as [k Hk].
  set (q := of_proc (Z.of_nat t) (merge_sort prop_le (proposals mss))) in *.
  set (n := length (of_proc (Z.of_nat t) R)).
  assert (of_proc (Z.of_nat t) R = take n (filter (signed sg) q)) as Hn.
  { unfold n. rewrite Hk, take_length. destruct (decide (k ≤ length (filter (signed sg) q))%nat).
    - by rewrite Nat.min_l.
    - rewrite Nat.min_r, take_ge, take_ge by lia. done. }
  rewrite Hn. unfold changes. rewrite fmap_take.
  rewrite (fmap_filter pr_change (sgZ sg) (signed sg)) by (intros a _; apply signed_sgZ).
  destruct Hor as [Hg|Hw].
  - unfold q. rewrite (sorted_proc_fall mss t ms Ht Hg), fmap_reverse, props_of_changes. done.
  - assert (q ≡ₚ props_of (Z.of_nat t) ms) as Hq by by apply sorted_proc.
    assert (pr_change <$> q ≡ₚ reverse (km_change <$> ms)) as Hqc.
    { rewrite Hq, props_of_changes. by rewrite reverse_Permutation. }
    assert (∀ l : list Z, (∀ x, x ∈ l → x ∈ km_change <$> ms ∧ sgZ sg x) → ∀ x y, x ∈ l → y ∈ l → x = y) as Hsame.
    { intros l Hl x y [Hx Hsx]%Hl [Hy Hsy]%Hl. apply elem_of_list_fmap in Hx as (a & -> & Ha).
      apply elem_of_list_fmap in Hy as (b & -> & Hb). apply Hw; [done|done|]. destruct sg; simpl in *; nia. }
    set (l1 := filter (sgZ sg) (pr_change <$> q)). set (l2 := filter (sgZ sg) (reverse (km_change <$> ms))).
    assert (l1 ≡ₚ l2) as H12 by (unfold l1, l2; by rewrite Hqc).
    assert (∀ x, x ∈ l2 → x ∈ km_change <$> ms ∧ sgZ sg x) as H2.
    { intros x [Hs Hx]%elem_of_list_filter. by rewrite elem_of_reverse in Hx. }
    destruct l2 as [|c l2'] eqn:El2.
    { apply Permutation_sym, Permutation_nil in H12. by rewrite H12. }
    assert (∀ x, x ∈ l2 → x = c) as Hc.
    { intros x Hx. rewrite El2 in Hx. apply (Hsame (c :: l2')); [done|done|left]. }
    rewrite (zsum_const _ c), (zsum_const (take n (c :: l2')) c).
    + rewrite !take_length. by rewrite H12.
    + intros x Hx. apply Hc. rewrite El2. apply elem_of_take in Hx as (i & Hi & _). by eapply elem_of_list_lookup_2.
    + intros x Hx. apply Hc. rewrite El2, <-H12. apply elem_of_take in Hx as (i & Hi & _). by eapply elem_of_list_lookup_2.
Qed.

Lemma feasible_slack ws mx ms m : feasible ws mx ms → m ∈ ms → Z.abs (km_change m) ≤ fst mx + snd mx - (fst ws + snd ws).
Proof.
  intros Hf [i Hi]%elem_of_list_lookup. pose proof (Hf i) as [H1 H2]. pose proof (Hf (Datatypes.S i)) as [H3 H4].
  assert (total_change (take (Datatypes.S i) ms) = total_change (take i ms) + km_change m) as Ht.
  { unfold total_change. rewrite (take_S_r _ _ m Hi), fmap_app, zsum_app. csimpl. rewrite zsum_cons. unfold zsum at 2. simpl. lia. }
  simpl in *. rewrite Ht in *. lia.
Qed.

Lemma proposals_changes mss : changes (proposals mss) = zsum (total_change <$> mss).
Proof.
  rewrite (changes_by_proc (length mss) _ (proposals_procs mss)).
  unfold changes.
  assert (mss = (λ t : nat, default [] (mss !! t)) <$> seq 0 (length mss)) as Hs.
  { apply list_eq. intros i. rewrite list_lookup_fmap. destruct (decide (i < length mss)%nat).
    - rewrite lookup_seq_lt by lia. simpl. destruct (mss !! i) eqn:E; [done|]. apply lookup_ge_None in E. lia.
    - rewrite (lookup_ge_None_2 mss), (lookup_ge_None_2 (seq _ _)) by (rewrite ?seq_length; lia). done. }
  transitivity (zsum (total_change <$> ((λ t : nat, default [] (mss !! t)) <$> seq 0 (length mss)))); [|by rewrite <-Hs].
  rewrite <-list_fmap_compose. apply zsum_fmap_ext. intros t Ht%elem_of_seq.
  unfold compose. destruct (lookup_lt_is_Some_2 mss t) as [ms Hms]; [lia|].
  rewrite Hms. simpl. rewrite (of_proc_proposals mss t ms Hms), props_of_changes. done.
Qed.

Lemma rejection_true p mx mss ws num ws' sg R :
  p = length mss →
  rejection p mx (merge_sort prop_le (proposals mss)) (fst ws + zsum (total_change <$> mss), snd ws - zsum (total_change <$> mss)) num ws' sg R →
  (∀ ms, ms ∈ mss → gains_fall ms ∨ same_weights ms) →
  let d := zsum (imap (λ t ms, total_change ms - total_change (undone (default 0 (zlookup num (Z.of_nat t))) ms)) mss) in
  ws' = (fst ws + d, snd ws - d).
Proof.
  intros -> HR Hor. cbn zeta. rewrite (re_ws _ _ _ _ _ _ _ _ HR). simpl.
  assert (changes R = zsum (imap (λ t ms, total_change (undone (default 0 (zlookup num (Z.of_nat t))) ms)) mss)) as HcR.
  { rewrite (changes_by_proc (length mss)).
    - f_equal. apply list_eq. intros t. rewrite list_lookup_fmap, list_lookup_imap.
      destruct (decide (t < length mss)%nat).
      + rewrite lookup_seq_lt by lia. destruct (lookup_lt_is_Some_2 mss t) as [ms Hms]; [lia|]. rewrite Hms. simpl. f_equal.
        rewrite (re_num _ _ _ _ _ _ _ _ HR) by lia. simpl.
        eapply rejection_counts; [done|done|]. apply Hor. by eapply elem_of_list_lookup_2.
      + rewrite (lookup_ge_None_2 mss), (lookup_ge_None_2 (seq _ _)) by (rewrite ?seq_length; lia). done.
    - intros a [Ha _]%(re_sub _ _ _ _ _ _ _ _ HR). rewrite merge_sort_Permutation in Ha. by apply proposals_procs. }
  rewrite HcR.
  assert (∀ f : nat → list kmove → Z, zsum (imap (λ t ms, total_change ms - f t ms) mss) = zsum (total_change <$> mss) - zsum (imap f mss)) as Hz.
  { clear. intros f. revert f. induction mss as [|ms mss IH]; intros f; [done|]. rewrite !imap_cons, fmap_cons, !zsum_cons.
    unfold compose. rewrite (IH (λ i, f (Datatypes.S i))). lia. }
  rewrite (Hz (λ t ms, total_change (undone (default 0 (zlookup num (Z.of_nat t))) ms))). f_equal; lia.
Qed.
