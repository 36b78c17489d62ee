(** Rules for the primitives of Par.v: local computations, message exchange, aggregation by owner. *)
From Verif Require Export Par HgDup InitialProof.

Lemma wpe_mapP {A B} E (f : A → M B) (R : nat → A → B → Prop) (l : list A) (Q : list B → Prop) :
  (∀ i x, l !! i = Some x → wpe E (f x) (R i x)) →
  (∀ l', length l' = length l → (∀ i x y, l !! i = Some x → l' !! i = Some y → R i x y) → Q l') →
  wpe E (mapP f l) Q.
Proof.
  revert R Q; induction l as [|x l IH]; intros R Q Hf HQ; simpl.
  - apply wpe_ret, HQ; [done|]. intros i x y Hi. by rewrite lookup_nil in Hi.
  - apply wpe_bind. eapply wpe_mono; [by apply (Hf 0%nat)|]. intros y Hy.
    apply wpe_bind. eapply (IH (λ i, R (S i))); [intros i z Hi; by apply (Hf (S i))|].
    intros l' Hlen Hl'. apply wpe_ret, HQ; [simpl; lia|].
    intros [|i] z z'; simpl; [by intros [= <-] [= <-]|apply Hl'].
Qed.

(** one local computation per rank *)
Lemma wpe_ranks {B} E (f : nat → M B) p (R : nat → B → Prop) (Q : list B → Prop) :
  (∀ t, (t < p)%nat → wpe E (f t) (R t)) →
  (∀ l', length l' = p → (∀ t y, l' !! t = Some y → R t y) → Q l') →
  wpe E (mapP f (seq 0 p)) Q.
Proof.
  intros Hf HQ. apply (wpe_mapP E f (λ _, R)).
  - intros i x Hi. apply lookup_seq in Hi as [-> Hi]. by apply Hf.
  - rewrite seq_length. intros l' Hlen Hl'. apply HQ; [done|]. intros t y Hy.
    apply (Hl' t t); [|done]. apply lookup_seq. split; [done|]. apply lookup_lt_Some in Hy. lia.
Qed.

Lemma wpe_exchange {A} E (outs : list (list (Z * A))) (Q : list (list A) → Prop) :
  (∀ m, m ∈ concat outs → 0 ≤ fst m < Z.of_nat (length outs)) →
  (∀ ins, length ins = length outs →
     (∀ t box, ins !! t = Some box → box ≡ₚ snd <$> filter (λ m : Z * A, fst m = Z.of_nat t) (concat outs)) → Q ins) →
  wpe E (exchange outs) Q.
Proof.
  intros Hd HQ. unfold exchange. apply wpe_bind, wpe_guard.
  { apply bool_decide_eq_true, Forall_forall, Hd. }
  eapply (wpe_ranks _ _ _ (λ t box, box ≡ₚ snd <$> filter (λ m : Z * A, fst m = Z.of_nat t) (concat outs))); [|apply HQ].
  intros t Ht. by apply wpe_shuffle.
Qed.

(** aggregation into an array *)
Definition agg {A B X} (op : A → B → A) (loc : X → Z) (val : X → B) (box : list X) (i : nat) (a : A) : A :=
  foldl op a (val <$> filter (λ m, loc m = Z.of_nat i) box).
Lemma wpe_agg {A B X} E (op : A → B → A) (loc : X → Z) (val : X → B) (box : list X) (a : list A) (Q : list A → Prop) :
  (∀ m, m ∈ box → 0 ≤ loc m < Z.of_nat (length a)) →
  Q (imap (agg op loc val box) a) →
  wpe E (foldM (λ s m, aadd op s (loc m) (val m)) box a) Q.
Proof.
  intros Hr HQ. eapply (wpe_foldM E _ (λ ds s, s = imap (agg op loc val ds) a)).
  - apply list_eq. intros i. rewrite list_lookup_imap. by destruct (a !! i).
  - intros ds m ts s -> ->. unfold aadd.
    assert (0 ≤ loc m < Z.of_nat (length a)) as Hm by (apply Hr; set_solver).
    destruct (lookup_lt_is_Some_2 a (Z.to_nat (loc m))) as [x Hx]; [lia|].
    apply wpe_bind. eapply wpe_idx.
    { apply zlookup_Some. split; [lia|]. rewrite list_lookup_imap, Hx. simpl. done. }
    apply wpe_ret. apply list_eq. intros i. unfold zinsert.
    destruct (decide (i = Z.to_nat (loc m))) as [->|Hne].
    + rewrite list_lookup_insert by (rewrite imap_length; lia). rewrite list_lookup_imap, Hx. simpl. f_equal.
      unfold agg. rewrite filter_app, filter_cons, decide_True, filter_nil by lia.
      rewrite fmap_app, foldl_app. done.
    + rewrite list_lookup_insert_ne by done. rewrite !list_lookup_imap. destruct (a !! i) as [y|]; [|done]. simpl. f_equal.
      unfold agg. rewrite filter_app, filter_cons, decide_False, filter_nil by lia. by rewrite app_nil_r.
  - intros s ->. done.
Qed.

Lemma foldl_add_acc (l : list Z) z : foldl Z.add z l = z + zsum l.
Proof. revert z; induction l as [|x l IH]; intros z; simpl; [unfold zsum; simpl; lia|]. rewrite IH, zsum_cons. lia. Qed.

Lemma agg_add {X} (loc val : X → Z) box i :
  agg Z.add loc val box i 0 = zsum (val <$> filter (λ m, loc m = Z.of_nat i) box).
Proof. unfold agg. rewrite foldl_add_acc. lia. Qed.

(** all indices, processor by processor *)
Definition all_indices (p : nat) (part : partitioning) : list Z :=
  concat ((λ t : nat, (λ i, pa_global part i (Z.of_nat t)) <$> seqZ 0 (pa_count part (Z.of_nat t))) <$> seq 0 p).
Lemma all_indices_perm p n part : lawful (Z.of_nat p) n part → all_indices p part ≡ₚ seqZ 0 n.
Proof.
  intros HL. apply NoDup_Permutation.
  - unfold all_indices.
    assert (∀ ts, NoDup ts → (∀ t, t ∈ ts → (t < p)%nat) →
      NoDup (concat ((λ t : nat, (λ i, pa_global part i (Z.of_nat t)) <$> seqZ 0 (pa_count part (Z.of_nat t))) <$> ts))) as Hgen.
    { induction ts as [|t ts IH]; intros Hnd Hts; [constructor|]. csimpl. apply NoDup_cons in Hnd as [Hn Hnd].
      apply NoDup_app. split; [|split].
      - apply NoDup_fmap_2_strong; [|apply NoDup_seqZ]. intros i j Hi Hj Heq.
        apply elem_of_seqZ in Hi, Hj. assert (t < p)%nat by (apply Hts; set_solver).
        pose proof (la_inv _ _ _ HL (Z.of_nat t) i ltac:(lia) ltac:(lia)) as (_ & _ & <-).
        pose proof (la_inv _ _ _ HL (Z.of_nat t) j ltac:(lia) ltac:(lia)) as (_ & _ & <-). by rewrite Heq.
      - intros x (i & -> & Hi)%elem_of_list_fmap. rewrite elem_of_list_In, in_concat. intros (l' & Hl' & Hx).
        apply elem_of_list_In, elem_of_list_fmap in Hl' as (t' & -> & Ht').
        apply elem_of_list_In, elem_of_list_fmap in Hx as (j & Heq & Hj).
        apply elem_of_seqZ in Hi, Hj. assert (t < p)%nat by (apply Hts; set_solver). assert (t' < p)%nat by (apply Hts; set_solver).
        pose proof (la_inv _ _ _ HL (Z.of_nat t) i ltac:(lia) ltac:(lia)) as (_ & H1 & _).
        pose proof (la_inv _ _ _ HL (Z.of_nat t') j ltac:(lia) ltac:(lia)) as (_ & H2 & _).
        rewrite Heq in H1. rewrite H1 in H2. assert (t = t') as -> by lia. done.
      - apply IH; [done|]. set_solver. }
    apply Hgen; [apply NoDup_seq|]. intros t [_ Ht]%elem_of_seq. lia.
  - apply NoDup_seqZ.
  - intros x. unfold all_indices. rewrite elem_of_list_In, in_concat. rewrite elem_of_seqZ. split.
    + intros (l' & Hl' & Hx). apply elem_of_list_In, elem_of_list_fmap in Hl' as (t' & -> & Ht').
      apply elem_of_list_In, elem_of_list_fmap in Hx as (j & Heq & Hj). apply elem_of_seqZ in Hj. apply elem_of_seq in Ht'.
      pose proof (la_inv _ _ _ HL (Z.of_nat t') j ltac:(lia) ltac:(lia)) as (H1 & _). subst x. lia.
    + intros Hx. pose proof (la_owner _ _ _ HL x ltac:(lia)) as Ho. pose proof (la_local _ _ _ HL x ltac:(lia)) as Hl.
      eexists. split; [apply elem_of_list_In, elem_of_list_fmap; exists (Z.to_nat (pa_owner part x)); split; [done|]; apply elem_of_seq; lia|].
      apply elem_of_list_In, elem_of_list_fmap. exists (pa_local part x). rewrite Z2Nat.id by lia. split.
      * symmetry. apply (la_global _ _ _ HL). lia.
      * apply elem_of_seqZ. lia.
Qed.

(** sums over owners are sums over all indices *)
Lemma zsum_owners p n part (f : Z → Z) : lawful (Z.of_nat p) n part →
  zsum ((λ t : nat, zsum ((λ i, f (pa_global part i (Z.of_nat t))) <$> seqZ 0 (pa_count part (Z.of_nat t)))) <$> seq 0 p) =
  zsum (f <$> seqZ 0 n).
Proof.
  intros HL. rewrite <-(all_indices_perm p n part HL). unfold all_indices.
  generalize (seq 0 p). intros ts. induction ts as [|t ts IH]; [done|]. csimpl.
  rewrite zsum_cons, fmap_app, zsum_app, IH. f_equal. by rewrite <-list_fmap_compose.
Qed.

(** ** The pieces of nets *)
Lemma all_nets_elem Hs n : n ∈ all_nets Hs ↔ ∃ H, H ∈ Hs ∧ n ∈ h_nets H.
Proof.
  unfold all_nets. rewrite elem_of_list_In, in_concat. split.
  - intros (l & Hl & Hn). apply elem_of_list_In, elem_of_list_fmap in Hl as (H & -> & HH). exists H. split; [done|by apply elem_of_list_In].
  - intros (H & HH & Hn). exists (h_nets H). split; [|by apply elem_of_list_In]. apply elem_of_list_In, elem_of_list_fmap. eauto.
Qed.
Lemma all_verts_elem Hs v : v ∈ all_verts Hs ↔ ∃ H, H ∈ Hs ∧ v ∈ h_verts H.
Proof.
  unfold all_verts. rewrite elem_of_list_In, in_concat. split.
  - intros (l & Hl & Hn). apply elem_of_list_In, elem_of_list_fmap in Hl as (H & -> & HH). exists H. split; [done|by apply elem_of_list_In].
  - intros (H & HH & Hn). exists (h_verts H). split; [|by apply elem_of_list_In]. apply elem_of_list_In, elem_of_list_fmap. eauto.
Qed.
Lemma gpart_elem Hs v : NoDup (v_id <$> all_verts Hs) → v ∈ all_verts Hs → gpart Hs (v_id v) = v_part v.
Proof. intros Hnd Hv. unfold gpart. destruct (list_find_id v_id (all_verts Hs) v) as [i ->]; done. Qed.
Lemma gpart_local gn Hs H u : distributed gn Hs → H ∈ Hs → u ∈ vids H → gpart Hs u = part_of H u.
Proof.
  intros HD HH (v & Hv & <-)%vids_elem. rewrite gpart_elem; [|apply (di_verts _ _ HD)|apply all_verts_elem; eauto].
  symmetry. apply part_of_elem; [|done]. apply (co_vid _ (di_local _ _ HD _ HH)).
Qed.
Lemma gverts_elem Hs nid u : u ∈ gverts Hs nid ↔ ∃ n, n ∈ all_nets Hs ∧ n_id n = nid ∧ u ∈ n_verts n.
Proof.
  unfold gverts, pieces. rewrite elem_of_list_In, in_concat. split.
  - intros (l & Hl & Hu). apply elem_of_list_In, elem_of_list_fmap in Hl as (n & -> & [<- Hn]%elem_of_list_filter).
    exists n. split; [done|]. split; [done|by apply elem_of_list_In].
  - intros (n & Hn & <- & Hu). exists (n_verts n). split; [|by apply elem_of_list_In].
    apply elem_of_list_In, elem_of_list_fmap. exists n. split; [done|]. by apply elem_of_list_filter.
Qed.
Lemma gcost_elem gn Hs n : distributed gn Hs → n ∈ all_nets Hs → gcost Hs (n_id n) = n_cost n.
Proof.
  intros HD Hn. unfold gcost. destruct (pieces Hs (n_id n)) as [|n' l] eqn:Heq.
  - assert (n ∈ pieces Hs (n_id n)) as Hin by (by apply elem_of_list_filter). rewrite Heq in Hin. by apply elem_of_nil in Hin.
  - assert (n' ∈ pieces Hs (n_id n)) as [Hid Hin]%elem_of_list_filter by (rewrite Heq; left). by apply (di_cost _ _ HD).
Qed.
