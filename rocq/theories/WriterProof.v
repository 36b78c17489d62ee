(** Proofs about [Writer]: decimal output, start_parts, and the file of a partitioning. *)
From Verif Require Export Writer ReaderPar.
Local Open Scope list_scope.

(** ** Decimal output *)
Lemma digit_char_ok d : 0 ≤ d < 10 → nat_of_ascii (digit_char d) = (48 + Z.to_nat d)%nat.
Proof. intros. unfold digit_char. rewrite nat_ascii_embedding by lia. done. Qed.
Definition dval (a : Z) (c : ascii) : Z := 10 * a + (Z.of_nat (nat_of_ascii c) - 48).
Lemma show_digits_app fuel n acc : show_digits fuel n acc = show_digits fuel n [] ++ acc.
Proof.
  revert n acc. induction fuel as [|fuel IH]; intros n acc; [done|]. cbn [show_digits].
  destruct (decide (n < 10)); [done|]. rewrite (IH _ (_ :: acc)), (IH _ [_]), <-app_assoc. done.
Qed.
Lemma show_digits_ok fuel n : 0 ≤ n < 2 ^ Z.of_nat fuel → (0 < fuel)%nat →
  show_digits fuel n [] ≠ [] ∧ Forall is_digit (show_digits fuel n []) ∧ foldl dval 0 (show_digits fuel n []) = n.
Proof.
  revert n. induction fuel as [|fuel IH]; intros n Hn Hf; [lia|]. cbn [show_digits].
  pose proof (Z.mod_pos_bound n 10 ltac:(lia)) as Hmod.
  assert (is_digit (digit_char (n mod 10))) as Hd by (unfold is_digit; rewrite digit_char_ok by lia; lia).
  destruct (decide (n < 10)).
  - split; [done|]. split; [by apply Forall_cons|]. cbn [foldl]. unfold dval. rewrite digit_char_ok by lia.
    rewrite Z.mod_small in * by lia. lia.
  - assert (0 < fuel)%nat as Hf'. { destruct fuel; [|lia]. change (2 ^ Z.of_nat 1) with 2 in Hn. lia. }
    destruct (IH (n / 10)) as (Hne & HF & Hv); [|done|].
    { split; [apply Z.div_pos; lia|]. apply Z.div_lt_upper_bound; [lia|]. rewrite Nat2Z.inj_succ, Z.pow_succ_r in Hn by lia. lia. }
    rewrite show_digits_app. split; [by destruct (show_digits fuel (n / 10) [])|]. split.
    + apply Forall_app. split; [done|by apply Forall_cons].
    + rewrite foldl_app, Hv. cbn [foldl]. unfold dval. rewrite digit_char_ok by lia.
      pose proof (Z.div_mod n 10 ltac:(lia)). lia.
Qed.
Lemma show_numeral n : 0 ≤ n → numeral n (show n).
Proof.
  intros Hn. unfold show. destruct (decide (n < 0)); [lia|]. unfold show_nonneg.
  destruct (show_digits_ok (S (Z.to_nat (Z.log2 n))) n) as (H1 & H2 & H3); [|lia|].
  - split; [done|]. rewrite Nat2Z.inj_succ, Z2Nat.id by apply Z.log2_nonneg.
    destruct (decide (n = 0)) as [->|]; [done|]. apply Z.log2_spec. lia.
  - split; [done|]. split; [done|]. symmetry. exact H3.
Qed.

(** ** start_parts *)
Lemma length_vertex_nonzeros vs : Z.of_nat (length (vertex_nonzeros vs)) = zsum ((λ v, Z.of_nat (length (v_nets v))) <$> vs).
Proof.
  induction vs as [|v vs IH]; [done|]. unfold vertex_nonzeros in *. rewrite !fmap_cons. cbn [concat]. rewrite app_length, fmap_length, zsum_cons, Nat2Z.inj_add. lia.
Qed.
Lemma vertex_nonzeros_app vs vs' : vertex_nonzeros (vs ++ vs') = vertex_nonzeros vs ++ vertex_nonzeros vs'.
Proof. unfold vertex_nonzeros. rewrite fmap_app, concat_app. done. Qed.
Definition pnz (vs : list vertex) (i : Z) : Z := Z.of_nat (length (vertex_nonzeros (filter (λ v, v_part v = i) vs))).
Lemma pnz_app vs vs' i : pnz (vs ++ vs') i = pnz vs i + pnz vs' i.
Proof. unfold pnz. rewrite filter_app, vertex_nonzeros_app, app_length. lia. Qed.
Lemma pnz_one v i : pnz [v] i = if decide (v_part v = i) then Z.of_nat (length (v_nets v)) else 0.
Proof.
  unfold pnz. rewrite filter_cons, filter_nil. destruct (decide (v_part v = i)); [|done].
  rewrite length_vertex_nonzeros. csimpl. rewrite zsum_cons. unfold zsum. cbn. lia.
Qed.

Lemma wpe_start_counts (E : err → Prop) H k (Q : list Z → Prop) :
  Forall (λ v, 0 ≤ v_part v < k) (h_verts H) →
  Q (pnz (h_verts H) <$> seqZ 0 k) → wpe E (start_counts H k) Q.
Proof.
  intros Hk HQ. unfold start_counts.
  apply (wpe_foldM E _ (λ done c, c = pnz done <$> seqZ 0 k)).
  - apply list_eq. intros i. rewrite list_lookup_fmap. destruct (decide (i < Z.to_nat k)%nat).
    + rewrite lookup_replicate_2, lookup_seqZ_lt by lia. done.
    + rewrite lookup_ge_None_2 by (rewrite replicate_length; lia). rewrite (lookup_ge_None_2 (seqZ 0 k)) by (rewrite seqZ_length; lia). done.
  - intros done v todo c Heq ->. rewrite Forall_forall in Hk. assert (0 ≤ v_part v < k) as Hv by (apply Hk; rewrite Heq; set_solver).
    unfold aadd. apply wpe_bind. eapply wpe_idx; [rewrite zlookup_fmap_seqZ by lia; done|]. apply wpe_ret.
    rewrite (zinsert_fmap_seqZ _ (pnz (done ++ [v]))); [done|lia| |].
    + rewrite pnz_app, pnz_one, decide_True by done. done.
    + intros j Hj Hne. rewrite pnz_app, pnz_one, decide_False by done. lia.
  - intros c ->. done.
Qed.
Lemma foldl_zip_add (fs : list (Z → Z)) (g : Z → Z) k :
  foldl (zip_with Z.add) (g <$> seqZ 0 k) ((λ f : Z → Z, f <$> seqZ 0 k) <$> fs) = (λ i, g i + zsum ((λ f : Z → Z, f i) <$> fs)) <$> seqZ 0 k.
Proof.
  revert g. induction fs as [|f fs IH]; intros g; csimpl.
  - apply list_fmap_ext. intros ? i _. unfold zsum. cbn. lia.
  - assert (zip_with Z.add (g <$> seqZ 0 k) (f <$> seqZ 0 k) = (λ i, g i + f i) <$> seqZ 0 k) as ->.
    { generalize (seqZ 0 k). intros l. induction l; [done|]. csimpl. by f_equal. }
    rewrite IH. apply list_fmap_ext. intros ? i _. rewrite zsum_cons. lia.
Qed.

Lemma foldM_app_run {A T} (f : T → A → M T) l l' s w :
  foldM f (l ++ l') s w = match foldM f l s w with Ok (s', w') => foldM f l' s' w' | Err e => Err e end.
Proof.
  revert s w. induction l as [|x l IH]; intros s w; [done|]. cbn [app foldM]. unfold bind.
  destruct (f s x w) as [[s' w']|]; [apply IH|done].
Qed.
Definition psum (f : Z → Z) (i : Z) : Z := zsum (f <$> seqZ 0 i).
Lemma psum_step f i : 0 ≤ i → psum f (i + 1) = psum f i + f i.
Proof.
  intros Hi. unfold psum. rewrite seqZ_app, fmap_app, zsum_app by lia. f_equal.
  change (seqZ (0 + i) 1) with [0 + i]. csimpl. rewrite zsum_cons. unfold zsum. cbn. rewrite Z.add_0_r. done.
Qed.
Definition partial_sums (f : Z → Z) (m : Z) (i : Z) : Z := if decide (i ≤ m + 1) then psum f i else f (i - 1).
Definition start_step (r : list Z) (i : Z) : M (list Z) :=
  x <- idx r i ;;
  if decide (i + 1 < Z.of_nat (length r)) then aadd Z.add r (i + 1) x
  else log_tag PastEndWrite ;;; ret r.
Lemma start_step_run f m k w : 0 ≤ m < k - 1 →
  start_step (partial_sums f m <$> seqZ 0 (k + 1)) (m + 1) w = Ok (partial_sums f (m + 1) <$> seqZ 0 (k + 1), w).
Proof.
  intros Hm. unfold start_step, idx, aadd. rewrite zlookup_fmap_seqZ by lia. cbn [of_option]. unfold bind, ret.
  rewrite fmap_length, seqZ_length, decide_True by lia. unfold idx. rewrite zlookup_fmap_seqZ by lia. cbn [of_option]. unfold ret.
  do 2 f_equal. apply zinsert_fmap_seqZ; [lia| |].
  - unfold partial_sums. rewrite (decide_False (P := m + 1 + 1 ≤ m + 1)), (decide_True (P := m + 1 ≤ m + 1)), (decide_True (P := m + 1 + 1 ≤ m + 1 + 1)) by lia.
    rewrite (psum_step f (m + 1)) by lia.
    replace (m + 1 + 1 - 1) with (m + 1) by lia. lia.
  - intros j Hj Hne. unfold partial_sums. destruct (decide (j ≤ m + 1)); [rewrite decide_True by lia; done|rewrite decide_False by lia; done].
Qed.
Lemma start_loop_run f k w : 0 ≤ k →
  foldM start_step (seqZ 1 k) (0 :: (f <$> seqZ 0 k)) w =
  Ok (psum f <$> seqZ 0 (k + 1), World (w_tape w) (w_log w ++ (if decide (1 ≤ k) then [PastEndWrite] else []))).
Proof.
  intros Hk.
  assert (0 :: (f <$> seqZ 0 k) = partial_sums f 0 <$> seqZ 0 (k + 1)) as ->.
  { rewrite (seqZ_cons 0 (k + 1)) by lia. csimpl. f_equal. apply list_eq. intros i. rewrite !list_lookup_fmap.
    destruct (decide (i < Z.to_nat k)%nat).
    - rewrite lookup_seqZ_lt by lia. replace (Z.pred (k + 1)) with k by lia. rewrite lookup_seqZ_lt by lia. csimpl. f_equal.
      unfold partial_sums. destruct (decide (Z.succ 0 + Z.of_nat i ≤ 0 + 1)).
      + replace i with 0%nat by lia. change (Z.succ 0 + Z.of_nat 0) with (0 + 1). rewrite psum_step by lia. done.
      + f_equal. lia.
    - rewrite !lookup_seqZ_ge by lia. done. }
  destruct (decide (1 ≤ k)) as [H1|H1].
  - assert (∀ m : nat, Z.of_nat m < k → foldM start_step (seqZ 1 (Z.of_nat m)) (partial_sums f 0 <$> seqZ 0 (k + 1)) w = Ok (partial_sums f (Z.of_nat m) <$> seqZ 0 (k + 1), w)) as Hloop.
    { induction m as [|m IH]; intros Hm; [done|].
      rewrite Nat2Z.inj_succ, <-Z.add_1_r, seqZ_app, foldM_app_run, IH by lia. change (seqZ (1 + Z.of_nat m) 1) with [1 + Z.of_nat m].
      cbn [foldM]. unfold bind. rewrite (Z.add_comm 1), start_step_run by lia. done. }
    replace k with ((k - 1) + 1) at 1 by lia. rewrite seqZ_app, foldM_app_run by lia.
    replace (k - 1) with (Z.of_nat (Z.to_nat (k - 1))) by lia. rewrite Hloop by lia.
    rewrite Z2Nat.id by lia. replace (1 + (k - 1)) with k by lia. change (seqZ k 1) with [k].
    cbn [foldM]. unfold bind, start_step, idx. unfold bind at 1. rewrite zlookup_fmap_seqZ by lia. cbn [of_option]. unfold ret at 1.
    rewrite fmap_length, seqZ_length, decide_False by lia. unfold log_tag, bind, ret. do 2 f_equal.
    apply list_fmap_ext. intros i x Hx. apply lookup_seqZ in Hx. unfold partial_sums. rewrite decide_True by lia. done.
  - replace k with 0 by lia. cbn. rewrite app_nil_r. by destruct w.
Qed.

Lemma foldM_aadd_world {X B} (loc : X → Z) (val : X → B) (op : Z → B → Z) (l : list X) s w r w' :
  foldM (λ c v, aadd op c (loc v) (val v)) l s w = Ok (r, w') → w' = w.
Proof.
  revert s. induction l as [|x l IH]; intros s; cbn [foldM]; [by intros [= _ <-]|].
  unfold bind, aadd, idx. destruct (zlookup s (loc x)); cbn; [|done]. apply IH.
Qed.
Lemma start_counts_run H k w : Forall (λ v, 0 ≤ v_part v < k) (h_verts H) →
  start_counts H k w = Ok (pnz (h_verts H) <$> seqZ 0 k, w).
Proof.
  intros Hk. pose proof (wpe_start_counts (λ _, False) H k (λ c, c = pnz (h_verts H) <$> seqZ 0 k) Hk eq_refl) as Hw.
  apply wp_run with (w := w) in Hw as (r & w' & Heq & ->). rewrite Heq. apply foldM_aadd_world in Heq as ->. done.
Qed.
Lemma mapP_run_pure {A B} (f : A → M B) (g : A → B) l w : (∀ x, x ∈ l → f x w = Ok (g x, w)) → mapP f l w = Ok (g <$> l, w).
Proof.
  induction l as [|x l IH]; intros Hf; [done|]. cbn [mapP]. unfold bind. rewrite Hf by set_solver. rewrite IH by set_solver. done.
Qed.
Lemma mapP_run_log {A B} (m : M B) (y : B) (t : list tag) (l : list A) :
  (∀ w, m w = Ok (y, World (w_tape w) (w_log w ++ t))) →
  ∀ w, mapP (λ _, m) l w = Ok (replicate (length l) y, World (w_tape w) (w_log w ++ concat (replicate (length l) t))).
Proof.
  intros Hm. induction l as [|x l IH]; intros w; cbn [mapP length replicate concat].
  - unfold ret. rewrite app_nil_r. by destruct w.
  - unfold bind. rewrite Hm, IH. cbn [w_tape w_log]. rewrite <-app_assoc. done.
Qed.
Lemma pnz_all Hs i : pnz (all_verts Hs) i = zsum ((λ H, pnz (h_verts H) i) <$> Hs).
Proof.
  induction Hs as [|H Hs IH]; [done|]. unfold all_verts in *. rewrite !fmap_cons. cbn [concat]. rewrite pnz_app, zsum_cons, IH. done.
Qed.
Definition start_tags (p : nat) (k : Z) : list tag := concat (replicate p (if decide (1 ≤ k) then [PastEndWrite] else [])).
Lemma start_parts_run Hs k w : 0 ≤ k → Forall (λ v, 0 ≤ v_part v < k) (all_verts Hs) →
  start_parts Hs k w = Ok (replicate (length Hs) (psum (pnz (all_verts Hs)) <$> seqZ 0 (k + 1)),
                           World (w_tape w) (w_log w ++ start_tags (length Hs) k)).
Proof.
  intros Hk HF. unfold start_parts, bind.
  rewrite (mapP_run_pure _ (λ H, pnz (h_verts H) <$> seqZ 0 k)).
  2: { intros H HH. apply start_counts_run. rewrite Forall_forall in HF |- *. intros v Hv. apply HF. apply all_verts_elem. eauto. }
  apply mapP_run_log. intros w'. unfold start_parts1.
  assert (replicate (Z.to_nat k) 0 = (λ _ : Z, 0) <$> seqZ 0 k) as ->.
  { apply list_eq. intros i. rewrite list_lookup_fmap. destruct (decide (i < Z.to_nat k)%nat).
    - rewrite lookup_replicate_2, lookup_seqZ_lt by lia. done.
    - rewrite lookup_ge_None_2 by (rewrite replicate_length; lia). rewrite lookup_seqZ_ge by lia. done. }
  assert ((λ H, pnz (h_verts H) <$> seqZ 0 k) <$> Hs = (λ f : Z → Z, f <$> seqZ 0 k) <$> ((λ H, pnz (h_verts H)) <$> Hs)) as -> by (rewrite <-list_fmap_compose; done).
  rewrite foldl_zip_add.
  assert ((λ i, 0 + zsum ((λ f : Z → Z, f i) <$> ((λ H, pnz (h_verts H)) <$> Hs))) <$> seqZ 0 k = pnz (all_verts Hs) <$> seqZ 0 k) as ->.
  { apply list_fmap_ext. intros ? i _. rewrite pnz_all, <-list_fmap_compose. done. }
  apply (start_loop_run _ _ w' Hk).
Qed.

(** the values are the starts of the parts *)
Lemma pnz_total vs k : 0 ≤ k → Forall (λ v, 0 ≤ v_part v < k) vs → psum (pnz vs) k = Z.of_nat (length (vertex_nonzeros vs)).
Proof.
  intros Hk. unfold psum. induction vs as [|v vs IH]; intros HF.
  - rewrite zsum_fmap_zero; [done|]. intros i _. done.
  - apply Forall_cons in HF as [Hv HF].
    assert (vertex_nonzeros (v :: vs) = vertex_nonzeros [v] ++ vertex_nonzeros vs) as -> by (rewrite <-vertex_nonzeros_app; done).
    rewrite app_length, Nat2Z.inj_add, <-IH by done.
    rewrite (zsum_fmap_ext _ (λ i, pnz [v] i + pnz vs i)). 2: { intros i _. rewrite <-pnz_app. done. }
    rewrite zsum_fmap_add. f_equal.
    rewrite (zsum_fmap_ext _ (λ i, if decide (v_part v = i) then Z.of_nat (length (v_nets v)) else 0)) by (intros i _; apply pnz_one).
    rewrite length_vertex_nonzeros. csimpl. rewrite zsum_cons. unfold zsum at 2. cbn [foldr]. rewrite Z.add_0_r.
    replace k with (v_part v + (1 + (k - v_part v - 1))) by lia. rewrite !seqZ_app, !fmap_app, !zsum_app by lia.
    change (seqZ (0 + v_part v) 1) with [0 + v_part v]. csimpl. rewrite zsum_cons, decide_True by lia.
    rewrite zsum_fmap_zero, zsum_fmap_zero; [unfold zsum; cbn; lia| |].
    + intros i Hi%elem_of_seqZ. rewrite decide_False by lia. done.
    + intros i Hi%elem_of_seqZ. rewrite decide_False by lia. done.
Qed.
Lemma starts_lookup f k i : (i < S k)%nat → (psum f <$> seqZ 0 (Z.of_nat k + 1)) !! i = Some (psum f (Z.of_nat i)).
Proof. intros Hi. rewrite list_lookup_fmap, lookup_seqZ_lt by lia. done. Qed.
Lemma starts_kstart Hs (k : nat) : Forall (λ v, 0 ≤ v_part v < Z.of_nat k) (all_verts Hs) →
  kstart k Hs (psum (pnz (all_verts Hs)) <$> seqZ 0 (Z.of_nat k + 1)).
Proof.
  intros HF. split.
  - rewrite fmap_length, seqZ_length. lia.
  - rewrite starts_lookup by lia. done.
  - intros i a b Hi. rewrite !starts_lookup by lia. intros [= <-] [= <-]. rewrite Nat2Z.inj_succ, <-Z.add_1_r, psum_step by lia.
    unfold part_nonzeros, pnz. lia.
  - rewrite starts_lookup by lia. f_equal. apply pnz_total; [lia|done].
Qed.

(** ** The file *)
Definition entry_text (e : Z * Z) : text := show (fst e) ++ " "%char :: show (snd e).
Definition entries_text (es : list (Z * Z)) : text := concat (with_newline <$> (entry_text <$> es)).
Lemma entries_text_app es es' : entries_text (es ++ es') = entries_text es ++ entries_text es'.
Proof. unfold entries_text. rewrite !fmap_app, concat_app. done. Qed.
Lemma part_out_eq H i : part_out H i = entries_text (vertex_nonzeros (filter (λ v, v_part v = i) (h_verts H))).
Proof.
  unfold part_out. induction (h_verts H) as [|v vs IH]; [done|]. rewrite fmap_cons, filter_cons. cbn [concat]. rewrite IH.
  destruct (decide (v_part v = i)); [|done].
  change (vertex_nonzeros (v :: filter (λ v, v_part v = i) vs)) with (((λ n, (n + 1, v_id v + 1)) <$> v_nets v) ++ vertex_nonzeros (filter (λ v, v_part v = i) vs)).
  rewrite entries_text_app. f_equal. unfold entries_text. rewrite <-!list_fmap_compose. f_equal. apply list_fmap_ext. intros ? n _.
  cbn. unfold entry_text, with_newline. cbn [fst snd]. rewrite nl_newline, <-app_assoc. done.
Qed.
Definition written (Hs : list hg) (k : nat) : list (Z * Z) := concat ((λ i : nat, part_nonzeros Hs (Z.of_nat i)) <$> seq 0 k).
Lemma part_nonzeros_app Hs Hs' i : part_nonzeros (Hs ++ Hs') i = part_nonzeros Hs i ++ part_nonzeros Hs' i.
Proof. unfold part_nonzeros, all_verts. rewrite fmap_app, concat_app, filter_app, vertex_nonzeros_app. done. Qed.
Lemma part_nonzeros_one H i : part_nonzeros [H] i = vertex_nonzeros (filter (λ v, v_part v = i) (h_verts H)).
Proof. unfold part_nonzeros, all_verts. cbn. rewrite app_nil_r. done. Qed.
Lemma take_S_snoc {A} (l : list A) n x : l !! n = Some x → take (S n) l = take n l ++ [x].
Proof. apply take_S_r. Qed.

Lemma wpe_partition_loop (E : err → Prop) (opens : nat → bool) Hs k t0 (Q : option text → Prop) :
  (∀ n, opens n = true) →
  Q (Some (t0 ++ entries_text (written Hs k))) →
  wpe E (foldM (λ o (i : nat),
      foldM (λ (o : option text) (turn : nat),
        match o with
        | None => ret None
        | Some t =>
            H <- nidx Hs turn ;;
            if opens (1 + i * length Hs + turn)%nat then ret (Some (t ++ part_out H (Z.of_nat i))) else gone (length Hs)
        end) (seq 0 (length Hs)) o) (seq 0 k) (Some t0)) Q.
Proof.
  intros Ho HQ.
  apply (wpe_foldM E _ (λ done o, o = Some (t0 ++ entries_text (written Hs (length done))))).
  - cbn. by rewrite app_nil_r.
  - intros d i todo o Heq ->.
    assert (i = length d) as ->.
    { assert (seq 0 k !! length d = Some i) as Hl by (rewrite Heq, lookup_app_r, Nat.sub_diag by lia; done). apply lookup_seq in Hl. lia. }
    apply (wpe_foldM E _ (λ done' o, o = Some (t0 ++ entries_text (written Hs (length d)) ++ entries_text (part_nonzeros (take (length done') Hs) (Z.of_nat (length d)))))).
    + cbn. by rewrite app_nil_r.
    + intros d' j todo' o Heq' ->.
      assert (j = length d' ∧ (j < length Hs)%nat) as [-> Hj].
      { assert (seq 0 (length Hs) !! length d' = Some j) as Hl by (rewrite Heq', lookup_app_r, Nat.sub_diag by lia; done). apply lookup_seq in Hl. lia. }
      destruct (lookup_lt_is_Some_2 Hs _ Hj) as [H HH]. apply wpe_bind. eapply wpe_nidx; [exact HH|]. rewrite Ho. apply wpe_ret. f_equal.
      rewrite app_length, Nat.add_1_r, (take_S_snoc _ _ _ HH), part_nonzeros_app, part_nonzeros_one, entries_text_app, part_out_eq, <-!app_assoc. done.
    + intros o' ->. rewrite seq_length, firstn_all, app_length, Nat.add_1_r. f_equal. f_equal. rewrite <-entries_text_app. f_equal.
      unfold written. rewrite seq_S, fmap_app, concat_app. cbn. by rewrite app_nil_r.
  - intros o ->. by rewrite seq_length.
Qed.

Lemma vertex_nonzeros_perm vs vs' : vs ≡ₚ vs' → vertex_nonzeros vs ≡ₚ vertex_nonzeros vs'.
Proof. intros Hp. unfold vertex_nonzeros. rewrite Hp. done. Qed.
Lemma Permutation_refl' {A} (l l' : list A) : l = l' → l ≡ₚ l'.
Proof. by intros ->. Qed.
Lemma filter_split_perm {A} (P : A → Prop) `{∀ x, Decision (P x)} (l : list A) : filter P l ++ filter (λ x, ¬ P x) l ≡ₚ l.
Proof.
  induction l as [|x l IH]; [done|]. rewrite !filter_cons. destruct (decide (P x)).
  - rewrite decide_False by tauto. cbn. by rewrite IH.
  - rewrite decide_True by done. rewrite <-Permutation_middle. by rewrite IH.
Qed.
Lemma vertex_nonzeros_parts vs k : Forall (λ v, 0 ≤ v_part v < Z.of_nat k) vs →
  concat ((λ i : nat, vertex_nonzeros (filter (λ v, v_part v = Z.of_nat i) vs)) <$> seq 0 k) ≡ₚ vertex_nonzeros vs.
Proof.
  intros HF.
  assert (concat ((λ i : nat, filter (λ v, v_part v = Z.of_nat i) vs) <$> seq 0 k) ≡ₚ vs) as Hp.
  { revert vs HF. induction k as [|k IH]; intros vs HF.
    - destruct vs as [|v vs]; [done|]. apply Forall_cons in HF as [? _]. lia.
    - rewrite seq_S, fmap_app, concat_app. cbn [fmap list_fmap concat]. rewrite app_nil_r.
      etransitivity; [|apply (filter_split_perm (λ v, v_part v < Z.of_nat k) vs)].
      apply Permutation_app.
      + rewrite <-(IH (filter (λ v, v_part v < Z.of_nat k) vs)).
        * apply Permutation_refl'. f_equal. apply list_fmap_ext. intros ? i Hi%lookup_seq. rewrite list_filter_filter. apply HgMore.filter_ext. intros v _. lia.
        * rewrite Forall_forall in HF |- *. intros v [Hv Hv']%elem_of_list_filter. specialize (HF v Hv'). lia.
      + apply Permutation_refl'. apply HgMore.filter_ext. intros v Hv. rewrite Forall_forall in HF. specialize (HF v Hv). cbn. lia. }
  rewrite <-(vertex_nonzeros_perm _ _ Hp). apply Permutation_refl'. clear. induction (seq 0 k) as [|i l IH]; [done|]. rewrite !fmap_cons. cbn [concat].
  rewrite vertex_nonzeros_app, IH. done.
Qed.
Lemma written_perm Hs k : Forall (λ v, 0 ≤ v_part v < Z.of_nat k) (all_verts Hs) → written Hs k ≡ₚ all_nonzeros Hs.
Proof. apply vertex_nonzeros_parts. Qed.

Lemma entry_text_line e : 0 ≤ fst e → 0 ≤ snd e → numbers_line [fst e; snd e] (entry_text e).
Proof.
  intros. exists [show (fst e); show (snd e)]. split; [|done]. constructor; [by apply show_numeral|]. constructor; [by apply show_numeral|constructor].
Qed.
Lemma written_file H k starts entries :
  0 ≤ h_gnets H → 0 ≤ h_gsize H → 0 ≤ h_nz H → 0 ≤ k → Forall (λ s, 0 ≤ s) starts →
  Forall (λ e : Z * Z, 0 ≤ fst e ∧ 0 ≤ snd e) entries →
  distributed_matrix_file (header_out H k starts ++ entries_text entries) (h_gnets H) (h_gsize H) (h_nz H) k starts entries.
Proof.
  intros H1 H2 H3 H4 Hs He.
  exists (spaced (show <$> [h_gnets H; h_gsize H; h_nz H; k])), (show <$> starts), (entry_text <$> entries). split; [|split; [|split]].
  - unfold header_out, entries_text, banner_out. rewrite nl_newline. cbn [spaced fmap list_fmap]. unfold with_newline.
    rewrite <-(list_fmap_compose show). repeat (progress (rewrite <-?app_assoc; cbn [app])). reflexivity.
  - exists (show <$> [h_gnets H; h_gsize H; h_nz H; k]). split; [|done]. repeat constructor; by apply show_numeral.
  - clear -Hs. induction Hs as [|s starts Hs' _ IH]; csimpl; constructor; [|done]. exists [show s]. split; [|done]. constructor; [by apply show_numeral|constructor].
  - clear -He. induction He as [|e es [? ?] _ IH]; csimpl; constructor; [|done]. by apply entry_text_line.
Qed.
Lemma written_length Hs k : Z.of_nat (length (written Hs k)) = psum (pnz (all_verts Hs)) (Z.of_nat k).
Proof.
  induction k as [|k IH]; [done|]. unfold written in *. rewrite seq_S, fmap_app, concat_app, app_length. cbn [fmap list_fmap concat].
  rewrite app_nil_r, Nat2Z.inj_add, IH, Nat2Z.inj_succ, <-Z.add_1_r, psum_step by lia. done.
Qed.
Lemma written_split Hs k i : (i < k)%nat → ∃ after, written Hs k = written Hs i ++ part_nonzeros Hs (Z.of_nat i) ++ after.
Proof.
  intros Hi. unfold written. replace k with (i + (1 + (k - i - 1)))%nat by lia. rewrite !seq_app, !fmap_app, !concat_app. cbn [Nat.add].
  eexists. f_equal. f_equal. cbn. by rewrite app_nil_r.
Qed.
Lemma starts_nonneg Hs k : Forall (λ s, 0 ≤ s) (psum (pnz (all_verts Hs)) <$> seqZ 0 (Z.of_nat k + 1)).
Proof.
  apply Forall_fmap, Forall_forall. intros i Hi%elem_of_seqZ. cbn. replace i with (Z.of_nat (Z.to_nat i)) by lia. rewrite <-written_length. lia.
Qed.
Lemma all_nonzeros_elem Hs e : e ∈ all_nonzeros Hs ↔ ∃ v n, v ∈ all_verts Hs ∧ n ∈ v_nets v ∧ e = (n + 1, v_id v + 1).
Proof.
  unfold all_nonzeros, vertex_nonzeros. rewrite elem_of_list_In, in_concat. setoid_rewrite <-elem_of_list_In. split.
  - intros (l & (v & -> & Hv)%elem_of_list_fmap & (n & -> & Hn)%elem_of_list_fmap). eauto.
  - intros (v & n & Hv & Hn & ->). eexists. split; [by apply elem_of_list_fmap_1|]. apply elem_of_list_fmap. eauto.
Qed.
Lemma partitioning_to_file_run opens Hs (k : nat) w :
  (∀ n, opens n = true) → Hs ≠ [] → Forall (λ v, 0 ≤ v_part v < Z.of_nat k) (all_verts Hs) →
  ∃ H0 w', head Hs = Some H0 ∧
    partitioning_to_file opens Hs (Z.of_nat k) w =
      Ok (Some (header_out H0 (Z.of_nat k) (psum (pnz (all_verts Hs)) <$> seqZ 0 (Z.of_nat k + 1)) ++ entries_text (written Hs k)), w').
Proof.
  intros Ho Hne HF. destruct Hs as [|H0 Hs']; [done|]. set (Hs := H0 :: Hs') in *. exists H0.
  pose proof (start_parts_run Hs (Z.of_nat k) w ltac:(lia) HF) as Hst.
  set (starts := psum (pnz (all_verts Hs)) <$> seqZ 0 (Z.of_nat k + 1)) in *.
  pose proof (wpe_partition_loop (λ _, False) opens Hs k (header_out H0 (Z.of_nat k) starts)
    (λ o, o = Some (header_out H0 (Z.of_nat k) starts ++ entries_text (written Hs k))) Ho eq_refl) as Hw.
  apply wp_run with (w := World (w_tape w) (w_log w ++ start_tags (length Hs) (Z.of_nat k))) in Hw as (o & w' & Heq & ->).
  exists w'. split; [done|]. unfold partitioning_to_file. unfold bind at 1. rewrite Hst. cbn [length replicate].
  unfold nidx at 1. change (Hs !! 0%nat) with (Some H0). change (S (length Hs')) with (length Hs). unfold Hs at 2. cbn [length replicate lookup list_lookup of_option].
  unfold bind at 1, ret at 1. unfold nidx at 1. cbn [lookup list_lookup of_option]. unfold bind at 1, ret at 1. rewrite Ho, Nat2Z.id. exact Heq.
Qed.
