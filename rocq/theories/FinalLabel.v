(** C18-C22, C26: label propagation, random bisection, sampling, initial partitioning. *)
From Verif Require Export SampleProof FinalKlfm.

(** ** C18 *)

(** C18.  label_propagation always terminates with one label in [0,l) per vertex. *)
Lemma C18_labels_proof : ∀ H l max_iter min_size w, consistent H → 0 < l →
  ∃ L w', label_propagation H l max_iter min_size w = Ok (L, w') ∧
    length L = length (h_verts H) ∧ Forall (λ j, 0 ≤ j < l) L.
Proof.
  intros H l max_iter min_size w HC Hl.
  assert (wp (label_propagation H l max_iter min_size) (λ L, length L = length (h_verts H) ∧ Forall (λ j, 0 ≤ j < l) L)) as Hw.
  { apply wpe_label_propagation; auto. }
  apply wp_run with (w := w) in Hw as (L & w' & Heq & HL). eauto.
Qed.

Lemma lp_ok_exact H l st : consistent H → length (lp_L st) = length (h_verts H) → lp_ok H l st →
  exact_label_counts (relabel H (lp_L st)) l (lp_C st) ∧ lp_size st = group_size (lp_L st) <$> seqZ 0 l.
Proof.
  intros HC Hl [Hr Hs HCt]. split; [|done]. rewrite HCt. apply list_fmap_ext. intros i n _.
  apply list_fmap_ext. intros _ k _. by apply lcount_count_in.
Qed.

(** C18.  The random initial labelling has exact counts; any number of rounds from there keeps
    the counts of labels per net and the group sizes exact, and leaves every group with at least
    min(min_size, its initial size) vertices: a group of at least min_size never drops below
    min_size. *)
Lemma C18_groups_proof : ∀ H l max_iter min_size w, consistent H → 0 < l →
  ∃ st w1, lp_init H l w = Ok (st, w1) ∧
    exact_label_counts (relabel H (lp_L st)) l (lp_C st) ∧ lp_size st = group_size (lp_L st) <$> seqZ 0 l ∧
  ∃ st' w2, lp_loop H l max_iter min_size st w1 = Ok (st', w2) ∧
    label_propagation H l max_iter min_size w = Ok (lp_L st', w2) ∧
    exact_label_counts (relabel H (lp_L st')) l (lp_C st') ∧ lp_size st' = group_size (lp_L st') <$> seqZ 0 l ∧
    ∀ k, 0 ≤ k < l → Z.min min_size (group_size (lp_L st) k) ≤ group_size (lp_L st') k.
Proof.
  intros H l max_iter min_size w HC Hl.
  assert (wp (lp_init H l) (λ st, lp_ok H l st ∧ length (lp_L st) = length (h_verts H))) as Hw by (apply wpe_lp_init; auto).
  apply wp_run with (w := w) in Hw as (st & w1 & Heq & Hok & Hlen).
  exists st, w1. split; [done|]. destruct (lp_ok_exact H l st HC Hlen Hok) as [He Hs]. split; [done|]. split; [done|].
  assert (wp (lp_loop H l max_iter min_size st) (lp_inv H l (λ k, Z.min min_size (group_size (lp_L st) k)))) as Hw.
  { apply (wpe_lp_loop _ _ _ _ _ (λ k, Z.min min_size (group_size (lp_L st) k))); [done|done|intros; lia| |auto].
    split; [done|]. split; [done|]. intros; lia. }
  apply wp_run with (w := w1) in Hw as (st' & w2 & Heq2 & Hok' & Hlen' & Hlow).
  exists st', w2. split; [done|]. split; [unfold label_propagation, bind; by rewrite Heq, Heq2|].
  destruct (lp_ok_exact H l st' HC Hlen' Hok'). auto.
Qed.

Definition tape_of (l : list Z) : world := World (λ n, default 0 (l !! n)) [].
Example C18_example : consistent klH ∧
  match lp_init klH 3 (tape_of [0; 1; 2; 1; 2]) with
  | Ok (st, _) => lp_L st = [0; 1; 2; 1; 2] | Err _ => False end ∧
  match label_propagation klH 3 4 1 (tape_of [0; 1; 2; 1; 2]) with
  | Ok (L, _) => L ≠ [0; 1; 2; 1; 2] ∧ length L = 5%nat | Err _ => False end.
Proof.
  split; [exact (kp_cons _ klH_pre)|]. split; [vm_compute; reflexivity|].
  assert (match label_propagation klH 3 4 1 (tape_of [0; 1; 2; 1; 2]) with
  | Ok (L, _) => bool_decide (L ≠ [0; 1; 2; 1; 2] ∧ length L = 5%nat) | Err _ => false end = true) as Hb by (vm_compute; reflexivity).
  destruct (label_propagation _ _ _ _ _) as [[L ?]|]; [|done]. by apply bool_decide_eq_true in Hb.
Qed.

(** ** C19 *)

(** C19.  From zero counts, label_propagation_bisect gives every vertex label 0 or 1 and leaves
    the exact counts of that bisection in C.  The limits hold whenever they leave room for one
    more vertex of the largest weight. *)
Lemma C19_bisect_proof : ∀ H max_iter mx w, consistent H → (∀ v, v ∈ h_verts H → 0 ≤ v_weight v) →
  ∃ L C w', label_propagation_bisect H (replicate (length (h_nets H)) (0, 0)) max_iter mx w = Ok ((L, C), w') ∧
    length L = length (h_verts H) ∧ Forall (λ j, j = 0 ∨ j = 1) L ∧ exact_counts (relabel H L) C ∧
    ∀ b, weights_below H b → 0 ≤ fst mx → 0 ≤ snd mx → tot_weight H + b ≤ fst mx + snd mx →
      part_weight (relabel H L) 0 ≤ fst mx ∧ part_weight (relabel H L) 1 ≤ snd mx.
Proof.
  intros H max_iter mx w HC Hw.
  (* the smallest bound on the weights *)
  set (b := foldr Z.max 0 (v_weight <$> h_verts H)).
  assert (∀ c, weights_below H c → 0 ≤ c → b ≤ c ∧ weights_below H b) as Hb.
  { intros c Hc Hc0. unfold b, weights_below in *. revert Hc Hw. generalize (h_verts H). clear -Hc0. intros vs Hc Hw. split.
    - induction vs as [|v vs IH]; csimpl; [simpl; lia|]. pose proof (Hc v ltac:(set_solver)). cbn [foldr]. specialize (IH ltac:(set_solver) ltac:(set_solver)). lia.
    - intros v Hv. split; [by apply Hw|]. clear Hc Hw. induction vs as [|u vs IH]; [set_solver|]. csimpl. cbn [foldr].
      apply elem_of_cons in Hv as [-> |Hv]; [lia|]. specialize (IH Hv). csimpl in *. lia. }
  assert (wp (label_propagation_bisect H (replicate (length (h_nets H)) (0, 0)) max_iter mx) (λ r,
    length (fst r) = length (h_verts H) ∧ Forall (λ j, j = 0 ∨ j = 1) (fst r) ∧ exact_counts (relabel H (fst r)) (snd r) ∧
    (weights_below H b → 0 ≤ fst mx → 0 ≤ snd mx → tot_weight H + b ≤ fst mx + snd mx →
      part_weight (relabel H (fst r)) 0 ≤ fst mx ∧ part_weight (relabel H (fst r)) 1 ≤ snd mx))) as Hwp.
  { apply (wpe_label_propagation_bisect _ _ _ _ b); [done|done|]. intros L C H1 H2 H3 H4. split_and!; done. }
  apply wp_run with (w := w) in Hwp as ([L C] & w' & Heq & H1 & H2 & H3 & H4). simpl in *.
  exists L, C, w'. split; [done|]. split; [done|]. split; [done|]. split; [done|]. intros c Hc H0 H0' Hsl.
  destruct (decide (0 ≤ c)) as [Hc0|Hc0].
  - destruct (Hb c Hc Hc0) as [Hbc Hwb]. apply H4; [done..|lia].
  - assert (h_verts H = []) as Hnil.
    { destruct (h_verts H) as [|v vs] eqn:Hv; [done|]. exfalso. pose proof (Hc v ltac:(rewrite Hv; set_solver)). lia. }
    unfold part_weight. simpl. rewrite Hnil. simpl. done.
Qed.

Example C19_example : consistent klH ∧ (∀ v, v ∈ h_verts klH → 0 ≤ v_weight v) ∧ weights_below klH 3 ∧ tot_weight klH + 3 ≤ 6 + 6 ∧
  match label_propagation_bisect klH (replicate 5 (0, 0)) 4 (6, 6) (tape_of [0; 1; 1; 0; 1; 3; 1; 2; 7]) with
  | Ok ((L, C), _) => L = [1; 1; 0; 0; 0] | Err _ => False end.
Proof.
  split; [exact (kp_cons _ klH_pre)|]. split; [exact (kp_weight _ klH_pre)|].
  assert (Forall (λ v, 0 ≤ v_weight v ≤ 3) (h_verts klH)) as HF by (apply (bool_decide_eq_true_1 _); vm_compute; reflexivity).
  rewrite Forall_forall in HF. split; [exact HF|]. split; [vm_compute; discriminate|]. vm_compute. reflexivity.
Qed.

(** ** C20 *)
Lemma br_weight_side H st en bs p : 0 ≤ st → length bs = Z.to_nat (en - st) →
  br_weight (h_verts H) st bs p = side_weight H st en (λ i, default 0 (zlookup bs (i - st))) p.
Proof.
  intros Hst Hlen. unfold br_weight, side_weight. f_equal. apply list_eq. intros q. rewrite list_lookup_imap, list_lookup_fmap.
  destruct (bs !! q) as [b|] eqn:Hq.
  - pose proof (lookup_lt_Some _ _ _ Hq). rewrite lookup_seqZ_lt by lia. simpl.
    replace (st + Z.of_nat q - st) with (Z.of_nat q) by lia. rewrite zlookup_nat, Hq. simpl.
    unfold weight_at, vertex_at, zlookup. rewrite bool_decide_true by lia. rewrite (decide_True (P := 0 ≤ st + Z.of_nat q)) by lia.
    destruct (h_verts H !! _); done.
  - apply lookup_ge_None in Hq. rewrite lookup_seqZ_ge by lia. done.
Qed.
Lemma zsum_range_weight H st en : 0 ≤ st → st ≤ en → en ≤ Z.of_nat (length (h_verts H)) →
  v_weight <$> take (Z.to_nat (en - st)) (drop (Z.to_nat st) (h_verts H)) = weight_at H <$> seqZ st (en - st).
Proof.
  intros H0 H1 H2. apply list_eq. intros q. rewrite !list_lookup_fmap. destruct (decide (Z.of_nat q < en - st)).
  - rewrite lookup_take by lia. rewrite lookup_drop, lookup_seqZ_lt by lia. simpl. unfold weight_at, vertex_at. rewrite decide_True by lia.
    replace (Z.to_nat (st + Z.of_nat q)) with (Z.to_nat st + q)%nat by lia.
    destruct (lookup_lt_is_Some_2 (h_verts H) (Z.to_nat st + q)) as [v Hv]; [lia|]. by rewrite Hv.
  - rewrite lookup_take_ge by lia. rewrite lookup_seqZ_ge by lia. done.
Qed.

(** C20, what holds.  bisect_random gives every vertex of the range the label of its side,
    changes nothing else, and returns the exact weights of the two sides; the sides respect the
    limits if these leave room for one more vertex of the largest weight.  Missing: the limits
    in every feasible case (C20_limits_refuted). *)
Lemma C20_random_bisection_partial_proof : ∀ H mx st en low high w, 0 ≤ st ≤ en → en ≤ Z.of_nat (length (h_verts H)) →
  ∃ side H' w', (∀ i, side i = 0 ∨ side i = 1) ∧
    bisect_random H mx st en (low, high) w = Ok ((H', (side_weight H st en side 0, side_weight H st en side 1)), w') ∧
    same_but_parts H H' ∧ length (h_verts H') = length (h_verts H) ∧
    (∀ i v, vertex_at H i = Some v → vertex_at H' i =
       Some (if decide (st ≤ i < en) then Vertex (v_id v) (v_nets v) (v_weight v) (if decide (side i = 0) then low else high) else v)) ∧
    ∀ b, (∀ i, st ≤ i < en → 0 ≤ weight_at H i ≤ b) → 0 ≤ fst mx → 0 ≤ snd mx →
      zsum (weight_at H <$> seqZ st (en - st)) + b ≤ fst mx + snd mx →
      side_weight H st en side 0 ≤ fst mx ∧ side_weight H st en side 1 ≤ snd mx.
Proof.
  intros H mx st en low high w Hst Hen.
  set (P := λ (r : hg * (Z * Z)), ∃ side, (∀ i, side i = 0 ∨ side i = 1) ∧ snd r = (side_weight H st en side 0, side_weight H st en side 1) ∧
    same_but_parts H (fst r) ∧ length (h_verts (fst r)) = length (h_verts H) ∧
    (∀ i v, vertex_at H i = Some v → vertex_at (fst r) i =
       Some (if decide (st ≤ i < en) then Vertex (v_id v) (v_nets v) (v_weight v) (if decide (side i = 0) then low else high) else v)) ∧
    let b := foldr Z.max 0 (weight_at H <$> seqZ st (en - st)) in
      ((∀ i, st ≤ i < en → 0 ≤ weight_at H i ≤ b) → 0 ≤ fst mx → 0 ≤ snd mx →
      zsum (weight_at H <$> seqZ st (en - st)) + b ≤ fst mx + snd mx →
      side_weight H st en side 0 ≤ fst mx ∧ side_weight H st en side 1 ≤ snd mx)).
  assert (wp (bisect_random H mx st en (low, high)) P) as Hw.
  { apply (wpe_bisect_random _ _ _ _ _ _ (foldr Z.max 0 (weight_at H <$> seqZ st (en - st)))); [lia|done|].
    intros bs Hlen HF. rewrite !(br_weight_side H st en) by (done || lia). intros wss Hlim.
    exists (λ i, default 0 (zlookup bs (i - st))). cbn [fst snd]. split_and!.
    - intros i. destruct (zlookup bs (i - st)) as [p|] eqn:Hp; [|by left]. apply zlookup_Some in Hp as [_ Hp]. simpl.
      by eapply (Forall_lookup_1 _ _ _ _ HF).
    - done.
    - unfold same_but_parts. done.
    - simpl. unfold br_parts. by rewrite imap_length.
    - intros i v. unfold vertex_at. case_decide as Hi; [|done]. intros Hv. simpl. unfold br_parts. rewrite list_lookup_imap, Hv. simpl. f_equal.
      rewrite Z2Nat.id by done. case_decide as Hr.
      + destruct (zlookup_is_Some bs (i - st)) as [p Hp]; [lia|]. rewrite Hp. simpl. unfold set_part, interval_at. done.
      + destruct (zlookup bs (i - st)) eqn:Hp; [|done]. apply zlookup_Some_lt in Hp. lia.
    - cbv zeta. intros Hb Hm0 Hm1 Hsl. apply Hlim; [|done|done|].
      + intros i v Hi Hv. specialize (Hb i Hi). apply zlookup_Some in Hv as [Hi0 Hv].
        assert (weight_at H i = v_weight v) as <-; [|done]. unfold weight_at, vertex_at. by rewrite decide_True, Hv.
      + rewrite zsum_range_weight by lia. done. }
  apply wp_run with (w := w) in Hw as ([H' ws] & w' & Heq & side & Hside & Hws & Hsame & Hlen & Hparts & Hlim). cbn [fst snd] in *. subst ws.
  exists side, H', w'. split; [done|]. split; [done|]. split; [done|]. split; [done|]. split; [done|].
  intros b Hb H0 H1 Hsl.
  assert (∀ i, st ≤ i < en → weight_at H i ≤ foldr Z.max 0 (weight_at H <$> seqZ st (en - st))) as Hmax.
  { intros i Hi. assert (i ∈ seqZ st (en - st)) as Hin by (apply elem_of_seqZ; lia). revert Hin. generalize (seqZ st (en - st)). clear.
    induction l as [|x l IH]; [set_solver|]. csimpl. cbn [foldr]. intros [-> |Hin]%elem_of_cons; [lia|]. specialize (IH Hin). lia. }
  assert (foldr Z.max 0 (weight_at H <$> seqZ st (en - st)) ≤ Z.max 0 b) as Hle.
  { assert (∀ i, i ∈ seqZ st (en - st) → weight_at H i ≤ b) as Hall by (intros i Hi%elem_of_seqZ; apply Hb; lia).
    revert Hall. generalize (seqZ st (en - st)). clear. induction l as [|x l IH]; [simpl; lia|]. csimpl. cbn [foldr]. intros Hall.
    pose proof (Hall x ltac:(set_solver)). specialize (IH ltac:(set_solver)). lia. }
  destruct (decide (st = en)) as [->|Hne].
  - unfold side_weight. rewrite Z.sub_diag. simpl. unfold zsum. simpl. done.
  - pose proof (Hb st ltac:(lia)). apply Hlim; [|done|done|lia]. intros i Hi. split; [apply Hb; lia|by apply Hmax].
Qed.

(** C20, refuted: weights 1, 1, 2 fit into the limits (2,2), but the first two vertices may
    take different sides, and then the third one goes over a limit. *)
Definition br_H : hg := mk_hg 3 0 [Vertex 0 [] 1 0; Vertex 1 [] 1 0; Vertex 2 [] 2 0] [] 0.
Lemma C20_limits_refuted_proof : ∃ H mx w, consistent H ∧
  (∃ side, side_weight H 0 3 side 0 ≤ fst mx ∧ side_weight H 0 3 side 1 ≤ snd mx ∧ ∀ i, side i = 0 ∨ side i = 1) ∧
  ∃ H' ws w', bisect_random H mx 0 3 (0, 1) w = Ok ((H', ws), w') ∧ snd mx < part_weight H' 1 ∧ snd mx < snd ws.
Proof.
  exists br_H, (2, 2), (tape_of [0; 1; 0]). split; [apply mk_hg_consistent_dec; vm_compute; reflexivity|]. split.
  - exists (λ i, if decide (i = 2) then 1 else 0). split; [vm_compute; discriminate|]. split; [vm_compute; discriminate|].
    intros i. case_decide; auto.
  - eexists _, _, _. split; [vm_compute; reflexivity|]. split; vm_compute; reflexivity.
Qed.

Example C20_example : (0 ≤ 1 ≤ 4) ∧ 4 ≤ Z.of_nat (length (h_verts klH)) ∧
  match bisect_random klH (4, 5) 1 4 (6, 9) (tape_of [0; 1; 0]) with
  | Ok ((H', ws), _) => v_part <$> h_verts H' = [0; 6; 9; 9; 0] ∧ ws = (2, 4) | Err _ => False end.
Proof. split; [lia|]. split; [vm_compute; discriminate|]. vm_compute. split; reflexivity. Qed.

(** ** C21 *)

(** C21.  For every non-empty hypergraph (of size at most 2^53, where the doubles of the code are
    exact), sample_random terminates without failing an assertion and returns min(ns, size)
    strictly increasing vertex indices. *)
Lemma C21_sample_random_proof : ∀ H ns w, 0 < Z.of_nat (length (h_verts H)) ≤ 2 ^ 53 →
  ∃ sm w', sample_random H ns w = Ok (sm, w') ∧
    Z.of_nat (length sm) = Z.max 0 (Z.min ns (Z.of_nat (length (h_verts H)))) ∧ StronglySorted Z.lt sm ∧
    ∀ i, i ∈ sm → 0 ≤ i < Z.of_nat (length (h_verts H)).
Proof.
  intros H ns w Hsz.
  assert (wp (sample_random H ns) (λ sm, Z.of_nat (length sm) = Z.max 0 (Z.min ns (Z.of_nat (length (h_verts H)))) ∧ StronglySorted Z.lt sm ∧
    ∀ i, i ∈ sm → 0 ≤ i < Z.of_nat (length (h_verts H)))) as Hw.
  { apply wpe_sample_random; [done|]. intros sm H1 H2 H3. rewrite Forall_forall in H3. auto. }
  apply wp_run with (w := w) in Hw as (sm & w' & Heq & HS). eauto.
Qed.
Example C21_example : 0 < Z.of_nat (length (h_verts klH)) ≤ 2 ^ 53 ∧
  match sample_random klH 3 (tape_of [4294967295; 0; 4294967295]) with Ok (sm, _) => sm = [1; 3; 4] | Err _ => False end.
Proof. split; [vm_compute; split; [reflexivity|discriminate]|]. vm_compute. reflexivity. Qed.

(** ** C22 *)
Definition no_max (w : world) : Prop := ∀ n, w_tape w n `mod` 4294967296 ≠ rng_max.

(** C22, what holds.  With the labels of the label propagation it runs first, sample_lp returns
    strictly increasing indices of vertices with pairwise different labels; if the generator
    does not return its largest value afterwards, every label that occurs has its sample.
    Missing: the last claim for all random sequences (C22_every_label_refuted). *)
Lemma C22_sample_lp_partial_proof : ∀ H opts w, consistent H → 0 < o_sample_size opts →
  ∃ L w1 sm w', label_propagation H (o_sample_size opts) (o_lp_max_iterations opts) 1 w = Ok (L, w1) ∧
    sample_lp H opts w = Ok (sm, w') ∧ length L = length (h_verts H) ∧ StronglySorted Z.lt sm ∧
    ∃ SL, Forall2 (λ s j, 0 ≤ s ∧ L !! Z.to_nat s = Some j) sm SL ∧ NoDup SL ∧
      (no_max w1 → ∀ j, j ∈ L → j ∈ SL).
Proof.
  intros H opts w HC Hl.
  assert (wp (label_propagation H (o_sample_size opts) (o_lp_max_iterations opts) 1) (λ L, length L = length (h_verts H) ∧ Forall (λ j, 0 ≤ j < o_sample_size opts) L)) as Hw.
  { apply wpe_label_propagation; auto. }
  apply wp_run with (w := w) in Hw as (L & w1 & Heq & Hlen & HF). exists L, w1.
  assert (∃ sm w', sample_labels H (o_sample_size opts) L w1 = Ok (sm, w') ∧ StronglySorted Z.lt sm ∧
    ∃ SL, is_sample_of L sm SL ∧ NoDup SL ∧ (no_max w1 → ∀ j, j ∈ L → j ∈ SL)) as (sm & w' & Heq2 & Hsort & SL & HSL & Hnd & Hall).
  { set (P := λ z, ∃ n, z = w_tape w1 n `mod` 4294967296).
    assert (wpt P (sample_labels H (o_sample_size opts) L) (λ sm, StronglySorted Z.lt sm ∧ ∃ SL, is_sample_of L sm SL ∧ NoDup SL ∧ (no_max w1 → ∀ j, j ∈ L → j ∈ SL))) as Hwt.
    { apply wpt_sample_labels; [done|done|]. intros sm SL H1 H2 H3 H4. split; [done|]. exists SL. split; [done|]. split; [done|].
      intros Hnm. apply H4. intros z (n & ->). apply Hnm. }
    assert (tape_ok P w1) as Ht by (intros n; by exists n). specialize (Hwt w1 Ht).
    destruct (sample_labels _ _ _ w1) as [[sm w']|]; [|done]. destruct Hwt as (_ & H1 & H2). eauto. }
  exists sm, w'. split; [done|]. split; [unfold sample_lp, bind; by rewrite Heq|]. split; [done|]. split; [done|].
  exists SL. split; [|done]. eapply Forall2_impl; [exact HSL|]. intros s j. simpl. by rewrite zlookup_Some.
Qed.

(** C22, refuted: one vertex, one label, no sample. *)
Definition slp_H : hg := mk_hg 1 0 [Vertex 0 [] 1 0] [] 0.
Definition slp_opts : options := Opts 1 3 4 2 3 10 20 2 CutNet BisMultilevel SampLP.
Lemma C22_every_label_refuted_proof : ∃ H opts w, consistent H ∧ 0 < o_sample_size opts ∧
  ∃ L w1 w', label_propagation H (o_sample_size opts) (o_lp_max_iterations opts) 1 w = Ok (L, w1) ∧
    L = [0] ∧ sample_lp H opts w = Ok ([], w').
Proof.
  exists slp_H, slp_opts, (tape_of [0; 0; 4294967295]). split; [apply mk_hg_consistent_dec; vm_compute; reflexivity|].
  split; [vm_compute; reflexivity|]. eexists _, _, _. split; [vm_compute; reflexivity|]. split; [reflexivity|]. vm_compute. reflexivity.
Qed.

Example C22_example : consistent klH ∧ 0 < o_sample_size kl_opts ∧
  match sample_lp klH kl_opts (tape_of [0; 1; 2; 1; 2; 0; 0; 0; 0; 0; 0; 4294967294; 5]) with Ok (sm, _) => (1 < length sm)%nat | Err _ => False end.
Proof.
  split; [exact (kp_cons _ klH_pre)|]. split; [vm_compute; reflexivity|].
  assert (match sample_lp klH kl_opts (tape_of [0; 1; 2; 1; 2; 0; 0; 0; 0; 0; 0; 4294967294; 5]) with Ok (sm, _) => bool_decide (1 < length sm)%nat | Err _ => false end = true) as Hb by (vm_compute; reflexivity).
  destruct (sample_lp _ _ _) as [[sm ?]|]; [|done]. by apply bool_decide_eq_true in Hb.
Qed.

(** ** C26 *)

(** C26.  [ip_candidates] runs the ten rounds (label propagation, then refinement) and collects
    the bisections they end with.  initial_partitioning makes the same random choices and ends
    with the parts of one of these candidates; the returned value is its true cut; if some
    candidate meets the limits then the result does, and it cuts no more than any candidate
    within the limits.  Candidates, hence the result, meet limits that leave room for one more
    vertex of the largest weight. *)
Lemma C26_best_candidate_proof : ∀ H mx opts w, klfm_pre H → 0 ≤ fst mx → 0 ≤ snd mx → tot_weight H < long_max →
  ∃ cs H' cut w', ip_candidates mx opts 10 H w = Ok (cs, w') ∧ length cs = 10%nat ∧
    (∀ c, c ∈ cs → same_shape H (fst c) ∧ bisected (fst c) ∧ snd c = cut_net (fst c)) ∧
    initial_partitioning H mx opts w = Ok ((H', cut), w') ∧
    same_shape H H' ∧ bisected H' ∧ cut = cut_net H' ∧
    (∃ c, c ∈ cs ∧ ∀ u, part_of H' u = part_of (fst c) u) ∧
    (∀ c, c ∈ cs → balanced (fst c) mx → balanced H' mx ∧ cut ≤ cut_net (fst c)) ∧
    ∀ b, weights_below H b → tot_weight H + b ≤ fst mx + snd mx → balanced H' mx.
Proof.
  intros H mx opts w Hpre H0 H1 Htot.
  destruct (initial_partitioning_run H mx opts 0 w Hpre H0 H1 Htot) as (cs & H' & cut & w' & Heq & Hip & Hlen & Hg & [Hs HB Hc Hcand Hbest]).
  exists cs, H', cut, w'. split; [done|]. split; [done|]. split.
  { intros c Hcs. destruct (Hg c Hcs). auto. }
  split; [done|]. split; [done|]. split; [done|]. split; [done|]. split; [done|]. split; [done|].
  intros b Hb Hsl. destruct (initial_partitioning_run H mx opts b w Hpre H0 H1 Htot) as (cs2 & H2 & cut2 & w2 & Heq2 & _ & _ & Hg2 & _).
  rewrite Heq in Heq2. injection Heq2 as <- <-. destruct Hcand as (c & Hcs & _). eapply Hbest; [exact Hcs|]. by apply (gc_bal _ _ _ _ (Hg2 c Hcs)).
Qed.

Example C26_example : klfm_pre klH ∧ tot_weight klH < long_max ∧
  match initial_partitioning klH (6, 6) kl_opts (tape_of [0; 1; 1; 0; 1; 3; 1; 2; 7]) with
  | Ok ((H', cut), _) => (cut, pws H') = (2, (5, 3)) | Err _ => False end.
Proof. split; [exact klH_pre|]. split; vm_compute; reflexivity. Qed.
