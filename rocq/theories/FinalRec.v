(** The property lemmas of C28-C32 and C47: recursive bisection with one processor. *)
From Verif Require Export RecProof.

(** ** Reordering *)

(** C28, what holds.  If the range R, with both labels allowed, has a vertex labelled high, then
    reordering permutes R into its low vertices followed by its high vertices, returns the boundary,
    and changes nothing else; id lookup stays exact. *)
Lemma C28_reorder_partial_proof : ∀ H A R B low high w, consistent H → h_verts H = A ++ R ++ B → low ≠ high →
  (∀ v, v ∈ R → v_part v = low ∨ v_part v = high) → (∃ v, v ∈ R ∧ v_part v = high) →
  ∃ H' R0 R1 w',
    reorder_hypergraph H (Z.of_nat (length A)) (Z.of_nat (length (A ++ R))) low high w = Ok ((H', Z.of_nat (length (A ++ R0))), w') ∧
    h_verts H' = A ++ R0 ++ R1 ++ B ∧ R0 ++ R1 ≡ₚ R ∧ (∀ v, v ∈ R0 → v_part v = low) ∧ (∀ v, v ∈ R1 → v_part v = high) ∧
    consistent H' ∧ h_nets H' = h_nets H ∧ h_gsize H' = h_gsize H ∧ h_gnets H' = h_gnets H ∧ h_nz H' = h_nz H ∧ h_dups H' = h_dups H.
Proof.
  intros H A R B low high w HC Hv Hlh Hp (v1 & Hv1 & Hv1p).
  assert (wp (reorder_hypergraph H (Z.of_nat (length A)) (Z.of_nat (length (A ++ R))) low high) (λ o, ∃ R0 R1,
    snd o = Z.of_nat (length (A ++ R0)) ∧ fst o = update_map (with_verts (A ++ R0 ++ R1 ++ B) H) ∧ R0 ++ R1 ≡ₚ R ∧ (∀ v, v ∈ R0 → v_part v = low) ∧ (∀ v, v ∈ R1 → v_part v = high))) as Hw.
  { rewrite app_length, Nat2Z.inj_add. apply wpe_reorder_seg with B; [done|done|by apply Forall_forall| |].
    - intros R0 R1 _ Hperm HR0 HR1. rewrite Forall_forall in HR0, HR1. exists R0, R1. cbn [fst snd]. rewrite app_length, Nat2Z.inj_add. done.
    - intros Hall. rewrite Forall_forall in Hall. specialize (Hall v1 Hv1). congruence. }
  apply wp_run with (w := w) in Hw as ([H' e] & w' & Heq & R0 & R1 & He & HH & Hperm & HR0 & HR1). cbn [fst snd] in *. subst H' e.
  exists (update_map (with_verts (A ++ R0 ++ R1 ++ B) H)), R0, R1, w'. split; [done|]. split; [done|]. split; [done|]. split; [done|]. split; [done|].
  split; [|done]. apply reordered_consistent; [done|]. by rewrite Hv, (app_assoc R0), Hperm.
Qed.

(** C28, refuted.  If no vertex of the range is labelled high, and also if the range is empty, the
    vertices stay where they are and the returned boundary is one too small: the last vertex of the
    range falls on the high side, and for an empty range the boundary lies before its start. *)
Lemma C28_one_sided_refuted_proof : ∀ H A R B low high w, h_verts H = A ++ R ++ B → low ≠ high →
  (∀ v, v ∈ R → v_part v = low) →
  ∃ H' w',
    reorder_hypergraph H (Z.of_nat (length A)) (Z.of_nat (length (A ++ R))) low high w = Ok ((H', Z.of_nat (length (A ++ R)) - 1), w') ∧
    h_verts H' = h_verts H.
Proof.
  intros H A R B low high w Hv Hlh Hp.
  assert (wp (reorder_hypergraph H (Z.of_nat (length A)) (Z.of_nat (length (A ++ R))) low high) (λ o,
    snd o = Z.of_nat (length (A ++ R)) - 1 ∧ h_verts (fst o) = h_verts H)) as Hw.
  { rewrite app_length, Nat2Z.inj_add. apply wpe_reorder_seg with B; [done|done|apply Forall_forall; intros v Hin; left; by apply Hp| |].
    - intros R0 R1 Hne Hperm _ HR1. destruct R1 as [|v R1]; [done|]. apply Forall_cons in HR1 as [HR1 _].
      specialize (Hp v). rewrite Hp in HR1; [done|]. rewrite <-Hperm. set_solver.
    - done. }
  apply wp_run with (w := w) in Hw as ([H' e] & w' & Heq & He & Hv'). cbn [fst snd] in *. subst e. eauto.
Qed.

Definition c28_vs (ps : list Z) : list vertex := imap (λ i p, Vertex (Z.of_nat i) [] 1 p) ps.
Definition c28_H (ps : list Z) : hg := mk_hg (Z.of_nat (length ps)) 0 (c28_vs ps) [] 0.
Lemma c28_H_cons : consistent (c28_H [9; 4; 7; 4; 7; 7; 4; 9]).
Proof. apply mk_hg_consistent_dec; vm_compute; reflexivity. Qed.
Example C28_example :
  h_verts (c28_H [9; 4; 7; 4; 7; 7; 4; 9]) = take 1 (c28_vs [9; 4; 7; 4; 7; 7; 4; 9]) ++ take 6 (drop 1 (c28_vs [9; 4; 7; 4; 7; 7; 4; 9])) ++ drop 7 (c28_vs [9; 4; 7; 4; 7; 7; 4; 9]) ∧
  consistent (c28_H [9; 4; 7; 4; 7; 7; 4; 9]) ∧
  match reorder_hypergraph (c28_H [9; 4; 7; 4; 7; 7; 4; 9]) 1 7 4 7 w0 with
  | Ok ((H', e), _) => bool_decide (e = 4 ∧ v_part <$> h_verts H' = [9; 4; 4; 4; 7; 7; 7; 9]) | Err _ => false end = true ∧
  match reorder_hypergraph (c28_H [4; 4; 4; 4]) 1 3 4 7 w0 with Ok ((_, e), _) => bool_decide (e = 2) | Err _ => false end = true.
Proof. split; [reflexivity|]. split; [exact c28_H_cons|]. split; vm_compute; reflexivity. Qed.

(** ** The whole recursion *)

(** the weight limit of recursive_bisection.cpp:40 for total weight [W], in double precision *)
Definition part_limit (W k : Z) (eps : dbl) : option Z := d_trunc (d_div (d_mul (d_add d_one eps) (d_of_Z W)) (d_of_Z k)).

(** C29, what holds.  For every k of at least two, every imbalance, options, random sequence and hash
    order, recursive bisection with one processor either ends with every vertex in a part in [0,k),
    or executes the conversion of a NaN to an integer (or looks at the first vertex of an empty net,
    with the cut-net metric).  It does not loop, fail an assertion or throw.  With the lambda-minus-one
    metric vertices, weights, nets and incidences are those of the input; with the cut-net metric the
    nets recorded at the vertices are not (C32_vertices_refuted).  Missing: k = 1 and the undefined
    runs (C29_one_part_refuted, C29_empty_side_refuted). *)
Lemma C29_recursive_bisection_partial_proof : ∀ bp H k eps opts w, lawful_family bp → rb_pre H → 2 ≤ k ≤ 2 ^ 50 →
  (∀ M, part_limit (tot_weight H) k eps = Some M → 0 ≤ M ∧ M * k ≤ 2 ^ 50) →
  recursive_bisect1 bp H k eps opts w = Err UB ∨
  ∃ H' w', recursive_bisect1 bp H k eps opts w = Ok (H', w') ∧ (∀ v, v ∈ h_verts H' → 0 ≤ v_part v < k) ∧
    (o_metric opts = LambdaMinusOne → same_up_to_order_and_parts H H') ∧ same_nets_up_to_order H H'.
Proof.
  intros bp H k eps opts w Hbp Hpre Hk HM.
  assert (wpe (λ e, e = UB) (recursive_bisect1 bp H k eps opts) (λ H', (∀ v, v ∈ h_verts H' → 0 ≤ v_part v < k) ∧
    (o_metric opts = LambdaMinusOne → same_up_to_order_and_parts H H') ∧ same_nets_up_to_order H H')) as Hw.
  { eapply (wpe_recursive_bisect False); [by apply bisect1_ok|done|done|exact HM|done|done|]. intros H' M _ Hp _ Hl Hn. done. }
  specialize (Hw w). destruct (recursive_bisect1 bp H k eps opts w) as [[H' w']|e]; [right|left; by rewrite Hw].
  exists H', w'. done.
Qed.

(** C29, two parts: the run always ends normally if there is a vertex at all. *)
Lemma C29_two_parts_partial_proof : ∀ bp H eps opts M w, lawful_family bp → rb_pre H → h_verts H ≠ [] →
  part_limit (tot_weight H) 2 eps = Some M → 0 ≤ M → M * 2 ≤ 2 ^ 50 →
  ∃ H' w', recursive_bisect1 bp H 2 eps opts w = Ok (H', w') ∧ (∀ v, v ∈ h_verts H' → 0 ≤ v_part v < 2) ∧
    (o_metric opts = LambdaMinusOne → same_up_to_order_and_parts H H') ∧ same_nets_up_to_order H H'.
Proof.
  intros bp H eps opts M w Hbp Hpre Hne HM HM0 HMk.
  assert (0 < tot_weight H) as HW.
  { unfold tot_weight. destruct (h_verts H) as [|v vs] eqn:Hvs; [done|]. csimpl. rewrite zsum_cons.
    pose proof (rp_weight _ Hpre) as Hw. rewrite Hvs in Hw. assert (0 < v_weight v) by (apply Hw; set_solver).
    assert (0 ≤ zsum (v_weight <$> vs)); [|lia]. apply zsum_nonneg. intros x (u & -> & Hu)%elem_of_list_fmap. apply Z.lt_le_incl, Hw. set_solver. }
  assert (wp (recursive_bisect1 bp H 2 eps opts) (λ H', (∀ v, v ∈ h_verts H' → 0 ≤ v_part v < 2) ∧
    (o_metric opts = LambdaMinusOne → same_up_to_order_and_parts H H') ∧ same_nets_up_to_order H H')) as Hw.
  { eapply wpe_recursive_bisect2; [by apply bisect1_ok|done|done|exact HM|done|done|]. done. }
  apply wp_run with (w := w) in Hw as (H' & w' & Heq & ?). eauto.
Qed.

(** C29, refuted for one part.  Nothing is done for k = 1: all vertices keep their part, which is -1
    in a hypergraph as it is read. *)
Lemma C29_one_part_refuted_proof : ∀ bp H eps opts M w, o_metric opts = LambdaMinusOne → part_limit (tot_weight H) 1 eps = Some M →
  recursive_bisect1 bp H 1 eps opts w = Ok (H, w).
Proof.
  intros bp H eps opts M w Hm HM. unfold recursive_bisect1, recursive_bisect_with, bind, nidx, of_option, global_weight, bulk_sum. csimpl.
  rewrite total_weight_spec. cbn [foldl]. rewrite Z.add_0_l. unfold max_weight, d_to_Z, part_limit in *. rewrite HM. simpl. unfold rb_job, bind. simpl.
  rewrite Hm. done.
Qed.

Definition c29_one : hg := mk_hg 1 1 [Vertex 0 [0] 5 (-1)] [Net 0 [0] 1 1] 1.
Lemma c29_one_pre : rb_pre c29_one.
Proof.
  split; [apply mk_hg_consistent_dec; vm_compute; reflexivity| | | |done|vm_compute; discriminate].
  - split; [done|]. apply Forall_forall, (bool_decide_eq_true_1 _). vm_compute. reflexivity.
  - intros v; revert v; apply Forall_forall, (bool_decide_eq_true_1 _). vm_compute. reflexivity.
  - intros v; revert v; apply Forall_forall, (bool_decide_eq_true_1 _). vm_compute. reflexivity.
Qed.
Definition c29_eps : dbl := d_div (d_of_Z 1) (d_of_Z 10).
Definition c29_opts (m : metric) (b : bisection_mode) : options := Opts 5 2 4 2 3 10 20 2 m b SampLP.
(** C29, refuted for sides that get no vertex and must be split again: their weight is 0, the
    imbalance left to them is infinite, 0 * infinity is not a number, and the conversion of that to
    an integer is undefined. *)
Lemma C29_empty_side_refuted_proof : ∃ H k eps opts, rb_pre H ∧ part_limit (tot_weight H) k eps = Some 1 ∧ h_verts H ≠ [] ∧ k = 4 ∧
  recursive_bisect1 blocks H k eps opts w0 = Err UB.
Proof.
  exists c29_one, 4, c29_eps, (c29_opts LambdaMinusOne BisMultilevel). split; [exact c29_one_pre|]. split; [vm_compute; reflexivity|].
  split; [done|]. split; [done|]. vm_compute. reflexivity.
Qed.

Lemma c27_G_rb_pre : rb_pre c27_G.
Proof.
  split; [exact c27_G_cons| | | |reflexivity|vm_compute; discriminate].
  - split; [done|]. apply Forall_forall, (bool_decide_eq_true_1 _). vm_compute. reflexivity.
  - intros v; revert v; apply Forall_forall, (bool_decide_eq_true_1 _). vm_compute. reflexivity.
  - intros v; revert v; apply Forall_forall, (bool_decide_eq_true_1 _). vm_compute. reflexivity.
Qed.
Example C29_example :
  lawful_family blocks ∧ rb_pre c27_G ∧ part_limit (tot_weight c27_G) 3 c29_eps = Some 3 ∧ 3 * 3 ≤ 2 ^ 50 ∧
  match recursive_bisect1 blocks c27_G 3 c29_eps (c29_opts LambdaMinusOne BisMultilevel) w0 with
  | Ok (H', _) => bool_decide ((λ v, (v_id v, v_part v)) <$> h_verts H' = [(5, 0); (4, 0); (2, 0); (3, 1); (1, 2); (0, 2)]) | Err _ => false end = true ∧
  match recursive_bisect1 blocks c27_G 4 c29_eps (c29_opts CutNet BisMultilevel) w0 with
  | Ok (H', _) => bool_decide ((λ v, (v_id v, v_part v)) <$> h_verts H' = [(0, 0); (1, 1); (2, 1); (3, 2); (4, 3); (5, 3)]) | Err _ => false end = true.
Proof.
  split; [apply blocks_lawful|]. split; [exact c27_G_rb_pre|]. split; [vm_compute; reflexivity|]. split; [lia|]. split; vm_compute; reflexivity.
Qed.

(** ** The label intervals *)

(** splitting the labels [low,high] as the program does: the leaves from left to right and the number of splits *)
Inductive split_tree : Z → Z → list Z → Z → Prop :=
| split_leaf l : split_tree l l [l] 0
| split_node low high L0 L1 n0 n1 : low < high →
    split_tree (fst (labels_0 low high)) (snd (labels_0 low high)) L0 n0 →
    split_tree (fst (labels_1 low high)) (snd (labels_1 low high)) L1 n1 →
    split_tree low high (L0 ++ L1) (n0 + n1 + 1).

(** C30.  Splitting the labels low..high gives every label exactly once as a leaf, in order, after
    high - low splits; in particular [0,k-1] after k-1 splits.  Both sides of a split have labels. *)
Lemma C30_labels_proof : ∀ low high, low ≤ high → ∀ L n, split_tree low high L n ↔ L = seqZ low (high - low + 1) ∧ n = high - low.
Proof.
  intros low high Hlh L n.
  assert (∀ low high L0 L1 n0 n1, low < high → L0 = seqZ low (k_low_of low high) → n0 = k_low_of low high - 1 →
    L1 = seqZ (low + k_low_of low high) (k_high_of low high) → n1 = k_high_of low high - 1 →
    L0 ++ L1 = seqZ low (high - low + 1) ∧ n0 + n1 + 1 = high - low) as Hjoin.
  { clear. intros low high L0 L1 n0 n1 Hlt -> -> -> ->. destruct (halves low high Hlt) as (H1 & H2 & H3 & H4 & _).
    split; [|lia]. replace (high - low + 1) with (k_low_of low high + k_high_of low high) by lia. rewrite seqZ_app by lia. done. }
  split.
  - intros Ht. assert (low ≤ high ∧ L = seqZ low (high - low + 1) ∧ n = high - low) as [_ ?]; [|done].
    clear Hlh. induction Ht as [l|low high L0 L1 n0 n1 Hlt _ IH0 _ IH1].
    + split; [lia|]. split; [|lia]. replace (l - l + 1) with 1 by lia. done.
    + split; [lia|]. destruct (halves low high Hlt) as (H1 & H2 & H3 & H4 & H5 & H6). rewrite H5 in IH0. rewrite H6 in IH1. cbn [fst snd] in *.
      destruct IH0 as (_ & -> & ->), IH1 as (_ & -> & ->). apply Hjoin; [done|f_equal; lia|lia|f_equal; lia|lia].
  - intros [-> ->]. remember (Z.to_nat (high - low)) as d eqn:Hd. revert low high Hlh Hd.
    induction (lt_wf d) as [d _ IH]. intros low high Hlh Hd. destruct (decide (low = high)) as [->|Hne].
    + replace (high - high + 1) with 1 by lia. rewrite Z.sub_diag. change (seqZ high 1) with [high]. constructor.
    + assert (low < high) as Hlt by lia. destruct (halves low high Hlt) as (H1 & H2 & H3 & H4 & H5 & H6).
      destruct (Hjoin low high _ _ _ _ Hlt eq_refl eq_refl eq_refl eq_refl) as [<- <-]. constructor; [done| |].
      * rewrite H5. cbn [fst snd]. replace (k_low_of low high) with (low + k_low_of low high - 1 - low + 1) at 2 by lia.
        replace (k_low_of low high - 1) with (low + k_low_of low high - 1 - low) at 1 by lia. eapply IH; [|lia|reflexivity]. lia.
      * rewrite H6. cbn [fst snd]. replace (k_high_of low high) with (high - (low + k_low_of low high) + 1) at 1 by lia.
        replace (k_high_of low high - 1) with (high - (low + k_low_of low high)) by lia. eapply IH; [|lia|reflexivity]. lia.
Qed.
(** C30 for the runs of the program: every run that ends has made k - 1 splits. *)
Lemma C30_runs_proof : ∀ bp H k M opts w s' w', lawful_family bp → rb_pre H → 2 ≤ k ≤ 2 ^ 50 → 0 ≤ M → M * k ≤ 2 ^ 50 →
  rb_loop (bisect1 bp) k M opts (RB H [Job 0 (Z.of_nat (length (h_verts H))) 0 (k - 1) (tot_weight H)] [] 0) w = Ok (s', w') →
  rb_splits s' = k - 1 ∧ rb_jobs s' = [].
Proof.
  intros bp H k M opts w s' w' Hbp Hpre Hk HM HMk Hrun.
  assert (good H opts H []) as Hg0.
  { split; [done|]. split; [done|]. split; [done|]. split; [done|]. split; [done|]. destruct (o_metric opts); [rewrite app_nil_r; by split|done]. }
  assert (wpe (λ e, e = UB) (rb_loop (bisect1 bp) k M opts (RB H [Job 0 (Z.of_nat (length (h_verts H))) 0 (k - 1) (tot_weight H)] [] 0))
    (λ s', rb_splits s' = k - 1 ∧ rb_jobs s' = [])) as Hw.
  { eapply (wpe_rb_loop False _ (bisect1_ok bp Hbp) H opts k M Hk HM HMk (rp_cons _ Hpre) (tot_weight H) ltac:(apply Hpre) ltac:(done) 0 ltac:(lia)); [done|done|exact Hg0| | |].
    - eapply exact_sane; [lia|]. cbn [rb_jobs rb_H]. apply whole_exact; [lia|apply Hpre].
    - cbn [rb_splits rb_jobs]. csimpl. rewrite zsum_cons. change (zsum []) with 0. unfold jlen. cbn [j_high j_low]. lia.
    - intros s1 _ Hj Hsp _ _ _. split; [|done]. rewrite Hsp. cbn [rb_splits rb_jobs]. csimpl. rewrite zsum_cons. change (zsum []) with 0. unfold jlen. cbn [j_high j_low]. lia. }
  specialize (Hw w). rewrite Hrun in Hw. exact Hw.
Qed.
Example C30_example : split_tree 0 2 [0; 1; 2] 2 ∧ labels_0 0 2 = (0, 0) ∧ labels_1 0 2 = (1, 2) ∧ labels_0 3 9 = (3, 5) ∧ labels_1 3 9 = (6, 9) ∧
  match rb_loop (bisect1 blocks) 4 3 (c29_opts LambdaMinusOne BisMultilevel) (RB c27_G [Job 0 6 0 3 9] [] 0) w0 with
  | Ok (s', _) => bool_decide (rb_splits s' = 3) | Err _ => false end = true.
Proof. split; [by apply C30_labels_proof|]. split; [reflexivity|]. split; [reflexivity|]. split; [reflexivity|]. split; [reflexivity|]. vm_compute. reflexivity. Qed.

(** ** Cut nets *)

(** C31, what holds: if no net is empty, exactly the nets with two or more vertices are taken out and
    stored, so every cut net is among them. *)
Lemma C31_remove_cut_nets_partial_proof : ∀ H cut w, consistent H → (∀ n, n ∈ h_nets H → n_verts n ≠ []) →
  ∃ H' add w', remove_cut_nets H cut w = Ok ((H', cut ++ add), w') ∧ consistent H' ∧
    h_nets H' ≡ₚ filter (λ n, length (n_verts n) = 1%nat) (h_nets H) ∧
    net_data <$> add ≡ₚ net_data <$> filter (λ n, 2 ≤ length (n_verts n))%nat (h_nets H) ∧
    (∀ n u v, n ∈ h_nets H → u ∈ n_verts n → v ∈ n_verts n → part_of H u ≠ part_of H v → net_data n ∈ net_data <$> add ∧ n_id n ∉ n_id <$> h_nets H').
Proof.
  intros H cut w HC Hne.
  assert (wp (remove_cut_nets H cut) (λ o, ∃ add, snd o = cut ++ add ∧ consistent (fst o) ∧ h_nets (fst o) ≡ₚ filter (λ n, length (n_verts n) = 1%nat) (h_nets H) ∧
    net_data <$> add ≡ₚ net_data <$> filter (λ n, 2 ≤ length (n_verts n))%nat (h_nets H))) as Hw.
  { apply wpe_remove_cut_nets; [done|intros (n & Hn & Hx); by apply (Hne n)|]. intros H' add HR HC' _ _ Hadd _. exists add. split; [done|]. split; [done|]. split.
    - cbn [fst]. rewrite (nsr_nets _ _ _ HR). erewrite (HgMore.filter_ext _ (λ n, length (n_verts n) = 1%nat)); [done|]. intros n Hn. split.
      + intros Hx. destruct (decide (wide n)) as [Hwd|Hwd].
        * destruct Hx. apply elem_of_list_fmap. exists n. split; [done|]. by apply elem_of_list_filter.
        * unfold wide in Hwd. specialize (Hne n Hn). destruct (n_verts n) as [|a [|b l]]; [done|done|simpl in Hwd; lia].
      + intros Hl (m & Hid & [Hm Hin]%elem_of_list_filter)%elem_of_list_fmap. assert (n = m) as ->.
        { apply elem_of_list_lookup in Hn as [i Hi]. apply elem_of_list_lookup in Hin as [i' Hi'].
          assert (i = i') as -> by (eapply (NoDup_fmap_inj n_id (h_nets H)); [apply HC|done..]). congruence. }
        unfold wide in Hm. lia.
    - rewrite Hadd, <-list_fmap_compose. done. }
  apply wp_run with (w := w) in Hw as ([H' c] & w' & Heq & add & Hc & HC' & Hn & Ha). cbn [fst snd] in *. subst c.
  exists H', add, w'. split; [done|]. split; [done|]. split; [done|]. split; [done|].
  intros n u v Hin Hu Hv Hp. assert (2 ≤ length (n_verts n))%nat as Hl.
  { destruct (n_verts n) as [|a [|b l]]; [set_solver| |simpl; lia]. set_solver. }
  split.
  - rewrite Ha. apply elem_of_list_fmap_1, elem_of_list_filter. done.
  - rewrite Hn. intros (m & Hid & [Hm Hin']%elem_of_list_filter)%elem_of_list_fmap. assert (n = m) as ->; [|lia].
    apply elem_of_list_lookup in Hin as [i Hi]. apply elem_of_list_lookup in Hin' as [i' Hi'].
    assert (i = i') as -> by (eapply (NoDup_fmap_inj n_id (h_nets H)); [apply HC|done..]). congruence.
Qed.
(** C31, refuted: vertex ids are compared, not parts, so a net that is not cut is taken out as well:
    here all vertices are in part 0 and no net is left. *)
Lemma C31_uncut_refuted_proof : ∃ H H' cut w', consistent H ∧ (∀ v, v ∈ h_verts H → v_part v = 0) ∧ h_nets H ≠ [] ∧
  remove_cut_nets H [] w0 = Ok ((H', cut), w') ∧ h_nets H' = [] ∧ length cut = length (h_nets H).
Proof.
  pose (H := mk_hg 3 2 [Vertex 0 [0; 1] 1 0; Vertex 1 [0] 1 0; Vertex 2 [1] 1 0] [Net 0 [0; 1] 1 2; Net 1 [0; 2] 1 2] 4).
  assert (match remove_cut_nets H [] w0 with Ok ((H', cut), _) => bool_decide (h_nets H' = [] ∧ length cut = 2%nat) | Err _ => false end = true) as Hb by (vm_compute; reflexivity).
  destruct (remove_cut_nets H [] w0) as [[[H' cut] w']|] eqn:Heq; [|done]. apply bool_decide_eq_true in Hb as [Hb1 Hb2].
  exists H, H', cut, w'. split; [apply mk_hg_consistent_dec; vm_compute; reflexivity|]. split; [|done].
  intros v; revert v; apply Forall_forall, (bool_decide_eq_true_1 _). vm_compute. reflexivity.
Qed.
(** C31, refuted: with an empty net the behaviour is undefined. *)
Lemma C31_empty_net_refuted_proof : ∀ H cut w n, consistent H → n ∈ h_nets H → n_verts n = [] → remove_cut_nets H cut w = Err UB.
Proof.
  intros H cut w n HC Hn He.
  assert (wpe (λ e, e = UB) (remove_cut_nets H cut) (λ _, False)) as Hw.
  { apply wpe_remove_cut_nets; [done|done|]. intros H' add _ _ _ _ _ Hx. by apply (Hx n). }
  specialize (Hw w). destruct (remove_cut_nets H cut w) as [[? ?]|e]; [done|]. by rewrite Hw.
Qed.
Definition c31_H : hg := mk_hg 4 3 [Vertex 0 [0; 1] 1 0; Vertex 1 [0] 1 1; Vertex 2 [1; 2] 1 0; Vertex 3 [1] 2 1] [Net 0 [0; 1] 1 2; Net 1 [0; 2; 3] 4 3; Net 2 [2] 1 1] 6.
Lemma c31_H_cons : consistent c31_H.
Proof. apply mk_hg_consistent_dec; vm_compute; reflexivity. Qed.
Example C31_example : consistent c31_H ∧ (∀ n, n ∈ h_nets c31_H → n_verts n ≠ []) ∧ part_of c31_H 0 ≠ part_of c31_H 1 ∧
  match remove_cut_nets c31_H [] w0 with
  | Ok ((H', cut), _) => bool_decide (h_nets H' = [Net 2 [2] 1 1] ∧ cut = [Net 0 [0; 1] 1 0; Net 1 [0; 2; 3] 4 0]) | Err _ => false end = true.
Proof.
  split; [exact c31_H_cons|]. split; [apply Forall_forall, (bool_decide_eq_true_1 _); vm_compute; reflexivity|].
  split; [vm_compute; discriminate|]. vm_compute. reflexivity.
Qed.

(** C32, what holds: removing and adding the cut nets restores all nets with their vertices and costs
    (in another order), and the vertices keep their order, ids, weights and parts.  Missing: the
    vertex side (C32_vertices_refuted). *)
Lemma C32_restore_nets_partial_proof : ∀ H w, consistent H → (∀ n, n ∈ h_nets H → n_verts n ≠ []) →
  ∃ H' cut w', (c <- remove_cut_nets H [] ;; H' <- add_cut_nets (fst c) (snd c) ;; ret (H', snd c)) w = Ok ((H', cut), w') ∧
    net_data <$> h_nets H' ≡ₚ net_data <$> h_nets H ∧ (λ v, (v_id v, v_weight v, v_part v)) <$> h_verts H' = (λ v, (v_id v, v_weight v, v_part v)) <$> h_verts H.
Proof.
  intros H w HC Hne.
  assert (wp (c <- remove_cut_nets H [] ;; H' <- add_cut_nets (fst c) (snd c) ;; ret (H', snd c)) (λ o,
    net_data <$> h_nets (fst o) ≡ₚ net_data <$> h_nets H ∧ (λ v, (v_id v, v_weight v, v_part v)) <$> h_verts (fst o) = (λ v, (v_id v, v_weight v, v_part v)) <$> h_verts H)) as Hw.
  { apply wpe_bind, wpe_remove_cut_nets; [done|intros (n & Hn & Hx); by apply (Hne n)|]. intros H1 add HR HC1 _ _ Hadd _. cbn [fst snd]. rewrite app_nil_l.
    assert (nids H1 ++ (n_id <$> add) ≡ₚ nids H ∧ net_data <$> (h_nets H1 ++ add) ≡ₚ net_data <$> h_nets H) as [Hids Hdata].
    { assert ((core <$> h_nets H1) ++ add ≡ₚ core <$> h_nets H) as Hp.
      { rewrite Hadd, (nsr_nets _ _ _ HR), <-fmap_app. f_equiv.
        assert (filter (λ n, n_id n ∉ n_id <$> filter wide (h_nets H)) (h_nets H) = filter (λ n, ¬ wide n) (h_nets H)) as ->.
        { apply HgMore.filter_ext. intros n Hn. split; intros Hx Hy; apply Hx.
          - apply elem_of_list_fmap. exists n. split; [done|]. by apply elem_of_list_filter.
          - apply elem_of_list_fmap in Hy as (m & Hid & [Hm' Hin]%elem_of_list_filter). assert (n = m) as ->; [|done].
            apply elem_of_list_lookup in Hn as [i Hi']. apply elem_of_list_lookup in Hin as [i' Hin].
            assert (i = i') as -> by (eapply (NoDup_fmap_inj n_id (h_nets H)); [apply HC|done..]). congruence. }
        rewrite Permutation_app_comm. clear. induction (h_nets H) as [|n l IH]; [done|]. rewrite !filter_cons. destruct (decide (wide n)) as [Hw|Hw].
        - rewrite decide_False by tauto. simpl. by rewrite IH.
        - rewrite decide_True by tauto. rewrite <-Permutation_middle. by rewrite IH. }
      assert (n_id <$> ((core <$> h_nets H1) ++ add) ≡ₚ n_id <$> (core <$> h_nets H)) as Hp1 by (by rewrite Hp).
      assert (net_data <$> ((core <$> h_nets H1) ++ add) ≡ₚ net_data <$> (core <$> h_nets H)) as Hp2 by (by rewrite Hp).
      rewrite fmap_app, <-!list_fmap_compose in Hp1. rewrite fmap_app, <-!list_fmap_compose in Hp2. rewrite fmap_app. split; [exact Hp1|exact Hp2]. }
    assert ((λ v, (v_id v, v_weight v, v_part v)) <$> h_verts H1 = (λ v, (v_id v, v_weight v, v_part v)) <$> h_verts H) as Hv1.
    { pose proof (nsr_verts _ _ _ HR) as Hf. clear -Hf. induction Hf as [|v v' l l' (E1 & E2 & E3 & _) _ IH]; [done|]. csimpl. congruence. }
    apply wpe_bind, wpe_add_cut_nets; [done|rewrite Hids; apply HC| |].
    - intros n. rewrite Hadd. intros (m & -> & [Hm Hin]%elem_of_list_filter)%elem_of_list_fmap. split; [by apply (Hne m)|]. intros u Hu. cbn [core n_verts] in Hu.
      assert (vids H1 = vids H) as ->.
      { unfold vids. change v_id with ((λ x : Z * Z * Z, fst (fst x)) ∘ (λ v, (v_id v, v_weight v, v_part v))). by rewrite !list_fmap_compose, Hv1. }
      by eapply net_in_vids.
    - intros H' Hv Hn _ _ _ _ _. apply wpe_ret. cbn [fst]. split; [|by rewrite Hv].
      rewrite Hn, <-Hdata, !fmap_app, <-list_fmap_compose. done. }
  apply wp_run with (w := w) in Hw as ([H' cut] & w' & Heq & ?). eauto.
Qed.
(** C32, refuted for the vertex side: afterwards no vertex lists any of the nets with two or more vertices. *)
Lemma C32_vertices_refuted_proof : ∀ H w H' cut w', consistent H → (∀ n, n ∈ h_nets H → n_verts n ≠ []) →
  (c <- remove_cut_nets H [] ;; H' <- add_cut_nets (fst c) (snd c) ;; ret (H', snd c)) w = Ok ((H', cut), w') →
  ∀ n v, n ∈ h_nets H → (2 ≤ length (n_verts n))%nat → v ∈ h_verts H' → n_id n ∉ v_nets v.
Proof.
  intros H w H' cut w' HC Hne Hrun n v Hn Hl.
  assert (wp (c <- remove_cut_nets H [] ;; H' <- add_cut_nets (fst c) (snd c) ;; ret (H', snd c)) (λ o, ∀ v, v ∈ h_verts (fst o) → n_id n ∉ v_nets v)) as Hw.
  { apply wpe_bind, wpe_remove_cut_nets; [done|intros (m & Hm & Hx); by apply (Hne m)|]. intros H1 add HR HC1 _ _ Hadd _. cbn [fst snd]. rewrite app_nil_l.
    assert (∀ v, v ∈ h_verts H1 → n_id n ∉ v_nets v) as Hv1.
    { intros x [i Hi]%elem_of_list_lookup. destruct (Forall2_lookup_r _ _ _ _ _ (nsr_verts _ _ _ HR) Hi) as (x0 & _ & _ & _ & _ & Hp).
      rewrite Hp. intros [Hx _]%elem_of_list_filter. apply Hx, elem_of_list_fmap. exists n. split; [done|]. apply elem_of_list_filter. done. }
    assert (vids H1 = vids H) as Hvid.
    { pose proof (nsr_verts _ _ _ HR) as Hf. unfold vids. clear -Hf. induction Hf as [|x x' l l' (E1 & _) _ IH]; [done|]. csimpl. congruence. }
    apply wpe_bind, wpe_add_cut_nets; [done| | |].
    - apply NoDup_app. split; [apply HC1|]. split.
      + intros id. unfold nids. rewrite (nsr_nets _ _ _ HR), Hadd, <-list_fmap_compose. change (n_id ∘ core) with n_id.
        intros (m & -> & [Hm _]%elem_of_list_filter)%elem_of_list_fmap. done.
      + rewrite Hadd, <-list_fmap_compose. change (n_id ∘ core) with n_id. apply NoDup_fmap_filter, HC.
    - intros m. rewrite Hadd. intros (m' & -> & [Hm Hin]%elem_of_list_filter)%elem_of_list_fmap. split; [by apply (Hne m')|]. intros u Hu. cbn [core n_verts] in Hu.
      rewrite Hvid. by eapply net_in_vids.
    - intros H2 Hv _ _ _ _ _ _. apply wpe_ret. cbn [fst]. rewrite Hv. exact Hv1. }
  specialize (Hw w). rewrite Hrun in Hw. apply Hw.
Qed.
Example C32_example : consistent c31_H ∧ (∀ n, n ∈ h_nets c31_H → n_verts n ≠ []) ∧
  match (c <- remove_cut_nets c31_H [] ;; H' <- add_cut_nets (fst c) (snd c) ;; ret (H', snd c)) w0 with
  | Ok ((H', cut), _) => bool_decide (length cut = 2%nat ∧ n_id <$> h_nets H' = [2; 0; 1] ∧ v_nets <$> h_verts H' = [[]; []; [2]; []]) | Err _ => false end = true.
Proof. split; [exact c31_H_cons|]. split; [apply Forall_forall, (bool_decide_eq_true_1 _); vm_compute; reflexivity|]. vm_compute. reflexivity. Qed.

(** ** The imbalance bound *)

(** C47.  Whenever every bisection of a run returns sides within the limits it was given (the program
    with bisections replaced by [checked] ones, which give up otherwise, ends normally), the run of
    the program is that run, and every part weighs at most M, which is (1+eps)*W/k evaluated in
    double precision and rounded down. *)
Lemma C47_imbalance_proof : ∀ bp H k eps opts M w H' w', lawful_family bp → rb_pre H → 2 ≤ k ≤ 2 ^ 50 →
  part_limit (tot_weight H) k eps = Some M → 0 ≤ M → M * k ≤ 2 ^ 50 →
  recursive_bisect_with (checked (bisect1 bp)) H k eps opts w = Ok (H', w') →
  recursive_bisect1 bp H k eps opts w = Ok (H', w') ∧ ∀ p, 0 ≤ p < k → part_weight H' p ≤ M.
Proof.
  intros bp H k eps opts M w H' w' Hbp Hpre Hk HM HM0 HMk Hrun. split.
  - eapply run_recursive; [|exact Hrun]. intros. apply run_checked.
  - assert (wpe (λ _, True) (recursive_bisect_with (checked (bisect1 bp)) H k eps opts) (λ H', ∀ p, 0 ≤ p < k → part_weight H' p ≤ M)) as Hw.
    { eapply (wpe_recursive_bisect True); [by apply checked_ok, bisect1_ok|done|done| |done|done|].
      - intros M' HM'. unfold part_limit in HM. assert (M' = M) as -> by congruence. done.
      - intros H1 M' HM' _ Hlim _ _. unfold part_limit in HM. assert (M' = M) as -> by congruence. by apply Hlim. }
    specialize (Hw w). rewrite Hrun in Hw. exact Hw.
Qed.
Example C47_example :
  lawful_family blocks ∧ rb_pre c27_G ∧ part_limit (tot_weight c27_G) 3 c29_eps = Some 3 ∧
  match recursive_bisect_with (checked (bisect1 blocks)) c27_G 3 c29_eps (c29_opts LambdaMinusOne BisMultilevel) w0 with
  | Ok (H', _) => bool_decide (part_weight H' 0 = 3 ∧ part_weight H' 1 = 3 ∧ part_weight H' 2 = 3) | Err _ => false end = true.
Proof. split; [apply blocks_lawful|]. split; [exact c27_G_rb_pre|]. split; vm_compute; reflexivity. Qed.
