(** The property lemmas of C59 to C61: recursive bisection on several processors. *)
From Verif Require Export RecParProof FinalBisectPar FinalRec FinalRed.

(** C59, what holds.  For every number of processors, k of at least two, imbalance, options with the
    lambda-minus-one metric, random sequence and order of arrival, recursive bisection either ends with
    every vertex of every processor in a part in [0,k), the same vertices with their weights and nets, the same net
    costs and a consistent hypergraph on every processor; or executes an undefined operation (the conversion of a
    NaN to an integer, or an access of the refinement outside its buckets, C50_out_of_range_refuted); or, with random samples
    only, fails the assertion that a processor has vertices.  It does not loop or throw.  Missing: k = 1 and the
    undefined runs (C59_one_part_refuted, C59_undefined_refuted), and the cut-net metric. *)
Lemma C59_recursive_bisection_par_partial_proof : ∀ bp gn Hs k eps eta opts w, lawful_family bp → spread_pre gn Hs → Hs ≠ [] →
  Z.of_nat (length Hs) ≤ 2 ^ 50 → 2 ≤ k ≤ 2 ^ 50 → (∀ M, part_limit (gweight Hs) k eps = Some M → 0 ≤ M ∧ M * k ≤ 2 ^ 50) →
  valid_binary 53 1024 eta = true → d_le d_zero eta = true → d_le eta (d_of_Z (2 ^ 50)) = true → o_metric opts = LambdaMinusOne →
  (o_bisection opts = BisMultilevel → Z.of_nat (length Hs) ≤ o_sample_size opts) →
  match recursive_bisect_par bp Hs k eps eta opts w with
  | Ok (Hs', _) => rearranged gn Hs Hs' ∧ ∀ v, v ∈ all_verts Hs' → 0 ≤ v_part v < k
  | Err e => e = UB ∨ e = Abort ∧ o_bisection opts = BisMultilevel ∧ o_sampling opts = SampRandom
  end.
Proof.
  intros bp gn Hs k eps eta opts w Hbp Hpre Hne Hlen Hk HM Hv He0 He1 Hm HS.
  assert (wpe (λ e, e = UB ∨ e = Abort ∧ o_bisection opts = BisMultilevel ∧ o_sampling opts = SampRandom) (recursive_bisect_par bp Hs k eps eta opts)
    (λ Hs', rearranged gn Hs Hs' ∧ ∀ v, v ∈ all_verts Hs' → 0 ≤ v_part v < k)) as Hw.
  { eapply (wpe_recursive_bisect_par False); [by apply bisect1_ok|by apply bisect_par_ok|done..|by left| |done|].
    - destruct (o_bisection opts) eqn:Hb; [by right|]. destruct (o_sampling opts) eqn:Hsm; [left; by right|by right].
    - intros Hs' M _ Hre Hp _. done. }
  specialize (Hw w). destruct (recursive_bisect_par _ _ _ _ _ _ w) as [[Hs' w']|e]; done.
Qed.
(** C59, refuted for one part: on two or more processors too nothing is done for k = 1. *)
Lemma C59_one_part_refuted_proof : ∀ bp Hs eps eta opts M w, (2 ≤ length Hs)%nat → part_limit (gweight Hs) 1 eps = Some M →
  recursive_bisect_par bp Hs 1 eps eta opts w = Ok (Hs, w).
Proof.
  intros bp Hs eps eta opts M w Hlen HM. unfold recursive_bisect_par, recursive_bisect_par_with. rewrite global_weight_spec.
  destruct Hs as [|H1 [|H2 Hs]]; [simpl in Hlen; lia..|].
  assert (∀ n x v, agreed (replicate (S n) x) v = Ok (x, v)) as Hag.
  { intros n x v. unfold agreed, guardM, bind. cbn [replicate]. assert (forallb (Z.eqb x) (replicate n x) = true) as ->; [|done].
    induction n as [|n IH]; [done|]. simpl. by rewrite Z.eqb_refl, IH. }
  cbn [length]. unfold bind at 1. rewrite Hag. unfold bind at 1. unfold max_weight, d_to_Z, part_limit in *. rewrite HM. cbn [of_option ret].
  change (Z.to_nat 1) with 1%nat. change (1 - 1) with 0. rewrite !fmap_cons. cbn [rb_group]. destruct (decide (0 - 0 > 0)) as [?|_]; [lia|]. unfold ret. rewrite !fmap_cons.
  rewrite <-list_fmap_compose. unfold compose. simpl. by rewrite list_fmap_id.
Qed.

(** the run for k = 3 of the example: all vertices get the label of the low half, the high half has weight 0 *)
Definition r_eps : dbl := d_div (d_of_Z 21) (d_of_Z 10).
Definition r_opts : options := c29_opts LambdaMinusOne BisMultilevel.
Lemma qs_spread : spread_pre 5 qs.
Proof.
  split; [exact qs_distributed|lia| | |vm_compute; discriminate].
  - intros v; revert v; apply Forall_forall, (bool_decide_eq_true_1 _). vm_compute. reflexivity.
  - intros v; revert v; apply Forall_forall, (bool_decide_eq_true_1 _). vm_compute. reflexivity.
Qed.
(** C59, refuted: a run of two processors on eight vertices, with eta 0.1, that converts a NaN to an integer. *)
Lemma C59_undefined_refuted_proof : ∃ Hs k eps opts, spread_pre 5 Hs ∧ length Hs = 2%nat ∧ length (all_verts Hs) = 8%nat ∧ k = 3 ∧
  part_limit (gweight Hs) k eps = Some 10 ∧ o_metric opts = LambdaMinusOne ∧ Z.of_nat (length Hs) ≤ o_sample_size opts ∧
  recursive_bisect_par blocks Hs k eps c29_eps opts w0 = Err UB.
Proof.
  exists qs, 3, r_eps, r_opts. split; [exact qs_spread|]. split; [done|]. split; [done|]. split; [done|]. split; [vm_compute; reflexivity|].
  split; [done|]. split; [done|]. vm_compute. reflexivity.
Qed.
Example C59_example : lawful_family blocks ∧ spread_pre 5 qs ∧ part_limit (gweight qs) 4 c29_eps = Some 2 ∧
  valid_binary 53 1024 c29_eps = true ∧ d_le d_zero c29_eps = true ∧ d_le c29_eps (d_of_Z (2 ^ 50)) = true ∧
  match recursive_bisect_par blocks qs 4 c29_eps c29_eps r_opts w0 with
  | Ok (Hs', _) => bool_decide ((λ H, (λ v, (v_id v, v_part v)) <$> h_verts H) <$> Hs' = [[(0, 1); (1, 1); (4, 1); (6, 0)]; [(5, 2); (7, 2); (2, 3); (3, 3)]])
  | Err _ => false end = true.
Proof.
  split; [apply blocks_lawful|]. split; [exact qs_spread|]. split; [vm_compute; reflexivity|]. split; [vm_compute; reflexivity|].
  split; [vm_compute; reflexivity|]. split; vm_compute; reflexivity.
Qed.

(** ** The two halves of a split *)

(** C60, what holds.  [rs]: the processors after a bisection into the labels [low] and [high], each with the weights
    of its two sides.  For every number [p_low] of processors that are to work on the low half, the redistribution ends
    normally and only moves vertices.  If both halves get processors, afterwards every low vertex is on one of the first p_low
    processors and every high vertex on one of the others, and all of their vertices are in the range they go on
    with.  If the low half gets none, exactly the low vertices are set aside, behind the range. *)
Lemma C60_halves_partial_proof : ∀ gn rs low high p_low eta w, spread_pre gn (fst <$> rs) → Z.of_nat (length rs) ≤ 2 ^ 50 → low ≠ high →
  (∀ r, r ∈ rs → snd r = (part_weight (fst r) low, part_weight (fst r) high)) → 0 ≤ p_low ≤ Z.of_nat (length rs) →
  valid_binary 53 1024 eta = true → d_le d_zero eta = true → d_le eta (d_of_Z 1024) = true →
  ∃ G w', regroup eta rs low high (gpart_weight (fst <$> rs) low) (gpart_weight (fst <$> rs) high) p_low w = Ok (G, w') ∧
    rearranged gn (fst <$> rs) (fst <$> G) ∧ all_verts (fst <$> G) ≡ₚ all_verts (fst <$> rs) ∧
    (0 < p_low < Z.of_nat (length rs) → ∀ t g v, G !! t = Some g → v ∈ h_verts (fst g) →
       (v_part v = low → Z.of_nat t < p_low) ∧ (v_part v = high → p_low ≤ Z.of_nat t) ∧ snd g = Z.of_nat (length (h_verts (fst g)))) ∧
    (p_low = 0 → ∀ t g i v, G !! t = Some g → h_verts (fst g) !! i = Some v → (v_part v = low ↔ snd g ≤ Z.of_nat i)).
Proof.
  intros gn rs low high p_low eta w Hpre Hlen Hlh Hown Hpl Hv He0 He1.
  assert (d_le eta (d_of_Z (2 ^ 50)) = true) as He2 by (by apply d_le_1024).
  assert (wp (regroup eta rs low high (gpart_weight (fst <$> rs) low) (gpart_weight (fst <$> rs) high) p_low) (λ G,
    rearranged gn (fst <$> rs) (fst <$> G) ∧ all_verts (fst <$> G) ≡ₚ all_verts (fst <$> rs) ∧
    (0 < p_low < Z.of_nat (length rs) → ∀ t g v, G !! t = Some g → v ∈ h_verts (fst g) →
       (v_part v = low → Z.of_nat t < p_low) ∧ (v_part v = high → p_low ≤ Z.of_nat t) ∧ snd g = Z.of_nat (length (h_verts (fst g)))) ∧
    (p_low = 0 → ∀ t g i v, G !! t = Some g → h_verts (fst g) !! i = Some v → (v_part v = low ↔ snd g ≤ Z.of_nat i)))) as Hw.
  { eapply (wpe_regroup eta Hv He0 He2 gn); [by right|done..|]. intros G Hre Hperm _ Hsep. split; [done|]. split; [done|]. split.
    - intros Hp t g v Ht Hvg. destruct (Hsep t g Ht) as (S1 & S2 & S3 & _). split_and!.
      + intros Hl. destruct (decide (Z.of_nat t < p_low)) as [|Hn]; [done|]. exfalso. by apply (S2 ltac:(lia) v).
      + intros Hl. destruct (decide (p_low ≤ Z.of_nat t)) as [|Hn]; [done|]. exfalso. by apply (S1 ltac:(lia) ltac:(lia) v).
      + apply S3. lia.
    - intros Hp t g i v Ht Hi. destruct (Hsep t g Ht) as (_ & _ & _ & S4). by apply S4. }
  apply wp_run with (w := w) in Hw as (G & w' & Heq & HG). exists G, w'. split; done.
Qed.
(** C60, the number of processors for the low half is between 0 and the number of processors of the group. *)
Lemma C60_processors_partial_proof : ∀ w0 w1 p k_low k_high w, 0 ≤ w0 → 0 ≤ w1 → 0 < w0 + w1 ≤ 2 ^ 50 → 1 ≤ p ≤ 2 ^ 50 →
  ∃ q, p_low_par w0 w1 p k_low k_high w = Ok (q, w) ∧ 0 ≤ q ≤ p ∧ (k_low = 1 → 1 < k_high → q = 0) ∧
    (2 ≤ p → 1 < k_low → w1 ≤ 3 * w0 → 0 < q).
Proof.
  intros w0 w1 p k_low k_high w H0 H1 Hw Hp. destruct (p_low_range w0 w1 p k_low k_high H0 H1 ltac:(lia) Hp) as (q & Hq & Hr & Hs).
  exists q. unfold p_low_par. rewrite Hq. split; [done|]. split; [done|]. split.
  - intros Hk Hh. unfold p_low_of in Hq. destruct (d_trunc _); [|done]. cbn [mbind option_bind] in Hq. rewrite decide_True in Hq by lia. congruence.
  - intros Hp2 Hk Hle. destruct (decide (q = 0)) as [->|]; [|lia]. specialize (Hs Hp2 ltac:(lia) eq_refl). lia.
Qed.

(** vertices without nets, with consecutive ids *)
Definition lone (gs base : Z) (ws : list Z) : hg := mk_hg gs 0 (imap (λ i w, Vertex (base + Z.of_nat i) [] w (-1)) ws) [] 0.
Definition l4 : list hg := [lone 8 0 [1; 1; 1; 1]; lone 8 4 [1; 1; 1; 1]].
Definition l9 : list hg := [lone 18 0 [10; 9; 10; 10; 10; 10; 10; 10; 1]; lone 18 9 [10; 9; 10; 10; 10; 10; 10; 10; 1]].
Ltac dec_spread := split; [dec_distributed|lia
  |intros v; revert v; apply Forall_forall, (bool_decide_eq_true_1 _); vm_compute; reflexivity
  |intros v; revert v; apply Forall_forall, (bool_decide_eq_true_1 _); vm_compute; reflexivity|vm_compute; discriminate].
Lemma l4_spread : spread_pre 0 l4.
Proof. dec_spread. Qed.
Lemma l9_spread : spread_pre 0 l9.
Proof. dec_spread. Qed.
Definition bits (n : nat) : list Z := concat (replicate n [0; 1]).
Definition l4_tape : world := tape_of ([0; 0; 0; 0; 0; 0; 0; 1] ++ bits 40).
Definition l9_tape : world := tape_of ([0; 0; 1; 1; 1; 1; 1; 1; 1; 0; 0; 1; 1; 1; 1; 1; 1; 1] ++ bits 40).
(** the first bisection of recursive bisection into k parts, with weight limit [mw] per part *)
Definition first_bisection (Hs : list hg) (k mw : Z) (opts : options) : M (list (hg * (Z * Z))) :=
  mx <- compute_max_global_weight k (k / 2) (k - k / 2) (gweight Hs) mw ;;
  bisect_par blocks ((λ H, (H, (0, Z.of_nat (length (h_verts H))))) <$> Hs) opts mx (0, k - 1).
Definition lone_opts : options := c29_opts LambdaMinusOne BisRandom.

(** C60, refuted for the high half.  Two processors divide eight vertices into 4 parts; the first bisection, which keeps its limits,
    gives vertex 7 the label of the high half (parts 2 and 3).  Nobody works on the high half, since 7/8 of the weight is
    in the low one: vertex 7 is treated as a vertex of the low half and ends in part 1; parts 2 and 3 stay empty. *)
Lemma C60_high_half_refuted_proof : ∃ Hs k eps M opts w, spread_pre 0 Hs ∧ length Hs = 2%nat ∧ k = 4 ∧ part_limit (gweight Hs) k eps = Some M ∧
  match first_bisection Hs k M opts w, recursive_bisect_par blocks Hs k eps c29_eps opts w with
  | Ok (rs, _), Ok (Hs', _) => gpart (fst <$> rs) 7 = 3 ∧ gpart Hs' 7 = 1 ∧ gpart_weight Hs' 2 = 0 ∧ gpart_weight Hs' 3 = 0
  | _, _ => False end.
Proof.
  exists l4, 4, r_eps, 6, lone_opts, l4_tape. split; [exact l4_spread|]. split; [done|]. split; [done|]. split; [vm_compute; reflexivity|].
  vm_compute. done.
Qed.
(** C60, refuted for the low half.  Two processors divide 18 vertices into 16 parts; the first bisection, which keeps its limits,
    gives vertices 0, 1, 9 and 10 the label of the low half (parts 0 to 7).  Nobody works on the low half, with less than a quarter of the
    weight; the next redistribution moves these vertices among those of the high half, and they end in parts 8 and above, while
    parts 0 to 7 stay empty. *)
Lemma C60_low_half_refuted_proof : ∃ Hs k eps M opts w, spread_pre 0 Hs ∧ length Hs = 2%nat ∧ k = 16 ∧ part_limit (gweight Hs) k eps = Some M ∧
  match first_bisection Hs k M opts w, recursive_bisect_par blocks Hs k eps c29_eps opts w with
  | Ok (rs, _), Ok (Hs', _) => gpart (fst <$> rs) <$> [0; 1; 9; 10] = [0; 0; 0; 0] ∧ gpart Hs' <$> [0; 1; 9; 10] = [10; 8; 14; 12] ∧
      gpart_weight Hs' <$> [0; 1; 2; 3; 4; 5; 6; 7] = [0; 0; 0; 0; 0; 0; 0; 0]
  | _, _ => False end.
Proof.
  exists l9, 16, r_eps, 31, lone_opts, l9_tape. split; [exact l9_spread|]. split; [done|]. split; [done|]. split; [vm_compute; reflexivity|].
  vm_compute. done.
Qed.

(** the state after the first bisection of [qs] into 4 parts *)
Definition c60_rs : list (hg * (Z * Z)) :=
  [(mk_hg 8 5 [Vertex 0 [0] 1 0; Vertex 1 [0; 1] 2 3; Vertex 2 [1; 2] 1 3; Vertex 3 [2] 1 3]
     [Net 0 [0; 1] 1 3; Net 1 [1; 2] 1 2; Net 2 [2; 3] 1 3] 6, (1, 4));
   (mk_hg 8 5 [Vertex 4 [0; 3] 1 0; Vertex 5 [2; 4] 1 3; Vertex 6 [3; 4] 2 0; Vertex 7 [4] 1 0]
     [Net 0 [4] 1 3; Net 2 [5] 1 3; Net 3 [4; 6] 1 2; Net 4 [5; 6; 7] 1 3] 7, (4, 1))].
Example C60_example : spread_pre 5 (fst <$> c60_rs) ∧ (∀ r, r ∈ c60_rs → snd r = (part_weight (fst r) 0, part_weight (fst r) 3)) ∧
  d_le c29_eps (d_of_Z 1024) = true ∧
  match first_bisection qs 4 3 r_opts w0 with
  | Ok (rs, _) => bool_decide ((λ r : hg * (Z * Z), (h_verts (fst r), snd r)) <$> rs = (λ r : hg * (Z * Z), (h_verts (fst r), snd r)) <$> c60_rs) | Err _ => false end = true ∧
  p_low_par 5 5 2 2 2 w0 = Ok (1, w0) ∧
  match regroup c29_eps c60_rs 0 3 5 5 1 w0 with
  | Ok (G, _) => bool_decide ((λ g : hg * Z, ((λ v, (v_id v, v_part v)) <$> h_verts (fst g), snd g)) <$> G =
      [([(0, 0); (4, 0); (6, 0); (7, 0)], 4); ([(5, 3); (1, 3); (2, 3); (3, 3)], 4)]) | Err _ => false end = true.
Proof.
  split; [|split; [|split; [vm_compute; reflexivity|split; [vm_compute; reflexivity|split; [vm_compute; reflexivity|]]]]].
  - dec_spread.
  - apply Forall_forall, (bool_decide_eq_true_1 _). vm_compute. reflexivity.
  - vm_compute. reflexivity.
Qed.

(** ** The imbalance bound *)

(** C61.  Whenever every bisection of a run on any number of processors returns sides within the limits it was given (the
    program with bisections replaced by [checked] ones, which give up otherwise, ends normally), the run of the program is
    that run, and every part weighs at most M, which is (1+eps)*W/k evaluated in double precision and rounded down.  This
    includes the runs of C60_high_half_refuted and C60_low_half_refuted. *)
Lemma C61_imbalance_par_proof : ∀ bp gn Hs k eps eta opts M w Hs' w', lawful_family bp → spread_pre gn Hs → Hs ≠ [] →
  Z.of_nat (length Hs) ≤ 2 ^ 50 → 2 ≤ k ≤ 2 ^ 50 → part_limit (gweight Hs) k eps = Some M → 0 ≤ M → M * k ≤ 2 ^ 50 →
  valid_binary 53 1024 eta = true → d_le d_zero eta = true → d_le eta (d_of_Z (2 ^ 50)) = true → o_metric opts = LambdaMinusOne →
  (o_bisection opts = BisMultilevel → Z.of_nat (length Hs) ≤ o_sample_size opts) →
  recursive_bisect_par_with (checked (bisect1 bp)) (checked_par (bisect_par bp)) Hs k eps eta opts w = Ok (Hs', w') →
  recursive_bisect_par bp Hs k eps eta opts w = Ok (Hs', w') ∧ ∀ q, 0 ≤ q < k → gpart_weight Hs' q ≤ M.
Proof.
  intros bp gn Hs k eps eta opts M w Hs' w' Hbp Hpre Hne Hlen Hk HM HM0 HMk Hv He0 He1 Hm HS Hrun. split.
  - eapply run_recursive_par; [..|exact Hrun]; intros; [apply run_checked|apply run_checked_par].
  - assert (wpe (λ _, True) (recursive_bisect_par_with (checked (bisect1 bp)) (checked_par (bisect_par bp)) Hs k eps eta opts)
      (λ Hs', ∀ q, 0 ≤ q < k → gpart_weight Hs' q ≤ M)) as Hw.
    { eapply (wpe_recursive_bisect_par True); [by apply checked_ok, bisect1_ok|by apply checked_par_ok, bisect_par_ok|done..| |done|done|by left|done|].
      - intros M' HM'. unfold part_limit in HM. assert (M' = M) as -> by congruence. done.
      - intros H1 M' HM' _ _ Hlim. unfold part_limit in HM. assert (M' = M) as -> by congruence. by apply Hlim. }
    specialize (Hw w). rewrite Hrun in Hw. exact Hw.
Qed.
Definition c61_eps : dbl := d_div (d_of_Z 3) (d_of_Z 10).
Example C61_example : lawful_family blocks ∧ spread_pre 5 qs ∧ part_limit (gweight qs) 4 c61_eps = Some 3 ∧
  match recursive_bisect_par_with (checked (bisect1 blocks)) (checked_par (bisect_par blocks)) qs 4 c61_eps c29_eps r_opts w0 with
  | Ok (Hs', _) => bool_decide (gpart_weight Hs' <$> [0; 1; 2; 3] = [2; 3; 3; 2]) | Err _ => false end = true ∧
  part_limit (gweight l9) 16 r_eps = Some 31 ∧
  match recursive_bisect_par_with (checked (bisect1 blocks)) (checked_par (bisect_par blocks)) l9 16 r_eps c29_eps lone_opts l9_tape with
  | Ok (Hs', _) => bool_decide (gpart_weight Hs' <$> [0; 7; 8; 11; 15] = [0; 0; 19; 21; 21]) | Err _ => false end = true.
Proof.
  split; [apply blocks_lawful|]. split; [exact qs_spread|]. split; [vm_compute; reflexivity|]. split; [vm_compute; reflexivity|].
  split; vm_compute; reflexivity.
Qed.
