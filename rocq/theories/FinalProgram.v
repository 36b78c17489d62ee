(** The property lemmas of C62, C63 and C68: the whole program. *)
From Verif Require Export ProgramProof.
Local Open Scope list_scope.

(** ** From the matrix file to the result *)

(** the program around any bisections, for both metrics *)
Lemma wpe_program_all strict bis bisp bp opens t sy E V L entries mode weight p k eps eta opts M (E' : err → Prop) : bis_ok strict bis → bisp_ok strict bisp →
  lawful_family bp → (∀ n, opens n = true) →
  matrix_input t sy E V L entries weight → (mode = ModeOne ∧ weight = weight_one) ∨ (mode = ModeDegree ∧ weight = weight_degree) →
  1 ≤ Z.of_nat p ≤ 2 ^ 50 → 2 ≤ k < 2 ^ 31 →
  (∀ M', part_limit (matrix_weight V (nonzeros sy entries) weight) k eps = Some M' → 0 ≤ M' ∧ M' * k ≤ 2 ^ 50 ∧ (strict → M' = M)) →
  valid_binary 53 1024 eta = true → d_le d_zero eta = true → d_le eta (d_of_Z (2 ^ 50)) = true →
  (o_bisection opts = BisMultilevel → Z.of_nat p ≤ o_sample_size opts) →
  (strict → E' Abort) → E' UB → (E' Abort ∨ (o_bisection opts = BisMultilevel → o_sampling opts ≠ SampRandom)) →
  wpe E' (program_with bp (partition_with bp bis bisp) opens t mode p k eps eta opts) (λ o, match o with
    | Result r => ∃ part listed, listed ⊆+ nonzeros sy entries ∧ (o_metric opts = LambdaMinusOne ∨ k = 2 → listed = nonzeros sy entries) ∧
        delivered_listing E V k (nonzeros sy entries) listed weight (o_metric opts) part (re_file r) (re_cut r) (re_weights r) (re_balance r) ∧
        (strict → ∀ q, 0 ≤ q < k → columns_weight V (nonzeros sy entries) weight part q ≤ M)
    | Message => False
    | Blocked => o_metric opts = CutNet ∧ k ≠ 2
    end).
Proof.
  intros Hb Hbp Hfam Ho HI Hmode Hp Hk HM Hv He0 He1 HS HA HU HR.
  eapply (wpe_program bp Hfam opens Ho t sy E V L entries mode weight Hmode HI p ltac:(lia) E' _ k eps eta opts
    (λ Hs1 Hs', (strict → ∀ q, 0 ≤ q < k → gpart_weight Hs1 q ≤ M) ∧ (o_metric opts = LambdaMinusOne ∨ k = 2 → Hs1 = Hs'))); [lia| |].
  - intros Hs Hlen HH. eapply wpe_mono; [apply (wpe_partition strict bis bisp bp E' E V (nonzeros sy entries) weight Hs k eps eta opts M); try assumption|].
    + apply (held_spread t sy E V L entries weight HI p ltac:(lia) Hs HH).
    + intros ->. simpl in Hlen. lia.
    + rewrite Hlen. lia.
    + lia.
    + by rewrite (held_weight _ _ _ _ _ HH).
    + by rewrite Hlen.
    + intros [Hs'|]; [|done]. intros (Hs1 & Hl & HH1 & HF & Hps & Hlim & Heq). exists Hs1. split; [congruence|]. done.
  - intros Hs1 Hs' r [Hlim Heq] HH HF HD. exists (gpart Hs1).
    assert (∀ q, gpart_weight Hs1 q = columns_weight V (nonzeros sy entries) weight (gpart Hs1) q) as Hgw by (intros q; by apply (held_gpart_weight _ _ _ _ _ HH)).
    assert (strict → ∀ q, 0 ≤ q < k → columns_weight V (nonzeros sy entries) weight (gpart Hs1) q ≤ M) as Hlim'.
    { intros Hst q Hq. rewrite <-Hgw. by apply Hlim. }
    assert (all_nonzeros Hs1 ≡ₚ nonzeros sy entries) as Hnz.
    { eapply (held_nonzeros E V (nonzeros sy entries) weight); [exact HH|]. intros e He. eapply input_range; [exact HI|done]. }
    assert (o_metric opts = LambdaMinusOne ∨ k = 2 ∨ ¬ (o_metric opts = LambdaMinusOne ∨ k = 2)) as Hcase.
    { destruct (o_metric opts); [right|by left]. destruct (decide (k = 2)); [by left|right; intros [?|?]; congruence]. }
    assert ((o_metric opts = LambdaMinusOne ∨ k = 2) ∨ ¬ (o_metric opts = LambdaMinusOne ∨ k = 2)) as [Hc|Hc] by tauto.
    + rewrite <-(Heq Hc) in HD. exists (nonzeros sy entries). split; [done|]. split; [done|]. split; [|done].
      destruct HD as [D1 (starts & es & D2 & D3) D4 D5 D6]. split; try assumption. exists starts, es. split; [done|].
      eapply by_parts_perm; [|exact D3]. exact Hnz.
    + exists (all_nonzeros Hs'). split; [|done]. rewrite (fewer_nonzeros _ _ HF). apply Permutation_submseteq. exact Hnz.
Qed.

(** C62, what holds.  For every valid matrix file without repeated nonzeros and with column weights that are
    positive, every number of processors, k of at least two, imbalance, random sequence and order of arrival, and options with the lambda-minus-one
    metric, or with any metric for k = 2: if the result file can be opened, the program either
    delivers a partitioning of the columns into k parts, with an output file that lists every nonzero of the matrix exactly once, sorted by part, and with the
    cut, part weights and imbalance of just this partitioning; or executes an undefined operation; or, with random samples only, fails the assertion that a
    processor has vertices.  It does not end with an error message, wait for ever, loop or throw.  Missing: k = 1 (C62_one_part_refuted), the cut-net
    metric with more parts (C62_cut_net_refuted) and the undefined runs (C59_undefined_refuted). *)
Lemma C62_program_partial_proof : ∀ bp opens t sy E V L entries mode weight p k eps eta opts w, lawful_family bp → (∀ n, opens n = true) →
  matrix_input t sy E V L entries weight → (mode = ModeOne ∧ weight = weight_one) ∨ (mode = ModeDegree ∧ weight = weight_degree) →
  1 ≤ Z.of_nat p ≤ 2 ^ 50 → 2 ≤ k < 2 ^ 31 →
  (∀ M, part_limit (matrix_weight V (nonzeros sy entries) weight) k eps = Some M → 0 ≤ M ∧ M * k ≤ 2 ^ 50) →
  valid_binary 53 1024 eta = true → d_le d_zero eta = true → d_le eta (d_of_Z (2 ^ 50)) = true → o_metric opts = LambdaMinusOne ∨ k = 2 →
  (o_bisection opts = BisMultilevel → Z.of_nat p ≤ o_sample_size opts) →
  match program bp opens t mode p k eps eta opts w with
  | Ok (Result r, _) => ∃ part, delivered E V k (nonzeros sy entries) weight (o_metric opts) part (re_file r) (re_cut r) (re_weights r) (re_balance r)
  | Ok (Message, _) => False
  | Ok (Blocked, _) => False
  | Err e => e = UB ∨ e = Abort ∧ o_bisection opts = BisMultilevel ∧ o_sampling opts = SampRandom
  end.
Proof.
  intros bp opens t sy E V L entries mode weight p k eps eta opts w Hbp Ho HI Hmode Hp Hk HM Hv He0 He1 Hm HS.
  pose proof (wpe_program_all False (bisect1 bp) (bisect_par bp) bp opens t sy E V L entries mode weight p k eps eta opts 0
    (λ e, e = UB ∨ e = Abort ∧ o_bisection opts = BisMultilevel ∧ o_sampling opts = SampRandom)) as Hw.
  feed specialize Hw; try assumption; [by apply bisect1_ok|by apply bisect_par_ok| |done|by left| |].
  { intros M' HM'. destruct (HM M' HM') as [??]. done. }
  { destruct (o_bisection opts) eqn:Hb; [by right|]. destruct (o_sampling opts) eqn:Hsm; [left; by right|by right]. }
  specialize (Hw w). unfold program, partition_all. destruct (program_with _ _ _ _ _ _ _ _ _ _ w) as [[[r| |] w']|e]; [| | |done].
  - destruct Hw as (part & listed & _ & Hl & HD & _). rewrite (Hl Hm) in HD. eauto.
  - done.
  - destruct Hw, Hm; congruence.
Qed.

(** C68.  With the cut-net metric, every number of processors and k of at least two: when the program ends with a result, the numbers it reports are the cut, the
    part weights and the imbalance of the partitioning by which the output file is sorted, every part number is in range, and the entries of the file are nonzeros of the matrix,
    each at most once.  The program does not end with an error message, loop or throw; processors wait for each other for ever only for k other than 2. *)
Lemma C68_program_cut_net_proof : ∀ bp opens t sy E V L entries mode weight p k eps eta opts w, lawful_family bp → (∀ n, opens n = true) →
  matrix_input t sy E V L entries weight → (mode = ModeOne ∧ weight = weight_one) ∨ (mode = ModeDegree ∧ weight = weight_degree) →
  1 ≤ Z.of_nat p ≤ 2 ^ 50 → 2 ≤ k < 2 ^ 31 →
  (∀ M, part_limit (matrix_weight V (nonzeros sy entries) weight) k eps = Some M → 0 ≤ M ∧ M * k ≤ 2 ^ 50) →
  valid_binary 53 1024 eta = true → d_le d_zero eta = true → d_le eta (d_of_Z (2 ^ 50)) = true → o_metric opts = CutNet →
  (o_bisection opts = BisMultilevel → Z.of_nat p ≤ o_sample_size opts) →
  match program bp opens t mode p k eps eta opts w with
  | Ok (Result r, _) => ∃ part listed, listed ⊆+ nonzeros sy entries ∧
      delivered_listing E V k (nonzeros sy entries) listed weight CutNet part (re_file r) (re_cut r) (re_weights r) (re_balance r)
  | Ok (Message, _) => False
  | Ok (Blocked, _) => k ≠ 2
  | Err e => e = UB ∨ e = Abort ∧ o_bisection opts = BisMultilevel ∧ o_sampling opts = SampRandom
  end.
Proof.
  intros bp opens t sy E V L entries mode weight p k eps eta opts w Hbp Ho HI Hmode Hp Hk HM Hv He0 He1 Hm HS.
  pose proof (wpe_program_all False (bisect1 bp) (bisect_par bp) bp opens t sy E V L entries mode weight p k eps eta opts 0
    (λ e, e = UB ∨ e = Abort ∧ o_bisection opts = BisMultilevel ∧ o_sampling opts = SampRandom)) as Hw.
  feed specialize Hw; try assumption; [by apply bisect1_ok|by apply bisect_par_ok| |done|by left| |].
  { intros M' HM'. destruct (HM M' HM') as [??]. done. }
  { destruct (o_bisection opts) eqn:Hb; [by right|]. destruct (o_sampling opts) eqn:Hsm; [left; by right|by right]. }
  specialize (Hw w). unfold program, partition_all. destruct (program_with _ _ _ _ _ _ _ _ _ _ w) as [[[r| |] w']|e]; [| | |done].
  - destruct Hw as (part & listed & Hl & _ & HD & _). rewrite Hm in HD. eauto.
  - done.
  - by destruct Hw.
Qed.

Lemma load_balance_unassigned Hs k w : (∃ v, v ∈ all_verts Hs ∧ v_part v = -1) → load_balance_par Hs k w = Err UB.
Proof.
  intros (v & (H & HH & Hv)%all_verts_elem & Hp).
  assert (wpe (λ e, e = UB) (load_balance_par Hs k) (λ _, False)) as Hw.
  { unfold load_balance_par, global_weight_parts. apply wpe_bind, wpe_bind.
    assert (∀ H, wpe (λ e, e = UB) (weight_all_parts H k) (λ _, ∀ v, v ∈ h_verts H → v_part v ≠ -1)) as Hall.
    { intros X. unfold weight_all_parts. apply (wpe_foldM _ _ (λ done _, ∀ v, v ∈ done → v_part v ≠ -1)); [set_solver| |done].
      intros done x todo s _ Hd w0. unfold bind, idx, of_option. destruct (decide (v_part x = -1)) as [Hx|Hx].
      - rewrite Hx. done.
      - destruct (zlookup s (v_part x)); [|done]. intros u [Hu|Hu]%elem_of_app; [by apply Hd|]. apply elem_of_list_singleton in Hu as ->. done. }
    apply (wpe_mapP _ _ (λ _ H _, ∀ v, v ∈ h_verts H → v_part v ≠ -1)); [intros; apply Hall|].
    intros l' Hlen Hl'. exfalso. apply elem_of_list_lookup in HH as [i Hi]. destruct (lookup_lt_is_Some_2 l' i) as [y Hy]; [rewrite Hlen; by eapply lookup_lt_Some|].
    by apply (Hl' i H y Hi Hy v). }
  specialize (Hw w). destruct (load_balance_par Hs k w) as [[]|e]; [done|by rewrite Hw].
Qed.
Lemma alone_one_part bp H eps eta opts M w : part_limit (gweight [H]) 1 eps = Some M → recursive_bisect_par bp [H] 1 eps eta opts w = Ok ([H], w).
Proof.
  intros HM. unfold recursive_bisect_par, recursive_bisect_par_with. rewrite global_weight_spec. unfold bind at 1. cbn [length replicate].
  unfold agreed, guardM, bind, forallb, ret. unfold max_weight, d_to_Z, part_limit in *. rewrite HM. cbn [of_option ret].
  change (Z.to_nat 1) with 1%nat. change (1 - 1) with 0. done.
Qed.
(** C62, refuted for one part.  With k = 1 nothing assigns the columns to part 0, and the computation of the imbalance reads the
    weight of part -1: for every matrix that has a column, the program has undefined behaviour. *)
Lemma C62_one_part_refuted_proof : ∀ bp opens t sy E V L entries mode weight p eps eta opts w, lawful_family bp →
  matrix_input t sy E V L entries weight → (mode = ModeOne ∧ weight = weight_one) ∨ (mode = ModeDegree ∧ weight = weight_degree) →
  (0 < p)%nat → 0 < V → o_metric opts = LambdaMinusOne → program bp opens t mode p 1 eps eta opts w = Err UB.
Proof.
  intros bp opens t sy E V L entries mode weight p eps eta opts w Hbp HI Hmode Hp HV Hm. unfold program, program_with. unfold bind at 1.
  destruct (read_holds bp p t sy E V L entries mode weight w Hbp Hp (mi_listing _ _ _ _ _ _ _ HI) (mi_valid _ _ _ _ _ _ _ HI) Hmode
      (mi_entries _ _ _ _ _ _ _ HI) (mi_once _ _ _ _ _ _ _ HI)) as (Hs0 & w1 & -> & Hlen & HM0 & Hpart).
  assert (∃ w2, mapP copy_hg Hs0 w1 = Ok (copied <$> Hs0, w2)) as [w2 Hc].
  { assert (wp (mapP copy_hg Hs0) (λ o, o = copied <$> Hs0)) as Hw.
    { apply (wpe_mapP_eq _ _ copied); [|done]. intros i H HH. apply wpe_copy_hg; [|done].
      apply (di_local _ _ (hm_dist _ _ _ _ _ HM0)). by eapply elem_of_list_lookup_2. }
    apply wp_run with (w := w1) in Hw as (o & w2 & Heq & ->). eauto. }
  unfold bind at 1. rewrite Hc. unfold bind at 1.
  destruct (copied_holds _ _ _ _ _ HM0) as [HM Hav]. set (Hs := copied <$> Hs0) in *. assert (length Hs = p) as Hl by (unfold Hs; by rewrite fmap_length).
  unfold partition_all, partition_with. rewrite Hm. change (recursive_bisect_par_with (bisect1 bp) (bisect_par bp)) with (recursive_bisect_par bp). unfold bind at 1.
  destruct (part_limit (gweight Hs) 1 eps) as [M|] eqn:HL.
  - assert (recursive_bisect_par bp Hs 1 eps eta opts w2 = Ok (Hs, w2)) as ->.
    { destruct Hs as [|H1 [|H2 Hs']] eqn:HHs; [simpl in Hl; lia|by eapply alone_one_part|]. eapply C59_one_part_refuted_proof; [simpl; lia|done]. }
    cbn [ret]. unfold ret, bind at 1. rewrite load_balance_unassigned; [done|]. destruct (held_vert _ _ _ _ _ HM 0 ltac:(lia)) as (v & Hv & _).
    exists v. split; [done|]. apply Hpart. by rewrite <-Hav.
  - unfold recursive_bisect_par, recursive_bisect_par_with. unfold bind at 1. rewrite global_weight_spec, Hl. destruct p as [|p]; [lia|].
    assert (agreed (replicate (S p) (gweight Hs)) w2 = Ok (gweight Hs, w2)) as ->.
    { unfold agreed, guardM, bind. cbn [replicate]. assert (forallb (Z.eqb (gweight Hs)) (replicate p (gweight Hs)) = true) as ->; [|done].
      clear. induction p as [|n IH]; [done|]. simpl. by rewrite Z.eqb_refl, IH. }
    unfold bind at 1. unfold max_weight, d_to_Z, part_limit in *. rewrite HL. done.
Qed.

Lemma ex_input mode : matrix_input ex_text MGeneral 3 4 5 ex_entries (match mode with ModeDegree => weight_degree | _ => weight_one end).
Proof.
  split; [apply ex_listing|apply ex_valid|by_comp|lia|lia| |].
  - intros j Hj. assert (j ∈ seqZ 0 4) as Hin by (apply elem_of_seqZ; lia). clear Hj. revert j Hin. apply Forall_forall, (bool_decide_eq_true_1 _).
    destruct mode; vm_compute; reflexivity.
  - destruct mode; vm_compute; discriminate.
Qed.
(** C62, refuted for the cut-net metric.  One processor divides a 3 by 4 matrix with five nonzeros into 3 parts: the program ends
    normally, and reports a cut and weights, but the output file, whose header announces five nonzeros, lists none. *)
Lemma C62_cut_net_refuted_proof : ∃ t entries k opts, matrix_input t MGeneral 3 4 5 entries weight_one ∧ length (nonzeros MGeneral entries) = 5%nat ∧
  k = 3 ∧ o_metric opts = CutNet ∧
  match program blocks (λ _, true) t ModeOne 1 k c29_eps c29_eps opts w0 with
  | Ok (Result r, _) => re_file r = concat (with_newline <$> (chars <$>
      ["%%MatrixMarket distributed-matrix coordinate pattern general"; "3 4 5 3"; "0"; "0"; "0"; "0"]%string)) ∧ re_weights r = [1; 2; 1] ∧ re_cut r = 2
  | _ => False end.
Proof.
  exists ex_text, ex_entries, 3, (c29_opts CutNet BisMultilevel). split; [apply (ex_input ModeOne)|]. split; [done|]. split; [done|]. split; [done|].
  vm_compute. done.
Qed.
Example C62_example : lawful_family blocks ∧ matrix_input ex_text MGeneral 3 4 5 ex_entries weight_degree ∧
  part_limit (matrix_weight 4 (nonzeros MGeneral ex_entries) weight_degree) 2 c29_eps = Some 2 ∧
  match program blocks (λ _, true) ex_text ModeDegree 2 2 c29_eps c29_eps r_opts w0 with
  | Ok (Result r, _) => re_file r = concat (with_newline <$> (chars <$>
      ["%%MatrixMarket distributed-matrix coordinate pattern general"; "3 4 5 2"; "0"; "2"; "5"; "1 1"; "1 3"; "3 2"; "3 4"; "1 4"]%string)) ∧ re_weights r = [2; 3] ∧ re_cut r = 1
  | _ => False end.
Proof.
  split; [apply blocks_lawful|]. split; [apply (ex_input ModeDegree)|]. split; [vm_compute; reflexivity|].
  vm_compute. done.
Qed.

(** two processors, four parts: the file announces five nonzeros and lists two of them *)
Example C68_example : lawful_family blocks ∧ matrix_input ex_text MGeneral 3 4 5 ex_entries weight_degree ∧
  part_limit (matrix_weight 4 (nonzeros MGeneral ex_entries) weight_degree) 4 c61_eps = Some 1 ∧
  match program blocks (λ _, true) ex_text ModeDegree 2 4 c61_eps c61_eps (c29_opts CutNet BisMultilevel) w0 with
  | Ok (Result r, _) => re_file r = concat (with_newline <$> (chars <$>
      ["%%MatrixMarket distributed-matrix coordinate pattern general"; "3 4 5 4"; "0"; "0"; "1"; "1"; "2"; "1 3"; "3 2"]%string)) ∧ re_weights r = [1; 1; 2; 1] ∧ re_cut r = 2
  | _ => False end.
Proof.
  split; [apply blocks_lawful|]. split; [apply (ex_input ModeDegree)|]. split; [vm_compute; reflexivity|]. vm_compute. done.
Qed.

(** ** The imbalance bound of the whole program *)

(** C63.  Whenever every bisection of a run of the program returns sides within the limits it was given (the program with
    bisections replaced by [checked] ones, which give up otherwise, ends with a result), the run of the program is that run, and no
    part of the partitioning it delivers weighs more than M, which is (1+eps)*W/k evaluated in double precision and rounded down.  This holds for both metrics;
    as in C62 and C68, the file is complete with the lambda-minus-one metric and for k = 2. *)
Lemma C63_program_imbalance_proof : ∀ bp opens t sy E V L entries mode weight p k eps eta opts M w r w', lawful_family bp → (∀ n, opens n = true) →
  matrix_input t sy E V L entries weight → (mode = ModeOne ∧ weight = weight_one) ∨ (mode = ModeDegree ∧ weight = weight_degree) →
  1 ≤ Z.of_nat p ≤ 2 ^ 50 → 2 ≤ k < 2 ^ 31 →
  part_limit (matrix_weight V (nonzeros sy entries) weight) k eps = Some M → 0 ≤ M → M * k ≤ 2 ^ 50 →
  valid_binary 53 1024 eta = true → d_le d_zero eta = true → d_le eta (d_of_Z (2 ^ 50)) = true →
  (o_bisection opts = BisMultilevel → Z.of_nat p ≤ o_sample_size opts) →
  program_with bp (partition_with bp (checked (bisect1 bp)) (checked_par (bisect_par bp))) opens t mode p k eps eta opts w = Ok (Result r, w') →
  program bp opens t mode p k eps eta opts w = Ok (Result r, w') ∧
  ∃ part listed, listed ⊆+ nonzeros sy entries ∧ (o_metric opts = LambdaMinusOne ∨ k = 2 → listed = nonzeros sy entries) ∧
    delivered_listing E V k (nonzeros sy entries) listed weight (o_metric opts) part (re_file r) (re_cut r) (re_weights r) (re_balance r) ∧
    ∀ q, 0 ≤ q < k → columns_weight V (nonzeros sy entries) weight part q ≤ M.
Proof.
  intros bp opens t sy E V L entries mode weight p k eps eta opts M w r w' Hbp Ho HI Hmode Hp Hk HM HM0 HMk Hv He0 He1 HS Hrun. split.
  - eapply run_program; [|exact Hrun]. intros Hs. unfold partition_all. apply run_partition; intros; [apply run_checked|apply run_checked_par].
  - pose proof (wpe_program_all True (checked (bisect1 bp)) (checked_par (bisect_par bp)) bp opens t sy E V L entries mode weight p k eps eta opts M (λ _, True)) as Hw.
    feed specialize Hw; try assumption; [by apply checked_ok, bisect1_ok|by apply checked_par_ok, bisect_par_ok| |done|done|by left|].
    { intros M' HM'. assert (M' = M) as -> by congruence. done. }
    specialize (Hw w). rewrite Hrun in Hw. destruct Hw as (part & listed & Hl & Hl2 & HD & Hlim). exists part, listed. by auto.
Qed.
Example C63_example : lawful_family blocks ∧ matrix_input ex_text MGeneral 3 4 5 ex_entries weight_degree ∧
  part_limit (matrix_weight 4 (nonzeros MGeneral ex_entries) weight_degree) 2 c61_eps = Some 3 ∧
  match program_with blocks (partition_with blocks (checked (bisect1 blocks)) (checked_par (bisect_par blocks))) (λ _, true) ex_text ModeDegree 2 2 c61_eps c29_eps r_opts w0 with
  | Ok (Result r, _) => re_weights r = [2; 3]
  | _ => False end.
Proof.
  split; [apply blocks_lawful|]. split; [apply (ex_input ModeDegree)|]. split; [vm_compute; reflexivity|]. vm_compute. done.
Qed.
