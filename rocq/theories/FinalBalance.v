(** The property lemmas of C69: the balance constraint of the output. *)
From Verif Require Export SpecBalance RecRoom FinalProgram.
Local Open Scope list_scope.

(** ** Matrix files *)
Definition coord_text (e : Z * Z) : ctext := show (fst e) ++ chars " " ++ show (snd e).
Definition matrix_text (E V : Z) (entries : list (Z * Z)) : ctext :=
  with_newline (ex_banner MGeneral) ++ [] ++
  with_newline (show E ++ chars " " ++ show V ++ chars " " ++ show (Z.of_nat (length entries))) ++ concat (with_newline <$> (coord_text <$> entries)).
Lemma matrix_text_listing E V entries : 0 ≤ E → 0 ≤ V → Forall (λ e : Z * Z, 0 ≤ fst e ∧ 0 ≤ snd e) entries →
  listing (matrix_text E V entries) MGeneral E V (Z.of_nat (length entries)) entries.
Proof.
  intros HE HV He. exists (ex_banner MGeneral), [], (show E ++ chars " " ++ show V ++ chars " " ++ show (Z.of_nat (length entries))), (coord_text <$> entries),
    (concat (with_newline <$> (coord_text <$> entries))).
  split; [reflexivity|]. split; [apply ex_banner_ok|]. split; [done|]. split; [|split; [|by left]].
  - exists [], (show E), (chars " "), (show V), (chars " "), (show (Z.of_nat (length entries))), [].
    split; [by rewrite app_nil_r|]. split; [by_comp|]. split; [by apply show_numeral|]. split; [by_comp|]. split; [by apply show_numeral|]. split; [by_comp|].
    split; [apply show_numeral; lia|]. by left.
  - clear HE HV. induction He as [|e es [H1 H2] _ IH]; csimpl; [constructor|]. constructor; [|done].
    exists [], (show (fst e)), (chars " "), (show (snd e)), []. split; [by rewrite app_nil_r|]. split; [by_comp|]. split; [by apply show_numeral|]. split; [by_comp|].
    split; [by apply show_numeral|]. by left.
Qed.
Lemma matrix_text_input E V entries weight : bool_decide (Forall (λ e : Z * Z, 1 ≤ fst e ≤ E ∧ 1 ≤ snd e ≤ V) entries ∧ NoDup entries ∧ entries ≠ [] ∧
    Forall (λ j, 0 < weight (column entries j)) (seqZ 0 V)) = true →
  Z.of_nat (length entries) < 2 ^ 32 → E < 2 ^ 31 → V < 2 ^ 31 → matrix_weight V entries weight ≤ 2 ^ 50 →
  matrix_input (matrix_text E V entries) MGeneral E V (Z.of_nat (length entries)) entries weight.
Proof.
  intros (He & Hnd & Hne & Hw)%bool_decide_eq_true_1 HL HE HV HW.
  assert (0 ≤ E ∧ 0 ≤ V) as [HE0 HV0]. { destruct entries as [|e es]; [done|]. apply Forall_cons in He as [He _]. lia. }
  split; try assumption.
  - apply matrix_text_listing; [done..|]. eapply Forall_impl; [exact He|]. simpl. lia.
  - split; [exact He|done|done|lia|lia|lia].
  - intros j Hj. rewrite Forall_forall in Hw. apply Hw, elem_of_seqZ. lia.
Qed.

(** ** The balance constraint *)

(** the default options (tools/defaults.toml), but for the metric and the bisection *)
Definition default_opts (m : metric) (b : bisection_mode) : options := Opts 5000 50 25 200 128 25 200 20 m b SampRandom.
Definition c69_eps : dbl := d_div (d_of_Z 3) (d_of_Z 100).
Definition c69_entries : list (Z * Z) := [(1, 1); (2, 1); (3, 1); (1, 2); (2, 2); (1, 3); (2, 3); (3, 3); (1, 4); (3, 4); (2, 5); (3, 5)].
(** C69, refuted.  A 3 by 5 matrix with twelve nonzeros, columns weighted by their number of nonzeros, is divided into two parts with the default options (imbalance 0.03) on one
    processor.  Each part may weigh at most 6, and there is a partitioning with parts of just this weight; the program ends normally and delivers parts of weights 5 and 7. *)
Lemma C69_balance_refuted_proof : ∃ t entries k opts M,
  matrix_input t MGeneral 3 5 12 entries weight_degree ∧ k = 2 ∧ o_metric opts = LambdaMinusOne ∧ o_bisection opts = BisMultilevel ∧
  part_limit (matrix_weight 5 (nonzeros MGeneral entries) weight_degree) k c69_eps = Some M ∧ M = 6 ∧
  (∃ part, (∀ j, 0 ≤ j < 5 → 0 ≤ part j < 2) ∧ ∀ q, 0 ≤ q < 2 → columns_weight 5 (nonzeros MGeneral entries) weight_degree part q ≤ M) ∧
  match program blocks (λ _, true) t ModeDegree 1 k c69_eps c69_eps opts w0 with Ok (Result r, _) => re_weights r = [5; 7] | _ => False end.
Proof.
  exists (matrix_text 3 5 c69_entries), c69_entries, 2, (default_opts LambdaMinusOne BisMultilevel), 6.
  split; [apply (matrix_text_input 3 5 c69_entries weight_degree); vm_compute; congruence|]. split; [done|]. split; [done|]. split; [done|].
  split; [vm_compute; reflexivity|]. split; [done|]. split; [|vm_compute; reflexivity].
  exists (λ j, if decide (j = 0 ∨ j = 2) then 0 else 1). split; [intros j _; by case_decide|].
  intros q Hq. assert (q = 0 ∨ q = 1) as [-> | ->] by lia; vm_compute; discriminate.
Qed.

(** C69, what holds for the function on one processor and either metric.  If the parts have enough room for the whole weight, then every
    run that returns a result returns parts that are within the limit; the other runs execute an undefined operation. *)
Lemma C69_recursive_room_partial_proof : ∀ bp H k eps opts b M w, lawful_family bp → rb_pre H → 2 ≤ k ≤ 2 ^ 50 →
  part_limit (tot_weight H) k eps = Some M → 0 ≤ M → M * k ≤ 2 ^ 50 → (∀ v, v ∈ h_verts H → v_weight v ≤ b) → 0 ≤ b →
  enough_room (room_needed opts (Z.of_nat (length (h_verts H))) b) k M (tot_weight H) →
  match recursive_bisect1 bp H k eps opts w with
  | Ok (H', _) => (∀ v, v ∈ h_verts H' → 0 ≤ v_part v < k) ∧ ∀ p, 0 ≤ p < k → part_weight H' p ≤ M
  | Err e => e = UB
  end.
Proof.
  intros bp H k eps opts b M w Hbp Hpre Hk HM HM0 HMk Hwb Hb Hroom.
  assert (wpe (λ e, e = UB) (recursive_bisect1 bp H k eps opts) (λ H', (∀ v, v ∈ h_verts H' → 0 ≤ v_part v < k) ∧ ∀ p, 0 ≤ p < k → part_weight H' p ≤ M)) as Hw.
  { eapply (wpe_recursive_bisect_room _ False); [by left|done|by apply room_needed_nonneg|by apply bisect1_room|done|done|exact HM|done|done|exact Hwb| |].
    - apply room_fits; [by apply room_needed_nonneg|lia|exact Hroom|done].
    - intros H' Hp Hlim _ _. split; [done|]. intros p Hpp. by apply Hlim. }
  specialize (Hw w). destruct (recursive_bisect1 bp H k eps opts w) as [[H' w']|e]; done.
Qed.
(** C69, what holds for the function on one processor and the lambda-minus-one metric.  If moreover the room is moderate, then every run returns, and
    every part is within the limit and has a vertex. *)
Lemma C69_recursive_total_partial_proof : ∀ bp H k eps opts b M w, lawful_family bp → rb_pre H → 2 ≤ k ≤ 2 ^ 50 →
  part_limit (tot_weight H) k eps = Some M → 0 ≤ M → M * k ≤ 2 ^ 50 → (∀ v, v ∈ h_verts H → v_weight v ≤ b) → 0 ≤ b → o_metric opts = LambdaMinusOne →
  enough_room (room_needed opts (Z.of_nat (length (h_verts H))) b) k M (tot_weight H) → moderate_room k M (tot_weight H) →
  ∃ H' w', recursive_bisect1 bp H k eps opts w = Ok (H', w') ∧ same_up_to_order_and_parts H H' ∧
    (∀ v, v ∈ h_verts H' → 0 ≤ v_part v < k) ∧ ∀ p, 0 ≤ p < k → 0 < part_weight H' p ≤ M.
Proof.
  intros bp H k eps opts b M w Hbp Hpre Hk HM HM0 HMk Hwb Hb Hm Hroom Hmod.
  assert (wp (recursive_bisect1 bp H k eps opts) (λ H', same_up_to_order_and_parts H H' ∧ (∀ v, v ∈ h_verts H' → 0 ≤ v_part v < k) ∧ ∀ p, 0 ≤ p < k → 0 < part_weight H' p ≤ M)) as Hw.
  { eapply (wpe_recursive_bisect_room _ True); [by right|congruence|by apply room_needed_nonneg|by apply bisect1_room|done|done|exact HM|done|done|exact Hwb| |].
    - apply room_fits; [by apply room_needed_nonneg|lia|exact Hroom|done].
    - intros H' Hp Hlim Hs _. split; [by apply Hs|]. split; [done|]. intros p Hpp. destruct (Hlim p Hpp) as [? ?]. split; [auto|done]. }
  apply wp_run with (w := w) in Hw as (H' & w' & Heq & ?). eauto.
Qed.

Lemma same_rearranged E H H' : distributed E [H] → same_up_to_order_and_parts H H' → rearranged E [H] [H'].
Proof.
  intros D (HC & Hn & Hgs & Hgn & Hnz & Hvk).
  assert (all_nets [H'] = all_nets [H]) as Hnn by (unfold all_nets; csimpl; by rewrite Hn).
  assert (vertex_data <$> all_verts [H'] ≡ₚ vertex_data <$> all_verts [H]) as Hvv by (unfold all_verts; csimpl; by rewrite !app_nil_r).
  split; [|done|done|rewrite Hnn; eauto|csimpl; by rewrite Hgs|csimpl; by rewrite Hnz].
  destruct D as [D1 D2 D3 D4 D5]. split; rewrite ?Hnn; [| |by rewrite (vkey_ids _ _ Hvv)|done|done].
  - intros X ->%elem_of_list_singleton. done.
  - intros X ->%elem_of_list_singleton. rewrite Hgn. apply D2. by left.
Qed.
Lemma wpe_program_room (E' : err → Prop) calm bp opens t sy E V L entries mode weight k eps eta opts b M : E' UB ∨ calm →
  lawful_family bp → (∀ n, opens n = true) →
  matrix_input t sy E V L entries weight → (mode = ModeOne ∧ weight = weight_one) ∨ (mode = ModeDegree ∧ weight = weight_degree) → 2 ≤ k < 2 ^ 31 →
  part_limit (matrix_weight V (nonzeros sy entries) weight) k eps = Some M → 0 ≤ M → M * k ≤ 2 ^ 50 → o_metric opts = LambdaMinusOne →
  (∀ j, 0 ≤ j < V → weight (column (nonzeros sy entries) j) ≤ b) → 0 ≤ b →
  enough_room (room_needed opts V b) k M (matrix_weight V (nonzeros sy entries) weight) →
  (calm → moderate_room k M (matrix_weight V (nonzeros sy entries) weight)) →
  wpe E' (program bp opens t mode 1 k eps eta opts) (λ o, match o with
    | Result r => ∃ part, delivered E V k (nonzeros sy entries) weight LambdaMinusOne part (re_file r) (re_cut r) (re_weights r) (re_balance r) ∧
        ∀ q, 0 ≤ q < k → columns_weight V (nonzeros sy entries) weight part q ≤ M ∧ (calm → 0 < columns_weight V (nonzeros sy entries) weight part q)
    | _ => False
    end).
Proof.
  intros HE Hfam Ho HI Hmode Hk HM HM0 HMk Hm Hwb Hb Hroom Hmod. unfold program.
  destruct (listing_sizes _ _ _ _ _ _ (mi_listing _ _ _ _ _ _ _ HI)) as [HE0 HV0].
  eapply (wpe_program bp Hfam opens Ho t sy E V L entries mode weight Hmode HI 1 ltac:(lia) E' _ k eps eta opts
    (λ Hs1 Hs', Hs1 = Hs' ∧ ∀ q, 0 ≤ q < k → gpart_weight Hs1 q ≤ M ∧ (calm → 0 < gpart_weight Hs1 q))); [lia| |].
  - intros Hs Hlen HH. destruct Hs as [|H [|]]; [done| |done].
    pose proof (held_spread t sy E V L entries weight HI 1 ltac:(lia) [H] HH) as Hsp. pose proof (spread_member _ _ H Hsp ltac:(by left)) as Hpre.
    assert (all_verts [H] = h_verts H) as Hav by (unfold all_verts; csimpl; apply app_nil_r).
    assert (tot_weight H = matrix_weight V (nonzeros sy entries) weight) as Htw. { rewrite <-(held_weight _ _ _ _ _ HH). unfold gweight. by rewrite Hav. }
    assert (Z.of_nat (length (h_verts H)) = V) as HlV.
    { pose proof (Permutation_length (hm_ids _ _ _ _ _ HH)) as Hx. rewrite Hav, fmap_length, seqZ_length in Hx. lia. }
    assert (∀ v, v ∈ h_verts H → v_weight v ≤ b) as Hwb'.
    { intros v Hv. rewrite <-Hav in Hv. destruct (hm_vert _ _ _ _ _ HH v Hv) as [-> _]. apply Hwb. by eapply held_id. }
    unfold partition_all, partition_with. rewrite Hm. apply wpe_bind. intros w. rewrite recursive_par_one by done. revert w.
    match goal with |- ∀ w, match ?m w with _ => _ end => change (wpe E' m (λ Hs', wpe E' (ret (Some Hs')) (λ o, match o with
       | None => False
       | Some Hs' => ∃ Hs1, length Hs' = 1%nat ∧ holds_matrix E V (nonzeros sy entries) weight Hs1 ∧ Forall2 fewer Hs1 Hs' ∧ (∀ v, v ∈ all_verts Hs' → 0 ≤ v_part v < k) ∧
           Hs1 = Hs' ∧ ∀ q, 0 ≤ q < k → gpart_weight Hs1 q ≤ M ∧ (calm → 0 < gpart_weight Hs1 q) end))) end.
    apply wpe_bind.
    eapply (wpe_recursive_bisect_room E' calm (bisect1 bp) H k eps opts b (room_needed opts V b) M); [done|congruence|by apply room_needed_nonneg|rewrite HlV; by apply bisect1_room|done|lia|by rewrite Htw|done|done|done| |].
    + rewrite Htw. apply room_fits; [by apply room_needed_nonneg|lia|done|done].
    + intros H' Hp Hlim Hs _. apply wpe_ret, wpe_ret. exists [H'].
      assert (all_verts [H'] = h_verts H') as Hav' by (unfold all_verts; csimpl; apply app_nil_r).
      split; [done|]. split; [eapply rearranged_holds; [|exact HH]; apply same_rearranged; [apply HH|by apply Hs]|].
      split; [constructor; [apply fewer_refl|constructor]|]. split; [by rewrite Hav'|]. split; [done|].
      intros q Hq. assert (gpart_weight [H'] q = part_weight H' q) as ->; [|by apply Hlim]. unfold gpart_weight. rewrite Hav'. done.
  - intros Hs1 Hs' r [<- Hlim] HH HF HD. exists (gpart Hs1). rewrite Hm in HD. split.
    + assert (all_nonzeros Hs1 ≡ₚ nonzeros sy entries) as Hnz.
      { eapply (held_nonzeros E V (nonzeros sy entries) weight); [exact HH|]. intros e He. eapply input_range; [exact HI|done]. }
      destruct HD as [D1 (starts & es & D2 & D3) D4 D5 D6]. split; try assumption. exists starts, es. split; [done|].
      eapply by_parts_perm; [|exact D3]. exact Hnz.
    + intros q Hq. rewrite <-(held_gpart_weight _ _ _ _ _ HH). by apply Hlim.
Qed.

(** C69, what holds for the program on one processor and the lambda-minus-one metric.  If the parts have enough room for the whole weight, then the
    program either delivers a partitioning in which no part weighs more than M, which is (1+eps)*W/k in double precision rounded down, or executes an undefined operation. *)
Lemma C69_program_room_partial_proof : ∀ bp opens t sy E V L entries mode weight k eps eta opts b M w, lawful_family bp → (∀ n, opens n = true) →
  matrix_input t sy E V L entries weight → (mode = ModeOne ∧ weight = weight_one) ∨ (mode = ModeDegree ∧ weight = weight_degree) → 2 ≤ k < 2 ^ 31 →
  part_limit (matrix_weight V (nonzeros sy entries) weight) k eps = Some M → 0 ≤ M → M * k ≤ 2 ^ 50 → o_metric opts = LambdaMinusOne →
  (∀ j, 0 ≤ j < V → weight (column (nonzeros sy entries) j) ≤ b) → 0 ≤ b →
  enough_room (room_needed opts V b) k M (matrix_weight V (nonzeros sy entries) weight) →
  match program bp opens t mode 1 k eps eta opts w with
  | Ok (Result r, _) => ∃ part, delivered E V k (nonzeros sy entries) weight LambdaMinusOne part (re_file r) (re_cut r) (re_weights r) (re_balance r) ∧
      ∀ q, 0 ≤ q < k → columns_weight V (nonzeros sy entries) weight part q ≤ M
  | Ok _ => False
  | Err e => e = UB
  end.
Proof.
  intros bp opens t sy E V L entries mode weight k eps eta opts b M w Hbp Ho HI Hmode Hk HM HM0 HMk Hm Hwb Hb Hroom.
  pose proof (wpe_program_room (λ e, e = UB) False bp opens t sy E V L entries mode weight k eps eta opts b M) as Hw.
  feed specialize Hw; try assumption; [by left|done|]. specialize (Hw w).
  destruct (program bp opens t mode 1 k eps eta opts w) as [[[r| |] w']|e]; try done.
  destruct Hw as (part & HD & Hlim). exists part. split; [done|]. intros q Hq. by apply Hlim.
Qed.
(** C69, what holds for the program on one processor and the lambda-minus-one metric.  If moreover the room is moderate, then the program always delivers a
    partitioning, every part of it is within the limit, and none is empty. *)
Lemma C69_program_total_partial_proof : ∀ bp opens t sy E V L entries mode weight k eps eta opts b M w, lawful_family bp → (∀ n, opens n = true) →
  matrix_input t sy E V L entries weight → (mode = ModeOne ∧ weight = weight_one) ∨ (mode = ModeDegree ∧ weight = weight_degree) → 2 ≤ k < 2 ^ 31 →
  part_limit (matrix_weight V (nonzeros sy entries) weight) k eps = Some M → 0 ≤ M → M * k ≤ 2 ^ 50 → o_metric opts = LambdaMinusOne →
  (∀ j, 0 ≤ j < V → weight (column (nonzeros sy entries) j) ≤ b) → 0 ≤ b →
  enough_room (room_needed opts V b) k M (matrix_weight V (nonzeros sy entries) weight) → moderate_room k M (matrix_weight V (nonzeros sy entries) weight) →
  ∃ r w' part, program bp opens t mode 1 k eps eta opts w = Ok (Result r, w') ∧
    delivered E V k (nonzeros sy entries) weight LambdaMinusOne part (re_file r) (re_cut r) (re_weights r) (re_balance r) ∧
    ∀ q, 0 ≤ q < k → 0 < columns_weight V (nonzeros sy entries) weight part q ≤ M.
Proof.
  intros bp opens t sy E V L entries mode weight k eps eta opts b M w Hbp Ho HI Hmode Hk HM HM0 HMk Hm Hwb Hb Hroom Hmod.
  pose proof (wpe_program_room (λ _, False) True bp opens t sy E V L entries mode weight k eps eta opts b M) as Hw.
  feed specialize Hw; try assumption; [by right|done|]. specialize (Hw w).
  destruct (program bp opens t mode 1 k eps eta opts w) as [[[r| |] w']|e]; try done.
  destruct Hw as (part & HD & Hlim). exists r, w', part. split; [done|]. split; [done|]. intros q Hq. destruct (Hlim q Hq). auto.
Qed.

(** a matrix with one row and sixty columns, imbalance 5/16: two parts of at most 39, room 18 *)
Definition c69_row : list (Z * Z) := (λ j, (1, j)) <$> seqZ 1 60.
Definition c69_eps2 : dbl := d_div (d_of_Z 5) (d_of_Z 16).
Example C69_example : lawful_family blocks ∧ matrix_input (matrix_text 1 60 c69_row) MGeneral 1 60 60 c69_row weight_one ∧
  part_limit (matrix_weight 60 (nonzeros MGeneral c69_row) weight_one) 2 c69_eps2 = Some 39 ∧
  (∀ j, 0 ≤ j < 60 → weight_one (column (nonzeros MGeneral c69_row) j) ≤ 1) ∧
  room_needed (default_opts LambdaMinusOne BisMultilevel) 60 1 = 1 ∧ enough_room 1 2 39 60 ∧ moderate_room 2 39 60 ∧
  match program blocks (λ _, true) (matrix_text 1 60 c69_row) ModeOne 1 2 c69_eps2 c61_eps (default_opts LambdaMinusOne BisMultilevel) w0 with
  | Ok (Result r, _) => bool_decide (Forall (λ x, 0 < x ≤ 39) (re_weights r)) = true ∧ zsum (re_weights r) = 60
  | _ => False end.
Proof.
  split; [apply blocks_lawful|]. split; [apply (matrix_text_input 1 60 c69_row weight_one); vm_compute; congruence|]. split; [vm_compute; reflexivity|].
  split; [done|]. split; [vm_compute; reflexivity|]. split; [vm_compute; discriminate|]. split; [vm_compute; discriminate|]. vm_compute. split; reflexivity.
Qed.
(** a 10 by 34 matrix: 17 full columns, then 17 columns with one nonzero *)
Definition c69_lopsided : list (Z * Z) := flat_map (λ j, (λ i, (i, j)) <$> seqZ 1 10) (seqZ 1 17) ++ ((λ j, (1, j)) <$> seqZ 18 17).
Definition c69_fifth : dbl := d_div (d_of_Z 1) (d_of_Z 5).
(** what C69_program_total_partial says about such matrices on one processor *)
Lemma c69_alone t entries eps opts M b : matrix_input t MGeneral 10 34 187 entries weight_degree → o_metric opts = LambdaMinusOne →
  part_limit (matrix_weight 34 entries weight_degree) 2 eps = Some M → 0 ≤ M → M * 2 ≤ 2 ^ 50 →
  (∀ j, 0 ≤ j < 34 → weight_degree (column entries j) ≤ b) → 0 ≤ b →
  enough_room (room_needed opts 34 b) 2 M (matrix_weight 34 entries weight_degree) → moderate_room 2 M (matrix_weight 34 entries weight_degree) →
  ∀ w, ∃ r w' part, program blocks (λ _, true) t ModeDegree 1 2 eps c61_eps opts w = Ok (Result r, w') ∧
     delivered 10 34 2 entries weight_degree LambdaMinusOne part (re_file r) (re_cut r) (re_weights r) (re_balance r) ∧
     ∀ q, 0 ≤ q < 2 → 0 < columns_weight 34 entries weight_degree part q ≤ M.
Proof.
  intros HI Hm HM HM0 HM2 Hb Hb0 Hr Hmr w.
  exact (C69_program_total_partial_proof blocks (λ _, true) t MGeneral 10 34 187 entries ModeDegree weight_degree 2 eps c61_eps opts b M w blocks_lawful
    ltac:(done) HI ltac:(by right) ltac:(lia) HM HM0 HM2 Hm Hb Hb0 Hr Hmr).
Qed.
(** C69, refuted for random bisection on two processors, also with enough and moderate room.  Both processors get half of the limits, but not half of the weight: a part weighs 120
    where 112 is allowed.  On one processor every run of the same program on the same input is within the limit. *)
Lemma C69_two_processors_refuted_proof : ∃ t entries eps opts M b w, matrix_input t MGeneral 10 34 187 entries weight_degree ∧
  opts = default_opts LambdaMinusOne BisRandom ∧ part_limit (matrix_weight 34 entries weight_degree) 2 eps = Some M ∧
  (∀ j, 0 ≤ j < 34 → weight_degree (column entries j) ≤ b) ∧
  enough_room (room_needed opts 34 b) 2 M (matrix_weight 34 entries weight_degree) ∧ moderate_room 2 M (matrix_weight 34 entries weight_degree) ∧
  (∀ w, ∃ r w' part, program blocks (λ _, true) t ModeDegree 1 2 eps c61_eps opts w = Ok (Result r, w') ∧
     delivered 10 34 2 entries weight_degree LambdaMinusOne part (re_file r) (re_cut r) (re_weights r) (re_balance r) ∧
     ∀ q, 0 ≤ q < 2 → 0 < columns_weight 34 entries weight_degree part q ≤ M) ∧
  match program blocks (λ _, true) t ModeDegree 2 2 eps c61_eps opts w with
  | Ok (Result r, _) => ∃ x, x ∈ re_weights r ∧ M < x
  | _ => False end.
Proof.
  exists (matrix_text 10 34 c69_lopsided), c69_lopsided, c69_fifth, (default_opts LambdaMinusOne BisRandom), 112, 10, w0.
  assert (matrix_input (matrix_text 10 34 c69_lopsided) MGeneral 10 34 187 c69_lopsided weight_degree) as HI
    by (apply (matrix_text_input 10 34 c69_lopsided weight_degree); vm_compute; congruence).
  assert (∀ j, 0 ≤ j < 34 → weight_degree (column c69_lopsided j) ≤ 10) as Hb.
  { intros j Hj. assert (j ∈ seqZ 0 34) as Hin by (apply elem_of_seqZ; lia). clear Hj. revert j Hin. apply Forall_forall, (bool_decide_eq_true_1 _). vm_compute. reflexivity. }
  assert (part_limit (matrix_weight 34 c69_lopsided weight_degree) 2 c69_fifth = Some 112) as HM by (vm_compute; reflexivity).
  assert (enough_room (room_needed (default_opts LambdaMinusOne BisRandom) 34 10) 2 112 (matrix_weight 34 c69_lopsided weight_degree)) as Hr by (vm_compute; discriminate).
  assert (moderate_room 2 112 (matrix_weight 34 c69_lopsided weight_degree)) as Hmr by (vm_compute; discriminate).
  split; [exact HI|]. split; [reflexivity|]. split; [exact HM|]. split; [exact Hb|]. split; [exact Hr|]. split; [exact Hmr|]. split.
  - intros w. exact (c69_alone _ _ _ (default_opts LambdaMinusOne BisRandom) _ _ HI eq_refl HM ltac:(lia) ltac:(lia) Hb ltac:(lia) Hr Hmr w).
  - assert (match program blocks (λ _, true) (matrix_text 10 34 c69_lopsided) ModeDegree 2 2 c69_fifth c61_eps (default_opts LambdaMinusOne BisRandom) w0 with
      | Ok (Result r, _) => re_weights r = [67; 120] | _ => False end) as Hx by (vm_compute; reflexivity).
    clear HI Hb HM Hr Hmr. revert Hx.
    generalize (program blocks (λ _, true) (matrix_text 10 34 c69_lopsided) ModeDegree 2 2 c69_fifth c61_eps (default_opts LambdaMinusOne BisRandom) w0).
    intros o Hx. destruct o as [[[r| |] ?]|]; [|done|done|done]. exists 120. rewrite Hx. split; [right; left|reflexivity].
Qed.
