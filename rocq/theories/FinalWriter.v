(** The property lemmas C43-C45, C51 and C52: files that are written. *)
From Verif Require Export RandomProof FinalReader.
Local Open Scope list_scope.

(** ** Examples *)
(** two processors, three parts, two nets; part 1 is empty *)
Definition ex_w0 : hg := mk_hg 3 2 [Vertex 0 [0; 1] 1 2; Vertex 1 [1] 1 0] [Net 0 [0] 1 2; Net 1 [0; 1] 1 3] 5.
Definition ex_w1 : hg := mk_hg 3 2 [Vertex 2 [0; 1] 1 0] [Net 0 [2] 1 2; Net 1 [2] 1 3] 5.

(** ** C43 *)
(** C43 (values): when the labels are parts, start_parts gives every processor the same k+1 values,
    beginning with 0, whose steps are the numbers of nonzeros of the parts and whose last one is the
    number of nonzeros. *)
Lemma C43_start_parts_partial_proof Hs (k : nat) w :
  (∀ v, v ∈ all_verts Hs → 0 ≤ v_part v < Z.of_nat k) →
  ∃ starts w', start_parts Hs (Z.of_nat k) w = Ok (replicate (length Hs) starts, w') ∧ kstart k Hs starts.
Proof.
  intros Hk. apply Forall_forall in Hk. eexists _, _. split; [by apply start_parts_run; [lia|]|]. by apply starts_kstart.
Qed.
(** C43 is false for the code: with at least one part every processor writes past the end of the result. *)
Lemma C43_past_end_refuted_proof Hs (k : nat) w :
  Hs ≠ [] → (1 ≤ k)%nat → (∀ v, v ∈ all_verts Hs → 0 ≤ v_part v < Z.of_nat k) →
  ∃ starts w', start_parts Hs (Z.of_nat k) w = Ok (starts, w') ∧
    w_log w' = w_log w ++ replicate (length Hs) PastEndWrite.
Proof.
  intros Hne H1 Hk. apply Forall_forall in Hk. eexists _, _. split; [by apply start_parts_run; [lia|]|]. cbn [w_log]. f_equal.
  unfold start_tags. rewrite decide_True by lia. clear. induction Hs; cbn; by f_equal.
Qed.
Example C43_example :
  (∀ v, v ∈ all_verts [ex_w0; ex_w1] → 0 ≤ v_part v < Z.of_nat 3) ∧
  start_parts [ex_w0; ex_w1] 3 w0 = Ok ([[0; 3; 3; 5]; [0; 3; 3; 5]], World (λ _, 0) [PastEndWrite; PastEndWrite]).
Proof.
  split; [|vm_compute; reflexivity]. intros v; revert v. apply Forall_forall. by_comp.
Qed.

(** ** C44 *)
(** C44: when the file can be opened, partitioning_to_file returns true and the file consists of the
    banner, the sizes, the starts of the parts and the nonzeros; every nonzero is there as often as in
    the hypergraph (once, in a well-formed one), and those of part i are the entries from the i-th start
    up to the next one. *)
Lemma C44_output_file_proof opens Hs H0 (k : nat) w :
  (∀ n, opens n = true) → head Hs = Some H0 →
  (∀ v, v ∈ all_verts Hs → 0 ≤ v_part v < Z.of_nat k ∧ 0 ≤ v_id v ∧ ∀ n, n ∈ v_nets v → 0 ≤ n) →
  0 ≤ h_gnets H0 → 0 ≤ h_gsize H0 → 0 ≤ h_nz H0 →
  ∃ t w' starts entries, partitioning_to_file opens Hs (Z.of_nat k) w = Ok (Some t, w') ∧
    distributed_matrix_file t (h_gnets H0) (h_gsize H0) (h_nz H0) (Z.of_nat k) starts entries ∧
    kstart k Hs starts ∧
    entries ≡ₚ all_nonzeros Hs ∧
    (NoDup (v_id <$> all_verts Hs) → (∀ v, v ∈ all_verts Hs → NoDup (v_nets v)) → NoDup entries) ∧
    ∀ i, (i < k)%nat → ∃ before after,
      entries = before ++ part_nonzeros Hs (Z.of_nat i) ++ after ∧
      starts !! i = Some (Z.of_nat (length before)) ∧
      starts !! S i = Some (Z.of_nat (length before) + Z.of_nat (length (part_nonzeros Hs (Z.of_nat i)))).
Proof.
  intros Ho Hhd Hv Hg1 Hg2 Hg3.
  assert (Forall (λ v, 0 ≤ v_part v < Z.of_nat k) (all_verts Hs)) as HF by (apply Forall_forall; intros v Hin; apply (Hv v Hin)).
  destruct (partitioning_to_file_run opens Hs k w Ho) as (H0' & w' & Hhd' & Hrun); [by destruct Hs|done|].
  rewrite Hhd in Hhd'. injection Hhd' as <-.
  pose proof (written_perm Hs k HF) as Hperm.
  eexists _, w', _, (written Hs k). split; [exact Hrun|]. split; [|split; [by apply starts_kstart|split; [done|split]]].
  - apply written_file; [done..|lia|apply starts_nonneg|]. apply Forall_forall. intros e He. rewrite Hperm in He.
    apply all_nonzeros_elem in He as (v & n & Hin & Hn & ->). destruct (Hv v Hin) as (_ & Hid & Hns). specialize (Hns n Hn). cbn [fst snd]. lia.
  - intros Hnd Hnets. rewrite Hperm. unfold all_nonzeros, vertex_nonzeros. clear -Hnd Hnets. induction (all_verts Hs) as [|v vs IH]; [constructor|].
    csimpl in Hnd. rewrite fmap_cons. apply NoDup_cons in Hnd as [Hnot Hnd]. cbn [concat]. apply NoDup_app. split; [|split].
    + apply NoDup_fmap_2_strong; [|apply Hnets; set_solver]. intros ???? [=]. lia.
    + intros e (n & -> & _)%elem_of_list_fmap He. apply elem_of_list_In, in_concat in He as (l & Hl & He). apply elem_of_list_In in Hl, He.
      apply elem_of_list_fmap in Hl as (v' & -> & Hv'). apply elem_of_list_fmap in He as (n' & [= _ He] & _). apply Hnot. replace (v_id v) with (v_id v') by lia.
      by apply elem_of_list_fmap_1.
    + apply IH; [done|]. set_solver.
  - intros i Hi. destruct (written_split Hs k i Hi) as [after Hsp]. exists (written Hs i), after. split; [done|].
    rewrite !starts_lookup, written_length by lia. split; [done|]. rewrite Nat2Z.inj_succ, <-Z.add_1_r, psum_step by lia. done.
Qed.
Definition ex_written : ctext := concat (with_newline <$> (chars <$>
  ["%%MatrixMarket distributed-matrix coordinate pattern general"; "2 3 5 3"; "0"; "3"; "3"; "5"; "2 2"; "1 3"; "2 3"; "1 1"; "2 1"]%string)).
Example C44_example :
  (∀ v, v ∈ all_verts [ex_w0; ex_w1] → 0 ≤ v_part v < Z.of_nat 3 ∧ 0 ≤ v_id v ∧ ∀ n, n ∈ v_nets v → 0 ≤ n) ∧
  distributed 2 [ex_w0; ex_w1] ∧
  partitioning_to_file (λ _, true) [ex_w0; ex_w1] 3 w0 = Ok (Some ex_written, World (λ _, 0) [PastEndWrite; PastEndWrite]).
Proof.
  split; [|split; [|vm_compute; reflexivity]].
  - intros v; revert v. apply Forall_forall. repeat constructor; cbn; try lia; intros n; revert n; apply Forall_forall; by_comp.
  - split.
    + intros H; revert H. apply Forall_forall. apply Forall_cons. split; [|apply Forall_cons; split; [|constructor]]; apply mk_hg_consistent_dec; vm_compute; reflexivity.
    + intros H; revert H. apply Forall_forall. by_comp.
    + by_comp.
    + intros n; revert n. apply Forall_forall. by_comp.
    + assert (Forall (λ n, Forall (λ n', n_id n = n_id n' → n_cost n = n_cost n') (all_nets [ex_w0; ex_w1])) (all_nets [ex_w0; ex_w1])) as HF by by_comp.
      intros n n' Hn Hn'. rewrite Forall_forall in HF. specialize (HF n Hn). rewrite Forall_forall in HF. by apply HF.
Qed.

(** ** C52 *)
(** C52 (one processor): when some opening of the file fails, false is returned. *)
Lemma C52_open_failure_partial_proof opens H (k : nat) w :
  (∀ v, v ∈ h_verts H → 0 ≤ v_part v < Z.of_nat k) →
  (∃ n, (n ≤ k)%nat ∧ opens n = false) →
  ∃ w', partitioning_to_file opens [H] (Z.of_nat k) w = Ok (None, w').
Proof.
  intros Hk (n & Hn & Hf).
  assert (Forall (λ v, 0 ≤ v_part v < Z.of_nat k) (all_verts [H])) as HF.
  { apply Forall_forall. intros v [H' [->%elem_of_list_singleton Hv]]%all_verts_elem. by apply Hk. }
  pose proof (start_parts_run [H] (Z.of_nat k) w ltac:(lia) HF) as Hst.
  unfold partitioning_to_file. unfold bind at 1. rewrite Hst. cbn [length replicate]. unfold bind at 1, nidx at 1. cbn [lookup list_lookup of_option].
  unfold ret at 1. unfold bind at 1, nidx at 1. cbn [lookup list_lookup of_option]. unfold ret at 1.
  destruct (opens 0%nat) eqn:H0; [|by eexists].
  match goal with |- ∃ w', foldM ?f ?l (Some ?t) ?w1 = _ => set (F := f); set (t0 := t); generalize w1 end. intros w1. exists w1. rewrite Nat2Z.id.
  assert (∀ l w, foldM F l None w = Ok (None, w)) as HN.
  { intros l. induction l as [|x l IH]; intros w2; [done|]. cbn [foldM]. unfold bind, F at 1. cbn [foldM seq]. unfold bind, ret. apply IH. }
  assert (∀ t i w, F (Some t) i w = Ok (if opens (S i) then Some (t ++ part_out H (Z.of_nat i)) else None, w)) as HS.
  { intros t i w2. unfold F. cbn [foldM seq]. unfold bind, nidx. cbn [lookup list_lookup of_option]. unfold ret. replace (1 + i * 1 + 0)%nat with (S i) by lia.
    destruct (opens (S i)); [done|]. unfold gone. rewrite decide_True by done. done. }
  destruct n as [|n]; [congruence|]. rewrite <-(Nat.add_0_l n) in Hf.
  assert (∀ a l t w, (a ≤ n)%nat → (n < a + l)%nat → foldM F (seq a l) (Some t) w = Ok (None, w)) as Hall; [|apply Hall; lia].
  intros a l. revert a. induction l as [|l IH]; intros a t w2 Ha Hl; [lia|]. cbn [seq foldM]. unfold bind. rewrite HS.
  destruct (opens (S a)) eqn:Hoa; [|apply HN]. destruct (decide (a = n)) as [->|]; [rewrite Nat.add_0_l in Hf; congruence|]. apply IH; lia.
Qed.
(** C52 is false for the code with more processors: when the first opening fails, processor 0 returns
    while the others wait for it in the first sync. *)
Lemma C52_open_failure_refuted_proof opens Hs (k : nat) w :
  (2 ≤ length Hs)%nat → (1 ≤ k)%nat → (∀ v, v ∈ all_verts Hs → 0 ≤ v_part v < Z.of_nat k) → opens 0%nat = false →
  partitioning_to_file opens Hs (Z.of_nat k) w = Err Abort.
Proof.
  intros Hp Hk1 Hk Ho. apply Forall_forall in Hk.
  pose proof (start_parts_run Hs (Z.of_nat k) w ltac:(lia) Hk) as Hst.
  unfold partitioning_to_file. unfold bind at 1. rewrite Hst. destruct Hs as [|H Hs]; [cbn in Hp; lia|]. cbn [length replicate].
  unfold bind at 1, nidx at 1. cbn [lookup list_lookup of_option].
  unfold ret at 1. unfold bind at 1, nidx at 1. cbn [lookup list_lookup of_option]. unfold ret at 1. rewrite Ho. unfold gone. cbn [length] in Hp. rewrite decide_False by lia. done.
Qed.
Example C52_example :
  partitioning_to_file (λ n, bool_decide (n ≠ 2%nat)) [ex_w0] 3 w0 = Ok (None, World (λ _, 0) [PastEndWrite]) ∧
  partitioning_to_file (λ _, false) [ex_w0; ex_w1] 3 w0 = Err Abort.
Proof. split; vm_compute; reflexivity. Qed.

(** ** C45 *)
Definition max_sizes : Z := 164703072086692425.
(** C45 (the file): whenever create_random_hypergraph ends, it has written a listing of an m by n
    matrix with exactly nz entries, which are in range and different; nothing else can happen but that it
    goes on forever. *)
Lemma C45_entries_proof fuel n m nz w :
  0 < n ≤ max_sizes → 0 < m ≤ max_sizes → 0 ≤ nz →
  match create_random_hypergraph fuel true n m nz w with
  | Ok (o, _) => ∃ t entries, o = Some t ∧ listing t MGeneral m n nz entries ∧
      Z.of_nat (length entries) = nz ∧ NoDup entries ∧
      ∀ e, e ∈ entries → 1 ≤ fst e ≤ m ∧ 1 ≤ snd e ≤ n
  | Err e => e = Fuel
  end.
Proof.
  intros Hn Hm Hnz.
  assert (wpe (λ e, e = Fuel) (create_random_hypergraph fuel true n m nz) (λ o, ∃ t entries, o = Some t ∧ listing t MGeneral m n nz entries ∧
      Z.of_nat (length entries) = nz ∧ NoDup entries ∧ ∀ e, e ∈ entries → 1 ≤ fst e ≤ m ∧ 1 ≤ snd e ≤ n)) as Hw.
  2: { specialize (Hw w). destruct (create_random_hypergraph fuel true n m nz w) as [[o w']|e]; exact Hw. }
  unfold create_random_hypergraph. apply wpe_bind, wpe_guard; [apply bool_decide_true; unfold max_sets, max_sizes in *; lia|].
  apply wpe_bind.
  apply (wpe_loopM_partial (λ e, e = Fuel) (random_step n m nz)
    (λ s, ∃ es, rinv n m (random_header n m nz) es s ∧ Z.of_nat (length es) ≤ nz)); [done| |].
  - intros s (es & Hinv & Hle). eapply (wpe_random_step _ _ _ _ _ es); [unfold max_sizes, two64 in *; lia..|done| |].
    + intros _ es' s' Hinv' _ Hle'. eauto.
    + intros Hge. apply wpe_ret. exists (snd (snd s)), es. rewrite (ri_text _ _ _ _ _ Hinv). rewrite (ri_count _ _ _ _ _ Hinv) in Hge.
      assert (∀ e, e ∈ es → 1 ≤ fst e ≤ m ∧ 1 ≤ snd e ≤ n) as Hr.
      { intros e He. pose proof (ri_box _ _ _ _ _ Hinv) as Hb. rewrite Forall_forall in Hb. destruct (Hb e He) as [? ?]. unfold cap32 in *. lia. }
      split; [done|]. split; [|split; [lia|split; [by apply (ri_nodup _ _ _ _ _ Hinv)|done]]].
      apply random_listing; [lia..|]. apply Forall_forall. intros e He. destruct (Hr e He). lia.
  - exists []. split; [by apply rinv_init|cbn; lia].
Qed.
(** C45 (termination): whatever has been drawn so far, it can still end when nz <= n*m; rows and columns
    must be drawn with 32 bits. *)
Lemma C45_can_end_partial_proof n m nz w (d : nat) :
  0 < n ≤ 4294967296 → 0 < m ≤ 4294967296 → nz ≤ n * m →
  ∃ fuel w', (∀ i, (i < d)%nat → w_tape w' i = w_tape w i) ∧
    ∃ t w'', create_random_hypergraph fuel true n m nz w' = Ok (Some t, w'').
Proof.
  intros Hn Hm Hnz.
  destruct (random_finish_after n m nz (random_header n m nz) d (w_tape w <$> seq 0 d) [] (replicate (Z.to_nat m) ∅, (0, random_header n m nz)))
    as (fuel & τ & Hτ); [rewrite fmap_length, seq_length; lia|unfold two64; lia..| |by apply rinv_init|].
  { unfold cap32. rewrite !Z.min_l by lia. done. }
  exists fuel, (World (λ i, default 0 (((w_tape w <$> seq 0 d) ++ τ) !! i)) []). split.
  - intros i Hi. cbn [w_tape]. rewrite lookup_app_l by (rewrite fmap_length, seq_length; lia). rewrite list_lookup_fmap, lookup_seq_lt by lia. done.
  - destruct (Hτ (World (λ i, default 0 (((w_tape w <$> seq 0 d) ++ τ) !! i)) [])) as (s' & w'' & Hend).
    { intros i x Hi. cbn [w_tape]. by rewrite Hi. }
    exists (snd (snd s')), w''. unfold create_random_hypergraph. unfold bind at 1, guardM. rewrite bool_decide_true by (unfold max_sets; lia). unfold ret at 1.
    unfold bind. fold (random_header n m nz). rewrite Hend. done.
Qed.
Lemma random_never fuel n m nz w : 0 < n ≤ max_sizes → 0 < m ≤ max_sizes → cap32 n * cap32 m < nz →
  create_random_hypergraph fuel true n m nz w = Err Fuel.
Proof.
  intros Hn Hm Hnz.
  assert (wpe (λ e, e = Fuel) (create_random_hypergraph fuel true n m nz) (λ _, False)) as Hw.
  2: { specialize (Hw w). destruct (create_random_hypergraph fuel true n m nz w) as [[o w']|e]; [done|by rewrite Hw]. }
  unfold create_random_hypergraph. apply wpe_bind, wpe_guard; [apply bool_decide_true; unfold max_sets, max_sizes in *; lia|].
  apply wpe_bind.
  apply (wpe_loopM_partial (λ e, e = Fuel) (random_step n m nz) (λ s, ∃ es, rinv n m (random_header n m nz) es s)); [done| |].
  - intros s (es & Hinv). eapply (wpe_random_step _ _ _ _ _ es); [unfold max_sizes, two64 in *; lia..|done| |].
    + intros _ es' s' Hinv' _ _. eauto.
    + intros Hge. rewrite (ri_count _ _ _ _ _ Hinv) in Hge.
      pose proof (box_count n m es ltac:(lia) ltac:(lia) (ri_nodup _ _ _ _ _ Hinv) (ri_box _ _ _ _ _ Hinv)). lia.
  - exists []. by apply rinv_init.
Qed.
(** C45 (no termination): with nz > n*m it never ends. *)
Lemma C45_never_ends_proof fuel n m nz w :
  0 < n ≤ max_sizes → 0 < m ≤ max_sizes → n * m < nz →
  create_random_hypergraph fuel true n m nz w = Err Fuel.
Proof. intros Hn Hm Hnz. apply random_never; [done..|]. unfold cap32. nia. Qed.
(** C45 is false for the code with more than 2^32 rows: it never ends although nz <= n*m, since rows
    are drawn with 32 bits only. *)
Lemma C45_large_refuted_proof : ∃ n m nz, 0 < n ≤ max_sizes ∧ 0 < m ≤ max_sizes ∧ nz ≤ n * m ∧
  ∀ fuel w, create_random_hypergraph fuel true n m nz w = Err Fuel.
Proof.
  exists 1, 4294967297, 4294967297. unfold max_sizes. split; [lia|]. split; [lia|]. split; [lia|]. intros fuel w.
  apply random_never; [unfold max_sizes; lia..|]. unfold cap32. lia.
Qed.
Example C45_example : ∃ w', create_random_hypergraph 6 true 2 3 3 (tape_of [0; 1; 0; 1; 5; 4; 1; 7]) =
    Ok (Some (concat (with_newline <$> (chars <$> ["%%MatrixMarket matrix coordinate pattern general"; "3 2 3"; "1 2"; "3 1"; "2 2"]%string))), w').
Proof. eexists. vm_compute. reflexivity. Qed.

(** ** C51 *)
(** C51: a file that create_random_hypergraph wrote is read back as the hypergraph of the matrix with
    the entries in it: nz different nonzeros, n vertices, at most m nets. *)
Lemma C51_random_read_back_proof fuel n m nz w t w' mode weight w1 :
  0 < n ≤ max_sizes → 0 < m ≤ max_sizes → 0 ≤ nz < two64 →
  (mode = ModeOne ∧ weight = weight_one) ∨ (mode = ModeDegree ∧ weight = weight_degree) →
  create_random_hypergraph fuel true n m nz w = Ok (Some t, w') →
  ∃ H w2 entries, read_hypergraph t mode w1 = Ok (Some H, w2) ∧
    row_net m n entries weight H ∧ h_nz H = nz ∧ consistent H ∧
    Z.of_nat (length entries) = nz ∧ NoDup entries.
Proof.
  intros Hn Hm Hnz Hmode Hrun. pose proof (C45_entries_proof fuel n m nz w Hn Hm ltac:(lia)) as Hf. rewrite Hrun in Hf.
  destruct Hf as (t' & entries & [= <-] & Hl & Hlen & Hnd & Hr).
  destruct (C33_reading_proof t MGeneral m n nz entries mode weight w1 Hl) as (H & w2 & Hread & Hrn & Hnz' & Hc).
  - split; [|done|done|unfold max_sizes in *; lia..|unfold two64 in *; lia]. apply Forall_forall. exact Hr.
  - done.
  - exists H, w2, entries. cbn [nonzeros] in *. split; [done|]. split; [done|]. split; [lia|]. split; [by apply Hc|]. done.
Qed.
Example C51_example :
  match create_random_hypergraph 6 true 2 3 3 (tape_of [0; 1; 0; 1; 5; 4; 1; 7]) with
  | Ok (Some t, _) =>
      match read_hypergraph t ModeDegree w0 with
      | Ok (Some H, _) => h_verts H = [Vertex 0 [2] 1 (-1); Vertex 1 [0; 1] 2 (-1)] ∧
          h_nets H = [Net 0 [1] 1 1; Net 1 [1] 1 1; Net 2 [0] 1 1] ∧ h_nz H = 3
      | _ => False
      end
  | _ => False
  end.
Proof. vm_compute. done. Qed.
