(** Property theorems (generated by tools/gen_theorems.py from FinalWriter.v: same
    statements, each closed by the lemma proved there). *)
From Verif Require Import FinalWriter.

(** C43 (values): when the labels are parts, start_parts gives every processor the same k+1 values,
    beginning with 0, whose steps are the numbers of nonzeros of the parts and whose last one is the
    number of nonzeros. *)
Theorem C43_start_parts_partial Hs (k : nat) w :
  (∀ v, v ∈ all_verts Hs → 0 ≤ v_part v < Z.of_nat k) →
  ∃ starts w', start_parts Hs (Z.of_nat k) w = Ok (replicate (length Hs) starts, w') ∧ kstart k Hs starts.
Proof. apply C43_start_parts_partial_proof. Qed.
Print Assumptions C43_start_parts_partial.

(** C43 is false for the code: with at least one part every processor writes past the end of the result. *)
Theorem C43_past_end_refuted Hs (k : nat) w :
  Hs ≠ [] → (1 ≤ k)%nat → (∀ v, v ∈ all_verts Hs → 0 ≤ v_part v < Z.of_nat k) →
  ∃ starts w', start_parts Hs (Z.of_nat k) w = Ok (starts, w') ∧
    w_log w' = w_log w ++ replicate (length Hs) PastEndWrite.
Proof. apply C43_past_end_refuted_proof. Qed.
Print Assumptions C43_past_end_refuted.

Example C43_example :
  (∀ v, v ∈ all_verts [ex_w0; ex_w1] → 0 ≤ v_part v < Z.of_nat 3) ∧
  start_parts [ex_w0; ex_w1] 3 w0 = Ok ([[0; 3; 3; 5]; [0; 3; 3; 5]], World (λ _, 0) [PastEndWrite; PastEndWrite]).
Proof.
  split; [|vm_compute; reflexivity]. intros v; revert v. apply Forall_forall. by_comp.
Qed.

(** C44: when the file can be opened, partitioning_to_file returns true and the file consists of the
    banner, the sizes, the starts of the parts and the nonzeros; every nonzero is there as often as in
    the hypergraph (once, in a well-formed one), and those of part i are the entries from the i-th start
    up to the next one. *)
Theorem C44_output_file opens Hs H0 (k : nat) w :
  (∀ n, opens n = true) → head Hs = Some H0 →
  (∀ v, v ∈ all_verts Hs → 0 ≤ v_part v < Z.of_nat k ∧ 0 ≤ v_id v ∧ ∀ n, n ∈ v_nets v → 0 ≤ n) →
  0 ≤ h_gnets H0 → 0 ≤ h_gsize H0 → 0 ≤ h_nz H0 →
  ∃ t w' starts entries, partitioning_to_file opens Hs (Z.of_nat k) w = Ok (Some t, w') ∧
    distributed_matrix_file t (h_gnets H0) (h_gsize H0) (h_nz H0) (Z.of_nat k) starts entries ∧
    kstart k Hs starts ∧
    entries ≡ₚ all_nonzeros Hs ∧
    (NoDup (v_id <$> all_verts Hs) → (∀ v, v ∈ all_verts Hs → NoDup (v_nets v)) → NoDup entries) ∧
    ∀ i, (i < k)%nat → ∃ before after,
      entries = before ++ part_nonzeros Hs (Z.of_nat i) ++ after ∧
      starts !! i = Some (Z.of_nat (length before)) ∧
      starts !! S i = Some (Z.of_nat (length before) + Z.of_nat (length (part_nonzeros Hs (Z.of_nat i)))).
Proof. apply C44_output_file_proof. Qed.
Print Assumptions C44_output_file.

Example C44_example :
  (∀ v, v ∈ all_verts [ex_w0; ex_w1] → 0 ≤ v_part v < Z.of_nat 3 ∧ 0 ≤ v_id v ∧ ∀ n, n ∈ v_nets v → 0 ≤ n) ∧
  distributed 2 [ex_w0; ex_w1] ∧
  partitioning_to_file (λ _, true) [ex_w0; ex_w1] 3 w0 = Ok (Some ex_written, World (λ _, 0) [PastEndWrite; PastEndWrite]).
Proof.
  split; [|split; [|vm_compute; reflexivity]].
  - intros v; revert v. apply Forall_forall. repeat constructor; cbn; try lia; intros n; revert n; apply Forall_forall; by_comp.
  - split.
    + intros H; revert H. apply Forall_forall. apply Forall_cons. split; [|apply Forall_cons; split; [|constructor]]; apply mk_hg_consistent_dec; vm_compute; reflexivity.
    + intros H; revert H. apply Forall_forall. by_comp.
    + by_comp.
    + intros n; revert n. apply Forall_forall. by_comp.
    + assert (Forall (λ n, Forall (λ n', n_id n = n_id n' → n_cost n = n_cost n') (all_nets [ex_w0; ex_w1])) (all_nets [ex_w0; ex_w1])) as HF by by_comp.
      intros n n' Hn Hn'. rewrite Forall_forall in HF. specialize (HF n Hn). rewrite Forall_forall in HF. by apply HF.
Qed.

(** C52 (one processor): when some opening of the file fails, false is returned. *)
Theorem C52_open_failure_partial opens H (k : nat) w :
  (∀ v, v ∈ h_verts H → 0 ≤ v_part v < Z.of_nat k) →
  (∃ n, (n ≤ k)%nat ∧ opens n = false) →
  ∃ w', partitioning_to_file opens [H] (Z.of_nat k) w = Ok (None, w').
Proof. apply C52_open_failure_partial_proof. Qed.
Print Assumptions C52_open_failure_partial.

(** C52 is false for the code with more processors: when the first opening fails, processor 0 returns
    while the others wait for it in the first sync. *)
Theorem C52_open_failure_refuted opens Hs (k : nat) w :
  (2 ≤ length Hs)%nat → (1 ≤ k)%nat → (∀ v, v ∈ all_verts Hs → 0 ≤ v_part v < Z.of_nat k) → opens 0%nat = false →
  partitioning_to_file opens Hs (Z.of_nat k) w = Err Abort.
Proof. apply C52_open_failure_refuted_proof. Qed.
Print Assumptions C52_open_failure_refuted.

Example C52_example :
  partitioning_to_file (λ n, bool_decide (n ≠ 2%nat)) [ex_w0] 3 w0 = Ok (None, World (λ _, 0) [PastEndWrite]) ∧
  partitioning_to_file (λ _, false) [ex_w0; ex_w1] 3 w0 = Err Abort.
Proof. split; vm_compute; reflexivity. Qed.

(** C45 (the file): whenever create_random_hypergraph ends, it has written a listing of an m by n
    matrix with exactly nz entries, which are in range and different; nothing else can happen but that it
    goes on forever. *)
Theorem C45_entries fuel n m nz w :
  0 < n ≤ max_sizes → 0 < m ≤ max_sizes → 0 ≤ nz →
  match create_random_hypergraph fuel true n m nz w with
  | Ok (o, _) => ∃ t entries, o = Some t ∧ listing t MGeneral m n nz entries ∧
      Z.of_nat (length entries) = nz ∧ NoDup entries ∧
      ∀ e, e ∈ entries → 1 ≤ fst e ≤ m ∧ 1 ≤ snd e ≤ n
  | Err e => e = Fuel
  end.
Proof. apply C45_entries_proof. Qed.
Print Assumptions C45_entries.

(** C45 (termination): whatever has been drawn so far, it can still end when nz <= n*m; rows and columns
    must be drawn with 32 bits. *)
Theorem C45_can_end_partial n m nz w (d : nat) :
  0 < n ≤ 4294967296 → 0 < m ≤ 4294967296 → nz ≤ n * m →
  ∃ fuel w', (∀ i, (i < d)%nat → w_tape w' i = w_tape w i) ∧
    ∃ t w'', create_random_hypergraph fuel true n m nz w' = Ok (Some t, w'').
Proof. apply C45_can_end_partial_proof. Qed.
Print Assumptions C45_can_end_partial.

(** C45 (no termination): with nz > n*m it never ends. *)
Theorem C45_never_ends fuel n m nz w :
  0 < n ≤ max_sizes → 0 < m ≤ max_sizes → n * m < nz →
  create_random_hypergraph fuel true n m nz w = Err Fuel.
Proof. apply C45_never_ends_proof. Qed.
Print Assumptions C45_never_ends.

(** C45 is false for the code with more than 2^32 rows: it never ends although nz <= n*m, since rows
    are drawn with 32 bits only. *)
Theorem C45_large_refuted : ∃ n m nz, 0 < n ≤ max_sizes ∧ 0 < m ≤ max_sizes ∧ nz ≤ n * m ∧
  ∀ fuel w, create_random_hypergraph fuel true n m nz w = Err Fuel.
Proof. exact C45_large_refuted_proof. Qed.
Print Assumptions C45_large_refuted.

Example C45_example : ∃ w', create_random_hypergraph 6 true 2 3 3 (tape_of [0; 1; 0; 1; 5; 4; 1; 7]) =
    Ok (Some (concat (with_newline <$> (chars <$> ["%%MatrixMarket matrix coordinate pattern general"; "3 2 3"; "1 2"; "3 1"; "2 2"]%string))), w').
Proof. eexists. vm_compute. reflexivity. Qed.

(** C51: a file that create_random_hypergraph wrote is read back as the hypergraph of the matrix with
    the entries in it: nz different nonzeros, n vertices, at most m nets. *)
Theorem C51_random_read_back fuel n m nz w t w' mode weight w1 :
  0 < n ≤ max_sizes → 0 < m ≤ max_sizes → 0 ≤ nz < two64 →
  (mode = ModeOne ∧ weight = weight_one) ∨ (mode = ModeDegree ∧ weight = weight_degree) →
  create_random_hypergraph fuel true n m nz w = Ok (Some t, w') →
  ∃ H w2 entries, read_hypergraph t mode w1 = Ok (Some H, w2) ∧
    row_net m n entries weight H ∧ h_nz H = nz ∧ consistent H ∧
    Z.of_nat (length entries) = nz ∧ NoDup entries.
Proof. apply C51_random_read_back_proof. Qed.
Print Assumptions C51_random_read_back.

Example C51_example :
  match create_random_hypergraph 6 true 2 3 3 (tape_of [0; 1; 0; 1; 5; 4; 1; 7]) with
  | Ok (Some t, _) =>
      match read_hypergraph t ModeDegree w0 with
      | Ok (Some H, _) => h_verts H = [Vertex 0 [2] 1 (-1); Vertex 1 [0; 1] 2 (-1)] ∧
          h_nets H = [Net 0 [1] 1 1; Net 1 [1] 1 1; Net 2 [0] 1 1] ∧ h_nz H = 3
      | _ => False
      end
  | _ => False
  end.
Proof. vm_compute. done. Qed.
