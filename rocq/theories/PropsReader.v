(** Property theorems (generated by tools/gen_theorems.py from FinalReader.v: same
    statements, each closed by the lemma proved there). *)
From Verif Require Import FinalReader.

(** C33: reading a valid listing gives the row-net hypergraph of the matrix, with unit weights or
    degrees as weights; it is well formed when no nonzero is repeated. *)
Theorem C33_reading t sy E V L entries mode weight w :
  listing t sy E V L entries → valid_listing sy E V L entries →
  (mode = ModeOne ∧ weight = weight_one) ∨ (mode = ModeDegree ∧ weight = weight_degree) →
  ∃ H w', read_hypergraph t mode w = Ok (Some H, w') ∧
    row_net E V (nonzeros sy entries) weight H ∧
    h_nz H = Z.of_nat (length (nonzeros sy entries)) ∧
    (NoDup (nonzeros sy entries) → consistent H).
Proof. apply C33_reading_proof. Qed.
Print Assumptions C33_reading.

Example C33_example :
  (listing ex_text MGeneral 3 4 5 ex_entries ∧ valid_listing MGeneral 3 4 5 ex_entries ∧ NoDup (nonzeros MGeneral ex_entries) ∧
   summary (read_hypergraph ex_text ModeDegree w0) =
     Some (4, 3, 5, [Vertex 0 [0] 1 (-1); Vertex 1 [2] 1 (-1); Vertex 2 [0] 1 (-1); Vertex 3 [2; 0] 2 (-1)],
           [Net 0 [0; 2; 3] 1 3; Net 2 [1; 3] 1 2])) ∧
  (listing ex_text_sym MSymmetric 3 3 3 ex_entries_sym ∧ valid_listing MSymmetric 3 3 3 ex_entries_sym ∧
   summary (read_hypergraph ex_text_sym ModeOne w0) =
     Some (3, 3, 5, [Vertex 0 [0; 1] 1 (-1); Vertex 1 [0; 2] 1 (-1); Vertex 2 [1] 1 (-1)],
           [Net 0 [0; 1] 1 2; Net 1 [0; 2] 1 2; Net 2 [1] 1 1])).
Proof.
  split; (split; [first [apply ex_listing|apply ex_listing_sym]|]); (split; [first [apply ex_valid|apply ex_valid_sym]|]).
  - split; [by_comp|]. vm_compute. reflexivity.
  - vm_compute. reflexivity.
Qed.

(** C34, what holds for every text: the reader returns nothing, or a hypergraph that is the row-net
    hypergraph of some list of entries that are all in range, or it ends in undefined behaviour or
    with an exception of std::vector.  Missing: that it never ends in undefined behaviour, which is
    false (below). *)
Theorem C34_outcome_partial t mode w :
  match read_hypergraph t mode w with
  | Ok (None, _) => True
  | Ok (Some H, _) => ∃ nzs weight,
      Forall (λ ev, 1 ≤ fst ev ≤ h_gnets H ∧ 1 ≤ snd ev ≤ h_gsize H) nzs ∧
      ((mode = ModeOne ∧ weight = weight_one) ∨ (mode = ModeDegree ∧ weight = weight_degree)) ∧
      row_net (h_gnets H) (h_gsize H) nzs weight H ∧ (NoDup nzs → consistent H)
  | Err e => e = UB ∨ e = Throw
  end.
Proof. apply C34_outcome_partial_proof. Qed.
Print Assumptions C34_outcome_partial.

(** a first line with fewer than five words, *)
Theorem C34_banner_partial l r mode w :
  at_most_words 4 l → newline ∉ l → read_hypergraph (with_newline l ++ r) mode w = Ok (None, w).
Proof. apply C34_banner_partial_proof. Qed.
Print Assumptions C34_banner_partial.

(** a symmetry other than general and symmetric, *)
Theorem C34_symmetry_partial sym banner comments sizes body E V L mode w :
  banner_line sym banner → sym ≠ symmetry_name MGeneral → sym ≠ symmetry_name MSymmetric →
  Forall comment_line comments → size_line E V L sizes →
  E ≤ 384307168202282325 → V ≤ 384307168202282325 → L < 18446744073709551616 →
  ∃ w', read_hypergraph (with_newline banner ++ concat (with_newline <$> comments) ++ with_newline sizes ++ body) mode w = Ok (None, w').
Proof. apply C34_symmetry_partial_proof. Qed.
Print Assumptions C34_symmetry_partial.

(** a line that does not begin with a number (a blank line, say) after correct entries, *)
Theorem C34_line_partial sy banner comments sizes E V L entries lines bad rest mode w :
  banner_line (symmetry_name sy) banner → Forall comment_line comments → size_line E V L sizes →
  Forall2 entry_line entries lines → valid_listing sy E V (Z.of_nat (length entries)) entries → L < 18446744073709551616 →
  no_number bad → Forall (λ l, newline ∉ l) rest →
  ∃ w', read_hypergraph (with_newline banner ++ concat (with_newline <$> comments) ++ with_newline sizes ++
                         concat (with_newline <$> lines ++ bad :: rest)) mode w = Ok (None, w').
Proof. apply C34_line_partial_proof. Qed.
Print Assumptions C34_line_partial.

(** and a weight mode other than one and degree. *)
Theorem C34_mode_partial t sy E V L entries w :
  listing t sy E V L entries → valid_listing sy E V L entries →
  ∃ w', read_hypergraph t ModeOther w = Ok (None, w').
Proof. apply C34_mode_partial_proof. Qed.
Print Assumptions C34_mode_partial.

(** C34 fails: whatever else the listing holds, an entry with an index 0 or beyond the announced size
    makes the reader write outside its arrays; *)
Theorem C34_out_of_range_refuted t E V L entries mode w :
  listing t MGeneral E V L entries → E ≤ 384307168202282325 → V ≤ 384307168202282325 → L < 18446744073709551616 →
  Forall (λ ev, fst ev < 18446744073709551616 ∧ snd ev < 18446744073709551616) entries →
  Exists (λ ev, ¬ (1 ≤ fst ev ≤ E ∧ 1 ≤ snd ev ≤ V)) entries →
  read_hypergraph t mode w = Err UB.
Proof. apply C34_out_of_range_refuted_proof. Qed.
Print Assumptions C34_out_of_range_refuted.

(** and a file in which only white space follows the banner makes it use variables that were never set. *)
Theorem C34_missing_sizes_refuted sym banner space mode w :
  banner_line sym banner → Forall whitespace space → read_hypergraph (with_newline banner ++ space) mode w = Err UB.
Proof. apply C34_missing_sizes_refuted_proof. Qed.
Print Assumptions C34_missing_sizes_refuted.

Example C34_example :
  (read_hypergraph ex_text ModeOther w0 = Ok (None, w0)) ∧
  (at_most_words 4 (chars " % matrix x general") ∧
   read_hypergraph (with_newline (chars " % matrix x general") ++ chars "1 1 0") ModeOne w0 = Ok (None, w0)) ∧
  (no_number [] ∧ no_number (chars " x1 2") ∧
   read_hypergraph (with_newline (ex_banner MGeneral) ++ with_newline (chars "2 2 2") ++ concat (with_newline <$> [chars "1 1"; []; chars "9 9"])) ModeOne w0
     = Ok (None, w0)) ∧
  (listing ex_bad_text MGeneral 2 2 2 [(1, 1); (3, 1)] ∧ read_hypergraph ex_bad_text ModeOne w0 = Err UB) ∧
  (banner_line (symmetry_name MGeneral) (ex_banner MGeneral) ∧ read_hypergraph (with_newline (ex_banner MGeneral)) ModeOne w0 = Err UB).
Proof.
  split; [vm_compute; reflexivity|]. split; [split; [|vm_compute; reflexivity]|split; [|split]].
  - right. exists (chars " "), (chars "%"), (chars " matrix x general"). split; [done|]. split; [by_comp|]. split; [by_comp|]. split; [right; eexists _, _; split; [done|by_comp]|].
    right. exists (chars " "), (chars "matrix"), (chars " x general"). split; [done|]. split; [by_comp|]. split; [by_comp|]. split; [right; eexists _, _; split; [done|by_comp]|].
    right. exists (chars " "), (chars "x"), (chars " general"). split; [done|]. split; [by_comp|]. split; [by_comp|]. split; [right; eexists _, _; split; [done|by_comp]|].
    right. exists (chars " "), (chars "general"), []. split; [done|]. split; [by_comp|]. split; [by_comp|]. split; [by left|]. left. constructor.
  - split; [split; [apply not_elem_of_nil|by left]|]. split; [|vm_compute; reflexivity].
    split; [by_comp|]. right. exists (chars " "), "x"%char, (chars "1 2"). split; [done|]. by_comp.
  - split; [|vm_compute; reflexivity].
    exists (ex_banner MGeneral), [], (chars "2 2 2"), [chars "1 1"; chars "3 1"], (concat (with_newline <$> [chars "1 1"; chars "3 1"])).
    split; [reflexivity|]. split; [apply ex_banner_ok|]. split; [done|]. split; [|split].
    + exists [], (chars "2"), (chars " "), (chars "2"), (chars " "), (chars "2"), [].
      split; [done|]. split; [by_comp|]. split; [by_comp|]. split; [by_comp|]. split; [by_comp|]. split; [by_comp|]. split; [by_comp|]. by left.
    + constructor; [|constructor; [|constructor]].
      * apply (ex_entry [] (chars "1") (chars " ") (chars "1") []); [vm_compute; reflexivity|by_tail].
      * apply (ex_entry [] (chars "3") (chars " ") (chars "1") []); [vm_compute; reflexivity|by_tail].
    + by left.
  - split; [apply ex_banner_ok|]. vm_compute. reflexivity.
Qed.

(** C35: on any number of processors, if no nonzero is repeated and there are fewer than 2^32 entries,
    every processor gets the vertices it owns, together all vertices once, each with the nets and the
    weight of sequential reading (the nets in any order); the pieces of a net together are the
    vertices of sequential reading.  Missing: listings with 2^32 entries or more (false, below) and
    listings that repeat an entry. *)
Theorem C35_distributed_reading_partial (bp : Z → Z → partitioning) (p : nat) t sy E V L entries mode w w1 :
  lawful_family bp → (0 < p)%nat → listing t sy E V L entries → valid_listing sy E V L entries →
  mode = ModeOne ∨ mode = ModeDegree → L < 4294967296 → NoDup (nonzeros sy entries) →
  ∃ H w1' Hs w', read_hypergraph t mode w1 = Ok (Some H, w1') ∧
    read_hypergraph_par bp t mode p w = Ok (Some Hs, w') ∧ length Hs = p ∧ distributed E Hs ∧
    (∀ Hl, Hl ∈ Hs → h_gsize Hl = h_gsize H ∧ h_gnets Hl = h_gnets H ∧ h_nz Hl = h_nz H) ∧
    v_id <$> all_verts Hs ≡ₚ v_id <$> h_verts H ∧
    (∀ (s : nat) Hl v, Hs !! s = Some Hl → v ∈ h_verts Hl → pa_owner (bp (Z.of_nat p) V) (v_id v) = Z.of_nat s ∧
       ∃ v0, v0 ∈ h_verts H ∧ v_id v = v_id v0 ∧ v_weight v = v_weight v0 ∧ v_part v = v_part v0 ∧ v_nets v ≡ₚ v_nets v0) ∧
    (∀ n0, n0 ∈ h_nets H → gverts Hs (n_id n0) ≡ₚ n_verts n0) ∧
    (∀ n, n ∈ all_nets Hs → ∃ n0, n0 ∈ h_nets H ∧ n_id n = n_id n0 ∧ n_cost n = n_cost n0 ∧ n_gsize n = n_gsize n0).
Proof. apply C35_distributed_reading_partial_proof. Qed.
Print Assumptions C35_distributed_reading_partial.

Example C35_example :
  listing ex_text MGeneral 3 4 5 ex_entries ∧ valid_listing MGeneral 3 4 5 ex_entries ∧ NoDup (nonzeros MGeneral ex_entries) ∧
  lawful_family blocks ∧
  summary_par (read_hypergraph_par blocks ex_text ModeDegree 2 w0) =
    Some [([Vertex 0 [0] 1 (-1); Vertex 1 [2] 1 (-1)], [Net 0 [0] 1 3; Net 2 [1] 1 2]);
          ([Vertex 2 [0] 1 (-1); Vertex 3 [2; 0] 2 (-1)], [Net 0 [2; 3] 1 3; Net 2 [3] 1 2])].
Proof.
  split; [apply ex_listing|]. split; [apply ex_valid|]. split; [by_comp|]. split; [apply blocks_lawful|]. vm_compute. reflexivity.
Qed.

(** C35 fails for listings with 2^32 entries or more: the 32 bit loop counter never reaches their
    number, so distributed reading returns no hypergraph, although sequential reading does. *)
Theorem C35_large_refuted (bp : Z → Z → partitioning) (p : nat) t sy E V L entries mode w w1 :
  (0 < p)%nat → listing t sy E V L entries → valid_listing sy E V L entries → 4294967296 ≤ L →
  mode = ModeOne ∨ mode = ModeDegree →
  (∃ H w1', read_hypergraph t mode w1 = Ok (Some H, w1')) ∧
  (∀ Hs w', read_hypergraph_par bp t mode p w ≠ Ok (Some Hs, w')).
Proof. apply C35_large_refuted_proof. Qed.
Print Assumptions C35_large_refuted.

Example C35_large_example : ∃ t entries,
  listing t MGeneral 1 1 4294967296 entries ∧ valid_listing MGeneral 1 1 4294967296 entries.
Proof.
  pose proof (big_listing (Z.to_nat 4294967296) (chars "4294967296")) as Hb. rewrite Z2Nat.id in Hb by lia.
  assert (numeral 4294967296 (chars "4294967296")) as Hs by by_comp.
  destruct (Hb Hs ltac:(lia)) as [H1 H2]. eexists _, _. split; [exact H1|exact H2].
Qed.
