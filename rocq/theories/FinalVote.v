(** C73: label propagation follows the votes of the neighbours. *)
From Verif Require Export VoteProof FinalLabel.
Local Open Scope list_scope.
Local Open Scope Z_scope.

(** C73.  From some labels L0 in [0,l), label_propagation makes at most max_iter sweeps over all
    vertices.  At each visit a vertex of a group of more than min_size vertices takes a label for
    which its neighbours have the most votes at that moment, any other vertex keeps its label.
    If it stops before max_iter sweeps, no vertex has to change: each is in a small group or
    already has such a label. *)
Lemma C73_label_propagation_proof : ∀ H l max_iter min_size w, consistent H → 0 < l →
  ∃ L w' L0 n, label_propagation H l max_iter min_size w = Ok (L, w') ∧
    length L0 = length (h_verts H) ∧ Forall (λ j, 0 ≤ j < l) L0 ∧
    sweeps (lp_visit H l min_size) (length (h_verts H)) n L0 L ∧ (n ≤ Z.to_nat max_iter)%nat ∧
    ((n < Z.to_nat max_iter)%nat → settled (lp_visit H l min_size) (length (h_verts H)) L).
Proof.
  intros H l max_iter min_size w HC Hl.
  assert (wp (label_propagation H l max_iter min_size) (λ L, ∃ L0 n, length L0 = length (h_verts H) ∧ Forall (λ j, 0 ≤ j < l) L0 ∧
    sweeps (lp_visit H l min_size) (length (h_verts H)) n L0 L ∧ (n ≤ Z.to_nat max_iter)%nat ∧
    ((n < Z.to_nat max_iter)%nat → settled (lp_visit H l min_size) (length (h_verts H)) L))) as Hw.
  { apply wpe_label_propagation_votes; [done|done|]. intros L0 L n H1 H2 H3 H4 H5. exists L0, n. split_and!; done. }
  apply wp_run with (w := w) in Hw as (L & w' & Heq & L0 & n & Hrest). exists L, w', L0, n. split; [done|exact Hrest].
Qed.

(** C73.  label_propagation_bisect does the same with the labels 0 and 1, but a vertex changes its
    label only if the weight of the part it moves to stays within the limit of that part. *)
Lemma C73_bisection_proof : ∀ H max_iter mx w, consistent H → (∀ v, v ∈ h_verts H → 0 ≤ v_weight v) →
  ∃ L C w' L0 n, label_propagation_bisect H (replicate (length (h_nets H)) (0, 0)) max_iter mx w = Ok ((L, C), w') ∧
    length L0 = length (h_verts H) ∧ Forall (λ j, j = 0 ∨ j = 1) L0 ∧
    sweeps (lpb_visit H mx) (length (h_verts H)) n L0 L ∧ (n ≤ Z.to_nat max_iter)%nat ∧
    ((n < Z.to_nat max_iter)%nat → settled (lpb_visit H mx) (length (h_verts H)) L).
Proof.
  intros H max_iter mx w HC Hwt.
  assert (wp (label_propagation_bisect H (replicate (length (h_nets H)) (0, 0)) max_iter mx) (λ r, ∃ L0 n, length L0 = length (h_verts H) ∧ Forall (λ j, j = 0 ∨ j = 1) L0 ∧
    sweeps (lpb_visit H mx) (length (h_verts H)) n L0 (fst r) ∧ (n ≤ Z.to_nat max_iter)%nat ∧
    ((n < Z.to_nat max_iter)%nat → settled (lpb_visit H mx) (length (h_verts H)) (fst r)))) as Hw.
  { apply wpe_label_propagation_bisect_votes; [done|done|]. intros L0 L C n H1 H2 H3 H4 H5. exists L0, n. split_and!; done. }
  apply wp_run with (w := w) in Hw as ([L C] & w' & Heq & L0 & n & Hrest). exists L, C, w', L0, n. split; [done|exact Hrest].
Qed.

(** votes on a hypergraph with five vertices: the votes differ between the labels, and both programs change labels *)
Example C73_example : consistent klH ∧ (∀ v, v ∈ h_verts klH → 0 ≤ v_weight v) ∧
  match h_verts klH !! 0%nat with Some v => (λ q, neighbour_votes klH [0; 1; 2; 1; 2] v q) <$> [0; 1; 2] | None => [] end ≠ [0; 0; 0] ∧
  match label_propagation_bisect klH (replicate 5 (0, 0)) 0 (6, 6) (tape_of [0; 1; 1; 0; 1; 3; 1; 2; 7]) with
  | Ok ((L, _), _) => L ≠ [1; 1; 0; 0; 0] | Err _ => False end ∧
  match label_propagation_bisect klH (replicate 5 (0, 0)) 4 (6, 6) (tape_of [0; 1; 1; 0; 1; 3; 1; 2; 7]) with
  | Ok ((L, _), _) => L = [1; 1; 0; 0; 0] | Err _ => False end.
Proof.
  split; [exact (kp_cons _ klH_pre)|]. split; [exact (kp_weight _ klH_pre)|].
  split; [vm_compute; discriminate|]. split; [vm_compute; discriminate|]. vm_compute. reflexivity.
Qed.
