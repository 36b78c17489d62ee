(** Property theorems (generated by tools/gen_theorems.py from FinalBisect.v: same
    statements, each closed by the lemma proved there). *)
From Verif Require Import FinalBisect.

(** C27, what holds.  With one processor multilevel bisection of a range ends normally for every
    random sequence, hash order, options and limits.  Every vertex of the range gets one of the two
    labels, nothing else changes, and the returned pair is the exact weight of the two sides.  The
    vertices must have positive weights (see C27_weightless_refuted), ids other than -1, net numbers
    within the number of nets, fewer than 2^31 nets, and a total weight that fits the type. *)
Theorem C27_multilevel_bisection_partial : ∀ bp H opts mx st en low high w,
  lawful_family bp → consistent H → nets_in_range H → no_sentinel H → (∀ v, v ∈ h_verts H → 0 < v_weight v) →
  Z.of_nat (length (h_nets H)) < 2147483648 → tot_weight H < long_max → 0 ≤ fst mx → 0 ≤ snd mx →
  0 ≤ st ≤ en → en ≤ Z.of_nat (length (h_verts H)) →
  ∃ side H' w',
    bisect_multilevel1 bp H opts mx st en (low, high) w = Ok ((H', (side_weight H st en side 0, side_weight H st en side 1)), w') ∧
    range_labelled H st en low high side H' ∧ consistent H'.
Proof. exact C27_multilevel_bisection_partial_proof. Qed.
Print Assumptions C27_multilevel_bisection_partial.

(** C27, refuted.  A weightless vertex without nets, as a matrix column without nonzeros gives with
    degree weights, keeps its old part: here -1, which is neither label. *)
Theorem C27_weightless_refuted : ∃ H opts mx H' ws w' v, klfm_pre H ∧ nets_in_range H ∧ tot_weight H ≤ fst mx ∧ tot_weight H ≤ snd mx ∧
  bisect_multilevel1 blocks H opts mx 0 3 (0, 1) w0 = Ok ((H', ws), w') ∧ vertex_at H' 2 = Some v ∧ v_part v = -1.
Proof. exact C27_weightless_refuted_proof. Qed.
Print Assumptions C27_weightless_refuted.

Example C27_example :
  lawful_family blocks ∧ consistent c27_G ∧ nets_in_range c27_G ∧ no_sentinel c27_G ∧ (∀ v, v ∈ h_verts c27_G → 0 < v_weight v) ∧
  Z.of_nat (length (h_nets c27_G)) < 2147483648 ∧ tot_weight c27_G < long_max ∧ (0 ≤ 1 ≤ 6) ∧ 6 ≤ Z.of_nat (length (h_verts c27_G)) ∧
  match bisect_multilevel1 blocks c27_G c27_opts (4, 4) 1 6 (0, 1) w0 with
  | Ok ((H', ws), _) => bool_decide (ws = (4, 3) ∧ v_part <$> h_verts H' = [-1; 0; 0; 1; 0; 0]) | Err _ => false end = true.
Proof.
  split; [apply blocks_lawful|]. split; [exact c27_G_cons|].
  split; [split; [done|]; apply Forall_forall, (bool_decide_eq_true_1 _); vm_compute; reflexivity|].
  split; [intros v; revert v; apply Forall_forall, (bool_decide_eq_true_1 _); vm_compute; reflexivity|].
  split; [intros v; revert v; apply Forall_forall, (bool_decide_eq_true_1 _); vm_compute; reflexivity|].
  split; [done|]. split; [reflexivity|]. split; [lia|]. split; [vm_compute; discriminate|]. vm_compute. reflexivity.
Qed.
