(** Property theorems (generated by tools/gen_theorems.py from FinalRoomPar.v: same
    statements, each closed by the lemma proved there). *)
From Verif Require Import FinalRoomPar.

(** C69, what holds for random bisection into two parts on several processors.  Every processor gets the same share of the limits.  If the vertices of every single processor
    fit into its shares, then every run returns, and both parts are within the limit. *)
Theorem C69_random_two_parts_partial : ∀ bp gn Hs eps eta opts b M w, lawful_family bp → spread_pre gn Hs →
  (2 ≤ length Hs)%nat → Z.of_nat (length Hs) ≤ 2 ^ 50 → all_verts Hs ≠ [] →
  part_limit (gweight Hs) 2 eps = Some M → 4 ≤ M → M * 2 ≤ 2 ^ 50 → o_bisection opts = BisRandom → (∀ v, v ∈ all_verts Hs → v_weight v ≤ b) →
  (∀ H, H ∈ Hs → tot_weight H + b ≤ 2 * ((M - 4) / Z.of_nat (length Hs))) →
  ∃ Hs' w', recursive_bisect_par bp Hs 2 eps eta opts w = Ok (Hs', w') ∧ rearranged gn Hs Hs' ∧ (∀ v, v ∈ all_verts Hs' → 0 ≤ v_part v < 2) ∧
    ∀ q, 0 ≤ q < 2 → gpart_weight Hs' q ≤ M.
Proof. exact C69_random_two_parts_partial_proof. Qed.
Print Assumptions C69_random_two_parts_partial.

(** a hundred vertices on two processors: at most 56 of them may be in a part *)
Example C69_pair_example : lawful_family blocks ∧ spread_pre 0 c69_pair ∧ length c69_pair = 2%nat ∧ all_verts c69_pair ≠ [] ∧
  part_limit (gweight c69_pair) 2 c69_eighth = Some 56 ∧ (∀ v, v ∈ all_verts c69_pair → v_weight v ≤ 1) ∧
  (∀ H, H ∈ c69_pair → tot_weight H + 1 ≤ 2 * ((56 - 4) / 2)) ∧
  match recursive_bisect_par blocks c69_pair 2 c69_eighth c29_eps (Opts 5000 50 25 200 128 25 200 20 LambdaMinusOne BisRandom SampRandom) w0 with
  | Ok (Hs', _) => gpart_weight Hs' 0 = 56 ∧ gpart_weight Hs' 1 = 44 | Err _ => False end.
Proof.
  split; [apply blocks_lawful|]. split; [dec_spread|]. split; [done|]. split; [done|]. split; [vm_compute; reflexivity|].
  split; [apply Forall_forall, (bool_decide_eq_true_1 _); vm_compute; reflexivity|].
  split; [apply Forall_forall, (bool_decide_eq_true_1 _); vm_compute; reflexivity|]. vm_compute. split; reflexivity.
Qed.
