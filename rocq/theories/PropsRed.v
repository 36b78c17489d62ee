(** Property theorems (generated by tools/gen_theorems.py from FinalRed.v: same
    statements, each closed by the lemma proved there). *)
From Verif Require Import FinalRed.

(** C42: whatever the labels, limits and the order of arrival, the redistribution ends without an error;
    every vertex, with its id, weight, part and nets, is on exactly one processor afterwards, the local
    hypergraphs are consistent, nets keep their costs, the recorded numbers of vertices and nonzeros are unchanged, and a
    processor whose group has enough room in total keeps of its own vertices with a label no more than its
    limit (0 for the label of the other group).  If group 0 has no processors, its vertices stay where they
    are. *)
Theorem C42_redistribute gn (Hs : list hg) (sh : list share) low high p_low w :
  distributed gn Hs → (∀ v, v ∈ all_verts Hs → 0 ≤ v_weight v) → low ≠ high → proper_shares Hs sh low high →
  ∃ res w', redistribute Hs sh low high p_low w = Ok (res, w') ∧ length res = length Hs ∧
    distributed gn res.*1 ∧ all_verts res.*1 ≡ₚ all_verts Hs ∧
    (∀ n, n ∈ all_nets res.*1 → n_cost n = gcost Hs (n_id n)) ∧
    ∀ s H a r, Hs !! s = Some H → sh !! s = Some a → res !! s = Some r → h_gsize (fst r) = h_gsize H ∧ h_nz (fst r) = h_nz H ∧
      (p_low > 0 → room_for 0 low Hs sh → kept_weight low H (fst r) ≤ limit_for 0 a) ∧
      (room_for 1 high Hs sh → kept_weight high H (fst r) ≤ limit_for 1 a).
Proof. apply C42_redistribute_proof. Qed.
Print Assumptions C42_redistribute.

(** C53, what holds: if all weights are positive and a group has enough room in total for its label, then
    no vertex with that label is left on a processor of the other group.  If group 0 has no processors,
    its vertices are exactly those from the returned position on; otherwise the returned position is the
    number of vertices. Missing: weights 0, the limits of the receivers and the sizes of nets, see the refutations below. *)
Theorem C53_separation_partial gn (Hs : list hg) (sh : list share) low high p_low w :
  distributed gn Hs → (∀ v, v ∈ all_verts Hs → 0 < v_weight v) → low ≠ high → proper_shares Hs sh low high →
  ∃ res w', redistribute Hs sh low high p_low w = Ok (res, w') ∧
    ∀ s a r, sh !! s = Some a → res !! s = Some r →
      (sh_part a = 0 → room_for 1 high Hs sh → ∀ v, v ∈ h_verts (fst r) → v_part v ≠ high) ∧
      (sh_part a = 1 → p_low > 0 → room_for 0 low Hs sh → ∀ v, v ∈ h_verts (fst r) → v_part v ≠ low) ∧
      (p_low > 0 → snd r = Z.of_nat (length (h_verts (fst r)))) ∧
      (p_low ≤ 0 → 0 ≤ snd r ≤ Z.of_nat (length (h_verts (fst r))) ∧
         ∀ i v, h_verts (fst r) !! i = Some v → (v_part v = low ↔ snd r ≤ Z.of_nat i)).
Proof. apply C53_separation_partial_proof. Qed.
Print Assumptions C53_separation_partial.

Example C42_example : distributed 3 red_hs ∧ (∀ v, v ∈ all_verts red_hs → 0 < v_weight v) ∧ proper_shares red_hs red_sh 0 1 ∧
  room_for 0 0 red_hs red_sh ∧ room_for 1 1 red_hs red_sh ∧
  match redistribute red_hs red_sh 0 1 1 w0 with
  | Ok (res, _) => ids_out <$> res = [([0; 3; 5], 3); ([4; 1; 2], 3); ([6], 1)] | Err _ => False end.
Proof.
  split; [dec_distributed|]. split; [refine (proj1 (Forall_forall _ _) _); apply (bool_decide_eq_true_1 _); vm_compute; reflexivity|].
  split; [dec_shares|]. split; [vm_compute; congruence|]. split; [vm_compute; congruence|]. vm_compute. reflexivity.
Qed.

Example C53_example : proper_shares red_hs red_sh1 0 1 ∧ room_for 1 1 red_hs red_sh1 ∧
  match redistribute red_hs red_sh1 0 1 0 w0 with
  | Ok (res, _) => ids_out <$> res = [([2; 0], 1); ([4; 1; 3], 2); ([6; 5], 1)] | Err _ => False end.
Proof. split; [dec_shares|]. split; [vm_compute; congruence|]. vm_compute. reflexivity. Qed.

(** C53 does not hold for vertices of weight 0: they stay on the processors of the other group. *)
Theorem C53_weight_zero_refuted :
  ∃ gn (Hs : list hg) (sh : list share) low high p_low, distributed gn Hs ∧ (∀ v, v ∈ all_verts Hs → 0 ≤ v_weight v) ∧ low ≠ high ∧
    proper_shares Hs sh low high ∧ p_low > 0 ∧ room_for 0 low Hs sh ∧ room_for 1 high Hs sh ∧
    ∀ w, ∃ res w' a r v, redistribute Hs sh low high p_low w = Ok (res, w') ∧
      sh !! 0%nat = Some a ∧ res !! 0%nat = Some r ∧ sh_part a = 0 ∧ v ∈ h_verts (fst r) ∧ v_part v = high.
Proof. exact C53_weight_zero_refuted_proof. Qed.
Print Assumptions C53_weight_zero_refuted.

(** C53 does not hold for the limits: a processor that receives vertices may exceed its limit although
    the limits are enough in total.  The vertex of weight 2 goes to a processor with room for 1. *)
Theorem C53_limit_refuted :
  ∃ gn (Hs : list hg) (sh : list share) low high p_low, distributed gn Hs ∧ (∀ v, v ∈ all_verts Hs → 0 < v_weight v) ∧ low ≠ high ∧
    proper_shares Hs sh low high ∧ p_low > 0 ∧ room_for 0 low Hs sh ∧ room_for 1 high Hs sh ∧
    ∃ w res w' a r, redistribute Hs sh low high p_low w = Ok (res, w') ∧
      sh !! 1%nat = Some a ∧ res !! 1%nat = Some r ∧ sh_part a = 1 ∧ part_weight (fst r) high > sh_max a.
Proof. exact C53_limit_refuted_proof. Qed.
Print Assumptions C53_limit_refuted.

(** C53 does not hold for the nets: a net that is new on the receiving processor is recorded there
    with global size 0, whatever its size. *)
Theorem C53_net_size_refuted :
  ∃ gn (Hs : list hg) (sh : list share) low high p_low, distributed gn Hs ∧ (∀ v, v ∈ all_verts Hs → 0 < v_weight v) ∧ low ≠ high ∧
    proper_shares Hs sh low high ∧ p_low > 0 ∧ room_for 0 low Hs sh ∧ room_for 1 high Hs sh ∧
    (∀ n, n ∈ all_nets Hs → n_gsize n = gsize Hs (n_id n)) ∧
    ∃ w res w' n, redistribute Hs sh low high p_low w = Ok (res, w') ∧
      n ∈ all_nets res.*1 ∧ n_gsize n ≠ gsize res.*1 (n_id n).
Proof. exact C53_net_size_refuted_proof. Qed.
Print Assumptions C53_net_size_refuted.
