(** Property theorems (generated by tools/gen_theorems.py from FinalKlfm.v: same
    statements, each closed by the lemma proved there). *)
From Verif Require Import FinalKlfm.

(** C12.  From the state set up by initialisation, every history of insertions, removals and
    queries with gains in range runs without undefined behaviour, and its answers are those of
    a set of (id, gain) pairs from which an element of maximal gain is reported; -1 (LONG_MIN
    for the gain) means empty. *)
Theorem C12_priority_structure : ∀ S items m ops w,
  0 ≤ S → (∀ id g, (id, g) ∈ items → -S ≤ g ≤ m) → -S ≤ m ≤ S → Forall (bop_ok S) ops →
  ∃ rs b w', (b <- init_buckets S items m ;; run_bops ops b) w = Ok ((rs, b), w') ∧
    pq_spec (list_to_set items) ops rs.
Proof. exact C12_priority_structure_proof. Qed.
Print Assumptions C12_priority_structure.

Example C12_example :
  (∀ id g, (id, g) ∈ C12_items → -3 ≤ g ≤ 1) ∧ Forall (bop_ok 3) C12_ops ∧
  match (b <- init_buckets 3 C12_items 1 ;; run_bops C12_ops b) w0 with
  | Ok ((rs, _), _) => rs = [8; 1; 8; 1; -2; 9; 1; 1; -1; long_min]
  | Err _ => False
  end.
Proof.
  split_and!.
  - assert (Forall (λ it : Z * Z, -3 ≤ it.2 ≤ 1) C12_items) as HF by (apply (bool_decide_eq_true_1 _); vm_compute; reflexivity).
    intros id g Hin. rewrite Forall_forall in HF. apply (HF _ Hin).
  - repeat constructor; simpl; lia.
  - vm_compute. reflexivity.
Qed.

(** C13.  After any history of moves and removals of distinct vertices (and any queries in
    between), starting from a bisection with part-sorted nets, nothing undefined has happened;
    exactly the moved vertices have changed part; the counts are exact; every vertex not yet
    moved or removed has its exact cut decrease recorded; and next / gain_next of a side report
    -1 exactly if the side has no such vertex, else one with the largest decrease. *)
Theorem C13_gains_exact : ∀ H C ops w,
  klfm_pre H → bisected H → part_sorted H → exact_counts H C → gops_ok H ops →
  ∃ G w', gs_run H C ops w = Ok (G, w') ∧
    same_shape H (g_H G) ∧ consistent (g_H G) ∧ exact_counts (g_H G) (g_C G) ∧ part_sorted (g_H G) ∧
    (∀ u, part_of (g_H G) u = if decide (u ∈ moved_by ops) then 1 - part_of H u else part_of H u) ∧
    (∀ i v, h_verts (g_H G) !! i = Some v → v_id v ∉ locked_by ops →
       g_gains G !! i = Some (cut_decrease (g_H G) v)) ∧
    ∀ p w2, p = 0 ∨ p = 1 →
      let free v := v ∈ h_verts (g_H G) ∧ v_part v = p ∧ v_id v ∉ locked_by ops in
      ∃ r G1 w3 g G2 w4, gs_next G p w2 = Ok ((r, G1), w3) ∧ gs_gain_next G p w2 = Ok ((g, G2), w4) ∧
        (r = -1 ↔ ∀ v, ¬ free v) ∧
        (r ≠ -1 → ∃ v, free v ∧ v_id v = r ∧ g = cut_decrease (g_H G) v ∧
          ∀ u, free u → cut_decrease (g_H G) u ≤ g).
Proof. exact C13_gains_exact_proof. Qed.
Print Assumptions C13_gains_exact.

Example C13_example : klfm_pre klH ∧ bisected klH ∧ part_sorted klH ∧ exact_counts klH klC ∧ gops_ok klH kl_ops ∧
  match gs_run klH klC kl_ops w0 with
  | Ok (G, _) => g_gains G = [4; long_min; long_min; -1 - 2; long_min]
  | Err _ => False end.
Proof.
  split_and!; [exact klH_pre|exact klH_bisected|exact klH_sorted|exact klC_exact| |vm_compute; reflexivity].
  split_and!.
  - apply (bool_decide_eq_true_1 _). vm_compute. reflexivity.
  - assert (Forall (λ u, u ∈ v_id <$> h_verts klH) (locked_by kl_ops)) as HF by (apply (bool_decide_eq_true_1 _); vm_compute; reflexivity).
    rewrite Forall_forall in HF. exact HF.
  - unfold kl_ops. repeat (apply Forall_cons; split; [by auto|]). by apply Forall_nil.
Qed.

(** C14.  A pass from a bisection with part-sorted nets, exact counts and exact weights
    terminates without undefined behaviour.  Only parts and orders inside nets change, counts
    and weights stay exact; the returned value is the cut of the result and not larger than
    before; no part ends above both its limit and its previous weight, so a balanced bisection
    stays balanced. *)
Theorem C14_klfm_pass : ∀ H C mx0 mx1 opts w,
  klfm_pre H → bisected H → part_sorted H → exact_counts H C →
  ∃ o w', klfm_pass H C (cut_net H) (pws H) (mx0, mx1) opts w = Ok (o, w') ∧
    same_shape H (ko_H o) ∧ consistent (ko_H o) ∧ bisected (ko_H o) ∧ part_sorted (ko_H o) ∧
    exact_counts (ko_H o) (ko_C o) ∧ ko_ws o = pws (ko_H o) ∧
    ko_cut o = cut_net (ko_H o) ∧ ko_cut o ≤ cut_net H ∧
    part_weight (ko_H o) 0 ≤ Z.max mx0 (part_weight H 0) ∧
    part_weight (ko_H o) 1 ≤ Z.max mx1 (part_weight H 1) ∧
    (part_weight H 0 ≤ mx0 → part_weight H 1 ≤ mx1 →
     part_weight (ko_H o) 0 ≤ mx0 ∧ part_weight (ko_H o) 1 ≤ mx1).
Proof. exact C14_klfm_pass_proof. Qed.
Print Assumptions C14_klfm_pass.

Example C14_example :
  klfm_pre klH ∧ bisected klH ∧ part_sorted klH ∧ exact_counts klH klC ∧ part_weight klH 0 ≤ 5 ∧ part_weight klH 1 ≤ 5 ∧
  match klfm_pass klH klC (cut_net klH) (pws klH) (5, 5) kl_opts w0 with
  | Ok (o, _) => (cut_net klH, ko_cut o, ko_ws o) = (7, 2, (3, 5)) | Err _ => False end.
Proof.
  split_and!; [exact klH_pre|exact klH_bisected|exact klH_sorted|exact klC_exact|..]; vm_compute; done.
Qed.

(** C15.  KLFM, called with the true cut or with LONG_MAX for "unknown", terminates without
    undefined behaviour; the returned value is the cut of the resulting bisection; no part ends
    above both its limit and its previous weight; from a balanced bisection the cut does not
    increase and the result is balanced. *)
Theorem C15_klfm : ∀ H C mx0 mx1 opts cut w,
  klfm_pre H → bisected H → exact_counts H C → cut = long_max ∨ cut = cut_net H →
  ∃ o w', klfm H C (pws H) (mx0, mx1) opts cut w = Ok (o, w') ∧
    same_shape H (ko_H o) ∧ consistent (ko_H o) ∧ bisected (ko_H o) ∧ exact_counts (ko_H o) (ko_C o) ∧
    ko_cut o = cut_net (ko_H o) ∧
    part_weight (ko_H o) 0 ≤ Z.max mx0 (part_weight H 0) ∧
    part_weight (ko_H o) 1 ≤ Z.max mx1 (part_weight H 1) ∧
    (part_weight H 0 ≤ mx0 → part_weight H 1 ≤ mx1 →
     ko_cut o ≤ cut_net H ∧ part_weight (ko_H o) 0 ≤ mx0 ∧ part_weight (ko_H o) 1 ≤ mx1).
Proof. exact C15_klfm_proof. Qed.
Print Assumptions C15_klfm.

Example C15_example :
  klfm_pre kl2H ∧ bisected kl2H ∧ exact_counts kl2H kl2C ∧ pws kl2H = (6, 2) ∧
  match klfm kl2H kl2C (pws kl2H) (5, 5) kl_opts long_max w0 with
  | Ok (o, _) => (cut_net kl2H, ko_cut o, ko_ws o) = (3, 2, (3, 5)) | Err _ => False end.
Proof.
  split_and!; [exact kl2H_pre|exact kl2H_bisected|..]; [unfold exact_counts; apply (bool_decide_eq_true_1 _)|..]; vm_compute; done.
Qed.

(** C16.  make_balanced on a bisection with part-sorted nets and exact counts and weights.
    [over] is the part it treats as overfull (1 if part 1 is above its limit, else 0), [other]
    the other one.  It terminates without undefined behaviour; the returned value is the cut of
    the result; vertices only move from [over] to [other]; [other] does not exceed its limit
    because of it; and if [over] is still above its limit, then no vertex left in it fits into
    [other]. *)
Theorem C16_make_balanced : ∀ H C mx0 mx1 w,
  klfm_pre H → bisected H → part_sorted H → exact_counts H C →
  let over := if decide (part_weight H 1 > mx1) then 1 else 0 in
  let other := 1 - over in
  let limit p := if decide (p = 0) then mx0 else mx1 in
  ∃ o w', make_balanced H C (cut_net H) (pws H) (mx0, mx1) w = Ok (o, w') ∧
    same_shape H (ko_H o) ∧ consistent (ko_H o) ∧ bisected (ko_H o) ∧ part_sorted (ko_H o) ∧
    exact_counts (ko_H o) (ko_C o) ∧ ko_ws o = pws (ko_H o) ∧ ko_cut o = cut_net (ko_H o) ∧
    (∀ u, part_of (ko_H o) u = part_of H u ∨ (part_of H u = over ∧ part_of (ko_H o) u = other)) ∧
    part_weight (ko_H o) other ≤ Z.max (limit other) (part_weight H other) ∧
    part_weight (ko_H o) over ≤ part_weight H over ∧
    (limit over < part_weight (ko_H o) over → ∀ v, v ∈ h_verts (ko_H o) → v_part v = over →
       limit other < part_weight (ko_H o) other + v_weight v).
Proof. exact C16_make_balanced_proof. Qed.
Print Assumptions C16_make_balanced.

Example C16_example :
  klfm_pre kl2H ∧ bisected kl2H ∧ part_sorted kl2H ∧ exact_counts kl2H kl2C ∧ pws kl2H = (6, 2) ∧
  match make_balanced kl2H kl2C (cut_net kl2H) (pws kl2H) (5, 3) w0 with
  | Ok (o, _) => (ko_cut o, ko_ws o) = (7, (5, 3)) | Err _ => False end.
Proof.
  split_and!; [exact kl2H_pre|exact kl2H_bisected|apply part_sorted_dec; vm_compute; reflexivity|..];
    [unfold exact_counts; apply (bool_decide_eq_true_1 _)|..]; vm_compute; done.
Qed.

Theorem C17_feasible_refuted : ∃ H C x0 x1,
  klfm_pre H ∧ bisected H ∧ part_sorted H ∧ exact_counts H C ∧
  ∀ w, ∃ G w', gs_run H C [] w = Ok (G, w') ∧
    (∃ u0, best_free G [] 0 u0) ∧ (∃ u1, best_free G [] 1 u1) ∧
    (∀ u0, best_free G [] 0 u0 → v_weight u0 ≤ x1) ∧
    (∀ u1, best_free G [] 1 u1 → x0 < v_weight u1) ∧
    ∀ w2, ∃ G2 w3, part_next G x0 x1 w2 = Ok ((1, G2), w3).
Proof. exact C17_feasible_refuted_proof. Qed.
Print Assumptions C17_feasible_refuted.

(** C17, what holds.  If some vertex is free, part_next returns a side that has a free vertex;
    if only one side has one, that side; otherwise, for a pair of best vertices of the two
    sides, a side of larger gain, where the gain counts only if the vertex is lighter than the
    room left in its own part.  Missing: that the room of the other part is compared
    (C17_feasible_refuted). *)
Theorem C17_part_next_partial : ∀ H C ops x0 x1 w,
  klfm_pre H → bisected H → part_sorted H → exact_counts H C → gops_ok H ops →
  ∃ G w', gs_run H C ops w = Ok (G, w') ∧
    ((∃ v, v ∈ h_verts (g_H G) ∧ v_id v ∉ locked_by ops) →
     ∀ w2, ∃ p G2 w3, part_next G x0 x1 w2 = Ok ((p, G2), w3) ∧
      (p = 0 ∨ p = 1) ∧ (∃ u, best_free G ops p u) ∧
      ∀ u0 u1, best_free G ops 0 u0 → best_free G ops 1 u1 →
        ∃ b0 b1, best_free G ops 0 b0 ∧ best_free G ops 1 b1 ∧
        let g0 := if decide (v_weight b0 < x0) then cut_decrease (g_H G) b0 else long_min in
        let g1 := if decide (v_weight b1 < x1) then cut_decrease (g_H G) b1 else long_min in
        (p = 0 ∧ g1 ≤ g0) ∨ (p = 1 ∧ g0 ≤ g1)).
Proof. exact C17_part_next_partial_proof. Qed.
Print Assumptions C17_part_next_partial.

Example C17_example : gops_ok klH kl_ops ∧
  match gs_run klH klC kl_ops w0 with
  | Ok (G, w) => ∃ v, v ∈ h_verts (g_H G) ∧ v_id v ∉ locked_by kl_ops | Err _ => False end.
Proof.
  destruct C13_example as (_ & _ & _ & _ & Hok & Hg). split; [exact Hok|].
  destruct (gs_run klH klC kl_ops w0) as [[G w]|] eqn:He; [|exact Hg]. clear Hg.
  assert (match gs_run klH klC kl_ops w0 with Ok (G, w) => existsb (λ v, bool_decide (v_id v ∉ locked_by kl_ops)) (h_verts (g_H G)) | Err _ => false end = true) as Hx by (vm_compute; reflexivity).
  rewrite He in Hx. apply existsb_exists in Hx as (v & Hv & Hb). apply bool_decide_eq_true_1 in Hb.
  exists v. split; [by apply elem_of_list_In|done].
Qed.
