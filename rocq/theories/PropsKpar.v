(** Property theorems (generated by tools/gen_theorems.py from FinalKpar.v: same
    statements, each closed by the lemma proved there). *)
From Verif Require Import FinalKpar.

(** C39, what holds: if no two proposals agree in both gain and position, then every processor computes
    the same weights and its entry of the same rejections, whatever the order of arrival.  If every
    processor alone stayed within the limits, the new weights are within the limits.  If moreover
    on every processor later moves do not have higher gains, or moves into the same part have the same
    weight, then the new weights are the old ones plus the changes of all moves that are not taken
    back.  Missing in general: see the two refutations below. *)
Theorem C39_rejection_partial mss (ws mx : Z * Z) : no_ties mss →
  ∃ (rejected : nat → Z) (ws' : Z * Z),
    (∀ s box w, (s < length mss)%nat → box ≡ₚ proposals mss →
       reject_unbalanced_moves (length mss) (Z.of_nat s) box ws mx w = Ok ((rejected s, ws'), w)) ∧
    (within ws mx → (∀ ms, ms ∈ mss → feasible ws mx ms) → within ws' mx) ∧
    ((∀ ms, ms ∈ mss → gains_fall ms ∨ same_weights ms) →
       let d := zsum (imap (λ s ms, total_change ms - total_change (undone (rejected s) ms)) mss) in
       ws' = (fst ws + d, snd ws - d)).
Proof. apply C39_rejection_partial_proof. Qed.
Print Assumptions C39_rejection_partial.

Example C39_example : no_ties c39_moves ∧ within (10, 20) (17, 25) ∧ Forall (feasible (10, 20) (17, 25)) c39_moves ∧
  Forall gains_fall c39_moves ∧
  (match reject_unbalanced_moves 3 0 (proposals c39_moves) (10, 20) (17, 25) w0 with Ok r => Some (fst r) | _ => None end) = Some (1, (17, 13)) ∧
  (match reject_unbalanced_moves 3 1 (reverse (proposals c39_moves)) (10, 20) (17, 25) w0 with Ok r => Some (fst r) | _ => None end) = Some (1, (17, 13)).
Proof.
  split; [apply (bool_decide_eq_true_1 _); vm_compute; reflexivity|]. split; [split; simpl; lia|].
  split.
  { repeat (apply Forall_cons; split; [intros [|[|[|[|k]]]]; split; vm_compute; congruence|]). constructor. }
  split.
  { repeat (apply Forall_cons; split; [intros [|[|[|i]]] [|[|[|j]]] a b Hij Hi Hj; simpl in Hi, Hj; try done; try lia;
      injection Hi as <-; injection Hj as <-; simpl; lia|]). constructor. }
  split; vm_compute; reflexivity.
Qed.

(** C39, what a processor does with its rejections, for any state of its data and any list of moves of
    different vertices it holds: told r, it moves exactly the vertices of its last |r| moves in the
    rejected direction back, all other vertices keep their part, and the list of moves is cleared at
    exactly those places.  If it has fewer such moves it runs off its list. *)
Theorem C39_taken_back_partial G Cl ms r w :
  consistent (g_H G) → bisected (g_H G) → part_sorted (g_H G) → exact_counts (g_H G) Cl →
  length (g_C G) = length (h_nets (g_H G)) →
  NoDup (km_v <$> ms) → (∀ m, m ∈ ms → ∃ v, v ∈ h_verts (g_H G) ∧ v_id v = km_v m) →
  if decide (Z.of_nat (length (filter (λ m, 0 < r * km_change m) ms)) < Z.abs r)
  then undo_moves G Cl ms r w = Err UB
  else ∃ u w', undo_moves G Cl ms r w = Ok (u, w') ∧
    same_shape (g_H G) (g_H (us_G u)) ∧
    us_moves u = (λ m, if decide (m ∈ undone r ms) then KMove (-1) 0 0 else m) <$> ms ∧
    ∀ v, v ∈ h_verts (g_H G) →
      part_of (g_H (us_G u)) (v_id v) = if decide (v_id v ∈ km_v <$> undone r ms) then 1 - v_part v else v_part v.
Proof. apply C39_taken_back_partial_proof. Qed.
Print Assumptions C39_taken_back_partial.

Example C39_taken_back_example : consistent c39_hg ∧ bisected c39_hg ∧ part_sorted c39_hg ∧ exact_counts c39_hg [(1, 3)] ∧
  match undo_moves (GS c39_hg [(1, 3)] (GB [] 0 0, GB [] 0 0) []) [(1, 3)] c39_made (-2) w0 with
  | Ok (u, _) => undone (-2) c39_made = [KMove 3 2 (-3); KMove 1 4 (-1)] ∧ part_of (g_H (us_G u)) <$> [0; 1; 2; 3] = [1; 0; 0; 0]
  | Err _ => False
  end.
Proof.
  split; [apply mk_hg_consistent_dec; vm_compute; reflexivity|].
  split; [intros v Hv; repeat (apply elem_of_cons in Hv as [->|Hv]; [simpl; lia|]); by apply elem_of_nil in Hv|].
  split.
  { intros n Hn. apply elem_of_list_singleton in Hn as ->. exists [2], [0; 1; 3]. split; [done|].
    split; intros u Hu; repeat (apply elem_of_cons in Hu as [->|Hu]; [vm_compute; reflexivity|]); by apply elem_of_nil in Hu. }
  split; [vm_compute; reflexivity|]. vm_compute. split; reflexivity.
Qed.

(** C39 does not hold when two proposals agree in gain and position: two processors that see the two
    proposals in different orders each count the move of the other as rejected, so nobody takes a move
    back and the limit of part 0 is exceeded although both believe to be within it. *)
Theorem C39_ties_refuted :
  ∃ mss ws mx box0 box1, within ws mx ∧ (∀ ms, ms ∈ mss → feasible ws mx ms) ∧
    box0 ≡ₚ proposals mss ∧ box1 ≡ₚ proposals mss ∧
    ∃ ws', within ws' mx ∧
      (∀ w, reject_unbalanced_moves 2 0 box0 ws mx w = Ok ((0, ws'), w)) ∧
      (∀ w, reject_unbalanced_moves 2 1 box1 ws mx w = Ok ((0, ws'), w)) ∧
      ¬ within (fst ws + zsum (total_change <$> mss), snd ws - zsum (total_change <$> mss)) mx.
Proof. exact C39_ties_refuted_proof. Qed.
Print Assumptions C39_ties_refuted.

Theorem C39_ties_run_refuted :
  ∃ Hs Cs (ws mx : Z * Z) opts w,
    distributed 2 Hs ∧ ws = (gpart_weight Hs 0, gpart_weight Hs 1) ∧ within ws mx ∧
    match klfm_par blocks Hs Cs ws mx opts long_max w with
    | Ok (rs, _) =>
        Forall (λ r : kin * Z, kn_ws (fst r) = (6, 2)) rs ∧ fst mx = 6 ∧
        gpart_weight ((λ r : kin * Z, kn_H (fst r)) <$> rs) 0 = 8
    | Err _ => False
    end.
Proof. exact C39_ties_run_refuted_proof. Qed.
Print Assumptions C39_ties_run_refuted.

Theorem C39_weights_refuted :
  (∃ mss ws mx, no_ties mss ∧ within ws mx ∧ (∀ ms, ms ∈ mss → feasible ws mx ms) ∧
     ∃ r0 r1 ws', (∀ box w, box ≡ₚ proposals mss → reject_unbalanced_moves 2 0 box ws mx w = Ok ((r0, ws'), w)) ∧
       (∀ box w, box ≡ₚ proposals mss → reject_unbalanced_moves 2 1 box ws mx w = Ok ((r1, ws'), w)) ∧
       let d := zsum (imap (λ s ms, total_change ms - total_change (undone (if decide (s = 0%nat) then r0 else r1) ms)) mss) in
       ¬ within (fst ws + d, snd ws - d) mx) ∧
  (∃ Hs Cs (ws mx : Z * Z) opts,
    distributed 3 Hs ∧ ws = (gpart_weight Hs 0, gpart_weight Hs 1) ∧ within ws mx ∧
    match klfm_par blocks Hs Cs ws mx opts long_max w0 with
    | Ok (rs, _) =>
        Forall (λ r : kin * Z, kn_ws (fst r) = (11, 3)) rs ∧ fst mx = 12 ∧
        gpart_weight ((λ r : kin * Z, kn_H (fst r)) <$> rs) 0 = 13
    | Err _ => False
    end).
Proof. exact C39_weights_refuted_proof. Qed.
Print Assumptions C39_weights_refuted.

(** C40: any number of rounds in which every processor moves any of its own vertices (any number of
    times) and then update_C is called, for any order of arrival of messages (part of the tape in [w])
    and any contents of the gain structures.  Afterwards a vertex has changed side as often as it was
    moved, every processor holds the exact counts over all processors for each of its nets, and the sum
    of the tracked cuts is the cut of the whole hypergraph (under both metrics, which agree on two
    parts).  update_C without updating of gains runs without error; with updating of gains an access of
    the arbitrary gain structure can fail, see C50 for the structures that occur. *)
Theorem C40_update_C (bp : Z → Z → partitioning) gn Hs (ug : bool) bs rounds w :
  lawful_family bp → 0 ≤ gn → distributed gn Hs → Hs ≠ [] →
  (∀ v, v ∈ all_verts Hs → v_part v = 0 ∨ v_part v = 1) →
  (∀ n, n ∈ all_nets Hs → n_gsize n = gsize Hs (n_id n)) →
  (∀ moves, moves ∈ rounds → legal_moves Hs moves) →
  match count_history bp ug Hs bs rounds w with
  | Ok (ks, _) =>
      let Hs' := kp_H <$> ks in
      Forall2 same_shape Hs Hs' ∧
      (∀ u, u ∈ v_id <$> all_verts Hs →
         gpart Hs' u = (gpart Hs u + zcount (λ x, x = u) (concat (concat rounds))) `mod` 2) ∧
      (∀ k, k ∈ ks → kp_C k = (λ n, (gcount Hs' (n_id n) 0, gcount Hs' (n_id n) 1)) <$> h_nets (kp_H k)) ∧
      zsum (kp_cut <$> ks) = cut_net_size (whole_nets Hs' gn) (gpart Hs') ∧
      zsum (kp_cut <$> ks) = lambda_size (whole_nets Hs' gn) (gpart Hs')
  | Err _ => ug = true
  end.
Proof. apply C40_update_C_proof. Qed.
Print Assumptions C40_update_C.

Example C40_example : Forall (legal_moves ps_sized) two_rounds ∧
  match count_history blocks false ps_sized no_gains two_rounds (tape_of [1; 2; 3; 0; 4]) with
  | Ok (ks, _) => (λ k, (v_part <$> h_verts (kp_H k), kp_C k, kp_cut k)) <$> ks =
      [([0; 1], [(2, 0); (2, 2); (0, 1)], 0); ([0; 0], [(2, 0); (2, 2); (2, 0); (1, 1)], 10); ([1; 0], [(1, 1); (2, 2)], 0)]
  | Err _ => False
  end.
Proof.
  split; [|vm_compute; reflexivity].
  assert (∀ moves, moves ∈ two_rounds → length moves = 3%nat ∧
     Forall2 (λ H vs, Forall (λ u, u ∈ v_id <$> h_verts H) vs) ps_sized moves) as Hall.
  { intros moves Hm. repeat (apply elem_of_cons in Hm as [->|Hm]; [split; [reflexivity|apply (bool_decide_eq_true_1 _); vm_compute; reflexivity]|]).
    by apply elem_of_nil in Hm. }
  apply Forall_forall. intros moves Hm. destruct (Hall moves Hm) as [Hl HF]. split; [exact Hl|].
  intros t H vs u HH Hvs Hu. revert Hu.
  pose proof (Forall2_lookup_lr _ _ _ _ _ _ HF HH Hvs) as HF'. rewrite Forall_forall in HF'. apply HF'.
Qed.
