(** Property theorems (generated by tools/gen_theorems.py from FinalPar.v: same
    statements, each closed by the lemma proved there). *)
From Verif Require Import FinalPar.

(** C36: the distributed cut is, on every processor and for every message order, the cut of the
    whole hypergraph under the parts of all processors. *)
Theorem C36_distributed_cut (bp : Z → Z → partitioning) gn Hs m w :
  lawful_family bp → distributed gn Hs → 0 ≤ gn → Hs ≠ [] →
  ∃ w', cutsize_par bp Hs m w =
    Ok (replicate (length Hs) (match m with
                               | CutNet => cut_net_size (whole_nets Hs gn) (gpart Hs)
                               | LambdaMinusOne => lambda_size (whole_nets Hs gn) (gpart Hs)
                               end), w').
Proof. apply C36_distributed_cut_proof. Qed.
Print Assumptions C36_distributed_cut.

Example C36_example : lawful_family blocks ∧ distributed 5 ps ∧
  fst <$> (match cutsize_par blocks ps LambdaMinusOne (tape_of [3; 1; 2; 0; 1]) with Ok r => Some r | _ => None end) = Some [4; 4; 4].
Proof. split; [apply blocks_lawful|]. split; [apply ps_distributed|]. vm_compute. reflexivity. Qed.

(** C37: every processor gets the global size of each of its nets (and nothing else changes), *)
Theorem C37_net_sizes (bp : Z → Z → partitioning) gn Hs w :
  lawful_family bp → distributed gn Hs → 0 ≤ gn → Hs ≠ [] →
  ∃ w', global_net_sizes bp Hs w =
    Ok ((λ H, (Hg (h_gsize H) (h_gnets H) (h_verts H)
                  ((λ n, Net (n_id n) (n_verts n) (n_cost n) (gsize Hs (n_id n))) <$> h_nets H)
                  (h_nz H) (h_vmap H) (h_nmap H) (h_dups H),
               (λ n, gsize Hs (n_id n)) <$> h_nets H)) <$> Hs, w').
Proof. apply C37_net_sizes_proof. Qed.
Print Assumptions C37_net_sizes.

(** and the global counts of both parts, once these sizes are recorded and all parts are 0 or 1. *)
Theorem C37_counts (bp : Z → Z → partitioning) gn Hs w :
  lawful_family bp → distributed gn Hs → 0 ≤ gn → Hs ≠ [] →
  (∀ v, v ∈ all_verts Hs → v_part v = 0 ∨ v_part v = 1) →
  (∀ n, n ∈ all_nets Hs → n_gsize n = gsize Hs (n_id n)) →
  ∃ w', init_counts_par bp Hs w =
    Ok ((λ H, (λ n, (gcount Hs (n_id n) 0, gcount Hs (n_id n) 1)) <$> h_nets H) <$> Hs, w').
Proof. apply C37_counts_proof. Qed.
Print Assumptions C37_counts.

Example C37_example : distributed 5 ps_sized ∧
  Forall (λ v, v_part v = 0 ∨ v_part v = 1) (all_verts ps_sized) ∧
  Forall (λ n, n_gsize n = gsize ps_sized (n_id n)) (all_nets ps_sized) ∧
  (match init_counts_par blocks ps_sized (tape_of [1; 2; 3]) with Ok r => Some (fst r) | _ => None end) =
    Some [[(1, 1); (2, 2); (0, 1)]; [(0, 2); (2, 2); (1, 1); (2, 0)]; [(2, 0); (2, 2)]].
Proof.
  split; [apply ps_sized_distributed|]. split; [apply (bool_decide_eq_true_1 _); vm_compute; reflexivity|].
  split; [apply (bool_decide_eq_true_1 _); vm_compute; reflexivity|]. vm_compute. reflexivity.
Qed.

(** C38: a net of at most [m] vertices disappears everywhere, a larger one stays wherever it has a
    vertex, nothing else changes; for [m <= 1] no cut changes, whatever the assignment. *)
Theorem C38_remove_free_nets (bp : Z → Z → partitioning) gn Hs m w :
  lawful_family bp → distributed gn Hs → 0 ≤ gn → Hs ≠ [] →
  ∃ Hs' w', remove_free_nets_par bp Hs m w = Ok (Hs', w') ∧
    length Hs' = length Hs ∧ distributed gn Hs' ∧
    (∀ t H H', Hs !! t = Some H → Hs' !! t = Some H' → small_nets_removed m Hs H H') ∧
    (∀ nid, gverts Hs' nid ≡ₚ if decide (m < gsize Hs nid) then gverts Hs nid else []) ∧
    (∀ σ, m ≤ 1 → cut_net_size (whole_nets Hs' gn) σ = cut_net_size (whole_nets Hs gn) σ ∧
                  lambda_size (whole_nets Hs' gn) σ = lambda_size (whole_nets Hs gn) σ).
Proof. apply C38_remove_free_nets_proof. Qed.
Print Assumptions C38_remove_free_nets.

Example C38_example : distributed 5 ps ∧
  (match remove_free_nets_par blocks ps 2 (tape_of [1; 2; 3]) with Ok r => Some ((λ H, (n_id <$> h_nets H, v_nets <$> h_verts H)) <$> fst r) | _ => None end) =
    Some [([2], [[2]; [2]]); ([2], [[2]; []]); ([2], [[2]; []])].
Proof. split; [apply ps_distributed|]. vm_compute. reflexivity. Qed.

(** C41: the same rank on every processor; its value is minimal, and it is the highest such rank. *)
Theorem C41_owner_min xs w : xs ≠ [] →
  ∃ (r : nat) x w', owner_min xs w = Ok (replicate (length xs) (Z.of_nat r), w') ∧ xs !! r = Some x ∧
    ∀ t y, xs !! t = Some y → x ≤ y ∧ (y = x → (t ≤ r)%nat).
Proof. apply C41_owner_min_proof. Qed.
Print Assumptions C41_owner_min.

Example C41_example : owner_min [4; 2; 7; 2] w0 = Ok ([3; 3; 3; 3], w0).
Proof. vm_compute. reflexivity. Qed.

(** C49: the reported imbalance is computed, in double arithmetic, from the exact weight of a
    heaviest part and the exact total weight, *)
Theorem C49_load_balance H k w :
  0 < k → (∀ v, v ∈ h_verts H → 0 ≤ v_part v < k) →
  ∃ q w', load_balance H k w =
      Ok (d_sub (d_div (d_of_Z (part_weight H q * k)) (d_of_Z (tot_weight H))) d_one, w') ∧
    0 ≤ q < k ∧ ∀ q', 0 ≤ q' < k → part_weight H q' ≤ part_weight H q.
Proof. apply C49_load_balance_proof. Qed.
Print Assumptions C49_load_balance.

(** and the distributed version computes it on every processor from the weights over all processors. *)
Theorem C49_load_balance_par Hs k w :
  0 < k → (∀ v, v ∈ all_verts Hs → 0 ≤ v_part v < k) →
  ∃ q w', load_balance_par Hs k w =
      Ok (replicate (length Hs) (d_sub (d_div (d_of_Z (gpart_weight Hs q * k)) (d_of_Z (gweight Hs))) d_one), w') ∧
    0 ≤ q < k ∧ ∀ q', 0 ≤ q' < k → gpart_weight Hs q' ≤ gpart_weight Hs q.
Proof. apply C49_load_balance_par_proof. Qed.
Print Assumptions C49_load_balance_par.

(** weights 7 and 4: 7*2/11 - 1 = 0.2727... *)
Example C49_example : Forall (λ v, 0 ≤ v_part v < 2) (all_verts ps) ∧ gpart_weight ps 0 = 7 ∧ gpart_weight ps 1 = 4 ∧
  load_balance_par ps 2 w0 = Ok (replicate 3 (d_sub (d_div (d_of_Z 14) (d_of_Z 11)) d_one), w0).
Proof.
  split; [apply (bool_decide_eq_true_1 _); vm_compute; reflexivity|]. split; [vm_compute; reflexivity|]. split; [vm_compute; reflexivity|].
  vm_compute. reflexivity.
Qed.
