(** Property theorems (generated by tools/gen_theorems.py from FinalCutPar.v: same
    statements, each closed by the lemma proved there). *)
From Verif Require Import FinalCutPar.

(** C64, what holds.  [groups]: the processors of the world in the groups they work in, each with the nets it has already set
    aside.  If only the first group has several processors and no processor has a piece of a net without vertices, the call ends
    on all processors for every order of arrival.  Exactly the nets [taken_out] says are taken from every processor and kept there,
    with vertices and cost; nothing else changes.  Every net that has vertices in two parts inside one group is among them.
    Missing: other nets than cut nets are taken out as well (C64_uncut_refuted), and the undefined runs (C64_groups_refuted,
    C64_bare_piece_refuted). *)
Theorem C64_set_aside_partial : ∀ bp gn groups w, lawful_family bp →
  (∀ g, g ∈ groups → g ≠ [] ∧ distributed gn (fst <$> g) ∧ no_bare (fst <$> g) ∧ ∀ v, v ∈ all_verts (fst <$> g) → 0 ≤ v_id v) → one_by_one groups →
  ∃ gs' w' R, remove_cut_nets_par bp groups w = Ok (gs', w') ∧ Forall2 (Forall2 (nets_taken R)) groups gs' ∧
    (∀ i, i ∈ R ↔ ∃ g, g ∈ groups ∧ taken_out (fst <$> g) i) ∧
    (∀ g i u v, g ∈ groups → u ∈ gverts (fst <$> g) i → v ∈ gverts (fst <$> g) i → gpart (fst <$> g) u ≠ gpart (fst <$> g) v → i ∈ R).
Proof. exact C64_set_aside_partial_proof. Qed.
Print Assumptions C64_set_aside_partial.

(** C64, refuted: the parts are not compared.  Whatever they are, in every run that ends, every net with two or more vertices
    inside a group is taken from all processors. *)
Theorem C64_uncut_refuted : ∀ bp gn groups w gs' w' i, lawful_family bp →
  (∀ g, g ∈ groups → g ≠ [] ∧ distributed gn (fst <$> g) ∧ ∀ v, v ∈ all_verts (fst <$> g) → 0 ≤ v_id v) →
  remove_cut_nets_par bp groups w = Ok (gs', w') → (∃ g, g ∈ groups ∧ (2 ≤ length (gverts (fst <$> g) i))%nat) →
  ∀ P, P ∈ concat gs' → i ∉ n_id <$> h_nets (fst P).
Proof. exact C64_uncut_refuted_proof. Qed.
Print Assumptions C64_uncut_refuted.

(** C64, refuted: if any processor has a piece of a net without vertices, the behaviour is undefined, for every order of arrival. *)
Theorem C64_bare_piece_refuted : ∀ bp gn groups w g n, lawful_family bp →
  (∀ g, g ∈ groups → g ≠ [] ∧ distributed gn (fst <$> g) ∧ ∀ v, v ∈ all_verts (fst <$> g) → 0 ≤ v_id v) →
  g ∈ groups → n ∈ all_nets (fst <$> g) → n_verts n = [] → remove_cut_nets_par bp groups w = Err UB.
Proof. exact C64_bare_piece_refuted_proof. Qed.
Print Assumptions C64_bare_piece_refuted.

(** C64, refuted: with two groups of two processors, consistent hypergraphs and no piece without vertices, the behaviour is undefined:
    the second group looks up its numbers of nets with the ranks in the world. *)
Theorem C64_groups_refuted : ∃ groups, (∀ g, g ∈ groups → length g = 2%nat ∧ distributed 4 (fst <$> g) ∧ no_bare (fst <$> g) ∧ ∀ v, v ∈ all_verts (fst <$> g) → 0 ≤ v_id v) ∧
  distributed 4 (fst <$> concat groups) ∧ remove_cut_nets_par blocks groups w0 = Err UB.
Proof. exact C64_groups_refuted_proof. Qed.
Print Assumptions C64_groups_refuted.

Example C64_example : lawful_family blocks ∧
  (∀ g, g ∈ cp3_groups → g ≠ [] ∧ distributed 5 (fst <$> g) ∧ no_bare (fst <$> g) ∧ ∀ v, v ∈ all_verts (fst <$> g) → 0 ≤ v_id v) ∧ one_by_one cp3_groups ∧
  match remove_cut_nets_par blocks cp3_groups w0 with
  | Ok (gs', _) => bool_decide (((λ P : hg * list net, (n_id <$> h_nets (fst P), (v_nets <$> h_verts (fst P), snd P))) <$> concat gs') =
      [([2], ([[2]; []], [Net 1 [1] 2 0; Net 0 [0] 3 0])); ([], ([[]], [Net 1 [2] 2 0; Net 0 [2] 3 0])); ([3], ([[3]; []], [Net 4 [3; 4] 7 0]))])
  | Err _ => false end = true.
Proof.
  split; [apply blocks_lawful|]. split; [|split].
  - intros g [->|[->|[]%elem_of_nil]%elem_of_cons]%elem_of_cons; (split; [done|]; split; [dec_distributed|]; split;
      [intros n; revert n|intros v; revert v]; apply Forall_forall, (bool_decide_eq_true_1 _); vm_compute; reflexivity).
  - intros [|t] g Hg; [by injection Hg as <-|done].
  - vm_compute. reflexivity.
Qed.

(** net 4 of the last processor has both vertices in the same part and is taken out *)
Example C64_uncut_example : gpart (drop 2 cp3) 3 = gpart (drop 2 cp3) 4 ∧ gverts (drop 2 cp3) 4 = [3; 4].
Proof. split; vm_compute; reflexivity. Qed.

(** C65, what holds.  After nets have been set aside and vertices have been moved between processors, putting the nets back ends
    on all processors for every order of arrival.  Every net has exactly the vertices it had and its cost, over all processors; every processor's
    pieces are of vertices it has; vertices keep id, weight and part and stay where they are; a vertex lists the nets it did, and those that another processor
    set aside for it.  Missing: the nets that the vertex's own processor set aside (C65_unlisted_refuted). *)
Theorem C65_put_back_partial : ∀ gn Hs R ps ps2 w, distributed gn Hs → Forall2 (nets_taken R) (with_none Hs) ps →
  rearranged gn (fst <$> ps) (fst <$> ps2) → snd <$> ps2 = snd <$> ps →
  ∃ Hs' w', add_cut_nets_par ps2 w = Ok (Hs', w') ∧ nets_back ps2 Hs' ∧ (∀ i, gverts Hs' i ≡ₚ gverts Hs i) ∧
    (∀ n', n' ∈ all_nets Hs' → ∃ n, n ∈ all_nets Hs ∧ n_id n = n_id n' ∧ n_cost n = n_cost n').
Proof. exact C65_put_back_partial_proof. Qed.
Print Assumptions C65_put_back_partial.

(** C65, refuted for the nets the vertices list: if no vertex has been moved, afterwards no vertex lists any of the nets
    that had been set aside, although these nets have their vertices again. *)
Theorem C65_unlisted_refuted : ∀ gn Hs R ps w Hs' w', distributed gn Hs → Forall2 (nets_taken R) (with_none Hs) ps →
  add_cut_nets_par ps w = Ok (Hs', w') → ∀ i v, i ∈ R → v ∈ all_verts Hs' → i ∉ v_nets v.
Proof. exact C65_unlisted_refuted_proof. Qed.
Print Assumptions C65_unlisted_refuted.

Example C65_example : distributed 5 cp3 ∧ Forall2 (nets_taken [0; 1; 4]) (with_none cp3) cp3_ps ∧ rearranged 5 (fst <$> cp3_ps) (fst <$> cp3_moved) ∧ snd <$> cp3_moved = snd <$> cp3_ps ∧
  match add_cut_nets_par cp3_moved w0 with
  | Ok (Hs', _) => bool_decide (((λ H, ((λ v, (v_id v, v_nets v)) <$> h_verts H, net_data <$> h_nets H)) <$> Hs') =
      [([(0, [2]); (4, [4])], [(2, [0], 1); (1, [], 2); (0, [0], 3); (4, [4], 7)]); ([(2, []); (1, [1])], [(1, [2; 1], 2); (0, [2], 3)]); ([(3, [3])], [(3, [3], 1); (4, [3], 7)])])
  | Err _ => false end = true.
Proof.
  split; [dec_distributed|]. split; [|split; [|split; [reflexivity|vm_compute; reflexivity]]].
  - unfold with_none, cp3, cp3_ps. csimpl. repeat (constructor; [apply dec_taken; [vm_compute; reflexivity|apply mk_hg_consistent_dec; vm_compute; reflexivity]|]). constructor.
  - assert (all_nets (fst <$> cp3_moved) = all_nets (fst <$> cp3_ps)) as Hsame by (vm_compute; reflexivity).
    split; [dec_distributed|reflexivity| |intros e He; exists e; rewrite <-Hsame; split; [exact He|split; reflexivity]|reflexivity|reflexivity].
    apply (bool_decide_eq_true_1 _). vm_compute. reflexivity.
Qed.

(** C66, what holds.  For every number of processors, k of at least two, imbalance, options, random sequence and order of arrival, recursive bisection
    with the cut-net metric on several processors either ends with every vertex in a part in [0,k), the same vertices with their weights, and
    every net with the vertices and the cost it had, over all processors; or blocks, processors waiting for each other (C66_deadlock_refuted), but not
    with two parts; or executes an undefined operation; or, with random samples only, fails an assertion.  With two parts every processor's
    hypergraph is consistent.  Missing: the vertices do not list their nets (C66_unlisted_refuted); the runs that block or are undefined. *)
Theorem C66_recursive_cut_par_partial : ∀ bp gn Hs k eps eta opts w, lawful_family bp → spread_pre gn Hs → (∀ v, v ∈ all_verts Hs → 0 ≤ v_id v) → Hs ≠ [] →
  Z.of_nat (length Hs) ≤ 2 ^ 50 → 2 ≤ k ≤ 2 ^ 50 → (∀ M, part_limit (gweight Hs) k eps = Some M → 0 ≤ M ∧ M * k ≤ 2 ^ 50) →
  valid_binary 53 1024 eta = true → d_le d_zero eta = true → d_le eta (d_of_Z (2 ^ 50)) = true →
  (o_bisection opts = BisMultilevel → Z.of_nat (length Hs) ≤ o_sample_size opts) →
  match recursive_bisect_cut bp Hs k eps eta opts w with
  | Ok (Some Hs', _) => same_whole Hs Hs' ∧ (∀ H', H' ∈ Hs' → nets_sound H') ∧ (∀ v, v ∈ all_verts Hs' → 0 ≤ v_part v < k) ∧ (k = 2 → distributed gn Hs')
  | Ok (None, _) => k ≠ 2
  | Err e => e = UB ∨ e = Abort ∧ o_bisection opts = BisMultilevel ∧ o_sampling opts = SampRandom
  end.
Proof. exact C66_recursive_cut_par_partial_proof. Qed.
Print Assumptions C66_recursive_cut_par_partial.

(** C66, refuted: a run of three processors that never ends.  A third of the weight goes to the low half and one processor; it does another number of splits
    than the two others, and calls remove_cut_nets another number of times. *)
Theorem C66_deadlock_refuted : ∃ Hs k eps M opts w w', spread_pre 0 Hs ∧ length Hs = 3%nat ∧ length (all_verts Hs) = 9%nat ∧ k = 9 ∧
  part_limit (gweight Hs) k eps = Some M ∧ 0 ≤ M ∧ o_metric opts = CutNet ∧ recursive_bisect_cut blocks Hs k eps c29_eps opts w = Ok (None, w').
Proof. exact C66_deadlock_refuted_proof. Qed.
Print Assumptions C66_deadlock_refuted.

(** C66, refuted: after a run of two processors with four parts vertex 0, which stayed on its processor, does not list net 0, though the net has it. *)
Theorem C66_unlisted_refuted : ∃ Hs k eps M opts w Hs' w', spread_pre 5 Hs ∧ length Hs = 2%nat ∧ k = 4 ∧ part_limit (gweight Hs) k eps = Some M ∧ o_metric opts = CutNet ∧
  recursive_bisect_cut blocks Hs k eps c29_eps opts w = Ok (Some Hs', w') ∧ 0 ∈ gverts Hs' 0 ∧ ∃ v, v ∈ all_verts Hs' ∧ v_id v = 0 ∧ v_nets v = [].
Proof. exact C66_unlisted_refuted_proof. Qed.
Print Assumptions C66_unlisted_refuted.

Example C66_example : lawful_family blocks ∧ spread_pre 5 qs ∧ (∀ v, v ∈ all_verts qs → 0 ≤ v_id v) ∧ part_limit (gweight qs) 4 c29_eps = Some 2 ∧
  valid_binary 53 1024 c29_eps = true ∧ d_le d_zero c29_eps = true ∧ d_le c29_eps (d_of_Z (2 ^ 50)) = true ∧
  match recursive_bisect_cut blocks qs 4 c29_eps c29_eps (c29_opts CutNet BisMultilevel) w0 with
  | Ok (Some Hs', _) => bool_decide ((λ H, (λ v, (v_id v, v_part v, v_nets v)) <$> h_verts H) <$> Hs' =
      [[(0, 0, []); (1, 0, []); (4, 0, [0; 3]); (6, 1, [3; 4])]; [(5, 2, []); (7, 3, []); (2, 2, [1; 2]); (3, 3, [2])]])
  | _ => false end = true.
Proof.
  split; [apply blocks_lawful|]. split; [exact qs_spread|]. split; [intros v; revert v; apply Forall_forall, (bool_decide_eq_true_1 _); vm_compute; reflexivity|].
  split; [vm_compute; reflexivity|]. split; [vm_compute; reflexivity|]. split; [vm_compute; reflexivity|]. split; vm_compute; reflexivity.
Qed.

(** C67.  Whenever every bisection of a run with the cut-net metric on any number of processors returns sides within the limits it was given (the
    program with bisections replaced by [checked] ones, which give up otherwise, ends normally), the run of the program is
    that run, and every part weighs at most M, which is (1+eps)*W/k evaluated in double precision and rounded down. *)
Theorem C67_imbalance_cut_par : ∀ bp gn Hs k eps eta opts M w Hs' w', lawful_family bp → spread_pre gn Hs → (∀ v, v ∈ all_verts Hs → 0 ≤ v_id v) → Hs ≠ [] →
  Z.of_nat (length Hs) ≤ 2 ^ 50 → 2 ≤ k ≤ 2 ^ 50 → part_limit (gweight Hs) k eps = Some M → 0 ≤ M → M * k ≤ 2 ^ 50 →
  valid_binary 53 1024 eta = true → d_le d_zero eta = true → d_le eta (d_of_Z (2 ^ 50)) = true →
  (o_bisection opts = BisMultilevel → Z.of_nat (length Hs) ≤ o_sample_size opts) →
  recursive_bisect_cut_with (checked (bisect1 bp)) (checked_par (bisect_par bp)) bp Hs k eps eta opts w = Ok (Some Hs', w') →
  recursive_bisect_cut bp Hs k eps eta opts w = Ok (Some Hs', w') ∧ ∀ q, 0 ≤ q < k → gpart_weight Hs' q ≤ M.
Proof. exact C67_imbalance_cut_par_proof. Qed.
Print Assumptions C67_imbalance_cut_par.

Example C67_example : lawful_family blocks ∧ spread_pre 5 qs ∧ (∀ v, v ∈ all_verts qs → 0 ≤ v_id v) ∧ part_limit (gweight qs) 4 c61_eps = Some 3 ∧
  match recursive_bisect_cut_with (checked (bisect1 blocks)) (checked_par (bisect_par blocks)) blocks qs 4 c61_eps c29_eps (c29_opts CutNet BisMultilevel) w0 with
  | Ok (Some Hs', _) => bool_decide (gpart_weight Hs' <$> [0; 1; 2; 3] = [3; 2; 3; 2]) | _ => false end = true.
Proof.
  split; [apply blocks_lawful|]. split; [exact qs_spread|]. split; [intros v; revert v; apply Forall_forall, (bool_decide_eq_true_1 _); vm_compute; reflexivity|].
  split; vm_compute; reflexivity.
Qed.
