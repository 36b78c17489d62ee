(** The property lemmas C36-C38, C41 and C49: distributed hypergraphs. *)
From Verif Require Export ParCut FinalLabel.

Lemma blocks_lawful : lawful_family blocks.
Proof.
  intros p n Hp Hn. unfold blocks. set (b := (n + p - 1) / p).
  assert (n ≤ p * b) as Hb.
  { pose proof (Z.div_mod (n + p - 1) p ltac:(lia)). pose proof (Z.mod_pos_bound (n + p - 1) p Hp). fold b in H. lia. }
  split; simpl.
  - intros x Hx. assert (0 < b) by nia. split; [apply Z.div_pos; lia|]. apply Z.div_lt_upper_bound; lia.
  - intros x Hx. assert (0 < b) by nia. pose proof (Z.mod_pos_bound x b ltac:(lia)). pose proof (Z.div_mod x b ltac:(lia)). nia.
  - intros x Hx. assert (0 < b) by nia. pose proof (Z.div_mod x b ltac:(lia)). nia.
  - intros t i Ht Hi. assert (0 < b) by lia. split; [nia|]. split.
    + rewrite Z.add_comm, Z.div_add by lia. rewrite Z.div_small by lia. lia.
    + rewrite Z.add_comm, Z.mod_add by lia. apply Z.mod_small. lia.
Qed.

(** an example: five nets over three processors; net 2 is spread over all, net 4 has one vertex *)
Definition p0 : hg := mk_hg 6 5 [Vertex 0 [0; 2] 1 0; Vertex 3 [2; 4] 2 1] [Net 0 [0] 1 0; Net 2 [0; 3] 3 0; Net 4 [3] 1 0] 4.
Definition p1 : hg := mk_hg 6 5 [Vertex 1 [0; 1; 2] 1 1; Vertex 4 [1] 1 1] [Net 1 [1; 4] 2 0; Net 2 [1] 3 0; Net 0 [1] 1 0; Net 3 [] 7 0] 4.
Definition p2 : hg := mk_hg 6 5 [Vertex 2 [2; 3] 5 0; Vertex 5 [3] 1 0] [Net 3 [2; 5] 7 0; Net 2 [2] 3 0] 3.
Definition ps : list hg := [p0; p1; p2].
Lemma ps_distributed : distributed 5 ps.
Proof.
  split.
  - intros H HH. repeat (apply elem_of_cons in HH as [->|HH]; [apply mk_hg_consistent_dec; vm_compute; reflexivity|]). by apply elem_of_nil in HH.
  - intros H HH. repeat (apply elem_of_cons in HH as [->|HH]; [reflexivity|]). by apply elem_of_nil in HH.
  - apply (bool_decide_eq_true_1 _). vm_compute. reflexivity.
  - assert (Forall (λ n, 0 ≤ n_id n < 5) (all_nets ps)) as HF by (apply (bool_decide_eq_true_1 _); vm_compute; reflexivity).
    rewrite Forall_forall in HF. exact HF.
  - assert (Forall (λ n, Forall (λ n', n_id n = n_id n' → n_cost n = n_cost n') (all_nets ps)) (all_nets ps)) as HF
      by (apply (bool_decide_eq_true_1 _); vm_compute; reflexivity).
    rewrite Forall_forall in HF. intros n n' Hn Hn'. specialize (HF n Hn). simpl in HF. rewrite Forall_forall in HF. by apply HF.
Qed.

(** C36: the distributed cut is, on every processor and for every message order, the cut of the
    whole hypergraph under the parts of all processors. *)
Lemma C36_distributed_cut_proof (bp : Z → Z → partitioning) gn Hs m w :
  lawful_family bp → distributed gn Hs → 0 ≤ gn → Hs ≠ [] →
  ∃ w', cutsize_par bp Hs m w =
    Ok (replicate (length Hs) (match m with
                               | CutNet => cut_net_size (whole_nets Hs gn) (gpart Hs)
                               | LambdaMinusOne => lambda_size (whole_nets Hs gn) (gpart Hs)
                               end), w').
Proof.
  intros Hbp HD Hgn Hne.
  assert (wp (cutsize_par bp Hs m) (λ r, r = replicate (length Hs) (cut_by m (whole_nets Hs gn) (gpart Hs)))) as Hw.
  { by eapply wpe_cutsize_par. }
  apply wp_run with (w := w) in Hw as (r & w' & Heq & ->). exists w'. rewrite Heq. by destruct m.
Qed.
Example C36_example : lawful_family blocks ∧ distributed 5 ps ∧
  fst <$> (match cutsize_par blocks ps LambdaMinusOne (tape_of [3; 1; 2; 0; 1]) with Ok r => Some r | _ => None end) = Some [4; 4; 4].
Proof. split; [apply blocks_lawful|]. split; [apply ps_distributed|]. vm_compute. reflexivity. Qed.

(** C37: every processor gets the global size of each of its nets (and nothing else changes), *)
Lemma C37_net_sizes_proof (bp : Z → Z → partitioning) gn Hs w :
  lawful_family bp → distributed gn Hs → 0 ≤ gn → Hs ≠ [] →
  ∃ w', global_net_sizes bp Hs w =
    Ok ((λ H, (Hg (h_gsize H) (h_gnets H) (h_verts H)
                  ((λ n, Net (n_id n) (n_verts n) (n_cost n) (gsize Hs (n_id n))) <$> h_nets H)
                  (h_nz H) (h_vmap H) (h_nmap H) (h_dups H),
               (λ n, gsize Hs (n_id n)) <$> h_nets H)) <$> Hs, w').
Proof.
  intros Hbp HD Hgn Hne.
  assert (wp (global_net_sizes bp Hs) (λ r, r = (λ H, (sized Hs H, (λ n, gsize Hs (n_id n)) <$> h_nets H)) <$> Hs)) as Hw.
  { by eapply wpe_global_net_sizes. }
  apply wp_run with (w := w) in Hw as (r & w' & Heq & ->). exists w'. rewrite Heq. done.
Qed.
(** and the global counts of both parts, once these sizes are recorded and all parts are 0 or 1. *)
Lemma C37_counts_proof (bp : Z → Z → partitioning) gn Hs w :
  lawful_family bp → distributed gn Hs → 0 ≤ gn → Hs ≠ [] →
  (∀ v, v ∈ all_verts Hs → v_part v = 0 ∨ v_part v = 1) →
  (∀ n, n ∈ all_nets Hs → n_gsize n = gsize Hs (n_id n)) →
  ∃ w', init_counts_par bp Hs w =
    Ok ((λ H, (λ n, (gcount Hs (n_id n) 0, gcount Hs (n_id n) 1)) <$> h_nets H) <$> Hs, w').
Proof.
  intros Hbp HD Hgn Hne HB Hgs.
  assert (wp (init_counts_par bp Hs) (λ r, r = (λ H, (λ n, (gcount Hs (n_id n) 0, gcount Hs (n_id n) 1)) <$> h_nets H) <$> Hs)) as Hw.
  { by eapply wpe_init_counts_par. }
  apply wp_run with (w := w) in Hw as (r & w' & Heq & ->). exists w'. by rewrite Heq.
Qed.
(** the local hypergraphs of the example after global_net_sizes meet the hypotheses *)
Definition ps_sized : list hg := sized ps <$> ps.
Lemma ps_sized_distributed : distributed 5 ps_sized.
Proof.
  split.
  - intros H (H0 & -> & HH)%elem_of_list_fmap. apply sized_consistent. exact (di_local _ _ ps_distributed H0 HH).
  - intros H (H0 & -> & HH)%elem_of_list_fmap. exact (di_gnets _ _ ps_distributed H0 HH).
  - apply (bool_decide_eq_true_1 _). vm_compute. reflexivity.
  - assert (Forall (λ n, 0 ≤ n_id n < 5) (all_nets ps_sized)) as HF by (apply (bool_decide_eq_true_1 _); vm_compute; reflexivity).
    rewrite Forall_forall in HF. exact HF.
  - assert (Forall (λ n, Forall (λ n', n_id n = n_id n' → n_cost n = n_cost n') (all_nets ps_sized)) (all_nets ps_sized)) as HF
      by (apply (bool_decide_eq_true_1 _); vm_compute; reflexivity).
    rewrite Forall_forall in HF. intros n n' Hn Hn'. specialize (HF n Hn). simpl in HF. rewrite Forall_forall in HF. by apply HF.
Qed.
Example C37_example : distributed 5 ps_sized ∧
  Forall (λ v, v_part v = 0 ∨ v_part v = 1) (all_verts ps_sized) ∧
  Forall (λ n, n_gsize n = gsize ps_sized (n_id n)) (all_nets ps_sized) ∧
  (match init_counts_par blocks ps_sized (tape_of [1; 2; 3]) with Ok r => Some (fst r) | _ => None end) =
    Some [[(1, 1); (2, 2); (0, 1)]; [(0, 2); (2, 2); (1, 1); (2, 0)]; [(2, 0); (2, 2)]].
Proof.
  split; [apply ps_sized_distributed|]. split; [apply (bool_decide_eq_true_1 _); vm_compute; reflexivity|].
  split; [apply (bool_decide_eq_true_1 _); vm_compute; reflexivity|]. vm_compute. reflexivity.
Qed.

(** C38: a net of at most [m] vertices disappears everywhere, a larger one stays wherever it has a
    vertex, nothing else changes; for [m <= 1] no cut changes, whatever the assignment. *)
Lemma C38_remove_free_nets_proof (bp : Z → Z → partitioning) gn Hs m w :
  lawful_family bp → distributed gn Hs → 0 ≤ gn → Hs ≠ [] →
  ∃ Hs' w', remove_free_nets_par bp Hs m w = Ok (Hs', w') ∧
    length Hs' = length Hs ∧ distributed gn Hs' ∧
    (∀ t H H', Hs !! t = Some H → Hs' !! t = Some H' → small_nets_removed m Hs H H') ∧
    (∀ nid, gverts Hs' nid ≡ₚ if decide (m < gsize Hs nid) then gverts Hs nid else []) ∧
    (∀ σ, m ≤ 1 → cut_net_size (whole_nets Hs' gn) σ = cut_net_size (whole_nets Hs gn) σ ∧
                  lambda_size (whole_nets Hs' gn) σ = lambda_size (whole_nets Hs gn) σ).
Proof.
  intros Hbp HD Hgn Hne.
  assert (wp (remove_free_nets_par bp Hs m) (λ Hs', length Hs' = length Hs ∧
      ∀ t H H', Hs !! t = Some H → Hs' !! t = Some H' → small_nets_removed m Hs H H' ∧ consistent H')) as Hw.
  { eapply wpe_remove_free_nets_par; [done..|]. intros Hs' Hlen HR. done. }
  apply wp_run with (w := w) in Hw as (Hs' & w' & Heq & Hlen & HR). exists Hs', w'. split; [done|]. split; [done|].
  split; [by eapply snr_distributed|]. split; [intros t H H' HH HH'; by apply (HR t)|].
  split; [intros nid; by eapply snr_gverts|]. intros σ Hm. by eapply snr_cuts.
Qed.
Example C38_example : distributed 5 ps ∧
  (match remove_free_nets_par blocks ps 2 (tape_of [1; 2; 3]) with Ok r => Some ((λ H, (n_id <$> h_nets H, v_nets <$> h_verts H)) <$> fst r) | _ => None end) =
    Some [([2], [[2]; [2]]); ([2], [[2]; []]); ([2], [[2]; []])].
Proof. split; [apply ps_distributed|]. vm_compute. reflexivity. Qed.

(** C41: the same rank on every processor; its value is minimal, and it is the highest such rank. *)
Lemma C41_owner_min_proof xs w : xs ≠ [] →
  ∃ (r : nat) x w', owner_min xs w = Ok (replicate (length xs) (Z.of_nat r), w') ∧ xs !! r = Some x ∧
    ∀ t y, xs !! t = Some y → x ≤ y ∧ (y = x → (t ≤ r)%nat).
Proof.
  intros Hne.
  assert (wp (owner_min xs) (λ l, ∃ (r : nat) x, l = replicate (length xs) (Z.of_nat r) ∧ xs !! r = Some x ∧
    ∀ t y, xs !! t = Some y → x ≤ y ∧ (y = x → (t ≤ r)%nat))) as Hw.
  { apply wpe_owner_min; [done|]. intros r x Hx Hm. eauto 10. }
  apply wp_run with (w := w) in Hw as (l & w' & Heq & r & x & -> & Hx & Hm). exists r, x, w'. done.
Qed.
Example C41_example : owner_min [4; 2; 7; 2] w0 = Ok ([3; 3; 3; 3], w0).
Proof. vm_compute. reflexivity. Qed.

(** C49: the reported imbalance is computed, in double arithmetic, from the exact weight of a
    heaviest part and the exact total weight, *)
Lemma C49_load_balance_proof H k w :
  0 < k → (∀ v, v ∈ h_verts H → 0 ≤ v_part v < k) →
  ∃ q w', load_balance H k w =
      Ok (d_sub (d_div (d_of_Z (part_weight H q * k)) (d_of_Z (tot_weight H))) d_one, w') ∧
    0 ≤ q < k ∧ ∀ q', 0 ≤ q' < k → part_weight H q' ≤ part_weight H q.
Proof.
  intros Hk Hp.
  assert (wp (load_balance H k) (λ r, ∃ q, r = d_sub (d_div (d_of_Z (part_weight H q * k)) (d_of_Z (tot_weight H))) d_one ∧
     0 ≤ q < k ∧ ∀ q', 0 ≤ q' < k → part_weight H q' ≤ part_weight H q)) as Hw.
  { apply wpe_load_balance; [done..|]. intros q Hq Hm. eauto. }
  apply wp_run with (w := w) in Hw as (r & w' & Heq & q & -> & Hq & Hm). exists q, w'. done.
Qed.
(** and the distributed version computes it on every processor from the weights over all processors. *)
Lemma C49_load_balance_par_proof Hs k w :
  0 < k → (∀ v, v ∈ all_verts Hs → 0 ≤ v_part v < k) →
  ∃ q w', load_balance_par Hs k w =
      Ok (replicate (length Hs) (d_sub (d_div (d_of_Z (gpart_weight Hs q * k)) (d_of_Z (gweight Hs))) d_one), w') ∧
    0 ≤ q < k ∧ ∀ q', 0 ≤ q' < k → gpart_weight Hs q' ≤ gpart_weight Hs q.
Proof.
  intros Hk Hp.
  assert (wp (load_balance_par Hs k) (λ r, ∃ q, r = replicate (length Hs) (d_sub (d_div (d_of_Z (gpart_weight Hs q * k)) (d_of_Z (gweight Hs))) d_one) ∧
     0 ≤ q < k ∧ ∀ q', 0 ≤ q' < k → gpart_weight Hs q' ≤ gpart_weight Hs q)) as Hw.
  { apply wpe_load_balance_par; [done..|]. intros q Hq Hm. eauto. }
  apply wp_run with (w := w) in Hw as (r & w' & Heq & q & -> & Hq & Hm). exists q, w'. done.
Qed.
(** weights 7 and 4: 7*2/11 - 1 = 0.2727... *)
Example C49_example : Forall (λ v, 0 ≤ v_part v < 2) (all_verts ps) ∧ gpart_weight ps 0 = 7 ∧ gpart_weight ps 1 = 4 ∧
  load_balance_par ps 2 w0 = Ok (replicate 3 (d_sub (d_div (d_of_Z 14) (d_of_Z 11)) d_one), w0).
Proof.
  split; [apply (bool_decide_eq_true_1 _); vm_compute; reflexivity|]. split; [vm_compute; reflexivity|]. split; [vm_compute; reflexivity|].
  vm_compute. reflexivity.
Qed.
