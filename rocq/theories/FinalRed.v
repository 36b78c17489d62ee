(** The property lemmas C42, C53: redistribution of a hypergraph over two groups of processors. *)
From Verif Require Export RedProof FinalPar.

(** C42: whatever the labels, limits and the order of arrival, the redistribution ends without an error;
    every vertex, with its id, weight, part and nets, is on exactly one processor afterwards, the local
    hypergraphs are consistent, nets keep their costs, the recorded numbers of vertices and nonzeros are unchanged, and a
    processor whose group has enough room in total keeps of its own vertices with a label no more than its
    limit (0 for the label of the other group).  If group 0 has no processors, its vertices stay where they
    are. *)
Lemma C42_redistribute_proof gn (Hs : list hg) (sh : list share) low high p_low w :
  distributed gn Hs → (∀ v, v ∈ all_verts Hs → 0 ≤ v_weight v) → low ≠ high → proper_shares Hs sh low high →
  ∃ res w', redistribute Hs sh low high p_low w = Ok (res, w') ∧ length res = length Hs ∧
    distributed gn res.*1 ∧ all_verts res.*1 ≡ₚ all_verts Hs ∧
    (∀ n, n ∈ all_nets res.*1 → n_cost n = gcost Hs (n_id n)) ∧
    ∀ s H a r, Hs !! s = Some H → sh !! s = Some a → res !! s = Some r → h_gsize (fst r) = h_gsize H ∧ h_nz (fst r) = h_nz H ∧
      (p_low > 0 → room_for 0 low Hs sh → kept_weight low H (fst r) ≤ limit_for 0 a) ∧
      (room_for 1 high Hs sh → kept_weight high H (fst r) ≤ limit_for 1 a).
Proof.
  intros HD Hw Hlh Hsh.
  assert (wp (redistribute Hs sh low high p_low) (λ res, length res = length Hs ∧
    distributed gn res.*1 ∧ all_verts res.*1 ≡ₚ all_verts Hs ∧
    (∀ n, n ∈ all_nets res.*1 → n_cost n = gcost Hs (n_id n)) ∧
    ∀ s H a r, Hs !! s = Some H → sh !! s = Some a → res !! s = Some r → h_gsize (fst r) = h_gsize H ∧ h_nz (fst r) = h_nz H ∧
      (p_low > 0 → room_for 0 low Hs sh → kept_weight low H (fst r) ≤ limit_for 0 a) ∧
      (room_for 1 high Hs sh → kept_weight high H (fst r) ≤ limit_for 1 a))) as Hwp.
  { eapply wpe_redistribute; try done. intros res Hlen HD' Hperm Hcost Hres. split_and!; try done.
    { intros n Hn. destruct (Hcost n Hn) as (e & He & <- & <-). symmetry. by apply (gcost_elem gn). }
    intros s H a r HH Ha Hr. destruct (Hres s r Hr) as (H' & a' & [R1 R2 Rg Rz R3 R4 R5 R6 R7]).
    rewrite HH in R1. injection R1 as <-. rewrite Ha in R2. injection R2 as <-. done. }
  apply wp_run with (w := w) in Hwp as (o & w' & Heq & Ho). exists o, w'. split; done.
Qed.

(** C53, what holds: if all weights are positive and a group has enough room in total for its label, then
    no vertex with that label is left on a processor of the other group.  If group 0 has no processors,
    its vertices are exactly those from the returned position on; otherwise the returned position is the
    number of vertices. Missing: weights 0, the limits of the receivers and the sizes of nets, see the refutations below. *)
Lemma C53_separation_partial_proof gn (Hs : list hg) (sh : list share) low high p_low w :
  distributed gn Hs → (∀ v, v ∈ all_verts Hs → 0 < v_weight v) → low ≠ high → proper_shares Hs sh low high →
  ∃ res w', redistribute Hs sh low high p_low w = Ok (res, w') ∧
    ∀ s a r, sh !! s = Some a → res !! s = Some r →
      (sh_part a = 0 → room_for 1 high Hs sh → ∀ v, v ∈ h_verts (fst r) → v_part v ≠ high) ∧
      (sh_part a = 1 → p_low > 0 → room_for 0 low Hs sh → ∀ v, v ∈ h_verts (fst r) → v_part v ≠ low) ∧
      (p_low > 0 → snd r = Z.of_nat (length (h_verts (fst r)))) ∧
      (p_low ≤ 0 → 0 ≤ snd r ≤ Z.of_nat (length (h_verts (fst r))) ∧
         ∀ i v, h_verts (fst r) !! i = Some v → (v_part v = low ↔ snd r ≤ Z.of_nat i)).
Proof.
  intros HD Hw Hlh Hsh.
  assert (wp (redistribute Hs sh low high p_low) (λ res,
    ∀ s a r, sh !! s = Some a → res !! s = Some r →
      (sh_part a = 0 → room_for 1 high Hs sh → ∀ v, v ∈ h_verts (fst r) → v_part v ≠ high) ∧
      (sh_part a = 1 → p_low > 0 → room_for 0 low Hs sh → ∀ v, v ∈ h_verts (fst r) → v_part v ≠ low) ∧
      (p_low > 0 → snd r = Z.of_nat (length (h_verts (fst r)))) ∧
      (p_low ≤ 0 → 0 ≤ snd r ≤ Z.of_nat (length (h_verts (fst r))) ∧
         ∀ i v, h_verts (fst r) !! i = Some v → (v_part v = low ↔ snd r ≤ Z.of_nat i)))) as Hwp.
  { eapply wpe_redistribute; try done. { intros v Hv. specialize (Hw v Hv). lia. }
    intros res Hlen HD' Hperm Hcost Hres s a r Ha Hr. destruct (Hres s r Hr) as (H & a' & [R1 R2 Rg Rz R3 R4 R5 R6 R7]).
    rewrite Ha in R2. injection R2 as <-.
    assert (∀ label v, kept_weight label H (fst r) ≤ 0 → v ∈ h_verts (fst r) → v ∈ h_verts H → v_part v ≠ label) as Hnone.
    { intros label v Hk Hv Hvh Hl. unfold kept_weight in Hk.
      assert (v ∈ filter (λ v, v_part v = label ∧ v ∈ h_verts H) (h_verts (fst r))) as Hin by by apply elem_of_list_filter.
      apply elem_of_Permutation in Hin as [l Hl']. rewrite Hl' in Hk. csimpl in Hk. rewrite zsum_cons in Hk.
      assert (0 < v_weight v) by (apply Hw, all_verts_elem; exists H; split; [by eapply elem_of_list_lookup_2|done]).
      assert (0 ≤ zsum (v_weight <$> l)); [|lia]. apply zsum_nonneg. intros x (u & -> & Hu)%elem_of_list_fmap.
      assert (u ∈ filter (λ v, v_part v = label ∧ v ∈ h_verts H) (h_verts (fst r))) as Hin by (rewrite Hl'; by right).
      apply elem_of_list_filter in Hin as [[_ Huh] _].
      assert (0 < v_weight u); [|lia]. apply Hw, all_verts_elem. exists H; split; [by eapply elem_of_list_lookup_2|done]. }
    split_and!.
    - intros Hp Hroom v Hv. specialize (R4 Hroom). unfold limit_for in *. rewrite Hp in *. simpl in *.
      destruct (R5 v Hv) as [Hin|[(_ & Hl & _)|[_ Hl]]]; [|congruence|lia]. by apply Hnone.
    - intros Hp Hpl Hroom v Hv. specialize (R3 Hpl Hroom). unfold limit_for in *. rewrite Hp in *. simpl in *.
      destruct (R5 v Hv) as [Hin|[(_ & _ & Hl)|[Hl _]]]; [|lia|congruence]. by apply Hnone.
    - done.
    - intros Hp. destruct R7 as (n & -> & Hn & Hpos); [lia|]. split; [lia|]. intros i v Hi. rewrite (Hpos i v Hi). lia. }
  apply wp_run with (w := w) in Hwp as (o & w' & Heq & Ho). exists o, w'. split; done.
Qed.

(** three processors, one for part 0 and two for part 1; nets 0 and 1 are shared *)
Definition red_hs : list hg := [
  mk_hg 7 3 [Vertex 0 [0; 1] 2 0; Vertex 1 [0] 2 1; Vertex 2 [2] 3 1] [Net 0 [0; 1] 5 3; Net 1 [0] 4 3; Net 2 [2] 1 1] 4;
  mk_hg 7 3 [Vertex 3 [0] 1 0; Vertex 4 [1] 2 1] [Net 0 [3] 5 3; Net 1 [4] 4 3] 2;
  mk_hg 7 3 [Vertex 5 [1] 1 0; Vertex 6 [] 1 1] [Net 1 [5] 4 3] 1].
Definition red_sh : list share := [Share 0 4 2 5; Share 1 5 1 2; Share 1 5 1 1].
Ltac dec_distributed := split; [intros H HH; repeat (apply elem_of_cons in HH as [->|HH]; [apply mk_hg_consistent_dec; vm_compute; reflexivity|]); by apply elem_of_nil in HH
  |intros H HH; repeat (apply elem_of_cons in HH as [->|HH]; [reflexivity|]); by apply elem_of_nil in HH
  |apply (bool_decide_eq_true_1 _); vm_compute; reflexivity
  |refine (proj1 (Forall_forall _ _) _); apply (bool_decide_eq_true_1 _); vm_compute; reflexivity
  |assert (∀ l : list net, Forall (λ n, Forall (λ n', n_id n = n_id n' → n_cost n = n_cost n') l) l → ∀ n n', n ∈ l → n' ∈ l → n_id n = n_id n' → n_cost n = n_cost n') as HF
     by (intros l Hl n n' Hn Hn'; exact (proj1 (Forall_forall _ _) (proj1 (Forall_forall _ _) Hl n Hn) n' Hn'));
   apply HF; apply (bool_decide_eq_true_1 _); vm_compute; reflexivity].
Ltac dec_shares := split; [reflexivity
  |refine (proj1 (Forall_forall _ _) _); apply (bool_decide_eq_true_1 _); vm_compute; reflexivity
  |refine (proj1 (Forall_forall _ _) _); apply (bool_decide_eq_true_1 _); vm_compute; reflexivity
  |intros [|[|[|s]]] H a HH Ha; try done; injection HH as <-; injection Ha as <-; vm_compute; reflexivity
  |intros [|[|[|s]]] H a HH Ha; try done; injection HH as <-; injection Ha as <-; vm_compute; reflexivity].
Definition ids_out (r : hg * Z) : list Z * Z := (v_id <$> h_verts (fst r), snd r).
Example C42_example : distributed 3 red_hs ∧ (∀ v, v ∈ all_verts red_hs → 0 < v_weight v) ∧ proper_shares red_hs red_sh 0 1 ∧
  room_for 0 0 red_hs red_sh ∧ room_for 1 1 red_hs red_sh ∧
  match redistribute red_hs red_sh 0 1 1 w0 with
  | Ok (res, _) => ids_out <$> res = [([0; 3; 5], 3); ([4; 1; 2], 3); ([6], 1)] | Err _ => False end.
Proof.
  split; [dec_distributed|]. split; [refine (proj1 (Forall_forall _ _) _); apply (bool_decide_eq_true_1 _); vm_compute; reflexivity|].
  split; [dec_shares|]. split; [vm_compute; congruence|]. split; [vm_compute; congruence|]. vm_compute. reflexivity.
Qed.
(** the same hypergraph, when nobody is to work on part 0 *)
Definition red_sh1 : list share := [Share 1 4 2 5; Share 1 4 1 2; Share 1 4 1 1].
Example C53_example : proper_shares red_hs red_sh1 0 1 ∧ room_for 1 1 red_hs red_sh1 ∧
  match redistribute red_hs red_sh1 0 1 0 w0 with
  | Ok (res, _) => ids_out <$> res = [([2; 0], 1); ([4; 1; 3], 2); ([6; 5], 1)] | Err _ => False end.
Proof. split; [dec_shares|]. split; [vm_compute; congruence|]. vm_compute. reflexivity. Qed.

(** C53 does not hold for vertices of weight 0: they stay on the processors of the other group. *)
Lemma C53_weight_zero_refuted_proof :
  ∃ gn (Hs : list hg) (sh : list share) low high p_low, distributed gn Hs ∧ (∀ v, v ∈ all_verts Hs → 0 ≤ v_weight v) ∧ low ≠ high ∧
    proper_shares Hs sh low high ∧ p_low > 0 ∧ room_for 0 low Hs sh ∧ room_for 1 high Hs sh ∧
    ∀ w, ∃ res w' a r v, redistribute Hs sh low high p_low w = Ok (res, w') ∧
      sh !! 0%nat = Some a ∧ res !! 0%nat = Some r ∧ sh_part a = 0 ∧ v ∈ h_verts (fst r) ∧ v_part v = high.
Proof.
  set (Hs := [mk_hg 2 1 [Vertex 0 [0] 1 0; Vertex 1 [0] 0 1] [Net 0 [0; 1] 1 2] 2; mk_hg 2 1 [] [] 0]).
  set (sh := [Share 0 5 1 0; Share 1 5 0 0]).
  exists 1, Hs, sh, 0, 1, 1.
  split; [dec_distributed|]. split; [refine (proj1 (Forall_forall _ _) _); apply (bool_decide_eq_true_1 _); vm_compute; reflexivity|].
  split; [done|]. split; [dec_shares|]. split; [done|]. split; [vm_compute; congruence|]. split; [vm_compute; congruence|].
  intros w. exists [(nth 0 Hs (mk_hg 0 0 [] [] 0), 2); (mk_hg 2 1 [] [] 0, 0)], w. eexists _, _, (Vertex 1 [0] 0 1).
  split; [vm_compute; reflexivity|]. split; [reflexivity|]. split; [reflexivity|]. split; [reflexivity|].
  split; [|reflexivity]. simpl. right. left.
Qed.

(** C53 does not hold for the limits: a processor that receives vertices may exceed its limit although
    the limits are enough in total.  The vertex of weight 2 goes to a processor with room for 1. *)
Lemma C53_limit_refuted_proof :
  ∃ gn (Hs : list hg) (sh : list share) low high p_low, distributed gn Hs ∧ (∀ v, v ∈ all_verts Hs → 0 < v_weight v) ∧ low ≠ high ∧
    proper_shares Hs sh low high ∧ p_low > 0 ∧ room_for 0 low Hs sh ∧ room_for 1 high Hs sh ∧
    ∃ w res w' a r, redistribute Hs sh low high p_low w = Ok (res, w') ∧
      sh !! 1%nat = Some a ∧ res !! 1%nat = Some r ∧ sh_part a = 1 ∧ part_weight (fst r) high > sh_max a.
Proof.
  set (Hs := [mk_hg 3 1 [Vertex 0 [0] 2 1] [Net 0 [0] 1 1] 1; mk_hg 3 1 [Vertex 1 [] 2 1] [] 0; mk_hg 3 1 [Vertex 2 [] 2 1] [] 0]).
  set (sh := [Share 0 3 0 2; Share 1 3 0 2; Share 1 3 0 2]).
  exists 1, Hs, sh, 0, 1, 1.
  split; [dec_distributed|]. split; [refine (proj1 (Forall_forall _ _) _); apply (bool_decide_eq_true_1 _); vm_compute; reflexivity|].
  split; [done|]. split; [dec_shares|]. split; [done|]. split; [vm_compute; congruence|]. split; [vm_compute; congruence|].
  exists w0. eexists _, _, _, _. split; [vm_compute; reflexivity|]. split; [reflexivity|]. split; [reflexivity|]. split; [reflexivity|].
  vm_compute. reflexivity.
Qed.

(** C53 does not hold for the nets: a net that is new on the receiving processor is recorded there
    with global size 0, whatever its size. *)
Lemma C53_net_size_refuted_proof :
  ∃ gn (Hs : list hg) (sh : list share) low high p_low, distributed gn Hs ∧ (∀ v, v ∈ all_verts Hs → 0 < v_weight v) ∧ low ≠ high ∧
    proper_shares Hs sh low high ∧ p_low > 0 ∧ room_for 0 low Hs sh ∧ room_for 1 high Hs sh ∧
    (∀ n, n ∈ all_nets Hs → n_gsize n = gsize Hs (n_id n)) ∧
    ∃ w res w' n, redistribute Hs sh low high p_low w = Ok (res, w') ∧
      n ∈ all_nets res.*1 ∧ n_gsize n ≠ gsize res.*1 (n_id n).
Proof.
  set (Hs := [mk_hg 2 1 [Vertex 0 [0] 1 0; Vertex 1 [0] 1 1] [Net 0 [0; 1] 1 2] 2; mk_hg 2 1 [] [] 0]).
  set (sh := [Share 0 5 1 1; Share 1 5 0 0]).
  exists 1, Hs, sh, 0, 1, 1.
  split; [dec_distributed|]. split; [refine (proj1 (Forall_forall _ _) _); apply (bool_decide_eq_true_1 _); vm_compute; reflexivity|].
  split; [done|]. split; [dec_shares|]. split; [done|]. split; [vm_compute; congruence|]. split; [vm_compute; congruence|].
  split; [refine (proj1 (Forall_forall _ _) _); apply (bool_decide_eq_true_1 _); vm_compute; reflexivity|].
  exists w0. eexists _, _, (Net 0 [1] 1 0). split; [vm_compute; reflexivity|]. split; [simpl; right; left|]. vm_compute. congruence.
Qed.
