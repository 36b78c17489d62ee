(** The property lemmas of C27: multilevel bisection of a range of vertices. *)
From Verif Require Export BisectProof FinalPar.

(** C27, what holds.  With one processor multilevel bisection of a range ends normally for every
    random sequence, hash order, options and limits.  Every vertex of the range gets one of the two
    labels, nothing else changes, and the returned pair is the exact weight of the two sides.  The
    vertices must have positive weights (see C27_weightless_refuted), ids other than -1, net numbers
    within the number of nets, fewer than 2^31 nets, and a total weight that fits the type. *)
Lemma C27_multilevel_bisection_partial_proof : ∀ bp H opts mx st en low high w,
  lawful_family bp → consistent H → nets_in_range H → no_sentinel H → (∀ v, v ∈ h_verts H → 0 < v_weight v) →
  Z.of_nat (length (h_nets H)) < 2147483648 → tot_weight H < long_max → 0 ≤ fst mx → 0 ≤ snd mx →
  0 ≤ st ≤ en → en ≤ Z.of_nat (length (h_verts H)) →
  ∃ side H' w',
    bisect_multilevel1 bp H opts mx st en (low, high) w = Ok ((H', (side_weight H st en side 0, side_weight H st en side 1)), w') ∧
    range_labelled H st en low high side H' ∧ consistent H'.
Proof.
  intros bp H opts mx st en low high w Hbp HC Hnr Hns Hw Hnn Htot Hm0 Hm1 Hst Hen.
  assert (wp (bisect_multilevel1 bp H opts mx st en (low, high)) (λ o, ∃ side,
    snd o = (side_weight H st en side 0, side_weight H st en side 1) ∧ range_labelled H st en low high side (fst o) ∧ consistent (fst o))) as Hwp.
  { eapply wpe_bisect_multilevel1; [done..|]. intros side H' HR HC' _. exists side. done. }
  apply wp_run with (w := w) in Hwp as ([H' ws] & w' & Heq & side & Hs & HR & HC'). cbn [fst snd] in *. subst ws. eauto 10.
Qed.

(** a column without nonzeros whose weight is its number of nonzeros, and one nonempty row *)
Definition c27_H : hg := mk_hg 3 1 [Vertex 0 [0] 1 (-1); Vertex 1 [0] 1 (-1); Vertex 2 [] 0 (-1)] [Net 0 [0; 1] 1 2] 2.
Lemma c27_H_pre : klfm_pre c27_H.
Proof. apply klfm_pre_dec; [apply mk_hg_consistent_dec|]; vm_compute; reflexivity. Qed.
Definition c27_opts : options := Opts 5 2 4 2 3 10 20 2 CutNet BisMultilevel SampLP.
(** C27, refuted.  A weightless vertex without nets, as a matrix column without nonzeros gives with
    degree weights, keeps its old part: here -1, which is neither label. *)
Lemma C27_weightless_refuted_proof : ∃ H opts mx H' ws w' v, klfm_pre H ∧ nets_in_range H ∧ tot_weight H ≤ fst mx ∧ tot_weight H ≤ snd mx ∧
  bisect_multilevel1 blocks H opts mx 0 3 (0, 1) w0 = Ok ((H', ws), w') ∧ vertex_at H' 2 = Some v ∧ v_part v = -1.
Proof.
  assert (match bisect_multilevel1 blocks c27_H c27_opts (2, 2) 0 3 (0, 1) w0 with
    | Ok ((H', _), _) => bool_decide (v_part <$> vertex_at H' 2 = Some (-1)) | Err _ => false end = true) as Hb by (vm_compute; reflexivity).
  destruct (bisect_multilevel1 blocks c27_H c27_opts (2, 2) 0 3 (0, 1) w0) as [[[H' ws] w']|] eqn:Heq; [|done].
  apply bool_decide_eq_true in Hb. destruct (vertex_at H' 2) as [v|] eqn:Hv; [|done]. simpl in Hb. injection Hb as Hb.
  exists c27_H, c27_opts, (2, 2), H', ws, w', v. split; [exact c27_H_pre|]. split.
  { split; [done|]. intros n Hn. apply elem_of_list_singleton in Hn. subst n. simpl. lia. }
  split; [vm_compute; discriminate|]. split; [vm_compute; discriminate|]. split; [exact Heq|]. split; [exact Hv|exact Hb].
Qed.

Definition c27_G : hg := mk_hg 6 4
  [Vertex 0 [0; 3] 2 (-1); Vertex 1 [0] 1 (-1); Vertex 2 [0; 1] 1 (-1); Vertex 3 [1; 3] 3 (-1); Vertex 4 [2] 1 (-1); Vertex 5 [1; 2] 1 (-1)]
  [Net 0 [0; 1; 2] 1 3; Net 1 [2; 3; 5] 1 3; Net 2 [4; 5] 1 2; Net 3 [0; 3] 1 2] 10.
Lemma c27_G_cons : consistent c27_G.
Proof. apply mk_hg_consistent_dec; vm_compute; reflexivity. Qed.
Example C27_example :
  lawful_family blocks ∧ consistent c27_G ∧ nets_in_range c27_G ∧ no_sentinel c27_G ∧ (∀ v, v ∈ h_verts c27_G → 0 < v_weight v) ∧
  Z.of_nat (length (h_nets c27_G)) < 2147483648 ∧ tot_weight c27_G < long_max ∧ (0 ≤ 1 ≤ 6) ∧ 6 ≤ Z.of_nat (length (h_verts c27_G)) ∧
  match bisect_multilevel1 blocks c27_G c27_opts (4, 4) 1 6 (0, 1) w0 with
  | Ok ((H', ws), _) => bool_decide (ws = (4, 3) ∧ v_part <$> h_verts H' = [-1; 0; 0; 1; 0; 0]) | Err _ => false end = true.
Proof.
  split; [apply blocks_lawful|]. split; [exact c27_G_cons|].
  split; [split; [done|]; apply Forall_forall, (bool_decide_eq_true_1 _); vm_compute; reflexivity|].
  split; [intros v; revert v; apply Forall_forall, (bool_decide_eq_true_1 _); vm_compute; reflexivity|].
  split; [intros v; revert v; apply Forall_forall, (bool_decide_eq_true_1 _); vm_compute; reflexivity|].
  split; [done|]. split; [reflexivity|]. split; [lia|]. split; [vm_compute; discriminate|]. vm_compute. reflexivity.
Qed.
