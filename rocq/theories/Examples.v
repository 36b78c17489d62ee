(** Concrete hypergraphs used to show that hypotheses are met. *)
From Verif Require Export HgHist.

(** A decidable sufficient condition for consistency of a constructed hypergraph. *)
Lemma mk_hg_consistent_dec gs gn vs ns nz :
  bool_decide (NoDup (v_id <$> vs) ∧ NoDup (n_id <$> ns) ∧
    Forall (λ v, NoDup (v_nets v)) vs ∧ Forall (λ n, NoDup (n_verts n)) ns ∧
    Forall (λ v, Forall (λ nid, Exists (λ n, n_id n = nid ∧ v_id v ∈ n_verts n) ns) (v_nets v)) vs ∧
    Forall (λ n, Forall (λ vid, Exists (λ v, v_id v = vid ∧ n_id n ∈ v_nets v) vs) (n_verts n)) ns) = true →
  consistent (mk_hg gs gn vs ns nz).
Proof.
  intros (H1 & H2 & H3 & H4 & H5 & H6)%bool_decide_eq_true.
  pose proof (proj1 (Forall_forall _ _) H3) as H3'. pose proof (proj1 (Forall_forall _ _) H4) as H4'.
  apply mk_hg_consistent; [done..| |].
  - intros v nid Hv Hnid. pose proof (proj1 (Forall_forall _ _) H5 v Hv) as H5'. simpl in H5'.
    pose proof (proj1 (Forall_forall _ _) H5' _ Hnid) as H7. simpl in H7. apply Exists_exists in H7 as (n & ? & ? & ?). eauto.
  - intros n vid Hn Hvid. pose proof (proj1 (Forall_forall _ _) H6 n Hn) as H6'. simpl in H6'.
    pose proof (proj1 (Forall_forall _ _) H6' _ Hvid) as H7. simpl in H7. apply Exists_exists in H7 as (v & ? & ? & ?). eauto.
Qed.

Definition ex_verts : list vertex :=
  [Vertex 0 [10; 12] 1 0; Vertex 1 [10; 11; 12] 2 0; Vertex 2 [11] 1 1; Vertex 3 [11; 13] 3 1; Vertex 4 [] 1 0].
Definition ex_nets : list net :=
  [Net 10 [0; 1] 1 2; Net 11 [3; 1; 2] 2 3; Net 12 [1; 0] 3 2; Net 13 [3] 1 1].
Definition exH : hg := mk_hg 5 4 ex_verts ex_nets 8.

Lemma exH_consistent : consistent exH.
Proof. apply mk_hg_consistent_dec. vm_compute. reflexivity. Qed.
Lemma exH_bisected : bisected exH.
Proof.
  assert (Forall (λ v, v_part v = 0 ∨ v_part v = 1) ex_verts) as HF.
  { apply (bool_decide_eq_true_1 _). vm_compute. reflexivity. }
  rewrite Forall_forall in HF. exact HF.
Qed.
Lemma exH_small : small_costs exH.
Proof. vm_compute. reflexivity. Qed.

(** k-way: three parts *)
Definition ex3_verts : list vertex :=
  [Vertex 0 [10; 12] 1 0; Vertex 1 [10; 11; 12] 2 2; Vertex 2 [11] 1 1; Vertex 3 [11; 13] 3 0].
Definition ex3 : hg := mk_hg 4 4 ex3_verts ex_nets 8.
Lemma ex3_consistent : consistent ex3.
Proof. apply mk_hg_consistent_dec. vm_compute. reflexivity. Qed.
