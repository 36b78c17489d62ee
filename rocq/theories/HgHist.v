(** Histories of mutator calls. *)
From Verif Require Export HgDup.

(** The calls, with the way the code base combines them:
    - [AddVertex]: add_vertex then add_to_nets (hypergraph.cpp:59-62, 80-84);
    - [AddNet]: add_local_net (hypergraph.cpp:65-70);
    - [DeleteVertex]: remove_from_nets then remove_free_vertex (hypergraph.cpp:87-104);
    - [MoveVertex]: init_counts, sort_vertices_on_part, move (hypergraph.cpp:283-292, 142-160, 192-201);
    - [SetPart], [SetCost]: the setters of hypergraph.hpp:37, 66 through the id lookups. *)
Inductive op :=
| AddVertex (id : Z) (nets : list Z) (weight : Z)
| AddNet (id : Z) (vs : list Z) (cost : Z)
| RemoveNet (id : Z)
| RemoveFreeVertex (id : Z)
| DeleteVertex (id : Z)
| SortVertices
| SetPart (id p : Z)
| SetCost (id c : Z)
| MoveVertex (id : Z)
| RemoveFreeNets (m : Z)
| SimplifyDuplicates.

Definition run_op (o : op) (H : hg) : M hg :=
  match o with
  | AddVertex id ns w => add_to_nets (add_vertex H id ns w) (Vertex id ns w (-1))
  | AddNet id vs c => add_local_net H (Net id vs c 0)
  | RemoveNet id => remove_net H id
  | RemoveFreeVertex id => remove_free_vertex H id
  | DeleteVertex id => remove_free_vertex (remove_from_nets H id) id
  | SortVertices => ret (sort_vertices H)
  | SetPart id p => i <- local_id H id ;; ret (upd_vert i (set_part p) H)
  | SetCost id c => upd_net_id H id (set_cost c)
  | MoveVertex id =>
      C <- init_counts H ;;
      H1 <- sort_vertices_on_part H C ;;
      '(H2, _) <- move H1 C id ;; ret H2
  | RemoveFreeNets m => remove_free_nets H m
  | SimplifyDuplicates => simplify_duplicate_nets H
  end.

(** The arguments name things that exist (or do not exist yet). *)
Definition op_ok (o : op) (H : hg) : Prop :=
  match o with
  | AddVertex id ns w => id ∉ v_id <$> h_verts H ∧ NoDup ns ∧ ∀ nid, nid ∈ ns → nid ∈ n_id <$> h_nets H
  | AddNet id vs c => id ∉ n_id <$> h_nets H ∧ NoDup vs ∧ ∀ u, u ∈ vs → u ∈ v_id <$> h_verts H
  | RemoveNet id => id ∈ n_id <$> h_nets H
  | RemoveFreeVertex id => ∃ v, v ∈ h_verts H ∧ v_id v = id ∧ v_nets v = []
  | DeleteVertex id => id ∈ v_id <$> h_verts H
  | SortVertices => True
  | SetPart id p => id ∈ v_id <$> h_verts H
  | SetCost id c => id ∈ n_id <$> h_nets H
  | MoveVertex id => id ∈ v_id <$> h_verts H ∧ bisected H
  | RemoveFreeNets m => True
  | SimplifyDuplicates => True
  end.

(** [reaches H H']: some finite history of valid calls leads from [H] to [H']. *)
Inductive reaches (H : hg) : hg → Prop :=
| reaches_refl : reaches H H
| reaches_step H1 H2 o w w' :
    reaches H H1 → op_ok o H1 → run_op o H1 w = Ok (H2, w') → reaches H H2.

Lemma set_part_shape i p H : same_shape H (upd_vert i (set_part p) H).
Proof.
  split; try done.
  - simpl. apply Forall2_same_length_lookup. rewrite alter_length. split; [done|].
    intros j v v' Hv Hv'. destruct (decide (j = i)) as [->|].
    + rewrite list_lookup_alter, Hv in Hv'. by simplify_eq/=.
    + rewrite list_lookup_alter_ne, Hv in Hv' by done. by simplify_eq.
  - apply Forall2_refl, same_net_refl.
Qed.

Lemma wpe_run_op E o H (Q : hg → Prop) :
  consistent H → op_ok o H → (∀ H', consistent H' → Q H') → wpe E (run_op o H) Q.
Proof.
  intros HC Hok HQ. pose proof (co_vmap_ok _ HC) as HV. pose proof (co_nmap_ok _ HC) as HN.
  destruct o as [id ns wt|id vs c|id|id|id| |id p|id c|id|m|]; simpl in *.
  - destruct Hok as (Hid & Hnd & Hin).
    apply wpe_add_to_nets; [by apply (nmap_ok_ids H)|done|done|].
    apply HQ. exact (add_vertex_consistent H id ns wt HC Hid Hnd Hin).
  - destruct Hok as (Hid & Hnd & Hin).
    apply wpe_add_local_net; [done..|]. apply HQ. by apply (add_local_net_consistent H (Net id vs c 0)).
  - apply nids_elem in Hok as (n & Hn & <-). apply wpe_remove_net; [done..|]. auto.
  - destruct Hok as (v & Hv & <- & Hn). apply elem_of_list_lookup in Hv as [i Hi].
    eapply wpe_remove_free_vertex; [done..|]. apply HQ. by apply remove_vertex_result_consistent.
  - apply vids_elem in Hok as (v & Hv & <-). apply elem_of_list_lookup in Hv as [i Hi].
    eapply wpe_remove_free_vertex; [by apply (vmap_ok_ids H)|done|]. apply HQ. by apply delete_vertex_consistent.
  - apply wpe_ret, HQ. eapply same_shape_consistent; [apply sort_vertices_shape|done].
  - apply vids_elem in Hok as (v & Hv & <-). apply elem_of_list_lookup in Hv as [i Hi].
    apply wpe_bind. eapply wpe_local_id; [done..|]. apply wpe_ret, HQ.
    eapply same_shape_consistent; [apply set_part_shape|done].
  - apply nids_elem in Hok as (n & [i Hi]%elem_of_list_lookup & <-).
    eapply wpe_upd_net_id; [done..|]. apply HQ. by apply upd_net_consistent.
  - destruct Hok as [Hid HB]. apply vids_elem in Hid as (v & Hv & <-).
    apply wpe_bind, wpe_init_counts; [done..|]. intros C HCt.
    apply wpe_bind, wpe_sort_vertices_on_part; [done..|]. intros H1 HS Hvs Hso HCt1.
    assert (consistent H1) as HC1 by by eapply same_shape_consistent.
    assert (bisected H1) as HB1 by (unfold bisected; by rewrite Hvs).
    apply wpe_bind, wpe_move; [done..|by rewrite Hvs|]. intros H2 C2 HM _. apply wpe_ret, HQ.
    eapply same_shape_consistent; [apply HM|done].
  - apply wpe_remove_free_nets; [done|]. auto.
  - apply wpe_simplify; [done|]. intros H' HS. apply HQ, HS.
Qed.

Lemma reaches_consistent H H' : consistent H → reaches H H' → consistent H'.
Proof.
  intros HC HR. induction HR as [|H1 H2 o w w' _ IH Hok Hrun]; [done|].
  assert (wlp (run_op o H1) consistent) as Hw by (by apply wpe_run_op).
  by apply (wlp_run _ _ Hw) in Hrun.
Qed.

(** Lookups in a consistent hypergraph. *)
Lemma consistent_vert H id w :
  consistent H →
  (∀ v, v ∈ h_verts H → v_id v = id → vert H id w = Ok (v, w)) ∧
  (id ∉ vids H → is_local H id = false).
Proof.
  intros HC. split.
  - intros v Hv <-. pose proof (co_vmap_ok _ HC) as HV. pose proof Hv as [i Hi]%elem_of_list_lookup.
    unfold vert, local_id, bind, of_option, vert_at, assertM.
    rewrite (vmap_ok_lookup _ _ _ HV Hi). unfold ret. rewrite bool_decide_eq_true_2 by (by eapply lookup_lt_Some).
    by rewrite Hi.
  - intros Hid. unfold is_local. apply bool_decide_eq_false_2. intros [i Hi].
    apply (co_vmap_ok _ HC) in Hi. apply Hid. by eapply elem_of_list_lookup_2.
Qed.
Lemma consistent_get_net H id w :
  consistent H →
  (∀ n, n ∈ h_nets H → n_id n = id → get_net H id w = Ok (n, w)) ∧
  (id ∉ nids H → is_local_net H id = false).
Proof.
  intros HC. split.
  - intros n Hn <-. pose proof (co_nmap_ok _ HC) as HN. pose proof Hn as [i Hi]%elem_of_list_lookup.
    unfold get_net, bind, of_option. rewrite (nmap_ok_lookup _ _ _ HN Hi). unfold ret. by rewrite Hi.
  - intros Hid. unfold is_local_net. apply bool_decide_eq_false_2. intros [i Hi].
    apply (co_nmap_ok _ HC) in Hi. apply Hid. by eapply elem_of_list_lookup_2.
Qed.
