(** Model of src/bisect.cpp for a world of one processor, and of create_new_hypergraph
    (src/hypergraph/hypergraph.cpp).  bisect_random is in LabelProp.v. *)
From Verif Require Export Coarsen Par.

(** hypergraph.cpp:629-640: the local part of create_new_hypergraph.  The iterator range is
    undefined unless 0 <= start <= end <= size.  The global size is filled in by [create_new]. *)
Definition create_new_local (H : hg) (st en : Z) : M hg :=
  guardM UB (bool_decide (0 ≤ st ≤ en ∧ en ≤ Z.of_nat (length (h_verts H)))) ;;;
  let vs := take (Z.to_nat (en - st)) (drop (Z.to_nat st) (h_verts H)) in
  ns <- foldM (λ ns v,
          foldM (λ ns nid,
            i <- local_id_net H nid ;;
            _ <- nidx ns i ;;
            ret (alter (n_add_vertex (v_id v)) i ns)) (v_nets v) ns)
        vs ((λ n, Net (n_id n) [] 1 0) <$> h_nets H) ;;
  ret (mk_hg 0 (h_gnets H) vs ns 0).

Section bisect.
  Context (bp : Z → Z → partitioning).

  (** hypergraph.cpp:626-648 (create_new_hypergraph), on every processor: its hypergraph, start and end *)
  Definition create_new (jobs : list (hg * (Z * Z))) : M (list hg) :=
    ls <- mapP (λ j, create_new_local (fst j) (fst (snd j)) (snd (snd j))) jobs ;;
    remove_free_nets_par bp (recompute_global_size ls) 1.

  (** bisect.cpp:185-212, 214-224 and 227-255: sequential coarsening, initial partitioning and
      sequential uncoarsening.  HC_list and C_list are stacks: level [nc_tot] is pushed by one round
      of coarsening and popped by the matching round of uncoarsening, so they are the call stack
      here.  push_back of a returned hypergraph moves it.  simplify_duplicates is true. *)
  Fixpoint ml_rounds (rounds : nat) (H : hg) (mx : Z * Z) (opts : options) : M (hg * Z) :=
    match rounds with
    | S rounds' =>
      if decide (h_gsize H > o_nrvertices opts) then
        H1 <- simplify_duplicate_nets H ;;
        c <- coarsen_seq H1 new_contraction opts ;;
        r <- ml_rounds rounds' (fst c) mx opts ;;
        u <- uncoarsen_seq (fst r) H1 (snd c) opts mx ;;
        H2 <- reset_duplicate_nets (fst u) ;;
        ret (H2, snd u)
      else initial_partitioning H mx opts
    | O => initial_partitioning H mx opts
    end.

  (** bisect.cpp:329-332: H(H.local_id(v.id())).set_part(labels(v.part())) for all v *)
  Definition write_labels (K H : hg) (labels : Z * Z) : M hg :=
    foldM (λ H v, i <- local_id H (v_id v) ;;
                  ret (upd_vert i (set_part (interval_at labels (v_part v))) H)) (h_verts K) H.

  (** bisect.cpp:84-339 (bisect_multilevel) with one processor *)
  Definition bisect_multilevel1 (H : hg) (opts : options) (mx : Z * Z) (st en : Z) (labels : Z * Z) :
      M (hg * (Z * Z)) :=
    Rs <- create_new [(H, (st, en))] ;;
    R <- nidx Rs 0 ;;
    K0 <- copy_hg R ;;
    f <- merge_free_vertices new_contraction K0 ;;
    r <- ml_rounds (Z.to_nat (o_maxrounds opts)) (snd f) mx opts ;;
    a <- assign_free_vertices (fst f) (fst r) mx ;;
    let K := snd (fst a) in
    H' <- write_labels K H labels ;;
    ret (H', (weight_part K 0, weight_part K 1)).

  (** bisect.cpp:27-51 (bisect) with one processor *)
  Definition bisect1 (H : hg) (opts : options) (mx : Z * Z) (st en : Z) (labels : Z * Z) : M (hg * (Z * Z)) :=
    match o_bisection opts with
    | BisRandom => bisect_random H mx st en labels
    | BisMultilevel => bisect_multilevel1 H opts mx st en labels
    end.
End bisect.
