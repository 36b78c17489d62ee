(** Model of include/hypergraph/contraction.hpp, src/hypergraph/contraction.cpp and the sequential
    parts of src/multilevel_bisect/coarsen.cpp and src/multilevel_bisect/uncoarsen.cpp. *)
From Verif Require Export LabelProp.

(** contraction.hpp:17-29, 85-89: the fields.  [local_free_weight_] has no initial value in the
    code; it is only read after merge_free_vertices has set it. *)
Record contraction := Contr {
  c_samples : list Z;                (* ids_samples_ *)
  c_matches : list (list (Z * Z));   (* matches_: id and processor *)
  c_free : list (Z * Z);             (* free_vertices_: id and weight *)
  c_local_free : Z;                  (* local_free_weight_ *)
  c_global_free : Z;                 (* global_free_weight_ *)
}.
(** contraction.hpp:36 *)
Definition new_contraction : contraction := Contr [] [] [] 0 0.
(** contraction.hpp:38-41 (add_sample) *)
Definition add_sample (id : Z) (C : contraction) : contraction :=
  Contr (c_samples C ++ [id]) (c_matches C ++ [[]]) (c_free C) (c_local_free C) (c_global_free C).
(** contraction.hpp:52-55 (add_match) *)
Definition add_match (sample m proc : Z) (C : contraction) : M contraction :=
  assertM (bool_decide (0 ≤ sample < Z.of_nat (length (c_matches C)))) ;;;
  ret (Contr (c_samples C) (alter (λ ms, ms ++ [(m, proc)]) (Z.to_nat sample) (c_matches C))
         (c_free C) (c_local_free C) (c_global_free C)).

(** contraction.cpp:117-129 (remove_free_vertices_) *)
Definition remove_free_vertices (C : contraction) (H : hg) : M (contraction * hg * Z) :=
  let new := (λ v, (v_id v, v_weight v)) <$> filter (λ v, v_nets v = []) (h_verts H) in
  let total := foldl (λ t f, t + snd f) 0 new in
  let C1 := Contr (c_samples C) (c_matches C) (c_free C ++ new) (c_local_free C) (c_global_free C) in
  H1 <- foldM (λ H f, remove_free_vertex H (fst f)) (c_free C1) H ;;
  ret (C1, H1, total).
(** contraction.cpp:23-28 (merge_free_vertices, local) *)
Definition merge_free_vertices (C : contraction) (H : hg) : M (contraction * hg) :=
  r <- remove_free_vertices C H ;;
  let C1 := fst (fst r) in
  let H1 := snd (fst r) in
  let t := snd r in
  ret (Contr (c_samples C1) (c_matches C1) (c_free C1) t t, with_gsize (Z.of_nat (length (h_verts H1))) H1).

(** H.add_vertex(id, {}, weight); H(H.local_id(id)).set_part(part) *)
Definition put_back (H : hg) (id w part : Z) : M hg :=
  let H1 := add_vertex H id [] w in
  i <- local_id H1 id ;; ret (upd_vert i (set_part part) H1).

(** contraction.cpp:131-138 (assign_all_vertices_) *)
Definition assign_all_vertices (C : contraction) (H : hg) (part : Z) : M hg :=
  foldM (λ H f, put_back H (fst f) (snd f) part) (c_free C) H.

(** std::sort by decreasing weight: ties in any order *)
Definition by_weight (a b : Z * Z) : Prop := snd b ≤ snd a.
Global Instance by_weight_dec a b : Decision (by_weight a b).
Proof. unfold by_weight. apply _. Defined.
Definition sort_free (l : list (Z * Z)) : M (list (Z * Z)) :=
  l' <- shuffleM l ;; ret (merge_sort by_weight l').

(** contraction.cpp:150-167: the side of one free vertex *)
Definition free_side (ws mx : Z * Z) (w : Z) : M Z :=
  if decide (fst ws + w > fst mx ∧ snd ws + w > snd mx) then ret 0
  else if decide (fst ws + w > fst mx) then ret 1
  else if decide (snd ws + w > snd mx) then ret 0
  else if decide (fst ws * snd mx < snd ws * fst mx) then ret 0
  else if decide (fst ws * snd mx > snd ws * fst mx) then ret 1
  else z <- rng ;; umod z 2.
(** contraction.cpp:141-172 (assign_free_vertices_) *)
Definition assign_free_vertices_ (C : contraction) (H : hg) (ws mx : Z * Z) : M (contraction * hg * (Z * Z)) :=
  fs <- sort_free (c_free C) ;;
  r <- foldM (λ s f,
    p <- free_side (snd s) mx (snd f) ;;
    ws' <- padd (snd s) p (snd f) ;;
    H' <- put_back (fst s) (fst f) (snd f) p ;;
    ret (H', ws')) fs (H, ws) ;;
  ret (Contr (c_samples C) (c_matches C) fs (c_local_free C) (c_global_free C), fst r, snd r).
(** the vector of two weights *)
Definition weights2 (H : hg) : M (Z * Z) :=
  l <- weight_all_parts H 2 ;; a <- idx l 0 ;; b <- idx l 1 ;; ret (a, b).
(** contraction.cpp:34-52 (assign_free_vertices, local) *)
Definition assign_free_vertices (C : contraction) (H : hg) (mx : Z * Z) : M (contraction * hg * (Z * Z)) :=
  ws <- weights2 H ;;
  if decide (c_global_free C = 0) then ret (C, H, ws) else assign_free_vertices_ C H ws mx.

(** hypergraph.hpp:70-72 (scaled_cost) *)
Definition scaled_cost (n : net) : dbl := d_div (d_of_Z (n_cost n)) (d_sub (d_of_Z (n_gsize n)) d_one).

(** coarsen.cpp:326-367: the variables of coarsen_hypergraph_seq *)
Record cs_state := CS {
  cs_matches : list (list Z);
  cs_matched : list bool;
  cs_new : list vertex;
  cs_ip : list dbl;
}.
(** coarsen.cpp:381-385 (add_v_to_list): a new vertex has part -1 *)
Definition add_v_to_list (l : list vertex) (v : vertex) : list vertex :=
  l ++ [Vertex (v_id v) (v_nets v) (v_weight v) (-1)].

(** coarsen.cpp:334-346: the inner products with the unmatched neighbours; state (visited, ip) *)
Definition cs_visit (H : hg) (matched : list bool) (i : nat) (v : vertex) (ip : list dbl) : M (list nat * list dbl) :=
  foldM (λ s nid,
    n <- get_net H nid ;;
    foldM (λ s uid,
      u <- local_id H uid ;;
      m <- nidx matched u ;;
      if negb m && bool_decide (u ≠ i) then
        x <- nidx (snd s) u ;;
        ret (if d_eq x d_zero then fst s ++ [u] else fst s, <[u := d_add x (scaled_cost n)]> (snd s))
      else ret s) (n_verts n) s) (v_nets v) ([], ip).
(** coarsen.cpp:348-356: the best match; state (ip, max_ip, best_match); None is -1 *)
Definition cs_best (H : hg) (mcs : Z) (matches : list (list Z)) (v : vertex) (visited : list nat) (ip : list dbl) :
    M (list dbl * dbl * option nat) :=
  foldM (λ s u,
    x <- nidx (fst (fst s)) u ;;
    vu <- vert_at H u ;;
    let deg := Z.min (Z.of_nat (length (v_nets v))) (Z.of_nat (length (v_nets vu))) in
    let y := d_mul x (d_div d_one (d_of_Z deg)) in
    mu <- nidx matches u ;;
    ret (if d_lt (snd (fst s)) y && bool_decide (Z.of_nat (length mu) < mcs)
         then (<[u := y]> (fst (fst s)), y, Some u)
         else (<[u := y]> (fst (fst s)), snd (fst s), snd s))) visited (ip, d_zero, None).
(** coarsen.cpp:330-376: one vertex of the order *)
Definition cs_vertex (H : hg) (mcs : Z) (s : cs_state) (i : nat) : M cs_state :=
  v <- vert_at H i ;;
  mi <- nidx (cs_matches s) i ;;
  if decide (mi = []) then
    r <- cs_visit H (cs_matched s) i v (cs_ip s) ;;
    b <- cs_best H mcs (cs_matches s) v (fst r) (snd r) ;;
    let ip' := foldl (λ ip u, <[u := d_zero]> ip) (fst (fst b)) (fst r) in
    match snd b with
    | Some u => ret (CS (alter (λ ms, ms ++ [v_id v]) u (cs_matches s)) (<[i := true]> (cs_matched s)) (cs_new s) ip')
    | None => ret (CS (cs_matches s) (cs_matched s) (add_v_to_list (cs_new s) v) ip')
    end
  else ret (CS (cs_matches s) (cs_matched s) (add_v_to_list (cs_new s) v) (cs_ip s)).

(** coarsen.cpp:404-428: one vertex [k] of the new hypergraph; state (HC, C) *)
Definition contract_vertex (H : hg) (matches : list (list Z)) (s : hg * contraction) (k : nat) : M (hg * contraction) :=
  v <- nidx (h_verts (fst s)) k ;;
  i <- local_id H (v_id v) ;;
  let C1 := add_sample (v_id v) (snd s) in
  HC1 <- foldM (λ HC n, upd_net_id HC n (n_add_vertex (v_id v))) (v_nets v) (fst s) ;;
  ms <- nidx matches i ;;
  if decide (ms = []) then ret (HC1, C1) else
  r <- foldM (λ s m,
    C' <- add_match (Z.of_nat k) m 0 (snd (fst s)) ;;
    u <- vert H m ;;
    t <- foldM (λ t n,
      if decide (n ∈ snd t) then ret t else
      HC' <- upd_net_id (upd_vert k (v_add_net n) (fst t)) n (n_add_vertex (v_id v)) ;;
      ret (HC', {[n]} ∪ snd t)) (v_nets u) (upd_vert k (add_weight (v_weight u)) (fst (fst s)), snd s) ;;
    ret (fst t, C', snd t)) ms (HC1, C1, list_to_set (v_nets v) : gset Z) ;;
  ret (fst r).
(** coarsen.cpp:387-434 (contract_hypergraph, sequential; world.rank() is 0) *)
Definition contract_seq (H : hg) (C : contraction) (matches : list (list Z)) (new_v : list vertex) : M (hg * contraction) :=
  let new_nets := (λ n, Net (n_id n) [] (n_cost n) 0) <$> h_nets H in
  let HC := mk_hg (Z.of_nat (length new_v)) (h_gnets H) new_v new_nets 0 in
  r <- foldM (contract_vertex H matches) (seq 0 (length new_v)) (HC, C) ;;
  HC2 <- remove_free_nets (fst r) 1 ;;
  f <- merge_free_vertices (snd r) HC2 ;;
  ret (snd f, fst f).
(** coarsen.cpp:311-379 (coarsen_hypergraph_seq) *)
Definition coarsen_seq (H : hg) (C : contraction) (opts : options) : M (hg * contraction) :=
  let n := length (h_verts H) in
  order <- shuffleM (seq 0 n) ;;
  s <- foldM (cs_vertex H (o_max_clustersize opts)) order
         (CS (replicate n []) (replicate n false) [] (replicate n d_zero)) ;;
  contract_seq H C (cs_matches s) (cs_new s).

(** uncoarsen.cpp:97-117 (uncoarsen_hypergraph, local) *)
Definition uncoarsen (HC H : hg) (C : contraction) : M hg :=
  H1 <- foldM (λ H v,
    match h_vmap H !! v_id v with
    | Some i => _ <- vert_at H i ;; ret (upd_vert i (set_part (v_part v)) H)
    | None => ret H
    end) (h_verts HC) H ;;
  foldM (λ H i,
    sample <- nidx (c_samples C) i ;;
    v <- vert HC sample ;;
    ms <- nidx (c_matches C) i ;;
    foldM (λ H m, j <- local_id H (fst m) ;; ret (upd_vert j (set_part (v_part v)) H)) ms H)
    (seq 0 (length (c_samples C))) H1.
(** uncoarsen.cpp:25-39 (uncoarsen_hypergraph_seq): the fine hypergraph and the returned cut *)
Definition uncoarsen_seq (HC H : hg) (C : contraction) (opts : options) (mx : Z * Z) : M (hg * Z) :=
  a <- assign_free_vertices C HC mx ;;
  H1 <- uncoarsen (snd (fst a)) H C ;;
  cs <- init_counts H1 ;;
  o <- klfm H1 cs (snd a) mx opts long_max ;;
  ret (ko_H o, ko_cut o).
