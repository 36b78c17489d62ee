(** Model of include/hypergraph/hypergraph.hpp and the sequential part of
    src/hypergraph/hypergraph.cpp. *)
From Verif Require Export Spec.

(** ** Record updates *)
Definition with_verts (vs : list vertex) (H : hg) : hg :=
  Hg (h_gsize H) (h_gnets H) vs (h_nets H) (h_nz H) (h_vmap H) (h_nmap H) (h_dups H).
Definition with_nets (ns : list net) (H : hg) : hg :=
  Hg (h_gsize H) (h_gnets H) (h_verts H) ns (h_nz H) (h_vmap H) (h_nmap H) (h_dups H).
Definition with_vmap (m : gmap Z nat) (H : hg) : hg :=
  Hg (h_gsize H) (h_gnets H) (h_verts H) (h_nets H) (h_nz H) m (h_nmap H) (h_dups H).
Definition with_nmap (m : gmap Z nat) (H : hg) : hg :=
  Hg (h_gsize H) (h_gnets H) (h_verts H) (h_nets H) (h_nz H) (h_vmap H) m (h_dups H).
Definition with_dups (d : list (net * Z)) (H : hg) : hg :=
  Hg (h_gsize H) (h_gnets H) (h_verts H) (h_nets H) (h_nz H) (h_vmap H) (h_nmap H) d.
(** hypergraph.hpp:195 (set_global_size) *)
Definition with_gsize (s : Z) (H : hg) : hg :=
  Hg s (h_gnets H) (h_verts H) (h_nets H) (h_nz H) (h_vmap H) (h_nmap H) (h_dups H).

(** hypergraph.hpp:35-38 (set_id, add_weight, set_part, add_net) *)
Definition set_id (z : Z) (v : vertex) : vertex := Vertex z (v_nets v) (v_weight v) (v_part v).
Definition add_weight (z : Z) (v : vertex) : vertex := Vertex (v_id v) (v_nets v) (v_weight v + z) (v_part v).
Definition set_part (p : Z) (v : vertex) : vertex := Vertex (v_id v) (v_nets v) (v_weight v) p.
Definition v_add_net (n : Z) (v : vertex) : vertex := Vertex (v_id v) (v_nets v ++ [n]) (v_weight v) (v_part v).
Definition set_vnets (ns : list Z) (v : vertex) : vertex := Vertex (v_id v) ns (v_weight v) (v_part v).
(** hypergraph.hpp:66-68 (set_cost, set_global_size, add_vertex) *)
Definition set_cost (c : Z) (n : net) : net := Net (n_id n) (n_verts n) c (n_gsize n).
Definition set_ngsize (s : Z) (n : net) : net := Net (n_id n) (n_verts n) (n_cost n) s.
Definition n_add_vertex (v : Z) (n : net) : net := Net (n_id n) (n_verts n ++ [v]) (n_cost n) (n_gsize n).
Definition set_nverts (vs : list Z) (n : net) : net := Net (n_id n) vs (n_cost n) (n_gsize n).

(** vertices_[i] = f(vertices_[i]), nets_[i] = f(nets_[i]) *)
Definition upd_vert (i : nat) (f : vertex → vertex) (H : hg) : hg :=
  with_verts (alter f i (h_verts H)) H.
Definition upd_net (i : nat) (f : net → net) (H : hg) : hg :=
  with_nets (alter f i (h_nets H)) H.

(** std::iter_swap(begin + i, end - 1); pop_back() *)
Definition swap_pop {A} (l : list A) (i : nat) : list A :=
  match last l with
  | Some x => take (length l - 1) (<[i := x]> l)
  | None => l
  end.

(** std::iter_swap(l.begin() + i, l.begin() + j); out-of-range iterators are UB. *)
Definition iter_swap {A} (l : list A) (i j : Z) : M (list A) :=
  x <- idx l i ;;
  y <- idx l j ;;
  ret (zinsert i y (zinsert j x l)).

(** ** Accessors *)

(** hypergraph.hpp:177-182 (local_id): two asserts *)
Definition local_id (H : hg) (id : Z) : M nat :=
  i <- of_option Abort (h_vmap H !! id) ;;
  assertM (bool_decide (i < length (h_verts H))%nat) ;;;
  ret i.

(** hypergraph.hpp:184-186 (local_id_net): unordered_map::at throws *)
Definition local_id_net (H : hg) (id : Z) : M nat := of_option Throw (h_nmap H !! id).

(** hypergraph.hpp:188-193 (is_local, is_local_net) *)
Definition is_local (H : hg) (id : Z) : bool := bool_decide (is_Some (h_vmap H !! id)).
Definition is_local_net (H : hg) (id : Z) : bool := bool_decide (is_Some (h_nmap H !! id)).

(** hypergraph.hpp:202-205 (operator()): assert on the index *)
Definition vert_at (H : hg) (i : nat) : M vertex := of_option Abort (h_verts H !! i).

(** The expression H(H.local_id(id)) *)
Definition vert (H : hg) (id : Z) : M vertex := i <- local_id H id ;; vert_at H i.

(** hypergraph.hpp:210-215 (net): asserts *)
Definition get_net (H : hg) (id : Z) : M net :=
  i <- of_option Abort (h_nmap H !! id) ;;
  of_option Abort (h_nets H !! i).

(** Apply [f] to the net with this id, through the same lookup as [get_net]. *)
Definition upd_net_id (H : hg) (id : Z) (f : net → net) : M hg :=
  i <- of_option Abort (h_nmap H !! id) ;;
  assertM (bool_decide (i < length (h_nets H))%nat) ;;;
  ret (upd_net i f H).

(** hypergraph.cpp:218-230 (update_map, update_map_nets) *)
Definition index_map (ids : list Z) : gmap Z nat :=
  foldl (λ m '(i, id), <[id := i]> m) ∅ (imap (λ i id, (i, id)) ids).
Definition update_map (H : hg) : hg := with_vmap (index_map (v_id <$> h_verts H)) H.
Definition update_map_nets (H : hg) : hg := with_nmap (index_map (n_id <$> h_nets H)) H.

(** hypergraph.hpp:87-96: the constructor *)
Definition mk_hg (gsize gnets : Z) (vs : list vertex) (ns : list net) (nz : Z) : hg :=
  update_map_nets (update_map (Hg gsize gnets vs ns nz ∅ ∅ [])).

(** hypergraph.hpp:98-114: the copy constructor.  Costs get the default value 1,
    duplicate_nets_ is left empty. *)
Definition copy_hg (H : hg) : M hg :=
  let ns := (λ n, Net (n_id n) [] 1 (n_gsize n)) <$> h_nets H in
  ns' <- foldM (λ ns v,
           foldM (λ ns nid,
             i <- local_id_net H nid ;;
             _ <- nidx ns i ;;
             ret (alter (n_add_vertex (v_id v)) i ns)) (v_nets v) ns)
         (h_verts H) ns ;;
  ret (update_map_nets (update_map
        (Hg (h_gsize H) (h_gnets H) (h_verts H) ns' (h_nz H) ∅ ∅ []))).

(** hypergraph.cpp:22-28 (vertex::remove_net); also the pattern of remove_from_nets *)
Definition remove_value (x : Z) (l : list Z) : list Z :=
  match list_find (x =.) l with
  | Some (i, _) => swap_pop l i
  | None => l
  end.
Definition vertex_remove_net (n : Z) (v : vertex) : vertex :=
  set_vnets (remove_value n (v_nets v)) v.

(** hypergraph.cpp:30-36 (total_weight) *)
Definition total_weight (H : hg) : Z :=
  foldl (λ t v, t + v_weight v) 0 (h_verts H).

(** hypergraph.cpp:39-47 (weight_part) *)
Definition weight_part (H : hg) (p : Z) : Z :=
  foldl (λ t v, if decide (v_part v = p) then t + v_weight v else t) 0 (h_verts H).

(** hypergraph.cpp:50-56 (weight_all_parts): total[part] is unchecked *)
Definition weight_all_parts (H : hg) (k : Z) : M (list Z) :=
  foldM (λ t v,
    x <- idx t (v_part v) ;;
    ret (zinsert (v_part v) (x + v_weight v) t)) (h_verts H) (replicate (Z.to_nat k) 0).

(** hypergraph.cpp:59-62 (add_vertex) *)
Definition add_vertex (H : hg) (id : Z) (ns : list Z) (w : Z) : hg :=
  with_vmap (<[id := length (h_verts H)]> (h_vmap H))
    (with_verts (h_verts H ++ [Vertex id ns w (-1)]) H).

(** hypergraph.cpp:73-78 (add_net): new nets get global size 0 *)
Definition add_net (H : hg) (id : Z) (vs : list Z) (c : Z) : hg :=
  match h_nmap H !! id with
  | Some _ => H
  | None =>
      with_nmap (<[id := length (h_nets H)]> (h_nmap H))
        (with_nets (h_nets H ++ [Net id vs c 0]) H)
  end.

(** hypergraph.cpp:65-70 (add_local_net) *)
Definition add_local_net (H : hg) (n : net) : M hg :=
  foldM (λ H u,
    i <- local_id H u ;;
    ret (upd_vert i (v_add_net (n_id n)) H))
    (n_verts n) (add_net H (n_id n) (n_verts n) (n_cost n)).

(** hypergraph.cpp:80-84 (add_to_nets) *)
Definition add_to_nets (H : hg) (v : vertex) : M hg :=
  foldM (λ H nid,
    i <- local_id_net H nid ;;
    _ <- nidx (h_nets H) i ;;
    ret (upd_net i (n_add_vertex (v_id v)) H)) (v_nets v) H.

(** hypergraph.cpp:87-95 (remove_from_nets) *)
Definition remove_from_nets (H : hg) (id : Z) : hg :=
  with_nets ((λ n, set_nverts (remove_value id (n_verts n)) n) <$> h_nets H) H.

(** hypergraph.cpp:98-104 (remove_free_vertex).  global_to_local[id] inserts 0 for
    an unknown id.  If the removed vertex is the last one, vertices_[index] is read
    after pop_back: logged; the stale object still holds the id just removed. *)
Definition remove_free_vertex (H : hg) (id : Z) : M hg :=
  let i := default 0%nat (h_vmap H !! id) in
  v <- nidx (h_verts H) i ;;
  let vs := swap_pop (h_verts H) i in
  id' <- (match vs !! i with
          | Some v' => ret (v_id v')
          | None => log_tag StaleVertexRead ;;; ret (v_id v)
          end) ;;
  ret (with_vmap (delete id (<[id' := i]> (h_vmap H))) (with_verts vs H)).

(** hypergraph.cpp:107-116 (remove_net_by_index); same remark on the last net *)
Definition remove_net_by_index (H : hg) (i : nat) : M hg :=
  n <- nidx (h_nets H) i ;;
  H1 <- foldM (λ H u,
          j <- local_id H u ;;
          ret (upd_vert j (vertex_remove_net (n_id n)) H)) (n_verts n) H ;;
  let ns := swap_pop (h_nets H1) i in
  id' <- (match ns !! i with
          | Some n' => ret (n_id n')
          | None => log_tag StaleNetRead ;;; ret (n_id n)
          end) ;;
  ret (with_nmap (delete (n_id n) (<[id' := i]> (h_nmap H1))) (with_nets ns H1)).

(** hypergraph.hpp:145 (remove_net) *)
Definition remove_net (H : hg) (id : Z) : M hg :=
  i <- local_id_net H id ;; remove_net_by_index H i.

(** hypergraph.cpp:119-122 (remove_duplicate_net) *)
Definition remove_duplicate_net (H : hg) (id dup : Z) : M hg :=
  n <- get_net H id ;;
  remove_net (with_dups (h_dups H ++ [(n, dup)]) H) id.

(** hypergraph.cpp:125-131 (reset_duplicate_nets): duplicate_nets_ is not cleared *)
Definition reset_duplicate_nets (H : hg) : M hg :=
  foldM (λ H '(n, kept),
    H1 <- add_local_net H n ;;
    m <- get_net H1 kept ;;
    upd_net_id H1 kept (set_cost (n_cost m - n_cost n))) (h_dups H) H.

(** hypergraph.cpp:134-139 (sort_vertices) *)
Definition sort_vertices (H : hg) : hg :=
  with_nets ((λ n, set_nverts (merge_sort Z.le (n_verts n)) n) <$> h_nets H) H.

(** hypergraph.cpp:142-160 (sort_vertices_on_part), one net.  [c0] is C[i][0]. *)
Definition sort_net_on_part (H : hg) (c0 : Z) (vl : list Z) : M (list Z) :=
  '(vl', _, _) <- loopM (Z.to_nat c0 + length vl + 1)
    (λ '(vl, index, en),
       if decide (index < c0) then
         u <- idx vl index ;;
         v <- vert H u ;;
         if decide (v_part v = 0) then ret (true, (vl, index + 1, en)) else
         en' <- loopM (length vl + 1)
           (λ en, x <- idx vl en ;;
                  y <- vert H x ;;
                  if decide (v_part y = 1) then ret (true, en - 1) else ret (false, en)) en ;;
         vl' <- iter_swap vl index en' ;;
         ret (true, (vl', index, en' - 1))
       else ret (false, (vl, index, en)))
    (vl, 0, Z.of_nat (length vl) - 1) ;;
  ret vl'.
Definition sort_vertices_on_part (H : hg) (C : list (Z * Z)) : M hg :=
  foldM (λ H i,
    n <- nidx (h_nets H) i ;;
    c <- nidx C i ;;
    vl <- sort_net_on_part H (fst c) (n_verts n) ;;
    ret (upd_net i (set_nverts vl) H)) (seq 0 (length (h_nets H))) H.

(** C[i][p] and C[i][p] += d with C a vector of vectors of length 2 *)
Definition pget (c : Z * Z) (p : Z) : M Z :=
  if decide (p = 0) then ret (fst c) else if decide (p = 1) then ret (snd c) else fail UB.
Definition padd (c : Z * Z) (p d : Z) : M (Z * Z) :=
  if decide (p = 0) then ret (fst c + d, snd c)
  else if decide (p = 1) then ret (fst c, snd c + d) else fail UB.
(** The expressions C[H.local_id_net(n)][p] and C[H.local_id_net(n)][p] += d *)
Definition cget (H : hg) (C : list (Z * Z)) (n p : Z) : M Z :=
  i <- local_id_net H n ;; c <- nidx C i ;; pget c p.
Definition cadd (H : hg) (C : list (Z * Z)) (n p d : Z) : M (list (Z * Z)) :=
  i <- local_id_net H n ;; c <- nidx C i ;; c' <- padd c p d ;; ret (<[i := c']> C).

(** the scans "while (vertex_list[index] != id) index++" of move_sorted *)
Definition scan_for (vl : list Z) (id : Z) (start : Z) : M Z :=
  loopM (length vl + 1)
    (λ i, x <- idx vl i ;; if decide (x = id) then ret (false, i) else ret (true, i + 1)) start.

(** hypergraph.cpp:163-190 (move_sorted).  C++ % truncates: [Z.rem]. *)
Definition flip_part (p : Z) : Z := Z.rem (p + 1) 2.
Definition move_sorted (H : hg) (C : list (Z * Z)) (id : Z) : M hg :=
  i <- local_id H id ;;
  v <- nidx (h_verts H) i ;;
  let p := flip_part (v_part v) in
  let H1 := upd_vert i (set_part p) H in
  foldM (λ H nid,
    n <- get_net H nid ;;
    c0 <- cget H C nid 0 ;;
    let target := if decide (p = 0) then c0 else c0 - 1 in
    index <- scan_for (n_verts n) id (if decide (p = 0) then c0 else 0) ;;
    vl <- iter_swap (n_verts n) index target ;;
    upd_net_id H nid (set_nverts vl)) (v_nets v) H1.

(** hypergraph.cpp:192-201 (move) *)
Definition move (H : hg) (C : list (Z * Z)) (id : Z) : M (hg * list (Z * Z)) :=
  i <- local_id H id ;;
  v <- nidx (h_verts H) i ;;
  let from := v_part v in
  H' <- move_sorted H C id ;;
  v' <- nidx (h_verts H') i ;;
  let to := v_part v' in
  C' <- foldM (λ C nid,
          C1 <- cadd H' C nid from (-1) ;;
          cadd H' C1 nid to 1) (v_nets v') C ;;
  ret (H', C').

(** hypergraph.cpp:232-236 (set_global_net_sizes) *)
Definition set_global_net_sizes (H : hg) (sizes : list Z) : M hg :=
  foldM (λ H i, s <- nidx sizes i ;; ret (upd_net i (set_ngsize s) H))
    (seq 0 (length (h_nets H))) H.

(** hypergraph.cpp:283-292 (init_counts) *)
Definition init_counts (H : hg) : M (list (Z * Z)) :=
  foldM (λ C v,
    foldM (λ C nid, cadd H C nid (v_part v) 1) (v_nets v) C)
    (h_verts H) (replicate (length (h_nets H)) (0, 0)).

(** The set labels_net built in hypergraph.cpp:416-419 and 428-431 *)
Definition net_labels (H : hg) (n : net) : M (gset Z) :=
  foldM (λ X u, v <- vert H u ;; ret ({[v_part v]} ∪ X)) (n_verts n) ∅.

(** hypergraph.cpp:411-444 (cutsize of a local hypergraph) *)
Definition cutsize (H : hg) (m : metric) : M Z :=
  foldM (λ r n,
    X <- net_labels H n ;;
    ret (if decide (1 < size X)%nat then
           match m with
           | CutNet => r + n_cost n
           | LambdaMinusOne => r + (Z.of_nat (size X) - 1) * n_cost n
           end
         else r)) (h_nets H) 0.

(** hypergraph.cpp:505-513 (cutsize from the counts) *)
Definition cutsize_counts (H : hg) (C : list (Z * Z)) : M Z :=
  foldM (λ r i,
    c <- nidx C i ;;
    if decide (0 < fst c ∧ 0 < snd c) then
      n <- nidx (h_nets H) i ;; ret (r + n_cost n)
    else ret r) (seq 0 (length C)) 0.

(** hypergraph.cpp:579-591 (remove_free_nets, local); the removal order is the hash order *)
Definition remove_free_nets (H : hg) (max_size : Z) : M hg :=
  let small n := bool_decide (Z.of_nat (length (n_verts n)) ≤ max_size) in
  let ids : gset Z := list_to_set (n_id <$> filter (λ n, small n = true) (h_nets H)) in
  let H1 := with_nets ((λ n, if small n then n
                             else set_ngsize (Z.of_nat (length (n_verts n))) n) <$> h_nets H) H in
  order <- shuffleM (elements ids) ;;
  foldM (λ H id, i <- local_id_net H id ;; remove_net_by_index H i) order H1.

(** conversion of a long to the int of std::map<std::vector<long>, int> *)
Definition wrap32 (z : Z) : Z := (z + 2147483648) `mod` 4294967296 - 2147483648.

(** hypergraph.cpp:596-620 (simplify_duplicate_nets) *)
Definition simplify_duplicate_nets (H0 : hg) : M hg :=
  let H := sort_vertices H0 in
  let maps := foldl (λ '(cm, im) n,
      (<[n_verts n := wrap32 (default 0 (cm !! n_verts n) + n_cost n)]> cm,
       <[n_verts n := n_id n]> im)) (∅ : gmap (list Z) Z, ∅ : gmap (list Z) Z) (h_nets H) in
  let costs := fst maps in
  let ids := snd maps in
  let kept n := default 0 (ids !! n_verts n) in
  let rem := (λ n, (n_id n, kept n)) <$> filter (λ n, kept n ≠ n_id n) (h_nets H) in
  let H1 := with_nets ((λ n, if decide (kept n = n_id n)
                             then set_cost (default 0 (costs !! n_verts n)) n else n) <$> h_nets H) H in
  foldM (λ H '(id, dup), remove_duplicate_net H id dup) rem H1.
