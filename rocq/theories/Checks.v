(** Model of the self-checks of the program: hypergraph::check_maps and gain_structure::check_gains.  A printed line is an element of the result. *)
From Verif Require Export Klfm Par.
Local Open Scope list_scope.

(** the lines that check_maps prints, hypergraph.cpp:251-275 *)
Inductive complaint := VertexNotFound | VertexIndexWrong | NetNotFound | NetIndexWrong.
(** a loop that prints: the lines of all rounds, in order *)
Definition printed {A B} (f : A → M (list B)) (l : list A) : M (list B) := xs <- mapP f l ;; ret (concat xs).
(** hypergraph.cpp:251-255 and 265-269: find, then vertices_[local_id(id)]; local_id asserts that the index is in range *)
Definition check_vertex_id (H : hg) (id : Z) : M (list complaint) :=
  match h_vmap H !! id with
  | None => ret [VertexNotFound]
  | Some _ => i <- local_id H id ;; v <- nidx (h_verts H) i ;; ret (if decide (v_id v ≠ id) then [VertexIndexWrong] else [])
  end.
(** hypergraph.cpp:257-261 and 271-275: find, then nets_[local_id_net(id)], which is not checked *)
Definition check_net_id (H : hg) (id : Z) : M (list complaint) :=
  match h_nmap H !! id with
  | None => ret [NetNotFound]
  | Some _ => i <- local_id_net H id ;; n <- nidx (h_nets H) i ;; ret (if decide (n_id n ≠ id) then [NetIndexWrong] else [])
  end.
(** hypergraph.cpp:249-278 (check_maps) *)
Definition check_maps (H : hg) : M (list complaint) :=
  a <- printed (λ v, x <- check_vertex_id H (v_id v) ;; y <- printed (check_net_id H) (v_nets v) ;; ret (x ++ y)) (h_verts H) ;;
  b <- printed (λ n, x <- printed (check_vertex_id H) (n_verts n) ;; y <- check_net_id H (n_id n) ;; ret (x ++ y)) (h_nets H) ;;
  ret (a ++ b).

(** gain_buckets.cpp:295-316 (check_gains): id, recorded gain and right gain of the vertices that are reported *)
Definition check_gains (G : gstruct) : M (list (Z * Z * Z)) :=
  printed (λ i,
    g <- nidx (g_gains G) i ;;
    if decide (g ≠ long_min) then
      v <- vert_at (g_H G) i ;;
      t <- compute_gain (g_H G) (g_C G) v ;;
      ret (if decide (t ≠ g) then [(v_id v, g, t)] else [])
    else ret []) (seq 0 (length (h_verts (g_H G)))).
