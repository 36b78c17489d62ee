(** Model of the distributed part of src/hypergraph/hypergraph.cpp and of include/algorithm.hpp.
    The state of a world is the list of the processors' local hypergraphs, in rank order.  Local
    computations of a superstep are run one after the other; they share no state, and all of
    them read from the one arbitrary tape. *)
From Verif Require Export LabelProp SpecPar.

(** one local computation per processor *)
Fixpoint mapP {A B} (f : A → M B) (l : list A) : M (list B) :=
  match l with
  | [] => ret []
  | x :: l' => y <- f x ;; r <- mapP f l' ;; ret (y :: r)
  end.

(** bulk::queue followed by world.sync(): processor [t] has sent the messages [outs !! t], each with
    its destination; every processor then sees its messages in an arbitrary order.  A destination that
    is no rank is undefined. *)
Definition exchange {A} (outs : list (list (Z * A))) : M (list (list A)) :=
  guardM UB (bool_decide (Forall (λ m : Z * A, 0 ≤ fst m < Z.of_nat (length outs)) (concat outs))) ;;;
  mapP (λ t : nat, shuffleM (snd <$> filter (λ m : Z * A, fst m = Z.of_nat t) (concat outs))) (seq 0 (length outs)).

(** bulk::sum: the same value on every processor *)
Definition bulk_sum (xs : list Z) : list Z := replicate (length xs) (foldl Z.add 0 xs).
(** bulk::gather_all: the same list on every processor *)
Definition gather_all {A} (xs : list A) : list (list A) := replicate (length xs) xs.

(** a[i] = op(a[i], x) *)
Definition aadd {A B} (op : A → B → A) (a : list A) (i : Z) (x : B) : M (list A) :=
  y <- idx a i ;; ret (zinsert i (op y x) a).

Section par.
  (** bulk::block_partitioning<1>({n}, {p}) *)
  Context (bp : Z → Z → partitioning).

  (** bulk::block_partitioning<1>({H.global_number_nets()}, {world.active_processors()}) *)
  Definition net_partition (p : nat) (H : hg) : partitioning := bp (Z.of_nat p) (h_gnets H).

  (** hypergraph.cpp:516-559 (global_net_sizes): the new local hypergraphs and the results *)
  Definition global_net_sizes (Hs : list hg) : M (list (hg * list Z)) :=
    let p := length Hs in
    ins <- exchange ((λ H, (λ n, (pa_owner (net_partition p H) (n_id n), (n_id n, Z.of_nat (length (n_verts n)))))
                             <$> h_nets H) <$> Hs) ;;
    outs <- mapP (λ t, H <- nidx Hs t ;; box <- nidx ins t ;;
      let part := net_partition p H in
      let rank := Z.of_nat t in
      sizes <- foldM (λ s m, aadd Z.add s (pa_local part (fst m)) (snd m)) box
                 (replicate (Z.to_nat (pa_count part rank)) 0) ;;
      ret (concat (imap (λ i s, if decide (s > 0)
                                then (λ t', (Z.of_nat t', (pa_global part (Z.of_nat i) rank, s))) <$> seq 0 p
                                else []) sizes))) (seq 0 p) ;;
    ins' <- exchange outs ;;
    mapP (λ t, H <- nidx Hs t ;; box <- nidx ins' t ;;
      r <- foldM (λ r m,
             if is_local_net H (fst m) then
               i <- local_id_net H (fst m) ;; aadd (λ _ x, x) r (Z.of_nat i) (snd m)
             else ret r) box (replicate (length (h_nets H)) 0) ;;
      H' <- set_global_net_sizes H r ;;
      ret (H', r)) (seq 0 p).

  (** hypergraph.cpp:563-574 (remove_free_nets, distributed); the removal order is the hash order *)
  Definition remove_free_nets_par (Hs : list hg) (max_size : Z) : M (list hg) :=
    rs <- global_net_sizes Hs ;;
    mapP (λ r,
      let H := fst r in
      ids <- foldM (λ X i, n <- nidx (h_nets H) i ;; s <- nidx (snd r) i ;;
                     ret (if decide (s ≤ max_size ∨ n_verts n = []) then {[n_id n]} ∪ X else X))
               (seq 0 (length (h_nets H))) (∅ : gset Z) ;;
      order <- shuffleM (elements ids) ;;
      foldM (λ H id, i <- local_id_net H id ;; remove_net_by_index H i) order H) rs.

  (** hypergraph.cpp:295-334 (init_counts, distributed) *)
  Definition init_counts_par (Hs : list hg) : M (list (list (Z * Z))) :=
    let p := length Hs in
    Cs <- mapP init_counts Hs ;;
    outs <- mapP (λ t, H <- nidx Hs t ;; C <- nidx Cs t ;;
      r <- foldM (λ r i, c <- nidx C i ;; n <- nidx (h_nets H) i ;;
             ret (if decide (fst c > 0)
                  then r ++ [(pa_owner (net_partition p H) (n_id n), (n_id n, fst c))] else r))
             (seq 0 (length C)) [] ;;
      ret r) (seq 0 p) ;;
    ins <- exchange outs ;;
    mine <- mapP (λ t, H <- nidx Hs t ;; box <- nidx ins t ;;
      let part := net_partition p H in
      foldM (λ s m, aadd Z.add s (pa_local part (fst m)) (snd m)) box
        (replicate (Z.to_nat (pa_count part (Z.of_nat t))) 0)) (seq 0 p) ;;
    mapP (λ t, H <- nidx Hs t ;;
      let part := net_partition p H in
      mapP (λ n, arr <- idx mine (pa_owner part (n_id n)) ;;
                 c0 <- idx arr (pa_local part (n_id n)) ;;
                 ret (c0, n_gsize n - c0)) (h_nets H)) (seq 0 p).

  (** hypergraph.cpp:446-500 (cutsize, distributed).  The vectors total_cut and cost_nets are one
      vector of pairs. *)
  Definition cutsize_par (Hs : list hg) (m : metric) : M (list Z) :=
    let p := length Hs in
    outs <- mapP (λ H, mapP (λ n, X <- net_labels H n ;;
              ret (pa_owner (net_partition p H) (n_id n), (n_id n, (elements X, n_cost n)))) (h_nets H)) Hs ;;
    ins <- exchange outs ;;
    rs <- mapP (λ t, H <- nidx Hs t ;; box <- nidx ins t ;;
      let part := net_partition p H in
      s <- foldM (λ s msg, aadd (λ (x : gset Z * Z) (y : list Z * Z), (list_to_set (fst y) ∪ fst x, snd y))
                             s (pa_local part (fst msg)) (snd msg)) box
             (replicate (Z.to_nat (pa_count part (Z.of_nat t))) (∅, 0)) ;;
      ret (foldl (λ r x, if decide (1 < size (fst x))%nat then
                           match m with
                           | CutNet => r + snd x
                           | LambdaMinusOne => r + (Z.of_nat (size (fst x)) - 1) * snd x
                           end
                         else r) 0 s)) (seq 0 p) ;;
    ret (bulk_sum rs).
End par.

(** hypergraph.cpp:339-342 (recompute_global_size) *)
Definition recompute_global_size (Hs : list hg) : list hg :=
  zip_with (λ s H, with_gsize s H) (bulk_sum ((λ H, Z.of_nat (length (h_verts H))) <$> Hs)) Hs.
(** hypergraph.cpp:347-351 (global_weight) *)
Definition global_weight (Hs : list hg) : list Z := bulk_sum (total_weight <$> Hs).
(** hypergraph.cpp:356-360 (global_weight_part) *)
Definition global_weight_part (Hs : list hg) (part : Z) : list Z := bulk_sum ((λ H, weight_part H part) <$> Hs).
(** hypergraph.cpp:362-372 (global_weight_parts): bulk::foldl_each adds the coarrays element by element *)
Definition global_weight_parts (Hs : list hg) (k : Z) : M (list (list Z)) :=
  ws <- mapP (λ H, weight_all_parts H k) Hs ;;
  ret (replicate (length Hs) (foldl (zip_with Z.add) (replicate (Z.to_nat k) 0) ws)).

(** *std::max_element: an end iterator is dereferenced if the list is empty *)
Definition max_element (l : list Z) : M Z :=
  match l with [] => fail UB | x :: l' => ret (foldl Z.max x l') end.
(** hypergraph.cpp:377-383 (load_balance, local) *)
Definition load_balance (H : hg) (k : Z) : M dbl :=
  ws <- weight_all_parts H k ;; m <- max_element ws ;;
  ret (d_sub (d_div (d_of_Z (m * k)) (d_of_Z (total_weight H))) d_one).
(** hypergraph.cpp:388-406 (load_balance, distributed); the message on std::cerr is not modelled *)
Definition load_balance_par (Hs : list hg) (k : Z) : M (list dbl) :=
  wss <- global_weight_parts Hs k ;;
  mapP (λ t, ws <- nidx wss t ;; w <- nidx (global_weight Hs) t ;; m <- max_element ws ;;
    ret (d_sub (d_div (d_of_Z (m * k)) (d_of_Z w)) d_one)) (seq 0 (length Hs)).

(** algorithm.hpp:17-34 (owner_min) *)
Definition owner_min1 (images : list Z) : M Z :=
  x0 <- idx images 0 ;;
  r <- foldM (λ s t, y <- nidx images t ;; ret (if decide (y ≤ fst s) then (y, Z.of_nat t) else s))
         (seq 1 (length images - 1)) (x0, 0) ;;
  ret (snd r).
Definition owner_min (xs : list Z) : M (list Z) := mapP owner_min1 (gather_all xs).
