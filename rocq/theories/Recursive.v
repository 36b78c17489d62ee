(** Model of src/recursive_bisection.cpp for a world of one processor: compute_max_global_weight,
    reorder_hypergraph, remove_cut_nets, add_cut_nets and the sequential part of recursive_bisect
    (the loop of lines 64-147 runs only with more than one processor). *)
From Verif Require Export Bisect.

(** H(i) with a signed index: hypergraph.hpp:202-205, an assertion *)
Definition vert_z (H : hg) (i : Z) : M vertex := of_option Abort (zlookup (h_verts H) i).

(** recursive_bisection.cpp:363-365 *)
Definition ro_back (H : hg) (low pivot en : Z) : M Z :=
  loopM (length (h_verts H) + 1) (λ en,
    v <- vert_z H (en - 1) ;;
    ret (if decide (v_part v ≠ low ∧ en - 1 ≠ pivot) then (true, en - 1) else (false, en))) en.
(** recursive_bisection.cpp:362-367: one iteration for a pivot; state (H, end) *)
Definition ro_pivot (H : hg) (pivot en low high : Z) : M (hg * Z) :=
  v <- vert_z H pivot ;;
  if decide (v_part v = high) then
    en' <- ro_back H low pivot en ;;
    _ <- vert_z H (en' - 1) ;;
    vs <- iter_swap (h_verts H) pivot (en' - 1) ;;
    ret (with_verts vs H, en')
  else ret (H, en).
(** recursive_bisection.cpp:359-372 (reorder_hypergraph): returns the new end as well *)
Definition reorder_hypergraph (H : hg) (st en low high : Z) : M (hg * Z) :=
  s <- loopM (length (h_verts H) + 2) (λ s : (hg * Z) * Z,
    if decide (snd s < snd (fst s)) then
      r <- ro_pivot (fst (fst s)) (snd s) (snd (fst s)) low high ;;
      ret (true, (r, snd s + 1))
    else ret (false, s)) ((H, en), st) ;;
  ret (update_map (fst (fst s)), snd (fst s) - 1).

(** recursive_bisection.cpp:206-207: (long)(std::log2(k) + 1).  std::log2 is not modelled bit by bit:
    for the numbers of parts in use its integer part is that of the exact logarithm. *)
Definition q_of (k : Z) : M Z := guardM UB (bool_decide (0 < k)) ;;; ret (Z.log2 k + 1).
(** recursive_bisection.cpp:212-215 *)
Definition side_limit (weight k_ kx : Z) (eps : dbl) : M Z :=
  q <- q_of kx ;;
  d_to_Z (d_mul (d_mul (d_div (d_of_Z weight) (d_of_Z k_)) (d_of_Z kx))
                (d_add d_one (d_div eps (d_of_Z q)))).
(** recursive_bisection.cpp:201-218 (compute_max_global_weight).  maxweight * k_ is not bounded here. *)
Definition compute_max_global_weight (k_ k_low k_high weight maxweight : Z) : M (Z * Z) :=
  let eps := d_sub (d_div (d_of_Z (maxweight * k_)) (d_of_Z weight)) d_one in
  a <- side_limit weight k_ k_low eps ;;
  b <- side_limit weight k_ k_high eps ;;
  ret (a, b).

(** recursive_bisection.cpp:384-394: the ids of the nets to remove.  The loop compares the ids of the
    vertices, not their parts; vertices[0] of an empty net is undefined. *)
Definition net_is_cut (H : hg) (n : net) : M bool :=
  u <- nidx (n_verts n) 0 ;;
  v0 <- vert H u ;;
  foldM (λ b x, if b : bool then ret b else v <- vert H x ;; ret (bool_decide (v_id v0 ≠ v_id v))) (n_verts n) false.
(** recursive_bisection.cpp:378-395, 435-443 (remove_cut_nets) with one processor *)
Definition remove_cut_nets (H : hg) (cut : list net) : M (hg * list net) :=
  bs <- mapP (net_is_cut H) (h_nets H) ;;
  let sent := snd <$> filter (λ x : bool * net, fst x = true) (zip bs (h_nets H)) in
  boxes <- exchange [ (λ n, (0, n_id n)) <$> sent ] ;;
  box <- nidx boxes 0 ;;
  foldM (λ s id,
    if is_local_net (fst s) id then
      n <- get_net (fst s) id ;;
      H' <- remove_net (fst s) id ;;
      ret (H', snd s ++ [Net (n_id n) (n_verts n) (n_cost n) 0])
    else ret s) box (H, cut).
(** recursive_bisection.cpp:448-481 (add_cut_nets) with one processor *)
Definition add_cut_nets (H : hg) (cut : list net) : M hg :=
  r <- foldM (λ s n,
         let H := fst s in
         let new_v := filter (λ v, is_local H v = true) (n_verts n) in
         let far := filter (λ v, is_local H v = false) (n_verts n) in
         let out := (λ v, (0, (n_id n, (v, n_cost n)))) <$> far in
         ret (match n_verts n with [] => H | _ => add_net H (n_id n) new_v (n_cost n) end, snd s ++ out))
       cut (H, []) ;;
  boxes <- exchange [ snd r ] ;;
  box <- nidx boxes 0 ;;
  foldM (λ H m,
    let nid := fst m in let v := fst (snd m) in let cost := snd (snd m) in
    if is_local H v then
      H1 <- (if is_local_net H nid then upd_net_id H nid (n_add_vertex v) else ret (add_net H nid [v] cost)) ;;
      i <- local_id H1 v ;;
      ret (upd_vert i (v_add_net nid) H1)
    else ret H) box (fst r).

Global Instance metric_eq_dec : EqDecision metric.
Proof. solve_decision. Defined.
(** work_item.hpp *)
Record job := Job { j_st : Z; j_en : Z; j_low : Z; j_high : Z; j_weight : Z }.
Global Instance job_eq_dec : EqDecision job.
Proof. solve_decision. Defined.
(** recursive_bisection.cpp:46-60: H, jobs, cut_nets, splits *)
Record rb_state := RB { rb_H : hg; rb_jobs : list job; rb_cut : list net; rb_splits : Z }.

(** recursive_bisection.cpp:161-164, 172-173: k_low, k_high and the two label intervals *)
Definition k_low_of (low high : Z) : Z := (high - low + 1) / 2.
Definition k_high_of (low high : Z) : Z := (high - low + 1) - k_low_of low high.
Definition labels_0 (low high : Z) : Z * Z := (low, high - k_high_of low high).
Definition labels_1 (low high : Z) : Z * Z := (low + k_low_of low high, high).

Section recursive.
  (** the bisection function: hypergraph, options, limits, start, end, labels *)
  Context (bis : hg → options → Z * Z → Z → Z → Z * Z → M (hg * (Z * Z))).

  (** recursive_bisection.cpp:160-188: one split of a work item; returns what is left of it *)
  Definition rb_split (maxweight : Z) (opts : options) (s : rb_state) (j : job) : M (rb_state * job) :=
    let low := j_low j in
    let high := j_high j in
    mx <- compute_max_global_weight (high - low + 1) (k_low_of low high) (k_high_of low high) (j_weight j) maxweight ;;
    r <- bis (rb_H s) opts mx (j_st j) (j_en j) (low, high) ;;
    let l0 := labels_0 low high in
    let l1 := labels_1 low high in
    o <- (if decide (snd l1 - fst l1 > 0) then
            t <- reorder_hypergraph (fst r) (j_st j) (j_en j) low high ;;
            ret (fst t, snd t, Job (snd t) (j_en j) (fst l1) (snd l1) (snd (snd r)) :: rb_jobs s)
          else ret (fst r, j_en j, rb_jobs s)) ;;
    let H1 := fst (fst o) in
    let jobs := snd o in
    c <- (if decide (o_metric opts = CutNet ∧ jobs ≠ []) then remove_cut_nets H1 (rb_cut s) else ret (H1, rb_cut s)) ;;
    ret (RB (fst c) jobs (snd c) (rb_splits s + 1),
         Job (j_st j) (snd (fst o)) (fst l0) (snd l0) (fst (snd r))).
  (** recursive_bisection.cpp:159-189: a work item until one label is left *)
  Definition rb_job (maxweight : Z) (opts : options) (s : rb_state) (j : job) : M rb_state :=
    r <- loopM (Z.to_nat (j_high j - j_low j) + 1) (λ x : rb_state * job,
           if decide (j_high (snd x) - j_low (snd x) > 0) then
             y <- rb_split maxweight opts (fst x) (snd x) ;; ret (true, y)
           else ret (false, x)) (s, j) ;;
    ret (fst r).
  (** recursive_bisection.cpp:150-190: all work items; the top of the stack is the head *)
  Definition rb_loop (k maxweight : Z) (opts : options) (s : rb_state) : M rb_state :=
    loopM (Z.to_nat k + 1) (λ s : rb_state,
      match rb_jobs s with
      | [] => ret (false, s)
      | j :: js => s' <- rb_job maxweight opts (RB (rb_H s) js (rb_cut s) (rb_splits s)) j ;; ret (true, s')
      end) s.
  (** recursive_bisection.cpp:40: the weight limit of a part *)
  Definition max_weight (weight k : Z) (eps : dbl) : M Z :=
    d_to_Z (d_div (d_mul (d_add d_one eps) (d_of_Z weight)) (d_of_Z k)).
  (** recursive_bisection.cpp:26-199 (recursive_bisect) with one processor; sample_size / 1 is
      sample_size.  eta is only used with more processors. *)
  Definition recursive_bisect_with (H : hg) (k : Z) (eps : dbl) (opts : options) : M hg :=
    gw <- nidx (global_weight [H]) 0 ;;
    maxweight <- max_weight gw k eps ;;
    s <- rb_loop k maxweight opts (RB H [Job 0 (Z.of_nat (length (h_verts H))) 0 (k - 1) gw] [] 0) ;;
    if decide (o_metric opts = CutNet) then
      c <- (if decide (rb_splits s * 2 < k) then remove_cut_nets (rb_H s) (rb_cut s) else ret (rb_H s, rb_cut s)) ;;
      add_cut_nets (fst c) (snd c)
    else ret (rb_H s).
End recursive.

(** the program: bisect as bisection function *)
Definition recursive_bisect1 (bp : Z → Z → partitioning) : hg → Z → dbl → options → M hg :=
  recursive_bisect_with (bisect1 bp).
