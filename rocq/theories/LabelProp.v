(** Model of src/multilevel_bisect/label_propagation.cpp, src/multilevel_bisect/sample.cpp,
    src/multilevel_bisect/initial_partitioning.cpp and of bisect_random (src/bisect.cpp). *)
From Verif Require Export Float Klfm.

(** random % l with unsigned operands *)
Definition umod (z l : Z) : M Z := if decide (l = 0) then fail UB else ret (z `mod` l).

(** v[j] += d *)
Definition ladd (r : list Z) (j d : Z) : M (list Z) := x <- idx r j ;; ret (zinsert j (x + d) r).
(** C[H.local_id_net(n)][j] += d for a vector of vectors; [radd] is the row update *)
Definition cadd_row {R} (radd : R → Z → Z → M R) (H : hg) (C : list R) (n j d : Z) : M (list R) :=
  i <- local_id_net H n ;; c <- nidx C i ;; c' <- radd c j d ;; ret (<[i := c']> C).

(** label_propagation.cpp:52-63 and 133-144: the labels with the largest T, and that maximum *)
Definition argmax (T : list Z) (l : Z) : M (Z * list Z) :=
  foldM (λ s j,
    x <- idx T j ;;
    if decide (x = fst s) then ret (fst s, snd s ++ [j])
    else if decide (x > fst s) then ret (x, [j]) else ret s) (seqZ 0 l) (-1, []).

(** The variables of label_propagation that change.  [lp_L] is a vector of size H.size()
    filled from the front; it is modelled by the filled part. *)
Record lp_state := LP { lp_L : list Z; lp_size : list Z; lp_C : list (list Z) }.

(** label_propagation.cpp:16-28.  A negative [l] makes the constructor of the vector throw. *)
Definition lp_init (H : hg) (l : Z) : M lp_state :=
  guardM Throw (bool_decide (0 ≤ l)) ;;;
  foldM (λ s v,
    z <- rng ;;
    j <- umod z l ;;
    sz <- ladd (lp_size s) j 1 ;;
    C <- foldM (λ C n, cadd_row ladd H C n j 1) (v_nets v) (lp_C s) ;;
    ret (LP (lp_L s ++ [j]) sz C)) (h_verts H)
    (LP [] (replicate (Z.to_nat l) 0) (replicate (length (h_nets H)) (replicate (Z.to_nat l) 0))).

(** label_propagation.cpp:45-50 and 126-131: take the vertex out of the counts, add up the rows
    of its nets.  [radd], [rget] access a row (a vector of [l] entries, or of two). *)
Definition votes {R} (radd : R → Z → Z → M R) (rget : R → Z → M Z) (H : hg) (l j : Z) (ns : list Z) (C : list R) :
    M (list R * list Z) :=
  foldM (λ s n,
    C1 <- cadd_row radd H (fst s) n j (-1) ;;
    T <- foldM (λ T q,
           i <- local_id_net H n ;; row <- nidx C1 i ;; x <- rget row q ;; ladd T q x) (seqZ 0 l) (snd s) ;;
    ret (C1, T)) ns (C, replicate (Z.to_nat l) 0).

(** label_propagation.cpp:40-80: one vertex.  The boolean is the variable change. *)
Definition lp_vertex (H : hg) (l min_size : Z) (s : bool * lp_state) (i : nat) : M (bool * lp_state) :=
  let st := snd s in
  j <- nidx (lp_L st) i ;;
  sz <- idx (lp_size st) j ;;
  if decide (sz > min_size) then
    v <- vert_at H i ;;
    ct <- votes ladd idx H l j (v_nets v) (lp_C st) ;;
    am <- argmax (snd ct) l ;;
    z <- rng ;;
    q <- umod z (Z.of_nat (length (snd am))) ;;
    nl <- idx (snd am) q ;;
    r <- (if decide (nl ≠ j) then
            s1 <- ladd (lp_size st) j (-1) ;;
            s2 <- ladd s1 nl 1 ;;
            ret (true, <[i := nl]> (lp_L st), s2)
          else ret (fst s, lp_L st, lp_size st)) ;;
    C <- foldM (λ C n, cadd_row ladd H C n nl 1) (v_nets v) (fst ct) ;;
    ret (fst (fst r), LP (snd (fst r)) (snd r) C)
  else ret s.

(** label_propagation.cpp:30-82 *)
Definition lp_loop (H : hg) (l max_iter min_size : Z) (st : lp_state) : M lp_state :=
  r <- loopM (Z.to_nat max_iter + 1)
    (λ s : bool * Z * list nat * lp_state,
       if decide (fst (fst (fst s)) = true ∧ snd (fst (fst s)) < max_iter) then
         ind <- shuffleM (snd (fst s)) ;;
         r <- foldM (lp_vertex H l min_size) ind (false, snd s) ;;
         ret (true, (fst r, snd (fst (fst s)) + 1, ind, snd r))
       else ret (false, s)) (true, 0, seq 0 (length (h_verts H)), st) ;;
  ret (snd r).

(** label_propagation.cpp:13-85 *)
Definition label_propagation (H : hg) (l max_iter min_size : Z) : M (list Z) :=
  st <- lp_init H l ;;
  st' <- lp_loop H l max_iter min_size st ;;
  ret (lp_L st').

(** ** label_propagation_bisect *)

(** the variables L, weight_L and C of label_propagation.cpp:87-167 *)
Record lpb_state := LPB { lb_L : list Z; lb_room : Z * Z; lb_C : list (Z * Z) }.

(** label_propagation.cpp:101-111 *)
Definition lpb_init (H : hg) (C : list (Z * Z)) (mx : Z * Z) : M lpb_state :=
  foldM (λ s v,
    z <- rng ;;
    j0 <- umod z 2 ;;
    room <- pget (lb_room s) j0 ;;
    let j := if decide (room - v_weight v < 0) then flip_part j0 else j0 in
    room' <- padd (lb_room s) j (- v_weight v) ;;
    C' <- foldM (λ C n, cadd_row padd H C n j 1) (v_nets v) (lb_C s) ;;
    ret (LPB (lb_L s ++ [j]) room' C')) (h_verts H) (LPB [] mx C).

(** label_propagation.cpp:122-162: one vertex *)
Definition lpb_vertex (H : hg) (s : bool * lpb_state) (i : nat) : M (bool * lpb_state) :=
  let st := snd s in
  v <- vert_at H i ;;
  j <- nidx (lb_L st) i ;;
  ct <- votes padd pget H 2 j (v_nets v) (lb_C st) ;;
  am <- argmax (snd ct) 2 ;;
  r <- (if decide (fst am ≠ -1) then
          z <- rng ;;
          q <- umod z (Z.of_nat (length (snd am))) ;;
          nl <- idx (snd am) q ;;
          room <- pget (lb_room st) nl ;;
          if decide (nl ≠ j ∧ room - v_weight v >= 0) then
            r1 <- padd (lb_room st) j (v_weight v) ;;
            r2 <- padd r1 nl (- v_weight v) ;;
            ret (true, <[i := nl]> (lb_L st), r2, nl)
          else ret (fst s, lb_L st, lb_room st, j)
        else ret (fst s, lb_L st, lb_room st, j)) ;;
  C <- foldM (λ C n, cadd_row padd H C n (snd r) 1) (v_nets v) (fst ct) ;;
  ret (fst (fst (fst r)), LPB (snd (fst (fst r))) (snd (fst r)) C).

(** label_propagation.cpp:113-164 *)
Definition lpb_loop (H : hg) (max_iter : Z) (st : lpb_state) : M lpb_state :=
  r <- loopM (Z.to_nat max_iter + 1)
    (λ s : bool * Z * list nat * lpb_state,
       if decide (fst (fst (fst s)) = true ∧ snd (fst (fst s)) < max_iter) then
         ind <- shuffleM (snd (fst s)) ;;
         r <- foldM (lpb_vertex H) ind (false, snd s) ;;
         ret (true, (fst r, snd (fst (fst s)) + 1, ind, snd r))
       else ret (false, s)) (true, 0, seq 0 (length (h_verts H)), st) ;;
  ret (snd r).

(** label_propagation.cpp:87-167; C is a reference parameter, so it is returned too *)
Definition label_propagation_bisect (H : hg) (C : list (Z * Z)) (max_iter : Z) (mx : Z * Z) : M (list Z * list (Z * Z)) :=
  st <- lpb_init H C mx ;;
  st' <- lpb_loop H max_iter st ;;
  ret (lb_L st', lb_C st').

(** ** initial_partitioning *)

(** the loops "H(i).set_part(L[i])" of initial_partitioning.cpp:43-45 and 67-69, L of size H.size() *)
Definition set_parts (H : hg) (L : list Z) : M hg :=
  foldM (λ H i, p <- nidx L i ;; ret (upd_vert i (set_part p) H)) (seq 0 (length (h_verts H))) H.

(** initial_partitioning.cpp:30-32: L_best, best_cut, best_imbalance *)
Record ip_state := IP { ip_H : hg; ip_L : list Z; ip_cut : Z; ip_imb : Z }.

(** initial_partitioning.cpp:36-50: one candidate.  [KLFM] is called without a cut size, so with the
    default argument long_max (KLFM.hpp:30). *)
Definition ip_candidate (mx : Z * Z) (opts : options) (H : hg) : M (hg * Z) :=
  lc <- label_propagation_bisect H (replicate (length (h_nets H)) (0, 0)) (o_lp_max_iterations opts) mx ;;
  H1 <- set_parts H (fst lc) ;;
  o <- klfm H1 (snd lc) (weight_part H1 0, weight_part H1 1) mx opts long_max ;;
  ret (ko_H o, ko_cut o).

(** initial_partitioning.cpp:52-64: keep the candidate if it is better *)
Definition ip_update (mx : Z * Z) (s : ip_state) (c : hg * Z) : ip_state :=
  let H2 := fst c in
  let imb := Z.max (weight_part H2 0 - fst mx) (weight_part H2 1 - snd mx) in
  if decide ((snd c < ip_cut s ∧ imb <= 0) ∨
             ((snd c = ip_cut s ∨ ip_imb s > 0) ∧ imb < ip_imb s)) then
    IP H2 (v_part <$> h_verts H2) (snd c) imb
  else IP H2 (ip_L s) (ip_cut s) (ip_imb s).

(** initial_partitioning.cpp:35-65: one round *)
Definition ip_round (mx : Z * Z) (opts : options) (s : ip_state) : M ip_state :=
  c <- ip_candidate mx opts (ip_H s) ;;
  ret (ip_update mx s c).

(** initial_partitioning.cpp:21-72 *)
Definition initial_partitioning (H : hg) (mx : Z * Z) (opts : options) : M (hg * Z) :=
  s <- foldM (λ s _, ip_round mx opts s) (seq 0 10)
         (IP H (replicate (length (h_verts H)) 0) long_max long_max) ;;
  H' <- set_parts (ip_H s) (ip_L s) ;;
  ret (H', ip_cut s).

(** ** bisect_random *)

(** include/util/interval.hpp:7-18 *)
Definition interval_at (labels : Z * Z) (part : Z) : Z := if decide (part = 0) then fst labels else snd labels.

(** bisect.cpp:56-79.  H(i) asserts its index. *)
Definition bisect_random (H : hg) (mx : Z * Z) (st en : Z) (labels : Z * Z) : M (hg * (Z * Z)) :=
  foldM (λ s i,
    z <- rng ;;
    let p0 := z `mod` 2 in
    v <- of_option Abort (zlookup (h_verts (fst s)) i) ;;
    w <- pget (snd s) p0 ;;
    m <- pget mx p0 ;;
    let p := if decide (w + v_weight v > m) then (p0 + 1) `mod` 2 else p0 in
    ws <- padd (snd s) p (v_weight v) ;;
    ret (upd_vert (Z.to_nat i) (set_part (interval_at labels p)) (fst s), ws)) (seqZ st (en - st)) (H, (0, 0)).

(** ** Sampling *)

(** sample.cpp:14-43.  [size], [s_left] are doubles holding integers; sizes are below 2^53, so
    they are kept as integers and converted where the code divides.  The loop is bounded because
    every round decreases size, which is asserted positive. *)
Definition sample_random (H : hg) (ns : Z) : M (list Z) :=
  let size := Z.of_nat (length (h_verts H)) in
  assertM (bool_decide (0 < size)) ;;;
  if decide (ns > size) then ret (seqZ 0 size) else
  r <- loopM (length (h_verts H) + 2)
    (λ s : Z * Z * Z * list Z,
       let s_left := fst (fst (fst s)) in
       let size := snd (fst (fst s)) in
       let current := snd (fst s) in
       if decide (s_left > 0) then
         assertM (bool_decide (0 < size)) ;;;
         z <- rng ;;
         let take := d_le (d_div (d_of_Z z) (d_of_Z rng_max)) (d_div (d_of_Z s_left) (d_of_Z size)) in
         ret (true, (if take then s_left - 1 else s_left, size - 1, current + 1,
                     if take then snd s ++ [current] else snd s))
       else ret (false, s)) (ns, size, 0, []) ;;
  ret (snd r).

(** sample.cpp:53-81, after the labels are known.  count_label holds small integers as doubles.
    The comparison number_samples_found < sample_size - empty_count is between size_t values;
    the right side is not negative. *)
Definition sample_labels (H : hg) (l : Z) (labels : list Z) : M (list Z) :=
  counts <- foldM (λ c j, ladd c j 1) labels (replicate (Z.to_nat l) 0) ;;
  let empty := zcount (λ c, c = 0) counts in
  r <- loopM (length (h_verts H) + 1)
    (λ s : Z * nat * list Z * list bool * list Z,
       let found := fst (fst (fst (fst s))) in
       let current := snd (fst (fst (fst s))) in
       let cnt := snd (fst (fst s)) in
       let fs := snd (fst s) in
       if decide (found < l - empty ∧ (current < length (h_verts H))%nat) then
         j <- nidx labels current ;;
         f <- idx fs j ;;
         c <- idx cnt j ;;
         t <- (if f : bool then ret false else
               z <- rng ;; ret (d_lt (d_div (d_of_Z z) (d_of_Z rng_max)) (d_div d_one (d_of_Z c)))) ;;
         cnt' <- ladd cnt j (-1) ;;
         ret (true, if t : bool then (found + 1, S current, cnt', zinsert j true fs, snd s ++ [Z.of_nat current])
                    else (found, S current, cnt', fs, snd s))
       else ret (false, s)) (0, 0%nat, counts, replicate (Z.to_nat l) false, []) ;;
  ret (snd r).

(** sample.cpp:49-84 *)
Definition sample_lp (H : hg) (opts : options) : M (list Z) :=
  labels <- label_propagation H (o_sample_size opts) (o_lp_max_iterations opts) 1 ;;
  sample_labels H (o_sample_size opts) labels.
