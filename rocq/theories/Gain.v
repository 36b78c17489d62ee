(** Model of src/multilevel_bisect/KLFM/gain_buckets.cpp and its header. *)
From Verif Require Export Hypergraph.

(** std::numeric_limits<long>::min() / max() *)
Definition long_min : Z := -9223372036854775808.
Definition long_max : Z := 9223372036854775807.

(** A std::array / std::vector of length 2, indexed by a part *)
Definition psel {A} (c : A * A) (p : Z) : M A :=
  if decide (p = 0) then ret (fst c) else if decide (p = 1) then ret (snd c) else fail UB.
Definition pset {A} (c : A * A) (p : Z) (x : A) : M (A * A) :=
  if decide (p = 0) then ret (x, snd c) else if decide (p = 1) then ret (fst c, x) else fail UB.

(** gain_buckets.hpp:19-52 (class gain_buckets): the fields.  An unordered_set is the
    list of its elements in iteration order. *)
Record gbuckets := GB {
  gb_b : list (list Z);  (* buckets *)
  gb_max : Z;            (* max_index_present *)
  gb_min : Z;            (* min_value_present *)
}.

(** gain_buckets.hpp:38-39 (gain_to_index, index_to_gain).  The unsigned arithmetic agrees with
    Z as long as |gain| < 2^62. *)
Definition bhalf (b : gbuckets) : Z := Z.of_nat (length (gb_b b)) `div` 2.
Definition gain_to_index (b : gbuckets) (g : Z) : Z := bhalf b + g.
Definition index_to_gain (b : gbuckets) (i : Z) : Z := i - bhalf b.

(** gain_buckets.hpp:21-25 (constructor) *)
Definition gb_new (size : Z) : gbuckets :=
  GB (replicate (Z.to_nat size) []) size (size - 1 - (Z.of_nat (Z.to_nat size)) `div` 2).

(** gain_buckets.hpp:41 (set_max_present) *)
Definition set_max_present (b : gbuckets) (i : Z) : gbuckets := GB (gb_b b) i (gb_min b).

(** gain_buckets.cpp:13-24 (insert).  Inserting into an unordered_set may reorder it. *)
Definition gb_insert (b : gbuckets) (id gain : Z) : M gbuckets :=
  let i := gain_to_index b gain in
  s <- idx (gb_b b) i ;;
  let e := bool_decide (s = []) in
  let mn := if e && bool_decide (gain < gb_min b) then gain else gb_min b in
  let mx := if e && bool_decide (i > gb_max b) then i else gb_max b in
  s' <- (if decide (id ∈ s) then ret s else shuffleM (id :: s)) ;;
  ret (GB (zinsert i s' (gb_b b)) mx mn).

(** gain_buckets.cpp:26-33 (remove): erase keeps the order of the other elements *)
Definition gb_remove (b : gbuckets) (id gain : Z) : M (bool * gbuckets) :=
  let i := gain_to_index b gain in
  s <- idx (gb_b b) i ;;
  ret (bool_decide (id ∈ s), GB (zinsert i (filter (λ x, x ≠ id) s) (gb_b b)) (gb_max b) (gb_min b)).

(** gain_buckets.cpp:64-79 (find_next_index) *)
Definition find_next_index (b : gbuckets) : M (Z * gbuckets) :=
  if decide (gb_max b = -1) then ret (-1, b) else
  let mi := gain_to_index b (gb_min b) in
  index <- loopM (Z.to_nat (gb_max b + 1) + 1)
    (λ i, if decide (i >= mi) then
            s <- idx (gb_b b) i ;;
            if decide (s = []) then ret (true, i - 1) else ret (false, i)
          else ret (false, i)) (gb_max b) ;;
  ret (if decide (index >= mi) then index else -1, GB (gb_b b) index (gb_min b)).

(** gain_buckets.cpp:35-42 (next) *)
Definition gb_next (b : gbuckets) : M (Z * gbuckets) :=
  r <- find_next_index b ;;
  if decide (fst r ≠ -1) then
    s <- idx (gb_b (snd r)) (fst r) ;;
    x <- of_option UB (head s) ;;
    ret (x, snd r)
  else ret (-1, snd r).

(** gain_buckets.cpp:44-51 (gain_next) *)
Definition gb_gain_next (b : gbuckets) : M (Z * gbuckets) :=
  r <- find_next_index b ;;
  ret (if decide (fst r ≠ -1) then index_to_gain (snd r) (fst r) else long_min, snd r).

(** gain_buckets.hpp:58-104 (class gain_structure): the fields; H_ and C_ are references,
    here part of the state. *)
Record gstruct := GS {
  g_H : hg;
  g_C : list (Z * Z);
  g_b : gbuckets * gbuckets;   (* buckets *)
  g_gains : list Z;            (* gains *)
}.
Definition with_b (b : gbuckets * gbuckets) (G : gstruct) : gstruct := GS (g_H G) (g_C G) b (g_gains G).
Definition with_gains (gs : list Z) (G : gstruct) : gstruct := GS (g_H G) (g_C G) (g_b G) gs.
Definition with_C (C : list (Z * Z)) (G : gstruct) : gstruct := GS (g_H G) C (g_b G) (g_gains G).
Definition with_H (H : hg) (G : gstruct) : gstruct := GS H (g_C G) (g_b G) (g_gains G).

(** gain_buckets.cpp:269-281 (compute_size_buckets) *)
Definition compute_size_buckets (H : hg) : M Z :=
  m <- foldM (λ m v,
         sum <- foldM (λ s nid, n <- get_net H nid ;; ret (s + n_cost n)) (v_nets v) 0 ;;
         ret (if decide (sum > m) then sum else m)) (h_verts H) 0 ;;
  ret (2 * m + 1).

(** The gain computed in gain_buckets.cpp:86-95 *)
Definition compute_gain (H : hg) (C : list (Z * Z)) (v : vertex) : M Z :=
  let from := v_part v in
  let to := flip_part (v_part v) in
  foldM (λ g nid,
    cf <- cget H C nid from ;;
    g1 <- (if decide (cf = 1) then n <- get_net H nid ;; ret (g + n_cost n) else ret g) ;;
    ct <- cget H C nid to ;;
    (if decide (ct = 0) then n <- get_net H nid ;; ret (g1 - n_cost n) else ret g1)) (v_nets v) 0.

(** gain_buckets.cpp:81-105 (init_) and gain_buckets.hpp:60-66 (constructor) *)
Definition gs_new (H : hg) (C : list (Z * Z)) : M gstruct :=
  size <- compute_size_buckets H ;;
  let b := gb_new size in
  st <- foldM (λ (st : (gbuckets * gbuckets) * list Z * (Z * Z)) i,
    v <- vert_at H i ;;
    gain <- compute_gain H C v ;;
    bf <- psel (fst (fst st)) (v_part v) ;;
    bf' <- gb_insert bf (v_id v) gain ;;
    bs' <- pset (fst (fst st)) (v_part v) bf' ;;
    _ <- nidx (snd (fst st)) i ;;
    mg <- psel (snd st) (v_part v) ;;
    mgs' <- (if decide (gain > mg) then pset (snd st) (v_part v) gain else ret (snd st)) ;;
    ret (bs', <[i := gain]> (snd (fst st)), mgs'))
    (seq 0 (length (h_verts H)))
    ((b, b), replicate (length (h_verts H)) 0, (index_to_gain b 0, index_to_gain b 0)) ;;
  let bs := fst (fst st) in
  ret (GS H C (set_max_present (fst bs) (gain_to_index (fst bs) (fst (snd st))),
               set_max_present (snd bs) (gain_to_index (snd bs) (snd (snd st)))) (snd (fst st))).

(** gain_buckets.hpp:71 (next(part)), :73 (gain_next(part)) *)
Definition gs_next (G : gstruct) (p : Z) : M (Z * gstruct) :=
  b <- psel (g_b G) p ;; r <- gb_next b ;; bs <- pset (g_b G) p (snd r) ;; ret (fst r, with_b bs G).
Definition gs_gain_next (G : gstruct) (p : Z) : M (Z * gstruct) :=
  b <- psel (g_b G) p ;; r <- gb_gain_next b ;; bs <- pset (g_b G) p (snd r) ;; ret (fst r, with_b bs G).
(** gain_buckets.hpp:84 (bucket_done) *)
Definition gs_bucket_done (G : gstruct) (p : Z) : M (bool * gstruct) :=
  r <- gs_next G p ;; ret (bool_decide (fst r = -1), snd r).
(** gain_buckets.cpp:260-266 (done) *)
Definition gs_done (G : gstruct) : M (bool * gstruct) :=
  r0 <- gs_next G 0 ;;
  if decide (fst r0 = -1) then
    r1 <- gs_next (snd r0) 1 ;;
    ret (bool_decide (fst r1 = -1), snd r1)
  else ret (false, snd r0).

(** gain_buckets.cpp:107-131 (part_next) *)
Definition part_next (G : gstruct) (x0 x1 : Z) : M (Z * gstruct) :=
  r0 <- gs_next G 0 ;;
  r1 <- gs_next (snd r0) 1 ;;
  let v0 := fst r0 in let v1 := fst r1 in
  let G1 := snd r1 in
  if decide (v0 = -1) then ret (1, G1) else
  if decide (v1 = -1) then ret (0, G1) else
  u0 <- vert (g_H G1) v0 ;;
  a0 <- (if decide (x0 - v_weight u0 > 0) then gs_gain_next G1 0 else ret (long_min, G1)) ;;
  u1 <- vert (g_H G1) v1 ;;
  a1 <- (if decide (x1 - v_weight u1 > 0) then gs_gain_next (snd a0) 1 else ret (long_min, snd a0)) ;;
  let G2 := snd a1 in
  if decide (fst a0 > fst a1) then ret (0, G2) else
  if decide (fst a1 > fst a0) then ret (1, G2) else
  r <- rng ;; ret (r `mod` 2, G2).

(** gain_buckets.cpp:283-293 (add_gain) *)
Definition add_gain (G : gstruct) (u d : Z) : M gstruct :=
  i <- local_id (g_H G) u ;;
  old <- nidx (g_gains G) i ;;
  if decide (old = long_min) then ret G else
  x <- vert_at (g_H G) i ;;
  b <- psel (g_b G) (v_part x) ;;
  r <- gb_remove b u old ;;
  b' <- gb_insert (snd r) u (old + d) ;;
  bs <- pset (g_b G) (v_part x) b' ;;
  ret (with_gains (<[i := old + d]> (g_gains G)) (with_b bs G)).

(** net.vertices()[net.size() - 1] if p == 1, else net.vertices()[0]
    (gain_buckets.cpp:152-156, 173-177, 216-220, 233-237) *)
Definition boundary (n : net) (p : Z) : M Z :=
  if decide (p = 1) then idx (n_verts n) (Z.of_nat (length (n_verts n)) - 1) else idx (n_verts n) 0.

(** gain_buckets.cpp:143-192 and 205-248, the body of the loop over the nets of v; [xt], [xf] are the extra
    conditions of the second overload (both true in the first one).  The diagnostic output
    "Adding gain to wrong vertex" is not modelled, but its lookups are part of [boundary]'s
    callers in the proofs. *)
Definition gain_step (G : gstruct) (from to nid : Z) (xt xf : bool) : M gstruct :=
  let H := g_H G in
  ct <- cget H (g_C G) nid to ;;
  n <- get_net H nid ;;
  G1 <- (if decide (ct = 0) then foldM (λ G u, add_gain G u (n_cost n)) (n_verts n) G else ret G) ;;
  G2 <- (if decide (ct = 1 ∧ xt = true) then
           u <- boundary n to ;;
           _ <- vert H u ;;
           add_gain G1 u (-1 * n_cost n)
         else ret G1) ;;
  C1 <- cadd H (g_C G2) nid to 1 ;;
  C2 <- cadd H C1 nid from (-1) ;;
  let G3 := with_C C2 G2 in
  cf <- cget H C2 nid from ;;
  G4 <- (if decide (cf = 0) then foldM (λ G u, add_gain G u (-1 * n_cost n)) (n_verts n) G3 else ret G3) ;;
  (if decide (cf = 1 ∧ xf = true) then
     u <- boundary n from ;;
     _ <- vert H u ;;
     add_gain G4 u (n_cost n)
   else ret G4).

(** gain_buckets.cpp:139-141: lock v.  After move_sorted, vertex.part() is the new part, but
    [from] was read before. *)
Definition gs_lock (G : gstruct) (i : nat) (v from : Z) : M (bool * gstruct) :=
  old <- nidx (g_gains G) i ;;
  b <- psel (g_b G) from ;;
  r <- gb_remove b v old ;;
  bs <- pset (g_b G) from (snd r) ;;
  ret (fst r, with_gains (<[i := long_min]> (g_gains G)) (with_b bs G)).

(** gain_buckets.cpp:133-193 (move) *)
Definition gs_move (G : gstruct) (v : Z) : M gstruct :=
  i <- local_id (g_H G) v ;;
  x <- vert_at (g_H G) i ;;
  let from := v_part x in
  let to := flip_part (v_part x) in
  H' <- move_sorted (g_H G) (g_C G) v ;;
  r <- gs_lock (with_H H' G) i v from ;;
  foldM (λ G nid, gain_step G from to nid true true) (v_nets x) (snd r).

(** gain_buckets.cpp:195-249 (move with local counts) *)
Definition gs_move_loc (G : gstruct) (Cl : list (Z * Z)) (v : Z) : M (gstruct * list (Z * Z)) :=
  i <- local_id (g_H G) v ;;
  x <- vert_at (g_H G) i ;;
  let from := v_part x in
  let to := flip_part (v_part x) in
  H' <- move_sorted (g_H G) Cl v ;;
  r <- gs_lock (with_H H' G) i v from ;;
  foldM (λ st nid,
    lt <- cget (g_H (fst st)) (snd st) nid to ;;
    Cl1 <- cadd (g_H (fst st)) (snd st) nid to 1 ;;
    Cl2 <- cadd (g_H (fst st)) Cl1 nid from (-1) ;;
    lf <- cget (g_H (fst st)) Cl2 nid from ;;
    G' <- gain_step (fst st) from to nid (bool_decide (lt = 1)) (bool_decide (lf = 1)) ;;
    ret (G', Cl2)) (v_nets x) (snd r, Cl).

(** gain_buckets.cpp:251-258 (remove); a failed erase only prints a message *)
Definition gs_remove (G : gstruct) (v : Z) : M gstruct :=
  i <- local_id (g_H G) v ;;
  x <- vert_at (g_H G) i ;;
  r <- gs_lock G i v (v_part x) ;;
  ret (snd r).
