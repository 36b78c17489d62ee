(** Model of the redistribution of a hypergraph over the processors:
    src/recursive_bisection.cpp, reduce_surplus and redistribute_hypergraph. *)
From Verif Require Export Recursive.

(** recursive_bisection.cpp:306-349: the local state.  The messages (id, weight, part, nets) are
    vertices here. *)
Record rs_state := RS {
  rs_H : hg;
  rs_index : Z;
  rs_q : list (Z * vertex);          (* q(t).send *)
  rs_cost : list (Z * (Z * Z));      (* cost_queue(t).send *)
}.

(** recursive_bisection.cpp:327-329 *)
Definition next_index (H : hg) (label index : Z) : M Z :=
  loopM (length (h_verts H) + 1) (λ i,
    v <- vert_z H i ;;
    ret (if decide (v_part v ≠ label) then (true, i + 1) else (false, i))) index.

(** recursive_bisection.cpp:326-340: one vertex is sent; state, total_sent and nets_to_send *)
Definition send_vertex (label t : Z) (x : rs_state * (Z * gset Z)) : M (rs_state * (Z * gset Z)) :=
  let s := fst x in
  i <- next_index (rs_H s) label (rs_index s) ;;
  v <- vert_z (rs_H s) i ;;
  let H1 := remove_from_nets (rs_H s) (v_id v) in
  let H2 := with_vmap (delete (v_id v) (h_vmap H1)) H1 in
  let H3 := with_verts (delete (Z.to_nat i) (h_verts H2)) H2 in
  ret (RS H3 i (rs_q s ++ [(t, v)]) (rs_cost s), (fst (snd x) + v_weight v, list_to_set (v_nets v) ∪ snd (snd x))).
(** recursive_bisection.cpp:324-346: vertices for processor [t], at least [mx] in weight.  The order in
    which the set nets_to_send is visited only shows in the order of arrival, which is arbitrary. *)
Definition send_to (label t mx : Z) (s : rs_state) : M (rs_state * Z) :=
  x <- loopM (length (h_verts (rs_H s)) + 1) (λ x,
         if decide (fst (snd x) < mx) then y <- send_vertex label t x ;; ret (true, y) else ret (false, x))
         (s, (0, ∅)) ;;
  let s' := fst x in
  cs <- mapP (λ n, e <- get_net (rs_H s') n ;; ret (t, (n, n_cost e))) (elements (snd (snd x))) ;;
  ret (RS (rs_H s') (rs_index s') (rs_q s') (rs_cost s' ++ cs), fst (snd x)).

(** recursive_bisection.cpp:305-353: the variables of the walk over the processors *)
Record ring := Ring { ri_s : rs_state; ri_own : Z; ri_others : Z; ri_t : Z }.
(** recursive_bisection.cpp:309-351: one round; the second component of the result is the returned
    value once the loop is left *)
Definition ring_body (p s : Z) (label : Z) (sur : list Z) (x : ring * Z) : M (bool * (ring * Z)) :=
  let r := fst x in
  if decide (ri_own r < 0) then
    let t := if decide (ri_t r >= p) then 0 else ri_t r in
    if decide (t = s) then ret (false, (Ring (ri_s r) (ri_own r) (ri_others r) t, -1)) else
    st <- idx sur t ;;
    let others := ri_others r + st in
    if decide (st > 0 ∧ others > 0) then
      y <- send_to label t (Z.min others (-1 * ri_own r)) (ri_s r) ;;
      ret (true, (Ring (fst y) (ri_own r + snd y) 0 (t + 1), 0))
    else ret (true, (Ring (ri_s r) (ri_own r) others (t + 1), 0))
  else ret (false, x).
(** recursive_bisection.cpp:291-354 (reduce_surplus): the new state and the returned value *)
Definition reduce_surplus (p s : nat) (label : Z) (sur : list Z) (H : hg)
    (q : list (Z * vertex)) (cost : list (Z * (Z * Z))) : M (rs_state * Z) :=
  own <- nidx sur s ;;
  if decide (own >= 0) then ret (RS H 0 q cost, 0) else
  x <- loopM (p + 1) (ring_body (Z.of_nat p) (Z.of_nat s) label sur)
         (Ring (RS H 0 q cost) own 0 (Z.of_nat s + 1), 0) ;;
  ret (ri_s (fst x), snd x).

(** recursive_bisection.cpp:254-262: from the back, vertices with the low label are moved to vertices_0 *)
Definition put_aside (low : Z) (vs : list vertex) : list vertex * list vertex :=
  foldr (λ v s, if decide (v_part v = low) then (fst s, snd s ++ [v]) else (v :: fst s, snd s)) ([], []) vs.

(** the arguments of one processor: my_part, max_local_weight, weight_part_0, weight_part_1 *)
Record share := Share { sh_part : Z; sh_max : Z; sh_w0 : Z; sh_w1 : Z }.
(** recursive_bisection.cpp:236-237 *)
Definition surplus_0 (a : share) : Z := (1 - sh_part a) * sh_max a - sh_w0 a.
Definition surplus_1 (a : share) : Z := sh_part a * sh_max a - sh_w1 a.

(** recursive_bisection.cpp:249-263: what a processor sends, its vertices set aside, and the values
    returned by reduce_surplus (which the caller ignores) *)
Definition red_send (p s : nat) (H : hg) (low high p_low : Z) (sur0 sur1 : list Z) : M (rs_state * (list vertex * (Z * Z))) :=
  r1 <- reduce_surplus p s high sur1 H [] [] ;;
  let s1 := fst r1 in
  if decide (p_low > 0) then
    r0 <- reduce_surplus p s low sur0 (rs_H s1) (rs_q s1) (rs_cost s1) ;;
    ret (fst r0, ([], (snd r0, snd r1)))
  else
    let x := put_aside low (h_verts (rs_H s1)) in
    ret (RS (with_verts (fst x) (rs_H s1)) 0 (rs_q s1) (rs_cost s1), (snd x, (0, snd r1))).
(** recursive_bisection.cpp:267-284: what a processor does with its messages; the returned end *)
Definition red_receive (H : hg) (aside : list vertex) (costs : list (Z * Z)) (vs : list vertex) : M (hg * Z) :=
  let H1 := foldl (λ H m, add_net H (fst m) [] (snd m)) H costs in
  H2 <- foldM (λ H v, add_to_nets (with_verts (h_verts H ++ [v]) H) v) vs H1 ;;
  let H3 := update_map (with_verts (h_verts H2 ++ aside) H2) in
  ret (H3, Z.of_nat (length (h_verts H3)) - Z.of_nat (length aside)).
(** recursive_bisection.cpp:226-285 (redistribute_hypergraph) on all processors *)
Definition redistribute (Hs : list hg) (sh : list share) (low high p_low : Z) : M (list (hg * Z)) :=
  let p := length Hs in
  let all0 := gather_all (surplus_0 <$> sh) in
  let all1 := gather_all (surplus_1 <$> sh) in
  rs <- mapP (λ s, H <- nidx Hs s ;; sur0 <- nidx all0 s ;; sur1 <- nidx all1 s ;;
          red_send p s H low high p_low sur0 sur1) (seq 0 p) ;;
  qs <- exchange ((λ r : rs_state * (list vertex * (Z * Z)), rs_q (fst r)) <$> rs) ;;
  cs <- exchange ((λ r : rs_state * (list vertex * (Z * Z)), rs_cost (fst r)) <$> rs) ;;
  mapP (λ s, r <- nidx rs s ;; q <- nidx qs s ;; c <- nidx cs s ;;
    red_receive (rs_H (fst r)) (fst (snd r)) c q) (seq 0 p).
