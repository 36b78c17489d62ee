(** Model of the parallel part of src/multilevel_bisect/coarsen.cpp, of contraction.cpp:15-20 and
    contraction.hpp:43-50. *)
From Verif Require Export Coarsen Par Recursive.

(** contraction.hpp:43-50 (add_samples) *)
Definition add_samples (H : hg) (samples : list Z) (C : contraction) : M contraction :=
  ids <- mapP (λ i, v <- vert_z H i ;; ret (v_id v)) samples ;;
  ret (Contr (c_samples C ++ ids) (replicate (length samples) []) (c_free C) (c_local_free C) (c_global_free C)).

(** a message of sample_queue: processor, number of the sample, its nets *)
Definition sample_msg : Type := Z * (Z * list Z).
(** coarsen.cpp:41-47: processor [s] of [p] announces its samples to everybody *)
Definition announce (p s : nat) (H : hg) (samples : list Z) : M (list (Z * sample_msg)) :=
  ms <- mapP (λ k, i <- nidx samples k ;; v <- vert_z H i ;;
          ret ((λ t, (Z.of_nat t, (Z.of_nat s, (Z.of_nat k, v_nets v)))) <$> seq 0 p))
        (seq 0 (length samples)) ;;
  ret (concat ms).

(** coarsen.cpp:96-104: current_ip and changed_indices for one sample with nets [nets] *)
Definition ip_add (H : hg) (nets : list Z) (cur : list dbl) : M (list dbl * gset Z) :=
  foldM (λ (s : list dbl * gset Z) nid,
    if is_local_net H nid then
      n <- get_net H nid ;;
      foldM (λ (s : list dbl * gset Z) uid,
        i <- local_id H uid ;;
        x <- nidx (fst s) i ;;
        ret (<[i := d_add x (scaled_cost n)]> (fst s), {[Z.of_nat i]} ∪ snd s)) (n_verts n) s
    else ret s) nets (cur, ∅).
(** coarsen.cpp:105-113: one changed index; state (best_ip, current_ip) *)
Definition ip_judge (H : hg) (S : Z) (m : sample_msg) (s : list (dbl * Z) * list dbl) (i : Z) : M (list (dbl * Z) * list dbl) :=
  v <- vert_z H i ;;
  x <- idx (snd s) i ;;
  b <- idx (fst s) i ;;
  let deg := Z.min (Z.of_nat (length (v_nets v))) (Z.of_nat (length (snd (snd m)))) in
  let y := d_mul x (d_div d_one (d_of_Z deg)) in
  ret (if d_lt (fst b) y then zinsert i (y, fst m * S + fst (snd m)) (fst s) else fst s, zinsert i d_zero (snd s)).
(** coarsen.cpp:89-120: best_ip of all local vertices; the set changed_indices is visited in hash order *)
Definition best_matches (H : hg) (S : Z) (samples : list Z) (box : list sample_msg) : M (list (dbl * Z)) :=
  let n := length (h_verts H) in
  r <- foldM (λ s m,
         c <- ip_add H (snd (snd m)) (snd s) ;;
         order <- shuffleM (elements (snd c)) ;;
         foldM (ip_judge H S m) order (fst s, fst c)) box
       (replicate n (d_zero, -1), replicate n d_zero) ;;
  foldM (λ b i, _ <- idx b i ;; ret (zinsert i (d_zero, -1) b)) samples (fst r).
(** coarsen.cpp:122-131: requested_matches *)
Definition requested_matches (H : hg) (total : Z) (best : list (dbl * Z)) : M (list (list (Z * dbl))) :=
  foldM (λ r v,
    i <- local_id H (v_id v) ;;
    b <- nidx best i ;;
    if decide (snd b ≠ -1) then aadd (λ l x, l ++ [x]) r (snd b) (v_id v, fst b) else ret r)
    (h_verts H) (replicate (Z.to_nat total) []).

(** std::nth_element at position [k], by decreasing inner product: any arrangement in which the
    first [k] entries come before the one at [k] and this one before the rest *)
Definition ip_le (a b : Z * (Z * dbl)) : Prop := d_lt (snd (snd a)) (snd (snd b)) = false.
Global Instance ip_le_dec a b : Decision (ip_le a b).
Proof. unfold ip_le. apply _. Defined.
Definition nth_element (k : nat) (l : list (Z * (Z * dbl))) : M (list (Z * (Z * dbl))) :=
  l0 <- shuffleM l ;;
  let s := merge_sort ip_le l0 in
  a <- shuffleM (take k s) ;;
  b <- shuffleM (drop (S k) s) ;;
  ret (a ++ take 1 (drop k s) ++ b).
(** coarsen.cpp:133-141, 147-148 and 165-174: the entries that are used: all, or the first
    max_cluster_size of them after nth_element.  [coarsening_max_clustersize] is unsigned. *)
Definition best_reqs (mcs : Z) (l : list (Z * (Z * dbl))) : M (list (Z * (Z * dbl))) :=
  if decide (Z.of_nat (length l) > mcs)
  then l' <- nth_element (Z.to_nat mcs) l ;; ret (take (Z.to_nat mcs) l')
  else ret l.

(** a message of request_queue: number of the sample at its owner; sender, proposer, inner product *)
Definition request_msg : Type := Z * (Z * (Z * dbl)).
(** coarsen.cpp:133-154: the requests of processor [s] *)
Definition send_requests (s : nat) (S mcs : Z) (reqs : list (list (Z * dbl))) : M (list (Z * request_msg)) :=
  ms <- mapP (λ k,
          l <- nidx reqs k ;;
          guardM UB (bool_decide (S ≠ 0)) ;;;
          let t := Z.of_nat k / S in
          l' <- best_reqs mcs ((λ x, (Z.of_nat s, x)) <$> l) ;;
          ret ((λ x, (t, (Z.of_nat k - t * S, x))) <$> l'))
        (seq 0 (length reqs)) ;;
  ret (concat ms).
(** coarsen.cpp:158-181: the accepted requests; the contraction and the messages of accepted_matches *)
Definition accept_requests (s : nat) (S mcs : Z) (number : nat) (C : contraction) (box : list request_msg)
    : M (contraction * list (Z * (Z * Z))) :=
  ms <- foldM (λ a m, aadd (λ l x, l ++ [x]) a (fst m) (snd m)) box (replicate number []) ;;
  foldM (λ (x : contraction * list (Z * (Z * Z))) i,
    l <- nidx ms i ;;
    l' <- best_reqs mcs l ;;
    foldM (λ (x : contraction * list (Z * (Z * Z))) (m : Z * (Z * dbl)),
      C' <- add_match (Z.of_nat i) (fst (snd m)) (fst m) (fst x) ;;
      ret (C', snd x ++ [(fst m, (Z.of_nat i + Z.of_nat s * S, fst (snd m)))])) l' x)
    (seq 0 number) (C, []).

(** a message of info_queue: number of the sample at its owner; weight, nets with their costs *)
Definition info_msg : Type := Z * (Z * list (Z * Z)).
(** coarsen.cpp:202-210 and 223-231; the set of nets is visited in hash order *)
Definition info_of (H : hg) (S prev wt : Z) (nets : gset Z) : M (Z * info_msg) :=
  guardM UB (bool_decide (S ≠ 0)) ;;;
  let t := prev / S in
  order <- shuffleM (elements nets) ;;
  ncs <- mapP (λ n, e <- get_net H n ;; ret (n, n_cost e)) order ;;
  ret (t, (prev - t * S, (wt, ncs))).
(** coarsen.cpp:196-219: the variables of the loop, and the messages sent *)
Record info_state := IS {
  is_prev : Z;
  is_weight : Z;
  is_nets : gset Z;
  is_matched : list bool;
  is_out : list (Z * info_msg);
}.
(** coarsen.cpp:199-219: one accepted match *)
Definition info_step (H : hg) (S : Z) (s : info_state) (m : Z * Z) : M info_state :=
  s1 <- (if decide (fst m ≠ is_prev s ∧ 0 ≤ is_prev s) then
           o <- info_of H S (is_prev s) (is_weight s) (is_nets s) ;;
           ret (IS (is_prev s) 0 ∅ (is_matched s) (is_out s ++ [o]))
         else ret s) ;;
  i <- local_id H (snd m) ;;
  _ <- nidx (is_matched s1) i ;;
  v <- vert_at H i ;;
  ret (IS (fst m) (is_weight s1 + v_weight v) (list_to_set (v_nets v) ∪ is_nets s1) (<[i := true]> (is_matched s1)) (is_out s1)).
(** std::sort of pairs *)
Definition pair_le (a b : Z * Z) : Prop := fst a < fst b ∨ fst a = fst b ∧ snd a ≤ snd b.
Global Instance pair_le_dec a b : Decision (pair_le a b).
Proof. unfold pair_le. apply _. Defined.
(** coarsen.cpp:189-235 (send_information_matches): the messages and the vector matched *)
Definition send_info (H : hg) (S : Z) (box : list (Z * Z)) : M (list (Z * info_msg) * list bool) :=
  s <- foldM (info_step H S) (merge_sort pair_le box) (IS (-1) 0 ∅ (replicate (length (h_verts H)) false) []) ;;
  if decide (is_prev s ≠ -1) then
    o <- info_of H S (is_prev s) (is_weight s) (is_nets s) ;; ret (is_out s ++ [o], is_matched s)
  else ret (is_out s, is_matched s).

(** coarsen.cpp:244-250: new_vertices, new_nets, net_global_to_local; number_nets is the length
    of new_nets *)
Record cp_state := CP {
  cp_verts : list vertex;
  cp_nets : list net;
  cp_map : gmap Z nat;
}.
(** coarsen.cpp:261-266 and 279-284: a net that is new is appended *)
Definition cp_push (n c : Z) (s : cp_state) : cp_state :=
  match cp_map s !! n with
  | Some _ => s
  | None => CP (cp_verts s) (cp_nets s ++ [Net n [] c 0]) (<[n := length (cp_nets s)]> (cp_map s))
  end.
(** coarsen.cpp:252-269: one unmatched vertex *)
Definition cp_vertex (H : hg) (v : vertex) (s : cp_state) : M cp_state :=
  foldM (λ s n,
    s1 <- (match cp_map s !! n with
           | Some _ => ret s
           | None => e <- get_net H n ;; ret (cp_push n (n_cost e) s)
           end) ;;
    i <- of_option UB (cp_map s1 !! n) ;;
    _ <- nidx (cp_nets s1) i ;;
    ret (CP (cp_verts s1) (alter (n_add_vertex (v_id v)) i (cp_nets s1)) (cp_map s1)))
    (v_nets v) (CP (cp_verts s ++ [Vertex (v_id v) (v_nets v) (v_weight v) (-1)]) (cp_nets s) (cp_map s)).
(** coarsen.cpp:249-270 *)
Definition cp_unmatched (H : hg) (matched : list bool) : M cp_state :=
  foldM (λ s i,
    b <- nidx matched i ;;
    if b : bool then ret s else v <- vert_at H i ;; cp_vertex H v s)
    (seq 0 (length (h_verts H))) (CP [] [] ∅).
(** coarsen.cpp:272-286: the new weights and net lists of the samples, and the nets that are new here *)
Definition cp_infos (number : nat) (box : list info_msg) (s : cp_state) : M (list Z * list (gset Z) * cp_state) :=
  foldM (λ (x : list Z * list (gset Z) * cp_state) (m : info_msg),
    ws <- aadd Z.add (fst (fst x)) (fst m) (fst (snd m)) ;;
    ls <- aadd (λ (X : gset Z) (l : list Z), list_to_set l ∪ X) (snd (fst x)) (fst m) (fst <$> snd (snd m)) ;;
    ret (ws, ls, foldl (λ s nc, cp_push (fst nc) (snd nc) s) (snd x) (snd (snd m))))
    box (replicate number 0, replicate number ∅, s).
(** coarsen.cpp:294-309: one sample, with the weight and nets of its matches; hash order *)
Definition cp_sample (H : hg) (samples ws : list Z) (ls : list (gset Z)) (HC : hg) (i : nat) : M hg :=
  j <- nidx samples i ;;
  v <- vert_z H j ;;
  k <- local_id HC (v_id v) ;;
  c <- vert_at HC k ;;
  w <- nidx ws i ;;
  X <- nidx ls i ;;
  order <- shuffleM (elements X) ;;
  r <- foldM (λ (s : hg * gset Z) n,
         if decide (n ∈ snd s) then ret s else
         HC' <- upd_net_id (upd_vert k (v_add_net n) (fst s)) n (n_add_vertex (v_id c)) ;;
         ret (HC', {[n]} ∪ snd s)) order (upd_vert k (add_weight w) HC, list_to_set (v_nets c)) ;;
  ret (fst r).

(** contraction.cpp:15-20 (merge_free_vertices, distributed) *)
Definition merge_free_vertices_par (Cs : list contraction) (Hs : list hg) : M (list (contraction * hg)) :=
  rs <- mapP (λ t, C <- nidx Cs t ;; H <- nidx Hs t ;; remove_free_vertices C H) (seq 0 (length Hs)) ;;
  let Hs' := recompute_global_size ((λ r, snd (fst r)) <$> rs) in
  let tot := bulk_sum (snd <$> rs) in
  mapP (λ t, r <- nidx rs t ;; H <- nidx Hs' t ;; g <- nidx tot t ;;
    let C := fst (fst r) in
    ret (Contr (c_samples C) (c_matches C) (c_free C) (snd r) g, H)) (seq 0 (length Hs)).

Section coarsen_par.
  Context (bp : Z → Z → partitioning).

  (** coarsen.cpp:237-315 (contract_hypergraph, distributed) *)
  Definition contract_par (Hs : list hg) (Cs : list contraction) (samples : list (list Z))
      (infos : list (list info_msg)) (matched : list (list bool)) : M (list (hg * contraction)) :=
    let p := length Hs in
    xs <- mapP (λ t, H <- nidx Hs t ;; sm <- nidx samples t ;; box <- nidx infos t ;; mt <- nidx matched t ;;
            s <- cp_unmatched H mt ;; cp_infos (length sm) box s) (seq 0 p) ;;
    let sizes := bulk_sum ((λ x : list Z * list (gset Z) * cp_state, Z.of_nat (length (cp_verts (snd x)))) <$> xs) in
    HCs <- mapP (λ t, H <- nidx Hs t ;; sm <- nidx samples t ;; x <- nidx xs t ;; size <- nidx sizes t ;;
             foldM (cp_sample H sm (fst (fst x)) (snd (fst x))) (seq 0 (length sm))
               (mk_hg size (h_gnets H) (cp_verts (snd x)) (cp_nets (snd x)) 0)) (seq 0 p) ;;
    HCs1 <- remove_free_nets_par bp HCs 1 ;;
    rs <- merge_free_vertices_par Cs HCs1 ;;
    ret ((λ r, (snd r, fst r)) <$> rs).

  (** coarsen.cpp:41-67: coarsen_hypergraph_par after the samples have been chosen *)
  Definition coarsen_samples (Hs : list hg) (Cs : list contraction) (samples : list (list Z)) (opts : options)
      : M (list (hg * contraction)) :=
    let p := length Hs in
    let S := o_sample_size opts in
    let mcs := o_max_clustersize opts in
    ann <- mapP (λ t, H <- nidx Hs t ;; sm <- nidx samples t ;; announce p t H sm) (seq 0 p) ;;
    boxes <- exchange ann ;;
    Cs1 <- mapP (λ t, H <- nidx Hs t ;; C <- nidx Cs t ;; sm <- nidx samples t ;; add_samples H sm C) (seq 0 p) ;;
    reqs <- mapP (λ t, H <- nidx Hs t ;; sm <- nidx samples t ;; box <- nidx boxes t ;;
              best <- best_matches H S sm box ;;
              rq <- requested_matches H (Z.of_nat p * S) best ;;
              send_requests t S mcs rq) (seq 0 p) ;;
    rboxes <- exchange reqs ;;
    accs <- mapP (λ t, C <- nidx Cs1 t ;; sm <- nidx samples t ;; box <- nidx rboxes t ;;
              accept_requests t S mcs (length sm) C box) (seq 0 p) ;;
    aboxes <- exchange (snd <$> accs) ;;
    infos <- mapP (λ t, H <- nidx Hs t ;; box <- nidx aboxes t ;; send_info H S box) (seq 0 p) ;;
    iboxes <- exchange (fst <$> infos) ;;
    contract_par Hs (fst <$> accs) samples iboxes (snd <$> infos).

  (** coarsen.cpp:33-39 *)
  Definition choose_samples (H : hg) (opts : options) : M (list Z) :=
    match o_sampling opts with
    | SampRandom => sample_random H (o_sample_size opts)
    | SampLP => sample_lp H opts
    end.
  (** coarsen.cpp:25-68 (coarsen_hypergraph_par) on all processors *)
  Definition coarsen_par (Hs : list hg) (Cs : list contraction) (opts : options) : M (list (hg * contraction)) :=
    samples <- mapP (λ H, choose_samples H opts) Hs ;;
    coarsen_samples Hs Cs samples opts.
End coarsen_par.
