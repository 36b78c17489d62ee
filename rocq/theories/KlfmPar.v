(** Model of src/multilevel_bisect/KLFM/KLFM_parallel.cpp and of the move with local counts.  As in
    Par.v the state of a world is a list with one entry per processor, in rank order, and the local
    computations of a superstep are run one after the other.  check_C (for testing only) and the log
    message about the balance at the start are not modelled. *)
From Verif Require Export Klfm Par.

(** hypergraph.cpp:203-215 (move with local counts) *)
Definition move_loc (H : hg) (C Cl : list (Z * Z)) (id : Z) : M (hg * list (Z * Z) * list (Z * Z)) :=
  i <- local_id H id ;;
  v <- nidx (h_verts H) i ;;
  let from := v_part v in
  H' <- move_sorted H Cl id ;;
  v' <- nidx (h_verts H') i ;;
  let to := v_part v' in
  r <- foldM (λ st nid,
         C1 <- cadd H' (fst st) nid from (-1) ;;
         C2 <- cadd H' C1 nid to 1 ;;
         L1 <- cadd H' (snd st) nid from (-1) ;;
         L2 <- cadd H' L1 nid to 1 ;;
         ret (C2, L2)) (v_nets v') (C, Cl) ;;
  ret (H', fst r, snd r).

(** The state of one processor in KLFM_pass_par.  H and C are inside the gain structure, which holds
    references to them; previous_C is one vector of pairs. *)
Record kproc := KProc {
  kp_G : gstruct;
  kp_Cl : list (Z * Z);    (* C_loc *)
  kp_ws : Z * Z;           (* total_weights *)
  kp_own : list (Z * Z);   (* previous_C *)
  kp_prev0 : list Z;       (* prev_C_0 *)
  kp_cut : Z;              (* cut_size_my_nets *)
  kp_best : Z;             (* best_cut_size *)
  kp_nim : list Z;         (* no_improvement_moves *)
  kp_done : Z;             (* done *)
}.
Definition kp_H (k : kproc) : hg := g_H (kp_G k).
Definition kp_C (k : kproc) : list (Z * Z) := g_C (kp_G k).

(** A found move: vertex, gain, change of the weight of part 0 (the tuples of KLFM_parallel.cpp:127-130) *)
Record kmove := KMove { km_v : Z; km_gain : Z; km_change : Z }.
(** A proposal in moves_queue: gain, weight change, processor, tag *)
Record proposal := Proposal { pr_gain : Z; pr_change : Z; pr_proc : Z; pr_tag : Z }.

(** What init_cost_my_nets leaves on a processor: cost_my_nets and procs_my_nets *)
Record kowned := KOwned { ow_cost : list Z; ow_procs : list (list Z) }.

(** KLFM_parallel.cpp:305-347 (update_gains); the parameters called C_loc and C_new there are [c] and
    [c']; front() and back() of an empty list of vertices are undefined *)
Definition update_gains (G : gstruct) (n : net) (c c' : Z * Z) : M gstruct :=
  let H := g_H G in
  let all G d := foldM (λ G u, add_gain G u d) (n_verts n) G in
  let one G p d :=
    u <- boundary n p ;; x <- vert H u ;;
    if decide (v_part x = p) then add_gain G u d else ret G in
  G1 <- (if decide (fst c' = 0 ∧ fst c > 0 ∨ snd c' = 0 ∧ snd c > 0) then all G (-1 * n_cost n) else ret G) ;;
  G2 <- (if decide (fst c' = 1 ∧ fst c > 1) then one G1 0 (n_cost n) else ret G1) ;;
  G3 <- (if decide (snd c' = 1 ∧ snd c > 1) then one G2 1 (n_cost n) else ret G2) ;;
  G4 <- (if decide (fst c' > 0 ∧ fst c = 0 ∨ snd c' > 0 ∧ snd c = 0) then all G3 (n_cost n) else ret G3) ;;
  G5 <- (if decide (fst c' > 1 ∧ fst c = 1) then one G4 0 (-1 * n_cost n) else ret G4) ;;
  (if decide (snd c' > 1 ∧ snd c = 1) then one G5 1 (-1 * n_cost n) else ret G5).

(** The state of the loop of find_top_moves: gain structure, C_loc, the moves found, weights.  The
    vector moves has KLFM_par_number_send_moves entries; the list holds the entries in use. *)
Record find_state := FS { fs_G : gstruct; fs_Cl : list (Z * Z); fs_moves : list kmove; fs_ws : Z * Z }.
(** KLFM_parallel.cpp:363-398: loop condition and body of find_top_moves *)
Definition find_body (mx : Z * Z) (number : Z) (s : find_state) : M (bool * find_state) :=
  d <- gs_done (fs_G s) ;;
  let s0 := FS (snd d) (fs_Cl s) (fs_moves s) (fs_ws s) in
  if fst d then ret (false, s0) else
  if decide (Z.of_nat (length (fs_moves s)) < number) then
    let x := (fst mx - fst (fs_ws s), snd mx - snd (fs_ws s)) in
    pn <- part_next (snd d) (fst x) (snd x) ;;
    let p := fst pn in
    nx <- gs_next (snd pn) p ;;
    let v := fst nx in
    gn <- gs_gain_next (snd nx) p ;;
    let G := snd gn in
    if decide (fst gn < 0) then ret (false, FS G (fs_Cl s) (fs_moves s) (fs_ws s)) else
    room <- psel x (flip_part p) ;;
    u <- vert (g_H G) v ;;
    let w := v_weight u in
    if decide (room - w >= 0) then
      let change := if decide (p = 0) then -1 * w else w in
      r <- gs_move_loc G (fs_Cl s) v ;;
      ret (true, FS (fst r) (snd r) (fs_moves s ++ [KMove v (fst gn) change])
             (fst (fs_ws s) + change, snd (fs_ws s) - change))
    else
      G' <- gs_remove G v ;;
      ret (true, FS G' (fs_Cl s) (fs_moves s) (fs_ws s))
  else ret (false, s0).
(** KLFM_parallel.cpp:352-399 (find_top_moves).  Every iteration locks a vertex. *)
Definition find_top_moves (mx : Z * Z) (number : Z) (k : kproc) : M find_state :=
  loopM (length (h_verts (kp_H k)) + 1) (find_body mx number) (FS (kp_G k) (kp_Cl k) [] (kp_ws k)).

(** The order of KLFM_parallel.cpp:417-423.  std::sort leaves proposals that this order does not
    separate in an unspecified order.  The queue is in arrival order, which is arbitrary, so a stable
    sort reaches every one of these. *)
Definition prop_le (a b : proposal) : Prop :=
  pr_gain a < pr_gain b ∨ pr_gain a = pr_gain b ∧ pr_tag b ≤ pr_tag a.
#[global] Instance prop_le_dec a b : Decision (prop_le a b).
Proof. unfold prop_le. apply _. Defined.

Record rejections := Rej { rj_num : list Z; rj_done : list bool; rj_ws : Z * Z }.
(** KLFM_parallel.cpp:435-451: moves into part 0 are taken back while part 0 is too heavy; also the
    rest of the queue *)
Fixpoint reject_0 (mx : Z * Z) (q : list proposal) (r : rejections) : M (rejections * list proposal) :=
  match q with
  | [] => ret (r, [])
  | m :: q' =>
      if decide (fst (rj_ws r) > fst mx) then
        r' <- (if decide (pr_change m > 0) then
                 d <- idx (rj_done r) (pr_proc m) ;;
                 if d : bool then ret r else
                 if decide (snd (rj_ws r) + pr_change m ≤ snd mx) then
                   num <- aadd Z.add (rj_num r) (pr_proc m) 1 ;;
                   ret (Rej num (rj_done r) (fst (rj_ws r) - pr_change m, snd (rj_ws r) + pr_change m))
                 else ret (Rej (rj_num r) (zinsert (pr_proc m) true (rj_done r)) (rj_ws r))
               else ret r) ;;
        reject_0 mx q' r'
      else ret (r, q)
  end.
(** KLFM_parallel.cpp:453-469: the same for part 1 *)
Fixpoint reject_1 (mx : Z * Z) (q : list proposal) (r : rejections) : M (rejections * list proposal) :=
  match q with
  | [] => ret (r, [])
  | m :: q' =>
      if decide (snd (rj_ws r) > snd mx) then
        r' <- (if decide (pr_change m < 0) then
                 d <- idx (rj_done r) (pr_proc m) ;;
                 if d : bool then ret r else
                 if decide (fst (rj_ws r) - pr_change m ≤ fst mx) then
                   num <- aadd Z.add (rj_num r) (pr_proc m) (-1) ;;
                   ret (Rej num (rj_done r) (fst (rj_ws r) - pr_change m, snd (rj_ws r) + pr_change m))
                 else ret (Rej (rj_num r) (zinsert (pr_proc m) true (rj_done r)) (rj_ws r))
               else ret r) ;;
        reject_1 mx q' r'
      else ret (r, q)
  end.
(** KLFM_parallel.cpp:406-471 (reject_unbalanced_moves) on processor [s] of [p]: the result and the
    new total_weights *)
Definition reject_unbalanced_moves (p : nat) (s : Z) (box : list proposal) (ws mx : Z * Z) : M (Z * (Z * Z)) :=
  let q := merge_sort prop_le box in
  let balance := foldl (λ b m, b + pr_change m) 0 q in
  r0 <- reject_0 mx q (Rej (replicate p 0) (replicate p false) (fst ws + balance, snd ws - balance)) ;;
  r1 <- reject_1 mx (snd r0) (fst r0) ;;
  num <- idx (rj_num (fst r1)) s ;;
  ret (num, rj_ws (fst r1)).

(** The state of the two loops that take rejected moves back *)
Record undo_state := US { us_G : gstruct; us_Cl : list (Z * Z); us_moves : list kmove; us_rej : Z; us_index : Z }.
(** KLFM_parallel.cpp:152-174.  The unused entries of the vector moves have weight change 0 and are
    passed over, so index starts at the last entry in use. *)
Definition undo_body (s : undo_state) : M (bool * undo_state) :=
  if decide (us_rej s = 0) then ret (false, s) else
  m <- idx (us_moves s) (us_index s) ;;
  if decide (us_rej s > 0 ∧ km_change m > 0 ∨ us_rej s < 0 ∧ km_change m < 0) then
    v <- vert (g_H (us_G s)) (km_v m) ;;
    r <- move_loc (g_H (us_G s)) (g_C (us_G s)) (us_Cl s) (v_id v) ;;
    ret (true, US (with_C (snd (fst r)) (with_H (fst (fst r)) (us_G s))) (snd r)
                 (zinsert (us_index s) (KMove (-1) 0 0) (us_moves s))
                 (if decide (us_rej s > 0) then us_rej s - 1 else us_rej s + 1) (us_index s - 1))
  else ret (true, US (us_G s) (us_Cl s) (us_moves s) (us_rej s) (us_index s - 1)).
Definition undo_moves (G : gstruct) (Cl : list (Z * Z)) (moves : list kmove) (rejected : Z) : M undo_state :=
  loopM (length moves + 1) undo_body (US G Cl moves rejected (Z.of_nat (length moves) - 1)).

Section klfm_par.
  Context (bp : Z → Z → partitioning).

  (** KLFM_parallel.cpp:247-270 (init_cost_my_nets).  Writes to a remote coarray take effect at
      world.sync(), in an arbitrary order. *)
  Definition init_cost_my_nets (Hs : list hg) : M (list kowned) :=
    let p := length Hs in
    costs <- exchange ((λ H, (λ n, (pa_owner (net_partition bp p H) (n_id n),
                                    (pa_local (net_partition bp p H) (n_id n), n_cost n))) <$> h_nets H) <$> Hs) ;;
    procs <- exchange (imap (λ s H, (λ n, (pa_owner (net_partition bp p H) (n_id n), (n_id n, Z.of_nat s)))
                                      <$> h_nets H) Hs) ;;
    mapP (λ t, H <- nidx Hs t ;; cb <- nidx costs t ;; pb <- nidx procs t ;;
      let part := net_partition bp p H in
      let count := Z.to_nat (pa_count part (Z.of_nat t)) in
      cs <- foldM (λ a (m : Z * Z), aadd (λ _ x, x) a (fst m) (snd m)) cb (replicate count 0) ;;
      ps <- foldM (λ a (m : Z * Z), aadd (λ l x, l ++ [x]) a (pa_local part (fst m)) (snd m)) pb (replicate count []) ;;
      ret (KOwned cs ps)) (seq 0 p).

  (** KLFM_parallel.cpp:276-302 (init_previous_C): previous_C and the cut of the nets of the processor *)
  Definition init_previous_C (Hs : list hg) (Cs : list (list (Z * Z))) (ows : list kowned) : M (list (list (Z * Z) * Z)) :=
    let p := length Hs in
    outs <- mapP (λ t, H <- nidx Hs t ;; C <- nidx Cs t ;;
      let part := net_partition bp p H in
      mapP (λ i, n <- nidx (h_nets H) i ;; c <- nidx C i ;;
        ret (pa_owner part (n_id n), (pa_local part (n_id n), c))) (seq 0 (length C))) (seq 0 p) ;;
    ins <- exchange outs ;;
    mapP (λ t, H <- nidx Hs t ;; box <- nidx ins t ;; ow <- nidx ows t ;;
      let part := net_partition bp p H in
      let count := Z.to_nat (pa_count part (Z.of_nat t)) in
      own <- foldM (λ a (m : Z * (Z * Z)), aadd (λ _ x, x) a (fst m) (snd m)) box (replicate count (0, 0)) ;;
      cut <- foldM (λ r i, c <- nidx own i ;;
               if decide (fst c = 0 ∨ snd c = 0) then ret r
               else x <- nidx (ow_cost ow) i ;; ret (r + x)) (seq 0 count) 0 ;;
      ret (own, cut)) (seq 0 p).

  (** KLFM_parallel.cpp:477-516: the first half of update_C on processor [t], with the received
      messages [box]: C_new, the cut, the messages to be sent, the new previous_C *)
  Definition update_own (part : partitioning) (t : nat) (ow : kowned) (box : list (Z * Z)) (own : list (Z * Z)) (cut : Z)
    : M (list (Z * Z) * Z * list (Z * (Z * Z))) :=
    r <- foldM (λ st (m : Z * Z),
           let l := pa_local part (fst m) in
           old <- idx own l ;;
           let change := snd m - fst old in
           if decide (change ≠ 0) then
             c <- idx (fst st) l ;;
             cut1 <- (if decide (fst c = 0 ∨ snd c = 0) then x <- idx (ow_cost ow) l ;; ret (snd st + x) else ret (snd st)) ;;
             let c' := (fst c + change, snd c - change) in
             cut2 <- (if decide (fst c' = 0 ∨ snd c' = 0) then x <- idx (ow_cost ow) l ;; ret (cut1 - x) else ret cut1) ;;
             ret (zinsert l c' (fst st), cut2)
           else ret st) box (own, cut) ;;
    s <- foldM (λ st i,
           old <- nidx (fst st) i ;;
           c <- nidx (fst r) i ;;
           if decide (fst old ≠ fst c) then
             ps <- nidx (ow_procs ow) i ;;
             ret (<[i := c]> (fst st), snd st ++ ((λ u, (u, (pa_global part (Z.of_nat i) (Z.of_nat t), fst c))) <$> ps))
           else ret st) (seq 0 (Z.to_nat (pa_count part (Z.of_nat t)))) (own, []) ;;
    ret (fst s, snd r, snd s).

  (** KLFM_parallel.cpp:519-540: the second half of update_C *)
  Definition update_local (update_g : bool) (box : list (Z * Z)) (k : kproc) : M kproc :=
    let H := kp_H k in
    prev0 <- foldM (λ a (m : Z * Z), i <- local_id_net H (fst m) ;; aadd (λ _ x, x) a (Z.of_nat i) (snd m)) box (kp_prev0 k) ;;
    G <- (if update_g then
            foldM (λ G i,
              n <- nidx (h_nets H) i ;; c0 <- nidx prev0 i ;; c <- nidx (g_C G) i ;;
              if decide (c0 ≠ fst c) then update_gains G n c (c0, n_gsize n - c0) else ret G)
              (seq 0 (length (h_nets H))) (kp_G k)
          else ret (kp_G k)) ;;
    C <- foldM (λ C i,
           n <- nidx (h_nets H) i ;; c0 <- nidx prev0 i ;; _ <- nidx C i ;;
           ret (<[i := (c0, n_gsize n - c0)]> C)) (seq 0 (length (h_nets H))) (g_C G) ;;
    ret (KProc (with_C C G) (kp_Cl k) (kp_ws k) (kp_own k) prev0 (kp_cut k) (kp_best k) (kp_nim k) (kp_done k)).

  (** KLFM_parallel.cpp:477-542 (update_C) on all processors; [ins] are the messages in update_nets *)
  Definition update_C (update_g : bool) (ows : list kowned) (ins : list (list (Z * Z))) (ks : list kproc) : M (list kproc) :=
    let p := length ks in
    rs <- mapP (λ t, k <- nidx ks t ;; box <- nidx ins t ;; ow <- nidx ows t ;;
            update_own (net_partition bp p (kp_H k)) t ow box (kp_own k) (kp_cut k)) (seq 0 p) ;;
    ins' <- exchange (snd <$> rs) ;;
    mapP (λ t, k <- nidx ks t ;; r <- nidx rs t ;; box <- nidx ins' t ;;
      update_local update_g box
        (KProc (kp_G k) (kp_Cl k) (kp_ws k) (fst (fst r)) (kp_prev0 k) (snd (fst r)) (kp_best k) (kp_nim k) (kp_done k)))
      (seq 0 p).

  (** KLFM_parallel.cpp:177-183: the changed counts, each for the processor responsible for the net *)
  Definition changed_counts (p : nat) (k : kproc) : M (list (Z * (Z * Z))) :=
    let H := kp_H k in
    foldM (λ r i,
      n <- nidx (h_nets H) i ;; c0 <- nidx (kp_prev0 k) i ;; c <- nidx (kp_C k) i ;;
      ret (if decide (c0 ≠ fst c) then r ++ [(pa_owner (net_partition bp p H) (n_id n), (n_id n, fst c))] else r))
      (seq 0 (length (h_nets H))) [].

  (** KLFM_parallel.cpp:119-151: local moves, exchange of the proposals, rejection *)
  Definition propose (mx : Z * Z) (number : Z) (ks : list kproc) : M (list (kproc * list kmove)) :=
    let p := length ks in
    fs <- mapP (find_top_moves mx number) ks ;;
    boxes <- exchange (imap (λ s f, concat (imap (λ tag m,
               (λ t, (Z.of_nat t, Proposal (km_gain m) (km_change m) (Z.of_nat s) (Z.of_nat tag))) <$> seq 0 p)
               (fs_moves f))) fs) ;;
    mapP (λ t, k <- nidx ks t ;; f <- nidx fs t ;; box <- nidx boxes t ;;
      r <- reject_unbalanced_moves p (Z.of_nat t) box (kp_ws k) mx ;;
      u <- undo_moves (fs_G f) (fs_Cl f) (fs_moves f) (fst r) ;;
      ret (KProc (us_G u) (us_Cl u) (snd r) (kp_own k) (kp_prev0 k) (kp_cut k) (kp_best k) (kp_nim k) (kp_done k),
           us_moves u)) (seq 0 p).

  (** KLFM_parallel.cpp:190-214: after a round, with the sum of the tracked cuts *)
  Definition judge (cut : Z) (k : kproc) (moves : list kmove) : M kproc :=
    let kept := filter (λ v, v ≠ -1) (km_v <$> moves) in
    let found := Z.of_nat (length kept) in
    let best := if decide (cut > kp_best k) then kp_best k else cut in
    let nim := if decide (cut > kp_best k) then kp_nim k ++ kept else [] in
    d <- gs_done (kp_G k) ;;
    ret (KProc (snd d) (kp_Cl k) (kp_ws k) (kp_own k) (kp_prev0 k) (kp_cut k) best nim
           (if fst d || bool_decide (found = 0) then 1 else kp_done k)).

  (** KLFM_parallel.cpp:117-218: one iteration of the while loop *)
  Definition round_body (mx : Z * Z) (number : Z) (ows : list kowned) (ks : list kproc) : M (bool * list kproc) :=
    let p := length ks in
    us <- propose mx number ks ;;
    outs <- mapP (changed_counts p) (fst <$> us) ;;
    ins <- exchange outs ;;
    ks1 <- update_C true ows ins (fst <$> us) ;;
    let cuts := bulk_sum (kp_cut <$> ks1) in
    ks2 <- mapP (λ t, k <- nidx ks1 t ;; u <- nidx us t ;; cut <- nidx cuts t ;; judge cut k (snd u)) (seq 0 p) ;;
    ret (negb (bool_decide (foldl Z.add 0 (kp_done <$> ks2) = Z.of_nat p)), ks2).

  (** KLFM_parallel.cpp:220-234: back to the best point; also weight_change and the messages, which are
      sent in hash order *)
  Definition reverse_moves (p : nat) (k : kproc) : M (kproc * Z * list (Z * (Z * Z))) :=
    r <- foldM (λ (st : hg * list (Z * Z) * list (Z * Z) * (Z * gset Z)) v,
           let H := fst (fst (fst st)) in
           x <- vert H v ;;
           h <- move_loc H (snd (fst (fst st))) (snd (fst st)) v ;;
           ret (fst (fst h), snd (fst h), snd h,
                (if decide (v_part x = 0) then fst (snd st) - v_weight x else fst (snd st) + v_weight x,
                 list_to_set (v_nets x) ∪ snd (snd st)))) (kp_nim k)
           (kp_H k, kp_C k, kp_Cl k, (0, ∅)) ;;
    let H := fst (fst (fst r)) in
    let C := snd (fst (fst r)) in
    order <- shuffleM (elements (snd (snd r))) ;;
    outs <- mapP (λ n, i <- local_id_net H n ;; c <- nidx C i ;;
              ret (pa_owner (net_partition bp p H) n, (n, fst c))) order ;;
    ret (KProc (with_C C (with_H H (kp_G k))) (snd (fst r)) (kp_ws k) (kp_own k) (kp_prev0 k) (kp_cut k) (kp_best k)
           (kp_nim k) (kp_done k), fst (snd r), outs).

  (** The data KLFM_par hands to a pass, per processor: H, C, C_loc, total_weights *)
  Record kin := KIn { kn_H : hg; kn_C : list (Z * Z); kn_Cl : list (Z * Z); kn_ws : Z * Z }.

  (** KLFM_parallel.cpp:80-245 (KLFM_pass_par).  A processor that is not done has locked a vertex in
      the round, so |V|+2 rounds of fuel suffice. *)
  Definition klfm_pass_par (mx : Z * Z) (number : Z) (ows : list kowned) (cuts : list Z) (ins : list kin)
    : M (list (kin * Z)) :=
    let p := length ins in
    Gs <- mapP (λ k, gs_new (kn_H k) (kn_C k)) ins ;;
    prevs <- init_previous_C (kn_H <$> ins) (kn_C <$> ins) ows ;;
    ks0 <- mapP (λ t, k <- nidx ins t ;; G <- nidx Gs t ;; pr <- nidx prevs t ;; cut <- nidx cuts t ;;
             ret (KProc G (kn_Cl k) (kn_ws k) (fst pr) (fst <$> kn_C k) (snd pr) cut [] 0)) (seq 0 p) ;;
    ks <- loopM (length (concat ((λ k, h_verts (kn_H k)) <$> ins)) + 2) (round_body mx number ows) ks0 ;;
    rs <- mapP (reverse_moves p) ks ;;
    boxes <- exchange (snd <$> rs) ;;
    ks' <- update_C false ows boxes ((λ r, fst (fst r)) <$> rs) ;;
    let changes := bulk_sum ((λ r, snd (fst r)) <$> rs) in
    mapP (λ t, k <- nidx ks' t ;; d <- nidx changes t ;;
      ret (KIn (kp_H k) (kp_C k) (kp_Cl k) (fst (kp_ws k) + d, snd (kp_ws k) - d), kp_best k)) (seq 0 p).

  (** Every processor takes the branch it computes itself.  If they part ways the world hangs in
      different collective operations: outcome Abort. *)
  Definition agree (bs : list bool) : M bool :=
    if forallb id bs then ret true else if forallb negb bs then ret false else fail Abort.

  (** KLFM_parallel.cpp:22-75 (KLFM_par): per processor H, C and the result.  [cut] = long_max means
      "not given". *)
  Definition klfm_par (Hs : list hg) (Cs : list (list (Z * Z))) (ws mx : Z * Z) (opts : options) (cut : Z)
    : M (list (kin * Z)) :=
    let p := length Hs in
    cuts <- (if decide (cut = long_max) then cutsize_par bp Hs (o_metric opts) else ret (replicate p cut)) ;;
    ins <- mapP (λ t, H <- nidx Hs t ;; C <- nidx Cs t ;;
             Cl <- init_counts H ;; H1 <- sort_vertices_on_part H Cl ;;
             ret (KIn H1 C Cl ws)) (seq 0 p) ;;
    ows <- init_cost_my_nets (kn_H <$> ins) ;;
    r <- loopM (Z.to_nat (o_max_passes opts) + 1)
      (λ st : Z * (list kin * list Z),
         if decide (fst st < o_max_passes opts) then
           rs <- klfm_pass_par mx (o_send_moves opts) ows (snd (snd st)) (fst (snd st)) ;;
           better <- agree (zip_with (λ r c, bool_decide (snd r < c)) rs (snd (snd st))) ;;
           if better : bool then ret (true, (fst st + 1, (fst <$> rs, snd <$> rs)))
           else ret (false, (fst st, (fst <$> rs, snd (snd st))))
         else ret (false, st)) (0, (ins, cuts)) ;;
    ret (zip (fst (snd r)) (snd (snd r))).
End klfm_par.
