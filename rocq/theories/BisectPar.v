(** Model of src/bisect.cpp (bisect_multilevel), of uncoarsen.cpp:41-94 and of contraction.cpp:54-115 for
    a world of several processors. *)
From Verif Require Export Bisect CoarsenPar KlfmPar.

(** Collective decisions are taken from values every processor computes by itself.  If they differ the
    processors no longer take part in the same collective operations; this is an error here. *)
Definition agreed (xs : list Z) : M Z :=
  match xs with
  | [] => fail UB
  | x :: l => guardM UB (forallb (Z.eqb x) l) ;;; ret x
  end.

(** contraction.cpp:84-88: the processor whose free vertices are split over the parts *)
Fixpoint find_split (free : list Z) (target assigned : Z) (t : nat) : Z * nat :=
  match free with
  | x :: free' => if decide (assigned + x ≤ target) then find_split free' target (assigned + x) (S t) else (assigned, t)
  | [] => (assigned, t)
  end.
(** contraction.cpp:54-115 (assign_free_vertices, distributed): the hypergraphs and, the same on every
    processor, the weights of the parts.  local_free_weights is a coarray that every processor fills
    everywhere.  The two messages in the log are not modelled. *)
Definition assign_free_vertices_par (Cs : list contraction) (Hs : list hg) (mx : Z * Z) : M (list hg * (Z * Z)) :=
  let p := length Hs in
  wss <- global_weight_parts Hs 2 ;;
  l <- nidx wss 0 ;; a <- idx l 0 ;; b <- idx l 1 ;;
  gfree <- agreed (c_global_free <$> Cs) ;;
  if decide (gfree = 0) then ret (Hs, (a, b)) else
  let frees := c_local_free <$> Cs in
  guardM UB (bool_decide (fst mx + snd mx ≠ 0)) ;;;
  let target := Z.quot (b * fst mx - a * snd mx + gfree * fst mx) (fst mx + snd mx) in
  let s := find_split frees target 0 0 in
  let split := snd s in
  let ws := (a + fst s, b + foldl Z.add 0 (drop (S split) frees)) in
  rs <- mapP (λ t, C <- nidx Cs t ;; H <- nidx Hs t ;;
          if decide (t < split)%nat then H' <- assign_all_vertices C H 0 ;; ret (H', (0, 0))
          else if decide (split < t)%nat then H' <- assign_all_vertices C H 1 ;; ret (H', (0, 0))
          else r <- assign_free_vertices_ C H ws mx ;; ret (snd (fst r), snd r)) (seq 0 p) ;;
  if decide (split < p)%nat then r <- nidx rs split ;; ret (fst <$> rs, snd r)
  else ret (fst <$> rs, (a + fst s, b)).

(** uncoarsen.cpp:74-79 on one processor *)
Definition copy_parts (HC H : hg) : M hg :=
  foldM (λ H v,
    match h_vmap H !! v_id v with
    | Some i => _ <- vert_at H i ;; ret (upd_vert i (set_part (v_part v)) H)
    | None => ret H
    end) (h_verts HC) H.
(** uncoarsen.cpp:81-87: the messages of one processor: processor, vertex, part *)
Definition send_parts (HC : hg) (C : contraction) : M (list (Z * (Z * Z))) :=
  ls <- mapP (λ i, sample <- nidx (c_samples C) i ;; v <- vert HC sample ;; ms <- nidx (c_matches C) i ;;
          ret ((λ m : Z * Z, (snd m, (fst m, v_part v))) <$> ms)) (seq 0 (length (c_samples C))) ;;
  ret (concat ls).
(** uncoarsen.cpp:91-93 *)
Definition take_parts (H : hg) (box : list (Z * Z)) : M hg :=
  foldM (λ H m, j <- local_id H (fst m) ;; ret (upd_vert j (set_part (snd m)) H)) box H.
(** uncoarsen.cpp:66-94 (uncoarsen_hypergraph, distributed) *)
Definition uncoarsen_world (HCs Hs : list hg) (Cs : list contraction) : M (list hg) :=
  let p := length Hs in
  xs <- mapP (λ t, HC <- nidx HCs t ;; H <- nidx Hs t ;; C <- nidx Cs t ;;
          H' <- copy_parts HC H ;; ms <- send_parts HC C ;; ret (H', ms)) (seq 0 p) ;;
  boxes <- exchange (snd <$> xs) ;;
  mapP (λ t, x <- nidx xs t ;; box <- nidx boxes t ;; take_parts (fst x) box) (seq 0 p).

(** bisect.cpp:146-164: the vertices and net costs a processor sends to all others *)
Definition gather_send_verts (p s : nat) (H : hg) : list (Z * (Z * (Z * list Z))) :=
  concat ((λ v, (λ t, (Z.of_nat t, (v_id v, (v_weight v, v_nets v)))) <$> seq 0 s ++ seq (S s) (p - S s)) <$> h_verts H).
Definition gather_send_nets (p s : nat) (H : hg) : list (Z * (Z * Z)) :=
  concat ((λ n, (λ t, (Z.of_nat t, (n_id n, n_cost n))) <$> seq 0 s ++ seq (S s) (p - S s)) <$> h_nets H).
(** bisect.cpp:165-184: HC_list.push_back(HC_list[nc_par]) copies; the received nets and vertices are added *)
Definition gather_add (H : hg) (nbox : list (Z * Z)) (vbox : list (Z * (Z * list Z))) : M hg :=
  K <- copy_hg H ;;
  let K1 := foldl (λ K m, add_net K (fst m) [] (snd m)) K nbox in
  foldM (λ K m, let v := Vertex (fst m) (snd (snd m)) (fst (snd m)) (-1) in
    add_to_nets (add_vertex K (fst m) (snd (snd m)) (fst (snd m))) v) vbox K1.
(** bisect.cpp:146-184 *)
Definition gather (Hs : list hg) : M (list hg) :=
  let p := length Hs in
  vboxes <- exchange (imap (λ s H, gather_send_verts p s H) Hs) ;;
  nboxes <- exchange (imap (λ s H, gather_send_nets p s H) Hs) ;;
  mapP (λ t, H <- nidx Hs t ;; nb <- nidx nboxes t ;; vb <- nidx vboxes t ;; gather_add H nb vb) (seq 0 p).

(** bisect.cpp:261-295: the labels of the best processor are given to the local vertices of every processor,
    with the cut of the best.  [rs]: the bisected hypergraph and the cut on every processor.  owner_min
    gives the same processor everywhere, so there is one broadcast. *)
Definition share_best (Hs : list hg) (rs : list (hg * Z)) (mx : Z * Z) : M (list hg * Z) :=
  let p := length Hs in
  bests <- owner_min ((λ r, if decide (weight_part (fst r) 0 > fst mx ∨ weight_part (fst r) 1 > snd mx) then long_max else snd r) <$> rs) ;;
  best <- agreed bests ;;
  outs <- mapP (λ t, b <- nidx bests t ;; r <- nidx rs t ;;
            ret (if decide (b = Z.of_nat t)
                 then concat ((λ v, (λ t', (Z.of_nat t', (v_id v, v_part v))) <$> seq 0 p) <$> h_verts (fst r)) else []))
          (seq 0 p) ;;
  boxes <- exchange outs ;;
  Hs' <- mapP (λ t, H <- nidx Hs t ;; box <- nidx boxes t ;;
           foldM (λ H m, match h_vmap H !! fst m with
                         | Some _ => j <- local_id H (fst m) ;; ret (upd_vert j (set_part (snd m)) H)
                         | None => ret H
                         end) box H) (seq 0 p) ;;
  r <- idx rs best ;;
  ret (Hs', snd r).

(** the double nearest to 0.05 *)
Definition d_005 : dbl := S754_finite false 7205759403792794 (-57).
(** bisect.cpp:17 *)
Definition stopping_time_par : Z := 3.

Section bisect_par.
  Context (bp : Z → Z → partitioning).

  (** uncoarsen.cpp:41-61 (uncoarsen_hypergraph_par): the hypergraphs and the returned cut *)
  Definition uncoarsen_par (HCs Hs : list hg) (Cs : list contraction) (opts : options) (mx : Z * Z) (cut : Z) : M (list hg * Z) :=
    a <- assign_free_vertices_par Cs HCs mx ;;
    Hs1 <- uncoarsen_world (fst a) Hs Cs ;;
    cs <- init_counts_par bp Hs1 ;;
    rs <- klfm_par bp Hs1 cs (snd a) mx opts cut ;;
    c <- agreed (snd <$> rs) ;;
    ret (kn_H ∘ fst <$> rs, c).

  (** bisect.cpp:146-295: the coarse hypergraph is copied to all processors; each bisects it by itself
      (coarsening, initial partitioning, uncoarsening); the best result is used by all.  The sequential
      phase has as many rounds left as the parallel one has not used (max_rounds is one higher, as
      nc_par is).  Matches are recorded with processor world.rank() there, 0 in [ml_rounds]; the
      sequential uncoarsening does not read it. *)
  Definition solve_coarse (rounds : nat) (Hs : list hg) (opts : options) (mx : Z * Z) : M (list hg * Z) :=
    Gs <- gather Hs ;;
    rs <- mapP (λ G, ml_rounds rounds G mx opts) Gs ;;
    share_best Hs rs mx.

  (** bisect.cpp:114-143, 301-322: parallel coarsening and uncoarsening.  As in [ml_rounds] the vectors
      HC_list and C_list are the call stack.  [rounds]: coarsening_maxrounds - nc_par. *)
  Fixpoint par_rounds (rounds : nat) (ratio : dbl) (Hs : list hg) (opts : options) (mx : Z * Z) : M (list hg * Z) :=
    match rounds with
    | S rounds' =>
      size <- agreed (h_gsize <$> Hs) ;;
      if bool_decide (size > Z.max (o_nrvertices opts) (Z.of_nat (length Hs) * o_sample_size opts * stopping_time_par)) && d_lt d_005 ratio then
        cs <- coarsen_par bp Hs (replicate (length Hs) new_contraction) opts ;;
        size' <- agreed (h_gsize <$> (fst <$> cs)) ;;
        r <- par_rounds rounds' (d_div (d_of_Z (size - size')) (d_of_Z size)) (fst <$> cs) opts mx ;;
        uncoarsen_par (fst r) Hs (snd <$> cs) opts mx (snd r)
      else solve_coarse rounds Hs opts mx
    | O => solve_coarse O Hs opts mx
    end.

  (** bisect.cpp:84-339 (bisect_multilevel) with more than one processor; the job of a processor is its
      hypergraph, start and end.  Per processor: the labelled hypergraph and the two weights returned. *)
  Definition bisect_multilevel_par (jobs : list (hg * (Z * Z))) (opts : options) (mx : Z * Z) (labels : Z * Z) :
      M (list (hg * (Z * Z))) :=
    let p := length jobs in
    Rs <- create_new bp jobs ;;
    K0s <- mapP copy_hg Rs ;;
    fs <- merge_free_vertices_par (replicate p new_contraction) K0s ;;
    r <- par_rounds (Z.to_nat (o_maxrounds opts)) d_one (snd <$> fs) opts mx ;;
    a <- assign_free_vertices_par (fst <$> fs) (fst r) mx ;;
    mapP (λ t, j <- nidx jobs t ;; K <- nidx (fst a) t ;;
      H' <- write_labels K (fst j) labels ;;
      ret (H', (weight_part K 0, weight_part K 1))) (seq 0 p).
End bisect_par.
