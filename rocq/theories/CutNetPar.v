(** Model of remove_cut_nets and add_cut_nets (src/recursive_bisection.cpp) on all processors.  Both
    synchronize the whole world; remove_cut_nets is called with the sub_world a processor works in. *)
From Verif Require Export RecursivePar.

(** a processor: its hypergraph and its cut_nets *)
Definition keeper : Type := hg * list net.

Section cut_nets.
  (** bulk::block_partitioning<1>({n}, {p}) *)
  Context (bp : Z → Z → partitioning).

  (** recursive_bisection.cpp:404-410: the label that is announced for the local piece of a net.  It starts as a part, and is
      compared with the ids of the vertices. *)
  Definition piece_label (H : hg) (n : net) : M Z :=
    u <- nidx (n_verts n) 0 ;;
    v0 <- vert H u ;;
    foldM (λ l x, if decide (l = -1) then ret l else v <- vert H x ;; ret (if decide (l ≠ v_id v) then -1 else l)) (n_verts n) (v_part v0).
  (** recursive_bisection.cpp:415-432: a processor goes through the announced labels of the nets it owns; -2: none seen so far.
      Returns the nets it sends to all processors.  int of a label does not change it. *)
  Definition owner_cuts (part : partitioning) (size : Z) (box : list (Z * Z)) : M (list Z) :=
    r <- foldM (λ (s : list Z * list Z) m,
           let i := pa_local part (fst m) in
           c <- idx (fst s) i ;;
           if decide (c = -2) then
             ret (zinsert i (snd m) (fst s), if decide (snd m = -1) then snd s ++ [fst m] else snd s)
           else if decide (0 ≤ c ∧ c ≠ snd m) then ret (zinsert i (-1) (fst s), snd s ++ [fst m])
           else ret s) box (replicate (Z.to_nat size) (-2), []) ;;
    ret (snd r).
  (** recursive_bisection.cpp:383-433 for the processors [Hs] of a sub_world, the first of which has rank [first] in the world:
      the nets every processor sends.  Line 416 takes the number of nets of the processor with the rank in the
      world, not in the sub_world. *)
  Definition group_cuts (first : nat) (Hs : list hg) : M (list (list Z)) :=
    match Hs with
    | [H] =>
        bs <- mapP (net_is_cut H) (h_nets H) ;;
        ret [n_id <$> (snd <$> filter (λ x : bool * net, fst x = true) (zip bs (h_nets H)))]
    | _ =>
        let p := length Hs in
        outs <- mapP (λ H, mapP (λ n, l <- piece_label H n ;; ret (pa_owner (net_partition bp p H) (n_id n), (n_id n, l))) (h_nets H)) Hs ;;
        boxes <- exchange outs ;;
        mapP (λ t, H <- nidx Hs t ;; box <- nidx boxes t ;;
          let part := net_partition bp p H in
          owner_cuts part (pa_count part (Z.of_nat (first + t))) box) (seq 0 p)
    end.
  (** all sub_worlds, which are numbered through *)
  Fixpoint all_cuts (first : nat) (groups : list (list hg)) : M (list (list Z)) :=
    match groups with
    | [] => ret []
    | Hs :: groups' => a <- group_cuts first Hs ;; b <- all_cuts (first + length Hs) groups' ;; ret (a ++ b)
    end.
  (** every message to every processor *)
  Definition to_all {A} (p : nat) (ms : list A) : list (Z * A) := concat ((λ m, (λ t : nat, (Z.of_nat t, m)) <$> seq 0 p) <$> ms).
  (** recursive_bisection.cpp:436-442: the nets that have arrived are removed and stored *)
  Definition take_out (ids : list Z) (P : keeper) : M keeper :=
    foldM (λ s id,
      if is_local_net (fst s) id then
        n <- get_net (fst s) id ;;
        H' <- remove_net (fst s) id ;;
        ret (H', snd s ++ [Net (n_id n) (n_verts n) (n_cost n) 0])
      else ret s) ids P.
  (** recursive_bisection.cpp:378-443 (remove_cut_nets) on all processors: [groups] are the sub_worlds; queue(t).send for all t *)
  Fixpoint in_groups {A B} (groups : list (list A)) (l : list B) : list (list B) :=
    match groups with [] => [] | g :: groups' => take (length g) l :: in_groups groups' (drop (length g) l) end.
  Definition remove_cut_nets_par (groups : list (list keeper)) : M (list (list keeper)) :=
    let ps := concat groups in
    sent <- all_cuts 0 ((λ g : list keeper, fst <$> g) <$> groups) ;;
    boxes <- exchange (to_all (length ps) <$> sent) ;;
    ps' <- mapP (λ t, P <- nidx ps t ;; box <- nidx boxes t ;; take_out box P) (seq 0 (length ps)) ;;
    ret (in_groups groups ps').

  (** recursive_bisection.cpp:453-467: a processor adds its stored nets with the vertices that are still here; the messages to be
      sent to every processor are (net, vertex, cost) *)
  Definition give_back (P : keeper) : M (hg * list (Z * (Z * Z))) :=
    foldM (λ s n,
      let H := fst s in
      let here := filter (λ v, is_local H v = true) (n_verts n) in
      let far := filter (λ v, is_local H v = false) (n_verts n) in
      ret (match n_verts n with [] => H | _ => add_net H (n_id n) here (n_cost n) end, snd s ++ ((λ v, (n_id n, (v, n_cost n))) <$> far)))
    (snd P) (fst P, []).
  (** recursive_bisection.cpp:471-480: the messages that concern a vertex that is here *)
  Definition take_in (box : list (Z * (Z * Z))) (H : hg) : M hg :=
    foldM (λ H m,
      let nid := fst m in let v := fst (snd m) in let cost := snd (snd m) in
      if is_local H v then
        H1 <- (if is_local_net H nid then upd_net_id H nid (n_add_vertex v) else ret (add_net H nid [v] cost)) ;;
        i <- local_id H1 v ;;
        ret (upd_vert i (v_add_net nid) H1)
      else ret H) box H.
  (** recursive_bisection.cpp:448-481 (add_cut_nets) on all processors *)
  Definition add_cut_nets_par (ps : list keeper) : M (list hg) :=
    rs <- mapP give_back ps ;;
    boxes <- exchange ((λ r : hg * list (Z * (Z * Z)), to_all (length ps) (snd r)) <$> rs) ;;
    mapP (λ t, r <- nidx rs t ;; box <- nidx boxes t ;; take_in box (fst r)) (seq 0 (length ps)).
End cut_nets.
