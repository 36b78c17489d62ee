(** Specification vocabulary for parallel refinement: lists of proposed moves, one list per processor in
    the order in which the processor made them.  Only the data types of the model are used. *)
From Verif Require Export KlfmPar.

#[global] Instance kmove_eq_dec : EqDecision kmove.
Proof. solve_decision. Defined.
(** all proposals, with processor and position *)
Definition proposals (mss : list (list kmove)) : list proposal :=
  concat (imap (λ s ms, imap (λ i m, Proposal (km_gain m) (km_change m) (Z.of_nat s) (Z.of_nat i)) ms) mss).
(** change of the weight of part 0 *)
Definition total_change (ms : list kmove) : Z := zsum (km_change <$> ms).
(** the moves taken back by a processor that is told [r]: its last r moves into part 0 if r > 0, its
    last -r moves into part 1 if r < 0 *)
Definition undone (r : Z) (ms : list kmove) : list kmove :=
  take (Z.to_nat (Z.abs r)) (filter (λ m, 0 < r * km_change m) (reverse ms)).

(** the two limits *)
Definition within (ws mx : Z * Z) : Prop := fst ws ≤ fst mx ∧ snd ws ≤ snd mx.
(** the moves of a processor alone keep the limits at every point *)
Definition feasible (ws mx : Z * Z) (ms : list kmove) : Prop :=
  ∀ k, within (fst ws + total_change (take k ms), snd ws - total_change (take k ms)) mx.
(** no two processors propose the same gain at the same position *)
Definition no_ties (mss : list (list kmove)) : Prop :=
  NoDup ((λ a, (pr_gain a, pr_tag a)) <$> proposals mss).
(** later moves do not have higher gains *)
Definition gains_fall (ms : list kmove) : Prop :=
  ∀ i j a b, (i < j)%nat → ms !! i = Some a → ms !! j = Some b → km_gain b ≤ km_gain a.
(** moves into the same part have the same weight *)
Definition same_weights (ms : list kmove) : Prop :=
  ∀ a b, a ∈ ms → b ∈ ms → 0 < km_change a * km_change b → km_change a = km_change b.

(** ** Results of the whole refinement (C50) *)
(** what a caller gets: [Hs] before, [rs] the data and the value on every processor afterwards *)
Definition refined (gn : Z) (m : metric) (Hs : list hg) (rs : list (kin * Z)) : Prop :=
  let Hs' := (λ r : kin * Z, kn_H (fst r)) <$> rs in
  Forall2 same_shape Hs Hs' ∧
  (∀ v, v ∈ all_verts Hs' → v_part v = 0 ∨ v_part v = 1) ∧
  (∀ r, r ∈ rs → snd r = cut_by m (whole_nets Hs' gn) (gpart Hs')) ∧
  cut_by m (whole_nets Hs' gn) (gpart Hs') ≤ cut_by m (whole_nets Hs gn) (gpart Hs) ∧
  (∀ r, r ∈ rs → kn_C (fst r) = (λ n, (gcount Hs' (n_id n) 0, gcount Hs' (n_id n) 1)) <$> h_nets (kn_H (fst r))) ∧
  (∀ r, r ∈ rs → exact_counts (kn_H (fst r)) (kn_Cl (fst r))).

(** ** Histories of moves and exchanges of counts (C40) *)
(** moves of a round: on every processor vertices of that processor *)
Definition legal_moves (Hs : list hg) (moves : list (list Z)) : Prop :=
  length moves = length Hs ∧ ∀ t H vs u, Hs !! t = Some H → moves !! t = Some vs → u ∈ vs → u ∈ v_id <$> h_verts H.

(** the state of a processor after a move *)
Definition kp_moved (k : kproc) (r : hg * list (Z * Z) * list (Z * Z)) : kproc :=
  KProc (with_C (snd (fst r)) (with_H (fst (fst r)) (kp_G k))) (snd r) (kp_ws k) (kp_own k) (kp_prev0 k) (kp_cut k) (kp_best k)
    (kp_nim k) (kp_done k).

Section hist.
  Context (bp : Z → Z → partitioning).

  (** The setting of C40, built from functions of the model: a processor moves the given vertices, one
      after the other (as in KLFM_parallel.cpp:224-229) ... *)
  Definition local_moves (k : kproc) (vs : list Z) : M kproc :=
    foldM (λ k v, r <- move_loc (kp_H k) (kp_C k) (kp_Cl k) v ;; ret (kp_moved k r)) vs k.
  (** ... then the changed counts are sent (KLFM_parallel.cpp:177-184) and update_C is called *)
  Definition count_round (ug : bool) (ows : list kowned) (ks : list kproc) (moves : list (list Z)) : M (list kproc) :=
    let p := length ks in
    ks1 <- mapP (λ t, k <- nidx ks t ;; vs <- nidx moves t ;; local_moves k vs) (seq 0 p) ;;
    outs <- mapP (changed_counts bp p) ks1 ;;
    ins <- exchange outs ;;
    update_C bp ug ows ins ks1.
  (** Any number of rounds after the initialisation of KLFM_par and KLFM_pass_par.  The buckets and gains
      [bs] of the gain structures are arbitrary. *)
  Definition count_history (ug : bool) (Hs : list hg) (bs : nat → gbuckets * gbuckets * list Z) (rounds : list (list (list Z)))
    : M (list kproc) :=
    let p := length Hs in
    Cs <- init_counts_par bp Hs ;;
    ins <- mapP (λ t, H <- nidx Hs t ;; C <- nidx Cs t ;;
             Cl <- init_counts H ;; H1 <- sort_vertices_on_part H Cl ;; ret (KIn H1 C Cl (0, 0))) (seq 0 p) ;;
    ows <- init_cost_my_nets bp (kn_H <$> ins) ;;
    prevs <- init_previous_C bp (kn_H <$> ins) (kn_C <$> ins) ows ;;
    ks <- mapP (λ t, k <- nidx ins t ;; pr <- nidx prevs t ;;
            ret (KProc (GS (kn_H k) (kn_C k) (fst (bs t)) (snd (bs t))) (kn_Cl k) (kn_ws k) (fst pr) (fst <$> kn_C k) (snd pr) 0 [] 0))
            (seq 0 p) ;;
    foldM (count_round ug ows) rounds ks.
End hist.
