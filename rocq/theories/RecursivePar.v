(** Model of recursive_bisect (src/recursive_bisection.cpp) on any number of processors, for the
    lambda-minus-one metric: the parallel loop, the split into groups of processors and the sequential
    work of a processor that is alone in its group.  The cut-net metric adds operations of the whole world
    (remove_cut_nets, add_cut_nets) to the work of a group; they are not modelled here, see Collective.v. *)
From Verif Require Export BisectPar Redistribute Collective.

(** std::ceil on doubles *)
Definition d_ceil (x : dbl) : dbl :=
  match x with
  | S754_finite s m e =>
      if decide (0 ≤ e) then x else
      let d := 2 ^ (- e) in
      if s then (if decide (Zpos m < d) then S754_zero true else d_of_Z (- (Zpos m / d)))
      else d_of_Z ((Zpos m + d - 1) / d)
  | _ => x
  end.
(** recursive_bisection.cpp:113-120: new_max_local_weight, from the total weight of the part and the number
    of processors that work on it *)
Definition local_limit (total procs : Z) (eta : dbl) : M Z :=
  d_to_Z (d_mul (d_ceil (d_div (d_of_Z total) (d_of_Z procs))) (d_add d_one eta)).

(** bisect.cpp:27-51 (bisect) on a group of processors; the job of a processor is its hypergraph, start and end *)
Definition bisect_par (bp : Z → Z → partitioning) (jobs : list (hg * (Z * Z))) (opts : options) (mx : Z * Z) (labels : Z * Z) :
    M (list (hg * (Z * Z))) :=
  let p := Z.of_nat (length jobs) in
  match o_bisection opts with
  | BisRandom => mapP (λ j, bisect_random (fst j) (Z.quot (fst mx) p, Z.quot (snd mx) p) (fst (snd j)) (snd (snd j)) labels) jobs
  | BisMultilevel => bisect_multilevel_par bp jobs opts mx labels
  end.
(** recursive_bisection.cpp:90-94: p_low *)
Definition p_low_par (w0 w1 p k_low k_high : Z) : M Z := of_option UB (p_low_of w0 w1 p k_low k_high).

(** recursive_bisection.cpp:60: opts.sample_size / p *)
Definition with_sample_size (n : Z) (o : options) : options :=
  Opts n (o_max_clustersize o) (o_lp_max_iterations o) (o_nrvertices o) (o_maxrounds o) (o_max_passes o) (o_max_no_gain o)
    (o_send_moves o) (o_metric o) (o_bisection o) (o_sampling o).

Section recursive_par.
  (** bisection on one processor and on a group *)
  Context (bis : hg → options → Z * Z → Z → Z → Z * Z → M (hg * (Z * Z))).
  Context (bisp : list (hg * (Z * Z)) → options → Z * Z → Z * Z → M (list (hg * (Z * Z)))).
  Context (maxweight : Z) (eta : dbl) (opts : options).

  (** recursive_bisection.cpp:150-190 on a processor that has one job: its vertices before [en] *)
  Definition rb_alone (H : hg) (en low high weight : Z) : M hg :=
    s <- rb_loop bis (high + 1) maxweight opts (RB H [Job 0 en low high weight] [] 0) ;;
    ret (rb_H s).

  (** recursive_bisection.cpp:96-101 on processor [s] *)
  Definition my_part (p_low : Z) (s : nat) : Z := if decide (Z.of_nat s < p_low) then 0 else 1.
  Definition new_labels (low high part : Z) : Z * Z :=
    (low + part * k_low_of low high, high - (1 - part) * k_high_of low high).
  (** recursive_bisection.cpp:111-131: the new local limits, then the redistribution.  [rs]: the bisected
      hypergraph and the weights of its two parts, on every processor of the group *)
  Definition regroup (rs : list (hg * (Z * Z))) (low high w0 w1 p_low : Z) : M (list (hg * Z)) :=
    let p := Z.of_nat (length rs) in
    sh <- mapP (λ s, r <- nidx rs s ;;
            m <- (if decide (my_part p_low s = 0) then local_limit w0 p_low eta else local_limit w1 (p - p_low) eta) ;;
            ret (Share (my_part p_low s) m (fst (snd r)) (snd (snd r)))) (seq 0 (length rs)) ;;
    redistribute (fst <$> rs) sh low high p_low.

  (** recursive_bisection.cpp:64-147 and 150-190 for a group of processors: every processor has its
      hypergraph and the end of its range (start is 0 all the time).  The processors with part 0 come first, and in
      sub_world->split they keep their order.  The two groups do not communicate, so one is run after the other. *)
  Fixpoint rb_group (fuel : nat) (G : list (hg * Z)) (low high weight : Z) : M (list hg) :=
    match G with
    | [] => ret []
    | [g] => H <- rb_alone (fst g) (snd g) low high weight ;; ret [H]
    | _ =>
      if decide (high - low > 0) then
        match fuel with
        | O => fail Fuel
        | S fuel' =>
          let k_low := k_low_of low high in
          let k_high := k_high_of low high in
          mx <- compute_max_global_weight (high - low + 1) k_low k_high weight maxweight ;;
          rs <- bisp ((λ g : hg * Z, (fst g, (0, snd g))) <$> G) opts mx (low, high) ;;
          w0 <- agreed (bulk_sum ((λ r : hg * (Z * Z), fst (snd r)) <$> rs)) ;;
          w1 <- agreed (bulk_sum ((λ r : hg * (Z * Z), snd (snd r)) <$> rs)) ;;
          p_low <- p_low_par w0 w1 (Z.of_nat (length rs)) k_low k_high ;;
          go <- agreed ((λ s, let l := new_labels low high (my_part p_low s) in if decide (snd l - fst l > 0) then 1 else 0) <$> seq 0 (length rs)) ;;
          if decide (go = 1) then
            G' <- regroup rs low high w0 w1 p_low ;;
            let n := Z.to_nat p_low in
            let l0 := new_labels low high 0 in
            let l1 := new_labels low high 1 in
            a <- rb_group fuel' (take n G') (fst l0) (snd l0) w0 ;;
            b <- rb_group fuel' (drop n G') (fst l1) (snd l1) w1 ;;
            ret (a ++ b)
          else ret (fst <$> rs)
        end
      else ret (fst <$> G)
    end.
End recursive_par.

(** recursive_bisection.cpp:26-199 (recursive_bisect) on the processors of [Hs], lambda-minus-one metric *)
Definition recursive_bisect_par_with (bis : hg → options → Z * Z → Z → Z → Z * Z → M (hg * (Z * Z)))
    (bisp : list (hg * (Z * Z)) → options → Z * Z → Z * Z → M (list (hg * (Z * Z))))
    (Hs : list hg) (k : Z) (eps eta : dbl) (opts : options) : M (list hg) :=
  gw <- agreed (global_weight Hs) ;;
  maxweight <- max_weight gw k eps ;;
  let opts' := with_sample_size (o_sample_size opts / Z.of_nat (length Hs)) opts in
  rb_group bis bisp maxweight eta opts' (Z.to_nat k) ((λ H, (H, Z.of_nat (length (h_verts H)))) <$> Hs) 0 (k - 1) gw.
(** the program *)
Definition recursive_bisect_par (bp : Z → Z → partitioning) : list hg → Z → dbl → dbl → options → M (list hg) :=
  recursive_bisect_par_with (bisect1 bp) (bisect_par bp).
