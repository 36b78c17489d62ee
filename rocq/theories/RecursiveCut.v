(** Model of recursive_bisect (src/recursive_bisection.cpp) on several processors with the cut-net metric.  The sub_worlds work
    independently between two calls of remove_cut_nets, in which all processors of the world meet. *)
From Verif Require Export CutNetPar.

(** the computation of some sub_worlds up to the next call of remove_cut_nets: it is over, all its processors are in
    remove_cut_nets (and go on with what that returns), or some of them are there while others are not and will not come *)
Inductive res (A : Type) :=
| Now (a : A)
| Call (groups : list (list keeper)) (next : list (list keeper) → world → out (res A * world))
| Stuck.
Arguments Now {A}. Arguments Call {A}. Arguments Stuck {A}.

(** sequential composition *)
Fixpoint bind_res {A B} (r : res A) (f : A → M (res B)) : M (res B) :=
  match r with
  | Now a => f a
  | Call groups next => ret (Call groups (λ gs w, match next gs w with Ok (r', w') => bind_res r' f w' | Err e => Err e end))
  | Stuck => ret Stuck
  end.
(** a call of remove_cut_nets by one sub_world *)
Definition call_remove {A} (g : list keeper) (f : list keeper → M (res A)) : M (res A) :=
  ret (Call [g] (λ gs, f (concat gs))).
(** two sub_worlds side by side; an empty one does not matter *)
Fixpoint side_by_side (a b : res (list keeper)) : res (list keeper) :=
  match a, b with
  | Now [], _ => b
  | _, Now [] => a
  | Now x, Now y => Now (x ++ y)
  | Call ga na, Call gb nb => Call (ga ++ gb) (λ gs w,
      match na (take (length ga) gs) w with
      | Err e => Err e
      | Ok (a', w1) => match nb (drop (length ga) gs) w1 with
                       | Err e => Err e
                       | Ok (b', w2) => Ok (side_by_side a' b', w2)
                       end
      end)
  | _, _ => Stuck
  end.

(** the same options, but for the metric *)
Definition with_metric (m : metric) (o : options) : options :=
  Opts (o_sample_size o) (o_max_clustersize o) (o_lp_max_iterations o) (o_nrvertices o) (o_maxrounds o) (o_max_passes o) (o_max_no_gain o)
    (o_send_moves o) m (o_bisection o) (o_sampling o).

Section cut_net.
  (** bisection on one processor and on a group *)
  Context (bis : hg → options → Z * Z → Z → Z → Z * Z → M (hg * (Z * Z))).
  Context (bisp : list (hg * (Z * Z)) → options → Z * Z → Z * Z → M (list (hg * (Z * Z)))).
  Context (k maxweight : Z) (eta : dbl) (opts : options).

  (** recursive_bisection.cpp:192-195: remove_cut_nets once more if this processor has done few splits *)
  Definition wind_up (ps : list keeper) (splits : Z) : M (res (list keeper)) :=
    if decide (splits * 2 < k) then call_remove ps (λ ps', ret (Now ps')) else ret (Now ps).

  (** recursive_bisection.cpp:160-184, one split of a work item before remove_cut_nets: as with the other metric *)
  Definition split_only (s : rb_state) (j : job) : M (rb_state * job) :=
    rb_split (λ H _, bis H opts) maxweight (with_metric LambdaMinusOne opts) s j.
  (** recursive_bisection.cpp:150-190: [j] is what is left of the current work item *)
  Fixpoint cut_loop (fuel : nat) (s : rb_state) (j : job) : M (res rb_state) :=
    match fuel with
    | O => fail Fuel
    | S fuel' =>
      if decide (j_high j - j_low j > 0) then
        y <- split_only s j ;;
        let s' := fst y in
        if decide (rb_jobs s' ≠ []) then
          call_remove [(rb_H s', rb_cut s')] (λ ps, P <- nidx ps 0 ;; cut_loop fuel' (RB (fst P) (rb_jobs s') (snd P) (rb_splits s')) (snd y))
        else cut_loop fuel' s' (snd y)
      else
        match rb_jobs s with
        | [] => ret (Now s)
        | j' :: js => cut_loop fuel' (RB (rb_H s) js (rb_cut s) (rb_splits s)) j'
        end
    end.
  (** recursive_bisection.cpp:150-195 on a processor that has one job: its vertices before [en] *)
  Definition cut_alone (P : keeper) (en low high weight splits : Z) : M (res (list keeper)) :=
    r <- cut_loop (Z.to_nat (3 * (high - low + 1)) + 2) (RB (fst P) [] (snd P) splits) (Job 0 en low high weight) ;;
    bind_res r (λ s, wind_up [(rb_H s, rb_cut s)] (rb_splits s)).

  (** recursive_bisection.cpp:64-195 for a group of processors; see [rb_group] in RecursivePar.v *)
  Fixpoint cut_group (fuel : nat) (G : list (keeper * Z)) (low high weight splits : Z) : M (res (list keeper)) :=
    match G with
    | [] => ret (Now [])
    | [g] => cut_alone (fst g) (snd g) low high weight splits
    | _ =>
      if decide (high - low > 0) then
        match fuel with
        | O => fail Fuel
        | S fuel' =>
          let k_low := k_low_of low high in
          let k_high := k_high_of low high in
          mx <- compute_max_global_weight (high - low + 1) k_low k_high weight maxweight ;;
          rs <- bisp ((λ g : keeper * Z, (fst (fst g), (0, snd g))) <$> G) opts mx (low, high) ;;
          w0 <- agreed (bulk_sum ((λ r : hg * (Z * Z), fst (snd r)) <$> rs)) ;;
          w1 <- agreed (bulk_sum ((λ r : hg * (Z * Z), snd (snd r)) <$> rs)) ;;
          p_low <- p_low_par w0 w1 (Z.of_nat (length rs)) k_low k_high ;;
          go <- agreed ((λ s, let l := new_labels low high (my_part p_low s) in if decide (snd l - fst l > 0) then 1 else 0) <$> seq 0 (length rs)) ;;
          let ps := zip (fst <$> rs) ((λ g : keeper * Z, snd (fst g)) <$> G) in
          if decide (go = 1) then
            call_remove ps (λ ps',
              G' <- regroup eta (zip (fst <$> ps') (snd <$> rs)) low high w0 w1 p_low ;;
              let H' := zip (zip (fst <$> G') (snd <$> ps')) (snd <$> G') in
              let n := Z.to_nat p_low in
              let l0 := new_labels low high 0 in
              let l1 := new_labels low high 1 in
              a <- cut_group fuel' (take n H') (fst l0) (snd l0) w0 (splits + 1) ;;
              b <- cut_group fuel' (drop n H') (fst l1) (snd l1) w1 (splits + 1) ;;
              ret (side_by_side a b))
          else wind_up ps (splits + 1)
        end
      else wind_up (fst <$> G) splits
    end.
End cut_net.

(** the calls of remove_cut_nets; None: processors wait for each other for ever *)
Fixpoint meet_all (bp : Z → Z → partitioning) (r : res (list keeper)) : M (option (list keeper)) :=
  match r with
  | Now ps => ret (Some ps)
  | Stuck => ret None
  | Call groups next => λ w,
      match remove_cut_nets_par bp groups w with
      | Err e => Err e
      | Ok (gs, w1) => match next gs w1 with Err e => Err e | Ok (r', w2) => meet_all bp r' w2 end
      end
  end.

(** recursive_bisection.cpp:26-199 (recursive_bisect) on the processors of [Hs], cut-net metric, for any functions that bisect on one and on several
    processors *)
Definition recursive_bisect_cut_with (bis : hg → options → Z * Z → Z → Z → Z * Z → M (hg * (Z * Z)))
    (bisp : list (hg * (Z * Z)) → options → Z * Z → Z * Z → M (list (hg * (Z * Z))))
    (bp : Z → Z → partitioning) (Hs : list hg) (k : Z) (eps eta : dbl) (opts : options) : M (option (list hg)) :=
  gw <- agreed (global_weight Hs) ;;
  maxweight <- max_weight gw k eps ;;
  let opts' := with_sample_size (o_sample_size opts / Z.of_nat (length Hs)) opts in
  r <- cut_group bis bisp k maxweight eta opts' (Z.to_nat k)
         ((λ H, ((H, []), Z.of_nat (length (h_verts H)))) <$> Hs) 0 (k - 1) gw 0 ;;
  o <- meet_all bp r ;;
  match o with
  | None => ret None
  | Some ps => Hs' <- add_cut_nets_par ps ;; ret (Some Hs')
  end.
(** recursive_bisection.cpp:26-199 *)
Definition recursive_bisect_cut (bp : Z → Z → partitioning) : list hg → Z → dbl → dbl → options → M (option (list hg)) :=
  recursive_bisect_cut_with (bisect1 bp) (bisect_par bp) bp.
