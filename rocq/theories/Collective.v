(** The collective operations of recursive_bisect on many processors: a skeleton of
    recursive_bisection.cpp:26-199 that keeps the control flow and, of the data, only what the
    control flow depends on. *)
From Verif Require Export Recursive.

(** the worlds: the initial one is [], and [w ++ [c]] is the one that the processors that call
    split(c) on [w] get *)
Notation wid := (list Z).
(** what a processor does together with all processors of a world.  OBisect stands for all of
    bisect (bisect.cpp:28-341): its operations depend on sizes that are the same on all
    processors.  OQueue is the creation of a queue. *)
Inductive op := OSum | OGather | OQueue | OSync | OSplit (c : Z) | OBisect.
Global Instance op_eq_dec : EqDecision op.
Proof. solve_decision. Defined.
Notation ev := (wid * op)%type.

(** recursive_bisection.cpp:90-94: the number of processors for the low part, from the total
    weights of the two parts *)
Definition p_low_of (w0 w1 p k_low k_high : Z) : option Z :=
  q ← d_trunc (d_add (d_mul (d_div (d_of_Z w0) (d_of_Z (w0 + w1))) (d_of_Z p)) (d_div d_one (d_of_Z 2)));
  Some (if decide (k_low = 1 ∧ k_high > 1) then 0 else q).

(** recursive_bisection.cpp:378-439 (remove_cut_nets): [G] is the sub_world, with [p] processors *)
Definition remove_ops (G : wid) (p : Z) : list ev :=
  [([], OQueue)] ++ (if decide (p = 1) then [] else [(G, OQueue); (G, OSync)]) ++ [([], OSync)].
(** recursive_bisection.cpp:448-463 (add_cut_nets) *)
Definition add_ops : list ev := [([], OQueue); ([], OSync)].
(** recursive_bisection.cpp:226-288 (redistribute_hypergraph) *)
Definition redistribute_ops (G : wid) : list ev := [(G, OGather); (G, OGather); (G, OQueue); (G, OQueue); (G, OSync)].

(** the local variables: sub_world with its number of processors and the own rank, labels, jobs
    (only their labels) and splits *)
Record cstate := CS { cs_G : wid; cs_p : Z; cs_s : Z; cs_low : Z; cs_high : Z; cs_jobs : list (Z * Z); cs_splits : Z }.

Section collective.
  (** the total weights of the two parts after the bisection in a world, which bulk::sum gives to
      all its processors *)
  Context (W : wid → Z * Z) (m : metric) (k : Z).

  (** recursive_bisection.cpp:65-146: one round of the parallel loop.  In sub_world->split the
      processors keep their order, so [p_low] of them (or all, or none) get part 0. *)
  Definition par_round (st : cstate) : option (list ev * cstate) :=
    let G := cs_G st in
    let k_low := k_low_of (cs_low st) (cs_high st) in
    let k_high := k_high_of (cs_low st) (cs_high st) in
    p_low ← p_low_of (fst (W G)) (snd (W G)) (cs_p st) k_low k_high;
    let my_part := if decide (cs_s st < p_low) then 0 else 1 in
    let low' := cs_low st + my_part * k_low in
    let high' := cs_high st - (1 - my_part) * k_high in
    let e := [(G, OBisect); (G, OSum); (G, OSum)] in
    if decide (high' - low' > 0) then
      let n0 := Z.max 0 (Z.min p_low (cs_p st)) in
      let p' := if decide (my_part = 0) then n0 else cs_p st - n0 in
      let s' := if decide (my_part = 0) then cs_s st else cs_s st - n0 in
      let G' := G ++ [my_part] in
      Some (e ++ (if decide (m = CutNet) then remove_ops G (cs_p st) else []) ++ redistribute_ops G ++ [(G, OSplit my_part); (G', OSync)],
            CS G' p' s' low' high' (if decide (p' = 1) then [(low', high')] else cs_jobs st) (cs_splits st + 1))
    else Some (e ++ [(G, OSync)], CS G (cs_p st) (cs_s st) low' high' (cs_jobs st) (cs_splits st + 1)).
  (** recursive_bisection.cpp:64-147; every round halves the labels, so [k] rounds are enough *)
  Fixpoint par_loop (fuel : nat) (st : cstate) : option (list ev * cstate) :=
    if decide (cs_high st - cs_low st > 0 ∧ cs_p st > 1) then
      match fuel with
      | O => None
      | Datatypes.S fuel => r ← par_round st; r' ← par_loop fuel (snd r); Some (fst r ++ fst r', snd r')
      end
    else Some ([], st).

  (** recursive_bisection.cpp:159-189: the splits of one job; state (jobs, splits) *)
  Fixpoint seq_job (fuel : nat) (G : wid) (low high : Z) (jobs : list (Z * Z)) (splits : Z) : option (list ev * (list (Z * Z) * Z)) :=
    if decide (high - low > 0) then
      match fuel with
      | O => None
      | Datatypes.S fuel =>
          let l0 := labels_0 low high in
          let l1 := labels_1 low high in
          let jobs := if decide (snd l1 - fst l1 > 0) then l1 :: jobs else jobs in
          r ← seq_job fuel G (fst l0) (snd l0) jobs (splits + 1);
          Some ([(G, OBisect)] ++ (if decide (m = CutNet ∧ jobs ≠ []) then remove_ops G 1 else []) ++ fst r, snd r)
      end
    else Some ([], (jobs, splits)).
  (** recursive_bisection.cpp:150-190 *)
  Fixpoint seq_loop (fuel : nat) (G : wid) (jobs : list (Z * Z)) (splits : Z) : option (list ev * Z) :=
    match jobs with
    | [] => Some ([], splits)
    | j :: jobs =>
        match fuel with
        | O => None
        | Datatypes.S fuel =>
            r ← seq_job (Z.to_nat (snd j - fst j)) G (fst j) (snd j) jobs splits;
            r' ← seq_loop fuel G (fst (snd r)) (snd (snd r));
            Some (fst r ++ fst r', snd r')
        end
    end.
  (** recursive_bisection.cpp:192-198 *)
  Definition end_ops (G : wid) (p splits : Z) : list ev :=
    (if decide (m = CutNet) then (if decide (splits * 2 < k) then remove_ops G p else []) ++ add_ops else []) ++ [([], OSync)].

  (** recursive_bisection.cpp:26-199 on processor [s] of [p]: everything it does together with
      others, in order.  None: the conversion of p_low to long is undefined. *)
  Definition rb_ops (p s : Z) : option (list ev) :=
    r ← par_loop (Z.to_nat k) (CS [0] p s 0 (k - 1) (if decide (p = 1) then [(0, k - 1)] else []) 0);
    let st := snd r in
    r' ← seq_loop (Z.to_nat k) (cs_G st) (cs_jobs st) (cs_splits st);
    Some ([([], OSum); ([], OSplit 0)] ++ fst r ++ fst r' ++ end_ops (cs_G st) (cs_p st) (snd r')).
End collective.
