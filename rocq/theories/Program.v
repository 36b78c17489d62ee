(** Model of tools/PMondriaan.cpp: the program that reads a matrix, partitions its columns and writes the result.
    Not modelled: parsing of the command line, the file with the settings, timers, and the text of messages. *)
From Verif Require Export RecursivePar RecursiveCut Writer.
Local Open Scope list_scope.

(** what the program leaves: the file, and the numbers it reports (lines 138-147) *)
Record report := Report { re_file : text; re_balance : dbl; re_cut : Z; re_weights : list Z }.
(** how the program ends: with a result; with an error message (lines 112-115, 132-134); not at all, as processors wait for each other for ever *)
Inductive ending := Result (r : report) | Message | Blocked.

Section program.
  (** the family of block partitionings, as in [Par] *)
  Context (bp : Z → Z → partitioning).

  (** recursive_bisection.cpp:26-199 (recursive_bisect) on the processors of [Hs], for any functions that bisect on one and on several
      processors; None: processors wait for each other for ever *)
  Definition partition_with (bis : hg → options → Z * Z → Z → Z → Z * Z → M (hg * (Z * Z)))
      (bisp : list (hg * (Z * Z)) → options → Z * Z → Z * Z → M (list (hg * (Z * Z))))
      (Hs : list hg) (k : Z) (eps eta : dbl) (opts : options) : M (option (list hg)) :=
    match o_metric opts with
    | LambdaMinusOne => Hs' <- recursive_bisect_par_with bis bisp Hs k eps eta opts ;; ret (Some Hs')
    | CutNet => recursive_bisect_cut_with bis bisp bp Hs k eps eta opts
    end.
  Definition partition_all : list hg → Z → dbl → dbl → options → M (option (list hg)) := partition_with (bisect1 bp) (bisect_par bp).

  (** PMondriaan.cpp:100-151 on [p] processors; [part] is the call of line 120.  [t] is the content of the matrix file, [opens] tells which openings of the
      result file succeed.  [hypergraph.value()] (line 117) has an lvalue as its object, so line 117 calls the copy constructor.
      The number of parts is a long, but an int for the file (line 124-131): [k] must fit. *)
  Definition program_with (part : list hg → Z → dbl → dbl → options → M (option (list hg))) (opens : nat → bool) (t : text) (mode : wmode)
      (p : nat) (k : Z) (eps eta : dbl) (opts : options) : M ending :=
    o <- read_hypergraph_par bp t mode p ;;
    match o with
    | None => ret Message
    | Some Hs0 =>
        Hs <- mapP copy_hg Hs0 ;;
        x <- part Hs k eps eta opts ;;
        match x with
        | None => ret Blocked
        | Some Hs' =>
            lb <- load_balance_par Hs' k ;;
            cut <- cutsize_par bp Hs' (o_metric opts) ;;
            f <- partitioning_to_file opens Hs' k ;;
            match f with
            | None => ret Message
            | Some file =>
                ws <- global_weight_parts Hs' k ;;
                lb0 <- nidx lb 0 ;; cut0 <- nidx cut 0 ;; ws0 <- nidx ws 0 ;;
                ret (Result (Report file lb0 cut0 ws0))
            end
        end
    end.
  Definition program : (nat → bool) → text → wmode → nat → Z → dbl → dbl → options → M ending := program_with partition_all.
End program.
