(** Model of src/hypergraph/readhypergraph.cpp: reading a matrix in coordinate format from a text.
    A text is a list of characters.  An input stream is what is left of the text together with the
    eofbit and the failbit; the badbit is never set on a readable file. *)
From Coq Require Export Ascii.
From Verif Require Export Par.

Notation text := (list ascii).

(** *** Characters of the "C" locale *)
Definition nl : ascii := "010"%char.
Definition space_chars : list nat := [9%nat; 10%nat; 11%nat; 12%nat; 13%nat; 32%nat].
Definition is_space (c : ascii) : bool := bool_decide (nat_of_ascii c ∈ space_chars).
Definition digit (c : ascii) : option Z :=
  let n := nat_of_ascii c in
  if decide (48 ≤ n ∧ n ≤ 57)%nat then Some (Z.of_nat n - 48) else None.

(** *** Streams *)
Record stream := Stream { s_rest : text; s_eof : bool; s_fail : bool }.
Definition good (st : stream) : bool := negb (s_eof st || s_fail st).

(** the characters before the first newline, and those after it if there is one *)
Fixpoint split_line (l : text) : text * option text :=
  match l with
  | [] => ([], None)
  | c :: l => if decide (c = nl) then ([], Some l)
              else let r := split_line l in (c :: fst r, snd r)
  end.
(** std::getline(fin, line): the new stream and the new value of [line].  On a stream that is not
    good [line] keeps its value and the failbit is set; a call that extracts nothing sets it too. *)
Definition getline (st : stream) (line : text) : stream * text :=
  if good st then
    let r := split_line (s_rest st) in
    match snd r with
    | Some rest => (Stream rest false false, fst r)
    | None => (Stream [] true (bool_decide (fst r = [])), fst r)
    end
  else (Stream (s_rest st) (s_eof st) true, line).

(** formatted input skips white space *)
Fixpoint skip_ws (l : text) : text :=
  match l with
  | [] => []
  | c :: l' => if is_space c then skip_ws l' else l
  end.
(** characters up to the next white space, and the rest *)
Fixpoint span_word (l : text) : text * text :=
  match l with
  | [] => ([], [])
  | c :: l' => if is_space c then ([], l) else let r := span_word l' in (c :: fst r, snd r)
  end.
(** iss >> word: [None] sets the failbit *)
Definition get_word (l : text) : option (text * text) :=
  match skip_ws l with [] => None | l' => Some (span_word l') end.

(** digits: accumulated value, whether there was a digit, what follows *)
Fixpoint digits (l : text) (acc : Z) (some : bool) : Z * bool * text :=
  match l with
  | [] => (acc, some, [])
  | c :: l' => match digit c with Some d => digits l' (10 * acc + d) true | None => (acc, some, l) end
  end.
Definition two64 : Z := 18446744073709551616.
(** num_get for a 64 bit unsigned value: an optional sign, then decimal digits; a minus sign negates
    modulo 2^64.  The result is the value stored, whether extraction succeeded, and what follows.
    Without digits 0 is stored, for a number that is too large the maximum, both with the failbit. *)
Definition parse_unsigned (l : text) : Z * bool * text :=
  let neg := match l with c :: _ => bool_decide (c = "-"%char) | [] => false end in
  let l' := match l with
            | c :: l' => if decide (c = "-"%char ∨ c = "+"%char) then l' else l
            | [] => [] end in
  let r := digits l' 0 false in
  let n := fst (fst r) in
  if negb (snd (fst r)) then (0, false, snd r)
  else if decide (two64 ≤ n) then (two64 - 1, false, snd r)
  else (if neg then (- n) `mod` two64 else n, true, snd r).
(** iss >> e *)
Definition get_num (l : text) : option (Z * text) :=
  match skip_ws l with
  | [] => None
  | l' => let r := parse_unsigned l' in
          if snd (fst r) then Some (fst (fst r), snd r) else None
  end.
(** iss >> e >> v on a line (lines 57-58) *)
Definition get_entry (line : text) : option (Z * Z) :=
  match get_num line with
  | None => None
  | Some r => match get_num (snd r) with None => None | Some r' => Some (fst r, fst r') end
  end.
(** fin >> E: the value stored ([None]: the variable is not written, because the stream was not good
    or ended before any character that is not white space), and the new stream *)
Definition stream_num (st : stream) : option Z * stream :=
  if good st then
    match skip_ws (s_rest st) with
    | [] => (None, Stream [] true true)
    | l => let r := parse_unsigned l in
           (Some (fst (fst r)),
            Stream (snd r) (bool_decide (snd r = [])) (negb (snd (fst r))))
    end
  else (None, Stream (s_rest st) (s_eof st) true).

(** fin.ignore(n, '\n') on the characters left *)
Fixpoint ignore (n : nat) (l : text) : text :=
  match n, l with
  | S n, c :: l => if decide (c = nl) then l else ignore n l
  | _, _ => l
  end.
(** lines 40-42: while (fin.peek() == '%') fin.ignore(2048, '\n').  Every round removes a character,
    so the number of characters bounds the number of rounds. *)
Fixpoint skip_comments (fuel : nat) (l : text) : text :=
  match fuel, l with
  | S fuel, c :: _ => if decide (c = "%"%char) then skip_comments fuel (ignore 2048 l) else l
  | _, _ => l
  end.
(** peek at the end of the text sets the eofbit *)
Definition skip_comments_st (st : stream) : stream :=
  if good st then
    let l := skip_comments (length (s_rest st)) (s_rest st) in Stream l (bool_decide (l = [])) false
  else st.

(** *** Lines 28-51 of the sequential and 122-149 of the distributed version, which are equal: the
    symmetry, the variables E, V and L, and the stream and the [line] after the size line;
    [None] is std::nullopt *)
Definition read_header (t : text) : option (text * (option Z * option Z * option Z) * (stream * text)) :=
  let g := getline (Stream t false false) [] in
  match get_word (snd g) with None => None | Some w1 =>
  match get_word (snd w1) with None => None | Some w2 =>
  match get_word (snd w2) with None => None | Some w3 =>
  match get_word (snd w3) with None => None | Some w4 =>
  match get_word (snd w4) with None => None | Some w5 =>
    let st := skip_comments_st (fst g) in
    let e := stream_num st in
    let v := stream_num (snd e) in
    let l := stream_num (snd v) in
    Some (fst w5, (fst e, fst v, fst l), getline (snd l) (snd g))
  end end end end end.

(** the lines that repeated calls of getline deliver until it fails (lines 55 and 66); the stream is
    not touched otherwise, so they can be taken apart beforehand *)
Fixpoint rest_lines (fuel : nat) (l : text) : list text :=
  match fuel with
  | O => []
  | S fuel =>
      let r := split_line l in
      match snd r with
      | Some rest => fst r :: rest_lines fuel rest
      | None => match fst r with [] => [] | _ => [fst r] end
      end
  end.
Definition stream_lines (st : stream) : list text :=
  if good st then rest_lines (S (length (s_rest st))) (s_rest st) else [].
(** the values of [line] after each of [n] calls of getline whose result is not looked at
    (lines 153 and 169) *)
Fixpoint next_lines (n : nat) (st : stream) (line : text) : list text :=
  match n with
  | O => []
  | S n => let g := getline st line in snd g :: next_lines n (fst g) (snd g)
  end.

(** a vector<vector<long>> cannot have more elements than this; a larger count throws length_error.
    Allocations within the limit are assumed to succeed. *)
Definition max_vectors : Z := 384307168202282325.
(** std::vector<std::vector<long>>(n); reading a variable that was never written is undefined *)
Definition new_lists (n : option Z) : M (list (list Z)) :=
  n <- of_option UB n ;;
  guardM Throw (bool_decide (n ≤ max_vectors)) ;;;
  ret (replicate (Z.to_nat n) []).
(** i - 1 on size_t *)
Definition pred64 (i : Z) : Z := (i - 1) `mod` two64.
(** size_t to long *)
Definition to_long (x : Z) : Z := if decide (x < 9223372036854775808) then x else x - two64.
(** lists[i].push_back(x) *)
Definition push_at (ls : list (list Z)) (i x : Z) : M (list (list Z)) :=
  l <- idx ls i ;; ret (zinsert i (l ++ [x]) ls).

Definition lists := (list (list Z) * list (list Z))%type.   (* nets_list, vertex_list *)
(** lines 61-62, 73-74, and with the arguments exchanged 77-78 *)
Definition push_entry (s : lists) (e v : Z) : M lists :=
  ns <- push_at (fst s) (pred64 v) (to_long (pred64 e)) ;;
  vl <- push_at (snd s) (pred64 e) (to_long (pred64 v)) ;;
  ret (ns, vl).

(** lines 55-63: [None] when a line has no two numbers *)
Definition read_general (lines : list text) (s : lists) : M (option lists) :=
  foldM (λ (o : option lists) line,
    match o with
    | None => ret None
    | Some s => match get_entry line with
                | None => ret None
                | Some ev => s' <- push_entry s (fst ev) (snd ev) ;; ret (Some s')
                end
    end) lines (Some s).
(** lines 66-80; the state has nz as well *)
Definition read_symmetric (lines : list text) (s : lists) : M (option (lists * Z)) :=
  foldM (λ (o : option (lists * Z)) line,
    match o with
    | None => ret None
    | Some sn => match get_entry line with
                 | None => ret None
                 | Some ev =>
                     s1 <- push_entry (fst sn) (fst ev) (snd ev) ;;
                     if decide (snd ev = fst ev) then ret (Some (s1, snd sn + 1))
                     else s2 <- push_entry s1 (snd ev) (fst ev) ;; ret (Some (s2, snd sn + 2))
                 end
    end) lines (Some (s, 0)).

Definition w_general : text := ["g"; "e"; "n"; "e"; "r"; "a"; "l"]%char.
Definition w_symmetric : text := ["s"; "y"; "m"; "m"; "e"; "t"; "r"; "i"; "c"]%char.

(** the weight mode; [ModeOther] is any text but "one" and "degree" *)
Inductive wmode := ModeOne | ModeDegree | ModeOther.
(** lines 87-100 and 196-211: the vertices, with [ids] the numbers of the local vertices *)
Definition build_vertices (mode : wmode) (ids : list Z) (nets_list : list (list Z)) : option (list vertex) :=
  match mode with
  | ModeOne => Some (zip_with (λ id ns, Vertex id ns 1 (-1)) ids nets_list)
  | ModeDegree => Some (zip_with (λ id ns, Vertex id ns (Z.of_nat (length ns)) (-1)) ids nets_list)
  | ModeOther => None
  end.
(** lines 102-106 and 212-216: the nets with their default cost 1 *)
Definition net_of_row (r : nat * list Z) : option net :=
  match snd r with [] => None | vs => Some (Net (Z.of_nat (fst r)) vs 1 0) end.
Definition build_nets (vertex_list : list (list Z)) : list net :=
  omap net_of_row (zip (seq 0 (length vertex_list)) vertex_list).

(** readhypergraph.cpp:25-111 (read_hypergraph_istream); [None] is std::nullopt.  The checks of the
    symmetry and the mode come after the reading, as in the code. *)
Definition read_hypergraph (t : text) (mode : wmode) : M (option hg) :=
  match read_header t with
  | None => ret None
  | Some hd =>
      let sym := fst (fst hd) in
      let sizes := snd (fst hd) in
      let st := fst (snd hd) in
      nets_list <- new_lists (snd (fst sizes)) ;;
      vertex_list <- new_lists (fst (fst sizes)) ;;
      V <- of_option UB (snd (fst sizes)) ;;
      E <- of_option UB (fst (fst sizes)) ;;
      o <- (if decide (sym = w_general) then
              L <- of_option UB (snd sizes) ;;
              o <- read_general (stream_lines st) (nets_list, vertex_list) ;;
              ret ((λ s, (s, L)) <$> o)
            else if decide (sym = w_symmetric) then
              read_symmetric (stream_lines st) (nets_list, vertex_list)
            else ret None) ;;
      match o with
      | None => ret None
      | Some r =>
          match build_vertices mode (seqZ 0 V) (fst (fst r)) with
          | None => ret None
          | Some vs =>
              H <- remove_free_nets (mk_hg V E vs (build_nets (snd (fst r))) (snd r)) 0 ;;
              ret (Some H)
          end
      end
  end.

(** *** The distributed version *)
Section par.
  (** the family of block partitionings, as in [Par] *)
  Context (bp : Z → Z → partitioning).

  (** lines 159-163 and 175-179, and with the arguments exchanged 180-184 without the test v != e:
      owner and local position come from the partitioning of the columns *)
  Definition push_owned (part : partitioning) (s : nat) (ls : lists) (e v : Z) : M lists :=
    if decide (pa_owner part (pred64 v) = Z.of_nat s) then
      ns <- push_at (fst ls) (pa_local part (pred64 v)) (to_long (pred64 e)) ;;
      vl <- push_at (snd ls) (pred64 e) (to_long (pred64 v)) ;;
      ret (ns, vl)
    else ret ls.

  (** the loops of lines 151 and 167 count to L with a 32 bit unsigned counter, so they do not end by
      themselves if L does not fit.  They can still end at a bad line: then all lines are gone through,
      and after the end of the text [line] does not change any more, hence two calls of getline more
      than there are characters show all lines. *)
  Definition endless (L : Z) : bool := bool_decide (4294967296 ≤ L).
  Definition loop_lines (L : Z) (st : stream) (line : text) : list text :=
    next_lines (if endless L then S (S (length (s_rest st))) else Z.to_nat L) st line.
  (** [Fuel]: the loop does not end *)
  Definition loop_end {A} (L : Z) (o : option A) : M (option A) :=
    match o with Some _ => if endless L then fail Fuel else ret o | None => ret None end.

  (** lines 151-164 *)
  Definition read_general_par (part : partitioning) (s : nat) (L : Z) (st : stream) (line : text)
      (ls : lists) : M (option (lists * Z)) :=
    o <- foldM (λ (o : option lists) line,
           match o with
           | None => ret None
           | Some ls => match get_entry line with
                        | None => ret None
                        | Some ev => ls' <- push_owned part s ls (fst ev) (snd ev) ;; ret (Some ls')
                        end
           end) (loop_lines L st line) (Some ls) ;;
    loop_end L ((λ ls, (ls, L)) <$> o).

  (** lines 167-188; nz is counted before and after the pushes *)
  Definition read_symmetric_par (part : partitioning) (s : nat) (L : Z) (st : stream) (line : text)
      (ls : lists) : M (option (lists * Z)) :=
    o <- foldM (λ (o : option (lists * Z)) line,
      match o with
      | None => ret None
      | Some sn => match get_entry line with
                   | None => ret None
                   | Some ev =>
                       s1 <- push_owned part s (fst sn) (fst ev) (snd ev) ;;
                       if decide (snd ev = fst ev) then ret (Some (s1, snd sn + 1))
                       else s2 <- push_owned part s s1 (snd ev) (fst ev) ;; ret (Some (s2, snd sn + 2))
                   end
      end) (loop_lines L st line) (Some (ls, 0)) ;;
    loop_end L o.

  (** lines 119-218 on processor [s] of [p]: the local hypergraph before free nets are removed *)
  Definition read_local (t : text) (mode : wmode) (p s : nat) : M (option hg) :=
    match read_header t with
    | None => ret None
    | Some hd =>
        let sym := fst (fst hd) in
        let sizes := snd (fst hd) in
        let st := fst (snd hd) in
        let line := snd (snd hd) in
        V <- of_option UB (snd (fst sizes)) ;;
        let part := bp (Z.of_nat p) V in
        nets_list <- new_lists (Some (pa_count part (Z.of_nat s))) ;;
        vertex_list <- new_lists (fst (fst sizes)) ;;
        E <- of_option UB (fst (fst sizes)) ;;
        o <- (if decide (sym = w_general) then
                L <- of_option UB (snd sizes) ;;
                read_general_par part s L st line (nets_list, vertex_list)
              else if decide (sym = w_symmetric) then
                L <- of_option UB (snd sizes) ;;
                read_symmetric_par part s L st line (nets_list, vertex_list)
              else ret None) ;;
        match o with
        | None => ret None
        | Some r =>
            let ids := (λ i, pa_global part i (Z.of_nat s)) <$> seqZ 0 (pa_count part (Z.of_nat s)) in
            match build_vertices mode ids (fst (fst r)) with
            | None => ret None
            | Some vs => ret (Some (mk_hg V E vs (build_nets (snd (fst r))) (snd r)))
            end
        end
    end.

  (** lines 116-222 on all [p] processors, each with its own stream of the same text.  All processors
      must get past the early returns, or the collective operations do not match up ([Abort]). *)
  Definition read_hypergraph_par (t : text) (mode : wmode) (p : nat) : M (option (list hg)) :=
    os <- mapP (λ s, read_local t mode p s) (seq 0 p) ;;
    match mapM (λ o : option hg, o) os with
    | Some Hs => Hs' <- remove_free_nets_par bp Hs 0 ;; ret (Some Hs')
    | None => if decide (Forall (λ o : option hg, o = None) os) then ret None else fail Abort
    end.
End par.
