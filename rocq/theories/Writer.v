(** Model of src/util/write_partitioning.cpp and src/util/random_hypergraph.cpp: the files that are
    written.  A file is a list of characters.  Whether a file can be opened is not under the control of
    the program; once it is open, writing succeeds. *)
From Coq Require Import Ascii.
From Coq Require String.
Import (notations) String.
From Verif Require Export Reader SpecWriter.
Local Open Scope list_scope.

(** *** operator<< for integers: decimal digits, a minus sign in front of negative numbers *)
Definition digit_char (d : Z) : ascii := ascii_of_nat (48 + Z.to_nat d).
(** the digits of [n] in front of [acc]; the number of binary digits is enough fuel *)
Fixpoint show_digits (fuel : nat) (n : Z) (acc : text) : text :=
  match fuel with
  | O => acc
  | S fuel => let acc' := digit_char (n `mod` 10) :: acc in
              if decide (n < 10) then acc' else show_digits fuel (n / 10) acc'
  end.
Definition show_nonneg (n : Z) : text := show_digits (S (Z.to_nat (Z.log2 n))) n [].
Definition show (n : Z) : text := if decide (n < 0) then "-"%char :: show_nonneg (- n) else show_nonneg n.

(** *** write_partitioning.cpp:57-72 (start_parts).  bulk::foldl_each adds the coarrays element by
    element and gives every processor the same result.  The last round of the loop of lines 68-70 writes
    one element past the end of [result]: that is undefined, the value is never read, and it is logged. *)
Definition start_counts (H : hg) (k : Z) : M (list Z) :=
  foldM (λ c v, aadd Z.add c (v_part v) (Z.of_nat (length (v_nets v)))) (h_verts H) (replicate (Z.to_nat k) 0).
Definition start_parts1 (css : list (list Z)) (k : Z) : M (list Z) :=
  let result := 0 :: foldl (zip_with Z.add) (replicate (Z.to_nat k) 0) css in
  foldM (λ r i, x <- idx r i ;;
    if decide (i + 1 < Z.of_nat (length r)) then aadd Z.add r (i + 1) x
    else log_tag PastEndWrite ;;; ret r) (seqZ 1 k) result.
Definition start_parts (Hs : list hg) (k : Z) : M (list (list Z)) :=
  css <- mapP (λ H, start_counts H k) Hs ;;
  mapP (λ _, start_parts1 css k) Hs.

(** *** write_partitioning.cpp:18-55 (partitioning_to_file) *)
Definition banner_out : text := String.list_ascii_of_string "%%MatrixMarket distributed-matrix coordinate pattern general"%string.
(** lines 26-31 *)
Definition header_out (H : hg) (k : Z) (starts : list Z) : text :=
  banner_out ++ [nl] ++
  show (h_gnets H) ++ " "%char :: show (h_gsize H) ++ " "%char :: show (h_nz H) ++ " "%char :: show k ++ [nl] ++
  concat ((λ i, show i ++ [nl]) <$> starts).
(** lines 42-48 *)
Definition part_out (H : hg) (i : Z) : text :=
  concat ((λ v, if decide (v_part v = i)
                then concat ((λ n, show (n + 1) ++ " "%char :: show (v_id v + 1) ++ [nl]) <$> v_nets v)
                else []) <$> h_verts H).
(** a processor returns false before a sync: alone it just returns, otherwise the others wait for it *)
Definition gone (p : nat) : M (option text) := if decide (p = 1%nat) then ret None else fail Abort.
(** [opens]: which of the openings succeed, the first one for the header, then one for each part and
    processor.  The result is the file when all processors return true; [None]: false is returned.
    No processor but 0 opens the file before the first sync, so the openings happen in this order. *)
Definition partitioning_to_file (opens : nat → bool) (Hs : list hg) (k : Z) : M (option text) :=
  let p := length Hs in
  starts <- start_parts Hs k ;;
  H0 <- nidx Hs 0 ;; s0 <- nidx starts 0 ;;
  if opens 0%nat then
    foldM (λ o (i : nat),
      foldM (λ (o : option text) (turn : nat),
        match o with
        | None => ret None
        | Some t =>
            H <- nidx Hs turn ;;
            if opens (1 + i * p + turn)%nat then ret (Some (t ++ part_out H (Z.of_nat i))) else gone p
        end) (seq 0 p) o) (seq 0 (Z.to_nat k)) (Some (header_out H0 k s0))
  else gone p.

(** *** random_hypergraph.cpp:12-35 (create_random_hypergraph) *)
Definition banner_random : text := String.list_ascii_of_string "%%MatrixMarket matrix coordinate pattern general"%string.
(** the number of elements a vector of unordered_sets can have *)
Definition max_sets : Z := 164703072086692425.
(** rng() % m with [m] converted to a 64 bit unsigned number; division by 0 is undefined *)
Definition rng_mod (m : Z) : M Z :=
  u <- rng ;; guardM UB (bool_decide (m ≠ 0)) ;;; ret (u `mod` (m `mod` two64)).
(** lines 25-32: the state is list_j, nz_added and the file *)
Definition random_step (n m nz : Z) (s : list (gset Z) * (Z * text)) : M (bool * (list (gset Z) * (Z * text))) :=
  if decide (fst (snd s) < nz) then
    i <- rng_mod m ;; j <- rng_mod n ;;
    X <- idx (fst s) i ;;
    if decide (j ∈ X) then ret (true, s)
    else ret (true, (zinsert i ({[j]} ∪ X) (fst s),
                     (fst (snd s) + 1, snd (snd s) ++ show (i + 1) ++ " "%char :: show (j + 1) ++ [nl])))
  else ret (false, s).
(** [None]: the file cannot be opened and false is returned.  The loop may not end. *)
Definition create_random_hypergraph (fuel : nat) (opens : bool) (n m nz : Z) : M (option text) :=
  if opens then
    guardM Throw (bool_decide (0 ≤ m ≤ max_sets)) ;;;
    r <- loopM fuel (random_step n m nz)
           (replicate (Z.to_nat m) ∅,
            (0, banner_random ++ [nl] ++ show m ++ " "%char :: show n ++ " "%char :: show nz ++ [nl])) ;;
    ret (Some (snd (snd r)))
  else ret None.
