(** Specification vocabulary for matrices in coordinate format, as texts and as hypergraphs.  Only
    the characters and the weight mode are shared with the model of the reader. *)
From Coq Require Import Ascii.
From Verif Require Export SpecPar.

Notation ctext := (list ascii).
Definition newline : ascii := ascii_of_nat 10.
(** white space, and white space within a line *)
Definition whitespace (c : ascii) : Prop := nat_of_ascii c ∈ [9; 10; 11; 12; 13; 32]%nat.
Definition blank (c : ascii) : Prop := whitespace c ∧ c ≠ newline.

(** [s] is a decimal numeral for [n], possibly with leading zeros *)
Definition numeral (n : Z) (s : ctext) : Prop :=
  s ≠ [] ∧ Forall (λ c, 48 ≤ nat_of_ascii c ≤ 57)%nat s ∧
  n = foldl (λ a c, 10 * a + (Z.of_nat (nat_of_ascii c) - 48)) 0 s.
(** [s] is a word *)
Definition is_word (s : ctext) : Prop := s ≠ [] ∧ Forall (λ c, ¬ whitespace c) s.
(** at least one blank *)
Definition gap (s : ctext) : Prop := s ≠ [] ∧ Forall blank s.
(** what may follow the last item of a line: nothing, or a blank and then anything *)
Definition line_tail (s : ctext) : Prop := s = [] ∨ ∃ c s', s = c :: s' ∧ blank c ∧ newline ∉ s'.

Inductive matrix_symmetry := MGeneral | MSymmetric.
Definition symmetry_name (s : matrix_symmetry) : ctext :=
  match s with
  | MGeneral => ["g"; "e"; "n"; "e"; "r"; "a"; "l"]%char
  | MSymmetric => ["s"; "y"; "m"; "m"; "e"; "t"; "r"; "i"; "c"]%char
  end.

(** first line: a banner of five words, the last of which is the symmetry *)
Definition banner_line (sym : ctext) (l : ctext) : Prop :=
  ∃ w1 g1 w2 g2 w3 g3 w4 g4 tl, l = w1 ++ g1 ++ w2 ++ g2 ++ w3 ++ g3 ++ w4 ++ g4 ++ sym ++ tl ∧
    is_word w1 ∧ is_word w2 ∧ is_word w3 ∧ is_word w4 ∧ is_word sym ∧ gap g1 ∧ gap g2 ∧ gap g3 ∧ gap g4 ∧ line_tail tl.
(** a comment line (without its newline) of at most 2047 characters *)
Definition comment_line (l : ctext) : Prop :=
  ∃ c, l = "%"%char :: c ∧ newline ∉ c ∧ (length l ≤ 2047)%nat.
(** the line with the numbers of rows, columns and entries *)
Definition size_line (E V L : Z) (l : ctext) : Prop :=
  ∃ a sE g1 sV g2 sL tl, l = a ++ sE ++ g1 ++ sV ++ g2 ++ sL ++ tl ∧
    Forall blank a ∧ numeral E sE ∧ gap g1 ∧ numeral V sV ∧ gap g2 ∧ numeral L sL ∧ line_tail tl.
(** a line with an entry: row, column, and possibly a value and anything else *)
Definition entry_line (ev : Z * Z) (l : ctext) : Prop :=
  ∃ a se g sv tl, l = a ++ se ++ g ++ sv ++ tl ∧
    Forall blank a ∧ numeral (fst ev) se ∧ gap g ∧ numeral (snd ev) sv ∧ line_tail tl.

Definition with_newline (l : ctext) : ctext := l ++ [newline].
(** [t] is a coordinate listing of these entries; the newline of the last line may be missing *)
Definition listing (t : ctext) (sy : matrix_symmetry) (E V L : Z) (entries : list (Z * Z)) : Prop :=
  ∃ banner comments sizes lines body,
    t = with_newline banner ++ concat (with_newline <$> comments) ++ with_newline sizes ++ body ∧
    banner_line (symmetry_name sy) banner ∧ Forall comment_line comments ∧ size_line E V L sizes ∧
    Forall2 entry_line entries lines ∧
    (body = concat (with_newline <$> lines) ∨ with_newline body = concat (with_newline <$> lines)).

(** the listing is valid: indices are in range, counted from 1, the number of entries is as
    announced, a symmetric matrix is square, and the numbers of rows and columns are numbers of
    elements a std::vector of vectors can have *)
Record valid_listing (sy : matrix_symmetry) (E V L : Z) (entries : list (Z * Z)) : Prop := {
  vl_range : Forall (λ ev, 1 ≤ fst ev ≤ E ∧ 1 ≤ snd ev ≤ V) entries;
  vl_count : L = Z.of_nat (length entries);
  vl_square : sy = MSymmetric → E = V;
  vl_rows : E ≤ 384307168202282325;
  vl_cols : V ≤ 384307168202282325;
  vl_entries : L < 18446744073709551616;
}.

(** the nonzeros (row, column) of the matrix, counted from 1: of a symmetric matrix one triangle is listed *)
Definition nonzeros (sy : matrix_symmetry) (entries : list (Z * Z)) : list (Z * Z) :=
  match sy with
  | MGeneral => entries
  | MSymmetric => concat ((λ ev, if decide (fst ev = snd ev) then [ev] else [ev; (snd ev, fst ev)]) <$> entries)
  end.
(** rows of the nonzeros in column j, and columns of the nonzeros in row i, counted from 0 *)
Definition column (nzs : list (Z * Z)) (j : Z) : list Z := (λ ev, fst ev - 1) <$> filter (λ ev, snd ev - 1 = j) nzs.
Definition row (nzs : list (Z * Z)) (i : Z) : list Z := (λ ev, snd ev - 1) <$> filter (λ ev, fst ev - 1 = i) nzs.

(** [H] is the row-net hypergraph of a matrix: a vertex per column, a net per non-empty row *)
Record row_net (E V : Z) (nzs : list (Z * Z)) (weight : list Z → Z) (H : hg) : Prop := {
  rn_gsize : h_gsize H = V;
  rn_gnets : h_gnets H = E;
  rn_verts : h_verts H = (λ j, Vertex j (column nzs j) (weight (column nzs j)) (-1)) <$> seqZ 0 V;
  rn_nets : h_nets H = (λ i, Net i (row nzs i) 1 (Z.of_nat (length (row nzs i)))) <$> filter (λ i, row nzs i ≠ []) (seqZ 0 E);
}.
(** the two weight modes *)
Definition weight_one (ns : list Z) : Z := 1.
Definition weight_degree (ns : list Z) : Z := Z.of_nat (length ns).

(** ** Texts that are not listings *)
(** a line with at most [n] words *)
Fixpoint at_most_words (n : nat) (l : ctext) : Prop :=
  Forall blank l ∨
  match n with
  | O => False
  | S n => ∃ a w r, l = a ++ w ++ r ∧ Forall blank a ∧ is_word w ∧ (r = [] ∨ ∃ c r', r = c :: r' ∧ blank c) ∧ at_most_words n r
  end.
(** a line that does not begin with a number: it is blank, or its first word begins with a character
    that is neither a digit nor a sign *)
Definition no_number (l : ctext) : Prop :=
  newline ∉ l ∧ (Forall blank l ∨
  ∃ a c r, l = a ++ c :: r ∧ Forall blank a ∧ ¬ whitespace c ∧ c ≠ "+"%char ∧ c ≠ "-"%char ∧
    ¬ (48 ≤ nat_of_ascii c ≤ 57)%nat).
