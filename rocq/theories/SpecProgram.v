(** What the whole program is to deliver, in terms of the matrix in the input file and the output file only. *)
From Verif Require Export SpecWriter Float.

(** the weight of the columns that [part] puts into part [q] of a matrix with [V] columns; [weight]: the weight of a
    column with these rows *)
Definition columns_weight (V : Z) (nzs : list (Z * Z)) (weight : list Z → Z) (part : Z → Z) (q : Z) : Z :=
  zsum ((λ j, weight (column nzs j)) <$> filter (λ j, part j = q) (seqZ 0 V)).
Definition matrix_weight (V : Z) (nzs : list (Z * Z)) (weight : list Z → Z) : Z :=
  zsum ((λ j, weight (column nzs j)) <$> seqZ 0 V).
(** the rows of a matrix with [E] rows, as nets of cost 1 over the columns *)
Definition matrix_rows (E : Z) (nzs : list (Z * Z)) : list (Z * list Z) := (λ i, (1, row nzs i)) <$> seqZ 0 E.

(** [entries] are the nonzeros [nzs], sorted by the part of their column: those of part q are at the positions from
    starts[q] up to starts[q+1] *)
Record by_parts (k : nat) (nzs : list (Z * Z)) (part : Z → Z) (starts : list Z) (entries : list (Z * Z)) : Prop := {
  bp_entries : entries ≡ₚ nzs;
  bp_length : length starts = S k;
  bp_first : starts !! 0%nat = Some 0;
  bp_last : starts !! k = Some (Z.of_nat (length nzs));
  bp_part : ∀ (q i : nat) a b e, starts !! q = Some a → starts !! S q = Some b → entries !! i = Some e →
    (part (snd e - 1) = Z.of_nat q ↔ a ≤ Z.of_nat i < b);
}.

(** the input: a valid file of a matrix in which no nonzero is repeated, of a size the numbers of the program can hold, and in
    which every column has a positive weight *)
Record matrix_input (t : ctext) (sy : matrix_symmetry) (E V L : Z) (entries : list (Z * Z)) (weight : list Z → Z) : Prop := {
  mi_listing : listing t sy E V L entries;
  mi_valid : valid_listing sy E V L entries;
  mi_once : NoDup (nonzeros sy entries);
  mi_entries : L < 2 ^ 32;
  mi_rows : E < 2 ^ 31;
  mi_weight : ∀ j, 0 ≤ j < V → 0 < weight (column (nonzeros sy entries) j);
  mi_total : matrix_weight V (nonzeros sy entries) weight ≤ 2 ^ 50;
}.
(** the output for a partitioning [part] of the columns into [k] parts: the file, which lists the nonzeros [listed], the reported cut under metric [m], the reported
    weights of the parts, and the reported imbalance, which is computed in double precision from the exact weight of a heaviest part *)
Record delivered_listing (E V k : Z) (nzs listed : list (Z * Z)) (weight : list Z → Z) (m : metric) (part : Z → Z)
    (file : ctext) (cut : Z) (weights : list Z) (balance : dbl) : Prop := {
  de_range : ∀ j, 0 ≤ j < V → 0 ≤ part j < k;
  de_file : ∃ starts entries, distributed_matrix_file file E V (Z.of_nat (length nzs)) k starts entries ∧
    by_parts (Z.to_nat k) listed part starts entries;
  de_cut : cut = match m with
                 | CutNet => cut_net_size (matrix_rows E nzs) part
                 | LambdaMinusOne => lambda_size (matrix_rows E nzs) part
                 end;
  de_weights : weights = columns_weight V nzs weight part <$> seqZ 0 k;
  de_balance : ∃ q, 0 ≤ q < k ∧ (∀ q', 0 ≤ q' < k → columns_weight V nzs weight part q' ≤ columns_weight V nzs weight part q) ∧
    balance = d_sub (d_div (d_of_Z (columns_weight V nzs weight part q * k)) (d_of_Z (matrix_weight V nzs weight))) d_one;
}.
(** the output with all nonzeros *)
Definition delivered (E V k : Z) (nzs : list (Z * Z)) : (list Z → Z) → metric → (Z → Z) → ctext → Z → list Z → dbl → Prop :=
  delivered_listing E V k nzs nzs.
