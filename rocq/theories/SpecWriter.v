(** Specification vocabulary for the files that are written.  Nothing here mentions the functions of
    the model. *)
From Coq Require Import Ascii.
From Coq Require String.
Import (notations) String.
From Verif Require Export SpecReader.
Local Open Scope list_scope.

(** words with single spaces between them *)
Fixpoint spaced (ws : list ctext) : ctext :=
  match ws with
  | [] => []
  | [w] => w
  | w :: ws => w ++ " "%char :: spaced ws
  end.
(** a line with these numbers *)
Definition numbers_line (ns : list Z) (l : ctext) : Prop := ∃ ws, Forall2 numeral ns ws ∧ l = spaced ws.

(** the nonzeros (row, column), counted from 1, of these vertices *)
Definition vertex_nonzeros (vs : list vertex) : list (Z * Z) :=
  concat ((λ v, (λ n, (n + 1, v_id v + 1)) <$> v_nets v) <$> vs).
(** those of all processors, and those of part [i] *)
Definition all_nonzeros (Hs : list hg) : list (Z * Z) := vertex_nonzeros (all_verts Hs).
Definition part_nonzeros (Hs : list hg) (i : Z) : list (Z * Z) :=
  vertex_nonzeros (filter (λ v, v_part v = i) (all_verts Hs)).

(** [starts] begins with 0, and its steps are the numbers of nonzeros of the [k] parts *)
Record kstart (k : nat) (Hs : list hg) (starts : list Z) : Prop := {
  ks_length : length starts = S k;
  ks_first : starts !! 0%nat = Some 0;
  ks_step : ∀ i a b, (i < k)%nat → starts !! i = Some a → starts !! S i = Some b →
    b - a = Z.of_nat (length (part_nonzeros Hs (Z.of_nat i)));
  ks_last : starts !! k = Some (Z.of_nat (length (all_nonzeros Hs)));
}.

(** a distributed-matrix file: banner, sizes and number of parts, the start of each part, the entries *)
Definition distributed_matrix_file (t : ctext) (rows cols nz k : Z) (starts : list Z) (entries : list (Z * Z)) : Prop :=
  ∃ sizes slines elines,
    t = with_newline (String.list_ascii_of_string "%%MatrixMarket distributed-matrix coordinate pattern general"%string) ++
        with_newline sizes ++ concat (with_newline <$> slines) ++ concat (with_newline <$> elines) ∧
    numbers_line [rows; cols; nz; k] sizes ∧
    Forall2 (λ s l, numbers_line [s] l) starts slines ∧
    Forall2 (λ e l, numbers_line [fst e; snd e] l) entries elines.
