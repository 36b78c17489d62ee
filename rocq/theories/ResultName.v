(** Model of the name of the result file, PMondriaan.cpp:124-131 *)
From Coq Require Import Ascii.
From Coq Require String.
Import (notations) String.
From Verif Require Export Writer.
Local Open Scope list_scope.

(** std::string::find_last_of for one character; npos is [None] *)
Definition find_last_of (c : ascii) (s : text) : option nat := (λ x : nat * ascii, length s - 1 - fst x)%nat <$> list_find (λ x, x = c) (reverse s).
(** PMondriaan.cpp:126-127: substr(find_last_of('/') + 1); npos + 1 is 0 *)
Definition base_name (f : text) : text := drop (from_option S 0%nat (find_last_of "/"%char f)) f.
(** PMondriaan.cpp:125-130 *)
Definition result_name (f : text) (k p : Z) : text :=
  String.list_ascii_of_string "../tools/results/"%string ++ base_name f ++ String.list_ascii_of_string "-k"%string ++ show k ++ String.list_ascii_of_string "-p"%string ++ show p.
