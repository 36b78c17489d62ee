(** Specification of file names *)
From Coq Require Import Ascii.
From Coq Require String.
Import (notations) String.
From Verif Require Export SpecReader.
Local Open Scope list_scope.

(** [b] is what follows the last slash of [path], all of it if there is none *)
Definition last_component (path b : ctext) : Prop := ∃ d, path = d ++ b ∧ "/"%char ∉ b ∧ (d = [] ∨ ∃ d', d = d' ++ ["/"%char]).
(** [path] names a file in directory [dir], which ends with a slash *)
Definition directly_in (dir path : ctext) : Prop := ∃ b, path = dir ++ b ∧ b ≠ [] ∧ "/"%char ∉ b.
(** the directory for results *)
Definition results_dir : ctext := String.list_ascii_of_string "../tools/results/"%string.
