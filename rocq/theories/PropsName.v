(** Property theorems (generated by tools/gen_theorems.py from FinalName.v: same
    statements, each closed by the lemma proved there). *)
From Verif Require Import FinalName.

(** C72: two runs for different matrix files write to the same result file if the files have the same name, in whatever directories they are. *)
Theorem C72_other_file_refuted : ¬ ∀ f k p f' k' p', result_name f k p = result_name f' k' p' → f = f' ∧ k = k' ∧ p = p'.
Proof. exact C72_other_file_refuted_proof. Qed.
Print Assumptions C72_other_file_refuted.

(** C72, universally: all files with the same last component share their result file, and only they, with the same number of parts and of processors. *)
Theorem C72_result_name_partial : ∀ f k p f' k' p' b b', last_component f b → last_component f' b' →
  (result_name f k p = result_name f' k' p' ↔ b = b' ∧ k = k' ∧ p = p').
Proof. exact C72_result_name_partial_proof. Qed.
Print Assumptions C72_result_name_partial.

(** C72: the result file is in the results directory, whatever the name of the matrix file. *)
Theorem C72_result_directory : ∀ f k p, directly_in results_dir (result_name f k p).
Proof. exact C72_result_directory_proof. Qed.
Print Assumptions C72_result_directory.

(** the name for a matrix in another directory *)
Example C72_example : result_name ex_matrix 16 4 = ex_result ∧ last_component ex_matrix ex_base.
Proof. split; [by vm_compute|exact ex_last]. Qed.
