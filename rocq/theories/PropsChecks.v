(** Property theorems (generated by tools/gen_theorems.py from FinalChecks.v: same
    statements, each closed by the lemma proved there). *)
From Verif Require Import FinalChecks.

(** C71.  check_maps prints nothing exactly if every id that occurs in the hypergraph leads to the vertex or net with that id; if it stops with an
    assertion, or reads out of range, then some id does not.  Its lookups change nothing. *)
Theorem C71_check_maps : ∀ H w, match check_maps H w with
  | Ok (lines, w') => w' = w ∧ (lines = [] ↔ ids_lead H)
  | Err e => (e = Abort ∨ e = UB) ∧ ¬ ids_lead H
  end.
Proof. exact C71_check_maps_proof. Qed.
Print Assumptions C71_check_maps.

(** C71, on consistent hypergraphs, which are what the operations of the program produce (C01): check_maps is silent. *)
Theorem C71_check_maps_silent : ∀ H w, consistent H → check_maps H w = Ok ([], w).
Proof. exact C71_check_maps_silent_proof. Qed.
Print Assumptions C71_check_maps_silent.

(** C71.  check_gains reports exactly the vertices that are not locked and whose recorded gain is not the decrease of the cut if they move, with the right gain. *)
Theorem C71_check_gains : ∀ G w, consistent (g_H G) → bisected (g_H G) → part_sorted (g_H G) → exact_counts (g_H G) (g_C G) →
  length (g_gains G) = length (h_verts (g_H G)) →
  ∃ lines w', check_gains G w = Ok (lines, w') ∧ ∀ x, x ∈ lines ↔
    ∃ i v g, h_verts (g_H G) !! i = Some v ∧ g_gains G !! i = Some g ∧ g ≠ long_min ∧ g ≠ cut_decrease (g_H G) v ∧ x = (v_id v, g, cut_decrease (g_H G) v).
Proof. exact C71_check_gains_proof. Qed.
Print Assumptions C71_check_gains.

(** C71, in a run of the sequential refinement: after any history of moves, removals and queries check_gains is silent. *)
Theorem C71_check_gains_silent : ∀ H C ops w, klfm_pre H → bisected H → part_sorted H → exact_counts H C → gops_ok H ops →
  ∃ w', bind (gs_run H C ops) check_gains w = Ok ([], w').
Proof. exact C71_check_gains_silent_proof. Qed.
Print Assumptions C71_check_gains_silent.

(** a history of moves on a bisected hypergraph: silent; with a wrong gain: reported; with a wrong index: reported *)
Example C71_example : klfm_pre klH ∧ bisected klH ∧ part_sorted klH ∧ exact_counts klH klC ∧ gops_ok klH kl_ops ∧ consistent klH ∧
  match gs_run klH klC kl_ops w0 with
  | Ok (G, _) => check_gains (with_gains (<[0%nat := 3]> (g_gains G)) G) w0 = Ok ([(v_id (default (Vertex 0 [] 0 0) (h_verts klH !! 0%nat)), 3, 4)], w0)
  | Err _ => False end ∧
  check_maps (with_vmap (<[v_id (default (Vertex 0 [] 0 0) (h_verts klH !! 0%nat)) := 1%nat]> (h_vmap klH)) klH) w0 ≠ Ok ([], w0).
Proof.
  destruct C13_example as (? & ? & ? & ? & ? & _). split; [done|]. split; [done|]. split; [done|]. split; [done|]. split; [done|]. split; [by apply klH_pre|].
  split; [vm_compute; reflexivity|]. vm_compute. discriminate.
Qed.
