(** Specification of label propagation: votes, visits and sweeps. *)
From Verif Require Export SpecMulti.
Local Open Scope list_scope.
Local Open Scope Z_scope.

(** the votes of the neighbours of [v] for label [q]: the number of pairs of a net of [v] and another vertex of it with label [q] *)
Definition neighbour_votes (H : hg) (L : list Z) (v : vertex) (q : Z) : Z :=
  zsum ((λ e, if decide (n_id e ∈ v_nets v) then zcount (λ u, u ≠ v_id v ∧ part_of (relabel H L) u = q) (n_verts e) else 0) <$> h_nets H).
(** [q] is one of the labels 0 .. l-1, and none of them has more votes *)
Definition favourite (H : hg) (l : Z) (L : list Z) (v : vertex) (q : Z) : Prop :=
  0 ≤ q < l ∧ ∀ k, 0 ≤ k < l → neighbour_votes H L v k ≤ neighbour_votes H L v q.

(** A visit of vertex number [i] may change the labels [L] to [L'].  Label propagation: a vertex of a group of more than [min_size] vertices takes a favourite label. *)
Definition lp_visit (H : hg) (l min_size : Z) (L : list Z) (i : nat) (L' : list Z) : Prop := ∃ v j, h_verts H !! i = Some v ∧ L !! i = Some j ∧
  if decide (group_size L j > min_size) then ∃ q, favourite H l L v q ∧ L' = <[i := q]> L else L' = L.
(** Bisection: a vertex takes a favourite label if that part has room for it. *)
Definition lpb_visit (H : hg) (mx : Z * Z) (L : list Z) (i : nat) (L' : list Z) : Prop := ∃ v j q, h_verts H !! i = Some v ∧ L !! i = Some j ∧
  favourite H 2 L v q ∧
  L' = if decide (q ≠ j ∧ part_weight (relabel H L) q + v_weight v ≤ (if decide (q = 0) then fst mx else snd mx)) then <[i := q]> L else L.

(** visits in this order *)
Inductive visits (visit : list Z → nat → list Z → Prop) : list nat → list Z → list Z → Prop :=
| visits_nil L : visits visit [] L L
| visits_snoc order i L L1 L2 : visits visit order L L1 → visit L1 i L2 → visits visit (order ++ [i]) L L2.
(** a number of sweeps, each of which visits every one of [size] vertices once, in any order *)
Inductive sweeps (visit : list Z → nat → list Z → Prop) (size : nat) : nat → list Z → list Z → Prop :=
| sweeps_0 L : sweeps visit size 0 L L
| sweeps_S n L L1 L2 order : sweeps visit size n L L1 → order ≡ₚ seq 0 size → visits visit order L1 L2 → sweeps visit size (S n) L L2.
(** every vertex can be content with its label *)
Definition settled (visit : list Z → nat → list Z → Prop) (size : nat) (L : list Z) : Prop := ∀ i, (i < size)%nat → visit L i L.
