(** Specification of the matching of sequential coarsening. *)
From Verif Require Export SpecMatch.
Local Open Scope list_scope.
Local Open Scope Z_scope.

(** The state of the matching: for each vertex (by its number) the vertices that have joined it, and whether it has joined another one. *)
Record matching := Matching { joined_by : list (list Z); has_joined : list bool }.
(** vertex number [i] may join [vu], vertex number [u]: another vertex that has not joined one itself and has less than [mcs] matches *)
Definition may_join (H : hg) (mcs : Z) (s : matching) (i u : nat) (vu : vertex) : Prop :=
  h_verts H !! u = Some vu ∧ u ≠ i ∧ has_joined s !! u = Some false ∧ ∃ ms, joined_by s !! u = Some ms ∧ Z.of_nat (length ms) < mcs.
(** The turn of vertex number [i].  A vertex that others have joined stays.  Any other one joins a vertex of greatest inner product, if one is positive. *)
Definition turn (H : hg) (mcs : Z) (s : matching) (i : nat) (s' : matching) : Prop := ∃ v mi, h_verts H !! i = Some v ∧ joined_by s !! i = Some mi ∧
  if decide (mi = []) then
    (s' = s ∧ ∀ u vu, may_join H mcs s i u vu → d_lt d_zero (inner_product H (v_nets v) vu) = false) ∨
    (∃ u vu, may_join H mcs s i u vu ∧ d_lt d_zero (inner_product H (v_nets v) vu) = true ∧
       (∀ u' vu', may_join H mcs s i u' vu' → d_lt (inner_product H (v_nets v) vu) (inner_product H (v_nets v) vu') = false) ∧
       s' = Matching (alter (λ ms, ms ++ [v_id v]) u (joined_by s)) (<[i := true]> (has_joined s)))
  else s' = s.
(** turns in this order *)
Inductive turns (H : hg) (mcs : Z) : list nat → matching → matching → Prop :=
| turns_nil s : turns H mcs [] s s
| turns_snoc order i s s1 s2 : turns H mcs order s s1 → turn H mcs s1 i s2 → turns H mcs (order ++ [i]) s s2.
(** before the first turn no vertex has joined another one *)
Definition all_apart (H : hg) : matching := Matching (replicate (length (h_verts H)) []) (replicate (length (h_verts H)) false).
(** the clusters of a matching: the vertices that have joined none, in the order of their turns, each with those that have joined it *)
Definition clusters_of (H : hg) (order : list nat) (s : matching) : list (Z * list Z) :=
  omap (λ i, match h_verts H !! i, joined_by s !! i, has_joined s !! i with Some v, Some ms, Some false => Some (v_id v, ms) | _, _, _ => None end) order.
(** costs and sizes for which the scaled costs are positive doubles *)
Definition positive_costs (H : hg) : Prop := ∀ n, n ∈ h_nets H → (2 ≤ length (n_verts n))%nat → 1 ≤ n_cost n ≤ 2 ^ 53 ∧ 2 ≤ n_gsize n ≤ 2 ^ 53.
