(** Specification of the choices of parallel matching: inner products, proposals and acceptance. *)
From Verif Require Export CoarsenPar.
Local Open Scope list_scope.
Local Open Scope Z_scope.

(** the costs, scaled by the number of other vertices, of those among the nets [nets] that contain [v] *)
Definition shared_costs (H : hg) (nets : list Z) (v : vertex) : list dbl :=
  omap (λ nid, match list_find (λ e, n_id e = nid) (h_nets H) with
               | Some (_, e) => if decide (v_id v ∈ n_verts e) then Some (d_div (d_of_Z (n_cost e)) (d_sub (d_of_Z (n_gsize e)) d_one)) else None
               | None => None end) nets.
(** the inner product of [v] with a sample that has the nets [nets]: the sum of these costs, divided by the smaller number of nets *)
Definition inner_product (H : hg) (nets : list Z) (v : vertex) : dbl :=
  d_mul (foldl d_add d_zero (shared_costs H nets v)) (d_div d_one (d_of_Z (Z.min (Z.of_nat (length (v_nets v))) (Z.of_nat (length nets))))).
(** the number of an announced sample over all processors; [S] is the size of the sample *)
Definition sample_number (S : Z) (m : sample_msg) : Z := fst m * S + fst (snd m).

(** the choice [b] of vertex [v] among the announced samples: none has a greater inner product; no choice (-1) only if none has a positive one *)
Definition best_choice (H : hg) (S : Z) (box : list sample_msg) (v : vertex) (b : dbl * Z) : Prop :=
  (b = (d_zero, -1) ∨ ∃ m, m ∈ box ∧ b = (inner_product H (snd (snd m)) v, sample_number S m) ∧ d_lt d_zero (inner_product H (snd (snd m)) v) = true) ∧
  ∀ m, m ∈ box → d_lt (fst b) (inner_product H (snd (snd m)) v) = false.

(** [taken] are the best [mcs] of the requests, or all if there are no more; a request is sender, vertex, inner product *)
Definition chosen (mcs : Z) (requests taken : list (Z * (Z * dbl))) : Prop := ∃ refused, taken ++ refused ≡ₚ requests ∧
  length taken = (Z.to_nat mcs `min` length requests)%nat ∧
  ∀ a b, a ∈ taken → b ∈ refused → d_lt (snd (snd a)) (snd (snd b)) = false.

(** the vertices that choose sample number [k], as requests of processor [s] *)
Definition suitors (H : hg) (s : nat) (best : list (dbl * Z)) (k : Z) : list (Z * (Z * dbl)) :=
  omap (λ x : vertex * (dbl * Z), if decide (snd (snd x) = k) then Some (Z.of_nat s, (v_id (fst x), fst (snd x))) else None) (zip (h_verts H) best).
