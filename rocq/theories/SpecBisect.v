(** Specification vocabulary for bisection of a range of vertices and for recursive bisection.
    Nothing here mentions the functions of the model. *)
From Verif Require Export SpecPar.

(** [H'] is [H] after the vertices number [st..en) have been given the label [low] (side 0) or
    [high] (side 1); nothing else differs *)
Definition range_labelled (H : hg) (st en low high : Z) (side : Z → Z) (H' : hg) : Prop :=
  (∀ i, side i = 0 ∨ side i = 1) ∧ same_but_parts H H' ∧ length (h_verts H') = length (h_verts H) ∧
  ∀ i v, vertex_at H i = Some v → vertex_at H' i =
    Some (if decide (st ≤ i < en) then Vertex (v_id v) (v_nets v) (v_weight v) (if decide (side i = 0) then low else high) else v).

(** net numbers are below the recorded number of nets *)
Definition nets_in_range (H : hg) : Prop := 0 ≤ h_gnets H ∧ ∀ n, n ∈ h_nets H → 0 ≤ n_id n < h_gnets H.

(** the data of a vertex without its part, and of a net without its recorded global size *)
Definition vertex_data (v : vertex) : Z * list Z * Z := (v_id v, v_nets v, v_weight v).
Definition net_data (n : net) : Z * list Z * Z := (n_id n, n_verts n, n_cost n).
(** [H'] has the vertices, nets and incidences of [H], up to the order of the vertices and their parts *)
Definition same_up_to_order_and_parts (H H' : hg) : Prop :=
  consistent H' ∧ h_nets H' = h_nets H ∧ h_gsize H' = h_gsize H ∧ h_gnets H' = h_gnets H ∧ h_nz H' = h_nz H ∧
  vertex_data <$> h_verts H' ≡ₚ vertex_data <$> h_verts H.
(** the same, without the nets recorded at the vertices *)
Definition same_nets_up_to_order (H H' : hg) : Prop :=
  net_data <$> h_nets H' ≡ₚ net_data <$> h_nets H ∧ h_gsize H' = h_gsize H ∧ h_gnets H' = h_gnets H ∧ h_nz H' = h_nz H ∧
  (λ v, (v_id v, v_weight v)) <$> h_verts H' ≡ₚ (λ v, (v_id v, v_weight v)) <$> h_verts H.

(** what recursive bisection is specified for: weights are positive (see C27_weightless_refuted) and
    their sum, and the number of nets, are far from the limits of the machine types *)
Record rb_pre (H : hg) : Prop := {
  rp_cons : consistent H;
  rp_nets : nets_in_range H;
  rp_ids : no_sentinel H;
  rp_weight : ∀ v, v ∈ h_verts H → 0 < v_weight v;
  rp_count : Z.of_nat (length (h_nets H)) < 2147483648;
  rp_total : tot_weight H ≤ 2 ^ 50;
}.
