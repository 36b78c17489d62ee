(** Specification vocabulary for the multilevel part.  As in Spec.v, nothing here mentions the
    functions of the model. *)
From Verif Require Export Spec.

(** [H] with the parts of [L], vertex by vertex. *)
Definition relabel (H : hg) (L : list Z) : hg :=
  Hg (h_gsize H) (h_gnets H)
     (zip_with (λ v p, Vertex (v_id v) (v_nets v) (v_weight v) p) (h_verts H) L)
     (h_nets H) (h_nz H) (h_vmap H) (h_nmap H) (h_dups H).

(** number of vertices with label [k] *)
Definition group_size (L : list Z) (k : Z) : Z := zcount (λ j, j = k) L.

(** exact counts of [l] labels for every net *)
Definition exact_label_counts (H : hg) (l : Z) (C : list (list Z)) : Prop :=
  C = (λ n, (λ k, count_in H n k) <$> seqZ 0 l) <$> h_nets H.

(** [b] bounds all vertex weights *)
Definition weights_below (H : hg) (b : Z) : Prop := ∀ v, v ∈ h_verts H → 0 ≤ v_weight v ≤ b.

(** within both limits *)
Definition balanced (H : hg) (mx : Z * Z) : Prop := part_weight H 0 ≤ fst mx ∧ part_weight H 1 ≤ snd mx.
Global Instance balanced_dec H mx : Decision (balanced H mx).
Proof. unfold balanced. apply _. Defined.

(** vertex number [i] (signed) *)
Definition vertex_at (H : hg) (i : Z) : option vertex := if decide (0 ≤ i) then h_verts H !! Z.to_nat i else None.
Definition weight_at (H : hg) (i : Z) : Z := match vertex_at H i with Some v => v_weight v | None => 0 end.
(** weight of the vertices number [st..en) with [side i = p] *)
Definition side_weight (H : hg) (st en : Z) (side : Z → Z) (p : Z) : Z :=
  zsum ((λ i, if decide (side i = p) then weight_at H i else 0) <$> seqZ st (en - st)).
(** only vertex parts differ *)
Definition same_but_parts (H H' : hg) : Prop :=
  h_gsize H' = h_gsize H ∧ h_gnets H' = h_gnets H ∧ h_nets H' = h_nets H ∧ h_nz H' = h_nz H ∧
  h_vmap H' = h_vmap H ∧ h_nmap H' = h_nmap H ∧ h_dups H' = h_dups H.

(** ** Contractions.  A cluster is a representative id and the ids merged into it. *)
Definition rep (cl : list (Z * list Z)) (u : Z) : Z :=
  match list_find (λ c, u = fst c ∨ u ∈ snd c) cl with Some (_, c) => fst c | None => u end.
(** the clusters are disjoint and cover exactly the vertices of [H] *)
Definition clustering (H : hg) (cl : list (Z * list Z)) : Prop :=
  (fst <$> cl) ++ concat (snd <$> cl) ≡ₚ v_id <$> h_verts H.
(** weight that assignment [σ] gives to part [p], plus that of separately kept vertices *)
Definition assigned_weight (H : hg) (free : list (Z * Z)) (σ : Z → Z) (p : Z) : Z :=
  zsum ((λ v, if decide (σ (v_id v) = p) then v_weight v else 0) <$> h_verts H) +
  zsum ((λ f, if decide (σ (fst f) = p) then snd f else 0) <$> free).
(** two vertices lie on a common net *)
Definition neighbours (H : hg) (a b : Z) : Prop :=
  ∃ u v n, u ∈ h_verts H ∧ v ∈ h_verts H ∧ v_id u = a ∧ v_id v = b ∧ n ∈ v_nets u ∧ n ∈ v_nets v.
(** the clusters recorded by a contraction: samples and, for each, its (id, processor) matches *)
Definition clusters (samples : list Z) (matches : list (list (Z * Z))) : list (Z * list Z) :=
  zip samples ((λ ms : list (Z * Z), fst <$> ms) <$> matches).
(** ids and weights of the vertices *)
Definition ids_weights (H : hg) : list (Z * Z) := (λ v, (v_id v, v_weight v)) <$> h_verts H.
(** the vertices of [H] with parts given by [σ] *)
Definition with_parts (σ : Z → Z) (H : hg) : list vertex :=
  (λ v, Vertex (v_id v) (v_nets v) (v_weight v) (σ (v_id v))) <$> h_verts H.
