(** Specification vocabulary for multilevel bisection on several processors.  Nothing here mentions the
    functions of the model. *)
From Verif Require Export SpecCpar SpecKpar SpecBisect.

(** [G] is a copy, on one processor, of the whole hypergraph distributed over [Hs] *)
Record whole_copy (Hs : list hg) (G : hg) : Prop := {
  wc_cons : consistent G;
  wc_verts : (λ v, (v_id v, v_weight v, v_nets v)) <$> h_verts G ≡ₚ (λ v, (v_id v, v_weight v, v_nets v)) <$> all_verts Hs;
  wc_nets : ∀ id, id ∈ n_id <$> h_nets G ↔ id ∈ n_id <$> all_nets Hs;
  wc_pins : ∀ n, n ∈ h_nets G → n_verts n ≡ₚ gverts Hs (n_id n);
  wc_cost : ∀ n, n ∈ h_nets G → n_cost n = 1 ∨ n_cost n = gcost Hs (n_id n);
  wc_dups : h_dups G = [];
}.

(** every vertex is in part 0 or part 1 *)
Definition bisected_all (Hs : list hg) : Prop := ∀ v, v ∈ all_verts Hs → v_part v = 0 ∨ v_part v = 1.
(** the same hypergraphs with other parts and other part counts *)
Definition relabelled (Hs Hs' : list hg) : Prop := Forall2 same_shape Hs Hs'.

(** what the levels of multilevel bisection are: distributed hypergraphs with positive weights, nets of at
    least two vertices and of cost 1, whose recorded sizes are right *)
Record plev (gn : Z) (Hs : list hg) : Prop := {
  pl_dist : distributed gn Hs;
  pl_ne : Hs ≠ [];
  pl_gn : 0 ≤ gn < 2147483648;
  pl_ids : ∀ v, v ∈ all_verts Hs → v_id v ≠ -1;
  pl_weight : ∀ v, v ∈ all_verts Hs → 0 < v_weight v;
  pl_nets : ∀ n, n ∈ all_nets Hs → n_verts n ≠ [] ∧ 2 ≤ gsize Hs (n_id n) ∧ n_gsize n = gsize Hs (n_id n) ∧ n_cost n = 1;
  pl_tot : gweight Hs < long_max;
  pl_num : Z.of_nat (length (all_verts Hs)) ≤ 2 ^ 53;
  pl_size : ∀ H, H ∈ Hs → h_gsize H = Z.of_nat (length (all_verts Hs));
}.

(** the free vertices recorded by contraction [C] are back in [H], with part 0 or 1; nothing else changed *)
Definition free_back (C : contraction) (H H' : hg) : Prop :=
  consistent H' ∧ h_gsize H' = h_gsize H ∧ h_gnets H' = h_gnets H ∧ h_nz H' = h_nz H ∧ h_nets H' = h_nets H ∧
  ∃ vs, h_verts H' = h_verts H ++ vs ∧ (λ v, (v_id v, v_weight v)) <$> vs ≡ₚ c_free C ∧
    ∀ v, v ∈ vs → v_nets v = [] ∧ (v_part v = 0 ∨ v_part v = 1).

(** the value by which bisections are compared: the cut, or the largest number if a part is too heavy *)
Definition score (mx : Z * Z) (r : hg * Z) : Z := if decide (within (pws (fst r)) mx) then snd r else long_max.

(** the job of a processor: its hypergraph, and the range of positions that is to be bisected *)
Record job_ok (j : hg * (Z * Z)) : Prop := {
  jo_range : 0 ≤ fst (snd j) ≤ snd (snd j);
  jo_end : snd (snd j) ≤ Z.of_nat (length (h_verts (fst j)));
}.
(** what is returned for the job: the labels [low] and [high] on exactly the range, and the weights of the sides *)
Definition job_done (low high : Z) (j : hg * (Z * Z)) (r : hg * (Z * Z)) : Prop :=
  ∃ side, range_labelled (fst j) (fst (snd j)) (snd (snd j)) low high side (fst r) ∧ consistent (fst r) ∧
    snd r = (side_weight (fst j) (fst (snd j)) (snd (snd j)) side 0, side_weight (fst j) (fst (snd j)) (snd (snd j)) side 1).
