(** Specification vocabulary for the cut-net metric on several processors.  Nothing here mentions the functions
    of the model. *)
From Verif Require Export SpecRpar.

(** the nets that remove_cut_nets takes out for the processors [Hs] of one sub_world.  With one processor: those
    with two or more vertices.  With more: all but those with a single vertex whose part is its own id. *)
Definition taken_out (Hs : list hg) (i : Z) : Prop :=
  (∃ n, n ∈ all_nets Hs ∧ n_id n = i) ∧
  if decide (length Hs = 1%nat) then (2 ≤ length (gverts Hs i))%nat else ¬ ∃ u, gverts Hs i = [u] ∧ gpart Hs u = u.

(** ** Nets that are set aside: every processor has, with its hypergraph, a list of nets *)
Definition all_kept (ps : list (hg * list net)) : list net := concat (snd <$> ps).
(** the vertices of net [i] that are recorded in the lists of all processors *)
Definition kept_verts (ps : list (hg * list net)) (i : Z) : list Z := concat (n_verts <$> filter (λ n, n_id n = i) (all_kept ps)).
(** nets set aside by a distributed hypergraph: none of them is in the hypergraph, the pieces of a net carry the same cost
    and different vertices, which are on some processor, but not necessarily on the one that keeps the piece *)
Record keepers_ok (gn : Z) (ps : list (hg * list net)) : Prop := {
  ko_dist : distributed gn (fst <$> ps);
  ko_ids : ∀ P, P ∈ ps → NoDup (n_id <$> snd P);
  ko_new : ∀ n n', n ∈ all_nets (fst <$> ps) → n' ∈ all_kept ps → n_id n ≠ n_id n';
  ko_range : ∀ n, n ∈ all_kept ps → 0 ≤ n_id n < gn;
  ko_cost : ∀ n n', n ∈ all_kept ps → n' ∈ all_kept ps → n_id n = n_id n' → n_cost n = n_cost n';
  ko_verts : ∀ i, NoDup (kept_verts ps i);
  ko_known : ∀ i u, u ∈ kept_verts ps i → u ∈ v_id <$> all_verts (fst <$> ps);
}.
(** a vertex but for the nets it lists *)
Definition vertex_but_nets (v : vertex) : Z * Z * Z := (v_id v, v_weight v, v_part v).
(** the nets of [H] are sound: maps from ids are exact, no id and no vertex occurs twice, and the vertices are on this processor *)
Record nets_sound (H : hg) : Prop := {
  sn_nid : NoDup (n_id <$> h_nets H);
  sn_vmap : ∀ id i, h_vmap H !! id = Some i ↔ ∃ v, h_verts H !! i = Some v ∧ v_id v = id;
  sn_nmap : ∀ id i, h_nmap H !! id = Some i ↔ ∃ n, h_nets H !! i = Some n ∧ n_id n = id;
  sn_verts : ∀ n, n ∈ h_nets H → NoDup (n_verts n) ∧ ∀ u, u ∈ n_verts n → u ∈ v_id <$> h_verts H;
}.
(** the nets are back: every net has, over all processors, the vertices that are recorded for it; vertices keep id, weight, part
    and place.  A vertex lists a net that is back only if another processor than its own kept the piece with the vertex. *)
Record nets_back (ps : list (hg * list net)) (Hs' : list hg) : Prop := {
  nb_len : length Hs' = length ps;
  nb_same : ∀ t P H', ps !! t = Some P → Hs' !! t = Some H' → vertex_but_nets <$> h_verts H' = vertex_but_nets <$> h_verts (fst P) ∧
    h_gsize H' = h_gsize (fst P) ∧ h_gnets H' = h_gnets (fst P) ∧ h_nz H' = h_nz (fst P);
  nb_sound : ∀ H', H' ∈ Hs' → nets_sound H';
  nb_verts : ∀ i, gverts Hs' i ≡ₚ gverts (fst <$> ps) i ++ kept_verts ps i;
  nb_nets : ∀ n', n' ∈ all_nets Hs' → ∃ n, n ∈ all_nets (fst <$> ps) ++ all_kept ps ∧ n_id n = n_id n' ∧ n_cost n = n_cost n';
  nb_lists : ∀ t P H' j v v', ps !! t = Some P → Hs' !! t = Some H' → h_verts (fst P) !! j = Some v → h_verts H' !! j = Some v' → NoDup (v_nets v') ∧
    ∀ i, i ∈ v_nets v' ↔ i ∈ v_nets v ∨ ∃ s P2 n, s ≠ t ∧ ps !! s = Some P2 ∧ n ∈ snd P2 ∧ n_id n = i ∧ v_id v ∈ n_verts n;
}.
(** ** Setting nets aside *)
(** the nets with ids in [R] are taken from a processor's hypergraph and put at the end of its list, with their vertices and costs; nothing
    else changes *)
Record nets_taken (R : list Z) (P P' : hg * list net) : Prop := {
  nt_nets : h_nets (fst P') ≡ₚ filter (λ n, n_id n ∉ R) (h_nets (fst P));
  nt_verts : Forall2 (λ v v', vertex_but_nets v' = vertex_but_nets v ∧ v_nets v' ≡ₚ filter (λ i, i ∉ R) (v_nets v)) (h_verts (fst P)) (h_verts (fst P'));
  nt_same : h_gsize (fst P') = h_gsize (fst P) ∧ h_gnets (fst P') = h_gnets (fst P) ∧ h_nz (fst P') = h_nz (fst P);
  nt_cons : consistent (fst P');
  nt_kept : ∃ add, snd P' = snd P ++ add ∧ add ≡ₚ (λ n, Net (n_id n) (n_verts n) (n_cost n) 0) <$> filter (λ n, n_id n ∈ R) (h_nets (fst P));
}.
(** no local piece of a net is without vertices *)
Definition no_bare (Hs : list hg) : Prop := ∀ n, n ∈ all_nets Hs → n_verts n ≠ [].
(** only the first group has more than one processor *)
Definition one_by_one {A} (groups : list (list A)) : Prop := ∀ t g, groups !! S t = Some g → length g = 1%nat.
(** ** The same hypergraph on the same number of processors, but for the places and parts of vertices and the nets they list *)
Record same_whole (Hs Hs' : list hg) : Prop := {
  sw_len : length Hs' = length Hs;
  sw_verts : (λ v, (v_id v, v_weight v)) <$> all_verts Hs' ≡ₚ (λ v, (v_id v, v_weight v)) <$> all_verts Hs;
  sw_nets : ∀ i, gverts Hs' i ≡ₚ gverts Hs i;
  sw_cost : ∀ n', n' ∈ all_nets Hs' → ∃ n, n ∈ all_nets Hs ∧ n_id n = n_id n' ∧ n_cost n = n_cost n';
  sw_size : h_gsize <$> Hs' = h_gsize <$> Hs;
  sw_nz : h_nz <$> Hs' = h_nz <$> Hs;
}.
