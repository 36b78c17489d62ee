(** What recursive bisection on several processors is given, and what it may change. *)
From Verif Require Export SpecRed SpecBpar SpecBisect.

(** a hypergraph with [gn] nets spread over the processors, with positive weights and sizes for which the
    numbers of the program are large enough; no vertex has the id -1 *)
Record spread_pre (gn : Z) (Hs : list hg) : Prop := {
  sp_dist : distributed gn Hs;
  sp_gn : 0 ≤ gn < 2147483648;
  sp_ids : ∀ v, v ∈ all_verts Hs → v_id v ≠ -1;
  sp_weight : ∀ v, v ∈ all_verts Hs → 0 < v_weight v;
  sp_total : gweight Hs ≤ 2 ^ 50;
}.
(** [Hs'] is the same hypergraph on the same processors: only the parts of the vertices may have changed, and
    the processors on which they are.  The incidences of a processor follow from its vertices, since it is
    consistent. *)
Record rearranged (gn : Z) (Hs Hs' : list hg) : Prop := {
  ra_dist : distributed gn Hs';
  ra_len : length Hs' = length Hs;
  ra_verts : vertex_data <$> all_verts Hs' ≡ₚ vertex_data <$> all_verts Hs;
  ra_nets : ∀ e', e' ∈ all_nets Hs' → ∃ e, e ∈ all_nets Hs ∧ n_id e = n_id e' ∧ n_cost e = n_cost e';
  ra_size : h_gsize <$> Hs' = h_gsize <$> Hs;
  ra_nz : h_nz <$> Hs' = h_nz <$> Hs;
}.
