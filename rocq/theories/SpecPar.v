(** Specification vocabulary for distributed hypergraphs: a list with one local hypergraph per
    processor.  Nothing here mentions the functions of the model. *)
From Verif Require Export SpecMulti.

(** the vertices and the local pieces of nets of all processors *)
Definition all_verts (Hs : list hg) : list vertex := concat (h_verts <$> Hs).
Definition all_nets (Hs : list hg) : list net := concat (h_nets <$> Hs).
(** the local pieces of net [nid] *)
Definition pieces (Hs : list hg) (nid : Z) : list net := filter (λ n, n_id n = nid) (all_nets Hs).
(** all vertices of net [nid], its cost (0 if it is nowhere), its size *)
Definition gverts (Hs : list hg) (nid : Z) : list Z := concat (n_verts <$> pieces Hs nid).
Definition gcost (Hs : list hg) (nid : Z) : Z := match pieces Hs nid with n :: _ => n_cost n | [] => 0 end.
Definition gsize (Hs : list hg) (nid : Z) : Z := Z.of_nat (length (gverts Hs nid)).
(** part of the vertex with this id, on whichever processor it is *)
Definition gpart (Hs : list hg) (id : Z) : Z :=
  match list_find (λ v, v_id v = id) (all_verts Hs) with Some (_, v) => v_part v | None => -1 end.
(** the nets of the whole hypergraph, numbered 0..gn-1, as (cost, vertices) *)
Definition whole_nets (Hs : list hg) (gn : Z) : list (Z * list Z) :=
  (λ nid, (gcost Hs nid, gverts Hs nid)) <$> seqZ 0 gn.
(** the cut under a metric *)
Definition cut_by (m : metric) : list (Z * list Z) → (Z → Z) → Z :=
  match m with CutNet => cut_net_size | LambdaMinusOne => lambda_size end.
(** number of vertices of net [nid] in part [p], over all processors *)
Definition gcount (Hs : list hg) (nid p : Z) : Z := zcount (λ u, gpart Hs u = p) (gverts Hs nid).
(** weights over all processors *)
Definition gweight (Hs : list hg) : Z := zsum (v_weight <$> all_verts Hs).
Definition gpart_weight (Hs : list hg) (p : Z) : Z :=
  zsum (v_weight <$> filter (λ v, v_part v = p) (all_verts Hs)).

(** [Hs] is a hypergraph with [gn] nets spread over the processors: every local hypergraph is
    consistent, no vertex is on two processors, net numbers are in range, and the pieces of a net
    carry the same cost *)
Record distributed (gn : Z) (Hs : list hg) : Prop := {
  di_local : ∀ H, H ∈ Hs → consistent H;
  di_gnets : ∀ H, H ∈ Hs → h_gnets H = gn;
  di_verts : NoDup (v_id <$> all_verts Hs);
  di_range : ∀ n, n ∈ all_nets Hs → 0 ≤ n_id n < gn;
  di_cost : ∀ n n', n ∈ all_nets Hs → n' ∈ all_nets Hs → n_id n = n_id n' → n_cost n = n_cost n';
}.

(** ** Block partitionings of 0..n-1 over p processors: who owns an index, its position there *)
Record partitioning := Partitioning {
  pa_owner : Z → Z;
  pa_local : Z → Z;
  pa_count : Z → Z;
  pa_global : Z → Z → Z;
}.
(** every index has one owner and one position at its owner, and the positions are used up *)
Record lawful (p n : Z) (part : partitioning) : Prop := {
  la_owner : ∀ x, 0 ≤ x < n → 0 ≤ pa_owner part x < p;
  la_local : ∀ x, 0 ≤ x < n → 0 ≤ pa_local part x < pa_count part (pa_owner part x);
  la_global : ∀ x, 0 ≤ x < n → pa_global part (pa_local part x) (pa_owner part x) = x;
  la_inv : ∀ t i, 0 ≤ t < p → 0 ≤ i < pa_count part t →
    0 ≤ pa_global part i t < n ∧ pa_owner part (pa_global part i t) = t ∧ pa_local part (pa_global part i t) = i;
}.
(** a family of partitionings, one for each number of processors and of indices *)
Definition lawful_family (bp : Z → Z → partitioning) : Prop := ∀ p n, 0 < p → 0 ≤ n → lawful p n (bp p n).

(** what removing the nets with at most [m] vertices (over all processors [Hs]) does to the local
    hypergraph [H]: larger nets that have a vertex here stay, with their global size recorded *)
Record small_nets_removed (m : Z) (Hs : list hg) (H H' : hg) : Prop := {
  sr_nets : h_nets H' ≡ₚ (λ n, Net (n_id n) (n_verts n) (n_cost n) (gsize Hs (n_id n)))
      <$> filter (λ n, m < gsize Hs (n_id n) ∧ n_verts n ≠ []) (h_nets H);
  sr_verts : Forall2 (λ v v', v_id v' = v_id v ∧ v_weight v' = v_weight v ∧ v_part v' = v_part v ∧
      v_nets v' ≡ₚ filter (λ nid, m < gsize Hs nid) (v_nets v)) (h_verts H) (h_verts H');
  sr_gsize : h_gsize H' = h_gsize H;
  sr_gnets : h_gnets H' = h_gnets H;
  sr_nz : h_nz H' = h_nz H;
  sr_vmap : h_vmap H' = h_vmap H;
  sr_dups : h_dups H' = h_dups H;
}.

(** contiguous blocks of equal size, the last ones possibly smaller or empty *)
Definition blocks (p n : Z) : partitioning :=
  let b := (n + p - 1) / p in
  Partitioning (λ x, x / b) (λ x, x mod b) (λ t, Z.max 0 (Z.min b (n - t * b))) (λ i t, t * b + i).
