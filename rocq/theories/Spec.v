(** Specification vocabulary.  Nothing here mentions the functions of the model:
    only the data of a hypergraph (its vertex list and its net list). *)
From Verif Require Export Types.

(** ** Sums and counts *)
Definition zsum (l : list Z) : Z := foldr Z.add 0 l.
Definition zcount {A} (P : A → Prop) `{∀ x, Decision (P x)} (l : list A) : Z :=
  Z.of_nat (length (filter P l)).

(** ** Cuts.  A net list is a list of (cost, vertex ids); [σ] assigns parts. *)
Definition parts_touched (σ : Z → Z) (vs : list Z) : gset Z := list_to_set (σ <$> vs).

(** Number of parts touched (the lambda of the lambda-minus-one metric). *)
Definition lambda (σ : Z → Z) (vs : list Z) : Z := Z.of_nat (size (parts_touched σ vs)).

Definition cut_net_size (ns : list (Z * list Z)) (σ : Z → Z) : Z :=
  zsum ((λ '(c, vs), if decide (1 < lambda σ vs) then c else 0) <$> ns).
Definition lambda_size (ns : list (Z * list Z)) (σ : Z → Z) : Z :=
  zsum ((λ '(c, vs), if decide (vs = []) then 0 else c * (lambda σ vs - 1)) <$> ns).

(** ** A hypergraph as data *)
Definition net_list (H : hg) : list (Z * list Z) :=
  (λ n, (n_cost n, n_verts n)) <$> h_nets H.

(** Part of the vertex with this id, -1 if there is no such vertex. *)
Definition part_of (H : hg) (id : Z) : Z :=
  match list_find (λ v, v_id v = id) (h_verts H) with
  | Some (_, v) => v_part v
  | None => -1
  end.
Definition weight_of (H : hg) (id : Z) : Z :=
  match list_find (λ v, v_id v = id) (h_verts H) with
  | Some (_, v) => v_weight v
  | None => 0
  end.

(** The two cut metrics of a hypergraph under its own parts. *)
Definition cut_net (H : hg) : Z := cut_net_size (net_list H) (part_of H).
Definition lambda_minus_one (H : hg) : Z := lambda_size (net_list H) (part_of H).

(** Total weight, and weight of one part. *)
Definition tot_weight (H : hg) : Z := zsum (v_weight <$> h_verts H).
Definition part_weight (H : hg) (p : Z) : Z :=
  zsum (v_weight <$> filter (λ v, v_part v = p) (h_verts H)).

(** Number of vertices of a net in part [p]. *)
Definition count_in (H : hg) (n : net) (p : Z) : Z :=
  zcount (λ u, part_of H u = p) (n_verts n).

(** Exact part counts of all nets, in net order. *)
Definition exact_counts (H : hg) (C : list (Z * Z)) : Prop :=
  C = (λ n, (count_in H n 0, count_in H n 1)) <$> h_nets H.

Definition bisected (H : hg) : Prop :=
  ∀ v, v ∈ h_verts H → v_part v = 0 ∨ v_part v = 1.

(** Every net lists its part-0 vertices before its part-1 vertices. *)
Definition part_sorted (H : hg) : Prop :=
  ∀ n, n ∈ h_nets H → ∃ l0 l1, n_verts n = l0 ++ l1 ∧
    (∀ u, u ∈ l0 → part_of H u = 0) ∧ (∀ u, u ∈ l1 → part_of H u = 1).

(** ** Consistency of the representation *)
Record consistent (H : hg) : Prop := {
  (* ids identify vertices and nets *)
  co_vid : NoDup (v_id <$> h_verts H);
  co_nid : NoDup (n_id <$> h_nets H);
  (* the id maps are exact *)
  co_vmap : ∀ id i, h_vmap H !! id = Some i ↔ ∃ v, h_verts H !! i = Some v ∧ v_id v = id;
  co_nmap : ∀ id i, h_nmap H !! id = Some i ↔ ∃ n, h_nets H !! i = Some n ∧ n_id n = id;
  (* no repeated incidences *)
  co_vnets : ∀ v, v ∈ h_verts H → NoDup (v_nets v);
  co_nverts : ∀ n, n ∈ h_nets H → NoDup (n_verts n);
  (* both sides describe the same incidences *)
  co_inc1 : ∀ v nid, v ∈ h_verts H → nid ∈ v_nets v →
    ∃ n, n ∈ h_nets H ∧ n_id n = nid ∧ v_id v ∈ n_verts n;
  co_inc2 : ∀ n vid, n ∈ h_nets H → vid ∈ n_verts n →
    ∃ v, v ∈ h_verts H ∧ v_id v = vid ∧ n_id n ∈ v_nets v;
}.

(** ** Frames *)

(** Two vertices that differ at most in their part. *)
Definition same_vertex (v v' : vertex) : Prop :=
  v_id v = v_id v' ∧ v_nets v = v_nets v' ∧ v_weight v = v_weight v'.
(** Two nets that differ at most in the order of their vertex list. *)
Definition same_net (n n' : net) : Prop :=
  n_id n = n_id n' ∧ n_verts n ≡ₚ n_verts n' ∧ n_cost n = n_cost n' ∧ n_gsize n = n_gsize n'.

(** Only parts and the orders inside nets may differ. *)
Record same_shape (H H' : hg) : Prop := {
  ss_gsize : h_gsize H = h_gsize H';
  ss_gnets : h_gnets H = h_gnets H';
  ss_nz : h_nz H = h_nz H';
  ss_verts : Forall2 same_vertex (h_verts H) (h_verts H');
  ss_nets : Forall2 same_net (h_nets H) (h_nets H');
  ss_vmap : h_vmap H = h_vmap H';
  ss_nmap : h_nmap H = h_nmap H';
  ss_dups : h_dups H = h_dups H';
}.

(** ** Effects of single operations *)

(** [H'] is [H] without net [n]: every other net is there unchanged, every vertex has lost the
    incidence with [n] and nothing else. *)
Record net_removed (n : net) (H H' : hg) : Prop := {
  nr_nets : h_nets H ≡ₚ n :: h_nets H';
  nr_verts : Forall2 (λ v v', v_id v' = v_id v ∧ v_weight v' = v_weight v ∧ v_part v' = v_part v ∧
               v_nets v' ≡ₚ filter (λ m, m ≠ n_id n) (v_nets v)) (h_verts H) (h_verts H');
  nr_gsize : h_gsize H' = h_gsize H;
  nr_gnets : h_gnets H' = h_gnets H;
  nr_nz : h_nz H' = h_nz H;
  nr_dups : h_dups H' = h_dups H;
}.

(** [H'] is [H] without vertex [v]. *)
Record vertex_removed (v : vertex) (H H' : hg) : Prop := {
  vr_verts : h_verts H ≡ₚ v :: h_verts H';
  vr_nets : h_nets H' = h_nets H;
  vr_gsize : h_gsize H' = h_gsize H;
  vr_gnets : h_gnets H' = h_gnets H;
  vr_nz : h_nz H' = h_nz H;
  vr_dups : h_dups H' = h_dups H;
}.

(** ** Refinement of bisections *)

(** the sentinel of the code: no vertex has id -1 *)
Definition no_sentinel (H : hg) : Prop := ∀ v, v ∈ h_verts H → v_id v ≠ -1.

(** the inputs for which refinement is specified: sums of costs must fit the machine type *)
Record klfm_pre (H : hg) : Prop := {
  kp_cons : consistent H;
  kp_ids : no_sentinel H;
  kp_cost : ∀ n, n ∈ h_nets H → 0 ≤ n_cost n;
  kp_total : zsum (n_cost <$> h_nets H) < 2 ^ 62;
  kp_weight : ∀ v, v ∈ h_verts H → 0 ≤ v_weight v;
}.

(** the cut after giving [v] the other part *)
Definition flip_cut (H : hg) (v : vertex) : Z :=
  cut_net_size (net_list H) (λ u, if decide (u = v_id v) then 1 - v_part v else part_of H u).

(** weights of the two parts *)
Definition pws (H : hg) : Z * Z := (part_weight H 0, part_weight H 1).
