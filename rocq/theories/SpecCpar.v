(** Specification vocabulary for parallel coarsening.  Nothing here mentions the functions of the
    model; of Coarsen.v only the data type of contractions is used. *)
From Verif Require Export SpecPar Coarsen.

(** the clusters and the free vertices recorded by the contractions of all processors *)
Definition all_clusters (Cs : list contraction) : list (Z * list Z) := concat ((λ C, clusters (c_samples C) (c_matches C)) <$> Cs).
Definition all_free (Cs : list contraction) : list (Z * Z) := concat (c_free <$> Cs).
(** two vertices lie on a common net, on whichever processors they are *)
Definition gneighbours (Hs : list hg) (a b : Z) : Prop :=
  ∃ u v n, u ∈ all_verts Hs ∧ v ∈ all_verts Hs ∧ v_id u = a ∧ v_id v = b ∧ n ∈ v_nets u ∧ n ∈ v_nets v.
(** weight that assignment [σ] gives to part [p] over all processors, plus separately kept vertices *)
Definition gassigned (Hs : list hg) (free : list (Z * Z)) (σ : Z → Z) (p : Z) : Z :=
  zsum ((λ v, if decide (σ (v_id v) = p) then v_weight v else 0) <$> all_verts Hs) +
  zsum ((λ f, if decide (σ (fst f) = p) then snd f else 0) <$> free).
(** valid samples for every processor: distinct local indices, at most [S] of them *)
Definition samples_of (S : Z) (Hs : list hg) (samples : list (list Z)) : Prop :=
  Forall2 (λ H sm, NoDup sm ∧ (∀ i, i ∈ sm → 0 ≤ i < Z.of_nat (length (h_verts H))) ∧ Z.of_nat (length sm) ≤ S) Hs samples.

(** [HCs] and the contractions [Cs] are the result of coarsening [Hs] around [samples], with at
    most [mcs] matches for each sample *)
Record coarsened_par (gn mcs : Z) (Hs : list hg) (samples : list (list Z)) (HCs : list hg) (Cs : list contraction) : Prop := {
  (* one coarse hypergraph and one contraction for every processor, together a distributed hypergraph *)
  cr_len : length HCs = length Hs ∧ length Cs = length Hs;
  cr_dist : distributed gn HCs;
  (* every processor records the ids of its samples, and a list of matches for each *)
  cr_samples : ∀ t H sm C, Hs !! t = Some H → samples !! t = Some sm → Cs !! t = Some C →
    Forall2 (λ i id, ∃ v, h_verts H !! Z.to_nat i = Some v ∧ v_id v = id) sm (c_samples C) ∧ length (c_matches C) = length sm;
  (* the processor recorded with a match is the one that has the vertex *)
  cr_owner : ∀ C l m t, C ∈ Cs → l ∈ c_matches C → (m, t) ∈ l → ∃ t' H, t = Z.of_nat t' ∧ Hs !! t' = Some H ∧ m ∈ v_id <$> h_verts H;
  (* no vertex is in two clusters, clusters are not too large and join vertices of a common net *)
  cr_disjoint : NoDup ((fst <$> all_clusters Cs) ++ concat (snd <$> all_clusters Cs));
  cr_size : ∀ c, c ∈ all_clusters Cs → Z.of_nat (length (snd c)) ≤ Z.max 0 mcs;
  cr_share : ∀ c m, c ∈ all_clusters Cs → m ∈ snd c → gneighbours Hs (fst c) m;
  (* every vertex is coarse, free or matched, exactly once; those that are not matched stay on their processor *)
  cr_ids : (v_id <$> all_verts HCs) ++ (fst <$> all_free Cs) ++ concat (snd <$> all_clusters Cs) ≡ₚ v_id <$> all_verts Hs;
  cr_stay : ∀ t H HC C id, Hs !! t = Some H → HCs !! t = Some HC → Cs !! t = Some C →
    id ∈ (v_id <$> h_verts HC) ++ (fst <$> c_free C) → id ∈ v_id <$> h_verts H;
  (* weights: of each vertex, in total, and of the free vertices *)
  cr_weight : ∀ id wt, (id, wt) ∈ ((λ v, (v_id v, v_weight v)) <$> all_verts HCs) ++ all_free Cs →
    wt = zsum ((λ v, if decide (rep (all_clusters Cs) (v_id v) = id) then v_weight v else 0) <$> all_verts Hs);
  cr_total : gweight HCs + zsum (snd <$> all_free Cs) = gweight Hs;
  cr_local_free : ∀ C, C ∈ Cs → c_local_free C = zsum (snd <$> c_free C);
  cr_global_free : ∀ C, C ∈ Cs → c_global_free C = zsum (snd <$> all_free Cs);
  (* an assignment of the clusters has the cuts and part weights of its projection *)
  cr_cut : ∀ m σ, cut_by m (whole_nets HCs gn) σ = cut_by m (whole_nets Hs gn) (σ ∘ rep (all_clusters Cs));
  cr_parts : ∀ σ p, gassigned HCs (all_free Cs) σ p = gassigned Hs [] (σ ∘ rep (all_clusters Cs)) p;
  (* the coarse nets are the nets that join two clusters, mapped to the samples, with exact sizes *)
  cr_gverts : ∀ nid u, u ∈ gverts HCs nid ↔
    (∃ x, x ∈ gverts Hs nid ∧ rep (all_clusters Cs) x = u) ∧
    ∃ x y, x ∈ gverts Hs nid ∧ y ∈ gverts Hs nid ∧ rep (all_clusters Cs) x ≠ rep (all_clusters Cs) y;
  cr_nets : ∀ n, n ∈ all_nets HCs → n_verts n ≠ [] ∧ 2 ≤ gsize HCs (n_id n) ∧ n_gsize n = gsize HCs (n_id n) ∧ n_cost n = gcost Hs (n_id n);
  (* coarse vertices have a net and no part yet; the global size is their number *)
  cr_verts : ∀ v, v ∈ all_verts HCs → v_nets v ≠ [] ∧ v_part v = -1;
  cr_gsize : ∀ HC, HC ∈ HCs → h_gsize HC = Z.of_nat (length (all_verts HCs));
}.
