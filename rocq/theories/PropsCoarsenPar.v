(** Property theorems (generated by tools/gen_theorems.py from FinalCoarsenPar.v: same
    statements, each closed by the lemma proved there). *)
From Verif Require Import FinalCoarsenPar.

(** C46.  Let [Hs] be a hypergraph distributed over the processors, [samples] any lists of at most
    sample_size distinct local vertices, one list per processor, and let the messages arrive in
    any order.  Then parallel coarsening ends, and its result is a coarsening of [Hs] around the
    samples in the sense of [coarsened_par] (SpecCpar.v).  In particular the samples and the
    matches are pairwise different vertices, so every vertex is matched at most once and a sample
    never; no sample has more than max_cluster_size matches; and total weight is conserved. *)
Theorem C46_coarsening : ∀ bp gn Hs samples opts w,
  lawful_family bp → 0 ≤ gn → Hs ≠ [] → distributed gn Hs → 0 ≤ o_sample_size opts → samples_of (o_sample_size opts) Hs samples →
  ∃ res w', coarsen_samples bp Hs (replicate (length Hs) new_contraction) samples opts w = Ok (res, w') ∧
    coarsened_par gn (o_max_clustersize opts) Hs samples (fst <$> res) (snd <$> res).
Proof. exact C46_coarsening_proof. Qed.
Print Assumptions C46_coarsening.

(** C46, with the choice of the samples: coarsen_hypergraph_par always ends with such a result if
    sample_size is positive and, for random samples, every processor has a vertex (and fewer than
    2^53, so that doubles hold their number). *)
Theorem C46_with_sampling : ∀ bp gn Hs opts w,
  lawful_family bp → 0 ≤ gn → Hs ≠ [] → distributed gn Hs → 0 < o_sample_size opts →
  (o_sampling opts = SampRandom → ∀ H, H ∈ Hs → 0 < Z.of_nat (length (h_verts H)) ≤ 2 ^ 53) →
  ∃ samples res w', coarsen_par bp Hs (replicate (length Hs) new_contraction) opts w = Ok (res, w') ∧
    samples_of (o_sample_size opts) Hs samples ∧
    coarsened_par gn (o_max_clustersize opts) Hs samples (fst <$> res) (snd <$> res).
Proof. exact C46_with_sampling_proof. Qed.
Print Assumptions C46_with_sampling.

(** The condition on random samples is needed: a processor without vertices fails an assertion,
    whatever the random numbers. *)
Theorem C46_empty_processor_aborts : ∀ bp Hs Cs opts H w, o_sampling opts = SampRandom → H ∈ Hs → h_verts H = [] →
  match coarsen_par bp Hs Cs opts w with Ok _ => False | Err _ => True end.
Proof. exact C46_empty_processor_aborts_proof. Qed.
Print Assumptions C46_empty_processor_aborts.

Example C46_example : lawful_family blocks ∧ distributed 5 ps_sized ∧ samples_of (o_sample_size cp_opts) ps_sized cp_samples ∧
  match coarsen_samples blocks ps_sized (replicate 3 new_contraction) cp_samples cp_opts w0 with
  | Ok (r, _) => (c_matches ∘ snd <$> r) = [[[(3, 0); (1, 1)]]; []; [[(2, 2)]]] ∧
      ((λ x, (λ v, (v_id v, v_weight v)) <$> h_verts (fst x)) <$> r) = [[(0, 4)]; [(4, 1)]; [(5, 6)]]
  | Err _ => False end.
Proof.
  split; [apply blocks_lawful|]. split; [apply ps_sized_distributed|]. split.
  - repeat constructor; simpl; try lia; set_solver by lia.
  - vm_compute. split; reflexivity.
Qed.

Example C46_sampling_example : 0 < o_sample_size cp_opts ∧ Forall (λ H, 0 < Z.of_nat (length (h_verts H)) ≤ 2 ^ 53) ps_sized.
Proof. split; [done|]. repeat constructor; simpl; lia. Qed.

Example C46_empty_example : ∃ H, H ∈ [p0; mk_hg 2 5 [] [] 0] ∧ h_verts H = [].
Proof. exists (mk_hg 2 5 [] [] 0). split; [set_solver|done]. Qed.
