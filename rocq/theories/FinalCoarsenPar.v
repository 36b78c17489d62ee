(** C46: parallel coarsening. *)
From Verif Require Export CparResult FinalPar.

(** ** C46 *)

(** C46.  Let [Hs] be a hypergraph distributed over the processors, [samples] any lists of at most
    sample_size distinct local vertices, one list per processor, and let the messages arrive in
    any order.  Then parallel coarsening ends, and its result is a coarsening of [Hs] around the
    samples in the sense of [coarsened_par] (SpecCpar.v).  In particular the samples and the
    matches are pairwise different vertices, so every vertex is matched at most once and a sample
    never; no sample has more than max_cluster_size matches; and total weight is conserved. *)
Lemma C46_coarsening_proof : ∀ bp gn Hs samples opts w,
  lawful_family bp → 0 ≤ gn → Hs ≠ [] → distributed gn Hs → 0 ≤ o_sample_size opts → samples_of (o_sample_size opts) Hs samples →
  ∃ res w', coarsen_samples bp Hs (replicate (length Hs) new_contraction) samples opts w = Ok (res, w') ∧
    coarsened_par gn (o_max_clustersize opts) Hs samples (fst <$> res) (snd <$> res).
Proof.
  intros bp gn Hs samples opts w Hbp Hgn Hne HD HS Hok.
  assert (wp (coarsen_samples bp Hs (replicate (length Hs) new_contraction) samples opts)
    (λ res, coarsened_par gn (o_max_clustersize opts) Hs samples (fst <$> res) (snd <$> res))) as Hw
    by (eapply (wpe_coarsen_samples bp Hbp gn Hgn Hs Hne HD samples opts HS Hok); auto).
  apply wp_run with (w := w) in Hw as (res & w' & Heq & Ho). eauto.
Qed.

Lemma sorted_nodup (l : list Z) : StronglySorted Z.lt l → NoDup l.
Proof.
  induction 1 as [|x l _ IH HF]; [by apply NoDup_nil|]. apply NoDup_cons. split; [|done]. intros Hx. rewrite Forall_forall in HF. specialize (HF x Hx). lia.
Qed.
Lemma wp_choose_samples H opts (Q : list Z → Prop) : consistent H → 0 < o_sample_size opts →
  (o_sampling opts = SampRandom → 0 < Z.of_nat (length (h_verts H)) ≤ 2 ^ 53) →
  (∀ sm, NoDup sm → (∀ i, i ∈ sm → 0 ≤ i < Z.of_nat (length (h_verts H))) → Z.of_nat (length sm) ≤ o_sample_size opts → Q sm) →
  wp (choose_samples H opts) Q.
Proof.
  intros HC HS Hr HQ. unfold choose_samples. destruct (o_sampling opts).
  - apply wpe_sample_random; [by apply Hr|]. intros sm Hl Hs HF. apply HQ; [by apply sorted_nodup| |lia]. by apply Forall_forall.
  - unfold sample_lp. apply wpe_bind. apply wpe_label_propagation; [done..|]. intros L Hl HF. apply wpt_wpe, wpt_sample_labels; [done..|].
    intros sm SL Hso Hsort Hnd _. apply HQ; [by apply sorted_nodup| |].
    + intros i [k Hk]%elem_of_list_lookup. destruct (Forall2_lookup_l _ _ _ _ _ Hso Hk) as (j & _ & [Hi Hj]%zlookup_Some). apply lookup_lt_Some in Hj. lia.
    + rewrite (Forall2_length _ _ _ Hso).
      assert (SL ⊆+ seqZ 0 (o_sample_size opts)) as Hsub.
      { apply NoDup_submseteq; [done|]. intros j [k Hk]%elem_of_list_lookup. destruct (Forall2_lookup_r _ _ _ _ _ Hso Hk) as (i & _ & [Hi Hj]%zlookup_Some).
        rewrite Forall_forall in HF. specialize (HF j (elem_of_list_lookup_2 _ _ _ Hj)). apply elem_of_seqZ. lia. }
      apply submseteq_length in Hsub. rewrite seqZ_length in Hsub. lia.
Qed.

(** C46, with the choice of the samples: coarsen_hypergraph_par always ends with such a result if
    sample_size is positive and, for random samples, every processor has a vertex (and fewer than
    2^53, so that doubles hold their number). *)
Lemma C46_with_sampling_proof : ∀ bp gn Hs opts w,
  lawful_family bp → 0 ≤ gn → Hs ≠ [] → distributed gn Hs → 0 < o_sample_size opts →
  (o_sampling opts = SampRandom → ∀ H, H ∈ Hs → 0 < Z.of_nat (length (h_verts H)) ≤ 2 ^ 53) →
  ∃ samples res w', coarsen_par bp Hs (replicate (length Hs) new_contraction) opts w = Ok (res, w') ∧
    samples_of (o_sample_size opts) Hs samples ∧
    coarsened_par gn (o_max_clustersize opts) Hs samples (fst <$> res) (snd <$> res).
Proof.
  intros bp gn Hs opts w Hbp Hgn Hne HD HS Hr.
  assert (wp (coarsen_par bp Hs (replicate (length Hs) new_contraction) opts)
    (λ res, ∃ samples, samples_of (o_sample_size opts) Hs samples ∧ coarsened_par gn (o_max_clustersize opts) Hs samples (fst <$> res) (snd <$> res))) as Hw.
  { unfold coarsen_par. apply wpe_bind.
    eapply (wpe_mapP _ _ (λ t H sm, NoDup sm ∧ (∀ i, i ∈ sm → 0 ≤ i < Z.of_nat (length (h_verts H))) ∧ Z.of_nat (length sm) ≤ o_sample_size opts)).
    - intros t H HH. assert (H ∈ Hs) as Hin by (by eapply elem_of_list_lookup_2). apply wp_choose_samples; [by apply (di_local _ _ HD)|done|intros; by apply Hr|done].
    - intros samples Hl Hsm. assert (samples_of (o_sample_size opts) Hs samples) as Hok.
      { apply Forall2_same_length_lookup. split; [done|]. intros t H sm HH Hss. by eapply Hsm. }
      apply (wpe_coarsen_samples bp Hbp gn Hgn Hs Hne HD samples opts ltac:(lia) Hok). intros res Hres. eauto. }
  apply wp_run with (w := w) in Hw as (res & w' & Heq & samples & Ho). exists samples, res, w'. tauto.
Qed.

(** The condition on random samples is needed: a processor without vertices fails an assertion,
    whatever the random numbers. *)
Lemma C46_empty_processor_aborts_proof : ∀ bp Hs Cs opts H w, o_sampling opts = SampRandom → H ∈ Hs → h_verts H = [] →
  match coarsen_par bp Hs Cs opts w with Ok _ => False | Err _ => True end.
Proof.
  intros bp Hs Cs opts H w Hr HH Hv.
  assert (wlp (coarsen_par bp Hs Cs opts) (λ _, False)) as Hw.
  { unfold coarsen_par. apply wpe_bind. eapply (wpe_mapP _ _ (λ t H sm, h_verts H ≠ [])).
    - intros t H' _. unfold choose_samples. rewrite Hr. unfold sample_random. destruct (h_verts H') as [|v l]; [|].
      + intros w1. done.
      + intros w1. match goal with |- match ?m with _ => _ end => destruct m as [[? ?]|] end; done.
    - intros samples Hl Hsm. apply elem_of_list_lookup in HH as [t Ht]. destruct (lookup_lt_is_Some_2 samples t) as [sm Hs']; [rewrite Hl; by eapply lookup_lt_Some|].
      by destruct (Hsm t H sm Ht Hs'). }
  specialize (Hw w). by destruct (coarsen_par _ _ _ _ w) as [[? ?]|].
Qed.

(** an example: three processors, sample vertices 0 and 5; vertices 3 and 1 join 0, vertex 2 joins 5 *)
Definition cp_opts : options := Opts 2 3 4 2 3 10 20 2 CutNet BisMultilevel SampRandom.
Definition cp_samples : list (list Z) := [[0]; []; [1]].
Example C46_example : lawful_family blocks ∧ distributed 5 ps_sized ∧ samples_of (o_sample_size cp_opts) ps_sized cp_samples ∧
  match coarsen_samples blocks ps_sized (replicate 3 new_contraction) cp_samples cp_opts w0 with
  | Ok (r, _) => (c_matches ∘ snd <$> r) = [[[(3, 0); (1, 1)]]; []; [[(2, 2)]]] ∧
      ((λ x, (λ v, (v_id v, v_weight v)) <$> h_verts (fst x)) <$> r) = [[(0, 4)]; [(4, 1)]; [(5, 6)]]
  | Err _ => False end.
Proof.
  split; [apply blocks_lawful|]. split; [apply ps_sized_distributed|]. split.
  - repeat constructor; simpl; try lia; set_solver by lia.
  - vm_compute. split; reflexivity.
Qed.
Example C46_sampling_example : 0 < o_sample_size cp_opts ∧ Forall (λ H, 0 < Z.of_nat (length (h_verts H)) ≤ 2 ^ 53) ps_sized.
Proof. split; [done|]. repeat constructor; simpl; lia. Qed.
Example C46_empty_example : ∃ H, H ∈ [p0; mk_hg 2 5 [] [] 0] ∧ h_verts H = [].
Proof. exists (mk_hg 2 5 [] [] 0). split; [set_solver|done]. Qed.
