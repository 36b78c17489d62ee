(** The property lemmas of C54 to C57: multilevel bisection on several processors. *)
From Verif Require Export MparProof FinalCoarsenPar FinalColl.

(** C54, projection.  Let [HCs] and [Cs] be the result of parallel coarsening of [Hs] and let [Ks] be the
    coarse hypergraphs with their free vertices back, with any parts.  Then uncoarsening ends normally for
    every order of arrival, changes nothing but parts, and gives every vertex of [Hs] the part of the
    vertex of [Ks] it was merged into, on whichever processor that is. *)
Lemma C54_projection_proof : ∀ gn mcs Hs samples HCs Cs Ks w,
  distributed gn Hs → coarsened_par gn mcs Hs samples HCs Cs → length samples = length Hs → length Ks = length Hs →
  (∀ t K HC C, Ks !! t = Some K → HCs !! t = Some HC → Cs !! t = Some C →
     consistent K ∧ v_id <$> h_verts K ≡ₚ (v_id <$> h_verts HC) ++ (fst <$> c_free C)) →
  ∃ Hs' w', uncoarsen_world Ks Hs Cs w = Ok (Hs', w') ∧ relabelled Hs Hs' ∧
    ∀ u, u ∈ v_id <$> all_verts Hs → gpart Hs' u = gpart Ks (rep (all_clusters Cs) u).
Proof.
  intros gn mcs Hs samples HCs Cs Ks w HD Hcr Hsl HKl HK.
  assert (wp (uncoarsen_world Ks Hs Cs) (λ Hs', relabelled Hs Hs' ∧
    ∀ u, u ∈ v_id <$> all_verts Hs → gpart Hs' u = gpart Ks (rep (all_clusters Cs) u))) as Hw.
  { apply (wpe_uncoarsen_world _ gn mcs Hs samples HCs Cs HD Hcr Hsl Ks HKl HK). split; [apply labs_shape|].
    intros u Hu. by rewrite (labs_gpart gn). }
  apply wp_run with (w := w) in Hw as (o & w' & Heq & Ho). exists o, w'. split; done.
Qed.

(** C54, uncoarsening with refinement.  Given a bisection of the coarse level and its cut, uncoarsening
    gives a bisection of the fine level, changes nothing else, and returns the exact cut of the new
    bisection, which is not larger.  The only error that can end it is undefined behaviour (of the
    refinement, see C50_out_of_range_refuted, or of the division if both limits are 0), *)
Lemma C54_uncoarsening_proof : ∀ bp gn mcs opts mx Hs samples HCs Cs Ks cut w,
  lawful_family bp → plev gn Hs → coarsened_par gn mcs Hs samples HCs Cs → length samples = length Hs →
  relabelled HCs Ks → bisected_all Ks → cut = cut_by (o_metric opts) (whole_nets HCs gn) (gpart Ks) →
  0 ≤ fst mx → 0 ≤ snd mx →
  match uncoarsen_par bp Ks Hs Cs opts mx cut w with
  | Ok ((Hs', c), _) => relabelled Hs Hs' ∧ bisected_all Hs' ∧ c = cut_by (o_metric opts) (whole_nets Hs gn) (gpart Hs') ∧ c ≤ cut
  | Err e => e = UB
  end.
Proof.
  intros bp gn mcs opts mx Hs samples HCs Cs Ks cut w Hbp HP Hcr Hsl HK HB Hc Hm0 Hm1.
  assert (wpe (λ e, e = UB) (uncoarsen_par bp Ks Hs Cs opts mx cut) (λ r, relabelled Hs (fst r) ∧ bisected_all (fst r) ∧
     snd r = cut_by (o_metric opts) (whole_nets Hs gn) (gpart (fst r)) ∧ snd r ≤ cut)) as Hw.
  { eapply wpe_uncoarsen_par; [done..|by left|done|]. intros Hs' c H1 H2 H3 H4. done. }
  specialize (Hw w). destruct (uncoarsen_par _ _ _ _ _ _ _ w) as [[[Hs' c] w']|e]; done.
Qed.
(** and not even that can happen if the limits allow every bisection. *)
Lemma C54_wide_limits_proof : ∀ bp gn mcs opts mx Hs samples HCs Cs Ks cut w,
  lawful_family bp → plev gn Hs → coarsened_par gn mcs Hs samples HCs Cs → length samples = length Hs →
  relabelled HCs Ks → bisected_all Ks → cut = cut_by (o_metric opts) (whole_nets HCs gn) (gpart Ks) →
  gweight Hs ≤ fst mx → gweight Hs ≤ snd mx →
  ∃ Hs' c w', uncoarsen_par bp Ks Hs Cs opts mx cut w = Ok ((Hs', c), w') ∧
    relabelled Hs Hs' ∧ bisected_all Hs' ∧ c = cut_by (o_metric opts) (whole_nets Hs gn) (gpart Hs') ∧ c ≤ cut.
Proof.
  intros bp gn mcs opts mx Hs samples HCs Cs Ks cut w Hbp HP Hcr Hsl HK HB Hc Hm0 Hm1.
  assert (0 ≤ gweight Hs). { apply zsum_nonneg. intros y (v & -> & Hv)%elem_of_list_fmap. pose proof (pl_weight _ _ HP v Hv). lia. }
  assert (wp (uncoarsen_par bp Ks Hs Cs opts mx cut) (λ r, relabelled Hs (fst r) ∧ bisected_all (fst r) ∧
     snd r = cut_by (o_metric opts) (whole_nets Hs gn) (gpart (fst r)) ∧ snd r ≤ cut)) as Hw.
  { eapply wpe_uncoarsen_par; [done..|lia|lia|by right|done|]. intros Hs' c H1 H2 H3 H4. done. }
  apply wp_run with (w := w) in Hw as ([Hs' c] & w' & Heq & Ho). exists Hs', c, w'. split; done.
Qed.

(** C55: the free vertices of all processors are put back.  Unless both limits are 0 this ends normally;
    every processor gets back exactly the vertices its contraction recorded, each in part 0 or 1; the
    returned weights, the same on all processors, are the exact weights of the parts; and if the parts are
    within the limits before, and the limits leave room for the heaviest free vertex, they are after. *)
Lemma C55_free_vertices_par_proof : ∀ Cs Hs mx w,
  Hs ≠ [] → length Cs = length Hs → (∀ H, H ∈ Hs → consistent H) → bisected_all Hs →
  (∀ t C H, Cs !! t = Some C → Hs !! t = Some H → NoDup ((v_id <$> h_verts H) ++ (fst <$> c_free C))) →
  (∀ f, f ∈ all_free Cs → 0 < snd f) →
  (∀ C, C ∈ Cs → c_local_free C = zsum (snd <$> c_free C)) → (∀ C, C ∈ Cs → c_global_free C = zsum (snd <$> all_free Cs)) →
  0 ≤ fst mx → 0 ≤ snd mx → (all_free Cs ≠ [] → 0 < fst mx + snd mx) →
  ∃ Hs' w', assign_free_vertices_par Cs Hs mx w = Ok ((Hs', (gpart_weight Hs' 0, gpart_weight Hs' 1)), w') ∧
    length Hs' = length Hs ∧
    (∀ t C H H', Cs !! t = Some C → Hs !! t = Some H → Hs' !! t = Some H' → free_back C H H') ∧
    ∀ b, (∀ f, f ∈ all_free Cs → snd f ≤ b) → 0 ≤ b → within (gpart_weight Hs 0, gpart_weight Hs 1) mx →
      gweight Hs + zsum (snd <$> all_free Cs) + b ≤ fst mx + snd mx → within (gpart_weight Hs' 0, gpart_weight Hs' 1) mx.
Proof.
  intros Cs Hs mx w Hne Hlen Hcons HB Hnd Hpos Hloc Hglob Hm0 Hm1 Hmx.
  set (Q := λ r : list hg * (Z * Z), snd r = (gpart_weight (fst r) 0, gpart_weight (fst r) 1) ∧ back_par Cs Hs (fst r) ∧
    ∀ b, (∀ f, f ∈ all_free Cs → snd f ≤ b) → 0 ≤ b → within (gpart_weight Hs 0, gpart_weight Hs 1) mx →
      gweight Hs + zsum (snd <$> all_free Cs) + b ≤ fst mx + snd mx → within (gpart_weight (fst r) 0, gpart_weight (fst r) 1) mx).
  assert (wp (assign_free_vertices_par Cs Hs mx) Q) as Hw.
  { apply wpe_assign_free_par; [done..| |].
    - right. intros HF. apply Hmx. intros He. apply HF. by rewrite He.
    - intros Hs' Hback Hbal. done. }
  apply wp_run with (w := w) in Hw as ([Hs' ws] & w' & Heq & Hws & [Hl Hback] & Hbal). cbn [fst snd] in *. subst ws.
  exists Hs', w'. split; [done|]. split; [done|]. split; [|done].
  intros t C H H' HC HH HH'. destruct (Hback t C H H' HC HH HH') as (vs & Hvs & Hpart & [R1 R2 R3 R4 R5 R6 R7 R8]).
  unfold free_back. split_and!; [done..|]. exists vs. done.
Qed.

(** C56, gathering: every processor gets a copy of the whole hypergraph (vertices with weights and nets,
    nets with exactly their vertices), for every order of arrival. *)
Lemma C56_gather_proof : ∀ gn Hs w, distributed gn Hs →
  ∃ Gs w', gather Hs w = Ok (Gs, w') ∧ length Gs = length Hs ∧ Forall (whole_copy Hs) Gs.
Proof.
  intros gn Hs w HD.
  assert (wp (gather Hs) (λ Gs, length Gs = length Hs ∧ Forall (whole_copy Hs) Gs)) as Hw.
  { eapply wpe_gather; [exact HD|]. intros Gs Hl HG. split; [done|]. apply Forall_lookup. intros t G Ht. by destruct (HG t G Ht). }
  apply wp_run with (w := w) in Hw as (Gs & w' & Heq & Ho). exists Gs, w'. split; done.
Qed.
(** If all nets have cost 1, a bisection has the same cut on the copy as on the whole. *)
Lemma C56_gathered_cut_proof : ∀ gn Hs G m σ, distributed gn Hs → whole_copy Hs G → (∀ n, n ∈ all_nets Hs → n_cost n = 1) →
  cut_by m (net_list G) σ = cut_by m (whole_nets Hs gn) σ.
Proof. exact whole_copy_cut. Qed.
(** C56, the best bisection: whatever bisections the processors have found of the copies, afterwards
    every vertex on every processor has the part it has in one of them, namely one with the smallest
    cut among those within the limits, if there is one; its cut is returned. *)
Lemma C56_best_shared_proof : ∀ gn Hs rs mx w, distributed gn Hs → Hs ≠ [] → length rs = length Hs →
  (∀ r, r ∈ rs → consistent (fst r) ∧ v_id <$> h_verts (fst r) ≡ₚ v_id <$> all_verts Hs) →
  ∃ Hs' r w', share_best Hs rs mx w = Ok ((Hs', snd r), w') ∧ r ∈ rs ∧ (∀ r', r' ∈ rs → score mx r ≤ score mx r') ∧
    relabelled Hs Hs' ∧ ∀ u, u ∈ v_id <$> all_verts Hs → gpart Hs' u = part_of (fst r) u.
Proof.
  intros gn Hs rs mx w HD Hne Hlen Hrs.
  assert (wp (share_best Hs rs mx) (λ o, ∃ r, snd o = snd r ∧ r ∈ rs ∧ (∀ r', r' ∈ rs → score mx r ≤ score mx r') ∧
    relabelled Hs (fst o) ∧ ∀ u, u ∈ v_id <$> all_verts Hs → gpart (fst o) u = part_of (fst r) u)) as Hw.
  { eapply wpe_share_best; [done..|]. intros r Hr Hmin. exists r. cbn [fst snd]. split_and!; [done..|apply labs_shape|].
    intros u Hu. by rewrite (labs_gpart gn). }
  apply wp_run with (w := w) in Hw as ([Hs' c] & w' & Heq & r & Hc & Hr & Hm & HS & Hp). cbn [fst snd] in *. subst c. exists Hs', r, w'. done.
Qed.

(** C57: multilevel bisection of a range of vertices on every processor.  Exactly the vertices of the
    ranges get one of the two labels, nothing else changes, and every processor returns the exact
    weights of its two sides.  The only errors that can end it are undefined behaviour (of the
    refinement, see C50_out_of_range_refuted, or of a division if both limits are 0), and, with random samples
    only, the assertion that a processor has vertices. *)
Lemma C57_multilevel_bisection_par_partial_proof : ∀ bp gn jobs opts mx low high w,
  lawful_family bp → distributed gn (fst <$> jobs) → 0 ≤ gn < 2147483648 → jobs ≠ [] → (∀ j, j ∈ jobs → job_ok j) →
  (∀ v, v ∈ all_verts (fst <$> jobs) → v_id v ≠ -1 ∧ 0 < v_weight v) →
  gweight (fst <$> jobs) < long_max → Z.of_nat (length (all_verts (fst <$> jobs))) ≤ 2 ^ 53 →
  0 ≤ fst mx → 0 ≤ snd mx → 0 < o_sample_size opts →
  match bisect_multilevel_par bp jobs opts mx (low, high) w with
  | Ok (rs, _) => Forall2 (job_done low high) jobs rs
  | Err e => e = UB ∨ e = Abort ∧ o_sampling opts = SampRandom
  end.
Proof.
  intros bp gn jobs opts mx low high w Hbp HD Hgn Hne Hok Hv Htot Hnum Hm0 Hm1 HS.
  assert (wpe (λ e, e = UB ∨ e = Abort ∧ o_sampling opts = SampRandom) (bisect_multilevel_par bp jobs opts mx (low, high))
    (λ rs, Forall2 (job_done low high) jobs rs)) as Hw.
  { assert (∀ v, v ∈ all_verts (fst <$> jobs) → v_id v ≠ -1) by (intros v Hv'; by apply Hv).
    assert (∀ v, v ∈ all_verts (fst <$> jobs) → 0 < v_weight v) by (intros v Hv'; by apply Hv).
    eapply wpe_bisect_multilevel_par; [done..| |by left; left|done].
    destruct (o_sampling opts); [left; by right|by right]. }
  specialize (Hw w). destruct (bisect_multilevel_par _ _ _ _ _ w) as [[rs w']|e]; done.
Qed.
(** With label propagation and limits that allow every bisection it always ends normally. *)
Lemma C57_wide_limits_partial_proof : ∀ bp gn jobs opts mx low high w,
  lawful_family bp → distributed gn (fst <$> jobs) → 0 ≤ gn < 2147483648 → jobs ≠ [] → (∀ j, j ∈ jobs → job_ok j) →
  (∀ v, v ∈ all_verts (fst <$> jobs) → v_id v ≠ -1 ∧ 0 < v_weight v) →
  gweight (fst <$> jobs) < long_max → Z.of_nat (length (all_verts (fst <$> jobs))) ≤ 2 ^ 53 →
  gweight (fst <$> jobs) ≤ fst mx → gweight (fst <$> jobs) ≤ snd mx → 0 < o_sample_size opts → o_sampling opts = SampLP →
  ∃ rs w', bisect_multilevel_par bp jobs opts mx (low, high) w = Ok (rs, w') ∧ Forall2 (job_done low high) jobs rs.
Proof.
  intros bp gn jobs opts mx low high w Hbp HD Hgn Hne Hok Hv Htot Hnum Hm0 Hm1 HS Hlp.
  assert (0 ≤ gweight (fst <$> jobs)). { apply zsum_nonneg. intros y (v & -> & Hv')%elem_of_list_fmap. destruct (Hv v Hv'). lia. }
  assert (wp (bisect_multilevel_par bp jobs opts mx (low, high)) (λ rs, Forall2 (job_done low high) jobs rs)) as Hw.
  { assert (∀ v, v ∈ all_verts (fst <$> jobs) → v_id v ≠ -1) by (intros v Hv'; by apply Hv).
    assert (∀ v, v ∈ all_verts (fst <$> jobs) → 0 < v_weight v) by (intros v Hv'; by apply Hv).
    eapply wpe_bisect_multilevel_par; [done..|lia|lia|done| |by right|done].
    right. by rewrite Hlp. }
  apply wp_run with (w := w) in Hw as (rs & w' & Heq & Ho). exists rs, w'. done.
Qed.

(** ** examples: eight vertices and five nets over two processors *)
Definition q0 : hg := mk_hg 8 5 [Vertex 0 [0] 1 (-1); Vertex 1 [0; 1] 2 (-1); Vertex 2 [1; 2] 1 (-1); Vertex 3 [2] 1 (-1)]
  [Net 0 [0; 1] 1 3; Net 1 [1; 2] 1 2; Net 2 [2; 3] 1 3] 6.
Definition q1 : hg := mk_hg 8 5 [Vertex 4 [0; 3] 1 (-1); Vertex 5 [2; 4] 1 (-1); Vertex 6 [3; 4] 2 (-1); Vertex 7 [4] 1 (-1)]
  [Net 0 [4] 1 3; Net 2 [5] 1 3; Net 3 [4; 6] 1 2; Net 4 [5; 6; 7] 1 3] 7.
Definition qs : list hg := [q0; q1].
Definition q_opts : options := Opts 1 2 4 2 3 10 20 2 LambdaMinusOne BisMultilevel SampLP.
Definition q_samples : list (list Z) := [[1]; [0]].
Lemma qs_distributed : distributed 5 qs.
Proof.
  split.
  - intros H HH. repeat (apply elem_of_cons in HH as [->|HH]; [apply mk_hg_consistent_dec; vm_compute; reflexivity|]). by apply elem_of_nil in HH.
  - intros H HH. repeat (apply elem_of_cons in HH as [->|HH]; [reflexivity|]). by apply elem_of_nil in HH.
  - apply (bool_decide_eq_true_1 _). vm_compute. reflexivity.
  - assert (Forall (λ n, 0 ≤ n_id n < 5) (all_nets qs)) as HF by (apply (bool_decide_eq_true_1 _); vm_compute; reflexivity).
    rewrite Forall_forall in HF. exact HF.
  - assert (Forall (λ n, Forall (λ n', n_id n = n_id n' → n_cost n = n_cost n') (all_nets qs)) (all_nets qs)) as HF
      by (apply (bool_decide_eq_true_1 _); vm_compute; reflexivity).
    rewrite Forall_forall in HF. intros n n' Hn Hn'. specialize (HF n Hn). simpl in HF. rewrite Forall_forall in HF. by apply HF.
Qed.
Lemma qs_plev : plev 5 qs.
Proof.
  split.
  - apply qs_distributed.
  - done.
  - lia.
  - apply Forall_forall, (bool_decide_eq_true_1 _). vm_compute. reflexivity.
  - apply Forall_forall, (bool_decide_eq_true_1 _). vm_compute. reflexivity.
  - apply Forall_forall, (bool_decide_eq_true_1 _). vm_compute. reflexivity.
  - vm_compute. reflexivity.
  - vm_compute. discriminate.
  - apply Forall_forall, (bool_decide_eq_true_1 _). vm_compute. reflexivity.
Qed.
(** [qs] is coarsened around vertices 1 and 4; the coarse vertices 1, 3 on processor 0 and 4, 5, 7 on
    processor 1 get the parts of [q_parts]; uncoarsening gives vertex 0 and 2 the part of 1, and 6 the
    part of 4; with refinement the cut falls from 3 to 2. *)
Definition q_parts (u : Z) : Z := if decide (u = 1 ∨ u = 7) then 1 else 0.
Definition q_coarse : list (hg * contraction) :=
  match coarsen_samples blocks qs (replicate 2 new_contraction) q_samples q_opts w0 with Ok (r, _) => r | Err _ => [] end.
Definition q_labelled : list hg := (λ H, lab H q_parts) <$> (fst <$> q_coarse).
Lemma q_coarse_ok : coarsened_par 5 2 qs q_samples (fst <$> q_coarse) (snd <$> q_coarse).
Proof.
  assert (samples_of (o_sample_size q_opts) qs q_samples) as HS by (repeat constructor; simpl; try lia; set_solver by lia).
  destruct (C46_coarsening_proof blocks 5 qs q_samples q_opts w0 blocks_lawful ltac:(lia) ltac:(done) qs_distributed ltac:(done) HS) as (res & w' & Heq & Hok).
  change (length qs) with 2%nat in Heq. unfold q_coarse. rewrite Heq. exact Hok.
Qed.

Definition parts_of (Hs : list hg) : list (list Z) := (λ H, v_part <$> h_verts H) <$> Hs.
Example C54_projection_example : distributed 5 qs ∧ coarsened_par 5 2 qs q_samples (fst <$> q_coarse) (snd <$> q_coarse) ∧
  (∀ t K HC C, q_labelled !! t = Some K → (fst <$> q_coarse) !! t = Some HC → (snd <$> q_coarse) !! t = Some C →
     consistent K ∧ v_id <$> h_verts K ≡ₚ (v_id <$> h_verts HC) ++ (fst <$> c_free C)) ∧
  match uncoarsen_world q_labelled qs (snd <$> q_coarse) w0 with
  | Ok (r, _) => parts_of r = [[1; 1; 1; 0]; [0; 0; 0; 1]] | Err _ => False end.
Proof.
  split; [apply qs_distributed|]. split; [apply q_coarse_ok|]. split; [|vm_compute; reflexivity].
  intros t K HC C HK HHC HCt. unfold q_labelled in HK. apply list_lookup_fmap_Some in HK as (H & HH & ->). apply list_lookup_fmap_Some in HH as (x & Hx & ->).
  apply list_lookup_fmap_Some in HHC as (x1 & Hx1 & ->). apply list_lookup_fmap_Some in HCt as (x2 & Hx2 & ->).
  assert (x1 = x) as -> by congruence. assert (x2 = x) as -> by congruence. split.
  - eapply same_shape_consistent; [apply lab_shape|]. apply (di_local _ _ (cr_dist _ _ _ _ _ _ q_coarse_ok)). apply elem_of_list_fmap_1. by eapply elem_of_list_lookup_2.
  - assert (Forall (λ x : hg * contraction, c_free (snd x) = []) q_coarse) as HF by (apply (bool_decide_eq_true_1 _); vm_compute; reflexivity).
    rewrite Forall_forall in HF. rewrite (HF x) by (by eapply elem_of_list_lookup_2). simpl. rewrite app_nil_r, <-list_fmap_compose. done.
Qed.
Example C54_example : plev 5 qs ∧ relabelled (fst <$> q_coarse) q_labelled ∧ Forall (λ v, v_part v = 0 ∨ v_part v = 1) (all_verts q_labelled) ∧
  cut_by LambdaMinusOne (whole_nets (fst <$> q_coarse) 5) (gpart q_labelled) = 3 ∧
  match uncoarsen_par blocks q_labelled qs (snd <$> q_coarse) q_opts (6, 6) 3 w0 with
  | Ok ((r, c), _) => parts_of r = [[0; 1; 1; 1]; [0; 1; 0; 1]] ∧ c = 2 | Err _ => False end.
Proof.
  split; [apply qs_plev|]. split; [apply labs_shape|].
  split; [apply (bool_decide_eq_true_1 _); vm_compute; reflexivity|]. split; [vm_compute; reflexivity|]. vm_compute. split; reflexivity.
Qed.

(** three free vertices, of weights 3, 2 and 4, are put back: that of weight 4 goes to part 1 *)
Definition q_bis : list hg := (λ H, lab H (λ u, if decide (u < 4) then 0 else 1)) <$> qs.
Definition q_free : list contraction := [Contr [] [] [(10, 3)] 3 9; Contr [] [] [(11, 2); (12, 4)] 6 9].
Example C55_example : (∀ H, H ∈ q_bis → consistent H) ∧ Forall (λ v, v_part v = 0 ∨ v_part v = 1) (all_verts q_bis) ∧
  (∀ t C H, q_free !! t = Some C → q_bis !! t = Some H → NoDup ((v_id <$> h_verts H) ++ (fst <$> c_free C))) ∧
  within (gpart_weight q_bis 0, gpart_weight q_bis 1) (12, 12) ∧ gweight q_bis + zsum (snd <$> all_free q_free) + 4 ≤ 12 + 12 ∧
  match assign_free_vertices_par q_free q_bis (12, 12) w0 with
  | Ok ((r, ws), _) => parts_of r = [[0; 0; 0; 0; 0]; [1; 1; 1; 1; 1; 0]] ∧ ws = (10, 9) | Err _ => False end.
Proof.
  assert (distributed 5 q_bis) as HD by (eapply same_shapes_distributed; [apply labs_shape|apply qs_distributed]).
  split; [apply (di_local _ _ HD)|]. split; [apply (bool_decide_eq_true_1 _); vm_compute; reflexivity|]. split.
  { intros [|[|t]] C H HC HH; [| |done].
    - injection HC as <-. injection HH as <-. apply (bool_decide_eq_true_1 _). vm_compute. reflexivity.
    - injection HC as <-. injection HH as <-. apply (bool_decide_eq_true_1 _). vm_compute. reflexivity. }
  split; [split; vm_compute; discriminate|]. split; [vm_compute; discriminate|]. vm_compute. split; reflexivity.
Qed.

(** C58, refuted: in the gathered hypergraph a net that the processor did not hold before has recorded
    size 0 although it has vertices, and the sequential coarsening that follows computes with a
    negative share of its cost. *)
Lemma C58_gathered_sizes_refuted_proof : ∃ Hs Gs w' G n,
  distributed 5 Hs ∧ (∀ n, n ∈ all_nets Hs → n_gsize n = gsize Hs (n_id n)) ∧
  gather Hs w0 = Ok (Gs, w') ∧ G ∈ Gs ∧ n ∈ h_nets G ∧ n_verts n = [4; 6] ∧ n_gsize n = 0 ∧
  d_lt (scaled_cost n) d_zero = true.
Proof.
  assert (match gather qs w0 with
    | Ok (G :: _, _) => bool_decide (Net 3 [4; 6] 1 0 ∈ h_nets G) | _ => false end = true) as Hb by (vm_compute; reflexivity).
  destruct (gather qs w0) as [[[|G Gs] w']|] eqn:Heq; [done| |done]. apply bool_decide_eq_true in Hb.
  exists qs, (G :: Gs), w', G, (Net 3 [4; 6] 1 0). split; [apply qs_distributed|].
  split; [intros n Hn; by apply (pl_nets _ _ qs_plev)|]. split; [exact Heq|]. split; [by left|]. split; [done|]. split; [done|]. split; [done|].
  vm_compute. reflexivity.
Qed.
(** C58, what holds: the nets a processor held before keep their recorded sizes, all others have 0. *)
Lemma C58_gathered_sizes_partial_proof : ∀ gn Hs w, distributed gn Hs →
  (∀ n, n ∈ all_nets Hs → n_gsize n = gsize Hs (n_id n)) →
  ∃ Gs w', gather Hs w = Ok (Gs, w') ∧ length Gs = length Hs ∧
    ∀ t H G n, Hs !! t = Some H → Gs !! t = Some G → n ∈ h_nets G →
      n_gsize n = if decide (n_id n ∈ n_id <$> h_nets H) then Z.of_nat (length (n_verts n)) else 0.
Proof.
  intros gn Hs w HD Hgs.
  assert (wp (gather Hs) (λ Gs, length Gs = length Hs ∧ ∀ t H G n, Hs !! t = Some H → Gs !! t = Some G → n ∈ h_nets G →
      n_gsize n = if decide (n_id n ∈ n_id <$> h_nets H) then Z.of_nat (length (n_verts n)) else 0)) as Hw.
  { eapply wpe_gather; [exact HD|]. intros Gs Hl HG. split; [done|]. intros t H G n HH HGt Hn.
    destruct (HG t G HGt) as [HW (H' & HH' & _ & _ & Hsz)]. assert (H' = H) as -> by congruence.
    destruct (Hsz n Hn) as [(n0 & Hn0 & Hid & Hs0)|[Hnin Hs0]].
    - rewrite decide_True by (rewrite <-Hid; by apply elem_of_list_fmap_1). rewrite <-Hs0, Hgs by (apply all_nets_elem; exists H; split; [by eapply elem_of_list_lookup_2|done]).
      unfold gsize. rewrite Hid. by rewrite (wc_pins _ _ HW n Hn).
    - by rewrite decide_False. }
  apply wp_run with (w := w) in Hw as (Gs & w' & Heq & Ho). exists Gs, w'. split; done.
Qed.
Example C56_example : distributed 5 qs ∧ Forall (λ n, n_cost n = 1 ∧ n_gsize n = gsize qs (n_id n)) (all_nets qs) ∧
  match gather qs (tape_of [3; 1; 2]) with
  | Ok (r, _) => (λ G, ((λ n, (n_id n, n_verts n, n_gsize n)) <$> h_nets G)) <$> r =
      [[(0, [0; 1; 4], 3); (1, [1; 2], 2); (2, [2; 3; 5], 3); (3, [4; 6], 0); (4, [7; 6; 5], 0)];
       [(0, [4; 0; 1], 3); (2, [5; 2; 3], 3); (3, [4; 6], 2); (4, [5; 6; 7], 3); (1, [1; 2], 0)]]
  | Err _ => False end.
Proof. split; [apply qs_distributed|]. split; [apply (bool_decide_eq_true_1 _); vm_compute; reflexivity|]. vm_compute. reflexivity. Qed.

(** processor 0 has a bisection of cut 1 that is too heavy, processor 1 one of cut 2 within the limits *)
Definition q_found : list (hg * Z) :=
  match gather qs w0 with
  | Ok ([G0; G1], _) => [(lab G0 (λ u, if decide (u = 0) then 1 else 0), 1); (lab G1 (λ u, if decide (u < 4) then 0 else 1), 2)]
  | _ => [] end.
Example C56_best_example : length q_found = length qs ∧
  (∀ r, r ∈ q_found → consistent (fst r) ∧ v_id <$> h_verts (fst r) ≡ₚ v_id <$> all_verts qs) ∧
  match share_best qs q_found (6, 6) w0 with
  | Ok ((r, c), _) => parts_of r = [[0; 0; 0; 0]; [1; 1; 1; 1]] ∧ c = 2 | Err _ => False end.
Proof.
  split; [vm_compute; reflexivity|]. split; [|vm_compute; split; reflexivity]. unfold q_found.
  destruct (C56_gather_proof 5 qs w0 qs_distributed) as (Gs & w' & Heq & Hl & HF). rewrite Heq.
  destruct Gs as [|G0 [|G1 [|G2 Gs]]]; try (exfalso; clear -Hl; simpl in Hl; lia).
  assert (∀ G g, whole_copy qs G → consistent (lab G g) ∧ v_id <$> h_verts (lab G g) ≡ₚ v_id <$> all_verts qs) as Hlab.
  { intros G g HW. split; [eapply same_shape_consistent; [apply lab_shape|apply HW]|].
    unfold lab. simpl. rewrite <-list_fmap_compose. change (v_id ∘ (λ v, set_part (g (v_id v)) v)) with v_id.
    pose proof (whole_copy_idw qs G HW) as Hp. change v_id with (fst ∘ idw). by rewrite !list_fmap_compose, Hp. }
  apply Forall_cons in HF as [HG0 HF]. apply Forall_cons in HF as [HG1 _].
  intros r [->|[->|Hr]%elem_of_cons]%elem_of_cons; [by apply Hlab|by apply Hlab|]. by apply elem_of_nil in Hr.
Qed.

(** vertices 0 to 3 on processor 0 and 5 to 7 on processor 1 are labelled 4 or 5 *)
Definition q_jobs : list (hg * (Z * Z)) := [(q0, (0, 4)); (q1, (1, 4))].
Definition shown (rs : list (hg * (Z * Z))) : list (list Z * (Z * Z)) := (λ x, (v_part <$> h_verts (fst x), snd x)) <$> rs.
Example C57_example : distributed 5 (fst <$> q_jobs) ∧ (∀ j, j ∈ q_jobs → job_ok j) ∧
  Forall (λ v, v_id v ≠ -1 ∧ 0 < v_weight v) (all_verts (fst <$> q_jobs)) ∧ gweight (fst <$> q_jobs) < long_max ∧
  Z.of_nat (length (all_verts (fst <$> q_jobs))) ≤ 2 ^ 53 ∧ gweight (fst <$> q_jobs) ≤ 10 ∧
  match bisect_multilevel_par blocks q_jobs q_opts (6, 6) (4, 5) w0 with
  | Ok (rs, _) => shown rs = [([5; 5; 4; 4], (2, 3)); ([-1; 4; 4; 4], (4, 0))] | Err _ => False end.
Proof.
  split; [apply qs_distributed|]. split.
  { intros j [->|[->|Hj]%elem_of_cons]%elem_of_cons; [by split; vm_compute|by split; vm_compute|]. by apply elem_of_nil in Hj. }
  split; [apply (bool_decide_eq_true_1 _); vm_compute; reflexivity|]. split; [vm_compute; reflexivity|]. split; [vm_compute; discriminate|].
  split; [vm_compute; discriminate|]. vm_compute. reflexivity.
Qed.

(** C57, refuted: with random samples an empty range on one processor (here on the second) ends multilevel
    bisection with a failed assertion, whenever there are enough vertices to coarsen. *)
Definition q_all : hg := mk_hg 8 5
  [Vertex 0 [0] 1 (-1); Vertex 1 [0; 1] 2 (-1); Vertex 2 [1; 2] 1 (-1); Vertex 3 [2] 1 (-1);
   Vertex 4 [0; 3] 1 (-1); Vertex 5 [2; 4] 1 (-1); Vertex 6 [3; 4] 2 (-1)]
  [Net 0 [0; 1; 4] 1 3; Net 1 [1; 2] 1 2; Net 2 [2; 3; 5] 1 3; Net 3 [4; 6] 1 2; Net 4 [5; 6] 1 3] 12.
Definition q_rest : hg := mk_hg 8 5 [Vertex 7 [4] 1 (-1)] [Net 4 [7] 1 3] 1.
Lemma C57_empty_range_refuted_proof : ∃ jobs opts w,
  distributed 5 (fst <$> jobs) ∧ (∀ j, j ∈ jobs → job_ok j) ∧ (∀ v, v ∈ all_verts (fst <$> jobs) → v_id v ≠ -1 ∧ 0 < v_weight v) ∧
  gweight (fst <$> jobs) ≤ 10 ∧ 0 < o_sample_size opts ∧
  bisect_multilevel_par blocks jobs opts (10, 10) (4, 5) w = Err Abort.
Proof.
  set (jobs := [(q_all, (0, 7)); (q_rest, (0, 0))]). set (opts := Opts 1 2 4 2 3 10 20 2 LambdaMinusOne BisMultilevel SampRandom).
  exists jobs, opts, w0. split.
  { split.
    - intros H HH. repeat (apply elem_of_cons in HH as [->|HH]; [apply mk_hg_consistent_dec; vm_compute; reflexivity|]). by apply elem_of_nil in HH.
    - intros H HH. repeat (apply elem_of_cons in HH as [->|HH]; [reflexivity|]). by apply elem_of_nil in HH.
    - apply (bool_decide_eq_true_1 _). vm_compute. reflexivity.
    - assert (Forall (λ n, 0 ≤ n_id n < 5) (all_nets (fst <$> jobs))) as HF by (apply (bool_decide_eq_true_1 _); vm_compute; reflexivity).
      rewrite Forall_forall in HF. exact HF.
    - assert (Forall (λ n, Forall (λ n', n_id n = n_id n' → n_cost n = n_cost n') (all_nets (fst <$> jobs))) (all_nets (fst <$> jobs))) as HF
        by (apply (bool_decide_eq_true_1 _); vm_compute; reflexivity).
      rewrite Forall_forall in HF. intros n n' Hn Hn'. specialize (HF n Hn). simpl in HF. rewrite Forall_forall in HF. by apply HF. }
  split.
  { intros j [->|[->|Hj]%elem_of_cons]%elem_of_cons; [by split; vm_compute|by split; vm_compute|]. by apply elem_of_nil in Hj. }
  split; [apply Forall_forall, (bool_decide_eq_true_1 _); vm_compute; reflexivity|]. split; [vm_compute; discriminate|]. split; [done|].
  vm_compute. reflexivity.
Qed.
