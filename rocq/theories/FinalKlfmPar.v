(** The property lemmas C50: the whole parallel refinement. *)
From Verif Require Export KparPass FinalKpar.

Lemma refined_ready bp E mx gn m Hs0 rs c : lawful_family bp → 0 ≤ gn → distributed gn Hs0 →
  kready E mx Hs0 (fst <$> rs) → c ≤ cut_by m (whole_nets Hs0 gn) (gpart Hs0) → (∀ r, r ∈ rs → snd r = c) →
  cut_by m (whole_nets Hs0 gn) (gpart (kn_H <$> (fst <$> rs))) = c → refined gn m Hs0 rs.
Proof.
  intros Hbp Hgn HD [HSh HB HC Hsrt Hloc _] Hle Hall Hcut. unfold refined. rewrite <-list_fmap_compose in *. unfold compose in *.
  set (Hs' := (λ r : kin * Z, kn_H (fst r)) <$> rs) in *.
  assert (cut_by m (whole_nets Hs' gn) (gpart Hs') = c) as ->. { rewrite <-Hcut. symmetry. by apply cut_by_ext. }
  split_and!; try done.
  - intros r Hr. apply HC. apply elem_of_list_fmap. eauto.
  - intros r Hr. apply Hloc. apply elem_of_list_fmap. eauto.
Qed.

(** C50, what holds in all cases: the refinement ends, with no outcome but a result or an access out of
    range.  If it gives a result, it is the same value on all processors, the true cut of the resulting
    bisection and not larger than the cut before; the counts over all processors are exact, so are the
    local counts; nothing but parts and orders inside nets has changed.  For every order of messages,
    random choices and options; the given cut is the true one or "not given".  The running weights [ws]
    may be anything.  Missing: accesses out of range do occur, see the refutation. *)
Lemma C50_klfm_par_partial_proof (bp : Z → Z → partitioning) gn Hs Cs ws mx opts cut w :
  lawful_family bp → 0 ≤ gn → distributed gn Hs → Hs ≠ [] → (∀ H, H ∈ Hs → klfm_pre H) →
  (∀ v, v ∈ all_verts Hs → v_part v = 0 ∨ v_part v = 1) →
  (∀ n, n ∈ all_nets Hs → n_gsize n = gsize Hs (n_id n)) →
  Cs = (λ H, (λ n, (gcount Hs (n_id n) 0, gcount Hs (n_id n) 1)) <$> h_nets H) <$> Hs →
  cut = cut_by (o_metric opts) (whole_nets Hs gn) (gpart Hs) ∨ cut = long_max →
  match klfm_par bp Hs Cs ws mx opts cut w with
  | Ok (rs, _) => length rs = length Hs ∧ refined gn (o_metric opts) Hs rs
  | Err e => e = UB
  end.
Proof.
  intros Hbp Hgn HD Hne Hpre HB Hgs HC Hcut.
  assert (wpe (λ e, e = UB) (klfm_par bp Hs Cs ws mx opts cut) (λ rs, length rs = length Hs ∧ refined gn (o_metric opts) Hs rs)) as Hw.
  { eapply (wpe_klfm_par bp Hbp gn Hgn (λ e, e = UB) (o_metric opts) mx (o_send_moves opts) Hs HD Hne Hpre Hgs); [by left|done..|by left|].
    intros rs c Hl Hkr Hle Hall Hc. split; [done|]. by eapply refined_ready. }
  specialize (Hw w). destruct (klfm_par _ _ _ _ _ _ _ _) as [[rs w']|e]; exact Hw.
Qed.

(** C50 without any error: no local piece of a net is empty, the given weights are the true ones and
    within the limits, and either there is one processor or the limits cannot be exceeded at all (then
    no move is ever rejected).  The weights returned are then the true ones and within the limits. *)
Lemma C50_klfm_par_safe_partial_proof (bp : Z → Z → partitioning) gn Hs Cs ws mx opts cut w :
  lawful_family bp → 0 ≤ gn → distributed gn Hs → Hs ≠ [] → (∀ H, H ∈ Hs → klfm_pre H) →
  (∀ v, v ∈ all_verts Hs → v_part v = 0 ∨ v_part v = 1) →
  (∀ n, n ∈ all_nets Hs → n_gsize n = gsize Hs (n_id n) ∧ n_verts n ≠ []) →
  Cs = (λ H, (λ n, (gcount Hs (n_id n) 0, gcount Hs (n_id n) 1)) <$> h_nets H) <$> Hs →
  cut = cut_by (o_metric opts) (whole_nets Hs gn) (gpart Hs) ∨ cut = long_max →
  ws = (gpart_weight Hs 0, gpart_weight Hs 1) → within ws mx →
  length Hs = 1%nat ∨ gweight Hs ≤ fst mx ∧ gweight Hs ≤ snd mx →
  ∃ rs w', klfm_par bp Hs Cs ws mx opts cut w = Ok (rs, w') ∧ length rs = length Hs ∧ refined gn (o_metric opts) Hs rs ∧
    let Hs' := (λ r : kin * Z, kn_H (fst r)) <$> rs in
    (∀ r, r ∈ rs → kn_ws (fst r) = (gpart_weight Hs' 0, gpart_weight Hs' 1)) ∧ within (gpart_weight Hs' 0, gpart_weight Hs' 1) mx.
Proof.
  intros Hbp Hgn HD Hne Hpre HB Hgs HC Hcut Hws Hin Hlim.
  assert (wp (klfm_par bp Hs Cs ws mx opts cut) (λ rs, length rs = length Hs ∧ refined gn (o_metric opts) Hs rs ∧
    let Hs' := (λ r : kin * Z, kn_H (fst r)) <$> rs in
    (∀ r, r ∈ rs → kn_ws (fst r) = (gpart_weight Hs' 0, gpart_weight Hs' 1)) ∧ within (gpart_weight Hs' 0, gpart_weight Hs' 1) mx)) as Hw.
  { eapply (wpe_klfm_par bp Hbp gn Hgn (λ _, False) (o_metric opts) mx (o_send_moves opts) Hs HD Hne Hpre); [by intros; apply Hgs| |done..| |].
    - right. split; [intros; by apply Hgs|]. exact Hlim.
    - right. done.
    - intros rs c Hl Hkr Hle Hall Hc. split; [done|]. split; [by eapply refined_ready|]. destruct (kr_w _ _ _ _ Hkr) as [[]|[Hws' Hin']].
      rewrite <-list_fmap_compose in *. unfold compose in *. split; [|exact Hin']. intros r Hr. apply Hws'. apply elem_of_list_fmap. eauto. }
  apply wp_run with (w := w) in Hw as (rs & w' & Heq & Ho). exists rs, w'. split; done.
Qed.

(** two processors, nets 1 and 2 shared *)
Definition ub0 : hg := mk_hg 8 5 [Vertex 0 [0] 10 0; Vertex 1 [0; 1] 3 1; Vertex 2 [0; 2] 2 1; Vertex 3 [0] 1 1]
  [Net 0 [0; 1; 2; 3] 10 4; Net 1 [1] 2 2; Net 2 [2] 1 2] 6.
Definition ub1 : hg := mk_hg 8 5 [Vertex 4 [3] 1 1; Vertex 5 [4] 1 1; Vertex 6 [1; 3] 10 0; Vertex 7 [2; 4] 10 0]
  [Net 1 [6] 2 2; Net 2 [7] 1 2; Net 3 [4; 6] 5 2; Net 4 [5; 7] 4 2] 6.
Definition ub_counts : list (list (Z * Z)) := [[(1, 3); (1, 1); (1, 1)]; [(1, 1); (1, 1); (1, 1); (1, 1)]].
Definition three_passes : options := Opts 1 1 1 1 1 3 1 1 LambdaMinusOne BisRandom SampRandom.

Lemma ub_ready : distributed 5 [ub0; ub1] ∧ (∀ H, H ∈ [ub0; ub1] → klfm_pre H) ∧
  (∀ v, v ∈ all_verts [ub0; ub1] → v_part v = 0 ∨ v_part v = 1) ∧
  (∀ n, n ∈ all_nets [ub0; ub1] → n_gsize n = gsize [ub0; ub1] (n_id n) ∧ n_verts n ≠ []) ∧
  ub_counts = (λ H, (λ n, (gcount [ub0; ub1] (n_id n) 0, gcount [ub0; ub1] (n_id n) 1)) <$> h_nets H) <$> [ub0; ub1].
Proof.
  assert (∀ H, H ∈ [ub0; ub1] → consistent H) as Hc.
  { intros H HH. repeat (apply elem_of_cons in HH as [->|HH]; [apply mk_hg_consistent_dec; vm_compute; reflexivity|]). by apply elem_of_nil in HH. }
  split; [|split; [|split; [|split]]].
  - split.
    + exact Hc.
    + intros H HH. repeat (apply elem_of_cons in HH as [->|HH]; [reflexivity|]). by apply elem_of_nil in HH.
    + apply (bool_decide_eq_true_1 _). vm_compute. reflexivity.
    + assert (Forall (λ n, 0 ≤ n_id n < 5) (all_nets [ub0; ub1])) as HF by (apply (bool_decide_eq_true_1 _); vm_compute; reflexivity).
      rewrite Forall_forall in HF. exact HF.
    + assert (Forall (λ n, Forall (λ n', n_id n = n_id n' → n_cost n = n_cost n') (all_nets [ub0; ub1])) (all_nets [ub0; ub1])) as HF
        by (apply (bool_decide_eq_true_1 _); vm_compute; reflexivity).
      rewrite Forall_forall in HF. intros n n' Hn Hn'. specialize (HF n Hn). simpl in HF. rewrite Forall_forall in HF. by apply HF.
  - assert (Forall (λ H, Forall (λ v, v_id v ≠ -1 ∧ 0 ≤ v_weight v) (h_verts H) ∧ Forall (λ n, 0 ≤ n_cost n) (h_nets H) ∧ zsum (n_cost <$> h_nets H) < 2 ^ 62) [ub0; ub1]) as HF
      by (apply (bool_decide_eq_true_1 _); vm_compute; reflexivity).
    rewrite Forall_forall in HF. intros H HH. destruct (HF H HH) as (H1 & H2 & H3). pose proof (proj1 (Forall_forall _ _) H1) as H1'. pose proof (proj1 (Forall_forall _ _) H2) as H2'. split; [by apply Hc|..].
    + intros v Hv. by apply H1'.
    + exact H2'.
    + exact H3.
    + intros v Hv. by apply H1'.
  - assert (Forall (λ v, v_part v = 0 ∨ v_part v = 1) (all_verts [ub0; ub1])) as HF by (apply (bool_decide_eq_true_1 _); vm_compute; reflexivity).
    rewrite Forall_forall in HF. exact HF.
  - assert (Forall (λ n, n_gsize n = gsize [ub0; ub1] (n_id n) ∧ n_verts n ≠ []) (all_nets [ub0; ub1])) as HF by (apply (bool_decide_eq_true_1 _); vm_compute; reflexivity).
    rewrite Forall_forall in HF. exact HF.
  - vm_compute. reflexivity.
Qed.
(** with roomy limits the cut goes from 22 to 0 *)
Example C50_example : lawful_family blocks ∧ distributed 5 [ub0; ub1] ∧
  (30, 8) = (gpart_weight [ub0; ub1] 0, gpart_weight [ub0; ub1] 1) ∧ within (30, 8) (38, 38) ∧ gweight [ub0; ub1] = 38 ∧
  lambda_size (whole_nets [ub0; ub1] 5) (gpart [ub0; ub1]) = 22 ∧
  match klfm_par blocks [ub0; ub1] ub_counts (30, 8) (38, 38) three_passes long_max w0 with
  | Ok (rs, _) => (λ r : kin * Z, (v_part <$> h_verts (kn_H (fst r)), kn_ws (fst r), snd r)) <$> rs =
      [([0; 0; 0; 0], (38, 0), 0); ([0; 0; 0; 0], (38, 0), 0)]
  | Err _ => False
  end.
Proof.
  split; [apply blocks_lawful|]. split; [apply ub_ready|]. split; [vm_compute; reflexivity|]. split; [split; simpl; lia|].
  split; [vm_compute; reflexivity|]. split; vm_compute; reflexivity.
Qed.

(** C50 does not hold in general: taking back a rejected move restores counts and parts but not the
    gains of the neighbours.  With limits 33 and 20 processor 0 makes three moves next to vertex 0 that
    are all rejected; each lowers the gain of vertex 0 by 10, from 10 to -20, although no net of its
    processor changes, and the bucket for -20 does not exist. *)
Lemma C50_out_of_range_refuted_proof :
  ∃ Hs Cs (ws mx : Z * Z) opts w, distributed 5 Hs ∧ (∀ H, H ∈ Hs → klfm_pre H) ∧
    (∀ v, v ∈ all_verts Hs → v_part v = 0 ∨ v_part v = 1) ∧
    (∀ n, n ∈ all_nets Hs → n_gsize n = gsize Hs (n_id n) ∧ n_verts n ≠ []) ∧
    Cs = (λ H, (λ n, (gcount Hs (n_id n) 0, gcount Hs (n_id n) 1)) <$> h_nets H) <$> Hs ∧
    ws = (gpart_weight Hs 0, gpart_weight Hs 1) ∧ within ws mx ∧
    klfm_par blocks Hs Cs ws mx opts long_max w = Err UB.
Proof.
  exists [ub0; ub1], ub_counts, (30, 8), (33, 20), three_passes, w0. destruct ub_ready as (H1 & H2 & H3 & H4 & H5).
  split_and!; try done.
Qed.
