(** Final forms of the properties of the gain structure and of KLFM (C12-C17). *)
From Verif Require Export KlfmProof Examples.

(** ** C12: gain buckets *)

(** Calls on one [gain_buckets] object. *)
Inductive bop := BInsert (id gain : Z) | BRemove (id gain : Z) | BNext | BGainNext.
Definition bop_ok (S : Z) (o : bop) : Prop :=
  match o with BInsert _ g | BRemove _ g => -S ≤ g ≤ S | _ => True end.

(** Run the calls; the results of BRemove (0/1), BNext and BGainNext are collected. *)
Fixpoint run_bops (ops : list bop) (b : gbuckets) : M (list Z * gbuckets) :=
  match ops with
  | [] => ret ([], b)
  | BInsert id g :: ops => b' <- gb_insert b id g ;; run_bops ops b'
  | BRemove id g :: ops => r <- gb_remove b id g ;; rs <- run_bops ops (snd r) ;;
                           ret ((if fst r then 1 else 0) :: fst rs, snd rs)
  | BNext :: ops => r <- gb_next b ;; rs <- run_bops ops (snd r) ;; ret (fst r :: fst rs, snd rs)
  | BGainNext :: ops => r <- gb_gain_next b ;; rs <- run_bops ops (snd r) ;; ret (fst r :: fst rs, snd rs)
  end.

(** What a priority structure holding the pairs [X] may answer. *)
Inductive pq_spec : gset (Z * Z) → list bop → list Z → Prop :=
  | pq_nil X : pq_spec X [] []
  | pq_insert X id g ops rs : pq_spec ({[(id, g)]} ∪ X) ops rs → pq_spec X (BInsert id g :: ops) rs
  | pq_remove X id g ops rs : pq_spec (X ∖ {[(id, g)]}) ops rs →
      pq_spec X (BRemove id g :: ops) ((if decide ((id, g) ∈ X) then 1 else 0) :: rs)
  | pq_next_empty ops rs : pq_spec ∅ ops rs → pq_spec ∅ (BNext :: ops) (-1 :: rs)
  | pq_next X id g ops rs : (id, g) ∈ X → (∀ id' g', (id', g') ∈ X → g' ≤ g) →
      pq_spec X ops rs → pq_spec X (BNext :: ops) (id :: rs)
  | pq_gain_empty ops rs : pq_spec ∅ ops rs → pq_spec ∅ (BGainNext :: ops) (long_min :: rs)
  | pq_gain X id g ops rs : (id, g) ∈ X → (∀ id' g', (id', g') ∈ X → g' ≤ g) →
      pq_spec X ops rs → pq_spec X (BGainNext :: ops) (g :: rs).

(** The initialisation done by gain_structure::init_: insert the items into fresh buckets
    for gains in [-S, S], then set the largest index present from an upper bound [m]. *)
Definition init_buckets (S : Z) (items : list (Z * Z)) (m : Z) : M gbuckets :=
  b <- foldM (λ b it, gb_insert b (fst it) (snd it)) items (gb_new (2 * S + 1)) ;;
  ret (set_max_present b (gain_to_index b m)).

Lemma wpe_init_buckets E S items m (Q : gbuckets → Prop) :
  0 ≤ S → (∀ id g, (id, g) ∈ items → -S ≤ g ≤ m) → -S ≤ m ≤ S →
  (∀ b, gb_ok S b (λ id g, (id, g) ∈ (list_to_set items : gset (Z * Z))) → Q b) → wpe E (init_buckets S items m) Q.
Proof.
  intros HS Hit Hm HQ. apply wpe_bind.
  eapply (wpe_foldM E _ (λ ds b, gb_rep S b (λ id g, (id, g) ∈ ds) ∧ gb_max b = 2 * S + 1)).
  - split; [|apply gb_new_max]. eapply gb_rep_ext; [|by apply gb_new_rep]. set_solver.
  - intros ds [id g] ts b Heq [HR Hmx]. specialize (Hit id g ltac:(rewrite Heq; set_solver)).
    simpl. eapply wpe_gb_insert_init; [done|done|lia|]. intros b' HR' Hmx'. split; [|done].
    eapply gb_rep_ext; [|exact HR']. intros id' g'. unfold T_add. rewrite elem_of_app, elem_of_list_singleton. naive_solver.
  - intros b [HR Hmx]. apply wpe_ret, HQ. rewrite (gb_rep_g2i _ _ _ _ HR).
    eapply (gb_ok_ext S _ (λ id g, (id, g) ∈ items)); [intros id g; by rewrite elem_of_list_to_set|].
    split; simpl; [by destruct HR| |lia]. intros id g Hin. specialize (Hit id g Hin). lia.
Qed.

Lemma wpe_run_bops E S ops b X :
  gb_ok S b (λ id g, (id, g) ∈ X) → Forall (bop_ok S) ops →
  wpe E (run_bops ops b) (λ r, pq_spec X ops (fst r)).
Proof.
  revert b X. induction ops as [|o ops IH]; intros b X HK Hok; [apply wpe_ret; constructor|].
  apply Forall_cons in Hok as [Ho Hok]. destruct o as [id g|id g| |]; simpl in *.
  - apply wpe_bind. eapply wpe_gb_insert; [done|done|]. intros b' HK'.
    eapply wpe_mono; [apply (IH b' ({[(id, g)]} ∪ X)); [|done]|].
    + eapply gb_ok_ext; [|exact HK']. intros id' g'. unfold T_add. set_solver.
    + intros r Hr. by constructor.
  - apply wpe_bind. eapply wpe_gb_remove; [done|done|]. intros f b' HK' Hf. simpl. apply wpe_bind.
    eapply wpe_mono; [apply (IH b' (X ∖ {[(id, g)]})); [|done]|].
    + eapply gb_ok_ext; [|exact HK']. intros id' g'. unfold T_del. set_solver.
    + intros r Hr. apply wpe_ret. simpl.
      assert ((if f then 1 else 0) = if decide ((id, g) ∈ X) then 1 else 0) as ->.
      { destruct f; [rewrite decide_True by tauto|rewrite decide_False by naive_solver]; done. }
      by constructor.
  - apply wpe_bind. eapply wpe_gb_next; [done|..].
    + intros b' HK' He. simpl. apply wpe_bind. eapply wpe_mono; [by apply (IH b' X)|]. intros r Hr. apply wpe_ret. simpl.
      assert (X = ∅) as -> by (apply set_eq; intros [id g]; set_solver). by constructor.
    + intros x g b' HK' Hx Hm. simpl. apply wpe_bind. eapply wpe_mono; [by apply (IH b' X)|]. intros r Hr. apply wpe_ret. simpl.
      by eapply (pq_next X x g).
  - apply wpe_bind. eapply wpe_gb_gain_next; [done|..].
    + intros b' HK' He. simpl. apply wpe_bind. eapply wpe_mono; [by apply (IH b' X)|]. intros r Hr. apply wpe_ret. simpl.
      assert (X = ∅) as -> by (apply set_eq; intros [id g]; set_solver). by constructor.
    + intros x g b' HK' Hx Hm. simpl. apply wpe_bind. eapply wpe_mono; [by apply (IH b' X)|]. intros r Hr. apply wpe_ret. simpl.
      by eapply (pq_gain X x g).
Qed.

(** C12.  From the state set up by initialisation, every history of insertions, removals and
    queries with gains in range runs without undefined behaviour, and its answers are those of
    a set of (id, gain) pairs from which an element of maximal gain is reported; -1 (LONG_MIN
    for the gain) means empty. *)
Lemma C12_priority_structure_proof : ∀ S items m ops w,
  0 ≤ S → (∀ id g, (id, g) ∈ items → -S ≤ g ≤ m) → -S ≤ m ≤ S → Forall (bop_ok S) ops →
  ∃ rs b w', (b <- init_buckets S items m ;; run_bops ops b) w = Ok ((rs, b), w') ∧
    pq_spec (list_to_set items) ops rs.
Proof.
  intros S items m ops w HS Hit Hm Hok.
  assert (wp (b <- init_buckets S items m ;; run_bops ops b) (λ r, pq_spec (list_to_set items) ops (fst r))) as Hw.
  { apply wpe_bind. eapply wpe_init_buckets; [done..|]. intros b HK. by apply (wpe_run_bops _ S). }
  apply wp_run with (w := w) in Hw as ([rs b] & w' & Heq & Hs). eauto.
Qed.

(** a run with ties, an emptied top bucket and a re-insertion above the current maximum *)
Definition C12_items : list (Z * Z) := [(5, 1); (7, -2); (8, 1)].
Definition C12_ops : list bop :=
  [BNext; BRemove 5 1; BNext; BRemove 8 1; BGainNext; BInsert 9 3; BNext; BRemove 9 3; BRemove 7 (-2); BNext; BGainNext].
Example C12_example :
  (∀ id g, (id, g) ∈ C12_items → -3 ≤ g ≤ 1) ∧ Forall (bop_ok 3) C12_ops ∧
  match (b <- init_buckets 3 C12_items 1 ;; run_bops C12_ops b) w0 with
  | Ok ((rs, _), _) => rs = [8; 1; 8; 1; -2; 9; 1; 1; -1; long_min]
  | Err _ => False
  end.
Proof.
  split_and!.
  - assert (Forall (λ it : Z * Z, -3 ≤ it.2 ≤ 1) C12_items) as HF by (apply (bool_decide_eq_true_1 _); vm_compute; reflexivity).
    intros id g Hin. rewrite Forall_forall in HF. apply (HF _ Hin).
  - repeat constructor; simpl; lia.
  - vm_compute. reflexivity.
Qed.

(** ** C13: gains *)

(** Calls on a gain_structure object. *)
Inductive gop := GMove (v : Z) | GRemove (v : Z) | GNext (p : Z) | GGainNext (p : Z) | GPartNext (x0 x1 : Z).
Definition gop_id (o : gop) : option Z := match o with GMove v | GRemove v => Some v | _ => None end.
Definition gop_move (o : gop) : option Z := match o with GMove v => Some v | _ => None end.
Definition run_gop (o : gop) (G : gstruct) : M gstruct :=
  match o with
  | GMove v => gs_move G v
  | GRemove v => gs_remove G v
  | GNext p => r <- gs_next G p ;; ret (snd r)
  | GGainNext p => r <- gs_gain_next G p ;; ret (snd r)
  | GPartNext x0 x1 => r <- part_next G x0 x1 ;; ret (snd r)
  end.
(** vertices moved or removed so far *)
Definition locked_by (ops : list gop) : list Z := omap gop_id ops.
Definition moved_by (ops : list gop) : list Z := omap gop_move ops.
(** every vertex is moved or removed at most once, and exists; queries name a side *)
Definition gops_ok (H : hg) (ops : list gop) : Prop :=
  NoDup (locked_by ops) ∧ (∀ u, u ∈ locked_by ops → u ∈ v_id <$> h_verts H) ∧
  Forall (λ o, match o with GNext p | GGainNext p => p = 0 ∨ p = 1 | _ => True end) ops.
Definition gs_run (H : hg) (C : list (Z * Z)) (ops : list gop) : M gstruct :=
  G <- gs_new H C ;; foldM (λ G o, run_gop o G) ops G.

(** decrease of the cut obtained by moving [v] *)
Definition cut_decrease (H : hg) (v : vertex) : Z := cut_net H - flip_cut H v.

Record grun (H : hg) (ops : list gop) (S : Z) (G : gstruct) : Prop := {
  gn_k : kinv H (g_H G) (g_C G) (pws (g_H G));
  gn_costs : costs_ok S (g_H G);
  gn_gs : gs_inv S (list_to_set (locked_by ops)) (gain_fun (g_H G) (g_C G)) G;
  gn_parts : ∀ u, part_of (g_H G) u = if decide (u ∈ moved_by ops) then 1 - part_of H u else part_of H u;
}.

Lemma moved_by_locked ops u : u ∈ moved_by ops → u ∈ locked_by ops.
Proof.
  unfold moved_by, locked_by. rewrite !elem_of_list_omap. intros (o & Ho & Hu). exists o. split; [done|]. by destruct o.
Qed.

Lemma wpe_part_next_any E S L F G x0 x1 (Q : Z * gstruct → Prop) :
  gs_inv S L F G → no_sentinel (g_H G) →
  (∀ G' p, gs_inv S L F G' → same_gs G G' → Q (p, G')) →
  wpe E (part_next G x0 x1) Q.
Proof.
  intros HI Hns HQ. destruct (decide (Exists (λ v, v_id v ∉ L) (h_verts (g_H G)))) as [He|He].
  - apply Exists_exists in He as (v & Hv & HL). eapply wpe_part_next; [done..|]. intros G' p u HI' Hs _ _ _. by apply HQ.
  - apply wpe_bind. eapply wpe_gs_next; [done|by left|..].
    2: { intros G1 v _ _ Hv _ HL _. exfalso. apply He, Exists_exists. eauto. }
    intros G1 HI1 Hs1 He1. apply wpe_bind. pose proof Hs1 as (HH1 & _). eapply wpe_gs_next; [done|by right|..].
    2: { intros G2 v _ _ Hv _ HL _. exfalso. apply He, Exists_exists. simpl in Hv; rewrite HH1 in Hv. eauto. }
    intros G2 HI2 Hs2 He2. simpl. apply wpe_ret, HQ; [done|]. by eapply same_gs_trans.
Qed.

Lemma wpe_gs_run E H C ops (Q : gstruct → Prop) :
  klfm_pre H → bisected H → part_sorted H → exact_counts H C → gops_ok H ops →
  (∀ S G, grun H ops S G → Q G) → wpe E (gs_run H C ops) Q.
Proof.
  intros Hpre HB HS HCt (Hnd & Hin & Hok) HQ. pose proof (kp_cons _ Hpre) as HC.
  apply (part_sorted_iff H) in HS; [|done..].
  apply wpe_bind. apply wpe_gs_new_pre; [done|done|by eapply exact_counts_length|].
  intros S G0 Hcs HI HH HCC.
  eapply (wpe_foldM E _ (λ ds G, grun H ds S G)).
  - split; rewrite ?HH, ?HCC; try done. split; done || apply same_shape_refl.
  - intros ds o ts G Heq [HK Hcs1 HI1 Hp1]. pose proof HK as [Hs1 HC1 HB1 HS1 HCt1 _].
    assert (Hlk : locked_by (ds ++ [o]) = locked_by ds ++ locked_by [o]) by apply omap_app.
    assert (Hmv : moved_by (ds ++ [o]) = moved_by ds ++ moved_by [o]) by apply omap_app.
    assert (Hlks : locked_by ops = locked_by ds ++ locked_by [o] ++ locked_by ts).
    { rewrite Heq. unfold locked_by. rewrite !omap_app. change (o :: ts) with ([o] ++ ts). by rewrite omap_app. }
    assert (no_sentinel (g_H G)) as Hns by (apply (klfm_pre_shape _ _ Hpre Hs1)).
    assert (∀ G', gs_inv S (list_to_set (locked_by ds)) (gain_fun (g_H G) (g_C G)) G' → same_gs G G' →
      locked_by [o] = [] → moved_by [o] = [] → grun H (ds ++ [o]) S G') as Hq.
    { intros G' HI' (HH' & HC' & _) Hl0 Hm0. split; rewrite ?HH', ?HC', ?Hlk, ?Hmv, ?Hl0, ?Hm0, ?app_nil_r; done. }
    assert (∀ v, locked_by [o] = [v] → v ∉ locked_by ds ∧ ∃ x, x ∈ h_verts (g_H G) ∧ v_id x = v) as Hx.
    { intros v Hl. rewrite Hl in Hlks. split.
      - rewrite Hlks in Hnd. apply NoDup_app in Hnd as (_ & Hnd & _). intros Hd. apply (Hnd v Hd). set_solver.
      - apply vids_elem. rewrite <-(same_shape_vids _ _ Hs1). apply Hin. rewrite Hlks. set_solver. }
    destruct o as [v|v|p|p|x0 x1]; simpl.
    + destruct (Hx v eq_refl) as (Hvn & x & Hxv & <-).
      eapply wpe_gs_move; [exact HI1|done|done|done|done|by rewrite elem_of_list_to_set|].
      intros G' HM HCt' HI'. split.
      * by eapply kinv_moved.
      * eapply same_shape_costs_ok; [apply HM|done].
      * rewrite Hlk, list_to_set_app_L. simpl. by replace (list_to_set (locked_by ds) ∪ ({[v_id x]} ∪ ∅)) with ({[v_id x]} ∪ list_to_set (locked_by ds) : gset Z) by set_solver.
      * intros u. rewrite (moved_part_of x (g_H G) (g_H G')) by done. rewrite Hmv. simpl.
        assert (v_id x ∉ moved_by ds) as Hvm by (intros Hm; by apply Hvn, moved_by_locked).
        destruct (decide (u = v_id x)) as [->|Hne].
        -- rewrite decide_True by set_solver. rewrite <-(part_of_elem (g_H G) x) by (done || apply (co_vid _ HC1)).
           rewrite Hp1. by rewrite decide_False.
        -- rewrite Hp1. destruct (decide (u ∈ moved_by ds)); [rewrite (decide_True (P := u ∈ _ ++ _)) by set_solver|rewrite (decide_False (P := u ∈ _ ++ _)) by set_solver]; done.
    + destruct (Hx v eq_refl) as (Hvn & x & Hxv & <-).
      eapply wpe_gs_remove; [exact HI1|done|by rewrite elem_of_list_to_set|].
      intros G' HI' HH' HC'. split; rewrite ?HH', ?HC'; try done.
      * rewrite Hlk, list_to_set_app_L. simpl. by replace (list_to_set (locked_by ds) ∪ ({[v_id x]} ∪ ∅)) with ({[v_id x]} ∪ list_to_set (locked_by ds) : gset Z) by set_solver.
      * rewrite Hmv. simpl. by rewrite app_nil_r.
    + assert (p = 0 ∨ p = 1) as Hp by (rewrite Forall_forall in Hok; apply (Hok (GNext p)); rewrite Heq; set_solver).
      apply wpe_bind. eapply wpe_gs_next; [exact HI1|done|..]; intros; apply wpe_ret; by apply Hq.
    + assert (p = 0 ∨ p = 1) as Hp by (rewrite Forall_forall in Hok; apply (Hok (GGainNext p)); rewrite Heq; set_solver).
      apply wpe_bind. eapply wpe_gs_gain_next; [exact HI1|done|..]; intros; apply wpe_ret; by apply Hq.
    + apply wpe_bind. eapply wpe_part_next_any; [exact HI1|done|..]; intros; apply wpe_ret; by apply Hq.
  - intros G HG. by eapply HQ.
Qed.

(** C13.  After any history of moves and removals of distinct vertices (and any queries in
    between), starting from a bisection with part-sorted nets, nothing undefined has happened;
    exactly the moved vertices have changed part; the counts are exact; every vertex not yet
    moved or removed has its exact cut decrease recorded; and next / gain_next of a side report
    -1 exactly if the side has no such vertex, else one with the largest decrease. *)
Lemma C13_gains_exact_proof : ∀ H C ops w,
  klfm_pre H → bisected H → part_sorted H → exact_counts H C → gops_ok H ops →
  ∃ G w', gs_run H C ops w = Ok (G, w') ∧
    same_shape H (g_H G) ∧ consistent (g_H G) ∧ exact_counts (g_H G) (g_C G) ∧ part_sorted (g_H G) ∧
    (∀ u, part_of (g_H G) u = if decide (u ∈ moved_by ops) then 1 - part_of H u else part_of H u) ∧
    (∀ i v, h_verts (g_H G) !! i = Some v → v_id v ∉ locked_by ops →
       g_gains G !! i = Some (cut_decrease (g_H G) v)) ∧
    ∀ p w2, p = 0 ∨ p = 1 →
      let free v := v ∈ h_verts (g_H G) ∧ v_part v = p ∧ v_id v ∉ locked_by ops in
      ∃ r G1 w3 g G2 w4, gs_next G p w2 = Ok ((r, G1), w3) ∧ gs_gain_next G p w2 = Ok ((g, G2), w4) ∧
        (r = -1 ↔ ∀ v, ¬ free v) ∧
        (r ≠ -1 → ∃ v, free v ∧ v_id v = r ∧ g = cut_decrease (g_H G) v ∧
          ∀ u, free u → cut_decrease (g_H G) u ≤ g).
Proof.
  intros H C ops w Hpre HB HS HCt Hok.
  assert (wp (gs_run H C ops) (λ G, ∃ S, grun H ops S G)) as Hw by (eapply wpe_gs_run; eauto).
  apply wp_run with (w := w) in Hw as (G & w' & Heq & S & [HK Hcs HI Hp]). pose proof HK as [Hs HC HB' HS' HCt' _].
  exists G, w'. split_and!; try done.
  - by apply part_sorted_iff.
  - intros i v Hi HL. rewrite (gi_gains _ _ _ _ HI i v Hi). rewrite decide_False by (by rewrite elem_of_list_to_set).
    f_equal. apply gain_fun_flip; try done. by eapply elem_of_list_lookup_2.
  - intros p w2 Hp2 free. pose proof (klfm_pre_shape _ _ Hpre Hs) as [_ Hids _ _ _].
    assert (∀ v, free v → gain_fun (g_H G) (g_C G) v = cut_decrease (g_H G) v) as Hgain.
    { intros v (Hv & _). by apply gain_fun_flip. }
    assert (wp (gs_next G p) (λ r, (r.1 = -1 ∧ ∀ v, ¬ free v) ∨ (∃ v, free v ∧ v_id v = r.1 ∧ ∀ u, free u → gain_fun (g_H G) (g_C G) u ≤ gain_fun (g_H G) (g_C G) v))) as Hw.
    { eapply wpe_gs_next; [exact HI|done|..].
      - intros G' _ _ He. left. split; [done|]. intros v (Hv & Hvp & HL). specialize (He v Hv Hvp). by rewrite elem_of_list_to_set in He.
      - intros G' v _ _ Hv Hvp HL Hm. right. rewrite elem_of_list_to_set in HL. exists v. split_and!; [done|done|].
        intros u (Hu & Hup & HuL). apply Hm; [done|done|]. by rewrite elem_of_list_to_set. }
    assert (wp (gs_gain_next G p) (λ r, (∀ v, ¬ free v) ∨ (∃ v, free v ∧ r.1 = gain_fun (g_H G) (g_C G) v ∧ ∀ u, free u → gain_fun (g_H G) (g_C G) u ≤ gain_fun (g_H G) (g_C G) v))) as Hw'.
    { eapply wpe_gs_gain_next; [exact HI|done|..].
      - intros G' _ _ He. left. intros v (Hv & Hvp & HL). specialize (He v Hv Hvp). by rewrite elem_of_list_to_set in He.
      - intros G' v _ _ Hv Hvp HL Hm. right. rewrite elem_of_list_to_set in HL. exists v. split_and!; [done|done|].
        intros u (Hu & Hup & HuL). apply Hm; [done|done|]. by rewrite elem_of_list_to_set. }
    apply wp_run with (w := w2) in Hw as ([r G1] & w3 & Heq1 & Hr). apply wp_run with (w := w2) in Hw' as ([g G2] & w4 & Heq2 & Hg).
    simpl in *. exists r, G1, w3, g, G2, w4. split; [done|]. split; [done|].
    destruct Hr as [[-> Hno]|(v & Hf & <- & Hm)].
    + split; [done|]. by intros [].
    + assert (v_id v ≠ -1) by (apply Hids, Hf). split.
      * split; [done|]. intros Hno. by destruct (Hno v).
      * intros _. exists v. destruct Hg as [Hno|(v' & Hf' & -> & Hm')]; [by destruct (Hno v)|].
        assert (gain_fun (g_H G) (g_C G) v' = gain_fun (g_H G) (g_C G) v) as -> by (apply Z.le_antisymm; auto).
        split_and!; [done|done|by apply Hgain|]. intros u Hu. rewrite <-Hgain by done. auto.
Qed.

(** a bisected hypergraph with part-sorted nets, its counts, and a history *)
Definition kl_verts : list vertex :=
  [Vertex 0 [10; 12] 1 0; Vertex 1 [10; 11; 12] 2 0; Vertex 2 [11; 14] 1 1; Vertex 3 [11; 13] 3 1; Vertex 4 [14; 13] 1 0].
Definition kl_nets : list net :=
  [Net 10 [0; 1] 1 2; Net 11 [1; 3; 2] 2 3; Net 12 [1; 0] 3 2; Net 13 [4; 3] 1 2; Net 14 [4; 2] 4 2].
Definition klH : hg := mk_hg 5 5 kl_verts kl_nets 11.
Definition klC : list (Z * Z) := [(2, 0); (1, 2); (2, 0); (1, 1); (1, 1)].
Lemma klfm_pre_dec H : consistent H →
  bool_decide (Forall (λ v, v_id v ≠ -1 ∧ 0 ≤ v_weight v) (h_verts H) ∧ Forall (λ n, 0 ≤ n_cost n) (h_nets H) ∧
    zsum (n_cost <$> h_nets H) < 2 ^ 62) = true → klfm_pre H.
Proof.
  intros HC (Hv & Hn & Ht)%bool_decide_eq_true. rewrite Forall_forall in Hv. rewrite Forall_forall in Hn.
  split; try done; intros v Hin; by apply Hv.
Qed.
Lemma bisected_dec H : bool_decide (Forall (λ v, v_part v = 0 ∨ v_part v = 1) (h_verts H)) = true → bisected H.
Proof. intros Hv%bool_decide_eq_true. by rewrite Forall_forall in Hv. Qed.
Lemma klH_pre : klfm_pre klH.
Proof. apply klfm_pre_dec; [apply mk_hg_consistent_dec|]; vm_compute; reflexivity. Qed.
Lemma klH_bisected : bisected klH.
Proof. apply bisected_dec. vm_compute. reflexivity. Qed.
Lemma klC_exact : exact_counts klH klC.
Proof. unfold exact_counts. apply (bool_decide_eq_true_1 _). vm_compute. reflexivity. Qed.
Lemma part_sorted_dec H :
  bool_decide (Forall (λ n, n_verts n = filter (λ u, part_of H u = 0) (n_verts n) ++ filter (λ u, part_of H u = 1) (n_verts n)) (h_nets H)) = true →
  part_sorted H.
Proof.
  intros HF%bool_decide_eq_true n Hn. rewrite Forall_forall in HF. eexists _, _. split; [by apply HF|].
  split; intros u [? _]%elem_of_list_filter; done.
Qed.
Lemma klH_sorted : part_sorted klH.
Proof. apply part_sorted_dec. vm_compute. reflexivity. Qed.
Definition kl_ops : list gop := [GNext 0; GMove 4; GPartNext 3 0; GRemove 2; GGainNext 1; GMove 1].
Example C13_example : klfm_pre klH ∧ bisected klH ∧ part_sorted klH ∧ exact_counts klH klC ∧ gops_ok klH kl_ops ∧
  match gs_run klH klC kl_ops w0 with
  | Ok (G, _) => g_gains G = [4; long_min; long_min; -1 - 2; long_min]
  | Err _ => False end.
Proof.
  split_and!; [exact klH_pre|exact klH_bisected|exact klH_sorted|exact klC_exact| |vm_compute; reflexivity].
  split_and!.
  - apply (bool_decide_eq_true_1 _). vm_compute. reflexivity.
  - assert (Forall (λ u, u ∈ v_id <$> h_verts klH) (locked_by kl_ops)) as HF by (apply (bool_decide_eq_true_1 _); vm_compute; reflexivity).
    rewrite Forall_forall in HF. exact HF.
  - unfold kl_ops. repeat (apply Forall_cons; split; [by auto|]). by apply Forall_nil.
Qed.

(** ** C14-C16 *)

(** C14.  A pass from a bisection with part-sorted nets, exact counts and exact weights
    terminates without undefined behaviour.  Only parts and orders inside nets change, counts
    and weights stay exact; the returned value is the cut of the result and not larger than
    before; no part ends above both its limit and its previous weight, so a balanced bisection
    stays balanced. *)
Lemma C14_klfm_pass_proof : ∀ H C mx0 mx1 opts w,
  klfm_pre H → bisected H → part_sorted H → exact_counts H C →
  ∃ o w', klfm_pass H C (cut_net H) (pws H) (mx0, mx1) opts w = Ok (o, w') ∧
    same_shape H (ko_H o) ∧ consistent (ko_H o) ∧ bisected (ko_H o) ∧ part_sorted (ko_H o) ∧
    exact_counts (ko_H o) (ko_C o) ∧ ko_ws o = pws (ko_H o) ∧
    ko_cut o = cut_net (ko_H o) ∧ ko_cut o ≤ cut_net H ∧
    part_weight (ko_H o) 0 ≤ Z.max mx0 (part_weight H 0) ∧
    part_weight (ko_H o) 1 ≤ Z.max mx1 (part_weight H 1) ∧
    (part_weight H 0 ≤ mx0 → part_weight H 1 ≤ mx1 →
     part_weight (ko_H o) 0 ≤ mx0 ∧ part_weight (ko_H o) 1 ≤ mx1).
Proof.
  intros H C mx0 mx1 opts w Hpre HB HS HCt. pose proof (kp_cons _ Hpre) as HC. apply (part_sorted_iff H) in HS; [|done..].
  match goal with |- ∃ o w', _ ∧ ?P => assert (wp (klfm_pass H C (cut_net H) (pws H) (mx0, mx1) opts) (λ o, P)) as Hw end.
  { apply wpe_klfm_pass; [done..|]. intros o [Hs HC' HB' HS' HCt' Hws] Hc Hle Hlim.
    pose proof (Hlim 0 (or_introl eq_refl)) as Hl0. pose proof (Hlim 1 (or_intror eq_refl)) as Hl1. unfold sel in *. simpl in *.
    split_and!; try done; [by apply part_sorted_iff|]. lia. }
  apply wp_run with (w := w) in Hw as (o & w' & Heq & Ho). exists o, w'. split; done.
Qed.

Definition kl_opts : options := Opts 5 3 4 2 3 10 20 2 CutNet BisMultilevel SampLP.
Example C14_example :
  klfm_pre klH ∧ bisected klH ∧ part_sorted klH ∧ exact_counts klH klC ∧ part_weight klH 0 ≤ 5 ∧ part_weight klH 1 ≤ 5 ∧
  match klfm_pass klH klC (cut_net klH) (pws klH) (5, 5) kl_opts w0 with
  | Ok (o, _) => (cut_net klH, ko_cut o, ko_ws o) = (7, 2, (3, 5)) | Err _ => False end.
Proof.
  split_and!; [exact klH_pre|exact klH_bisected|exact klH_sorted|exact klC_exact|..]; vm_compute; done.
Qed.

(** C15.  KLFM, called with the true cut or with LONG_MAX for "unknown", terminates without
    undefined behaviour; the returned value is the cut of the resulting bisection; no part ends
    above both its limit and its previous weight; from a balanced bisection the cut does not
    increase and the result is balanced. *)
Lemma C15_klfm_proof : ∀ H C mx0 mx1 opts cut w,
  klfm_pre H → bisected H → exact_counts H C → cut = long_max ∨ cut = cut_net H →
  ∃ o w', klfm H C (pws H) (mx0, mx1) opts cut w = Ok (o, w') ∧
    same_shape H (ko_H o) ∧ consistent (ko_H o) ∧ bisected (ko_H o) ∧ exact_counts (ko_H o) (ko_C o) ∧
    ko_cut o = cut_net (ko_H o) ∧
    part_weight (ko_H o) 0 ≤ Z.max mx0 (part_weight H 0) ∧
    part_weight (ko_H o) 1 ≤ Z.max mx1 (part_weight H 1) ∧
    (part_weight H 0 ≤ mx0 → part_weight H 1 ≤ mx1 →
     ko_cut o ≤ cut_net H ∧ part_weight (ko_H o) 0 ≤ mx0 ∧ part_weight (ko_H o) 1 ≤ mx1).
Proof.
  intros H C mx0 mx1 opts cut w Hpre HB HCt Hcut.
  match goal with |- ∃ o w', _ ∧ ?P => assert (wp (klfm H C (pws H) (mx0, mx1) opts cut) (λ o, P)) as Hw end.
  { apply wpe_klfm; [done..|]. intros o [Hs HC' HB' HS' HCt' Hws] Hc Hle Hlim.
    pose proof (Hlim 0 (or_introl eq_refl)) as Hl0. pose proof (Hlim 1 (or_intror eq_refl)) as Hl1. unfold sel in *. simpl in *.
    split_and!; try done. intros Hb0 Hb1. specialize (Hle Hb0 Hb1). lia. }
  apply wp_run with (w := w) in Hw as (o & w' & Heq & Ho). exists o, w'. split; done.
Qed.

(** an unbalanced start: 6 > 5 in part 0 *)
Definition kl2_verts : list vertex :=
  [Vertex 0 [10; 12] 1 0; Vertex 1 [10; 11; 12] 2 0; Vertex 2 [11; 14] 1 1; Vertex 3 [11; 13] 3 0; Vertex 4 [14; 13] 1 1].
Definition kl2H : hg := mk_hg 5 5 kl2_verts
  [Net 10 [0; 1] 1 2; Net 11 [1; 3; 2] 2 3; Net 12 [1; 0] 3 2; Net 13 [3; 4] 1 2; Net 14 [4; 2] 4 2] 11.
Definition kl2C : list (Z * Z) := [(2, 0); (2, 1); (2, 0); (1, 1); (0, 2)].
Lemma kl2H_pre : klfm_pre kl2H.
Proof. apply klfm_pre_dec; [apply mk_hg_consistent_dec|]; vm_compute; reflexivity. Qed.
Lemma kl2H_bisected : bisected kl2H.
Proof. apply bisected_dec. vm_compute. reflexivity. Qed.
Example C15_example :
  klfm_pre kl2H ∧ bisected kl2H ∧ exact_counts kl2H kl2C ∧ pws kl2H = (6, 2) ∧
  match klfm kl2H kl2C (pws kl2H) (5, 5) kl_opts long_max w0 with
  | Ok (o, _) => (cut_net kl2H, ko_cut o, ko_ws o) = (3, 2, (3, 5)) | Err _ => False end.
Proof.
  split_and!; [exact kl2H_pre|exact kl2H_bisected|..]; [unfold exact_counts; apply (bool_decide_eq_true_1 _)|..]; vm_compute; done.
Qed.

(** C16.  make_balanced on a bisection with part-sorted nets and exact counts and weights.
    [over] is the part it treats as overfull (1 if part 1 is above its limit, else 0), [other]
    the other one.  It terminates without undefined behaviour; the returned value is the cut of
    the result; vertices only move from [over] to [other]; [other] does not exceed its limit
    because of it; and if [over] is still above its limit, then no vertex left in it fits into
    [other]. *)
Lemma C16_make_balanced_proof : ∀ H C mx0 mx1 w,
  klfm_pre H → bisected H → part_sorted H → exact_counts H C →
  let over := if decide (part_weight H 1 > mx1) then 1 else 0 in
  let other := 1 - over in
  let limit p := if decide (p = 0) then mx0 else mx1 in
  ∃ o w', make_balanced H C (cut_net H) (pws H) (mx0, mx1) w = Ok (o, w') ∧
    same_shape H (ko_H o) ∧ consistent (ko_H o) ∧ bisected (ko_H o) ∧ part_sorted (ko_H o) ∧
    exact_counts (ko_H o) (ko_C o) ∧ ko_ws o = pws (ko_H o) ∧ ko_cut o = cut_net (ko_H o) ∧
    (∀ u, part_of (ko_H o) u = part_of H u ∨ (part_of H u = over ∧ part_of (ko_H o) u = other)) ∧
    part_weight (ko_H o) other ≤ Z.max (limit other) (part_weight H other) ∧
    part_weight (ko_H o) over ≤ part_weight H over ∧
    (limit over < part_weight (ko_H o) over → ∀ v, v ∈ h_verts (ko_H o) → v_part v = over →
       limit other < part_weight (ko_H o) other + v_weight v).
Proof.
  intros H C mx0 mx1 w Hpre HB HS HCt over other limit. pose proof (kp_cons _ Hpre) as HC. apply (part_sorted_iff H) in HS; [|done..].
  match goal with |- ∃ o w', _ ∧ ?P => assert (wp (make_balanced H C (cut_net H) (pws H) (mx0, mx1)) (λ o, P)) as Hw end.
  { apply wpe_make_balanced; [done..|]. simpl. fold over. intros o [Hs HC' HB' HS' HCt' Hws] Hc Hl1 Hl2 Hfrom Htr.
    split_and!; try done. by apply part_sorted_iff. }
  apply wp_run with (w := w) in Hw as (o & w' & Heq & Ho). exists o, w'. split; done.
Qed.

Example C16_example :
  klfm_pre kl2H ∧ bisected kl2H ∧ part_sorted kl2H ∧ exact_counts kl2H kl2C ∧ pws kl2H = (6, 2) ∧
  match make_balanced kl2H kl2C (cut_net kl2H) (pws kl2H) (5, 3) w0 with
  | Ok (o, _) => (ko_cut o, ko_ws o) = (7, (5, 3)) | Err _ => False end.
Proof.
  split_and!; [exact kl2H_pre|exact kl2H_bisected|apply part_sorted_dec; vm_compute; reflexivity|..];
    [unfold exact_counts; apply (bool_decide_eq_true_1 _)|..]; vm_compute; done.
Qed.

(** ** C17: part_next *)

(** a best free vertex of side [p] after the history [ops] *)
Definition best_free (G : gstruct) (ops : list gop) (p : Z) (v : vertex) : Prop :=
  (v ∈ h_verts (g_H G) ∧ v_part v = p ∧ v_id v ∉ locked_by ops) ∧
  ∀ u, u ∈ h_verts (g_H G) → v_part u = p → v_id u ∉ locked_by ops → cut_decrease (g_H G) u ≤ cut_decrease (g_H G) v.

(** C17 asks for a side whose best vertex fits into the other side.  The code compares the
    weight with the room left in the vertex's own part instead: a state (reached by
    construction) in which the best vertex of side 0 fits into side 1, the best vertex of side
    1 does not fit into side 0, and yet side 1 is chosen, whatever the random numbers. *)
Definition pn_H : hg := mk_hg 2 1 [Vertex 0 [10] 1 0; Vertex 1 [10] 5 1] [Net 10 [0; 1] 1 2] 2.
Definition pn_C : list (Z * Z) := [(1, 1)].
Lemma pn_pre : klfm_pre pn_H ∧ bisected pn_H ∧ part_sorted pn_H ∧ exact_counts pn_H pn_C.
Proof.
  split_and!; [apply klfm_pre_dec; [apply mk_hg_consistent_dec|]|apply bisected_dec|apply part_sorted_dec|
    unfold exact_counts; apply (bool_decide_eq_true_1 _)]; vm_compute; reflexivity.
Qed.

Lemma best_of_free H ops S G p v : grun H ops S G → klfm_pre H →
  best_of (g_H G) (list_to_set (locked_by ops)) (gain_fun (g_H G) (g_C G)) p v ↔ best_free G ops p v.
Proof.
  intros [[Hs HC HB HS HCt _] _ _ _] _. unfold best_of, best_free.
  assert (∀ u, u ∈ h_verts (g_H G) → gain_fun (g_H G) (g_C G) u = cut_decrease (g_H G) u) as Hg by (intros; by apply gain_fun_flip).
  rewrite elem_of_list_to_set. split.
  - intros (Hv & Hp & HL & Hm). split_and!; [done..|]. intros u Hu Hup HuL. rewrite <-!Hg by done. apply Hm; [done|done|]. by rewrite elem_of_list_to_set.
  - intros ((Hv & Hp & HL) & Hm). split_and!; [done..|]. intros u Hu Hup HuL. rewrite !Hg by done. apply Hm; [done|done|]. by rewrite elem_of_list_to_set in HuL.
Qed.

(** the choice, with the test the code makes *)
Lemma wp_part_next_run H ops S G x0 x1 v : klfm_pre H → grun H ops S G → v ∈ h_verts (g_H G) → v_id v ∉ locked_by ops →
  wp (part_next G x0 x1) (λ r, (r.1 = 0 ∨ r.1 = 1) ∧ (∃ u, best_free G ops r.1 u) ∧
    ∀ u0 u1, best_free G ops 0 u0 → best_free G ops 1 u1 →
      ∃ b0 b1, best_free G ops 0 b0 ∧ best_free G ops 1 b1 ∧
      let g0 := if decide (v_weight b0 < x0) then cut_decrease (g_H G) b0 else long_min in
      let g1 := if decide (v_weight b1 < x1) then cut_decrease (g_H G) b1 else long_min in
      (r.1 = 0 ∧ g1 ≤ g0) ∨ (r.1 = 1 ∧ g0 ≤ g1)).
Proof.
  intros Hpre HG Hv HL. pose proof HG as [[Hs HC HB HS HCt _] _ HI _].
  assert (no_sentinel (g_H G)) as Hns by (apply (klfm_pre_shape _ _ Hpre Hs)).
  eapply wpe_part_next; [exact HI|done|done|by rewrite elem_of_list_to_set|].
  intros G' p u _ _ Hp Hb Hch. simpl. split; [done|]. split; [exists u; by eapply best_of_free|].
  intros u0 u1 Hu0 Hu1. destruct Hch as [He|(b0 & b1 & Hb0 & Hb1 & Hch)].
  - exfalso. destruct Hp as [-> | ->].
    + destruct Hu1 as [(? & ? & HL1) _]. apply HL1. apply (elem_of_list_to_set (C := gset Z)). by apply He.
    + destruct Hu0 as [(? & ? & HL1) _]. apply HL1. apply (elem_of_list_to_set (C := gset Z)). by apply He.
  - apply (best_of_free H ops S G) in Hb0; [|done..]. apply (best_of_free H ops S G) in Hb1; [|done..].
    exists b0, b1. split; [done|]. split; [done|]. destruct Hb0 as [(Hv0 & _) _], Hb1 as [(Hv1 & _) _].
    rewrite !(gain_fun_flip (g_H G) (g_C G)) in Hch by done. fold (cut_decrease (g_H G) b0) (cut_decrease (g_H G) b1) in Hch.
    assert (∀ x (b : vertex) (e : Z), (if decide (x - v_weight b > 0) then e else long_min) = if decide (v_weight b < x) then e else long_min) as Hd.
    { intros x b e. destruct (decide (x - v_weight b > 0)), (decide (v_weight b < x)); done || lia. }
    rewrite !Hd in Hch. exact Hch.
Qed.

Lemma C17_feasible_refuted_proof : ∃ H C x0 x1,
  klfm_pre H ∧ bisected H ∧ part_sorted H ∧ exact_counts H C ∧
  ∀ w, ∃ G w', gs_run H C [] w = Ok (G, w') ∧
    (∃ u0, best_free G [] 0 u0) ∧ (∃ u1, best_free G [] 1 u1) ∧
    (∀ u0, best_free G [] 0 u0 → v_weight u0 ≤ x1) ∧
    (∀ u1, best_free G [] 1 u1 → x0 < v_weight u1) ∧
    ∀ w2, ∃ G2 w3, part_next G x0 x1 w2 = Ok ((1, G2), w3).
Proof.
  destruct pn_pre as (Hpre & HB & HS & HCt). exists pn_H, pn_C, 0, 10. split_and!; try done.
  intros w. assert (wp (gs_run pn_H pn_C []) (λ G, ∃ S, grun pn_H [] S G ∧ h_verts (g_H G) = h_verts pn_H)) as Hw.
  { eapply wpe_bind, wpe_gs_new_pre; [done|done|done|]. intros S G Hcs HI HH HCC. apply wpe_ret. exists S.
    rewrite HH. split; [|done]. split; rewrite ?HH, ?HCC; try done.
    split; try done; first [apply same_shape_refl|apply Hpre|by apply part_sorted_iff]. }
  apply wp_run with (w := w) in Hw as (G & w' & Heq & S & HG & Hverts). exists G, w'. split; [done|].
  assert (∀ p v, v ∈ h_verts pn_H → v_part v = p → (∀ u, u ∈ h_verts pn_H → v_part u = p → u = v) → best_free G [] p v) as Hbest.
  { intros p v Hv Hp Hu. unfold best_free. rewrite Hverts. split; [split; [exact Hv|split; [exact Hp|apply not_elem_of_nil]]|].
    intros u Huv Hup _. rewrite (Hu u Huv Hup). apply Z.le_refl. }
  assert (h_verts pn_H = [Vertex 0 [10] 1 0; Vertex 1 [10] 5 1]) as Hl by reflexivity.
  assert (∀ v, v ∈ h_verts pn_H ↔ v = Vertex 0 [10] 1 0 ∨ v = Vertex 1 [10] 5 1) as Hin.
  { intros v. rewrite Hl, elem_of_cons, elem_of_list_singleton. reflexivity. }
  assert (best_free G [] 0 (Vertex 0 [10] 1 0)) as Hb0.
  { apply Hbest; [apply Hin; auto|reflexivity|]. intros u [-> | ->]%Hin Hp; [reflexivity|discriminate Hp]. }
  assert (best_free G [] 1 (Vertex 1 [10] 5 1)) as Hb1.
  { apply Hbest; [apply Hin; auto|reflexivity|]. intros u [-> | ->]%Hin Hp; [discriminate Hp|reflexivity]. }
  split; [eauto|]. split; [eauto|].
  assert (∀ u, best_free G [] 0 u → u = Vertex 0 [10] 1 0) as Hu0.
  { intros u [(Hu & Hp & _) _]. rewrite Hverts in Hu. apply Hin in Hu as [-> | ->]; [reflexivity|discriminate Hp]. }
  assert (∀ u, best_free G [] 1 u → u = Vertex 1 [10] 5 1) as Hu1.
  { intros u [(Hu & Hp & _) _]. rewrite Hverts in Hu. apply Hin in Hu as [-> | ->]; [discriminate Hp|reflexivity]. }
  split; [intros u ->%Hu0; simpl; lia|]. split; [intros u ->%Hu1; simpl; lia|].
  intros w2. assert (wp (part_next G 0 10) (λ r, r.1 = 1)) as Hw2.
  { eapply wpe_mono; [eapply (wp_part_next_run pn_H [] S G 0 10 (Vertex 0 [10] 1 0)); [done|done|rewrite Hverts; apply Hin; auto|apply not_elem_of_nil]|].
    intros [p G2] (Hp & _ & Hch). simpl in *. destruct (Hch _ _ Hb0 Hb1) as (b0 & b1 & ->%Hu0 & ->%Hu1 & Hc). simpl in Hc.
    destruct Hc as [[-> Hc]|[-> _]]; [|done]. exfalso.
    pose proof HG as [[Hs HC' HB' HS' HCt' _] _ HI _].
    assert (Vertex 1 [10] 5 1 ∈ h_verts (g_H G)) as Hv1 by (rewrite Hverts; apply Hin; auto).
    pose proof (gs_inv_range _ _ _ _ _ HI Hv1 (not_elem_of_empty _)) as Hr. pose proof (gi_S _ _ _ _ HI) as HSr.
    rewrite (gain_fun_flip (g_H G) (g_C G)) in Hr by done. fold (cut_decrease (g_H G) (Vertex 1 [10] 5 1)) in Hr. lia. }
  apply wp_run with (w := w2) in Hw2 as ([p G2] & w3 & Heq2 & Hp1). simpl in Hp1. subst p. eauto.
Qed.

(** C17, what holds.  If some vertex is free, part_next returns a side that has a free vertex;
    if only one side has one, that side; otherwise, for a pair of best vertices of the two
    sides, a side of larger gain, where the gain counts only if the vertex is lighter than the
    room left in its own part.  Missing: that the room of the other part is compared
    (C17_feasible_refuted). *)
Lemma C17_part_next_partial_proof : ∀ H C ops x0 x1 w,
  klfm_pre H → bisected H → part_sorted H → exact_counts H C → gops_ok H ops →
  ∃ G w', gs_run H C ops w = Ok (G, w') ∧
    ((∃ v, v ∈ h_verts (g_H G) ∧ v_id v ∉ locked_by ops) →
     ∀ w2, ∃ p G2 w3, part_next G x0 x1 w2 = Ok ((p, G2), w3) ∧
      (p = 0 ∨ p = 1) ∧ (∃ u, best_free G ops p u) ∧
      ∀ u0 u1, best_free G ops 0 u0 → best_free G ops 1 u1 →
        ∃ b0 b1, best_free G ops 0 b0 ∧ best_free G ops 1 b1 ∧
        let g0 := if decide (v_weight b0 < x0) then cut_decrease (g_H G) b0 else long_min in
        let g1 := if decide (v_weight b1 < x1) then cut_decrease (g_H G) b1 else long_min in
        (p = 0 ∧ g1 ≤ g0) ∨ (p = 1 ∧ g0 ≤ g1)).
Proof.
  intros H C ops x0 x1 w Hpre HB HS HCt Hok.
  assert (wp (gs_run H C ops) (λ G, ∃ S, grun H ops S G)) as Hw by (eapply wpe_gs_run; eauto).
  apply wp_run with (w := w) in Hw as (G & w' & Heq & S & HG). exists G, w'. split; [done|].
  intros (v & Hv & HL) w2. pose proof (wp_part_next_run H ops S G x0 x1 v Hpre HG Hv HL) as Hw2.
  apply wp_run with (w := w2) in Hw2 as ([p G2] & w3 & Heq2 & Hr). eauto.
Qed.

Example C17_example : gops_ok klH kl_ops ∧
  match gs_run klH klC kl_ops w0 with
  | Ok (G, w) => ∃ v, v ∈ h_verts (g_H G) ∧ v_id v ∉ locked_by kl_ops | Err _ => False end.
Proof.
  destruct C13_example as (_ & _ & _ & _ & Hok & Hg). split; [exact Hok|].
  destruct (gs_run klH klC kl_ops w0) as [[G w]|] eqn:He; [|exact Hg]. clear Hg.
  assert (match gs_run klH klC kl_ops w0 with Ok (G, w) => existsb (λ v, bool_decide (v_id v ∉ locked_by kl_ops)) (h_verts (g_H G)) | Err _ => false end = true) as Hx by (vm_compute; reflexivity).
  rewrite He in Hx. apply existsb_exists in Hx as (v & Hv & Hb). apply bool_decide_eq_true_1 in Hb.
  exists v. split; [by apply elem_of_list_In|done].
Qed.
