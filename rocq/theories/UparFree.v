(** Free vertices on several processors are put back. *)
From Verif Require Export BisectPar BisectProof KparPass CparResult.

Lemma wpe_agreed E (xs : list Z) c (Q : Z → Prop) : xs ≠ [] → (∀ x, x ∈ xs → x = c) → Q c → wpe E (agreed xs) Q.
Proof.
  intros Hne Hall HQ. destruct xs as [|x l]; [done|]. simpl. assert (x = c) as -> by (apply Hall; set_solver).
  apply wpe_bind. apply wpe_guard; [|by apply wpe_ret]. apply forallb_forall. intros y Hy%elem_of_list_In. apply Z.eqb_eq. symmetry. apply Hall. set_solver.
Qed.

Lemma wpe_assign_all E C H part (Q : hg → Prop) : consistent H → NoDup (vids H ++ (fst <$> c_free C)) →
  (∀ H', restored_verts H ((λ f, back f part) <$> c_free C) H' → Q H') → wpe E (assign_all_vertices C H part) Q.
Proof.
  intros HC Hnd HQ. unfold assign_all_vertices.
  apply (wpe_foldM _ _ (λ ds H', restored_verts H ((λ f, back f part) <$> ds) H')).
  - split; try done. by rewrite app_nil_r.
  - intros ds f ts H1 Heq Hr. apply (wpe_put_back E H ((λ f, back f part) <$> ds)); [done| |].
    + unfold vids. rewrite (rv_verts _ _ _ Hr), fmap_app, <-list_fmap_compose.
      rewrite Heq, fmap_app, app_assoc in Hnd. apply NoDup_app in Hnd as (_ & Hd & _).
      intros Hin. apply (Hd (fst f)); [|csimpl; set_solver]. exact Hin.
    + intros H' Hr'. by rewrite fmap_app.
  - done.
Qed.
Lemma wparts_all l part : part = 0 ∨ part = 1 →
  wparts ((λ f, back f part) <$> l) = if decide (part = 0) then (zsum (snd <$> l), 0) else (0, zsum (snd <$> l)).
Proof.
  intros Hp. induction l as [|f l IH]; [by destruct Hp as [-> | ->]|]. csimpl. unfold wparts in *. rewrite !filter_cons. simpl.
  destruct Hp as [-> | ->]; (destruct (decide _) in IH; [|done] || (destruct (decide _) in IH; [done|])); injection IH as IH0 IH1;
    repeat (case_decide; try done); csimpl; rewrite ?zsum_cons, ?IH0, ?IH1; done.
Qed.

Lemma zsum_diff {A B} (f : A → Z) (g : B → Z) (l : list A) (l' : list B) : length l = length l' →
  zsum (zip_with (λ x y, f x - g y) l l') = zsum (f <$> l) - zsum (g <$> l').
Proof.
  revert l'; induction l as [|x l IH]; intros [|y l'] Hl; try done. csimpl in *. injection Hl as Hl. rewrite !zsum_cons, IH by done. lia.
Qed.
Lemma zsum_zero l : (∀ x, x ∈ l → x = 0) → zsum l = 0.
Proof. induction l as [|x l IH]; intros Hl; [done|]. rewrite zsum_cons, IH by (intros; apply Hl; by right). rewrite (Hl x) by left. done. Qed.
Lemma split_bounds a b F m0 m1 A x target :
  0 ≤ m0 → 0 ≤ m1 → 0 < m0 + m1 → target = Z.quot (b * m0 - a * m1 + F * m0) (m0 + m1) → a + b + F ≤ m0 + m1 → 
  (0 ≤ A → A ≤ target → a ≤ m0 → a + A ≤ m0) ∧ (target < A + x → b + (F - A - x) ≤ m1).
Proof.
  intros H0 H1 HS Ht HT. set (S := m0 + m1) in *. set (T := a + b + F) in *.
  replace (b * m0 - a * m1 + F * m0) with (T * m0 - a * S) in Ht by (unfold S, T; lia).
  pose proof (Z.quot_rem (T * m0 - a * S) S ltac:(lia)) as Hqr. rewrite <-Ht in Hqr.
  assert (T * m0 ≤ S * m0) as Hm by (apply Z.mul_le_mono_nonneg_r; lia).
  assert (T * m1 ≤ S * m1) as Hm1 by (apply Z.mul_le_mono_nonneg_r; lia).
  split.
  - intros HA HAt Ha. destruct (Z.le_gt_cases 0 (T * m0 - a * S)) as [Hn|Hn].
    + pose proof (Z.rem_bound_pos (T * m0 - a * S) S ltac:(lia) ltac:(lia)) as Hb.
      assert (S * (a + A) ≤ S * m0); [|by apply Z.mul_le_mono_pos_l in H; [|lia]]. nia.
    + assert (target ≤ 0) as Hle; [|lia]. rewrite Ht. apply Z.quot_le_upper_bound; lia.
  - intros Hgt. assert (S * (b + (F - A - x)) ≤ S * m1) as HH; [|by apply Z.mul_le_mono_pos_l in HH; [|lia]].
    assert (S * target > T * m0 - a * S - S) as Hlow.
    { destruct (Z.le_gt_cases 0 (T * m0 - a * S)) as [Hn|Hn].
      - pose proof (Z.rem_bound_pos (T * m0 - a * S) S ltac:(lia) ltac:(lia)). lia.
      - pose proof (Z.rem_nonpos (T * m0 - a * S) S ltac:(lia) ltac:(lia)). lia. }
    assert (S * (target + 1) ≤ S * (A + x)) by (apply Z.mul_le_mono_pos_l; lia).
    assert (S * (b + (F - A - x)) = S * (T - a) - S * (A + x)) as -> by (unfold T; lia).
    assert (S * m1 = S * S - S * m0) as Hs by (unfold S; lia). nia.
Qed.

(** what is found: at most the target is given away as a whole, and the next does not fit *)
Lemma find_split_spec free target : ∀ a t, ∃ k, (k ≤ length free)%nat ∧ find_split free target a t = (a + zsum (take k free), (t + k)%nat) ∧
  (k = 0%nat ∨ a + zsum (take k free) ≤ target) ∧ (∀ x, free !! k = Some x → target < a + zsum (take k free) + x).
Proof.
  induction free as [|x free IH]; intros a t; simpl.
  - exists 0%nat. split; [lia|]. split; [f_equal; [unfold zsum; simpl|]; lia|]. split; [by left|done].
  - case_decide as Hd.
    + destruct (IH (a + x) (S t)) as (k & Hk & -> & Hle & Hgt). exists (S k). simpl. rewrite zsum_cons. split; [lia|]. split; [f_equal; lia|]. split.
      * right. destruct Hle as [->|Hle]; [|lia]. simpl. unfold zsum. simpl. lia.
      * intros y Hy. specialize (Hgt y Hy). lia.
    + exists 0%nat. split; [lia|]. split; [f_equal; [unfold zsum; simpl|]; lia|]. split; [by left|]. intros y [= <-]. unfold zsum. simpl. lia.
Qed.

(** the free vertices recorded in [Cs] are back on their processors, in part 0 or 1 *)
Definition back_at (C : contraction) (H H' : hg) : Prop :=
  ∃ vs, idw <$> vs ≡ₚ c_free C ∧ (∀ v, v ∈ vs → v_nets v = [] ∧ (v_part v = 0 ∨ v_part v = 1)) ∧ restored_verts H vs H'.
Definition back_par (Cs : list contraction) (Hs Hs' : list hg) : Prop :=
  length Hs' = length Hs ∧ ∀ t C H H', Cs !! t = Some C → Hs !! t = Some H → Hs' !! t = Some H' → back_at C H H'.

Section assign.
  Context (E : err → Prop) (Cs : list contraction) (Hs : list hg) (mx : Z * Z).
  Context (Hne : Hs ≠ []) (Hlen : length Cs = length Hs).
  Context (Hcons : ∀ H, H ∈ Hs → consistent H) (Hbis : ∀ v, v ∈ all_verts Hs → v_part v = 0 ∨ v_part v = 1).
  Context (Hnd : ∀ t C H, Cs !! t = Some C → Hs !! t = Some H → NoDup (vids H ++ (fst <$> c_free C))).
  Context (Hpos : ∀ f, f ∈ all_free Cs → 0 < snd f).
  Context (Hloc : ∀ C, C ∈ Cs → c_local_free C = zsum (snd <$> c_free C)).
  Context (Hglob : ∀ C, C ∈ Cs → c_global_free C = zsum (snd <$> all_free Cs)).

  Let fr := c_local_free <$> Cs.

  Lemma fr_sum : zsum fr = zsum (snd <$> all_free Cs).
  Proof.
    clear -Hloc. unfold fr, all_free. revert Hloc. induction Cs as [|C l IH]; intros Hloc; [done|]. csimpl. rewrite zsum_cons, fmap_app, zsum_app, IH.
    - by rewrite Hloc by left.
    - intros C' HC'. apply Hloc. by right.
  Qed.
  Lemma fr_nonneg x : x ∈ fr → 0 ≤ x.
  Proof.
    intros (C & -> & HC)%elem_of_list_fmap. rewrite Hloc by done. apply zsum_nonneg. intros y (f & -> & Hf)%elem_of_list_fmap.
    assert (0 < snd f); [|lia]. apply Hpos. apply elem_of_list_In, in_concat. exists (c_free C). split; [|by apply elem_of_list_In]. apply elem_of_list_In. by apply elem_of_list_fmap_1.
  Qed.

  Lemma wpe_assign_free_par (Q : list hg * (Z * Z) → Prop) :
    0 ≤ fst mx → 0 ≤ snd mx → E UB ∨ (zsum (snd <$> all_free Cs) ≠ 0 → 0 < fst mx + snd mx) →
    (∀ Hs', back_par Cs Hs Hs' →
       let ws' := (gpart_weight Hs' 0, gpart_weight Hs' 1) in
       (∀ b, (∀ f, f ∈ all_free Cs → snd f ≤ b) → 0 ≤ b → within (gpart_weight Hs 0, gpart_weight Hs 1) mx →
          gweight Hs + zsum (snd <$> all_free Cs) + b ≤ fst mx + snd mx → within ws' mx) →
       Q (Hs', ws')) →
    wpe E (assign_free_vertices_par Cs Hs mx) Q.
  Proof.
    intros Hm0 Hm1 Herr HQ. unfold assign_free_vertices_par. apply wpe_bind, wpe_global_weight_parts.
    { intros v Hv. destruct (Hbis v Hv); lia. }
    destruct (decide (length Hs = 0)%nat) as [Hl0|Hl0]; [by apply nil_length_inv in Hl0|].
    apply wpe_bind. eapply wpe_nidx; [apply lookup_replicate_2; lia|]. change (seqZ 0 2) with [0; 1]. csimpl.
    set (a := gpart_weight Hs 0) in *. set (b := gpart_weight Hs 1) in *.
    apply wpe_bind. apply (wpe_idx _ _ _ a); [done|]. apply wpe_bind. apply (wpe_idx _ _ _ b); [done|].
    apply wpe_bind. set (F := zsum (snd <$> all_free Cs)) in *.
    apply (wpe_agreed _ _ F).
    { intros Hnil%fmap_nil_inv. subst Cs. simpl in Hlen. lia. }
    { intros x (C & -> & HC)%elem_of_list_fmap. by apply Hglob. }
    assert (gweight Hs = a + b) as Htot.
    { unfold a, b. rewrite <-gweight_sum, <-!gpart_weight_sum. clear -Hbis. induction Hs as [|H l IH]; [done|]. csimpl. rewrite !zsum_cons, IH.
      - rewrite <-(bisected_tot H); [lia|]. intros v Hv. apply Hbis, all_verts_elem. exists H. split; [by left|done].
      - intros v Hv. apply Hbis. apply all_verts_elem in Hv as (H' & HH' & Hv). apply all_verts_elem. exists H'. split; [by right|done]. }
    case_decide as HF0.
    { apply wpe_ret. apply HQ; [|by intros ? _ _ ?]. split; [done|]. intros t C H H' HC HH HH'. rewrite HH in HH'. injection HH' as <-.
      exists []. assert (c_free C = []) as ->.
      { destruct (c_free C) as [|f l] eqn:Hf; [done|]. assert (f ∈ all_free Cs) as Hfa.
        { apply elem_of_list_In, in_concat. exists (c_free C). split; [|rewrite Hf; by left]. apply elem_of_list_In, elem_of_list_fmap_1. by eapply elem_of_list_lookup_2. }
        assert (snd f ≤ F); [|specialize (Hpos f Hfa); lia]. unfold F. apply elem_of_list_split in Hfa as (l1 & l2 & Hl). rewrite Hl, fmap_app, fmap_cons, zsum_app, zsum_cons.
        assert (∀ l', (∀ g, g ∈ l' → g ∈ all_free Cs) → 0 ≤ zsum (snd <$> l')) as Hn.
        { intros l' Hl'. apply zsum_nonneg. intros y (g & -> & Hg)%elem_of_list_fmap. specialize (Hpos g (Hl' g Hg)). lia. }
        pose proof (Hn l1 ltac:(rewrite Hl; set_solver)). pose proof (Hn l2 ltac:(rewrite Hl; set_solver)). lia. }
      split; [done|]. split; [set_solver|]. split; try done; [|by rewrite app_nil_r]. apply Hcons. by eapply elem_of_list_lookup_2. }
    fold fr. apply wpe_bind.
    destruct (decide (fst mx + snd mx = 0)) as [HS0|HS0].
    { destruct Herr as [Herr|Hpos']; [|specialize (Hpos' HF0); lia]. unfold guardM. rewrite bool_decide_eq_false_2 by naive_solver. by apply wpe_fail. }
    apply wpe_guard; [by apply bool_decide_eq_true|].
    set (target := Z.quot _ _). destruct (find_split_spec fr target 0 0) as (k & Hk & -> & Hle & Hgt). cbn [fst snd].
    rewrite Z.add_0_l in *. change (0 + k)%nat with k in *. set (A := zsum (take k fr)) in *. rewrite foldl_add_acc, Z.add_0_l.
    set (R := zsum (drop (S k) fr)) in *. set (ws := (a + A, b + R)).
    assert (length fr = length Hs) as Hfl by (unfold fr; by rewrite fmap_length).
    apply wpe_bind.
    eapply (wpe_ranks _ _ _ (λ t r, ∃ C H vs, Cs !! t = Some C ∧ Hs !! t = Some H ∧ idw <$> vs ≡ₚ c_free C ∧
      (∀ v, v ∈ vs → v_nets v = [] ∧ (v_part v = 0 ∨ v_part v = 1)) ∧ restored_verts H vs (fst r) ∧
      ((t < k)%nat → wparts vs = (c_local_free C, 0)) ∧ ((k < t)%nat → wparts vs = (0, c_local_free C)) ∧
      (t = k → snd r = (fst ws + fst (wparts vs), snd ws + snd (wparts vs)) ∧
        (∀ b, (∀ f, f ∈ c_free C → 0 ≤ snd f ≤ b) → fst ws ≤ fst mx → snd ws ≤ snd mx →
          fst ws + snd ws + zsum (snd <$> c_free C) + b ≤ fst mx + snd mx → fst (snd r) ≤ fst mx ∧ snd (snd r) ≤ snd mx)))).
    - intros t Ht. destruct (lookup_lt_is_Some_2 Hs t Ht) as [H HH]. destruct (lookup_lt_is_Some_2 Cs t ltac:(lia)) as [C HC].
      assert (consistent H) as HcH by (apply Hcons; by eapply elem_of_list_lookup_2).
      assert (c_local_free C = zsum (snd <$> c_free C)) as Hlf by (apply Hloc; by eapply elem_of_list_lookup_2).
      assert (∀ part, idw <$> ((λ f, back f part) <$> c_free C) = c_free C) as Hid.
      { intros part. rewrite <-list_fmap_compose. rewrite <-(list_fmap_id (c_free C)) at 2. apply list_fmap_ext. by intros i [x y] _. }
      assert (∀ part v, part = 0 ∨ part = 1 → v ∈ ((λ f, back f part) <$> c_free C) → v_nets v = [] ∧ (v_part v = 0 ∨ v_part v = 1)) as Hpt.
      { intros part v Hpp (f & -> & _)%elem_of_list_fmap. done. }
      apply wpe_bind. eapply wpe_nidx; [exact HC|]. apply wpe_bind. eapply wpe_nidx; [exact HH|].
      case_decide as Hlt; [|case_decide as Hgt'].
      + apply wpe_bind, wpe_assign_all; [done|by apply (Hnd t)|]. intros H' HR. apply wpe_ret. exists C, H, ((λ f, back f 0) <$> c_free C).
        split; [done|]. split; [done|]. split; [by rewrite Hid|]. split; [intros v; apply Hpt; by left|]. split; [done|].
        split; [intros _; rewrite wparts_all by (by left); by rewrite Hlf|]. split; lia.
      + apply wpe_bind, wpe_assign_all; [done|by apply (Hnd t)|]. intros H' HR. apply wpe_ret. exists C, H, ((λ f, back f 1) <$> c_free C).
        split; [done|]. split; [done|]. split; [by rewrite Hid|]. split; [intros v; apply Hpt; by right|]. split; [done|].
        split; [lia|]. split; [intros _; rewrite wparts_all by (by right); by rewrite Hlf|]. lia.
      + apply wpe_bind, wpe_assign_free_; [done|by apply (Hnd t)|]. intros fs vs H' Hfs Hvs Hok HR. cbv zeta. intros Hb. apply wpe_ret.
        cbn [fst snd]. exists C, H, vs. split; [done|]. split; [done|]. split; [change (idw <$> vs) with ((λ v, (v_id v, v_weight v)) <$> vs); by rewrite Hvs|].
        split; [done|]. split; [done|]. split; [lia|]. split; [lia|]. intros ->. split; [done|]. intros b0 Hb0 Hw1 Hw2 Hsum. apply (Hb b0); [|done|done|].
        * intros f Hf. apply Hb0. by rewrite <-Hfs.
        * by rewrite Hfs.
    - intros rs Hrl Hrs. set (Hs' := fst <$> rs).
      assert (back_par Cs Hs Hs') as Hback.
      { split; [unfold Hs'; by rewrite fmap_length|]. intros t C H H' HC HH HH'. unfold Hs' in HH'. rewrite list_lookup_fmap in HH'.
        destruct (rs !! t) as [r|] eqn:Hr; [|done]. injection HH' as <-. destruct (Hrs t r Hr) as (C' & H'' & vs & HC' & HH' & Hidw & Hok & HR & _).
        rewrite HC in HC'. injection HC' as <-. rewrite HH in HH'. injection HH' as <-. by exists vs. }
      assert (∀ q, gpart_weight Hs' q - gpart_weight Hs q = zsum (zip_with (λ H' H, part_weight H' q - part_weight H q) Hs' Hs)) as Hdiff.
      { intros q. rewrite <-!gpart_weight_sum. symmetry. apply (zsum_diff (λ H, part_weight H q) (λ H, part_weight H q)). by apply (proj1 Hback). }
      set (d q := zip_with (λ H' H, part_weight H' q - part_weight H q) Hs' Hs) in *.
      assert (∀ q, length (d q) = length Hs) as Hdl.
      { intros q. unfold d. rewrite zip_with_length, (proj1 Hback). lia. }
      assert (∀ t r H vs q, rs !! t = Some r → Hs !! t = Some H → restored_verts H vs (fst r) → (q = 0 ∨ q = 1) →
        d q !! t = Some (if decide (q = 0) then fst (wparts vs) else snd (wparts vs))) as Hd.
      { intros t r H vs q Hr HH HR Hq. unfold d. rewrite lookup_zip_with. unfold Hs'. rewrite list_lookup_fmap, Hr, HH. simpl. f_equal.
        pose proof (pws_app H (fst r) vs (rv_verts _ _ _ HR)) as Hp. unfold pws in Hp. injection Hp as Hp0 Hp1.
        destruct Hq as [-> | ->]; [rewrite decide_True by done|rewrite decide_False by done]; lia. }
      assert (take k (d 0) = take k fr ∧ zsum (drop (S k) (d 0)) = 0 ∧ zsum (take k (d 1)) = 0 ∧ drop (S k) (d 1) = drop (S k) fr) as (Hd1 & Hd2 & Hd3 & Hd4).
      { assert (∀ t, (t < length Hs)%nat → ∃ r C H vs, rs !! t = Some r ∧ Cs !! t = Some C ∧ Hs !! t = Some H ∧ restored_verts H vs (fst r) ∧
          ((t < k)%nat → wparts vs = (c_local_free C, 0)) ∧ ((k < t)%nat → wparts vs = (0, c_local_free C))) as Hall.
        { intros t Ht. destruct (lookup_lt_is_Some_2 rs t ltac:(lia)) as [r Hr]. destruct (Hrs t r Hr) as (C & H & vs & HC & HH & _ & _ & HR & H1 & H2 & _).
          by exists r, C, H, vs. }
        split; [|split; [|split]].
        - apply list_eq_same_length with k; [rewrite take_length, Hfl; lia|rewrite take_length, Hdl; lia|]. intros t x y Ht Hx Hy.
          rewrite lookup_take in Hx, Hy by done. destruct (Hall t) as (r & C & H & vs & Hr & HC & HH & HR & H1 & H2); [lia|].
          rewrite (Hd t r H vs 0 Hr HH HR), decide_True in Hx by (done || by left). assert (x = fst (wparts vs)) as -> by congruence. unfold fr in Hy. rewrite list_lookup_fmap, HC in Hy. injection Hy as <-.
          rewrite H1 by done. done.
        - apply zsum_zero. intros x [t Hx]%elem_of_list_lookup. rewrite lookup_drop in Hx. pose proof (lookup_lt_Some _ _ _ Hx) as Hlt. rewrite Hdl in Hlt.
          destruct (Hall (S k + t)%nat Hlt) as (r & C & H & vs & Hr & HC & HH & HR & H1 & H2).
          rewrite (Hd _ r H vs 0 Hr HH HR), decide_True in Hx by (done || by left). assert (x = fst (wparts vs)) as -> by congruence. rewrite H2 by lia. done.
        - apply zsum_zero. intros x [t Hx]%elem_of_list_lookup. apply lookup_take_Some in Hx as [Hx Ht]. 
          destruct (Hall t ltac:(lia)) as (r & C & H & vs & Hr & HC & HH & HR & H1 & H2).
          rewrite (Hd _ r H vs 1 Hr HH HR), decide_False in Hx by (done || by right). assert (x = snd (wparts vs)) as -> by congruence. rewrite H1 by lia. done.
        - apply list_eq_same_length with (length fr - S k)%nat; [rewrite drop_length; lia|rewrite drop_length, Hdl; lia|]. intros t x y Ht Hx Hy.
          rewrite lookup_drop in Hx, Hy. destruct (Hall (S k + t)%nat ltac:(lia)) as (r & C & H & vs & Hr & HC & HH & HR & H1 & H2).
          rewrite (Hd _ r H vs 1 Hr HH HR), decide_False in Hx by (done || by right). assert (x = snd (wparts vs)) as -> by congruence. unfold fr in Hy. rewrite list_lookup_fmap, HC in Hy. injection Hy as <-.
          rewrite H2 by lia. done. }
      assert (∀ x, x ∈ fr → 0 ≤ x) as Hfr by (apply fr_nonneg).
      case_decide as Hkp.
      + destruct (lookup_lt_is_Some_2 rs k ltac:(lia)) as [r Hr]. apply wpe_bind. eapply wpe_nidx; [exact Hr|]. apply wpe_ret.
        destruct (Hrs k r Hr) as (C & H & vs & HC & HH & Hidw & Hok & HR & _ & _ & Hsp). destruct (Hsp eq_refl) as [Hws Hbal]. clear Hsp.
        pose proof (Hd k r H vs 0 Hr HH HR (or_introl eq_refl)) as Hx0. pose proof (Hd k r H vs 1 Hr HH HR (or_intror eq_refl)) as Hx1.
        rewrite decide_True in Hx0 by done. rewrite decide_False in Hx1 by done.
        pose proof (Hdiff 0) as Hg0. pose proof (Hdiff 1) as Hg1. change (zip_with _ Hs' Hs) with (d 0) in Hg0. change (zip_with _ Hs' Hs) with (d 1) in Hg1.
        rewrite <-(take_drop_middle (d 0) k _ Hx0), zsum_app, zsum_cons, Hd1, Hd2 in Hg0.
        rewrite <-(take_drop_middle (d 1) k _ Hx1), zsum_app, zsum_cons, Hd3, Hd4 in Hg1.
        fold a A in Hg0. fold b R in Hg1.
        assert (snd r = (gpart_weight Hs' 0, gpart_weight Hs' 1)) as Hw' by (rewrite Hws; unfold ws; cbn [fst snd]; f_equal; lia).
        rewrite Hw'. apply HQ; [done|]. intros b0 Hb0 Hb0' [Hwa Hwb] Hroom. cbn [fst snd] in *.
        assert (fr !! k = Some (c_local_free C)) as Hfk by (unfold fr; by rewrite list_lookup_fmap, HC).
        assert (F = A + c_local_free C + R) as HFA.
        { unfold F. rewrite <-fr_sum, <-(take_drop_middle fr k _ Hfk), zsum_app, zsum_cons. unfold A, R. lia. }
        destruct (split_bounds a b F (fst mx) (snd mx) A (c_local_free C) target) as [HB0 HB1]; try done; [lia..|].
        assert (0 ≤ A) as HA0. { apply zsum_nonneg. intros x Hx. apply Hfr. by eapply elem_of_take in Hx as (i & Hx%elem_of_list_lookup_2 & _). }
        rewrite <-Hw'. apply (Hbal b0).
        * intros f Hf. assert (f ∈ all_free Cs) as Hfa.
          { apply elem_of_list_In, in_concat. exists (c_free C). split; [|by apply elem_of_list_In]. apply elem_of_list_In, elem_of_list_fmap_1. by eapply elem_of_list_lookup_2. }
          specialize (Hb0 f Hfa). specialize (Hpos f Hfa). lia.
        * unfold ws. cbn [fst snd]. destruct Hle as [->|Hle]; [unfold A; rewrite take_0, zsum_nil; lia|]. by apply HB0.
        * unfold ws. cbn [fst snd]. specialize (Hgt _ Hfk). specialize (HB1 Hgt). lia.
        * unfold ws. cbn [fst snd]. rewrite <-(Hloc C) by (by eapply elem_of_list_lookup_2). lia.
      + apply wpe_ret. assert (k = length Hs) as -> by lia.
        pose proof (Hdiff 0) as Hg0. pose proof (Hdiff 1) as Hg1. change (zip_with _ Hs' Hs) with (d 0) in Hg0. change (zip_with _ Hs' Hs) with (d 1) in Hg1.
        rewrite <-(take_drop (length Hs) (d 0)), zsum_app, Hd1, (drop_ge (d 0)), zsum_nil in Hg0 by (rewrite Hdl; lia).
        rewrite <-(take_drop (length Hs) (d 1)), zsum_app, Hd3, (drop_ge (d 1)), zsum_nil in Hg1 by (rewrite Hdl; lia).
        fold a A in Hg0. fold b in Hg1.
        assert ((a + A, b) = (gpart_weight Hs' 0, gpart_weight Hs' 1)) as Hw' by (f_equal; lia).
        rewrite Hw'. apply HQ; [done|]. intros b0 Hb0 Hb0' [Hwa Hwb] Hroom. cbn [fst snd] in *. rewrite <-Hw'.
        destruct (split_bounds a b F (fst mx) (snd mx) A 0 target) as [HB0 _]; try done; [lia..|].
        assert (0 ≤ A) as HA0. { apply zsum_nonneg. intros x Hx. apply Hfr. by eapply elem_of_take in Hx as (i & Hx%elem_of_list_lookup_2 & _). }
        destruct Hle as [Hle|Hle]; [lia|]. split; cbn [fst snd]; [by apply HB0|done].
  Qed.
End assign.
