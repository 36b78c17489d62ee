(** Recursive bisection on one processor when there is room: every bisection meets its limits. *)
From Verif Require Export LimitCalm RecProof RecursivePar.

(** ** Bisection with room *)
(** [b]: the heaviest vertex; [n]: the number of vertices; [B]: the room that is needed *)
Definition bis_room (opts : options) (b n B : Z) (bis : hg → options → Z * Z → Z → Z → Z * Z → M (hg * (Z * Z))) : Prop :=
  ∀ (E : err → Prop) H mx st en low high (Q : hg * (Z * Z) → Prop),
    rb_pre H → (∀ v, v ∈ h_verts H → v_weight v ≤ b) → Z.of_nat (length (h_verts H)) = n →
    0 ≤ fst mx → 0 ≤ snd mx → 0 ≤ st ≤ en → en ≤ Z.of_nat (length (h_verts H)) → low ≠ high →
    (∀ H' R', bisected_range H st en low high H' R' →
       (zsum (v_weight <$> range H st en) + B ≤ fst mx + snd mx → lpw (wpair <$> R') low ≤ fst mx ∧ lpw (wpair <$> R') high ≤ snd mx) →
       Q (H', (lpw (wpair <$> R') low, lpw (wpair <$> R') high))) →
    wpe E (bis H opts mx st en (low, high)) Q.

Lemma range_weights H st en : 0 ≤ st ≤ en → en ≤ Z.of_nat (length (h_verts H)) → weight_at H <$> seqZ st (en - st) = v_weight <$> range H st en.
Proof.
  intros Hst Hen. apply list_eq. intros q. rewrite !list_lookup_fmap. destruct (range H st en !! q) as [v|] eqn:Hq.
  - destruct (range_lookup_inv H st en q v Hst Hq) as [Hlt Hv]. rewrite lookup_seqZ_lt by lia. simpl. unfold weight_at. by rewrite Hv.
  - apply lookup_ge_None in Hq. pose proof (range_length H st en Hst Hen). rewrite lookup_seqZ_ge by lia. done.
Qed.

Lemma bisect1_room bp opts b n : lawful_family bp → 0 ≤ b → bis_room opts b n (room_needed opts n b) (bisect1 bp).
Proof.
  intros Hbp Hb E H mx st en low high Q Hpre Hwb Hn Hm0 Hm1 Hst Hen Hlh HQ. unfold bisect1, room_needed in *.
  assert (∀ side H', range_labelled H st en low high side H' →
    (zsum (v_weight <$> range H st en) + room_needed opts n b ≤ fst mx + snd mx → side_weight H st en side 0 ≤ fst mx ∧ side_weight H st en side 1 ≤ snd mx) →
    Q (H', (side_weight H st en side 0, side_weight H st en side 1))) as HQ'.
  { intros side H' HR Hlim. assert (consistent H') as HC'.
    { eapply bisected_consistent; [apply Hpre|apply HR|by eapply range_labelled_same_vertex]. }
    destruct (range_labelled_segment H st en low high side H') as (Hbr & E1 & E2); [done..|]. rewrite <-E1, <-E2 in Hlim |- *. by apply HQ. }
  unfold room_needed in HQ'. destruct (o_bisection opts).
  - apply wpe_of_run. intros w.
    destruct (C20_random_bisection_partial_proof H mx st en low high w) as (side & H' & w' & Hs & Hrun & Hsame & Hl & Hv & Hlim); [lia|lia|].
    eexists _, w'. split; [exact Hrun|]. apply HQ'; [done|]. intros Hroom. apply (Hlim b); [|done|done|by rewrite range_weights].
    intros i Hi. unfold weight_at. destruct (vertex_at H i) as [v|] eqn:Hvi; [|lia]. unfold vertex_at in Hvi. case_decide; [|done].
    apply elem_of_list_lookup_2 in Hvi. split; [|by apply Hwb]. apply Z.lt_le_incl. by apply (rp_weight _ Hpre).
  - eapply wpe_bisect_multilevel1; [done|apply Hpre|apply Hpre|apply Hpre|apply Hpre|apply Hpre| |done..|].
    { pose proof (rp_total _ Hpre). unfold long_max. lia. }
    intros side H' HR _ Hlim. apply HQ'; [done|]. intros Hroom. apply (Hlim b); [|done|].
    + intros v Hv. apply Hwb. by eapply range_sub.
    + pose proof (heaviest_mono opts (Z.to_nat (o_maxrounds opts)) (en - st) n b Hb ltac:(lia)). lia.
Qed.

(** ** The stack of work items: every item has its exact weight and enough room *)
Inductive rstack (calm : Prop) (B M k : Z) : Z → Z → list job → list (Z * Z) → Prop :=
| rstack_nil off : rstack calm B M k k off [] []
| rstack_cons lab off j js R V : j_low j = lab → lab < j_high j → j_st j = off → j_en j = off + Z.of_nat (length R) →
    j_weight j = zsum (fst <$> R) → fits calm B M (j_high j - j_low j + 1) (j_weight j) →
    rstack calm B M k (j_high j + 1) (j_en j) js V → rstack calm B M k lab off (j :: js) (R ++ V).
Lemma rstack_app calm B M k lab off j jobs V : rstack calm B M k lab off (j :: jobs) V → ∃ R V', V = R ++ V' ∧ j_low j = lab ∧ lab < j_high j ∧ j_st j = off ∧ j_en j = off + Z.of_nat (length R) ∧
  j_weight j = zsum (fst <$> R) ∧ fits calm B M (j_high j - j_low j + 1) (j_weight j) ∧ rstack calm B M k (j_high j + 1) (j_en j) jobs V'.
Proof. inversion 1; subst. eauto 12. Qed.

Section room.
  Context (E : err → Prop) (calm : Prop) (HE : E UB ∨ calm).
  Context (bis : hg → options → Z * Z → Z → Z → Z * Z → M (hg * (Z * Z))) (b0 n0 B : Z) (HB : 0 ≤ B).
  Context (H0 : hg) (opts : options) (Hbis : bis_room opts b0 n0 B bis) (HE3 : o_metric opts = CutNet → E UB).
  Context (k M : Z) (Hk : 2 ≤ k ≤ 2 ^ 50) (HM : 0 ≤ M) (HMk : M * k ≤ 2 ^ 50) (HC0 : consistent H0).
  Context (W : Z) (HW50 : W ≤ 2 ^ 50) (HWt : tot_weight H0 ≤ W).
  Context (Hb0 : ∀ v, v ∈ h_verts H0 → v_weight v ≤ b0) (Hn0 : Z.of_nat (length (h_verts H0)) = n0).
  Notation good := (good H0 opts).

  Lemma good_bound H cut : good H cut → (∀ v, v ∈ h_verts H → v_weight v ≤ b0) ∧ Z.of_nat (length (h_verts H)) = n0.
  Proof.
    intros [_ [Hi _]]. split.
    - intros v Hv. apply (elem_of_list_fmap_1 idw) in Hv. rewrite Hi in Hv. apply elem_of_list_fmap in Hv as (u & [= _ ->] & Hu). by apply Hb0.
    - rewrite <-Hn0, <-(fmap_length idw (h_verts H)), Hi, fmap_length. done.
  Qed.

  Definition rexact (jobs : list job) (l : list (Z * Z)) : Prop :=
    ∃ D V lab, l = D ++ V ∧ rstack calm B M k lab (Z.of_nat (length D)) jobs V ∧ 0 ≤ lab ∧ (∀ x, x ∈ D → 0 ≤ snd x < lab) ∧
      ∀ p, 0 ≤ p < lab → lpw D p ≤ M ∧ (calm → 0 < lpw D p).
  Definition rsane (jobs : list job) (H : hg) : Prop :=
    Forall (j_ok k W (Z.of_nat (length (h_verts H)))) jobs ∧ (rexact jobs (wpair <$> h_verts H) ∨ E UB ∧ Exists (λ j, j_weight j = 0) jobs).

  Lemma rsane_ext jobs H H' : wpair <$> h_verts H' = wpair <$> h_verts H → rsane jobs H → rsane jobs H'.
  Proof.
    intros Hw [H1 H2]. split; [|by rewrite Hw]. assert (length (h_verts H') = length (h_verts H)) as ->; [|done].
    rewrite <-(fmap_length wpair), Hw. apply fmap_length.
  Qed.

  Lemma wpe_rb_split_room s j (Q : rb_state * job → Prop) :
    good (rb_H s) (rb_cut s) → rsane (j :: rb_jobs s) (rb_H s) →
    (∀ s' j', good (rb_H s') (rb_cut s') → rsane (pend j' (rb_jobs s')) (rb_H s') → 0 ≤ jlen j' < jlen j → rb_splits s' = rb_splits s + 1 →
       zsum (jlen <$> j' :: rb_jobs s') + 1 = zsum (jlen <$> j :: rb_jobs s) → (jlen j = 1 → rb_jobs s' = rb_jobs s) → Q (s', j')) →
    wpe E (rb_split bis M opts s j) Q.
  Proof.
    intros Hg [Hok Hex] HQ. destruct j as [st en low high w]. apply Forall_cons in Hok as [Hj Hok].
    unfold j_ok in Hj. cbn [j_st j_en j_low j_high j_weight] in *. destruct Hj as (Hlow & Hlh & Hhigh & Hw & Hrange).
    unfold rb_split. cbn [j_st j_en j_low j_high j_weight]. cbv zeta.
    destruct (halves low high Hlh) as (Hkl & Hkh & Hklh & Hks & Hl0 & Hl1). rewrite Hl0, Hl1. cbn [fst snd].
    set (kl := k_low_of low high) in *. set (kh := k_high_of low high) in *.
    apply wpe_bind. apply wpe_compute_max_near; [lia|lia|lia|done|nia|lia| |].
    { intros ->. destruct HE as [?|Hcalm]; [done|]. destruct Hex as [(D & V & lab & Heq & Hs & _)|[? _]]; [|done].
      apply rstack_app in Hs as (Rp & V' & _ & _ & _ & _ & _ & _ & Hf & _). cbn [j_high j_low j_weight] in Hf.
      destruct (fits_pos calm B M (high - low + 1) 0 HB ltac:(lia) Hf) as [_ Hx]. specialize (Hx Hcalm). lia. }
    intros a b Hwpos Ha Hb Hka Hkb Hnear.
    destruct Hrange as [?|[Hst Hen]]; [lia|].
    destruct (good_bound _ _ Hg) as [Hgb Hgn]. apply wpe_bind. apply Hbis; [apply Hg|done|done|done|done|done|done|lia|]. intros H1 R' (Hsame & HC1 & HR & Hv1) Hlim. cbn [fst snd] in Hlim |- *.
    set (A := take (Z.to_nat st) (h_verts (rb_H s))) in *. set (B1 := drop (Z.to_nat en) (h_verts (rb_H s))) in *.
    set (R := range (rb_H s) st en) in *.
    assert (h_verts (rb_H s) = A ++ R ++ B1) as Hv0.
    { rewrite (range_split (rb_H s) st en). unfold A, R, B1. f_equal. f_equal. rewrite drop_drop. f_equal. lia. }
    assert (Z.of_nat (length A) = st) as HlA by (unfold A; rewrite take_length; lia).
    assert (length R' = length R) as HlR' by (symmetry; by eapply Forall2_length).
    assert (st + Z.of_nat (length R') = en) as HlR by (rewrite HlR'; unfold R; rewrite range_length by lia; lia).
    pose proof (part_relabelled _ _ _ _ HR) as Hparts.
    assert (good H1 (rb_cut s)) as Hg1.
    { destruct Hsame as (? & ? & ? & ? & _). eapply (good_step H0 opts); [exact Hg|done..|]. rewrite Hv1, Hv0, !fmap_app. by rewrite (vkey_relabelled _ _ _ _ HR). }
    set (w0 := lpw (wpair <$> R') low) in *. set (w1 := lpw (wpair <$> R') high) in *.
    assert (∀ x, x ∈ wpair <$> R' → 0 < fst x) as Hpos.
    { intros x Hx. eapply (good_pos H0 opts); [exact Hg1|]. rewrite Hv1, !fmap_app. set_solver. }
    assert (0 ≤ w0 ∧ 0 ≤ w1) as [Hw0 Hw1] by (split; apply lpw_nonneg; intros x Hx; apply Z.lt_le_incl; by apply Hpos).
    assert (∀ x, x ∈ wpair <$> R' → snd x = low ∨ snd x = high) as Hparts'.
    { intros x (v & -> & Hv)%elem_of_list_fmap. rewrite Forall_forall in Hparts. by apply Hparts. }
    assert (w0 + w1 = zsum (fst <$> (wpair <$> R'))) as Hw01 by (apply lpw_two; [lia|done]).
    assert (w0 + w1 ≤ W) as HwW.
    { transitivity (tot_weight H0); [|exact HWt]. rewrite Hw01, <-((good_weight H0 opts) _ _ Hg1), Hv1, !fmap_app, !zsum_app.
      assert (∀ l, (∀ v, v ∈ l → v ∈ h_verts H1) → 0 ≤ zsum (fst <$> (wpair <$> l))) as Hx.
      { intros l Hl. apply zsum_nonneg. intros y (x & -> & Hx)%elem_of_list_fmap. apply Z.lt_le_incl. eapply (good_pos H0 opts); [exact Hg1|]. set_solver. }
      assert (0 ≤ zsum (fst <$> (wpair <$> A))) by (apply Hx; intros v Hv; rewrite Hv1; set_solver).
      assert (0 ≤ zsum (fst <$> (wpair <$> B1))) by (apply Hx; intros v Hv; rewrite Hv1; set_solver). lia. }
    assert (length (h_verts H1) = length (h_verts (rb_H s))) as HlH1 by (rewrite Hv1, Hv0, !app_length; lia).
    (* the exact state before *)
    assert (E UB ∧ Exists (λ j, j_weight j = 0) (rb_jobs s) ∨ ∃ D V, wpair <$> A = D ∧ wpair <$> B1 = V ∧
      rstack calm B M k (high + 1) en (rb_jobs s) V ∧ (∀ x, x ∈ D → 0 ≤ snd x < low) ∧ (∀ p, 0 ≤ p < low → lpw D p ≤ M ∧ (calm → 0 < lpw D p)) ∧
      w0 ≤ a ∧ w1 ≤ b ∧ (2 ≤ kl → fits calm B M kl w0) ∧ (2 ≤ kh → fits calm B M kh w1) ∧ (calm → 0 < w0 ∧ 0 < w1)) as Hex'.
    { destruct Hex as [(D & V & lab & Heq & Hs & Hlab & HD & HDM)|[HUB Hex]].
      - right. apply rstack_app in Hs as (Rp & V' & -> & Hs1 & Hs2 & Hs3 & Hs4 & Hs5 & Hs6 & Hs7). cbn [j_st j_en j_low j_high j_weight] in *. subst lab.
        rewrite Hv0, !fmap_app in Heq. apply app_inj_1 in Heq as [Heq1 Heq2]; [|rewrite fmap_length; lia].
        apply app_inj_1 in Heq2 as [Heq2 Heq3]; [|rewrite fmap_length; lia].
        assert (w0 + w1 = w) as Hw01'. { rewrite Hw01, (weight_relabelled _ _ _ _ HR), Heq2. done. }
        assert (kh ≤ kl + 1) as Hkh1. { unfold kh, kl, k_high_of, k_low_of. clear. Z.div_mod_to_equations. lia. }
        replace (high - low + 1) with (kl + kh) in * by lia.
        destruct (fits_pos calm B M (kl + kh) w HB ltac:(lia) Hs6) as [HwMK _]. destruct (Hnear HwMK) as [Hn1 Hn2].
        destruct (fits_split calm B M w (kl + kh) kl kh a b) as [Hroom Hsides]; [lia|lia|lia|lia|lia|lia|done|done|done|].
        destruct Hlim as [HL0 HL1]. { assert (v_weight <$> R = fst <$> (wpair <$> R)) as -> by (by rewrite <-list_fmap_compose). rewrite Heq2, <-Hs5. lia. }
        destruct (Hsides w0 w1 Hw01' HL0 HL1) as (F0 & F1 & F2).
        exists D, V'. done.
      - left. split; [done|]. apply Exists_cons in Hex as [Hx|Hx]; [cbn [j_weight] in Hx; lia|done]. }
    (* reordering and pushing *)
    set (cur := λ e, Job st e low (low + kl - 1) w0).
    apply wpe_bind. eapply (wpe_mono E _ (λ o : hg * Z * list job, good (fst (fst o)) (rb_cut s) ∧
      rsane (pend (cur (snd (fst o))) (snd o)) (fst (fst o)) ∧ zsum (jlen <$> snd o) = zsum (jlen <$> rb_jobs s) + (kh - 1) ∧
      (snd o ≠ [] → 2 ≤ high - low ∨ rb_jobs s ≠ []) ∧ (high - low = 1 → snd o = rb_jobs s))).
    2:{ intros [[H2 e] jobs'] (Hg2 & Hs2 & Hsum & Hne & Hsame'). cbn [fst snd] in *. apply wpe_bind.
        eapply ((wpe_cut_step H0 opts) E (o_metric opts = CutNet ∧ jobs' ≠ [])); [by intros [? _]| |exact Hg2|].
        { intros [Hm _]. by apply HE3. }
        intros H3 cut3 Hg3 Hw3. apply wpe_ret. apply HQ; cbn [rb_H rb_jobs rb_cut rb_splits fst snd].
        - done.
        - by eapply rsane_ext.
        - unfold jlen. cbn [j_high j_low]. lia.
        - done.
        - csimpl. rewrite !zsum_cons, Hsum. unfold jlen. cbn [j_high j_low]. lia.
        - unfold jlen. cbn [j_high j_low]. done. }
    destruct (decide (high - (low + kl) > 0)) as [Hre|Hre].
    - (* two or more labels on the high side *)
      apply wpe_bind. rewrite <-HlA at 1. replace en with (Z.of_nat (length A) + Z.of_nat (length R')) at 1 by lia.
      apply wpe_reorder_seg with B1; [done|lia|done| |].
      + intros R0 R1 Hne Hperm HR0 HR1. apply wpe_ret. cbn [fst snd].
        set (H2 := update_map (with_verts (A ++ R0 ++ R1 ++ B1) H1)).
        assert (A ++ R0 ++ R1 ++ B1 ≡ₚ h_verts H1) as Hp2 by (rewrite Hv1, (app_assoc R0), Hperm; done).
        assert (h_verts H2 = A ++ R0 ++ R1 ++ B1) as Hv2 by done.
        assert (good H2 (rb_cut s)) as Hg2.
        { eapply (good_step H0 opts); [exact Hg1|by apply reordered_consistent|done..|]. rewrite Hv2. by rewrite Hp2. }
        assert (length R0 + length R1 = length R')%nat as HlR01 by (rewrite <-app_length; by rewrite Hperm).
        assert (w0 = zsum (fst <$> (wpair <$> R0)) ∧ w1 = zsum (fst <$> (wpair <$> R1))) as [Hw0' Hw1'].
        { assert (wpair <$> R' ≡ₚ (wpair <$> R0) ++ (wpair <$> R1)) as Hpw by (rewrite <-fmap_app; by rewrite Hperm).
          unfold w0, w1. rewrite !(lpw_perm _ _ _ Hpw), !lpw_app. rewrite Forall_forall in HR0, HR1. split.
          - rewrite lpw_all, (lpw_zero (wpair <$> R1)); [lia| |]; intros x (v & -> & Hv)%elem_of_list_fmap; cbn [wpair snd]; [rewrite HR1 by done; lia|by apply HR0].
          - rewrite lpw_zero, (lpw_all (wpair <$> R1)); [lia| |]; intros x (v & -> & Hv)%elem_of_list_fmap; cbn [wpair snd]; [by apply HR1|rewrite HR0 by done; lia]. }
        split; [exact Hg2|]. split; [|split; [csimpl; rewrite zsum_cons; unfold jlen; cbn [j_high j_low]; lia|split; [lia|lia]]].
        split.
        * rewrite Hv2, <-Hv2. assert (length (h_verts H2) = length (h_verts (rb_H s))) as ->.
          { rewrite Hv2, Hp2. exact HlH1. }
          apply pend_Forall.
          { intros Hl. unfold cur, jlen, j_ok in *. cbn [j_st j_en j_low j_high j_weight] in *. lia. }
          constructor; [|done]. unfold j_ok. cbn [j_st j_en j_low j_high j_weight]. lia.
        * destruct Hex' as [[HUB Hex']|(D & V & HD & HV & Hs & Hp & HpM & HL0 & HL1 & F0 & F1 & F2)]; [right; split; [done|by apply pend_Exists, Exists_cons_tl]|]. left.
          rewrite Hv2, !fmap_app, HD, HV.
          assert (rstack calm B M k (low + kl) (st + Z.of_nat (length R0)) (Job (st + Z.of_nat (length R0)) en (low + kl) high w1 :: rb_jobs s) ((wpair <$> R1) ++ V)) as Hs1.
          { constructor; cbn [j_st j_en j_low j_high j_weight]; rewrite ?fmap_length; try done; try lia. replace (high - (low + kl) + 1) with kh by lia. apply F1. lia. }
          assert (Z.of_nat (length D) = st) as HlD by (rewrite <-HD, fmap_length; done).
          unfold pend, cur, jlen. cbn [j_st j_en j_low j_high j_weight]. rewrite HlA. case_decide as Hkl1.
          -- exists D, ((wpair <$> R0) ++ (wpair <$> R1) ++ V), low. split; [done|]. split; [|split; [lia|split; done]].
             constructor; cbn [j_st j_en j_low j_high j_weight]; rewrite ?fmap_length; try done; try lia.
             { replace (low + kl - 1 - low + 1) with kl by lia. apply F0. lia. }
             replace (low + kl - 1 + 1) with (low + kl) by lia. exact Hs1.
          -- assert (kl = 1) as Hkl' by lia. exists (D ++ (wpair <$> R0)), ((wpair <$> R1) ++ V), (low + kl). split; [by rewrite <-!app_assoc|].
             split; [rewrite app_length, fmap_length, Nat2Z.inj_add, HlD; exact Hs1|]. split; [lia|].
             rewrite Forall_forall in HR0. split.
             ++ intros x [Hx|(v & -> & Hv)%elem_of_list_fmap]%elem_of_app; [apply Hp in Hx; lia|]. cbn [wpair snd]. rewrite HR0 by done. lia.
             ++ intros p Hp'. rewrite lpw_app. destruct (decide (p < low)) as [Hpl|Hpl].
                ** rewrite (lpw_zero (wpair <$> R0)); [rewrite Z.add_0_r; apply HpM; lia|]. intros x (v & -> & Hv)%elem_of_list_fmap. cbn [wpair snd]. rewrite HR0 by done. lia.
                ** assert (p = low) as -> by lia. rewrite (lpw_zero D) by (intros x Hx; apply Hp in Hx; lia).
                   rewrite lpw_all by (intros x (v & -> & Hv)%elem_of_list_fmap; by apply HR0). rewrite <-Hw0'. specialize (Hka Hkl'). split; [lia|]. intros Hcalm. destruct (F2 Hcalm). lia.
      + intros Hall. apply wpe_ret. cbn [fst snd].
        assert (with_verts (h_verts H1) H1 = H1) as Hself by (by destruct H1).
        assert (consistent (update_map H1)) as HC2 by (rewrite <-Hself; by apply reordered_consistent).
        assert (w1 = 0) as Hw10.
        { apply lpw_zero. intros x (v & -> & Hv)%elem_of_list_fmap. rewrite Forall_forall in Hall. cbn [wpair snd]. rewrite Hall by done. lia. }
        split; [by eapply (good_step H0 opts); [exact Hg1|done..]|]. split; [|split; [csimpl; rewrite zsum_cons; unfold jlen; cbn [j_high j_low]; lia|split; [lia|lia]]].
        split.
        * change (h_verts (update_map H1)) with (h_verts H1). rewrite HlH1. apply pend_Forall.
          { intros Hl. unfold cur, jlen, j_ok in *. cbn [j_st j_en j_low j_high j_weight] in *. split; [lia|]. split; [lia|]. split; [lia|]. split; [lia|].
            destruct R' as [|v' R'']; [left; done|]. simpl in HlR |- *. right. lia. }
          constructor; [|done]. unfold j_ok. cbn [j_st j_en j_low j_high j_weight]. lia.
        * right. split; [|apply pend_Exists, Exists_cons_hd; cbn [j_weight]; done].
          destruct HE as [?|Hcalm]; [done|]. destruct Hex' as [[? _]|(D & V & _ & _ & _ & _ & _ & _ & _ & _ & _ & F2)]; [done|]. destruct (F2 Hcalm). lia.
    - (* two labels *)
      assert (kl = 1 ∧ kh = 1) as [Hkl1 Hkh1] by lia. apply wpe_ret. cbn [fst snd]. split; [done|]. split; [|split; [lia|split; [by right|done]]].
      unfold pend, cur, jlen. cbn [j_st j_en j_low j_high j_weight]. rewrite decide_False by lia. split; [by rewrite HlH1|].
      destruct Hex' as [Hex'|(D & V & HD & HV & Hs & Hp & HpM & HL0 & HL1 & F0 & F1 & F2)]; [by right|]. left. rewrite Hv1, !fmap_app, HD, HV.
      exists (D ++ (wpair <$> R')), V, (high + 1). split; [by rewrite <-app_assoc|].
      split; [rewrite app_length, fmap_length; replace (Z.of_nat (length D + length R')) with en by (rewrite <-HD, fmap_length; lia); exact Hs|].
      split; [lia|]. split.
      + intros x [Hx|Hx]%elem_of_app; [apply Hp in Hx; lia|]. destruct (Hparts' x Hx); lia.
      + intros p Hp'. rewrite lpw_app. specialize (Hka Hkl1). specialize (Hkb Hkh1).
        destruct (decide (p < low)) as [Hpl|Hpl].
        * rewrite (lpw_zero (wpair <$> R')); [rewrite Z.add_0_r; apply HpM; lia|]. intros x Hx. destruct (Hparts' x Hx); lia.
        * rewrite (lpw_zero D) by (intros x Hx; apply Hp in Hx; lia). assert (p = low ∨ p = high) as [-> | ->] by lia; fold w0 w1; (split; [lia|]; intros Hcalm; destruct (F2 Hcalm); lia).
  Qed.

  Lemma wpe_rb_job_room s j (Q : rb_state → Prop) : good (rb_H s) (rb_cut s) → rsane (j :: rb_jobs s) (rb_H s) →
    (∀ s', good (rb_H s') (rb_cut s') → rsane (rb_jobs s') (rb_H s') → rb_splits s < rb_splits s' →
       rb_splits s' + zsum (jlen <$> rb_jobs s') = rb_splits s + zsum (jlen <$> j :: rb_jobs s) → Q s') →
    wpe E (rb_job bis M opts s j) Q.
  Proof.
    intros Hg Hs HQ. unfold rb_job. apply wpe_bind.
    assert (0 < jlen j) as Hj. { destruct Hs as [Hok _]. apply Forall_cons in Hok as [Hj _]. unfold j_ok in Hj. unfold jlen. lia. }
    set (T := rb_splits s + zsum (jlen <$> j :: rb_jobs s)) in *.
    apply (wpe_loopM E _ (λ x : rb_state * job, good (rb_H (fst x)) (rb_cut (fst x)) ∧ rsane (pend (snd x) (rb_jobs (fst x))) (rb_H (fst x)) ∧ 0 ≤ jlen (snd x) ∧
      rb_splits (fst x) + zsum (jlen <$> snd x :: rb_jobs (fst x)) = T ∧ (rb_splits s < rb_splits (fst x) ∨ 0 < jlen (snd x) ∧ rb_splits (fst x) = rb_splits s))
      (λ x, Z.to_nat (jlen (snd x)))).
    2:{ cbn [fst snd]. split; [done|]. split; [unfold pend; by rewrite decide_True|]. split; [lia|]. split; [done|]. right. done. }
    2:{ cbn [snd]. unfold jlen. lia. }
    intros [s1 cur] (Hg1 & Hs1 & Hc & HT & Hsp). cbn [fst snd] in *. change (j_high cur - j_low cur) with (jlen cur). destruct (decide (jlen cur > 0)) as [Hl|Hl].
    - unfold pend in Hs1. rewrite decide_True in Hs1 by lia. apply wpe_bind, wpe_rb_split_room; [done|done|].
      intros s' j' Hg' Hs' Hj' Hsp' Hsum _. apply wpe_ret. cbn [fst snd]. split; [|lia]. split; [done|]. split; [done|]. split; [lia|]. split; [lia|]. left. lia.
    - apply wpe_ret, wpe_ret. cbn [fst snd]. unfold pend in Hs1. rewrite decide_False in Hs1 by lia. apply HQ; [done|done|lia|].
      rewrite <-HT. csimpl. rewrite zsum_cons. lia.
  Qed.

  Lemma wpe_rb_loop_room s (Q : rb_state → Prop) : good (rb_H s) (rb_cut s) → rsane (rb_jobs s) (rb_H s) →
    zsum (jlen <$> rb_jobs s) ≤ k - 1 →
    (∀ s', good (rb_H s') (rb_cut s') → rb_jobs s' = [] → rb_splits s' = rb_splits s + zsum (jlen <$> rb_jobs s) →
       (∀ v, v ∈ h_verts (rb_H s') → 0 ≤ v_part v < k) → (∀ p, 0 ≤ p < k → part_weight (rb_H s') p ≤ M ∧ (calm → 0 < part_weight (rb_H s') p)) → Q s') →
    wpe E (rb_loop bis k M opts s) Q.
  Proof.
    intros Hg Hs Hsum HQ. unfold rb_loop.
    apply (wpe_loopM E _ (λ s1, good (rb_H s1) (rb_cut s1) ∧ rsane (rb_jobs s1) (rb_H s1) ∧ rb_splits s1 + zsum (jlen <$> rb_jobs s1) = rb_splits s + zsum (jlen <$> rb_jobs s) ∧ rb_splits s ≤ rb_splits s1)
      (λ s, Z.to_nat (zsum (jlen <$> rb_jobs s)))); [|done|lia].
    intros s1 (Hg1 & Hs1 & Hsum1 & Hsp1). destruct (rb_jobs s1) as [|j js] eqn:Hjs.
    - apply wpe_ret. change (zsum (jlen <$> [])) with 0 in Hsum1. destruct Hs1 as [_ [(D & V & lab & Heq & Hst & Hlab & HD & HDM)|[_ Hx]]]; [|by apply Exists_nil in Hx].
      inversion Hst; subst. rewrite app_nil_r in Heq. apply HQ; [done|done|lia| |].
      + intros v Hv. assert (wpair v ∈ D) as Hx by (rewrite <-Heq; by apply elem_of_list_fmap_1). apply HD in Hx. exact Hx.
      + intros p Hp. rewrite <-lpw_part_weight, Heq. by apply HDM.
    - apply wpe_bind, wpe_rb_job_room; [done|done|]. intros s' Hg' Hs' Hlt Hsum'. cbn [rb_splits rb_jobs] in *. apply wpe_ret. split; [split; [done|split; [done|split; lia]]|].
      assert (0 ≤ zsum (jlen <$> rb_jobs s')); [|lia]. apply zsum_nonneg. intros x (j' & -> & Hj')%elem_of_list_fmap.
      destruct Hs' as [Hok _]. rewrite Forall_forall in Hok. specialize (Hok j' Hj'). unfold j_ok in Hok. unfold jlen. lia.
  Qed.
End room.

Lemma whole_rexact calm B M k H : 2 ≤ k → fits calm B M k (tot_weight H) →
  rexact calm B k M [Job 0 (Z.of_nat (length (h_verts H))) 0 (k - 1) (tot_weight H)] (wpair <$> h_verts H).
Proof.
  intros Hk Hf. exists [], (wpair <$> h_verts H), 0. split; [done|]. split; [|split; [lia|split; [set_solver|lia]]].
  rewrite <-(app_nil_r (wpair <$> h_verts H)).
  constructor; cbn [j_st j_en j_low j_high j_weight]; try done; try lia.
  - by rewrite fmap_length.
  - unfold tot_weight. by rewrite <-list_fmap_compose.
  - by replace (k - 1 - 0 + 1) with k by lia.
  - replace (k - 1 + 1) with k by lia. constructor.
Qed.
Lemma whole_ok k H : 2 ≤ k → (∀ v, v ∈ h_verts H → 0 < v_weight v) →
  Forall (j_ok k (tot_weight H) (Z.of_nat (length (h_verts H)))) [Job 0 (Z.of_nat (length (h_verts H))) 0 (k - 1) (tot_weight H)].
Proof.
  intros Hk Hpos. constructor; [|constructor]. unfold j_ok. cbn [j_st j_en j_low j_high j_weight].
  assert (0 ≤ tot_weight H). { apply zsum_nonneg. intros w (v & -> & Hv)%elem_of_list_fmap. apply Z.lt_le_incl. by apply Hpos. } lia.
Qed.

Lemma room_fits (calm : Prop) B k M W : 0 ≤ B → 2 ≤ k → enough_room B k M W → (calm → moderate_room k M W) → fits calm B M k W.
Proof.
  intros HB Hk Hr Hc. split; [|exact Hc]. etransitivity; [|exact Hr]. unfold need. pose proof (log2_up_pos k Hk) as Hm.
  apply Z.mul_le_mono_nonneg_l; [nia|]. unfold gam. case_decide as Hd; [rewrite Hd; lia|lia].
Qed.
Lemma room_needed_nonneg opts n b : 0 ≤ b → 0 ≤ room_needed opts n b.
Proof.
  intros Hb. unfold room_needed, heaviest. destruct (o_bisection opts); [done|]. case_decide; [done|].
  apply Z.mul_nonneg_nonneg; [done|]. apply Z.pow_nonneg. lia.
Qed.

(** recursive bisection on one processor, with room *)
Lemma wpe_recursive_bisect_room (E : err → Prop) calm bis H k eps opts b B M (Q : hg → Prop) :
  E UB ∨ calm → (o_metric opts = CutNet → E UB) → 0 ≤ B → bis_room opts b (Z.of_nat (length (h_verts H))) B bis → rb_pre H → 2 ≤ k ≤ 2 ^ 50 →
  d_trunc (d_div (d_mul (d_add d_one eps) (d_of_Z (tot_weight H))) (d_of_Z k)) = Some M → 0 ≤ M → M * k ≤ 2 ^ 50 →
  (∀ v, v ∈ h_verts H → v_weight v ≤ b) → fits calm B M k (tot_weight H) →
  (∀ H', (∀ v, v ∈ h_verts H' → 0 ≤ v_part v < k) → (∀ p, 0 ≤ p < k → part_weight H' p ≤ M ∧ (calm → 0 < part_weight H' p)) →
     (o_metric opts = LambdaMinusOne → same_up_to_order_and_parts H H') → same_nets_up_to_order H H' → Q H') →
  wpe E (recursive_bisect_with bis H k eps opts) Q.
Proof.
  intros HE HE3 HB Hbis Hpre Hk HM HM0 HMk Hwb Hf HQ. unfold recursive_bisect_with. apply wpe_bind.
  assert (global_weight [H] !! 0%nat = Some (tot_weight H)) as Hgw.
  { unfold global_weight, bulk_sum. csimpl. by rewrite total_weight_spec. }
  eapply wpe_nidx; [exact Hgw|]. apply wpe_bind. unfold max_weight, d_to_Z. rewrite HM. apply wpe_of_option_Some with M; [done|].
  assert (good H opts H []) as Hg0.
  { split; [done|]. split; [done|]. split; [done|]. split; [done|]. split; [done|]. destruct (o_metric opts); [rewrite app_nil_r; by split|done]. }
  apply wpe_bind. eapply (wpe_rb_loop_room E calm HE bis b _ B HB H opts Hbis HE3 k M Hk HM0 HMk ltac:(apply Hpre) (tot_weight H) ltac:(apply Hpre) ltac:(done) Hwb eq_refl); [exact Hg0| | |].
  - split; cbn [rb_jobs rb_H]; [apply whole_ok; [lia|apply Hpre]|left; by apply whole_rexact; [lia|]].
  - cbn [rb_splits rb_jobs]. csimpl. rewrite zsum_cons. change (zsum []) with 0. unfold jlen. cbn [j_high j_low]. lia.
  - intros s' Hg _ Hsp Hp HM'. apply (wpe_rb_finish E H); [apply Hpre|done| |lia|].
    { rewrite Hsp. cbn [rb_splits rb_jobs]. csimpl. rewrite zsum_cons. change (zsum []) with 0. unfold jlen. cbn [j_high j_low]. lia. }
    intros H' Hv Hl Hs. eapply HQ; [| |done|done].
    + intros v Hv'. apply (elem_of_list_fmap_1 wpair) in Hv'. rewrite Hv in Hv'. apply elem_of_list_fmap in Hv' as (u & [= _ ->] & Hu). by apply Hp.
    + intros p Hpp. rewrite <-lpw_part_weight, Hv, lpw_part_weight. by apply HM'.
Qed.

(** the program for several processors, on one processor: with the lambda-minus-one metric it is recursive_bisect_with *)
Lemma recursive_par_one bis bisp H k eps eta opts w : o_metric opts = LambdaMinusOne →
  recursive_bisect_par_with bis bisp [H] k eps eta opts w = bind (recursive_bisect_with bis H k eps opts) (λ H', ret [H']) w.
Proof.
  intros Hm. unfold recursive_bisect_par_with, recursive_bisect_with.
  assert (global_weight [H] = [tot_weight H]) as ->. { unfold global_weight, bulk_sum. csimpl. by rewrite total_weight_spec. }
  assert (with_sample_size (o_sample_size opts / Z.of_nat (length [H])) opts = opts) as ->.
  { destruct opts. unfold with_sample_size. cbn. by rewrite Z.div_1_r. }
  unfold agreed, guardM, nidx, of_option. cbn [forallb]. unfold bind, ret at 1. cbn. unfold ret.
  destruct (max_weight (tot_weight H) k eps w) as [[M w1]|e]; [|done].
  unfold rb_group, rb_alone, bind. destruct (Z.to_nat k); cbn [fmap list_fmap fst snd]; replace (k - 1 + 1) with k by lia;
    (destruct (rb_loop _ _ _ _ _ w1) as [[s w2]|e]; [|done]); by rewrite decide_False by congruence.
Qed.
