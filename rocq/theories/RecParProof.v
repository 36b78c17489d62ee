(** Recursive bisection on several processors: the groups of processors. *)
From Verif Require Export RecParBase.

(** ** The functions that recursive bisection uses; within the limits if [strict] *)
Definition bisp_ok (strict : Prop) (bisp : list (hg * (Z * Z)) → options → Z * Z → Z * Z → M (list (hg * (Z * Z)))) : Prop :=
  ∀ (E : err → Prop) gn (G : list work) opts mx low high (Q : list (hg * (Z * Z)) → Prop),
    (strict → E Abort) → E UB → (E Abort ∨ (o_bisection opts = BisMultilevel → o_sampling opts ≠ SampRandom)) →
    (o_bisection opts = BisMultilevel → 0 < o_sample_size opts) →
    spread_pre gn (fst <$> G) → G ≠ [] → (∀ g, g ∈ G → 0 ≤ snd g ≤ Z.of_nat (length (h_verts (fst g)))) →
    0 ≤ fst mx → 0 ≤ snd mx → low ≠ high →
    (∀ rs, Forall2 (job_ranged low high) G rs →
       (strict → zsum ((λ r : hg * (Z * Z), fst (snd r)) <$> rs) ≤ fst mx ∧ zsum ((λ r : hg * (Z * Z), snd (snd r)) <$> rs) ≤ snd mx) → Q rs) →
    wpe E (bisp ((λ g : work, (fst g, (0, snd g))) <$> G) opts mx (low, high)) Q.
Lemma bisect_par_ok bp : lawful_family bp → bisp_ok False (bisect_par bp).
Proof.
  intros Hbp E gn G opts mx low high Q _ HU HA HS Hpre Hne Hr Hm0 Hm1 Hlh HQ. unfold bisect_par. rewrite fmap_length.
  destruct (o_bisection opts) eqn:Hb.
  - set (p := Z.of_nat (length G)).
    assert (0 < p) by (unfold p; destruct G; [done|simpl; lia]).
    eapply (wpe_mapP E _ (λ t j r, ∃ g, G !! t = Some g ∧ job_ranged low high g r)).
    + intros t j Ht. apply list_lookup_fmap_Some in Ht as (g & Hg & ->). cbn [fst snd].
      pose proof (bisect1_ok bp Hbp E (fst g) opts (Z.quot (fst mx) p, Z.quot (snd mx) p) 0 (snd g) low high) as Hx. unfold bisect1 in Hx. rewrite Hb in Hx.
      assert (g ∈ G) as Hin by (by eapply elem_of_list_lookup_2).
      apply Hx; [done|eapply spread_member; [exact Hpre|by apply elem_of_list_fmap_1]|cbn [fst snd]..].
      * apply Z.quot_pos; lia.
      * apply Z.quot_pos; lia.
      * by destruct (Hr g Hin).
      * by destruct (Hr g Hin).
      * done.
      * intros H' R' HR _. exists g. split; [done|]. exists R'. done.
    + rewrite fmap_length. intros rs Hlen Hrs. apply HQ; [|done]. apply Forall2_same_length_lookup. split; [done|]. intros t g r Hg Hr'.
      destruct (Hrs t (fst g, (0, snd g)) r) as (g' & Hg' & Hj); [by rewrite list_lookup_fmap, Hg|done|]. congruence.
  - pose proof (spread_length _ _ Hpre) as Hlen.
    assert (fst <$> ((λ g : work, (fst g, (0, snd g))) <$> G) = fst <$> G) as Hfst by (rewrite <-list_fmap_compose; by apply list_fmap_ext).
    eapply (wpe_bisect_multilevel_par bp E gn); rewrite ?Hfst; [done|apply Hpre|apply Hpre|by intros ->%fmap_nil_inv| |apply Hpre|apply Hpre| |lia|done|done|auto| |by left|].
    + intros j (g & -> & Hg)%elem_of_list_fmap. destruct (Hr g Hg). split; cbn [fst snd]; lia.
    + pose proof (sp_total _ _ Hpre). unfold long_max. lia.
    + destruct HA as [?|HA]; [by left|right; by apply HA].
    + intros rs HF. apply HQ; [|done]. rewrite Forall2_fmap_l in HF. apply Forall2_same_length_lookup. split; [exact (Forall2_length _ _ _ HF)|].
      intros t g r Hgt Hrt. pose proof (Forall2_lookup_lr _ _ _ _ _ _ HF Hgt Hrt) as Hjd. assert (g ∈ G) as Hg by (by eapply elem_of_list_lookup_2). destruct Hjd as (side & HRl & HC & Hw). cbn [fst snd] in HRl, Hw.
      destruct (Hr g Hg). destruct (range_labelled_segment (fst g) 0 (snd g) low high side (fst r)) as (Hbr & Hl0 & Hl1); [lia|lia|done..|].
      exists (range (fst r) 0 (snd g)). split; [done|]. by rewrite Hw, Hl0, Hl1.
Qed.

(** a bisection that gives up if a limit is exceeded *)
Definition checked_par (bisp : list (hg * (Z * Z)) → options → Z * Z → Z * Z → M (list (hg * (Z * Z))))
    (jobs : list (hg * (Z * Z))) (opts : options) (mx labels : Z * Z) : M (list (hg * (Z * Z))) :=
  rs <- bisp jobs opts mx labels ;;
  guardM Abort (bool_decide (zsum ((λ r : hg * (Z * Z), fst (snd r)) <$> rs) ≤ fst mx ∧ zsum ((λ r : hg * (Z * Z), snd (snd r)) <$> rs) ≤ snd mx)) ;;;
  ret rs.
Lemma checked_par_ok bisp : bisp_ok False bisp → bisp_ok True (checked_par bisp).
Proof.
  intros Hb E gn G opts mx low high Q HA HU _ HS Hpre Hne Hr Hm0 Hm1 Hlh HQ. unfold checked_par. apply wpe_bind. eapply Hb; try done; [left; by apply HA|].
  intros rs HF _. unfold guardM. case_bool_decide as Hd.
  - apply wpe_bind, wpe_ret, wpe_ret. by apply HQ.
  - apply wpe_bind, wpe_fail. by apply HA.
Qed.

(** the vertices of one half are not left on the processors of the other *)
Lemma red_separated (Hs : list hg) (sh : list share) low high p_low s H a r : low ≠ high → (∀ v, v ∈ all_verts Hs → 0 < v_weight v) →
  red_result Hs sh low high p_low s H a r →
  (sh_part a = 0 → room_for 1 high Hs sh → ∀ v, v ∈ h_verts (fst r) → v_part v ≠ high) ∧
  (sh_part a = 1 → p_low > 0 → room_for 0 low Hs sh → ∀ v, v ∈ h_verts (fst r) → v_part v ≠ low).
Proof.
  intros Hlh Hw [R1 R2 Rg Rz R3 R4 R5 R6 R7].
  assert (∀ label v, kept_weight label H (fst r) ≤ 0 → v ∈ h_verts (fst r) → v ∈ h_verts H → v_part v ≠ label) as Hnone.
  { intros label v Hk Hv Hvh Hl. unfold kept_weight in Hk.
    assert (v ∈ filter (λ v, v_part v = label ∧ v ∈ h_verts H) (h_verts (fst r))) as Hin by by apply elem_of_list_filter.
    apply elem_of_Permutation in Hin as [l Hl']. rewrite Hl' in Hk. csimpl in Hk. rewrite zsum_cons in Hk.
    assert (0 < v_weight v) by (apply Hw, all_verts_elem; exists H; split; [by eapply elem_of_list_lookup_2|done]).
    assert (0 ≤ zsum (v_weight <$> l)); [|lia]. apply zsum_nonneg. intros x (u & -> & Hu)%elem_of_list_fmap.
    assert (u ∈ filter (λ v, v_part v = label ∧ v ∈ h_verts H) (h_verts (fst r))) as Hin by (rewrite Hl'; by right).
    apply elem_of_list_filter in Hin as [[_ Huh] _].
    assert (0 < v_weight u); [|lia]. apply Hw, all_verts_elem. exists H; split; [by eapply elem_of_list_lookup_2|done]. }
  split.
  - intros Hp Hroom v Hv. specialize (R4 Hroom). unfold limit_for in *. rewrite Hp in *. simpl in *.
    destruct (R5 v Hv) as [Hin|[(_ & Hl & _)|[_ Hl]]]; [|congruence|lia]. by apply Hnone.
  - intros Hp Hpl Hroom v Hv. specialize (R3 Hpl Hroom). unfold limit_for in *. rewrite Hp in *. simpl in *.
    destruct (R5 v Hv) as [Hin|[(_ & _ & Hl)|[Hl _]]]; [|lia|congruence]. by apply Hnone.
Qed.
(** limits that are enough for an equal share each are enough together *)
Lemma limits_enough g W c (l : list share) : 0 < c → Z.of_nat (length l) = c → (∀ a, a ∈ l → sh_part a = g ∧ W ≤ sh_max a * c) →
  W ≤ zsum (limit_for g <$> l).
Proof.
  intros Hc Hl Ha. assert (W * Z.of_nat (length l) ≤ zsum (limit_for g <$> l) * c) as Hx; [|rewrite Hl in Hx; nia].
  clear Hl. induction l as [|a l IH]; [change (zsum (limit_for g <$> [])) with 0; simpl; lia|]. csimpl. rewrite zsum_cons. specialize (IH ltac:(intros; apply Ha; by right)).
  destruct (Ha a ltac:(by left)) as [Hg HW]. unfold limit_for at 1. rewrite decide_True by done. lia.
Qed.

Section regroup.
  Context (eta : dbl) (Hv : valid_binary 53 1024 eta = true) (He0 : d_le d_zero eta = true) (He1 : d_le eta (d_of_Z (2 ^ 50)) = true) (gn : Z).

  Lemma wpe_regroup (E' : err → Prop) (rs : list (hg * (Z * Z))) low high p_low (Q : list work → Prop) : E' UB ∨ d_le eta (d_of_Z 1024) = true →
    spread_pre gn (fst <$> rs) → low ≠ high → (∀ r, r ∈ rs → snd r = (part_weight (fst r) low, part_weight (fst r) high)) →
    Z.of_nat (length rs) ≤ 2 ^ 50 → 0 ≤ p_low ≤ Z.of_nat (length rs) →
    (∀ G', rearranged gn (fst <$> rs) (fst <$> G') → all_verts (fst <$> G') ≡ₚ all_verts (fst <$> rs) →
       (∀ g, g ∈ G' → 0 ≤ snd g ≤ Z.of_nat (length (h_verts (fst g))) ∧ (0 < p_low → aside g = []) ∧
          (∀ v, v ∈ aside g → v_part v = low) ∧ (p_low = 0 → lpw (wpair <$> aside g) low = part_weight (fst g) low)) →
       (∀ t g, G' !! t = Some g → (Z.of_nat t < p_low → p_low < Z.of_nat (length rs) → ∀ v, v ∈ h_verts (fst g) → v_part v ≠ high) ∧
          (0 < p_low ≤ Z.of_nat t → ∀ v, v ∈ h_verts (fst g) → v_part v ≠ low) ∧ (0 < p_low → snd g = Z.of_nat (length (h_verts (fst g)))) ∧
          (p_low = 0 → ∀ i v, h_verts (fst g) !! i = Some v → (v_part v = low ↔ snd g ≤ Z.of_nat i))) → Q G') →
    wpe E' (regroup eta rs low high (gpart_weight (fst <$> rs) low) (gpart_weight (fst <$> rs) high) p_low) Q.
  Proof.
    intros HE' Hpre1 Hlh Hown Hlen Hpl HQ.
    assert (∀ q, 0 ≤ gpart_weight (fst <$> rs) q ≤ 2 ^ 50) as Hgw.
    { intros q. split.
      - apply zsum_nonneg. intros x (v & -> & [_ Hv']%elem_of_list_filter)%elem_of_list_fmap. apply Z.lt_le_incl. by apply (sp_weight _ _ Hpre1).
      - etrans; [|apply (sp_total _ _ Hpre1)]. unfold gpart_weight, gweight. pose proof (sp_weight _ _ Hpre1) as Hw. clear -Hw.
        induction (all_verts rs.*1) as [|v l IH]; [done|]. specialize (IH ltac:(intros; apply Hw; by right)). pose proof (Hw v ltac:(by left)).
        rewrite filter_cons. case_decide; csimpl; rewrite !zsum_cons; lia. }
    unfold regroup. cbv zeta. apply wpe_bind.
    eapply (wpe_ranks _ _ _ (λ s a, ∃ r, rs !! s = Some r ∧ (sh_part a = 0 ∨ sh_part a = 1) ∧ 0 ≤ sh_max a ∧ sh_w0 a = fst (snd r) ∧ sh_w1 a = snd (snd r) ∧
      sh_part a = my_part p_low s ∧ (Z.of_nat s < p_low → gpart_weight (fst <$> rs) low ≤ sh_max a * p_low) ∧
      (p_low ≤ Z.of_nat s → gpart_weight (fst <$> rs) high ≤ sh_max a * (Z.of_nat (length rs) - p_low)))).
    { intros s Hs. destruct (lookup_lt_is_Some_2 rs s Hs) as [r Hr]. apply wpe_bind. eapply wpe_nidx; [exact Hr|]. apply wpe_bind.
      assert (my_part p_low s = 0 ∨ my_part p_low s = 1) as Hmy by (unfold my_part; case_decide; auto).
      destruct (decide (Z.of_nat s < p_low)) as [Hlt|Hge].
      - rewrite decide_True by (unfold my_part; by rewrite decide_True). apply wpe_local_limit; [apply Hgw|lia|done|done|done|done|]. intros z Hz Hz'. apply wpe_ret. exists r. cbn [sh_part sh_max sh_w0 sh_w1]. split_and!; try done. lia.
      - rewrite decide_False by (unfold my_part; by rewrite decide_False). apply wpe_local_limit; [apply Hgw|lia|done|done|done|done|]. intros z Hz Hz'. apply wpe_ret. exists r. cbn [sh_part sh_max sh_w0 sh_w1]. split_and!; try done; lia. }
    intros sh Hlsh Hsh.
    assert (proper_shares (fst <$> rs) sh low high) as Hps.
    { assert (∀ s r, rs !! s = Some r → fst (snd r) = part_weight (fst r) low ∧ snd (snd r) = part_weight (fst r) high) as Hrw.
      { intros s r Hr. rewrite (Hown r); [done|]. by eapply elem_of_list_lookup_2. }
      split.
      - by rewrite fmap_length.
      - intros a [s Ha]%elem_of_list_lookup. by destruct (Hsh s a Ha) as (r & _ & ? & _).
      - intros a [s Ha]%elem_of_list_lookup. by destruct (Hsh s a Ha) as (r & _ & _ & ? & _).
      - intros s H a HH Ha. apply list_lookup_fmap_Some in HH as (r & Hr & ->). destruct (Hsh s a Ha) as (r' & Hr' & _ & _ & -> & _). assert (r' = r) as -> by congruence. by apply (Hrw s).
      - intros s H a HH Ha. apply list_lookup_fmap_Some in HH as (r & Hr & ->). destruct (Hsh s a Ha) as (r' & Hr' & _ & _ & _ & -> & _). assert (r' = r) as -> by congruence. by apply (Hrw s). }
    eapply (wpe_redistribute gn); [apply Hpre1| |done|done|].
    { intros v Hv'. apply Z.lt_le_incl. by apply (sp_weight _ _ Hpre1). }
    intros G' Hl' HD' Hp' Hn' HG'. apply HQ; [|done| |].
    - assert (Forall2 (λ H g, h_gsize (fst g) = h_gsize H ∧ h_nz (fst g) = h_nz H) (fst <$> rs) G') as HF.
      { apply Forall2_same_length_lookup. rewrite fmap_length in *. split; [done|]. intros s H g Hh Hg.
        destruct (HG' s g Hg) as (H' & a & [Hh' _ Hgs Hnz _ _ _ _ _]). rewrite Hh in Hh'. by injection Hh' as <-. }
      split; [done|by rewrite fmap_length|by rewrite Hp'|done| |]; clear -HF; induction HF as [|H g l l' [Hgs Hnz] _ IH]; csimpl; try done; by rewrite IH, ?Hgs, ?Hnz.
    - intros g [s Hg]%elem_of_list_lookup. destruct (HG' s g Hg) as (H & a & [Hh _ _ _ _ _ _ Hend1 Hend0]).
      destruct (decide (0 < p_low)) as [Hp|Hp].
      + specialize (Hend1 ltac:(lia)). assert (aside g = []) as Hnil by (unfold aside; rewrite Hend1, Nat2Z.id; by rewrite drop_all).
        rewrite Hnil. split; [lia|]. split; [done|]. split; [set_solver|lia].
      + destruct (Hend0 ltac:(lia)) as (n & Hn & Hnl & Hi). rewrite Hn. split; [lia|]. split; [lia|].
        assert (aside g = drop n (h_verts (fst g))) as Hasg by (unfold aside; by rewrite Hn, Nat2Z.id).
        assert (∀ v, v ∈ aside g → v_part v = low) as Hal.
        { intros v. rewrite Hasg. intros [i Hv']%elem_of_list_lookup. rewrite lookup_drop in Hv'. apply (Hi (n + i)%nat v Hv'). lia. }
        split; [done|]. intros _. rewrite <-lpw_part_weight. rewrite <-(take_drop n (h_verts (fst g))), fmap_app, lpw_app, <-Hasg.
        rewrite (lpw_zero (wpair <$> take n _)); [lia|]. intros x (v & -> & Hx)%elem_of_list_fmap. simpl. apply elem_of_list_lookup in Hx as [i Hx].
        pose proof (lookup_lt_Some _ _ _ Hx) as Hlt. rewrite take_length in Hlt. rewrite lookup_take in Hx by lia. intros Hlow. apply (Hi i v Hx) in Hlow. lia.
    - assert (∀ q l, (∀ a, a ∈ l → a ∈ sh) → 0 ≤ zsum (limit_for q <$> l)) as Hge.
      { intros q l Hl. apply zsum_nonneg. intros x (a & -> & Ha)%elem_of_list_fmap. unfold limit_for. case_decide; [|done]. by apply (ps_max _ _ _ _ Hps), Hl. }
      set (n := Z.to_nat p_low).
      assert (sh = take n sh ++ drop n sh) as Hts by (by rewrite take_drop).
      assert (∀ a, a ∈ take n sh → a ∈ sh) as Hin1 by (intros a Ha; rewrite Hts; set_solver).
      assert (∀ a, a ∈ drop n sh → a ∈ sh) as Hin2 by (intros a Ha; rewrite Hts; set_solver).
      assert (0 < p_low → room_for 0 low (fst <$> rs) sh) as Hroom0.
      { intros Hp. unfold room_for. rewrite Hts, fmap_app, zsum_app. specialize (Hge 0 _ Hin2).
        assert (gpart_weight (fst <$> rs) low ≤ zsum (limit_for 0 <$> take n sh)); [|lia].
        apply (limits_enough 0 _ p_low); [done|rewrite take_length; lia|]. intros a [s Ha]%elem_of_list_lookup.
        pose proof (lookup_lt_Some _ _ _ Ha) as Hlt. rewrite take_length in Hlt. rewrite lookup_take in Ha by lia.
        destruct (Hsh s a Ha) as (r & _ & _ & _ & _ & _ & -> & Hm & _). unfold my_part. rewrite decide_True by lia. split; [done|]. apply Hm. lia. }
      assert (p_low < Z.of_nat (length rs) → room_for 1 high (fst <$> rs) sh) as Hroom1.
      { intros Hp. unfold room_for. rewrite Hts, fmap_app, zsum_app. specialize (Hge 1 _ Hin1).
        assert (gpart_weight (fst <$> rs) high ≤ zsum (limit_for 1 <$> drop n sh)); [|lia].
        apply (limits_enough 1 _ (Z.of_nat (length rs) - p_low)); [lia|rewrite drop_length; lia|]. intros a [s Ha]%elem_of_list_lookup.
        rewrite lookup_drop in Ha. destruct (Hsh _ a Ha) as (r & _ & _ & _ & _ & _ & -> & _ & Hm). unfold my_part. rewrite decide_False by lia. split; [done|]. apply Hm. lia. }
      intros t g Hg. destruct (HG' t g Hg) as (H & a & Hres). pose proof (rr_share _ _ _ _ _ _ _ _ _ Hres) as Hat.
      destruct (red_separated (fst <$> rs) sh low high p_low t H a g Hlh (sp_weight _ _ Hpre1) Hres) as [Hs0 Hs1].
      destruct (Hsh t a Hat) as (_ & _ & _ & _ & _ & _ & Hpa & _). unfold my_part in Hpa. split_and!.
      + intros Ht Hp. rewrite decide_True in Hpa by done. by apply Hs0, Hroom1.
      + intros Ht. rewrite decide_False in Hpa by lia. apply Hs1; [done|lia|]. apply Hroom0. lia.
      + intros Hp. apply (rr_end_high _ _ _ _ _ _ _ _ _ Hres). lia.
      + intros Hp. destruct (rr_end_low _ _ _ _ _ _ _ _ _ Hres) as (n0 & -> & Hn0 & Hpos); [lia|]. intros i v Hi. rewrite (Hpos i v Hi). lia.
  Qed.
End regroup.

Section group.
  Context (strict : Prop) (bis : hg → options → Z * Z → Z → Z → Z * Z → M (hg * (Z * Z))) (Hbis : bis_ok strict bis).
  Context (bisp : list (hg * (Z * Z)) → options → Z * Z → Z * Z → M (list (hg * (Z * Z)))) (Hbisp : bisp_ok strict bisp).
  Context (eta : dbl) (Hv : valid_binary 53 1024 eta = true) (He0 : d_le d_zero eta = true) (He1 : d_le eta (d_of_Z (2 ^ 50)) = true).
  Context (opts : options) (Hmet : o_metric opts = LambdaMinusOne) (k M : Z) (Hk : 2 ≤ k ≤ 2 ^ 50) (HM : 0 ≤ M) (HMk : M * k ≤ 2 ^ 50) (gn : Z).
  Context (E : err → Prop) (HA : strict → E Abort) (HU : E UB) (HR : E Abort ∨ (o_bisection opts = BisMultilevel → o_sampling opts ≠ SampRandom)).
  Context (HS : o_bisection opts = BisMultilevel → 0 < o_sample_size opts).

  Lemma wpe_rb_alone (g : work) low high weight (Q : hg → Prop) : spread_pre gn [fst g] → set_aside low g → 0 ≤ low < high → high < k →
    0 ≤ weight ≤ 2 ^ 50 → (strict → aside g = []) →
    (∀ H', rearranged gn [fst g] [H'] → (∀ v, v ∈ h_verts H' → 0 ≤ v_part v < k) →
       (strict → (∀ q, low ≤ q ≤ high → part_weight H' q ≤ M) ∧ ∀ v, v ∈ h_verts H' → low ≤ v_part v ≤ high) → Q H') →
    wpe E (rb_alone bis M opts (fst g) (snd g) low high weight) Q.
  Proof.
    intros Hpre [Hen Has] Hlow Hhigh Hw Hst HQ. unfold rb_alone. apply wpe_bind.
    pose proof (spread_member gn _ (fst g) Hpre ltac:(by left)) as Hrb.
    assert (good (fst g) opts (fst g) []) as Hg0.
    { split; [done|]. split; [done|]. split; [done|]. split; [done|]. split; [done|]. by rewrite Hmet. }
    eapply (wpe_rb_loop strict bis Hbis (fst g) opts (high + 1) M ltac:(lia) HM ltac:(nia) (rp_cons _ Hrb) (2 ^ 50) ltac:(lia) ltac:(apply Hrb) low ltac:(lia)); [done|done|exact Hg0| | |].
    - eapply exact_sane; [lia|]. cbn [rb_jobs rb_H]. exists [], (wpair <$> h_verts (fst g)), low. split; [done|]. split; [|split; [lia|split; [set_solver|lia]]].
      rewrite <-(take_drop (Z.to_nat (snd g)) (h_verts (fst g))), fmap_app.
      constructor; cbn [j_st j_en j_low j_high j_weight]; [done|lia|done| |lia|].
      + rewrite fmap_length, take_length. simpl. lia.
      + constructor; [lia| |].
        * intros x (v & -> & Hx)%elem_of_list_fmap. simpl. specialize (Has v Hx). lia.
        * intros Hs. split; [done|]. unfold aside in Hst. by rewrite (Hst Hs).
    - cbn [rb_jobs]. csimpl. rewrite zsum_cons. change (zsum []) with 0. unfold jlen. cbn [j_high j_low]. lia.
    - intros s' [Hrb' (Hidw & Hgs & Hgn & Hnz & Hkept)] _ _ Hp Hlim Hlo. rewrite Hmet in Hkept. destruct Hkept as (_ & Hn & Hvk). apply wpe_ret. apply HQ.
      + assert (all_nets [rb_H s'] = all_nets [fst g]) as Hnn by (unfold all_nets; csimpl; by rewrite Hn).
        assert (vkey <$> all_verts [rb_H s'] ≡ₚ vkey <$> all_verts [fst g]) as Hvv by (unfold all_verts; csimpl; by rewrite !app_nil_r).
        split; [|done|done|rewrite Hnn; eauto|csimpl; by rewrite Hgs|csimpl; by rewrite Hnz].
        destruct (sp_dist _ _ Hpre) as [D1 D2 D3 D4 D5]. split; rewrite ?Hnn; [| |by rewrite (vkey_ids _ _ Hvv)|done|done].
        * intros H' ->%elem_of_list_singleton. apply Hrb'.
        * intros H' ->%elem_of_list_singleton. rewrite Hgn. apply D2. by left.
      + intros v Hv'. specialize (Hp v Hv'). lia.
      + intros Hs. split; [intros q Hq; apply Hlim; [done|lia]|]. intros v Hv'. specialize (Hp v Hv'). specialize (Hlo Hs v Hv'). lia.
  Qed.


  Lemma asides_lpw (G : list work) q : lpw (wpair <$> asides G) q = zsum ((λ g, lpw (wpair <$> aside g) q) <$> G).
  Proof. unfold asides. induction G as [|g G IH]; [done|]. csimpl. by rewrite fmap_app, lpw_app, zsum_cons, IH. Qed.
  Lemma elem_asides (G : list work) v : v ∈ asides G ↔ ∃ g, g ∈ G ∧ v ∈ aside g.
  Proof.
    unfold asides. rewrite CoarsenProof.elem_of_concat. split.
    - intros (l & Hv' & (g & -> & Hg)%elem_of_list_fmap). eauto.
    - intros (g & Hg & Hv'). exists (aside g). split; [done|]. by apply elem_of_list_fmap_1.
  Qed.
  Lemma gpart_nil_asides (G : list work) q : asides G = [] → lpw (wpair <$> asides G) q = 0.
  Proof. by intros ->. Qed.

  (** what a group returns *)
  Definition group_done (G : list work) (low high : Z) (Hs' : list hg) : Prop :=
    rearranged gn (fst <$> G) Hs' ∧ (∀ v, v ∈ all_verts Hs' → 0 ≤ v_part v < k) ∧
    (strict → (∀ q, low ≤ q ≤ high → gpart_weight Hs' q ≤ M) ∧ ∀ q, ¬ (low ≤ q ≤ high) →
       gpart_weight Hs' q = if decide (high - low = 1) then lpw (wpair <$> asides G) q else 0).

  Lemma wpe_rb_group fuel : ∀ (G : list work) low high weight (Q : list hg → Prop),
    spread_pre gn (fst <$> G) → (∀ g, g ∈ G → set_aside low g) → G = [] ∨ low < high ∧ weight ≤ range_weight G → 0 ≤ low → high < k → high - low ≤ Z.of_nat fuel →
    0 ≤ weight ≤ 2 ^ 50 → Z.of_nat (length G) ≤ 2 ^ 50 → (strict → asides G = [] ∨ (1 < length G)%nat) →
    (∀ Hs', group_done G low high Hs' → Q Hs') →
    wpe E (rb_group bis bisp M eta opts fuel G low high weight) Q.
  Proof.
    induction fuel as [|fuel IH]; intros G low high weight Q Hpre Has Hlh Hlow Hhigh Hfuel Hwt Hlen Hst HQ.
    all: destruct (decide (G = [])) as [->|Hne]; [apply wpe_ret, HQ; split_and!; [apply rearranged_refl, Hpre|set_solver|intros _; split; [done|intros; by case_decide]]|].
    all: destruct Hlh as [?|[Hlh Hrw]]; [done|].
    { lia. }
    assert ((∃ g, G = [g]) ∨ ¬ ∃ g, G = [g]) as [[g ->]|Hmany] by (destruct G as [|g [|g2 G]]; [done|left; eauto|right; by intros [? ?]]).
    { cbn [rb_group]. apply wpe_bind. apply wpe_rb_alone; [done|apply Has; by left|lia|lia|done| |].
      - intros Hs. destruct (Hst Hs) as [Hnil|?]; [|simpl in *; lia]. unfold asides in Hnil. csimpl. csimpl in Hnil. by rewrite app_nil_r in Hnil.
      - intros H' Hre Hp Hlim. apply wpe_ret. apply HQ. split_and!; [done| |].
        + intros v. unfold all_verts. csimpl. rewrite app_nil_r. apply Hp.
        + intros Hs. destruct (Hlim Hs) as [HL1 HL2]. destruct (Hst Hs) as [Hnil|?]; [|simpl in *; lia].
          assert (∀ q, gpart_weight [H'] q = part_weight H' q) as Hq by (intros q; rewrite <-gpart_weight_sum; csimpl; rewrite zsum_cons; change (zsum []) with 0; lia).
          split; [intros q Hx; rewrite Hq; by apply HL1|]. intros q Hx. rewrite Hq, (gpart_nil_asides _ _ Hnil), <-lpw_part_weight. transitivity 0; [|by case_decide]. apply lpw_zero.
          intros x (v & -> & Hv')%elem_of_list_fmap. simpl. specialize (HL2 v Hv'). lia. }
    destruct (halves low high Hlh) as (Hkl & Hkh & Hklh & Hks & _ & _).
    assert (k_high_of low high ≤ k_low_of low high + 1) as Hkk.
    { unfold k_high_of, k_low_of. pose proof (Z.div_mod (high - low + 1) 2 ltac:(lia)). pose proof (Z.mod_pos_bound (high - low + 1) 2 ltac:(lia)). lia. }
    set (kl := k_low_of low high) in *. set (kh := k_high_of low high) in *.
    assert (rb_group bis bisp M eta opts (S fuel) G low high weight =
      (mx <- compute_max_global_weight (high - low + 1) kl kh weight M ;;
       rs <- bisp ((λ g : work, (fst g, (0, snd g))) <$> G) opts mx (low, high) ;;
       w0 <- agreed (bulk_sum ((λ r : hg * (Z * Z), fst (snd r)) <$> rs)) ;;
       w1 <- agreed (bulk_sum ((λ r : hg * (Z * Z), snd (snd r)) <$> rs)) ;;
       p_low <- p_low_par w0 w1 (Z.of_nat (length rs)) kl kh ;;
       go <- agreed ((λ s, let l := new_labels low high (my_part p_low s) in if decide (snd l - fst l > 0) then 1 else 0) <$> seq 0 (length rs)) ;;
       if decide (go = 1) then
         G' <- regroup eta rs low high w0 w1 p_low ;;
         let n := Z.to_nat p_low in
         let l0 := new_labels low high 0 in
         let l1 := new_labels low high 1 in
         a <- rb_group bis bisp M eta opts fuel (take n G') (fst l0) (snd l0) w0 ;;
         b <- rb_group bis bisp M eta opts fuel (drop n G') (fst l1) (snd l1) w1 ;;
         ret (a ++ b)
       else ret (fst <$> rs))) as ->.
    { destruct G as [|g [|g2 G]]; [done|exfalso; apply Hmany; eauto|]. cbn [rb_group]. rewrite decide_True by lia. done. }
    apply wpe_bind. apply wpe_compute_max_pair; [lia|lia|lia|done|nia|lia|done|]. intros mx0 mx1 Hwpos Hm0 Hm1 HmM0 HmM1 HmP.
    apply wpe_bind. eapply (Hbisp E gn); [done|done|done|done|done|done| |done|done|lia|].
    { intros g Hg. by apply Has. }
    intros rs HF Hlim. cbn [fst snd] in Hlim.
    pose proof (Forall2_length _ _ _ HF) as Hlrs. destruct (group_weights low high G rs Hlh Has HF) as (Hw0 & Hw1 & Hwq & Hparts).
    pose proof (group_range low high G rs ltac:(lia) HF) as Hrange. rewrite Hw0, Hw1 in Hlim, Hrange.
    pose proof (group_rearranged gn low high G rs Has (sp_dist _ _ Hpre) HF) as Hre1. pose proof (spread_rearranged _ _ _ Hpre Hre1) as Hpre1.
    assert (rs ≠ []) as Hrne by (intros ->; destruct G; done).
    set (W0 := gpart_weight (fst <$> rs) low) in *. set (W1 := gpart_weight (fst <$> rs) high) in *.
    assert (0 ≤ W0 ∧ 0 ≤ W1 ∧ W0 + W1 ≤ 2 ^ 50) as (HW0 & HW1 & HW).
    { pose proof (sp_total _ _ Hpre1) as Ht. pose proof (sp_weight _ _ Hpre1) as Hp. unfold W0, W1, gpart_weight, gweight in *. clear -Ht Hp Hlh.
      assert (∀ l : list vertex, (∀ v, v ∈ l → 0 < v_weight v) → 0 ≤ zsum (v_weight <$> filter (λ v, v_part v = low) l) ∧ 0 ≤ zsum (v_weight <$> filter (λ v, v_part v = high) l) ∧
        zsum (v_weight <$> filter (λ v, v_part v = low) l) + zsum (v_weight <$> filter (λ v, v_part v = high) l) ≤ zsum (v_weight <$> l)) as Hx.
      { intros l. induction l as [|v l IH]; intros Hl; [done|]. specialize (IH ltac:(intros; apply Hl; by right)). pose proof (Hl v ltac:(by left)).
        rewrite !filter_cons. case_decide; case_decide; csimpl; rewrite !zsum_cons; lia. }
      destruct (Hx _ Hp) as (? & ? & ?). lia. }
    assert (∀ (f : hg * (Z * Z) → Z) (P : Z → Prop), P (zsum (f <$> rs)) → wpe E (agreed (bulk_sum (f <$> rs))) P) as Hagree.
    { intros f P HP. unfold bulk_sum. rewrite ParBase.foldl_add_acc, Z.add_0_l. apply (wpe_agreed _ _ (zsum (f <$> rs))); [|by intros x ?%elem_of_replicate_inv|done].
      destruct rs; done. }
    apply wpe_bind. apply Hagree. rewrite Hw0. fold W0. apply wpe_bind. apply Hagree. rewrite Hw1. fold W1.
    apply wpe_bind. apply wpe_p_low; [done|done|done|destruct rs; [done|simpl in *; lia]|done|]. intros p_low Hpl Hpl1 Hpl0.
    assert (Hl0 : new_labels low high 0 = (low, low + kl - 1)). { unfold new_labels. fold kl kh. f_equal; lia. }
    assert (Hl1 : new_labels low high 1 = (low + kl, high)). { unfold new_labels. fold kl kh. f_equal; lia. }
    apply wpe_bind. apply (wpe_agreed _ _ (if decide (high - low = 1) then 0 else 1)).
    { destruct rs; done. }
    { intros x (s & -> & Hs)%elem_of_list_fmap. cbv zeta. destruct (decide (high - low = 1)) as [H1|H1].
      - rewrite decide_False; [done|]. unfold my_part. case_decide; [rewrite Hl0|rewrite Hl1]; cbn [fst snd]; lia.
      - rewrite decide_True; [done|]. apply elem_of_seq in Hs. unfold my_part. case_decide as Hlt; [rewrite Hl0|rewrite Hl1]; cbn [fst snd]; [|lia].
        destruct (decide (kl = 1)) as [Hk1|Hk1]; [|lia]. specialize (Hpl1 Hk1 ltac:(lia)). lia. }
    destruct (decide (high - low = 1)) as [H1|H1].
    { (* two labels: done *)
      rewrite decide_False by lia. apply wpe_ret. apply HQ. split_and!; [done| |].
      - intros v Hv'. destruct (Hparts v Hv') as [?|[?|?]]; lia.
      - intros Hs. destruct (Hlim Hs) as [HL0 HL1]. split.
        + intros q Hq. assert (q = low ∨ q = high) as [-> | ->] by lia; [fold W0; specialize (HmM0 ltac:(lia)); lia|fold W1; specialize (HmM1 ltac:(lia)); lia].
        + intros q Hq. rewrite decide_True by done. apply Hwq; lia. }
    rewrite decide_True by done. apply wpe_bind. apply (wpe_regroup eta Hv He0 He1 gn E rs low high p_low); [by left|done|lia| |lia|done|].
    { intros r Hr. apply elem_of_list_lookup in Hr as [t Hr]. destruct (Forall2_lookup_r _ _ _ _ _ HF Hr) as (g & Hg & Hj).
      destruct (ranged_weights low high g r) as (Hx0 & Hx1 & _); [done|apply Has; by eapply elem_of_list_lookup_2|done|]. rewrite <-Hx0, <-Hx1. by destruct (snd r). }
    intros G' Hre2 Hperm HG' Hsep.
    cbv zeta. rewrite Hl0, Hl1. cbn [fst snd]. set (n := Z.to_nat p_low).
    pose proof (spread_rearranged _ _ _ Hpre1 Hre2) as Hpre2. pose proof (rearranged_trans _ _ _ _ Hre1 Hre2) as Hre12.
    assert (length G' = length G) as HlG'. { pose proof (ra_len _ _ _ Hre12) as Hx. by rewrite !fmap_length in Hx. }
    assert (fst <$> G' = (fst <$> take n G') ++ (fst <$> drop n G')) as Hsplit by (by rewrite <-fmap_app, take_drop).
    destruct (spread_app gn (fst <$> take n G') (fst <$> drop n G')) as [HpA HpB]; [by rewrite <-Hsplit|].
    assert (kl ≠ 1 ∨ p_low = 0) as Hcase. { destruct (decide (kl = 1)) as [Hk1|Hk1]; [right; apply Hpl1; lia|by left]. }
    assert (∀ g, g ∈ take n G' → 0 < p_low) as Hpos. { intros g [i Hi]%elem_of_list_lookup. apply lookup_lt_Some in Hi. rewrite take_length in Hi. lia. }
    assert (∀ q, gpart_weight (fst <$> take n G') q + gpart_weight (fst <$> drop n G') q = gpart_weight (fst <$> rs) q) as Hsum.
    { intros q. rewrite <-gpart_weight_app, <-Hsplit. unfold gpart_weight. by rewrite Hperm. }
    assert (∀ (l : list work) q, (∀ g, g ∈ l → ∀ v, v ∈ h_verts (fst g) → v_part v ≠ q) → gpart_weight (fst <$> l) q = 0) as Hzero.
    { intros l q Hl. unfold gpart_weight. rewrite filter_none; [done|]. intros v Hx. apply all_verts_elem in Hx as (H & (g & -> & Hg)%elem_of_list_fmap & Hx). by apply (Hl g). }
    assert (∀ g, g ∈ drop n G' → ∃ t, G' !! t = Some g ∧ p_low ≤ Z.of_nat t) as Hdropt.
    { intros g [i Hi]%elem_of_list_lookup. rewrite lookup_drop in Hi. exists (n + i)%nat. split; [done|]. lia. }
    assert (∀ g, g ∈ take n G' → ∃ t, G' !! t = Some g ∧ Z.of_nat t < p_low) as Htaket.
    { intros g (i & Hi & Hlt)%(elem_of_take _ n). exists i. split; [done|]. lia. }
    assert (∀ g, g ∈ drop n G' → g ∈ G') as Hdrop. { intros g Hg. rewrite <-(take_drop n G'). apply elem_of_app. by right. }
    assert (∀ g, g ∈ take n G' → g ∈ G') as Htake. { intros g Hg. rewrite <-(take_drop n G'). apply elem_of_app. by left. }
    assert (0 < p_low → W0 ≤ range_weight (take n G')) as HrwA.
    { intros Hp. transitivity (gpart_weight (fst <$> take n G') low).
      - unfold W0. rewrite <-(Hsum low), (Hzero (drop n G')); [lia|]. intros g (t & Ht & Hlt)%Hdropt. destruct (Hsep t g Ht) as (_ & Hx & _). apply Hx. lia.
      - apply range_weight_ge; [intros v Hv'; apply Z.lt_le_incl; by apply (sp_weight _ _ HpA)|]. intros g Hg. destruct (HG' g (Htake g Hg)) as (_ & Ha2 & _).
        rewrite Ha2 by done. set_solver. }
    assert (p_low < Z.of_nat (length rs) → W1 ≤ range_weight (drop n G')) as HrwB.
    { intros Hp. transitivity (gpart_weight (fst <$> drop n G') high).
      - unfold W1. rewrite <-(Hsum high), (Hzero (take n G')); [lia|]. intros g (t & Ht & Hlt)%Htaket. destruct (Hsep t g Ht) as (Hx & _). by apply Hx.
      - apply range_weight_ge; [intros v Hv'; apply Z.lt_le_incl; by apply (sp_weight _ _ HpB)|]. intros g Hg v Hv'. destruct (HG' g (Hdrop g Hg)) as (_ & _ & Ha3 & _).
        rewrite (Ha3 v Hv'). lia. }
    assert (drop n G' = [] ∨ p_low < Z.of_nat (length rs)) as HdropE.
    { destruct (decide (p_low < Z.of_nat (length rs))); [by right|left]. apply nil_length_inv. rewrite drop_length. lia. }
    apply wpe_bind. apply IH; [done| | |lia|lia|lia|lia| |intros Hs; left|].
    { intros g Hg. destruct (HG' g) as (Ha1 & Ha2 & _); [apply (elem_of_take _ n) in Hg as (i & Hg & _); by eapply elem_of_list_lookup_2|].
      split; [done|]. rewrite Ha2 by (by eapply Hpos). set_solver. }
    { destruct (decide (p_low = 0)) as [Hp0|Hp0]; [left; unfold n; by rewrite Hp0|right]. destruct Hcase; [|done]. split; [lia|]. apply HrwA. lia. }
    { rewrite take_length. lia. }
    { destruct (asides (take n G')) as [|v l] eqn:Heq; [done|]. assert (v ∈ asides (take n G')) as (g & Hg & Hv')%elem_asides by (rewrite Heq; by left).
      destruct (HG' g) as (_ & Ha2 & _); [apply (elem_of_take _ n) in Hg as (i & Hg' & _); by eapply elem_of_list_lookup_2|]. rewrite Ha2 in Hv' by (by eapply Hpos). by apply elem_of_nil in Hv'. }
    intros A (HreA & HpaA & HsA). apply wpe_bind.
    apply IH; [done| | |lia|lia|lia|lia| | |].
    { intros g Hg. destruct (HG' g (Hdrop g Hg)) as (Ha1 & _ & Ha3 & _). split; [done|]. intros v Hv'%Ha3. lia. }
    { destruct HdropE as [?|Hlt]; [by left|right]. split; [lia|]. by apply HrwB. }
    { rewrite drop_length. lia. }
    assert (2 ≤ length rs)%nat as H2. { rewrite <-Hlrs. destruct G as [|g0 [|? ?]]; simpl in *; [done|exfalso; apply Hmany; eauto|lia]. }
    { intros Hs. destruct (decide (0 < p_low)) as [Hp|Hp].
      - left. destruct (asides (drop n G')) as [|v l] eqn:Heq; [done|]. assert (v ∈ asides (drop n G')) as (g & Hg & Hv')%elem_asides by (rewrite Heq; by left).
        destruct (HG' g (Hdrop g Hg)) as (_ & Ha2 & _). rewrite Ha2 in Hv' by done. by apply elem_of_nil in Hv'.
      - right. rewrite drop_length. lia. }
    assert (2 ≤ length rs)%nat as H2. { rewrite <-Hlrs. destruct G as [|g0 [|? ?]]; simpl in *; [done|exfalso; apply Hmany; eauto|lia]. }
    intros B (HreB & HpaB & HsB). apply wpe_ret. apply HQ. split_and!.
    - eapply rearranged_trans; [exact Hre12|]. rewrite Hsplit. apply rearranged_app; [|done|done]. rewrite <-Hsplit. apply Hpre2.
    - intros v. rewrite all_verts_app. intros [?|?]%elem_of_app; auto.
    - intros Hs. destruct (HsA Hs) as [HA1 HA2]. destruct (HsB Hs) as [HB1 HB2]. destruct (Hlim Hs) as [HL0 HL1].
      assert (∀ q, lpw (wpair <$> asides (take n G')) q = 0) as HzA.
      { intros q. apply lpw_zero. intros x (v & -> & (g & Hg & Hv')%elem_asides)%elem_of_list_fmap.
        destruct (HG' g (Htake g Hg)) as (_ & Ha2 & _). rewrite Ha2 in Hv' by (by eapply Hpos). by apply elem_of_nil in Hv'. }
      assert (∀ q, q ≠ low → lpw (wpair <$> asides (drop n G')) q = 0) as HzB.
      { intros q Hq. apply lpw_zero. intros x (v & -> & (g & Hg & Hv')%elem_asides)%elem_of_list_fmap. simpl.
        destruct (HG' g (Hdrop g Hg)) as (_ & _ & Ha3 & _). rewrite (Ha3 v Hv'). done. }
      assert (0 < p_low → lpw (wpair <$> asides (drop n G')) low = 0) as HzB1.
      { intros Hp. apply lpw_zero. intros x (v & -> & (g & Hg & Hv')%elem_asides)%elem_of_list_fmap.
        destruct (HG' g (Hdrop g Hg)) as (_ & Ha2 & _). rewrite Ha2 in Hv' by done. by apply elem_of_nil in Hv'. }
      assert (∀ q, ¬ low ≤ q ≤ low + kl - 1 → gpart_weight A q = 0) as HA0. { intros q Hq. rewrite HA2 by done. destruct (decide (low + kl - 1 - low = 1)); [apply HzA|done]. }
      assert (∀ q, ¬ low + kl ≤ q ≤ high → q ≠ low → gpart_weight B q = 0) as HB0. { intros q Hq Hne'. rewrite HB2 by done. destruct (decide (high - (low + kl) = 1)); [by apply HzB|done]. }
      split.
      + intros q Hq. rewrite gpart_weight_app. destruct (decide (q ≤ low + kl - 1)) as [Hql|Hql].
        * destruct (decide (q = low)) as [->|Hne'].
          -- rewrite HB2 by lia. destruct (decide (0 < p_low)) as [Hp|Hp].
             ++ rewrite HzB1 by done. specialize (HA1 low ltac:(lia)). destruct (decide (high - (low + kl) = 1)); lia.
             ++ assert (p_low = 0) as Hp0 by lia.
                assert (n = 0%nat) as Hn0 by (unfold n; by rewrite Hp0). rewrite Hn0 in *. rewrite drop_0 in *.
                assert (A = []) as ->. { pose proof (ra_len _ _ _ HreA) as Hx. simpl in Hx. by destruct A. }
                change (gpart_weight [] low) with 0. destruct (decide (high - (low + kl) = 1)) as [Hkh2|Hkh2]; [|lia]. rewrite asides_lpw.
                assert (zsum ((λ g, lpw (wpair <$> aside g) low) <$> G') = W0) as ->.
                { unfold W0. transitivity (gpart_weight (fst <$> G') low); [|unfold gpart_weight; by rewrite Hperm].
                  rewrite <-gpart_weight_sum, <-list_fmap_compose. apply zsum_fmap_ext. intros g Hg. by destruct (HG' g Hg) as (_ & _ & _ & Ha4); apply Ha4. }
                destruct (decide (kl = 1)) as [Hk1|Hk1]; [specialize (HmM0 Hk1); lia|].
                specialize (Hpl0 ltac:(lia) ltac:(lia) Hp0). specialize (HmP ltac:(lia) ltac:(lia)). lia.
          -- rewrite (HB0 q) by lia. specialize (HA1 q ltac:(lia)). lia.
        * rewrite HA0 by lia. specialize (HB1 q ltac:(lia)). lia.
      + intros q Hq. rewrite decide_False by done. rewrite gpart_weight_app, HA0, HB0 by lia. done.
  Qed.
End group.

(** ** The whole function *)
Lemma wpe_recursive_bisect_par strict bis bisp (E : err → Prop) gn Hs k eps eta opts (Q : list hg → Prop) :
  bis_ok strict bis → bisp_ok strict bisp →
  valid_binary 53 1024 eta = true → d_le d_zero eta = true → d_le eta (d_of_Z (2 ^ 50)) = true →
  o_metric opts = LambdaMinusOne → spread_pre gn Hs → Hs ≠ [] → Z.of_nat (length Hs) ≤ 2 ^ 50 → 2 ≤ k ≤ 2 ^ 50 →
  (∀ M, d_trunc (d_div (d_mul (d_add d_one eps) (d_of_Z (gweight Hs))) (d_of_Z k)) = Some M → 0 ≤ M ∧ M * k ≤ 2 ^ 50) →
  (strict → E Abort) → E UB → (E Abort ∨ (o_bisection opts = BisMultilevel → o_sampling opts ≠ SampRandom)) →
  (o_bisection opts = BisMultilevel → Z.of_nat (length Hs) ≤ o_sample_size opts) →
  (∀ Hs' M, d_trunc (d_div (d_mul (d_add d_one eps) (d_of_Z (gweight Hs))) (d_of_Z k)) = Some M → rearranged gn Hs Hs' →
     (∀ v, v ∈ all_verts Hs' → 0 ≤ v_part v < k) → (strict → ∀ q, 0 ≤ q < k → gpart_weight Hs' q ≤ M) → Q Hs') →
  wpe E (recursive_bisect_par_with bis bisp Hs k eps eta opts) Q.
Proof.
  intros Hb Hbp Hv He0 He1 Hm Hpre Hne Hlen Hk HM HA HU HR HS HQ. unfold recursive_bisect_par_with.
  apply wpe_bind. rewrite global_weight_spec. apply (wpe_agreed _ _ (gweight Hs)); [by destruct Hs|by intros x ?%elem_of_replicate_inv|].
  apply wpe_bind. unfold max_weight, d_to_Z. destruct (d_trunc _) as [M|] eqn:HMeq; [|by apply wpe_fail].
  apply wpe_of_option_Some with M; [done|]. destruct (HM M eq_refl) as [HM0 HMk].
  set (G := (λ H, (H, Z.of_nat (length (h_verts H)))) <$> Hs).
  assert (fst <$> G = Hs) as HG. { unfold G. rewrite <-list_fmap_compose. by apply list_fmap_id. }
  assert (∀ g, g ∈ G → aside g = []) as Hnil. { intros g (H & -> & HH)%elem_of_list_fmap. unfold aside. cbn [fst snd]. rewrite Nat2Z.id. by rewrite drop_all. }
  assert (asides G = []) as Hnils.
  { destruct (asides G) as [|v l] eqn:Heq; [done|]. assert (v ∈ asides G) as (g & Hg & Hx)%elem_asides by (rewrite Heq; by left). rewrite Hnil in Hx by done. by apply elem_of_nil in Hx. }
  assert (0 ≤ gweight Hs). { apply zsum_nonneg. intros x (v & -> & Hx)%elem_of_list_fmap. apply Z.lt_le_incl. by apply (sp_weight _ _ Hpre). }
  eapply (wpe_rb_group strict bis Hb bisp Hbp eta Hv He0 He1 (with_sample_size (o_sample_size opts / Z.of_nat (length Hs)) opts) Hm k M Hk HM0 HMk gn E HA HU HR); rewrite ?HG.
  - cbn [o_bisection o_sample_size with_sample_size]. intros Hml. specialize (HS Hml). destruct Hs as [|H0 Hs]; [done|]. apply Z.div_str_pos. simpl in *. lia.
  - done.
  - intros g Hg. split; [|rewrite Hnil by done; set_solver]. apply elem_of_list_fmap in Hg as (H' & -> & _). cbn [fst snd]. lia.
  - right. split; [lia|]. unfold range_weight, G. rewrite <-list_fmap_compose. unfold gweight, all_verts. clear.
    induction Hs as [|H Hs IH]; [done|]. csimpl. rewrite zsum_cons, fmap_app, zsum_app, Nat2Z.id, take_ge by lia. lia.
  - lia.
  - lia.
  - lia.
  - split; [lia|apply Hpre].
  - unfold G. by rewrite fmap_length.
  - intros _. by left.
  - intros Hs' (Hre & Hp & HsM). rewrite HG in Hre. apply (HQ Hs' M); [done..|]. intros Hst q Hq. destruct (HsM Hst) as [HL _]. apply HL. lia.
Qed.

(** ** Runs of the program with checked functions are runs of the program *)
Lemma run_checked_par bisp jobs opts mx labels : run_of (checked_par bisp jobs opts mx labels) (bisp jobs opts mx labels).
Proof.
  intros w a w' Hr. unfold checked_par, bind in Hr. destruct (bisp jobs opts mx labels w) as [[r w1]|e]; [|done]. unfold guardM in Hr.
  case_bool_decide; [|done]. exact Hr.
Qed.
Lemma run_recursive_par bis bis' bisp bisp' Hs k eps eta opts :
  (∀ H opts mx st en labels, run_of (bis H opts mx st en labels) (bis' H opts mx st en labels)) →
  (∀ jobs opts mx labels, run_of (bisp jobs opts mx labels) (bisp' jobs opts mx labels)) →
  run_of (recursive_bisect_par_with bis bisp Hs k eps eta opts) (recursive_bisect_par_with bis' bisp' Hs k eps eta opts).
Proof.
  intros Hb Hbp. unfold recursive_bisect_par_with. apply run_bind; [apply run_refl|]. intros gw. apply run_bind; [apply run_refl|]. intros M.
  generalize (Z.to_nat k). intros fuel. generalize ((λ H, (H, Z.of_nat (length (h_verts H)))) <$> Hs). generalize 0. generalize (k - 1). revert gw.
  set (o := with_sample_size _ _). clearbody o.
  assert (∀ H en low high weight, run_of (rb_alone bis M o H en low high weight) (rb_alone bis' M o H en low high weight)) as Hal.
  { intros H en low high weight. unfold rb_alone. apply run_bind; [|intros; apply run_refl]. unfold rb_loop. apply run_loop. intros s.
    destruct (rb_jobs s) as [|j js]; [apply run_refl|]. apply run_bind; [|intros; apply run_refl]. unfold rb_job.
    apply run_bind; [|intros; apply run_refl]. apply run_loop. intros x. case_decide; [|apply run_refl]. apply run_bind; [|intros; apply run_refl].
    unfold rb_split. apply run_bind; [apply run_refl|]. intros mx. apply run_bind; [apply Hb|intros; apply run_refl]. }
  induction fuel as [|fuel IH]; intros gw high low G.
  - destruct G as [|g [|g2 G]]; [apply run_refl| |apply run_refl]. cbn [rb_group]. apply run_bind; [apply Hal|intros; apply run_refl].
  - destruct G as [|g [|g2 G]]; [apply run_refl| |].
    + cbn [rb_group]. apply run_bind; [apply Hal|intros; apply run_refl].
    + cbn [rb_group]. case_decide; [|apply run_refl]. apply run_bind; [apply run_refl|]. intros mx. apply run_bind; [apply Hbp|]. intros rs.
      apply run_bind; [apply run_refl|]. intros W0. apply run_bind; [apply run_refl|]. intros W1. apply run_bind; [apply run_refl|]. intros p_low.
      apply run_bind; [apply run_refl|]. intros go. case_decide; [|apply run_refl]. apply run_bind; [apply run_refl|]. intros G'. cbv zeta.
      apply run_bind; [apply IH|]. intros a. apply run_bind; [apply IH|]. intros b. apply run_refl.
Qed.
