(** Recursive bisection with the cut-net metric on several processors. *)
From Verif Require Export RecursiveCut CutShed.

(** ** Computations that meet in remove_cut_nets *)
Lemma res_ind' {A} (P : res A → Prop) : (∀ a, P (Now a)) → P Stuck →
  (∀ groups next, (∀ gs w r' w', next gs w = Ok (r', w') → P r') → P (Call groups next)) → ∀ r, P r.
Proof.
  intros HN HS HC. fix IH 1. intros [a|groups next|]; [apply HN| |apply HS]. apply HC. intros gs w r' w'.
  destruct (next gs w) as [[r1 w1]|e]; [|discriminate]. intros Heq. injection Heq as H1 H2. rewrite <-H1. exact (IH r1).
Qed.
Definition fine (gn : Z) (g : list keeper) : Prop := g ≠ [] ∧ distributed gn (fst <$> g) ∧ ∀ v, v ∈ all_verts (fst <$> g) → 0 ≤ v_id v.
(** every outcome satisfies [Q], for the nets that were taken out meanwhile *)
Fixpoint safe {A} (E : err → Prop) (gn : Z) (Q : list Z → A → Prop) (r : res A) : Prop :=
  match r with
  | Now a => Q [] a
  | Stuck => True
  | Call groups next => (∀ g, g ∈ groups → fine gn g) ∧
      ∀ gs' R w, Forall2 (Forall2 (taken R)) groups gs' →
        match next gs' w with Ok (r', _) => safe E gn (λ R2, Q (R ++ R2)) r' | Err e => E e end
  end.
Lemma safe_mono {A} E gn (r : res A) : ∀ Q Q' : list Z → A → Prop, (∀ R a, Q R a → Q' R a) → safe E gn Q r → safe E gn Q' r.
Proof.
  induction r as [a| |groups next IH] using res_ind'; intros Q Q' HQ; simpl; [apply HQ|done|]. intros [H1 H2]. split; [done|]. intros gs' R w HF.
  specialize (H2 gs' R w HF). destruct (next gs' w) as [[r' w']|e] eqn:Heq; [|done]. eapply IH; [exact Heq| |exact H2]. intros R2 a. apply HQ.
Qed.
Lemma safe_bind {A B} E gn (r : res A) (f : A → M (res B)) : ∀ (Q : list Z → A → Prop) (Q' : list Z → B → Prop), safe E gn Q r →
  (∀ R a, Q R a → wpe E (f a) (safe E gn (λ R2, Q' (R ++ R2)))) → wpe E (bind_res r f) (safe E gn Q').
Proof.
  induction r as [a| |groups next IH] using res_ind'; intros Q Q' Hr Hf; simpl in *.
  - eapply wpe_mono; [by apply Hf|]. done.
  - apply wpe_ret. done.
  - apply wpe_ret. simpl. destruct Hr as [H1 H2]. split; [done|]. intros gs' R w HF. specialize (H2 gs' R w HF). destruct (next gs' w) as [[r' w']|e] eqn:Heq; [|done].
    pose proof (IH gs' w r' w' Heq (λ R2, Q (R ++ R2)) (λ R2, Q' (R ++ R2)) H2) as Hx. apply Hx. intros R2 a Ha. eapply wpe_mono; [by apply Hf|].
    intros x. apply safe_mono. intros R3 b. by rewrite <-app_assoc.
Qed.
Lemma safe_call_remove {A} E gn g (f : list keeper → M (res A)) (Q : list Z → A → Prop) : fine gn g →
  (∀ g' R, Forall2 (taken R) g g' → wpe E (f g') (safe E gn (λ R2, Q (R ++ R2)))) → wpe E (call_remove g f) (safe E gn Q).
Proof.
  intros Hg Hf. apply wpe_ret. simpl. split; [by intros g' ->%elem_of_list_singleton|]. intros gs' R w HF.
  inversion HF as [|g1 g2 l1 l2 H1 H2 E1 E2]. subst. inversion H2. subst. simpl. rewrite app_nil_r. specialize (Hf g2 R H1 w). by destruct (f g2 w) as [[r' w']|e].
Qed.
Lemma safe_side_by_side E gn (a : res (list keeper)) : ∀ (b : res (list keeper)) (Qa Qb Q : list Z → list keeper → Prop),
  (∀ R R', Qa R [] → Qa R' []) → (∀ R R', Qb R [] → Qb R' []) → (∀ R x y, Qa R x → Qb R y → Q R (x ++ y)) →
  safe E gn Qa a → safe E gn Qb b → safe E gn Q (side_by_side a b).
Proof.
  induction a as [x| |ga na IH] using res_ind'; intros b Qa Qb Q Na Nb HQ Ha Hb.
  - destruct x as [|P x].
    + assert (side_by_side (Now []) b = b) as -> by (by destruct b). eapply safe_mono; [|exact Hb]. intros R y Hy. apply (HQ R [] y); [|done]. eapply Na. exact Ha.
    + destruct b as [[|P2 y]|gb nb|]; simpl in *; [|by apply (HQ [] (P :: x) (P2 :: y))|done|done]. rewrite <-(app_nil_r (P :: x)). by apply HQ.
  - destruct b as [[|P2 y]|gb nb|]; done.
  - destruct b as [[|P2 y]|gb nb|]; [|done| |done].
    + assert (side_by_side (Call ga na) (Now []) = Call ga na) as -> by done. eapply safe_mono; [|exact Ha]. intros R x Hx. rewrite <-(app_nil_r x). apply HQ; [done|]. eapply Nb. exact Hb.
    + cbn [side_by_side safe] in *. destruct Ha as [Ha1 Ha2], Hb as [Hb1 Hb2]. split; [intros g [?|?]%elem_of_app; auto|]. intros gs' R w HF.
      apply Forall2_app_inv_l in HF as (g1 & g2 & HF1 & HF2 & ->). rewrite (Forall2_length _ _ _ HF1), take_app, drop_app.
      specialize (Ha2 g1 R w HF1). destruct (na g1 w) as [[a' w1]|e] eqn:Heq; [|done]. specialize (Hb2 g2 R w1 HF2). destruct (nb g2 w1) as [[b' w2]|e]; [|done].
      eapply IH; [exact Heq| | | |exact Ha2|exact Hb2].
      * intros R1 R2. apply Na.
      * intros R1 R2. apply Nb.
      * intros R1 x y. apply HQ.
Qed.
Lemma wpe_meet bp (E : err → Prop) gn r : ∀ (Q : list Z → list keeper → Prop) (Q' : option (list keeper) → Prop), lawful_family bp → E UB →
  safe E gn Q r → Q' None → (∀ R ps, Q R ps → Q' (Some ps)) → wpe E (meet_all bp r) Q'.
Proof.
  induction r as [ps| |groups next IH] using res_ind'; intros Q Q' Hbp HU Hr HN HS; [apply wpe_ret; by eapply HS|by apply wpe_ret|].
  cbn [meet_all safe] in *. destruct Hr as [H1 H2]. intros w.
  assert (wpe E (remove_cut_nets_par bp groups) (λ gs', ∃ R, Forall2 (Forall2 (taken R)) groups gs')) as Hw.
  { apply (wpe_remove_cut_nets_par bp gn); [done| |by left|].
    - intros g Hg. destruct (H1 g Hg) as (? & ? & ?). split_and!; try done. by left.
    - intros gs' R _ _ HF. eauto. }
  specialize (Hw w). destruct (remove_cut_nets_par bp groups w) as [[gs' w1]|e]; [|done]. destruct Hw as [R HF]. specialize (H2 gs' R w1 HF).
  destruct (next gs' w1) as [[r' w2]|e] eqn:Heq; [|done]. pose proof (IH gs' w1 r' w2 Heq (λ R2, Q (R ++ R2)) Q' Hbp HU H2 HN) as Hx. apply Hx. intros R2 ps. apply HS.
Qed.

(** ** What removing nets keeps *)
Lemma taken_wpair R P P' : taken R P P' → wpair <$> h_verts (fst P') = wpair <$> h_verts (fst P).
Proof.
  intros ([_ Hv _ _ _] & _). induction Hv as [|v v' l l' (H1 & H2 & H3 & _) _ IH]; [done|]. csimpl. rewrite IH. unfold wpair at 1 3. by rewrite H2, H3.
Qed.
Lemma taken_parts R G G' (p : Z → Prop) : Forall2 (taken R) G G' → (∀ v, v ∈ all_verts (fst <$> G) → p (v_part v)) → ∀ v, v ∈ all_verts (fst <$> G') → p (v_part v).
Proof.
  intros HF Hp v (H & (P' & -> & [t HP']%elem_of_list_lookup)%elem_of_list_fmap & Hv)%all_verts_elem. destruct (Forall2_lookup_r _ _ _ _ _ HF HP') as (P & HP & HT%taken_wpair).
  apply (elem_of_list_fmap_1 wpair) in Hv. rewrite HT in Hv. apply elem_of_list_fmap in Hv as (u & Hu & Hin). injection Hu as _ ->. apply Hp, all_verts_elem. exists (fst P). split; [|done].
  apply elem_of_list_fmap_1. by eapply elem_of_list_lookup_2.
Qed.
Lemma taken_gpart R G G' q : Forall2 (taken R) G G' → gpart_weight (fst <$> G') q = gpart_weight (fst <$> G) q.
Proof.
  intros HF. rewrite <-!gpart_weight_sum. induction HF as [|P P' l l' HT%taken_wpair _ IH]; [done|]. csimpl. rewrite !zsum_cons. f_equal; [|exact IH].
  by rewrite <-!lpw_part_weight, HT.
Qed.
Lemma nonneg_shed gn R G0 G : (∀ v, v ∈ all_verts (fst <$> G0) → 0 ≤ v_id v) → shed gn R G0 G → ∀ v, v ∈ all_verts (fst <$> G) → 0 ≤ v_id v.
Proof.
  intros Hi HS v Hv. apply (elem_of_list_fmap_1 idw) in Hv. rewrite (sh_idw _ _ _ _ HS) in Hv. apply elem_of_list_fmap in Hv as (u & [= -> _] & Hu). by apply Hi.
Qed.

Section cut_run.
  Context (strict : Prop) (bis : hg → options → Z * Z → Z → Z → Z * Z → M (hg * (Z * Z))) (Hbis : bis_ok strict bis).
  Context (bisp : list (hg * (Z * Z)) → options → Z * Z → Z * Z → M (list (hg * (Z * Z)))) (Hbisp : bisp_ok strict bisp).
  Context (eta : dbl) (Hv : valid_binary 53 1024 eta = true) (He0 : d_le d_zero eta = true) (He1 : d_le eta (d_of_Z (2 ^ 50)) = true).
  Context (opts : options) (k Mx : Z) (Hk : 2 ≤ k ≤ 2 ^ 50) (HM : 0 ≤ Mx) (HMk : Mx * k ≤ 2 ^ 50) (gn : Z).
  Context (E : err → Prop) (HA : strict → E Abort) (HU : E UB) (HR : E Abort ∨ (o_bisection opts = BisMultilevel → o_sampling opts ≠ SampRandom)).
  Context (HS : o_bisection opts = BisMultilevel → 0 < o_sample_size opts).

  (** what is known of a group whenever it starts *)
  Definition ready (G : list keeper) : Prop := spread_pre gn (fst <$> G) ∧ ∀ v, v ∈ all_verts (fst <$> G) → 0 ≤ v_id v.
  Lemma ready_shed R G0 G : ready G0 → shed gn R G0 G → ready G.
  Proof. intros [H1 H2] HSh. split; [by eapply spread_shed|by eapply nonneg_shed]. Qed.
  Lemma ready_fine G : G ≠ [] → ready G → fine gn G.
  Proof. intros Hne [H1 H2]. split; [done|]. split; [apply H1|done]. Qed.
  (** what a group returns: parts in range and, if every bisection stays within its limits, parts of at most [Mx] *)
  Definition cut_done (G : list work) (low high : Z) (ps : list keeper) : Prop :=
    (∀ v, v ∈ all_verts (fst <$> ps) → 0 ≤ v_part v < k) ∧
    (strict → (∀ q, low ≤ q ≤ high → gpart_weight (fst <$> ps) q ≤ Mx) ∧ ∀ q, ¬ (low ≤ q ≤ high) →
       gpart_weight (fst <$> ps) q = if decide (high - low = 1) then lpw (wpair <$> asides G) q else 0).
  Lemma cut_done_taken R G low high ps ps' : Forall2 (taken R) ps ps' → cut_done G low high ps → cut_done G low high ps'.
  Proof.
    intros HF [Hp Hs]. split; [by eapply (taken_parts R ps ps' (λ p, 0 ≤ p < k))|]. intros Hst. destruct (Hs Hst) as [H1 H2].
    split; intros q Hq; rewrite (taken_gpart R ps); auto.
  Qed.
  Lemma safe_wind_up G0 G low high ps splits R0 : ps ≠ [] → ready ps → shed gn R0 G0 ps → cut_done G low high ps →
    wpe E (wind_up k ps splits) (safe E gn (λ R ps', shed gn (R0 ++ R) G0 ps' ∧ cut_done G low high ps')).
  Proof.
    intros Hne Hr HSh Hp. unfold wind_up. case_decide; [|apply wpe_ret; simpl; by rewrite app_nil_r].
    apply safe_call_remove; [by apply ready_fine|]. intros ps' R HF. apply wpe_ret. simpl. rewrite app_nil_r. split.
    - eapply shed_trans; [exact HSh|]. apply shed_taken; [apply Hr|done].
    - by eapply cut_done_taken.
  Qed.

  (** ** One processor *)
  Lemma wpe_split_cut (bis' : hg → options → Z * Z → Z → Z → Z * Z → M (hg * (Z * Z))) o s j (Q : rb_state * job → Prop) : o_metric o = LambdaMinusOne →
    wpe E (rb_split bis' Mx o (RB (rb_H s) (rb_jobs s) [] (rb_splits s)) j)
      (λ y, Q (RB (rb_H (fst y)) (rb_jobs (fst y)) (rb_cut s) (rb_splits (fst y)), snd y)) →
    wpe E (rb_split bis' Mx o s j) Q.
  Proof.
    intros Hm Hw w. specialize (Hw w). revert Hw. unfold rb_split, bind. cbn [rb_H rb_jobs rb_cut rb_splits].
    destruct (compute_max_global_weight _ _ _ _ _ w) as [[mx w1]|e]; [|done]. destruct (bis' _ _ _ _ _ _ w1) as [[r w2]|e]; [|done].
    destruct (decide (snd (labels_1 (j_low j) (j_high j)) - fst (labels_1 (j_low j) (j_high j)) > 0)).
    - destruct (reorder_hypergraph _ _ _ _ _ w2) as [[t w3]|e]; [|done]. cbn [ret fst snd]. rewrite !decide_False by (intros [? _]; congruence). done.
    - cbn [ret fst snd]. rewrite !decide_False by (intros [? _]; congruence). done.
  Qed.
  Lemma good_one H H' : spread_pre gn [H] → good H (with_metric LambdaMinusOne opts) H' [] → rearranged gn [H] [H'].
  Proof.
    intros Hpre [Hrb' (Hidw & Hgs & Hgn & Hnz & Hkept)]. destruct Hkept as (_ & Hn & Hvk).
    assert (all_nets [H'] = all_nets [H]) as Hnn by (unfold all_nets; csimpl; by rewrite Hn).
    assert (vkey <$> all_verts [H'] ≡ₚ vkey <$> all_verts [H]) as Hvv by (unfold all_verts; csimpl; by rewrite !app_nil_r).
    split; [|done|done|rewrite Hnn; eauto|csimpl; by rewrite Hgs|csimpl; by rewrite Hnz].
    destruct (sp_dist _ _ Hpre) as [D1 D2 D3 D4 D5]. split; rewrite ?Hnn; [| |by rewrite (vkey_ids _ _ Hvv)|done|done].
    - intros H2 ->%elem_of_list_singleton. apply Hrb'.
    - intros H2 ->%elem_of_list_singleton. rewrite Hgn. apply D2. by left.
  Qed.
  Lemma wpe_cut_loop fuel : ∀ low K s j, 0 ≤ low → low + 2 ≤ K → K ≤ k → ready [(rb_H s, rb_cut s)] →
    sane strict K Mx (2 ^ 50) low (pend j (rb_jobs s)) (rb_H s) → 0 ≤ jlen j →
    2 * zsum (jlen <$> j :: rb_jobs s) + (if decide (jlen j = 0) then 1 else 0) < Z.of_nat fuel →
    wpe E (cut_loop bis Mx opts fuel s j) (safe E gn (λ R s', shed gn R [(rb_H s, rb_cut s)] [(rb_H s', rb_cut s')] ∧ (∀ v, v ∈ h_verts (rb_H s') → 0 ≤ v_part v < K) ∧
      (strict → (∀ p, low ≤ p < K → part_weight (rb_H s') p ≤ Mx) ∧ ∀ v, v ∈ h_verts (rb_H s') → low ≤ v_part v))).
  Proof.
    induction fuel as [|fuel IH]; intros low K s j Hlow HlK HKk Hready Hsane Hj Hfuel.
    { exfalso. assert (0 ≤ zsum (jlen <$> j :: rb_jobs s)); [|case_decide; lia]. csimpl. rewrite zsum_cons. assert (0 ≤ zsum (jlen <$> rb_jobs s)); [|lia].
      apply zsum_nonneg. intros x (j' & -> & Hj')%elem_of_list_fmap. destruct Hsane as [Hok _]. rewrite Forall_forall in Hok.
      assert (j' ∈ pend j (rb_jobs s)) as Hin by (unfold pend; destruct (decide (0 < jlen j)); [by right|done]). specialize (Hok j' Hin). unfold j_ok in Hok. unfold jlen. lia. }
    cbn [cut_loop]. change (j_high j - j_low j) with (jlen j). destruct (decide (jlen j > 0)) as [Hl|Hl].
    - unfold pend in Hsane. rewrite decide_True in Hsane by lia. destruct Hready as [Hpre Hids]. change (spread_pre gn [rb_H s]) in Hpre.
      pose proof (spread_member gn _ (rb_H s) Hpre ltac:(by left)) as Hrb. apply wpe_bind. unfold split_only. apply wpe_split_cut; [done|].
      eapply (wpe_rb_split strict (λ H _, bis H opts) ltac:(intros E' H o; apply Hbis) (rb_H s) (with_metric LambdaMinusOne opts) K Mx ltac:(lia) HM ltac:(nia) (rp_cons _ Hrb) (2 ^ 50) ltac:(lia) ltac:(apply Hrb) low ltac:(lia)); cbn [rb_H rb_jobs rb_cut rb_splits].
      + done.
      + done.
      + done.
      + split; [done|]. split; [done|]. split; [done|]. split; [done|]. split; [done|]. done.
      + exact Hsane.
      + intros s' j' Hg Hs' Hj' _ Hsum _. cbn [fst snd rb_H rb_jobs rb_cut rb_splits].
        assert (rb_cut s' = []) as Hcut by apply Hg. rewrite Hcut in Hg. pose proof (good_one _ _ Hpre Hg) as Hre.
        assert (shed gn [] [(rb_H s, rb_cut s)] [(rb_H s', rb_cut s)]) as HSh by (apply shed_rearranged; [apply Hpre|done|done]).
        assert (ready [(rb_H s', rb_cut s)]) as Hready' by (apply (ready_shed [] [(rb_H s, rb_cut s)]); [split; [exact Hpre|exact Hids]|exact HSh]).
        destruct (decide (rb_jobs s' ≠ [])) as [Hne|Hne].
        * apply safe_call_remove; [by apply ready_fine|]. intros ps R HF. inversion HF as [|P1 P l1 l2 HT HF2 E1 E2]. subst. inversion HF2. subst.
          apply wpe_bind. eapply wpe_nidx; [done|]. assert (shed gn R [(rb_H s', rb_cut s)] [P]) as HSh2 by (apply shed_taken; [apply Hready'|done]).
          eapply wpe_mono; [apply (IH low K); cbn [rb_H rb_jobs rb_cut rb_splits]; [done|done|done| | |lia|]|].
          -- destruct P as [H c]. by eapply ready_shed.
          -- eapply sane_ext; [|exact Hs']. by apply (taken_wpair R) in HT.
          -- case_decide; case_decide; lia.
          -- intros r. apply safe_mono. intros R2 s2 [H1 H2]. split; [|done]. change (R ++ R2) with ([] ++ R ++ R2). eapply shed_trans; [exact HSh|]. eapply shed_trans; [exact HSh2|].
             cbn [rb_H rb_cut] in H1. by destruct P.
        * eapply wpe_mono; [apply (IH low K); cbn [rb_H rb_jobs rb_cut rb_splits]; [done|done|done|done|done|lia|case_decide; case_decide; lia]|].
          intros r. apply safe_mono. intros R2 s2 [H1 H2]. split; [|done]. change R2 with ([] ++ R2). by eapply shed_trans.
    - assert (jlen j = 0) as Hj0 by lia. unfold pend in Hsane. rewrite decide_False in Hsane by lia. rewrite decide_True in Hfuel by done. csimpl in Hfuel. rewrite zsum_cons, Hj0 in Hfuel.
      destruct (rb_jobs s) as [|j' js] eqn:Hjs.
      + apply wpe_ret. simpl. split; [apply shed_refl, Hready|]. destruct Hsane as [_ [(D & V & lab & Heq & Hst & Hlab & HD & HDM)|Hx]]; [|by apply Exists_nil in Hx].
        inversion Hst as [? ? ? Hlk HV HVs|]; subst. split.
        { intros v Hv'. assert (wpair v ∈ D ++ V) as Hx by (rewrite <-Heq; by apply elem_of_list_fmap_1).
          apply elem_of_app in Hx as [Hx|Hx]; [apply HD in Hx|apply HV in Hx]; cbn [wpair snd] in Hx; lia. }
        intros Hstr. destruct (HVs Hstr) as [-> ->]. split; [intros p Hp; rewrite <-lpw_part_weight, Heq, app_nil_r; by apply HDM|].
        intros v Hv'. assert (wpair v ∈ D ++ []) as Hx by (rewrite <-Heq; by apply elem_of_list_fmap_1). rewrite app_nil_r in Hx. apply HD in Hx. cbn [wpair snd] in Hx. lia.
      + assert (0 < jlen j'). { destruct Hsane as [Hok _]. apply Forall_cons in Hok as [Hx _]. unfold j_ok in Hx. unfold jlen. lia. }
        apply (IH low K (RB (rb_H s) js (rb_cut s) (rb_splits s)) j'); cbn [rb_H rb_jobs rb_cut rb_splits]; [done|done|done|done| |lia|rewrite decide_False by lia; lia]. unfold pend. by rewrite decide_True.
  Qed.
  Lemma wpe_cut_alone (P : keeper) en low high weight splits : ready [P] → set_aside low (fst P, en) → 0 ≤ low < high → high < k → 0 ≤ weight ≤ 2 ^ 50 → (strict → aside (fst P, en) = []) →
    wpe E (cut_alone bis k Mx opts P en low high weight splits) (safe E gn (λ R ps, shed gn R [P] ps ∧ cut_done [(fst P, en)] low high ps)).
  Proof.
    intros Hready [Hen Has] Hlow Hhigh Hw Hst. unfold cut_alone. cbn [fst snd] in Hen, Has. apply wpe_bind.
    eapply wpe_mono; [apply (wpe_cut_loop _ low (high + 1)); cbn [rb_H rb_jobs rb_cut rb_splits]; [lia|lia|lia|by destruct P| | |]|].
    - unfold pend. rewrite decide_True by (unfold jlen; simpl; lia). eapply exact_sane; [lia|]. exists [], (wpair <$> h_verts (fst P)), low. split; [done|]. split; [|split; [lia|split; [set_solver|lia]]].
      rewrite <-(take_drop (Z.to_nat en) (h_verts (fst P))), fmap_app.
      constructor; cbn [j_st j_en j_low j_high j_weight]; [done|lia|done| |lia|].
      + rewrite fmap_length, take_length. simpl. lia.
      + constructor; [lia| |].
        * intros x (v & -> & Hx)%elem_of_list_fmap. simpl. specialize (Has v Hx). lia.
        * intros Hs. split; [done|]. unfold aside in Hst. cbn [fst snd] in Hst. by rewrite (Hst Hs).
    - unfold jlen. simpl. lia.
    - csimpl. rewrite zsum_cons. change (zsum []) with 0. unfold jlen. cbn [j_high j_low]. rewrite decide_False by lia. lia.
    - intros r Hr. eapply safe_bind; [exact Hr|]. intros R s [HSh [Hp Hlim]]. cbn [rb_H rb_cut] in HSh. assert (shed gn R [P] [(rb_H s, rb_cut s)]) as HSh' by (by destruct P).
      apply safe_wind_up; [done|by eapply ready_shed|done|]. split; [intros v; unfold all_verts; csimpl; rewrite app_nil_r; intros Hx; specialize (Hp v Hx); lia|].
      intros Hs. destruct (Hlim Hs) as [HL1 HL2]. specialize (Hst Hs).
      assert (∀ q, gpart_weight (fst <$> [(rb_H s, rb_cut s)]) q = part_weight (rb_H s) q) as Hq by (intros q; rewrite <-gpart_weight_sum; csimpl; rewrite zsum_cons; change (zsum []) with 0; lia).
      split; [intros q Hx; rewrite Hq; apply HL1; lia|]. intros q Hx. rewrite Hq, gpart_nil_asides by (unfold asides; csimpl; by rewrite Hst).
      rewrite <-lpw_part_weight. transitivity 0; [|by case_decide]. apply lpw_zero. intros x (v & -> & Hv')%elem_of_list_fmap. simpl. specialize (HL2 v Hv'). specialize (Hp v Hv'). lia.
  Qed.
  (** ** Groups *)
  Definition works (G : list (keeper * Z)) : list work := (λ g : keeper * Z, (fst (fst g), snd g)) <$> G.
  Lemma works_fst G : fst <$> works G = fst <$> (fst <$> G).
  Proof. unfold works. rewrite <-!list_fmap_compose. by apply list_fmap_ext. Qed.
  Lemma wpe_cut_group fuel : ∀ (G : list (keeper * Z)) low high weight splits,
    ready (fst <$> G) → (∀ g, g ∈ works G → set_aside low g) → G = [] ∨ low < high ∧ weight ≤ range_weight (works G) → 0 ≤ low → high < k → high - low ≤ Z.of_nat fuel →
    0 ≤ weight ≤ 2 ^ 50 → Z.of_nat (length G) ≤ 2 ^ 50 → (strict → asides (works G) = [] ∨ (1 < length G)%nat) →
    wpe E (cut_group bis bisp k Mx eta opts fuel G low high weight splits)
      (safe E gn (λ R ps, shed gn R (fst <$> G) ps ∧ cut_done (works G) low high ps)).
  Proof.
    induction fuel as [|fuel IH]; intros G low high weight splits Hready Has Hlh Hlow Hhigh Hfuel Hwt Hlen Hst.
    all: destruct (decide (G = [])) as [->|Hne]; [apply wpe_ret; simpl; split; [apply shed_nil|split; [by intros v ?%elem_of_nil|intros _; split; [done|intros; by case_decide]]]|].
    all: destruct Hlh as [?|[Hlh Hrw]]; [done|].
    { lia. }
    assert ((∃ g, G = [g]) ∨ ¬ ∃ g, G = [g]) as [[g ->]|Hmany] by (destruct G as [|g [|g2 G]]; [done|left; eauto|right; by intros [? ?]]).
    { cbn [cut_group]. apply wpe_cut_alone; [done|apply Has; by left|lia|lia|done|]. intros Hs. destruct (Hst Hs) as [Hnil|?]; [|simpl in *; lia].
      unfold asides in Hnil. csimpl in Hnil. by rewrite app_nil_r in Hnil. }
    destruct (halves low high Hlh) as (Hkl & Hkh & Hklh & Hks & _ & _).
    assert (k_high_of low high ≤ k_low_of low high + 1) as Hkk.
    { unfold k_high_of, k_low_of. pose proof (Z.div_mod (high - low + 1) 2 ltac:(lia)). pose proof (Z.mod_pos_bound (high - low + 1) 2 ltac:(lia)). lia. }
    set (kl := k_low_of low high) in *. set (kh := k_high_of low high) in *.
    assert (cut_group bis bisp k Mx eta opts (S fuel) G low high weight splits =
      (mx <- compute_max_global_weight (high - low + 1) kl kh weight Mx ;;
       rs <- bisp ((λ g : keeper * Z, (fst (fst g), (0, snd g))) <$> G) opts mx (low, high) ;;
       w0 <- agreed (bulk_sum ((λ r : hg * (Z * Z), fst (snd r)) <$> rs)) ;;
       w1 <- agreed (bulk_sum ((λ r : hg * (Z * Z), snd (snd r)) <$> rs)) ;;
       p_low <- p_low_par w0 w1 (Z.of_nat (length rs)) kl kh ;;
       go <- agreed ((λ s, let l := new_labels low high (my_part p_low s) in if decide (snd l - fst l > 0) then 1 else 0) <$> seq 0 (length rs)) ;;
       let ps := zip (fst <$> rs) ((λ g : keeper * Z, snd (fst g)) <$> G) in
       if decide (go = 1) then
         call_remove ps (λ ps',
           G' <- regroup eta (zip (fst <$> ps') (snd <$> rs)) low high w0 w1 p_low ;;
           let H' := zip (zip (fst <$> G') (snd <$> ps')) (snd <$> G') in
           let n := Z.to_nat p_low in
           let l0 := new_labels low high 0 in
           let l1 := new_labels low high 1 in
           a <- cut_group bis bisp k Mx eta opts fuel (take n H') (fst l0) (snd l0) w0 (splits + 1) ;;
           b <- cut_group bis bisp k Mx eta opts fuel (drop n H') (fst l1) (snd l1) w1 (splits + 1) ;;
           ret (side_by_side a b))
       else wind_up k ps (splits + 1))) as ->.
    { destruct G as [|g [|g2 G]]; [done|exfalso; apply Hmany; eauto|]. cbn [cut_group]. rewrite decide_True by lia. done. }
    destruct Hready as [Hpre Hids]. rewrite <-works_fst in Hpre.
    assert (works G ≠ []) as Hwne by (by intros ?%fmap_nil_inv).
    apply wpe_bind. apply wpe_compute_max_pair; [lia|lia|lia|done|nia|lia|done|]. intros mx0 mx1 Hwpos Hm0 Hm1 HmM0 HmM1 HmP.
    assert ((λ g : keeper * Z, (fst (fst g), (0, snd g))) <$> G = (λ g : work, (fst g, (0, snd g))) <$> works G) as -> by (unfold works; rewrite <-list_fmap_compose; by apply list_fmap_ext).
    apply wpe_bind. eapply (Hbisp E gn); [done|done|done|done|done|done| |done|done|lia|].
    { intros g Hg. by apply Has. }
    intros rs HF Hlim. cbn [fst snd] in Hlim.
    pose proof (Forall2_length _ _ _ HF) as Hlrs. unfold works in Hlrs. rewrite fmap_length in Hlrs. destruct (group_weights low high (works G) rs Hlh Has HF) as (Hw0 & Hw1 & Hwq & Hparts).
    pose proof (group_range low high (works G) rs ltac:(lia) HF) as Hrange. rewrite Hw0, Hw1 in Hlim, Hrange.
    pose proof (group_rearranged gn low high (works G) rs Has (sp_dist _ _ Hpre) HF) as Hre1. pose proof (spread_rearranged _ _ _ Hpre Hre1) as Hpre1.
    assert (rs ≠ []) as Hrne by (intros ->; destruct G; done).
    set (W0 := gpart_weight (fst <$> rs) low) in *. set (W1 := gpart_weight (fst <$> rs) high) in *.
    assert (0 ≤ W0 ∧ 0 ≤ W1 ∧ W0 + W1 ≤ 2 ^ 50) as (HW0 & HW1 & HW).
    { pose proof (sp_total _ _ Hpre1) as Ht. pose proof (sp_weight _ _ Hpre1) as Hp. unfold W0, W1, gpart_weight, gweight in *. clear -Ht Hp Hlh.
      assert (∀ l : list vertex, (∀ v, v ∈ l → 0 < v_weight v) → 0 ≤ zsum (v_weight <$> filter (λ v, v_part v = low) l) ∧ 0 ≤ zsum (v_weight <$> filter (λ v, v_part v = high) l) ∧
        zsum (v_weight <$> filter (λ v, v_part v = low) l) + zsum (v_weight <$> filter (λ v, v_part v = high) l) ≤ zsum (v_weight <$> l)) as Hx.
      { intros l. induction l as [|v l IH]; intros Hl; [done|]. specialize (IH ltac:(intros; apply Hl; by right)). pose proof (Hl v ltac:(by left)).
        rewrite !filter_cons. case_decide; case_decide; csimpl; rewrite !zsum_cons; lia. }
      destruct (Hx _ Hp) as (? & ? & ?). lia. }
    assert (∀ (f : hg * (Z * Z) → Z) (P : Z → Prop), P (zsum (f <$> rs)) → wpe E (agreed (bulk_sum (f <$> rs))) P) as Hagree.
    { intros f P HP. unfold bulk_sum. rewrite ParBase.foldl_add_acc, Z.add_0_l. apply (wpe_agreed _ _ (zsum (f <$> rs))); [|by intros x ?%elem_of_replicate_inv|done].
      destruct rs; done. }
    apply wpe_bind. apply Hagree. rewrite Hw0. fold W0. apply wpe_bind. apply Hagree. rewrite Hw1. fold W1.
    apply wpe_bind. apply wpe_p_low; [done|done|done|destruct rs; [done|simpl in *; lia]|done|]. intros p_low Hpl Hpl1 Hpl0.
    assert (Hl0 : new_labels low high 0 = (low, low + kl - 1)). { unfold new_labels. fold kl kh. f_equal; lia. }
    assert (Hl1 : new_labels low high 1 = (low + kl, high)). { unfold new_labels. fold kl kh. f_equal; lia. }
    apply wpe_bind. apply (wpe_agreed _ _ (if decide (high - low = 1) then 0 else 1)).
    { destruct rs; done. }
    { intros x (s & -> & Hs)%elem_of_list_fmap. cbv zeta. destruct (decide (high - low = 1)) as [H1|H1].
      - rewrite decide_False; [done|]. unfold my_part. case_decide; [rewrite Hl0|rewrite Hl1]; cbn [fst snd]; lia.
      - rewrite decide_True; [done|]. apply elem_of_seq in Hs. unfold my_part. case_decide as Hlt; [rewrite Hl0|rewrite Hl1]; cbn [fst snd]; [|lia].
        destruct (decide (kl = 1)) as [Hk1|Hk1]; [|lia]. specialize (Hpl1 Hk1 ltac:(lia)). lia. }
    cbv zeta. set (ps := zip (fst <$> rs) ((λ g : keeper * Z, snd (fst g)) <$> G)).
    assert (fst <$> ps = fst <$> rs) as Hps1 by (apply fst_zip; rewrite !fmap_length; lia).
    assert (snd <$> ps = snd <$> (fst <$> G)) as Hps2. { unfold ps. rewrite snd_zip by (rewrite !fmap_length; lia). rewrite <-list_fmap_compose. by apply list_fmap_ext. }
    assert (length ps = length rs) as Hlps by (by rewrite <-(fmap_length fst ps), Hps1, fmap_length).
    assert (shed gn [] (fst <$> G) ps) as HSh1.
    { apply shed_rearranged; [rewrite <-works_fst; apply Hpre|by rewrite <-works_fst, Hps1|done]. }
    assert (ready ps) as Hready1. { eapply ready_shed; [|exact HSh1]. split; [by rewrite <-works_fst|done]. }
    assert (ps ≠ []) as Hpsne by (intros Hx; rewrite Hx in Hlps; by destruct rs).
    destruct (decide (high - low = 1)) as [H1|H1].
    { (* two labels: done *)
      rewrite decide_False by lia. apply (safe_wind_up (fst <$> G) (works G) low high ps (splits + 1) []); [done|done|done|]. unfold cut_done. rewrite Hps1. split.
      - intros v Hv'. destruct (Hparts v Hv') as [?|[?|?]]; lia.
      - intros Hs. destruct (Hlim Hs) as [HL0 HL1]. split.
        + intros q Hq. assert (q = low ∨ q = high) as [-> | ->] by lia; [fold W0; specialize (HmM0 ltac:(lia)); lia|fold W1; specialize (HmM1 ltac:(lia)); lia].
        + intros q Hq. rewrite decide_True by done. apply Hwq; lia. }
    rewrite decide_True by done. apply safe_call_remove; [by apply ready_fine|]. intros ps' R HT.
    assert (shed gn R ps ps') as HSh2 by (apply shed_taken; [apply Hready1|done]).
    assert (ready ps') as Hready2 by (by eapply ready_shed).
    assert (length ps' = length ps) as Hlps' by (symmetry; by eapply Forall2_length).
    set (rs' := zip (fst <$> ps') (snd <$> rs)).
    assert (fst <$> rs' = fst <$> ps') as Hrs1 by (apply fst_zip; rewrite !fmap_length; apply Nat.eq_le_incl; etrans; [exact Hlps'|exact Hlps]).
    assert (length rs' = length rs) as Hlrs' by (rewrite <-(fmap_length fst rs'), Hrs1, fmap_length; etrans; [exact Hlps'|exact Hlps]).
    assert (∀ q, gpart_weight (fst <$> rs') q = gpart_weight (fst <$> rs) q) as Hgw by (intros q; by rewrite Hrs1, (taken_gpart R ps), Hps1).
    unfold W0, W1. rewrite <-!Hgw. rewrite <-Hlrs' in Hpl.
    apply wpe_bind. apply (wpe_regroup eta Hv He0 He1 gn E rs' low high p_low); [by left|rewrite Hrs1; apply Hready2|lia| |lia|done|].
    { intros r' Hr. apply elem_of_list_lookup in Hr as [t Hr]. unfold rs' in Hr. apply lookup_zip_with_Some in Hr as (H & w & -> & HH & Hw).
      apply list_lookup_fmap_Some in HH as (P' & HP' & ->). apply list_lookup_fmap_Some in Hw as (r & Hr & ->). cbn [fst snd].
      destruct (Forall2_lookup_r _ _ _ _ _ HT HP') as (P & HP & HTP). destruct (Forall2_lookup_r _ _ _ _ _ HF Hr) as (g & Hg & Hj).
      destruct (ranged_weights low high g r) as (Hx0 & Hx1 & _); [done|apply Has; by eapply elem_of_list_lookup_2|done|].
      assert (fst P = fst r) as HPr. { pose proof (lookup_fmap_1 fst ps t P HP) as Hx. rewrite Hps1, (lookup_fmap_1 fst rs t r Hr) in Hx. by injection Hx. }
      rewrite <-!lpw_part_weight. rewrite (taken_wpair R P P' HTP). rewrite HPr, !lpw_part_weight, <-Hx0, <-Hx1. by destruct (snd r). }
    intros G' Hre2 Hperm HG' Hsep. rewrite Hrs1 in Hre2.
    rewrite !Hgw. fold W0 W1. rewrite Hl0, Hl1. cbn [fst snd]. set (n := Z.to_nat p_low).
    assert (length G' = length rs) as HlG'. { pose proof (ra_len _ _ _ Hre2) as Hx. rewrite !fmap_length in Hx. rewrite Hx. etrans; [exact Hlps'|exact Hlps]. }
    set (K' := zip (fst <$> G') (snd <$> ps')). set (H' := zip K' (snd <$> G')).
    assert (fst <$> K' = fst <$> G') as HK1 by (apply fst_zip; rewrite !fmap_length, HlG'; apply Nat.eq_le_incl; symmetry; etrans; [exact Hlps'|exact Hlps]).
    assert (snd <$> K' = snd <$> ps') as HK2 by (apply snd_zip; rewrite !fmap_length, HlG'; apply Nat.eq_le_incl; etrans; [exact Hlps'|exact Hlps]).
    assert (length K' = length rs) as HlK by (rewrite <-(fmap_length fst K'), HK1, fmap_length; done).
    assert (fst <$> H' = K') as HH1 by (apply fst_zip; rewrite fmap_length, HlG', HlK; done).
    assert (length H' = length rs) as HlH by (rewrite <-(fmap_length fst H'), HH1; done).
    assert (works H' = G') as HWH.
    { apply list_eq_same_length with (length rs); [done|unfold works; by rewrite fmap_length|]. intros t x y _ Hx Hy. unfold works in Hx. apply list_lookup_fmap_Some in Hx as (h & Hh & ->).
      unfold H' in Hh. apply lookup_zip_with_Some in Hh as (c & z & -> & Hc & Hz). apply list_lookup_fmap_Some in Hz as (y' & Hy' & ->). assert (y' = y) as -> by congruence. cbn [fst snd].
      pose proof (lookup_fmap_1 fst K' t c Hc) as Hx. rewrite HK1, (lookup_fmap_1 fst G' t y Hy) in Hx. injection Hx as <-. by destruct y. }
    assert (shed gn [] ps' K') as HSh3 by (apply shed_rearranged; [apply Hready2|by rewrite HK1|done]).
    assert (ready K') as Hready3 by (by eapply ready_shed).
    assert (shed gn R (fst <$> G) K') as HShK. { rewrite <-(app_nil_l R), <-(app_nil_r R). eapply shed_trans; [exact HSh1|]. eapply shed_trans; [exact HSh2|exact HSh3]. }
    assert (∀ m, works (take m H') = take m G') as Htk by (intros m; unfold works; rewrite fmap_take; by rewrite <-HWH).
    assert (∀ m, works (drop m H') = drop m G') as Hdr by (intros m; unfold works; rewrite fmap_drop; by rewrite <-HWH).
    assert (K' = (fst <$> take n H') ++ (fst <$> drop n H')) as HKs by (rewrite <-fmap_app, take_drop; done).
    assert (ready (fst <$> take n H') ∧ ready (fst <$> drop n H')) as [HrA HrB].
    { destruct Hready3 as [Hp3 Hi3]. rewrite HKs, fmap_app in Hp3, Hi3. destruct (spread_app _ _ _ Hp3) as [HpA HpB]. split; (split; [done|]); intros v Hv'; apply Hi3; rewrite all_verts_app; apply elem_of_app; auto. }
    assert (fst <$> G' = (fst <$> take n G') ++ (fst <$> drop n G')) as Hsplit by (by rewrite <-fmap_app, take_drop).
    assert (spread_pre gn (fst <$> take n G')) as HpA by (rewrite <-Htk, works_fst; apply HrA).
    assert (spread_pre gn (fst <$> drop n G')) as HpB by (rewrite <-Hdr, works_fst; apply HrB).
    assert (kl ≠ 1 ∨ p_low = 0) as Hcase. { destruct (decide (kl = 1)) as [Hk1|Hk1]; [right; apply Hpl1; lia|by left]. }
    assert (∀ g, g ∈ take n G' → 0 < p_low) as Hpos. { intros g [i Hi]%elem_of_list_lookup. apply lookup_lt_Some in Hi. rewrite take_length in Hi. lia. }
    assert (∀ q, gpart_weight (fst <$> take n G') q + gpart_weight (fst <$> drop n G') q = gpart_weight (fst <$> rs) q) as Hsum.
    { intros q. rewrite <-gpart_weight_app, <-Hsplit, <-Hgw. unfold gpart_weight. by rewrite Hperm. }
    assert (∀ (l : list work) q, (∀ g, g ∈ l → ∀ v, v ∈ h_verts (fst g) → v_part v ≠ q) → gpart_weight (fst <$> l) q = 0) as Hzero.
    { intros l q Hl. unfold gpart_weight. rewrite filter_none; [done|]. intros v Hx. apply all_verts_elem in Hx as (H & (g & -> & Hg)%elem_of_list_fmap & Hx). by apply (Hl g). }
    assert (∀ g, g ∈ drop n G' → ∃ t, G' !! t = Some g ∧ p_low ≤ Z.of_nat t) as Hdropt.
    { intros g [i Hi]%elem_of_list_lookup. rewrite lookup_drop in Hi. exists (n + i)%nat. split; [done|]. lia. }
    assert (∀ g, g ∈ take n G' → ∃ t, G' !! t = Some g ∧ Z.of_nat t < p_low) as Htaket.
    { intros g (i & Hi & Hlt)%(elem_of_take _ n). exists i. split; [done|]. lia. }
    assert (∀ g, g ∈ drop n G' → g ∈ G') as Hdrop. { intros g Hg. rewrite <-(take_drop n G'). apply elem_of_app. by right. }
    assert (∀ g, g ∈ take n G' → g ∈ G') as Htake. { intros g Hg. rewrite <-(take_drop n G'). apply elem_of_app. by left. }
    rewrite Hlrs' in Hpl, Hsep.
    assert (0 < p_low → W0 ≤ range_weight (take n G')) as HrwA.
    { intros Hp. transitivity (gpart_weight (fst <$> take n G') low).
      - unfold W0. rewrite <-(Hsum low), (Hzero (drop n G')); [lia|]. intros g (t & Ht & Hlt)%Hdropt. destruct (Hsep t g Ht) as (_ & Hx & _). apply Hx. lia.
      - apply range_weight_ge; [intros v Hv'; apply Z.lt_le_incl; by apply (sp_weight _ _ HpA)|]. intros g Hg. destruct (HG' g (Htake g Hg)) as (_ & Ha2 & _).
        rewrite Ha2 by done. set_solver. }
    assert (p_low < Z.of_nat (length rs) → W1 ≤ range_weight (drop n G')) as HrwB.
    { intros Hp. transitivity (gpart_weight (fst <$> drop n G') high).
      - unfold W1. rewrite <-(Hsum high), (Hzero (take n G')); [lia|]. intros g (t & Ht & Hlt)%Htaket. destruct (Hsep t g Ht) as (Hx & _). by apply Hx.
      - apply range_weight_ge; [intros v Hv'; apply Z.lt_le_incl; by apply (sp_weight _ _ HpB)|]. intros g Hg v Hv'. destruct (HG' g (Hdrop g Hg)) as (_ & _ & Ha3 & _).
        rewrite (Ha3 v Hv'). lia. }
    assert (drop n H' = [] ∨ p_low < Z.of_nat (length rs)) as HdropE.
    { destruct (decide (p_low < Z.of_nat (length rs))); [by right|left]. apply nil_length_inv. rewrite drop_length, HlH. lia. }
    assert (2 ≤ length rs)%nat as H2. { rewrite <-Hlrs. destruct G as [|g0 [|? ?]]; simpl in *; [done|exfalso; apply Hmany; eauto|lia]. }
    apply wpe_bind. eapply wpe_mono; [apply IH; [exact HrA|rewrite Htk| |lia|lia|lia|lia| |intros Hs; left; rewrite Htk]|].
    { intros g Hg. destruct (HG' g) as (Ha1 & Ha2 & _); [by apply Htake|]. split; [done|]. rewrite Ha2 by (by eapply Hpos). set_solver. }
    { destruct (decide (p_low = 0)) as [Hp0|Hp0]; [left; unfold n; by rewrite Hp0|right]. destruct Hcase; [|done]. split; [lia|]. rewrite Htk. apply HrwA. lia. }
    { rewrite take_length. pose proof HlH as Hx. unfold keeper in *. lia. }
    { destruct (asides (take n G')) as [|v l] eqn:Heq; [done|]. assert (v ∈ asides (take n G')) as (g & Hg & Hv')%elem_asides by (rewrite Heq; by left).
      destruct (HG' g (Htake g Hg)) as (_ & Ha2 & _). rewrite Ha2 in Hv' by (by eapply Hpos). by apply elem_of_nil in Hv'. }
    intros a Ha. apply wpe_bind. eapply wpe_mono; [apply IH; [exact HrB|rewrite Hdr| |lia|lia|lia|lia| |]|].
    { intros g Hg. destruct (HG' g (Hdrop g Hg)) as (Ha1 & _ & Ha3 & _). split; [done|]. intros v Hv'%Ha3. lia. }
    { destruct HdropE as [?|Hlt]; [by left|right]. split; [lia|]. rewrite Hdr. by apply HrwB. }
    { rewrite drop_length. pose proof HlH as Hx. unfold keeper in *. lia. }
    { intros Hs. rewrite Hdr. destruct (decide (0 < p_low)) as [Hp|Hp].
      - left. destruct (asides (drop n G')) as [|v l] eqn:Heq; [done|]. assert (v ∈ asides (drop n G')) as (g & Hg & Hv')%elem_asides by (rewrite Heq; by left).
        destruct (HG' g (Hdrop g Hg)) as (_ & Ha2 & _). rewrite Ha2 in Hv' by done. by apply elem_of_nil in Hv'.
      - right. rewrite drop_length. pose proof HlH as Hx. unfold keeper in *. lia. }
    intros b Hb. apply wpe_ret. eapply safe_side_by_side; [| | |exact Ha|exact Hb].
    - intros R1 R2 [HSh Hcd]. split; [|exact Hcd]. pose proof (shed_length _ _ _ _ HSh) as Hx. symmetry in Hx. apply nil_length_inv in Hx. rewrite Hx. apply shed_nil.
    - intros R1 R2 [HSh Hcd]. split; [|exact Hcd]. pose proof (shed_length _ _ _ _ HSh) as Hx. symmetry in Hx. apply nil_length_inv in Hx. rewrite Hx. apply shed_nil.
    - intros R2 x y [HSx [Hpx HsA]] [HSy [Hpy HsB]]. rewrite Htk in HsA. rewrite Hdr in HsB. split; [|split].
      + eapply shed_trans; [exact HShK|]. pose proof (sp_dist _ _ (proj1 Hready3)) as HD3. rewrite HKs in HD3 |- *. by apply shed_app.
      + intros v. rewrite fmap_app, all_verts_app. intros [?|?]%elem_of_app; auto.
      + intros Hs. destruct (HsA Hs) as [HA1 HA2]. destruct (HsB Hs) as [HB1 HB2]. destruct (Hlim Hs) as [HL0 HL1]. rewrite fmap_app.
        set (A := fst <$> x) in *. set (B := fst <$> y) in *.
        assert (∀ q, lpw (wpair <$> asides (take n G')) q = 0) as HzA.
        { intros q. apply lpw_zero. intros z (v & -> & (g & Hg & Hv')%elem_asides)%elem_of_list_fmap.
          destruct (HG' g (Htake g Hg)) as (_ & Ha2 & _). rewrite Ha2 in Hv' by (by eapply Hpos). by apply elem_of_nil in Hv'. }
        assert (∀ q, q ≠ low → lpw (wpair <$> asides (drop n G')) q = 0) as HzB.
        { intros q Hq. apply lpw_zero. intros z (v & -> & (g & Hg & Hv')%elem_asides)%elem_of_list_fmap. simpl.
          destruct (HG' g (Hdrop g Hg)) as (_ & _ & Ha3 & _). rewrite (Ha3 v Hv'). done. }
        assert (0 < p_low → lpw (wpair <$> asides (drop n G')) low = 0) as HzB1.
        { intros Hp. apply lpw_zero. intros z (v & -> & (g & Hg & Hv')%elem_asides)%elem_of_list_fmap.
          destruct (HG' g (Hdrop g Hg)) as (_ & Ha2 & _). rewrite Ha2 in Hv' by done. by apply elem_of_nil in Hv'. }
        assert (∀ q, ¬ low ≤ q ≤ low + kl - 1 → gpart_weight A q = 0) as HA0. { intros q Hq. rewrite HA2 by done. destruct (decide (low + kl - 1 - low = 1)); [apply HzA|done]. }
        assert (∀ q, ¬ low + kl ≤ q ≤ high → q ≠ low → gpart_weight B q = 0) as HB0. { intros q Hq Hne'. rewrite HB2 by done. destruct (decide (high - (low + kl) = 1)); [by apply HzB|done]. }
        split.
        * intros q Hq. rewrite gpart_weight_app. destruct (decide (q ≤ low + kl - 1)) as [Hql|Hql].
          -- destruct (decide (q = low)) as [->|Hne'].
             ++ rewrite HB2 by lia. destruct (decide (0 < p_low)) as [Hp|Hp].
                ** rewrite HzB1 by done. specialize (HA1 low ltac:(lia)). destruct (decide (high - (low + kl) = 1)); lia.
                ** assert (p_low = 0) as Hp0 by lia.
                   assert (n = 0%nat) as Hn0 by (unfold n; by rewrite Hp0). rewrite Hn0 in *. rewrite drop_0 in *.
                   assert (x = []) as Hx0. { pose proof (shed_length _ _ _ _ HSx) as Hx. simpl in Hx. by apply nil_length_inv. }
                   assert (A = []) as -> by (unfold A; by rewrite Hx0).
                   change (gpart_weight [] low) with 0. destruct (decide (high - (low + kl) = 1)) as [Hkh2|Hkh2]; [|lia]. rewrite asides_lpw.
                   assert (zsum ((λ g, lpw (wpair <$> aside g) low) <$> G') = W0) as ->.
                   { unfold W0. rewrite <-Hgw. transitivity (gpart_weight (fst <$> G') low); [|unfold gpart_weight; by rewrite Hperm].
                     rewrite <-gpart_weight_sum, <-list_fmap_compose. apply zsum_fmap_ext. intros g Hg. by destruct (HG' g Hg) as (_ & _ & _ & Ha4); apply Ha4. }
                   destruct (decide (kl = 1)) as [Hk1|Hk1]; [specialize (HmM0 Hk1); lia|].
                   specialize (Hpl0 ltac:(lia) ltac:(lia) Hp0). specialize (HmP ltac:(lia) ltac:(lia)). lia.
             ++ rewrite (HB0 q) by lia. specialize (HA1 q ltac:(lia)). lia.
          -- rewrite HA0 by lia. specialize (HB1 q ltac:(lia)). lia.
        * intros q Hq. rewrite decide_False by done. rewrite gpart_weight_app, HA0, HB0 by lia. done.
  Qed.
End cut_run.

(** ** Two parts: nobody calls remove_cut_nets *)
Lemma wlp_any {A} (m : M A) : wpe (λ _, True) m (λ _, True).
Proof. intros w. by destruct (m w) as [[? ?]|]. Qed.
Lemma wlp_step {A B} (m : M A) (f : A → M B) (Q : B → Prop) : (∀ a, wpe (λ _, True) (f a) Q) → wpe (λ _, True) (a <- m ;; f a) Q.
Proof. intros Hf. apply wpe_bind. eapply wpe_mono; [apply wlp_any|]. intros a _. apply Hf. Qed.
Lemma wpe_and {A} E (m : M A) (P Q : A → Prop) : wpe E m P → wpe (λ _, True) m Q → wpe E m (λ a, P a ∧ Q a).
Proof. intros H1 H2 w. specialize (H1 w). specialize (H2 w). destruct (m w) as [[? ?]|]; [done|done]. Qed.
Lemma wpe_and_add E (ps : list keeper) (P Q : list hg → Prop) : wpe E (add_cut_nets_par ps) P →
  wpe E (add_cut_nets_par ps) (λ Hs', P Hs' → Q Hs') → wpe E (add_cut_nets_par ps) Q.
Proof. intros H1 H2 w. specialize (H1 w). specialize (H2 w). destruct (add_cut_nets_par ps w) as [[? ?]|]; [by apply H2|done]. Qed.
Lemma wpe_add_none E (ps : list keeper) (Q : list hg → Prop) : (∀ P, P ∈ ps → snd P = []) → Q (fst <$> ps) → wpe E (add_cut_nets_par ps) Q.
Proof.
  intros Hnone HQ. unfold add_cut_nets_par. apply wpe_bind. eapply (wpe_mapP _ _ (λ _ P r, r = (fst P, []))).
  { intros i P HP. unfold give_back. rewrite (Hnone P) by (by eapply elem_of_list_lookup_2). by apply wpe_ret. }
  intros rs Hl Hrs. apply wpe_bind.
  match goal with |- wpe _ (exchange ?X) _ => replace X with (to_all (length ps) <$> (snd <$> rs)) by (by rewrite <-list_fmap_compose) end.
  apply wpe_exchange_all; [by rewrite fmap_length|]. intros ins Hli Hins.
  assert (concat (snd <$> rs) = []) as Hc.
  { assert (∀ r, r ∈ rs → snd r = []) as Hx.
    { intros r [t Ht]%elem_of_list_lookup. destruct (lookup_lt_is_Some_2 ps t) as [P HP]; [apply lookup_lt_Some in Ht; unfold keeper in *; lia|]. by rewrite (Hrs t P r HP Ht). }
    clear -Hx. induction rs as [|r rs IH]; [done|]. csimpl. rewrite (Hx r) by (by left). apply IH. intros r' Hr'. apply Hx. by right. }
  eapply (wpe_ranks _ _ _ (λ t H, ∃ P, ps !! t = Some P ∧ H = fst P)).
  - intros t Ht. destruct (lookup_lt_is_Some_2 ps t Ht) as [P HP]. destruct (lookup_lt_is_Some_2 rs t ltac:(unfold keeper in *; lia)) as [r Hr].
    destruct (lookup_lt_is_Some_2 ins t ltac:(unfold keeper in *; lia)) as [box Hb]. apply wpe_bind. eapply wpe_nidx; [exact Hr|]. apply wpe_bind. eapply wpe_nidx; [exact Hb|].
    pose proof (Hins t box Hb) as Hp. rewrite Hc in Hp. apply Permutation_nil_r in Hp as ->. rewrite (Hrs t P r HP Hr). apply wpe_ret. eauto.
  - intros Hs' Hl' Hs2. assert (Hs' = fst <$> ps) as ->; [|done]. apply list_eq_same_length with (length ps); [by rewrite fmap_length|done|].
    intros t x y _ Hx Hy. destruct (Hs2 t x Hx) as (P & HP & ->). rewrite (lookup_fmap_1 fst ps t P HP) in Hy. by injection Hy.
Qed.
Lemma two_now bis bisp Mx eta opts fuel G weight : wpe (λ _, True) (cut_group bis bisp 2 Mx eta opts (S fuel) G 0 1 weight 0) (λ r, ∃ ps, r = Now ps).
Proof.
  assert (∀ ps, wpe (λ _, True) (wind_up 2 ps 1) (λ r, ∃ ps, r = Now ps)) as Hup by (intros ps; unfold wind_up; rewrite decide_False by lia; apply wpe_ret; eauto).
  destruct G as [|g [|g2 G]]; [apply wpe_ret; eauto| |].
  - cbn [cut_group]. unfold cut_alone. apply wpe_bind. eapply (wpe_mono _ _ (λ r, ∃ s, r = Now s ∧ rb_splits s = 1)).
    + change (Z.to_nat (3 * (1 - 0 + 1)) + 2)%nat with 8%nat. cbn [cut_loop j_high j_low]. rewrite decide_True by lia. apply wpe_bind.
      eapply (wpe_mono _ _ (λ y : rb_state * job, rb_jobs (fst y) = [] ∧ rb_splits (fst y) = 1 ∧ j_high (snd y) - j_low (snd y) = 0)).
      * unfold split_only, rb_split. cbn [j_high j_low rb_H rb_jobs rb_cut rb_splits j_st j_en j_weight]. apply wlp_step. intros mx. apply wlp_step. intros r.
        change (labels_1 0 1) with (1, 1). change (labels_0 0 1) with (0, 0). cbn [fst snd]. rewrite decide_False by lia. apply wpe_bind, wpe_ret. cbn [fst snd].
        apply wlp_step. intros c. apply wpe_ret. done.
      * intros [s j] (Hj & Hs & Hl). cbn [fst snd] in *. rewrite Hj. rewrite decide_False by naive_solver. rewrite decide_False by lia. apply wpe_ret. eauto.
    + intros r (s & -> & Hs). cbn [bind_res]. rewrite Hs. apply Hup.
  - cbn [cut_group]. rewrite decide_True by lia. apply wlp_step. intros mx. apply wlp_step. intros rs. apply wlp_step. intros w0. apply wlp_step. intros w1. apply wlp_step. intros p_low.
    apply wpe_bind. eapply (wpe_mono _ _ (λ x, x = 0)).
    + set (xs := _ <$> _). assert (∀ x, x ∈ xs → x = 0) as Hx.
      { intros x (s & -> & _)%elem_of_list_fmap. cbv zeta. unfold my_part. destruct (decide (Z.of_nat s < p_low)); vm_compute; reflexivity. }
      clearbody xs. unfold agreed. destruct xs as [|x xs]; [apply wpe_fail; done|]. apply wlp_step. intros _. apply wpe_ret, Hx. by left.
    + intros go ->. rewrite decide_False by lia. apply Hup.
Qed.
(** ** The whole function *)
Lemma wpe_recursive_bisect_cut_with strict bis bisp bp (E : err → Prop) gn Hs k eps eta opts (Q : option (list hg) → Prop) :
  bis_ok strict bis → bisp_ok strict bisp → lawful_family bp → valid_binary 53 1024 eta = true → d_le d_zero eta = true → d_le eta (d_of_Z (2 ^ 50)) = true →
  spread_pre gn Hs → (∀ v, v ∈ all_verts Hs → 0 ≤ v_id v) → Hs ≠ [] → Z.of_nat (length Hs) ≤ 2 ^ 50 → 2 ≤ k ≤ 2 ^ 50 →
  (∀ M, d_trunc (d_div (d_mul (d_add d_one eps) (d_of_Z (gweight Hs))) (d_of_Z k)) = Some M → 0 ≤ M ∧ M * k ≤ 2 ^ 50) →
  (strict → E Abort) → E UB → (E Abort ∨ (o_bisection opts = BisMultilevel → o_sampling opts ≠ SampRandom)) →
  (o_bisection opts = BisMultilevel → Z.of_nat (length Hs) ≤ o_sample_size opts) →
  (k ≠ 2 → Q None) → (∀ M R G Hs', d_trunc (d_div (d_mul (d_add d_one eps) (d_of_Z (gweight Hs))) (d_of_Z k)) = Some M → shed gn R ((λ H, (H, [])) <$> Hs) G → (k = 2 → R = [] ∧ Hs' = fst <$> G) → nets_back G Hs' → (∀ v, v ∈ all_verts (fst <$> G) → 0 ≤ v_part v < k) →
     (strict → ∀ q, 0 ≤ q < k → gpart_weight (fst <$> G) q ≤ M) → Q (Some Hs')) →
  wpe E (recursive_bisect_cut_with bis bisp bp Hs k eps eta opts) Q.
Proof.
  intros Hb1 Hb2 Hbp Hv He0 He1 Hpre Hids Hne Hlen Hk HM HA HU HR HS HN HQ. unfold recursive_bisect_cut_with.
  apply wpe_bind. rewrite global_weight_spec. apply (wpe_agreed _ _ (gweight Hs)); [by destruct Hs|by intros x ?%elem_of_replicate_inv|].
  apply wpe_bind. unfold max_weight, d_to_Z. destruct (d_trunc _) as [M|] eqn:HMeq; [|by apply wpe_fail].
  apply wpe_of_option_Some with M; [done|]. destruct (HM M eq_refl) as [HM0 HMk].
  set (G := (λ H, ((H, []), Z.of_nat (length (h_verts H)))) <$> Hs).
  assert (fst <$> G = (λ H, (H, [])) <$> Hs) as HG. { unfold G. rewrite <-list_fmap_compose. by apply list_fmap_ext. }
  assert (fst <$> (fst <$> G) = Hs) as HG2. { rewrite HG, <-list_fmap_compose. by apply list_fmap_id. }
  assert (∀ g, g ∈ works G → aside g = []) as Hnil. { intros g (x & -> & (H & -> & HH)%elem_of_list_fmap)%elem_of_list_fmap. unfold aside. cbn [fst snd]. rewrite Nat2Z.id. by rewrite drop_all. }
  assert (0 ≤ gweight Hs). { apply zsum_nonneg. intros x (v & -> & Hx)%elem_of_list_fmap. apply Z.lt_le_incl. by apply (sp_weight _ _ Hpre). }
  apply wpe_bind. eapply wpe_mono.
  - eapply (wpe_and E _ _ (λ r, k = 2 → ∃ ps, r = Now ps)); [|destruct (decide (k = 2)) as [->|?]; [eapply wpe_mono; [apply two_now|done]|eapply wpe_mono; [apply wlp_any|done]]].
    eapply (wpe_cut_group strict bis Hb1 bisp Hb2 eta Hv He0 He1 (with_sample_size (o_sample_size opts / Z.of_nat (length Hs)) opts) k M Hk HM0 HMk gn E HA HU HR).
    + cbn [o_bisection o_sample_size with_sample_size]. intros Hml. specialize (HS Hml). destruct Hs as [|H0 Hs]; [done|]. apply Z.div_str_pos. simpl in *. lia.
    + split; [exact (eq_ind_r (spread_pre gn) Hpre HG2)|exact (eq_ind_r (λ X, ∀ v, v ∈ all_verts X → 0 ≤ v_id v) Hids HG2)].
    + intros g Hg. split; [|rewrite Hnil by done; set_solver]. apply elem_of_list_fmap in Hg as (x & -> & (H' & -> & _)%elem_of_list_fmap). cbn [fst snd]. lia.
    + right. split; [lia|]. unfold range_weight, works, G. rewrite <-!list_fmap_compose. unfold gweight, all_verts. clear.
      induction Hs as [|H Hs IH]; [done|]. csimpl. rewrite zsum_cons, fmap_app, zsum_app, Nat2Z.id, take_ge by lia. lia.
    + lia.
    + lia.
    + lia.
    + split; [lia|apply Hpre].
    + unfold G. by rewrite fmap_length.
    + intros _. left. destruct (asides (works G)) as [|v l] eqn:Heq; [done|]. assert (v ∈ asides (works G)) as (g & Hg & Hx)%elem_asides by (rewrite Heq; by left).
      rewrite Hnil in Hx by done. by apply elem_of_nil in Hx.
  - intros r [Hr Htwo]. destruct (decide (k = 2)) as [Hk2|Hk2].
    { destruct (Htwo Hk2) as [ps ->]. destruct Hr as [HSh [Hp HsM]]. cbn [meet_all]. apply wpe_bind, wpe_ret. apply wpe_bind. pose proof (eq_ind _ (λ X, shed gn [] X ps) HSh _ HG) as HSh2.
      apply wpe_and_add with (P := nets_back ps); [eapply (wpe_add_cut_nets_par gn); [eapply shed_keepers; [apply Hpre|exact HSh2]|done]|].
      apply wpe_add_none.
      - intros P HP. apply elem_of_list_lookup in HP as [t Ht]. destruct (Forall2_lookup_r _ _ _ _ _ (sh_kept _ _ _ _ HSh2) Ht) as (P0 & HP0 & add & Hadd & _ & Hin).
        apply list_lookup_fmap_Some in HP0 as (H0 & _ & ->). destruct add as [|n add]; [exact Hadd|]. destruct (Hin n ltac:(by left)) as [Hx _]. by apply elem_of_nil in Hx.
      - intros HB. apply wpe_ret. apply (HQ M [] ps); [done..|]. intros Hst q Hq. destruct (HsM Hst) as [HL _]. apply HL. lia. }
    apply wpe_bind. eapply (wpe_meet bp E gn); [done|done|exact Hr|apply wpe_ret; by apply HN|].
    intros R ps [HSh [Hp HsM]]. pose proof (eq_ind _ (λ X, shed gn R X ps) HSh _ HG) as HSh2. apply wpe_bind. eapply (wpe_add_cut_nets_par gn).
    + eapply shed_keepers; [apply Hpre|exact HSh2].
    + intros Hs' HB. apply wpe_ret. apply (HQ M R ps Hs'); [done|done|done|done|done|]. intros Hst q Hq. destruct (HsM Hst) as [HL _]. apply HL. lia.
Qed.
Lemma wpe_recursive_bisect_cut bp (E : err → Prop) gn Hs k eps eta opts (Q : option (list hg) → Prop) :
  lawful_family bp → valid_binary 53 1024 eta = true → d_le d_zero eta = true → d_le eta (d_of_Z (2 ^ 50)) = true →
  spread_pre gn Hs → (∀ v, v ∈ all_verts Hs → 0 ≤ v_id v) → Hs ≠ [] → Z.of_nat (length Hs) ≤ 2 ^ 50 → 2 ≤ k ≤ 2 ^ 50 →
  (∀ M, d_trunc (d_div (d_mul (d_add d_one eps) (d_of_Z (gweight Hs))) (d_of_Z k)) = Some M → 0 ≤ M ∧ M * k ≤ 2 ^ 50) →
  E UB → (E Abort ∨ (o_bisection opts = BisMultilevel → o_sampling opts ≠ SampRandom)) →
  (o_bisection opts = BisMultilevel → Z.of_nat (length Hs) ≤ o_sample_size opts) →
  (k ≠ 2 → Q None) → (∀ R G Hs', shed gn R ((λ H, (H, [])) <$> Hs) G → (k = 2 → R = [] ∧ Hs' = fst <$> G) → nets_back G Hs' → (∀ v, v ∈ all_verts (fst <$> G) → 0 ≤ v_part v < k) → Q (Some Hs')) →
  wpe E (recursive_bisect_cut bp Hs k eps eta opts) Q.
Proof.
  intros Hbp Hv He0 He1 Hpre Hids Hne Hlen Hk HM HU HR HS HN HQ. unfold recursive_bisect_cut.
  eapply (wpe_recursive_bisect_cut_with False _ _ bp E gn); [by apply bisect1_ok|by apply bisect_par_ok|done..|]. intros M R G Hs' _ HSh H2 HB Hp _. by apply (HQ R G).
Qed.

(** ** Runs of the program with checked functions are runs of the program *)
(** the second computation ends as the first one does *)
Fixpoint follows {A} (r r' : res A) : Prop :=
  match r, r' with
  | Now a, Now a' => a = a'
  | Stuck, Stuck => True
  | Call groups next, Call groups' next' => groups = groups' ∧
      ∀ gs w, match next gs w with Ok (r1, w1) => ∃ r1', next' gs w = Ok (r1', w1) ∧ follows r1 r1' | Err _ => True end
  | _, _ => False
  end.
Definition runs {A} (m m' : M (res A)) : Prop := ∀ w, match m w with Ok (r, w1) => ∃ r', m' w = Ok (r', w1) ∧ follows r r' | Err _ => True end.
Lemma follows_refl {A} (r : res A) : follows r r.
Proof.
  induction r as [a| |groups next IH] using res_ind'; simpl; [done|done|]. split; [done|]. intros gs w. destruct (next gs w) as [[r1 w1]|e] eqn:Heq; [|done].
  exists r1. split; [done|]. by eapply IH.
Qed.
Lemma runs_refl {A} (m : M (res A)) : runs m m.
Proof. intros w. destruct (m w) as [[r w1]|e]; [|done]. exists r. split; [done|]. apply follows_refl. Qed.
Lemma runs_bind {A B} (m m' : M A) (f f' : A → M (res B)) : run_of m m' → (∀ a, runs (f a) (f' a)) → runs (bind m f) (bind m' f').
Proof.
  intros Hm Hf w. unfold bind. destruct (m w) as [[a w1]|e] eqn:Heq; [|done]. rewrite (Hm w a w1 Heq). apply Hf.
Qed.
Lemma runs_bind_res {A B} (r : res A) (f f' : A → M (res B)) : (∀ a, runs (f a) (f' a)) → ∀ r', follows r r' → runs (bind_res r f) (bind_res r' f').
Proof.
  intros Hf. induction r as [a| |groups next IH] using res_ind'; intros [a'|groups' next'|]; simpl; try done.
  - intros <-. apply Hf.
  - intros _. apply runs_refl.
  - intros [<- Hn] w. simpl. eexists. split; [done|]. simpl. split; [done|]. intros gs w2. specialize (Hn gs w2). destruct (next gs w2) as [[r1 w1]|e] eqn:Heq; [|done].
    destruct Hn as (r1' & -> & Hr). exact (IH gs w2 r1 w1 Heq r1' Hr w1).
Qed.
Lemma runs_then {A B} (m m' : M (res A)) (f f' : res A → M (res B)) : runs m m' → (∀ r r', follows r r' → runs (f r) (f' r')) → runs (bind m f) (bind m' f').
Proof.
  intros Hm Hf w. unfold bind. specialize (Hm w). destruct (m w) as [[r w1]|e]; [|done]. destruct Hm as (r' & -> & Hr). exact (Hf r r' Hr w1).
Qed.
Lemma runs_call {A} g (f f' : list keeper → M (res A)) : (∀ ps, runs (f ps) (f' ps)) → runs (call_remove g f) (call_remove g f').
Proof. intros Hf w. simpl. eexists. split; [done|]. simpl. split; [done|]. intros gs w2. apply Hf. Qed.
Lemma follows_side (a : res (list keeper)) : ∀ a' b b', follows a a' → follows b b' → follows (side_by_side a b) (side_by_side a' b').
Proof.
  induction a as [x| |ga na IH] using res_ind'; intros [x'|ga' na'|]; simpl; try done; intros b b' Ha Hb.
  - subst x'. destruct x as [|P x]; destruct b as [[|Pb y]|gb nb|], b' as [[|Pb' y']|gb' nb'|]; simpl in *; try done; by simplify_eq.
  - destruct b as [[|Pb y]|gb nb|], b' as [[|Pb' y']|gb' nb'|]; simpl in *; done.
  - destruct b as [[|Pb y]|gb nb|], b' as [[|Pb' y']|gb' nb'|]; simpl in *; try done; try (by simplify_eq).
    destruct Ha as [<- Hna], Hb as [<- Hnb]. split; [done|]. intros gs w. specialize (Hna (take (length ga) gs) w).
    destruct (na (take (length ga) gs) w) as [[a1 w1]|e] eqn:Heq; [|done]. destruct Hna as (a1' & -> & Ha1). specialize (Hnb (drop (length ga) gs) w1).
    destruct (nb (drop (length ga) gs) w1) as [[b1 w2]|e]; [|done]. destruct Hnb as (b1' & -> & Hb1). eexists. split; [done|]. by eapply IH.
Qed.
Lemma run_meet bp r : ∀ r', follows r r' → run_of (meet_all bp r) (meet_all bp r').
Proof.
  induction r as [x| |groups next IH] using res_ind'; intros [x'|groups' next'|]; simpl; try done.
  - intros <-. apply run_refl.
  - intros _. apply run_refl.
  - intros [<- Hn] w a w'. destruct (remove_cut_nets_par bp groups w) as [[gs w1]|e]; [|done]. specialize (Hn gs w1).
    destruct (next gs w1) as [[r1 w2]|e] eqn:Heq; [|done]. destruct Hn as (r1' & -> & Hr). by apply (IH gs w1 r1 w2 Heq).
Qed.
Lemma run_recursive_cut bis bis' bisp bisp' bp Hs k eps eta opts :
  (∀ H opts mx st en labels, run_of (bis H opts mx st en labels) (bis' H opts mx st en labels)) →
  (∀ jobs opts mx labels, run_of (bisp jobs opts mx labels) (bisp' jobs opts mx labels)) →
  run_of (recursive_bisect_cut_with bis bisp bp Hs k eps eta opts) (recursive_bisect_cut_with bis' bisp' bp Hs k eps eta opts).
Proof.
  intros Hb Hbp. unfold recursive_bisect_cut_with. apply run_bind; [apply run_refl|]. intros gw. apply run_bind; [apply run_refl|]. intros M. cbv zeta.
  set (o := with_sample_size _ _). clearbody o.
  assert (∀ fuel s j, runs (cut_loop bis M o fuel s j) (cut_loop bis' M o fuel s j)) as Hlp.
  { intros fuel. induction fuel as [|fuel IH]; intros s j; [apply runs_refl|]. cbn [cut_loop]. destruct (decide (j_high j - j_low j > 0)).
    - apply runs_bind.
      + unfold split_only, rb_split. apply run_bind; [apply run_refl|]. intros mx. apply run_bind; [apply Hb|intros; apply run_refl].
      + intros y. destruct (decide (rb_jobs (fst y) ≠ [])); [|apply IH]. apply runs_call. intros ps. apply runs_bind; [apply run_refl|]. intros P. apply IH.
    - destruct (rb_jobs s); [apply runs_refl|apply IH]. }
  assert (∀ P en low high weight splits, runs (cut_alone bis k M o P en low high weight splits) (cut_alone bis' k M o P en low high weight splits)) as Hal.
  { intros P en low high weight splits. unfold cut_alone. apply runs_then; [apply Hlp|]. intros r r' Hr. apply runs_bind_res; [|done]. intros s. apply runs_refl. }
  assert (∀ fuel G low high weight splits, runs (cut_group bis bisp k M eta o fuel G low high weight splits) (cut_group bis' bisp' k M eta o fuel G low high weight splits)) as Hgr.
  { intros fuel. induction fuel as [|fuel IH]; intros G low high weight splits; (destruct G as [|g [|g2 G]]; [apply runs_refl|cbn [cut_group]; apply Hal|]); [apply runs_refl|].
    cbn [cut_group]. destruct (decide (high - low > 0)); [|apply runs_refl]. apply runs_bind; [apply run_refl|]. intros mx. apply runs_bind; [apply Hbp|]. intros rs.
    apply runs_bind; [apply run_refl|]. intros W0. apply runs_bind; [apply run_refl|]. intros W1. apply runs_bind; [apply run_refl|]. intros p_low.
    apply runs_bind; [apply run_refl|]. intros go. cbv zeta. destruct (decide (go = 1)); [|apply runs_refl]. apply runs_call. intros ps'. apply runs_bind; [apply run_refl|]. intros G'.
    apply runs_then; [apply IH|]. intros a a' Ha. apply runs_then; [apply IH|]. intros b b' Hb'. intros w. simpl. eexists. split; [done|]. by apply follows_side. }
  intros w a w'. unfold bind at 1. intros Hr. unfold bind at 1.
  pose proof (Hgr (Z.to_nat k) ((λ H, ((H, []), Z.of_nat (length (h_verts H)))) <$> Hs) 0 (k - 1) gw 0 w) as Hx.
  destruct (cut_group bis bisp k M eta o _ _ _ _ _ _ w) as [[r w1]|e]; [|done]. destruct Hx as (r' & -> & Hf). revert Hr. apply (run_bind (meet_all bp r) (meet_all bp r')); [by apply run_meet|].
  intros x. apply run_refl.
Qed.
