(** find_top_moves: the moves a processor finds on its own. *)
From Verif Require Export KparLoop KparReject KlfmProof.

Lemma gok_F E S L G : gok E S L G ↔ ∃ F, gs_inv S L F G ∧ (F = gain_fun (g_H G) (g_C G) ∨ E UB).
Proof.
  split.
  - intros [HI|(HE & F & HI)]; [eexists; split; [done|by left]|exists F; auto].
  - intros (F & HI & [->|HE]); [by left|right; eauto].
Qed.

Lemma kok_same part Bs t B k k' : kok part Bs t B k → kp_H k' = kp_H k → kp_C k' = kp_C k → kp_Cl k' = kp_Cl k →
  kp_own k' = kp_own k → kp_prev0 k' = kp_prev0 k → kp_cut k' = kp_cut k → kok part Bs t B k'.
Proof.
  intros [[Hsh Htr Hown Hprev Hcut] HB HS HCl] HH HC HL Ho Hp Hc. split; rewrite ?HH, ?HL; [|done..].
  split; rewrite ?HH, ?HC, ?Ho, ?Hp, ?Hc; done.
Qed.
Lemma kok_moved part Bs t B k k' v : consistent B → kok part Bs t B k → v ∈ h_verts (kp_H k) → moved v (kp_H k) (kp_H k') →
  kp_C k' = mix (v_part v) (1 - v_part v) (kp_H k) (kp_C k) (v_nets v) → exact_counts (kp_H k') (kp_Cl k') →
  kp_own k' = kp_own k → kp_prev0 k' = kp_prev0 k → kp_cut k' = kp_cut k → kok part Bs t B k'.
Proof.
  intros HCB [[Hsh Htr Hown Hprev Hcut] HB HS HCl] Hv HM HC HL Ho Hp Hc.
  assert (consistent (kp_H k)) as HCk by (by eapply same_shape_consistent).
  split; [|by eapply moved_bisected|apply HM|done].
  split; rewrite ?Ho, ?Hp, ?Hc; [eapply same_shape_trans; [done|apply HM]|rewrite HC; by apply tracks_moved|done| |done].
  rewrite Hprev. pose proof (ss_nets _ _ (mv_shape _ _ _ HM)) as HF.
  clear -HF. induction HF as [|n n' l l' (Hid & _) HF IH]; [done|]. csimpl. by rewrite IH, Hid.
Qed.

Lemma total_change_snoc ms m : total_change (ms ++ [m]) = total_change ms + km_change m.
Proof. unfold total_change. rewrite fmap_app, zsum_app. csimpl. rewrite zsum_cons. unfold zsum at 2. simpl. lia. Qed.

(** a processor with the given gain structure and local counts *)
Definition kp_with (k : kproc) (G : gstruct) (Cl : list (Z * Z)) : kproc :=
  KProc G Cl (kp_ws k) (kp_own k) (kp_prev0 k) (kp_cut k) (kp_best k) (kp_nim k) (kp_done k).

(** the parts after giving the vertices in [us] the other part *)
Definition flipped (H : hg) (us : list Z) (u : Z) : Z := if decide (u ∈ us) then 1 - part_of H u else part_of H u.

Section find.
  Context (E : err → Prop) (part : partitioning) (gn : Z) (Bs : list hg) (t : nat) (B : hg) (k : kproc) (S : Z) (L : gset Z).
  Context (mx : Z * Z) (number : Z).
  Context (HD : distributed gn Bs) (HBs : B ∈ Bs) (Hpre : klfm_pre B) (Hok : kok part Bs t B k) (HG : gok E S L (kp_G k)) (Hcs : costs_ok S (kp_H k)).

  (** a found move, seen from the start of the round *)
  Definition found (L' : gset Z) (m : kmove) : Prop :=
    km_v m ∉ L ∧ km_v m ∈ L' ∧ ∃ v, v ∈ h_verts (kp_H k) ∧ v_id v = km_v m ∧ km_change m = if decide (v_part v = 0) then - v_weight v else v_weight v.

  Record finv (L' : gset Z) (s : find_state) : Prop := {
    fi_ok : kok part Bs t B (kp_with k (fs_G s) (fs_Cl s));
    fi_gok : gok E S L' (fs_G s);
    fi_sub : L ⊆ L';
    fi_nd : NoDup (km_v <$> fs_moves s);
    fi_mv : ∀ m, m ∈ fs_moves s → found L' m;
    fi_part : ∀ u, part_of (g_H (fs_G s)) u = flipped (kp_H k) (km_v <$> fs_moves s) u;
    fi_ws : fs_ws s = (fst (kp_ws k) + total_change (fs_moves s), snd (kp_ws k) - total_change (fs_moves s));
    fi_feas : within (kp_ws k) mx → feasible (kp_ws k) mx (fs_moves s);
    fi_wt : pws (g_H (fs_G s)) = (fst (pws (kp_H k)) + total_change (fs_moves s), snd (pws (kp_H k)) - total_change (fs_moves s));
  }.

  Lemma finv_same L' s G : finv L' s → g_H G = g_H (fs_G s) → g_C G = g_C (fs_G s) → gok E S L' G →
    finv L' (KlfmPar.FS G (fs_Cl s) (fs_moves s) (fs_ws s)).
  Proof.
    intros [? ? ? ? ? ? ? ? ?] HH HC HGo. split; simpl; rewrite ?HH; try done. by eapply kok_same.
  Qed.
  Lemma finv_start : finv L (KlfmPar.FS (kp_G k) (kp_Cl k) [] (kp_ws k)).
  Proof.
    assert (∀ w : Z * Z, w = (fst w + total_change [], snd w - total_change [])) as Hw.
    { intros [a b]. change (total_change []) with 0. simpl. f_equal; lia. }
    split; simpl; try done.
    - by eapply kok_same.
    - constructor.
    - intros m Hm. by apply elem_of_nil in Hm.
    - intros Hwi i. rewrite take_nil. rewrite <-Hw. done.
    - apply Hw.
  Qed.

  Lemma wpe_find_body L' s : finv L' s →
    wpe E (find_body mx number s) (λ bs, ∃ L'', finv L'' (snd bs) ∧ (fst bs = true → (unlocked (fs_G (snd bs)) < unlocked (fs_G s))%nat)).
  Proof.
    intros HP. pose proof HP as [Hk HGk Hsub Hnd Hmv Hpart Hws Hfe Hwt].
    set (H := g_H (fs_G s)) in *. set (C := g_C (fs_G s)) in *.
    pose proof Hk as [[Hsh Htr _ _ _] HB HS HCl]. change (kp_H (kp_with k (fs_G s) (fs_Cl s))) with H in *.
    change (kp_C (kp_with k (fs_G s) (fs_Cl s))) with C in *. change (kp_Cl (kp_with k (fs_G s) (fs_Cl s))) with (fs_Cl s) in *.
    pose proof (klfm_pre_shape _ _ Hpre Hsh) as [HC Hids _ _ Hwn].
    pose proof (proj1 (gok_F _ _ _ _) HGk) as (F & HI & HF). fold H C in HF.
    unfold find_body. apply wpe_bind. eapply wpe_gs_done; [exact HI|done|..].
    { intros G' HI' (HH & HCC & _) _. simpl. apply wpe_ret. exists L'. split; [|done]. apply finv_same; [done..|]. apply gok_F. exists F. rewrite HH, HCC. done. }
    intros G1 v1 HI1 Hs1 Hv1 HL1. simpl. pose proof Hs1 as (HH1 & HC1 & _). fold H C in HH1, HC1.
    case_decide as Hlen.
    2: { apply wpe_ret. exists L'. split; [|done]. apply finv_same; [done..|]. apply gok_F. exists F. rewrite HH1, HC1. done. }
    apply wpe_bind. eapply wpe_part_next; [exact HI1|by rewrite HH1|by rewrite HH1|done|]. rewrite HH1.
    intros G2 p u0 HI2 Hs2 Hp (Hu0 & Hu0p & Hu0L & _) _. pose proof Hs2 as (HH2 & HC2 & _). simpl.
    apply wpe_bind. eapply wpe_gs_next; [exact HI2|done|..]; rewrite HH2, HH1.
    { intros G3 _ _ He. exfalso. apply Hu0L, He; done. }
    intros G3 v HI3 Hs3 Hv Hvp HvL Hvm. pose proof Hs3 as (HH3 & HC3 & _). simpl.
    apply wpe_bind. eapply wpe_gs_gain_next; [exact HI3|done|..]; rewrite HH3, HH2, HH1.
    { intros G4 _ _ He. exfalso. by apply HvL, He. }
    intros G4 v' HI4 Hs4 Hv' Hvp' HvL' Hvm'. pose proof Hs4 as (HH4 & HC4 & _). simpl.
    assert (g_H G4 = H) as HH by (by rewrite HH4, HH3, HH2, HH1). assert (g_C G4 = C) as HCC by (by rewrite HC4, HC3, HC2, HC1).
    assert (same_gs (fs_G s) G4) as Hsg4 by (eapply same_gs_trans; [done|]; eapply same_gs_trans; [done|]; by eapply same_gs_trans).
    assert (gok E S L' G4) as HG4 by (apply gok_F; exists F; rewrite HH, HCC; done).
    case_decide as Hneg.
    { apply wpe_ret. exists L'. split; [|done]. by apply finv_same. }
    assert (p = v_part v) as -> by done. rewrite flip_part_01 by done. apply wpe_bind, wpe_psel; [lia|].
    apply wpe_bind. rewrite HH. eapply wpe_vert; [by apply co_vmap_ok|done|].
    assert (v_id v ∈ vids H) as Hvin by (apply vids_elem; eauto).
    case_decide as Hroom.
    - apply wpe_bind. eapply (wpe_gs_move_loc_ok E S L' G4); rewrite ?HH, ?HCC; try done.
      { eapply same_shape_costs_ok; [|exact Hcs]. eapply same_shape_trans; [apply same_shape_sym, (bk_shape _ _ _ _ _ (ko_book _ _ _ _ _ Hok))|done]. }
      { by eapply tracks_dominates. }
      intros G' Cl' HM HCl' HCC' HG'. apply wpe_ret. exists ({[v_id v]} ∪ L').
      assert (part_of H (v_id v) = part_of (kp_H k) (v_id v)) as Hpv.
      { rewrite Hpart. unfold flipped. rewrite decide_False; [done|]. intros (m & Heq & Hm)%elem_of_list_fmap. apply HvL. rewrite Heq. by apply Hmv. }
      assert (consistent (kp_H k)) as HC0 by (eapply same_shape_consistent; [apply (bk_shape _ _ _ _ _ (ko_book _ _ _ _ _ Hok))|apply Hpre]).
      assert (same_shape (kp_H k) H) as HshkH by (eapply same_shape_trans; [apply same_shape_sym, (bk_shape _ _ _ _ _ (ko_book _ _ _ _ _ Hok))|done]).
      assert (∃ v0, v0 ∈ h_verts (kp_H k) ∧ v_id v0 = v_id v ∧ v_weight v0 = v_weight v ∧ v_part v0 = v_part v) as (v0 & Hv0 & Hid0 & Hw0 & Hp0).
      { pose proof Hv as [i Hi]%elem_of_list_lookup. destruct (Forall2_lookup_r _ _ _ _ _ (ss_verts _ _ HshkH) Hi) as (v0 & Hi0 & Hid & _ & Hw).
        pose proof (elem_of_list_lookup_2 _ _ _ Hi0) as Hv0. exists v0. split_and!; try done.
        rewrite <-(part_of_elem (kp_H k) v0), <-(part_of_elem H v) by (done || apply HC || apply HC0). congruence. }
      simpl. set (ch := if decide (v_part v = 0) then -1 * v_weight v else v_weight v).
      assert (ch = if decide (v_part v0 = 0) then - v_weight v0 else v_weight v0) as Hch by (unfold ch; rewrite Hp0, Hw0; case_decide; lia).
      split.
      2: { intros _. simpl. rewrite <-(unlocked_same _ _ Hsg4). apply gok_inv in HG' as [F' HI']. eapply (unlocked_lt _ _ _ _ _ _ _ (v_id v)); [exact HI4|exact HI'| | |done].
           - rewrite HH. symmetry. apply same_shape_vids, HM.
           - by rewrite HH. }
      assert (v_id v ∉ km_v <$> fs_moves s) as Hnew.
      { intros (m & Heq & Hm)%elem_of_list_fmap. apply HvL. rewrite Heq. by apply Hmv. }
      split; simpl; try done.
      + eapply (kok_moved _ _ _ _ _ _ v); [apply Hpre|exact Hk|done..].
      + set_solver.
      + rewrite fmap_app. apply NoDup_app. split_and!; [done| |apply NoDup_singleton]. intros x Hx. simpl. intros ->%elem_of_list_singleton. done.
      + intros m [Hm|Hm]%elem_of_app.
        * destruct (Hmv m Hm) as (H1 & H2 & H3). split; [done|]. split; [set_solver|done].
        * apply elem_of_list_singleton in Hm as ->. simpl. split; simpl; [set_solver|]. split; [set_solver|]. exists v0. done.
      + intros u. rewrite (moved_part_of v H (g_H G')) by done. rewrite fmap_app. unfold flipped. simpl.
        destruct (decide (u = v_id v)) as [->|Hne].
        * rewrite decide_True by set_solver. rewrite <-Hpv. rewrite (part_of_elem H v) by (done || apply HC). done.
        * rewrite Hpart. unfold flipped. destruct (decide (u ∈ km_v <$> fs_moves s)); [rewrite decide_True by set_solver|rewrite decide_False by set_solver]; done.
      + rewrite total_change_snoc, Hws. simpl. f_equal; lia.
      + intros Hwi i. destruct (decide (i ≤ length (fs_moves s))%nat) as [Hi|Hi].
        { rewrite take_app_le by done. by apply Hfe. }
        rewrite take_ge by (rewrite app_length; simpl; lia). rewrite total_change_snoc. simpl.
        pose proof (Hfe Hwi (length (fs_moves s))) as [H1 H2]. rewrite firstn_all in H1, H2. simpl in H1, H2. pose proof (Hwn v Hv) as Hwv.
        rewrite Hws in Hroom. unfold sel in Hroom. simpl in Hroom. unfold within. simpl. unfold ch.
        destruct Hp as [Hp|Hp]; rewrite Hp in *; simpl in *; lia.
      + rewrite total_change_snoc. unfold pws. rewrite !(moved_part_weight v H (g_H G')) by auto. simpl.
        unfold pws in Hwt. simpl in Hwt. injection Hwt as Hw0' Hw1'. rewrite Hw0', Hw1'. unfold ch.
        destruct Hp as [Hp|Hp]; rewrite Hp; simpl; f_equal; lia.
    - apply wpe_bind. eapply wpe_gs_remove; [exact HI4|by rewrite HH|done|]. intros G' HI' HH' HCC'.
      assert (g_H G' = H) as HHH by congruence. assert (g_C G' = C) as HCC2 by congruence.
      apply wpe_ret. exists ({[v_id v]} ∪ L'). split; simpl.
      + split; simpl; rewrite ?HHH, ?HCC2; try done.
        * by eapply kok_same.
        * apply gok_F. exists F. rewrite HHH, HCC2. done.
        * set_solver.
        * intros m Hm. destruct (Hmv m Hm) as (H1 & H2 & H3). split; [done|]. split; [set_solver|done].
      + intros _. rewrite <-(unlocked_same _ _ Hsg4). eapply (unlocked_lt _ _ _ _ _ _ _ (v_id v)); [exact HI4|exact HI'|congruence| |done]. by rewrite HH.
  Qed.

  Lemma wpe_find_top_moves (Q : find_state → Prop) : (∀ L' s, finv L' s → Q s) → wpe E (find_top_moves mx number k) Q.
  Proof.
    intros HQ. eapply wpe_mono; [eapply (wpe_loopM E _ (λ s, ∃ L', finv L' s) (λ s, unlocked (fs_G s)) (λ s, ∃ L', finv L' s))|].
    - intros s [L' HP]. eapply wpe_mono; [by eapply wpe_find_body|]. intros [b s'] (L'' & HP' & Hdec). destruct b; [|eauto].
      split; [eauto|by apply Hdec].
    - exists L. apply finv_start.
    - simpl. apply gok_inv in HG as [F HI]. pose proof (unlocked_le _ _ _ _ HI). unfold kp_H. lia.
    - intros s [L' HP]. by eapply HQ.
  Qed.
End find.
