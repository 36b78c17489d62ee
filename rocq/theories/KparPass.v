(** Going back to the best point, a pass of parallel refinement, and all of it. *)
From Verif Require Export KparRound.

Lemma count_in_same H H' n n' p : n_verts n ≡ₚ n_verts n' → (∀ u, u ∈ n_verts n' → part_of H' u = part_of H u) → count_in H' n' p = count_in H n p.
Proof.
  intros Hperm Hp. rewrite (count_in_perm H n n') by done. unfold count_in. apply zcount_ext. intros u Hu. by rewrite Hp.
Qed.

Section reverse.
  Context (bp : Z → Z → partitioning) (gn : Z) (E : err → Prop) (p : nat) (Bs : list hg) (t : nat) (k : kproc).
  Let part := bp (Z.of_nat p) gn.
  Context (HD : distributed gn Bs) (HB : Bs !! t = Some (kp_H k)) (Hok : kok part Bs t (kp_H k) k).
  Context (Hnd : NoDup (kp_nim k)) (Hnim : ∀ u, u ∈ kp_nim k → u ∈ vids (kp_H k)).

  Record taken_back (us : list Z) (k1 : kproc) (d : Z) (Y : gset Z) : Prop := {
    tb_ok : kok part Bs t (kp_H k) k1;
    tb_part : ∀ u, part_of (kp_H k1) u = flipped (kp_H k) us u;
    tb_w : pws (kp_H k1) = (fst (pws (kp_H k)) + d, snd (pws (kp_H k)) - d);
    tb_nets : ∀ v, v ∈ h_verts (kp_H k) → v_id v ∈ us → list_to_set (v_nets v) ⊆ Y;
    tb_Y : ∀ n, n ∈ Y → n ∈ nids (kp_H k);
  }.

  Lemma wpe_reverse_moves (Q : kproc * Z * list (Z * (Z * Z)) → Prop) :
    (∀ k1 d out, kok part Bs t (kp_H k) k1 → (∀ u, part_of (kp_H k1) u = flipped (kp_H k) (kp_nim k) u) →
       pws (kp_H k1) = (fst (pws (kp_H k)) + d, snd (pws (kp_H k)) - d) → sends part Bs (kp_H k) (kp_H k1) out →
       kp_ws k1 = kp_ws k → kp_best k1 = kp_best k → Q (k1, d, out)) →
    wpe E (reverse_moves bp p k) Q.
  Proof.
    intros HQ. unfold reverse_moves.
    assert (consistent (kp_H k)) as HC0 by (apply (di_local _ _ HD); by eapply elem_of_list_lookup_2).
    apply wpe_bind. eapply (wpe_foldM E _ (λ ds (st : hg * list (Z * Z) * list (Z * Z) * (Z * gset Z)),
      taken_back ds (kp_moved k (fst st)) (fst (snd st)) (snd (snd st)))).
    { simpl. split; simpl.
      - eapply kok_same; [exact Hok|done..].
      - intros u. unfold flipped. by rewrite decide_False by apply not_elem_of_nil.
      - unfold kp_H. simpl. rewrite Z.add_0_r, Z.sub_0_r. done.
      - intros v _ Hv. by apply elem_of_nil in Hv.
      - set_solver. }
    { intros ds u ts [[[H C] Cl] [d Y]] Heq [Hok1 Hp1 Hw1 Hn1 HY1]. cbn [fst snd] in *. set (k1 := kp_moved k (H, C, Cl)) in *.
      change (kp_H k1) with H in *. pose proof (bk_shape _ _ _ _ _ (ko_book _ _ _ _ _ Hok1)) as Hsh. change (kp_H k1) with H in Hsh.
      assert (consistent H) as HC1 by (by eapply same_shape_consistent). pose proof (ko_bis _ _ _ _ _ Hok1) as HB1. change (kp_H k1) with H in HB1.
      assert (u ∈ kp_nim k) as Hu by (rewrite Heq; set_solver).
      assert (u ∉ ds) as Huds. { rewrite Heq in Hnd. apply NoDup_app in Hnd as (_ & Hd & _). intros Hin. apply (Hd u Hin). set_solver. }
      assert (u ∈ vids H) as (v & Hv & <-)%vids_elem by (rewrite <-(same_shape_vids _ _ Hsh); by apply Hnim).
      apply wpe_bind, wpe_vert; [by apply co_vmap_ok|done|]. apply wpe_bind.
      apply (wpe_kp_move E part Bs t (kp_H k) k1 v); [done..|]. intros [[H2 C2] Cl2] HM Hok2. apply wpe_ret. cbn [fst snd] in *.
      change (kp_H k1) with H in HM. pose proof (HB1 v Hv) as Hvp.
      split.
      - eapply kok_same; [exact Hok2|done..].
      - intros x. change (kp_H (kp_moved k (H2, C2, Cl2))) with H2. rewrite (moved_part_of v H) by done. unfold flipped. destruct (decide (x = v_id v)) as [->|Hne].
        + rewrite decide_True by set_solver. rewrite <-(part_of_elem H v) by (done || apply HC1). rewrite Hp1. unfold flipped. rewrite decide_False by done. done.
        + rewrite Hp1. unfold flipped. destruct (decide (x ∈ ds)); [rewrite decide_True by set_solver|rewrite decide_False by set_solver]; done.
      - change (kp_H (kp_moved k (H2, C2, Cl2))) with H2. unfold pws. rewrite !(moved_part_weight v H H2) by auto.
        unfold pws in Hw1. simpl in Hw1. injection Hw1 as Hw0' Hw1'. rewrite Hw0', Hw1'. cbn [fst snd].
        destruct Hvp as [Hp|Hp]; rewrite Hp; simpl; f_equal; lia.
      - cbn [fst snd]. intros x Hx [Hx'|Hx']%elem_of_app; [pose proof (Hn1 x Hx Hx'); set_solver|]. apply elem_of_list_singleton in Hx'.
        assert (v_nets x = v_nets v) as ->; [|set_solver]. pose proof Hv as [i Hi]%elem_of_list_lookup. destruct (Forall2_lookup_r _ _ _ _ _ (ss_verts _ _ Hsh) Hi) as (x0 & Hi0 & Hid & Hns & _).
        rewrite <-Hns. f_equal. pose proof Hx as [j Hj]%elem_of_list_lookup. assert (i = j) as ->; [|congruence].
        eapply (NoDup_lookup (v_id <$> h_verts (kp_H k))); [apply HC0|rewrite list_lookup_fmap, Hi0; simpl; reflexivity|rewrite list_lookup_fmap, Hj; simpl; congruence].
      - cbn [fst snd]. intros n [Hn|Hn]%elem_of_union; [|by apply HY1]. apply elem_of_list_to_set in Hn.
        destruct (co_inc1 _ HC1 v n Hv Hn) as (n' & Hn' & <- & _). rewrite (same_shape_nids _ _ Hsh). unfold nids. apply elem_of_list_fmap. eauto. }
    intros [[[H C] Cl] [d Y]] [Hok1 Hp1 Hw1 Hn1 HY1]. cbn [fst snd] in *. set (k1 := kp_moved k (H, C, Cl)) in *.
    change (kp_H k1) with H in *. pose proof (ko_book _ _ _ _ _ Hok1) as Hbk. pose proof (bk_shape _ _ _ _ _ Hbk) as Hsh. change (kp_H k1) with H in Hsh.
    assert (consistent H) as HC1 by (by eapply same_shape_consistent).
    assert (net_partition bp p H = part) as Hnp.
    { unfold net_partition, part. rewrite <-(ss_gnets _ _ Hsh). by rewrite (distributed_gnets gn Bs t (kp_H k) HD HB). }
    apply wpe_bind, wpe_shuffle. intros order Hord. rewrite Hnp.
    set (msg := λ n, (pa_owner part (n_id n), (n_id n, gcount Bs (n_id n) 0 + (count_in H n 0 - KparMove.lcount (kp_H k) (n_id n) 0)))).
    set (msgz := λ nid, (pa_owner part nid, (nid, gcount Bs nid 0 + (KparMove.lcount H nid 0 - KparMove.lcount (kp_H k) nid 0)))).
    apply wpe_bind, (wpe_mapP_eq _ _ msgz).
    { intros j nid Hj%elem_of_list_lookup_2. rewrite Hord in Hj. apply elem_of_elements in Hj. apply HY1 in Hj. rewrite (same_shape_nids _ _ Hsh) in Hj.
      unfold nids in Hj. apply elem_of_list_fmap in Hj as (n & -> & [i Hn]%elem_of_list_lookup).
      apply wpe_bind. eapply wpe_local_id_net; [by apply co_nmap_ok|done|]. apply wpe_bind.
      eapply wpe_nidx; [apply (tracks_lookup _ _ _ _ _ _ (bk_tracks _ _ _ _ _ Hbk) Hn)|]. apply wpe_ret. cbn [fst snd]. unfold msgz.
      rewrite (lcount_elem H n) by (done || by eapply elem_of_list_lookup_2). done. }
    apply wpe_ret. apply HQ; try done. exists Y. split.
    - rewrite Hord. assert (elements Y ≡ₚ n_id <$> filter (λ n, n_id n ∈ Y) (h_nets H)) as ->.
      { apply NoDup_Permutation; [apply NoDup_elements| |].
        - assert (NoDup (n_id <$> h_nets H)) as Hnd' by apply HC1. revert Hnd'. generalize (h_nets H). intros l. induction l as [|n l IH]; [done|].
          csimpl. intros [Hn Hl]%NoDup_cons. rewrite filter_cons. case_decide; [|by apply IH]. csimpl. apply NoDup_cons. split; [|by apply IH].
          intros (n' & Heq & [_ Hin]%elem_of_list_filter)%elem_of_list_fmap. apply Hn. rewrite Heq. apply elem_of_list_fmap. eauto.
        - intros x. rewrite elem_of_elements, elem_of_list_fmap. split.
          + intros Hx. pose proof (HY1 x Hx) as Hx'. rewrite (same_shape_nids _ _ Hsh) in Hx'. unfold nids in Hx'. apply elem_of_list_fmap in Hx' as (n & -> & Hn).
            exists n. split; [done|]. by apply elem_of_list_filter.
          + intros (n & -> & [Hn _]%elem_of_list_filter). done. }
      rewrite <-list_fmap_compose. apply reflexive_eq. apply list_fmap_ext. intros i n [_ Hn]%elem_of_list_lookup_2%elem_of_list_filter. simpl.
      unfold msgz. rewrite (lcount_elem H n) by done. done.
    - intros n Hn HnY. change (kp_H k1) with H in Hn. change (kp_H (KProc _ _ _ _ _ _ _ _ _)) with H. pose proof Hn as [i Hi]%elem_of_list_lookup.
      destruct (Forall2_lookup_r _ _ _ _ _ (ss_nets _ _ Hsh) Hi) as (n0 & Hi0 & Hid & Hperm & _). pose proof (elem_of_list_lookup_2 _ _ _ Hi0) as Hn0.
      rewrite <-Hid, (lcount_elem (kp_H k) n0) by done. apply count_in_same; [done|]. intros u Hu. rewrite Hp1. unfold flipped. rewrite decide_False; [done|].
      intros Hun. rewrite <-Hperm in Hu. destruct (co_inc2 _ HC0 n0 u Hn0 Hu) as (v & Hv & <- & Hnv). apply HnY. rewrite <-Hid. apply (Hn1 v Hv Hun). by apply elem_of_list_to_set.
  Qed.
End reverse.

Section pass.
  Context (bp : Z → Z → partitioning) (Hbp : lawful_family bp) (gn : Z) (Hgn : 0 ≤ gn).
  Context (E : err → Prop) (m : metric) (mx : Z * Z) (number : Z) (Hs0 : list hg).
  Context (HD0 : distributed gn Hs0) (Hne0 : Hs0 ≠ []) (Hpre : ∀ H, H ∈ Hs0 → klfm_pre H).
  Context (Hgs0 : ∀ n, n ∈ all_nets Hs0 → n_gsize n = gsize Hs0 (n_id n)).
  Context (Hcalm : E UB ∨ (∀ n, n ∈ all_nets Hs0 → n_verts n ≠ []) ∧ (length Hs0 = 1%nat ∨ within (gweight Hs0, gweight Hs0) mx)).

  (** the data of the processors between two passes *)
  Record kready (ins : list kin) : Prop := {
    kr_shape : same_shapes Hs0 (kn_H <$> ins);
    kr_bis : ∀ v, v ∈ all_verts (kn_H <$> ins) → v_part v = 0 ∨ v_part v = 1;
    kr_counts : ∀ k, k ∈ ins → kn_C k = (λ n, counts_of (kn_H <$> ins) (n_id n)) <$> h_nets (kn_H k);
    kr_sorted : ∀ k, k ∈ ins → nets_sorted (kn_H k);
    kr_loc : ∀ k, k ∈ ins → exact_counts (kn_H k) (kn_Cl k);
    kr_w : E UB ∨ (∀ k, k ∈ ins → kn_ws k = gws (kn_H <$> ins)) ∧ within (gws (kn_H <$> ins)) mx;
  }.

  Lemma wpe_klfm_pass_par ows c ins (Q : list (kin * Z) → Prop) :
    length ows = length Hs0 → (∀ t ow, ows !! t = Some ow → table_ok (bp (Z.of_nat (length Hs0)) gn) Hs0 t ow) →
    kready ins → cut_by m (whole_nets Hs0 gn) (gpart (kn_H <$> ins)) = c →
    (∀ rs b, length rs = length Hs0 → kready (fst <$> rs) → b ≤ c → (∀ r, r ∈ rs → snd r = b) →
       cut_by m (whole_nets Hs0 gn) (gpart (kn_H <$> (fst <$> rs))) = b → Q rs) →
    wpe E (klfm_pass_par bp mx number ows (replicate (length Hs0) c) ins) Q.
  Proof.
    intros Hlw Htab [HSh HB HCs Hsrt Hloc Hws] Hcut HQ. unfold klfm_pass_par.
    set (Hs1 := kn_H <$> ins) in *. assert (length ins = length Hs0) as Hli by (rewrite (Forall2_length _ _ _ HSh); unfold Hs1; by rewrite fmap_length).
    rewrite Hli. set (p := length Hs0) in *. set (part := bp (Z.of_nat p) gn) in *.
    pose proof (same_shapes_distributed gn Hs0 Hs1 HSh HD0) as HD1. pose proof (same_shapes_gsizes Hs0 Hs1 HSh Hgs0) as Hgs1.
    assert (Hs1 ≠ []) as Hne1. { intros Hnil. rewrite Hnil in HSh. inversion HSh. congruence. }
    assert (length Hs1 = p) as Hl1 by (unfold Hs1; by rewrite fmap_length).
    assert (∀ t k, ins !! t = Some k → Hs1 !! t = Some (kn_H k) ∧ klfm_pre (kn_H k) ∧ bisected (kn_H k)) as Hat.
    { intros t k Hk. assert (Hs1 !! t = Some (kn_H k)) as HH by (unfold Hs1; by rewrite list_lookup_fmap, Hk). split; [done|]. split.
      - destruct (Forall2_lookup_r _ _ _ _ _ HSh HH) as (H0 & HH0 & Hsh). eapply klfm_pre_shape; [|done]. apply Hpre. by eapply elem_of_list_lookup_2.
      - intros v Hv. apply HB, all_verts_elem. exists (kn_H k). split; [by eapply elem_of_list_lookup_2|done]. }
    apply wpe_bind. eapply (wpe_mapP _ _ (λ t k G, ∃ S, costs_ok S (kn_H k) ∧ gs_inv S ∅ (gain_fun (kn_H k) (kn_C k)) G ∧ g_H G = kn_H k ∧ g_C G = kn_C k)).
    { intros t k Hk. destruct (Hat t k Hk) as (HH & Hpk & Hbk). apply wpe_gs_new_pre; [done|done| |].
      - rewrite (HCs k) by (by eapply elem_of_list_lookup_2). by rewrite fmap_length.
      - intros S G Hcs HI HGH HGC. by exists S. }
    intros Gs HlG HGs. fold Hs1.
    apply wpe_bind, (wpe_init_previous_C bp Hbp gn Hs1 HD1 Hgn Hne1).
    { apply list_eq_same_length with p; [by rewrite fmap_length|by rewrite fmap_length|]. intros t x y Ht. unfold Hs1. rewrite !list_lookup_fmap.
      destruct (ins !! t) as [k|] eqn:Hk; [|done]. simpl. intros [= <-] [= <-]. apply HCs. by eapply elem_of_list_lookup_2. }
    { by rewrite Hl1. }
    { rewrite Hl1. intros t ow How. apply (table_ok_shape part Hs0 Hs1 t ow HSh), Htab, How. }
    rewrite Hl1. fold part.
    apply wpe_bind. eapply (wpe_ranks _ _ _ (λ t k', ∀ k G, ins !! t = Some k → Gs !! t = Some G →
       kp_G k' = G ∧ kok part Hs1 t (kn_H k) k' ∧ kp_ws k' = kn_ws k ∧ kp_best k' = c ∧ kp_nim k' = [])).
    { intros t Ht. destruct (lookup_lt_is_Some_2 ins t) as [k Hk]; [lia|]. destruct (lookup_lt_is_Some_2 Gs t) as [G HG]; [lia|].
      destruct (HGs t k G Hk HG) as (S & Hcs & HI & HGH & HGC). destruct (Hat t k Hk) as (HH & Hpk & Hbk).
      assert (k ∈ ins) as Hkin by (by eapply elem_of_list_lookup_2).
      apply wpe_bind, wpe_nidx with k; [done|]. apply wpe_bind, wpe_nidx with G; [done|].
      apply wpe_bind. eapply wpe_nidx; [by rewrite list_lookup_fmap, lookup_seq_lt by done|].
      apply wpe_bind. eapply wpe_nidx; [by apply lookup_replicate_2|].
      apply wpe_ret. cbn [fst snd]. intros k0 G0 [= <-]%(eq_trans (eq_sym Hk)) [= <-]%(eq_trans (eq_sym HG)). split_and!; try done.
      split; unfold kp_H, kp_C; simpl; rewrite ?HGH; [|done|by apply Hsrt|by apply Hloc].
      split; unfold kp_H, kp_C; simpl; rewrite ?HGH, ?HGC; [apply same_shape_refl| |done| |done].
      - rewrite (HCs k Hkin). apply tracks_init, Hpk.
      - rewrite (HCs k Hkin), <-list_fmap_compose. done. }
    intros ks0 Hlk Hks0.
    assert (∀ t k', ks0 !! t = Some k' → ∃ k G S, ins !! t = Some k ∧ costs_ok S (kn_H k) ∧ gs_inv S ∅ (gain_fun (kn_H k) (kn_C k)) G ∧ g_H G = kn_H k ∧ g_C G = kn_C k ∧
       kp_G k' = G ∧ kok part Hs1 t (kn_H k) k' ∧ kp_ws k' = kn_ws k ∧ kp_best k' = c ∧ kp_nim k' = []) as Hex0.
    { intros t k' Hk'. pose proof (lookup_lt_Some _ _ _ Hk') as Ht. destruct (lookup_lt_is_Some_2 ins t) as [k Hk]; [lia|]. destruct (lookup_lt_is_Some_2 Gs t) as [G HG]; [lia|].
      destruct (HGs t k G Hk HG) as (S & Hcs & HI & HGH & HGC). destruct (Hks0 t k' Hk' k G Hk HG) as (H1 & H2 & H3 & H4 & H5). exists k, G, S. done. }
    assert (kp_H <$> ks0 = Hs1) as HeqH.
    { unfold Hs1. apply list_eq_same_length with p; [by rewrite fmap_length|by rewrite fmap_length|]. intros t x y Ht. rewrite !list_lookup_fmap.
      destruct (ks0 !! t) as [k'|] eqn:Hk'; [|done]. destruct (Hex0 t k' Hk') as (k & G & S & Hk & _ & _ & HGH & _ & HG & _). rewrite Hk. simpl. unfold kp_H. rewrite HG. congruence. }
    set (I := λ ks, ∃ b, rinv bp gn E m mx Hs0 ows c b ks).
    apply wpe_bind. eapply (wpe_mono _ _ I).
    { eapply (wpe_loopM E _ I (left_over)).
      - intros ks (b & HR). eapply (wpe_round bp Hbp gn Hgn E m mx number Hs0 ows c HD0 Hpre Hcalm b ks); [done|].
        intros c' ks' b' HR' Hle Hlt. destruct c'; [|by exists b']. split; [by exists b'|by apply Hlt].
      - exists c. split.
        + split; rewrite ?HeqH, ?Hlk; fold p part.
          * done.
          * intros ->. simpl in HeqH. by rewrite <-HeqH in Hne1.
          * done.
          * done.
          * done.
          * intros t ow How. eapply table_ok_shape; [exact HSh|]. by apply Htab.
          * intros t k' Hk'. destruct (Hex0 t k' Hk') as (k & G & S & Hk & Hcs & HI & HGH & HGC & HG & Hok & _). unfold kp_H at 1. by rewrite HG, HGH.
        + by rewrite HeqH.
        + intros k' [t Hk']%elem_of_list_lookup. destruct (Hex0 t k' Hk') as (k & G & S & Hk & Hcs & HI & HGH & HGC & HG & Hok & _ & _ & Hnim).
          exists S, ∅. unfold kp_H. rewrite HG, HGH. split; [|split; [done|]].
          * left. by rewrite HGH, HGC.
          * rewrite Hnim. split; [apply NoDup_nil_2|]. intros u Hu. by apply elem_of_nil in Hu.
        + intros k' [t Hk']%elem_of_list_lookup. destruct (Hex0 t k' Hk') as (k & G & S & _ & _ & _ & _ & _ & _ & _ & _ & Hb & _). done.
        + done.
        + assert (∀ u, best_parts ks0 u = gpart Hs1 u) as Hbp0.
          { intros u. unfold best_parts, gflip. rewrite HeqH, decide_False; [done|]. intros (l & Hx & (k3 & -> & [t Hk3]%elem_of_list_lookup)%elem_of_list_fmap)%CoarsenProof.elem_of_concat.
            destruct (Hex0 t k3 Hk3) as (k & G & S & _ & _ & _ & _ & _ & _ & _ & _ & _ & Hn). rewrite Hn in Hx. by apply elem_of_nil in Hx. }
          rewrite <-Hcut. apply (cut_by_ext m gn Hs0 Hs0); [done|apply same_shapes_refl|]. intros u _. apply Hbp0.
        + destruct Hws as [HE|[Hws Hin]]; [by left|right]. rewrite HeqH. split; [|done]. intros k' [t Hk']%elem_of_list_lookup.
          destruct (Hex0 t k' Hk') as (k & G & S & Hk & _ & _ & _ & _ & _ & _ & Hw & _ & _). rewrite Hw. apply Hws. by eapply elem_of_list_lookup_2.
        + destruct Hws as [HE|[Hws Hin]]; [by left|right].
          assert (∀ u, best_parts ks0 u = gpart Hs1 u) as Hbp0.
          { intros u. unfold best_parts, gflip. rewrite HeqH, decide_False; [done|]. intros (l & Hx & (k3 & -> & [t Hk3]%elem_of_list_lookup)%elem_of_list_fmap)%CoarsenProof.elem_of_concat.
            destruct (Hex0 t k3 Hk3) as (k & G & S & _ & _ & _ & _ & _ & _ & _ & _ & _ & Hn). rewrite Hn in Hx. by apply elem_of_nil in Hx. }
          unfold gws in Hin. rewrite !(gpart_weight_gwt gn Hs1) in Hin by done.
          rewrite !(gwt_ext Hs0 Hs1 (best_parts ks0) (gpart Hs1)); [done|done|intros u _; apply Hbp0|done|intros u _; apply Hbp0].
      - assert (∀ t k', ks0 !! t = Some k' → ∃ k, ins !! t = Some k ∧ (unlocked (kp_G k') ≤ length (h_verts (kn_H k)))%nat) as Hun.
        { intros t k' Hk'. destruct (Hex0 t k' Hk') as (k & G & S & Hk & _ & HI & HGH & _ & HG & _). exists k. split; [done|]. rewrite HG, <-HGH. by eapply unlocked_le. }
        enough (left_over ks0 ≤ length (concat ((λ k, h_verts (kn_H k)) <$> ins)))%nat by lia. unfold left_over. clear -Hun Hlk Hli. rewrite <-Hli in Hlk. clear Hli.
        revert ins Hlk Hun. induction ks0 as [|k' l IH]; intros [|k ins'] Hl Hun; try done. csimpl. rewrite app_length.
        destruct (Hun 0%nat k' eq_refl) as (k0 & [= <-] & Hle). pose proof (IH ins'). simpl in Hl. specialize (H ltac:(lia)).
        assert (∀ t k'0, l !! t = Some k'0 → ∃ k0, ins' !! t = Some k0 ∧ (unlocked (kp_G k'0) ≤ length (h_verts (kn_H k0)))%nat) as Hun' by (intros t; apply (Hun (Datatypes.S t))).
        specialize (H Hun'). lia. }
    intros ks (b & [HS HShk Hgr Hbest Hle Hcutb Hw Hbw]).
    set (Bs := kp_H <$> ks) in *. pose proof (sy_dist _ _ _ _ HS) as HD. fold Bs in HD.
    assert (length ks = p) as Hlks by (unfold p; rewrite (Forall2_length _ _ _ HShk); unfold Bs; by rewrite fmap_length).
    assert (∀ t k, ks !! t = Some k → Bs !! t = Some (kp_H k)) as HBt by (intros t k Hk; unfold Bs; by rewrite list_lookup_fmap, Hk).
    set (X := λ (k : kproc) (r : kproc * Z * list (Z * (Z * Z))), ∃ t, ks !! t = Some k ∧ kok part Bs t (kp_H k) (fst (fst r)) ∧
       (∀ u, part_of (kp_H (fst (fst r))) u = flipped (kp_H k) (kp_nim k) u) ∧
       pws (kp_H (fst (fst r))) = (fst (pws (kp_H k)) + snd (fst r), snd (pws (kp_H k)) - snd (fst r)) ∧
       sends part Bs (kp_H k) (kp_H (fst (fst r))) (snd r) ∧ kp_ws (fst (fst r)) = kp_ws k ∧ kp_best (fst (fst r)) = kp_best k).
    apply wpe_bind. eapply (wpe_mapP _ _ (λ t k r, kok part Bs t (kp_H k) (fst (fst r)) ∧
       (∀ u, part_of (kp_H (fst (fst r))) u = flipped (kp_H k) (kp_nim k) u) ∧
       pws (kp_H (fst (fst r))) = (fst (pws (kp_H k)) + snd (fst r), snd (pws (kp_H k)) - snd (fst r)) ∧
       sends part Bs (kp_H k) (kp_H (fst (fst r))) (snd r) ∧ kp_ws (fst (fst r)) = kp_ws k ∧ kp_best (fst (fst r)) = kp_best k)).
    { intros t k Hk. destruct (Hgr k) as (S & L & _ & _ & Hnd & Hnim); [by eapply elem_of_list_lookup_2|].
      eapply (wpe_reverse_moves bp gn E p Bs t k HD); [by apply HBt| |done|intros u Hu; by apply Hnim|].
      - pose proof (sy_ok _ _ _ _ HS t k Hk) as Hok. rewrite Hlks in Hok. exact Hok.
      - intros k1 d out H1 H2 H3 H4 H5 H6. done. }
    intros rs Hlr Hrs. clear X.
    set (ks1 := (λ r : kproc * Z * list (Z * (Z * Z)), fst (fst r)) <$> rs).
    assert (length ks1 = length ks) as Hlk1 by (unfold ks1; by rewrite fmap_length).
    assert (∀ t k1, ks1 !! t = Some k1 → ∃ k r, ks !! t = Some k ∧ rs !! t = Some r ∧ k1 = fst (fst r)) as Hat1.
    { intros t k1 Hk1. unfold ks1 in Hk1. rewrite list_lookup_fmap in Hk1. destruct (rs !! t) as [r|] eqn:Hr; [|done]. injection Hk1 as <-.
      destruct (lookup_lt_is_Some_2 ks t) as [k Hk]; [apply lookup_lt_Some in Hr; lia|]. eauto. }
    apply wpe_bind_assoc.
    eapply (wpe_sync bp Hbp gn Hgn E false ows ks ks1 (snd <$> rs) (λ _ _ _, True)); [done|done| | | |done|].
    { intros t k k1 Hk Hk1. destruct (Hat1 t k1 Hk1) as (k' & r & Hk' & Hr & ->). rewrite Hlks. rewrite Hk in Hk'. injection Hk' as <-. by apply (Hrs t k r). }
    { by rewrite fmap_length. }
    { intros t k k1 out Hk Hk1 Ho. destruct (Hat1 t k1 Hk1) as (k' & r & Hk' & Hr & ->). rewrite list_lookup_fmap, Hr in Ho. injection Ho as <-. rewrite Hlks.
      rewrite Hk in Hk'. injection Hk' as <-. by apply (Hrs t k r). }
    set (Hs2 := kp_H <$> ks1). intros ks2 HS2 HeqH2 Hl2 Hks2.
    set (d := zsum ((λ r : kproc * Z * list (Z * (Z * Z)), snd (fst r)) <$> rs)).
    assert (bulk_sum ((λ r : kproc * Z * list (Z * (Z * Z)), snd (fst r)) <$> rs) = replicate p d) as ->.
    { unfold bulk_sum. rewrite fmap_length, Hlr, Hlks, foldl_add_zsum. done. }
    assert (same_shapes Bs Hs2) as HShB2.
    { apply Forall2_same_length_lookup_2; [unfold Bs, Hs2; rewrite !fmap_length; lia|]. intros t B H HBl HH. unfold Hs2 in HH. rewrite list_lookup_fmap in HH.
      destruct (ks1 !! t) as [k1|] eqn:Hk1; [|done]. injection HH as <-. destruct (Hat1 t k1 Hk1) as (k & r & Hk & Hr & ->). rewrite (HBt t k Hk) in HBl. injection HBl as <-.
      destruct (Hrs t k r Hk Hr) as (Hok & _). apply (ko_book _ _ _ _ _ Hok). }
    pose proof (same_shapes_trans _ _ _ HShk HShB2) as HSh2.
    assert (∀ u, u ∈ v_id <$> all_verts Bs → gpart Hs2 u = best_parts ks u) as Hflip.
    { intros u Hu. unfold best_parts. apply (gpart_flipped gn Bs Hs2 (kp_nim <$> ks) HD HShB2); [by unfold Bs; rewrite !fmap_length| |done]. intros t B H vs HBl HH Hvs.
      rewrite list_lookup_fmap in Hvs. destruct (ks !! t) as [k|] eqn:Hk; [|done]. injection Hvs as <-. rewrite (HBt t k Hk) in HBl. injection HBl as <-.
      unfold Hs2 in HH. rewrite list_lookup_fmap in HH. destruct (ks1 !! t) as [k1|] eqn:Hk1; [|done]. injection HH as <-.
      destruct (Hat1 t k1 Hk1) as (k' & r & Hk' & Hr & ->). rewrite Hk in Hk'. injection Hk' as <-. destruct (Hrs t k r Hk Hr) as (_ & Hp & _).
      split; [|intros x _; apply Hp]. intros x Hx. destruct (Hgr k) as (S & L & _ & _ & _ & Hnim); [by eapply elem_of_list_lookup_2|]. by apply Hnim. }
    assert (gws Hs2 = (fst (gws Bs) + d, snd (gws Bs) - d)) as Hgw2.
    { assert (∀ (sl : Z * Z → Z) s, (∀ t k r, ks !! t = Some k → rs !! t = Some r → sl (pws (kp_H (fst (fst r)))) = sl (pws (kp_H k)) + s * snd (fst r)) →
        zsum ((λ r, sl (pws (kp_H (fst (fst r))))) <$> rs) = zsum ((λ k, sl (pws (kp_H k))) <$> ks) + s * d) as Hgen.
      { intros sl s Heq. unfold d. clear -Heq Hlr. revert ks Hlr Heq. induction rs as [|f fs' IH]; intros [|k ks'] Hl Heq; try done; [unfold zsum; simpl; lia|].
        csimpl. rewrite !zsum_cons. rewrite (IH ks'); [|simpl in Hl; lia|intros t; apply (Heq (Datatypes.S t))]. rewrite (Heq 0%nat k f) by done. lia. }
      pose proof (Hgen fst 1) as H1. pose proof (Hgen snd (-1)) as H2. unfold gws. cbn [fst snd]. rewrite <-!gpart_weight_sum. unfold Hs2, ks1, Bs. rewrite <-!list_fmap_compose.
      unfold compose. change (λ x, part_weight (kp_H (fst (fst x))) 0) with (λ x : kproc * Z * list (Z * (Z * Z)), fst (pws (kp_H (fst (fst x))))).
      change (λ x, part_weight (kp_H (fst (fst x))) 1) with (λ x : kproc * Z * list (Z * (Z * Z)), snd (pws (kp_H (fst (fst x))))).
      change (λ x, part_weight (kp_H x) 0) with (λ x, fst (pws (kp_H x))). change (λ x, part_weight (kp_H x) 1) with (λ x, snd (pws (kp_H x))).
      rewrite H1, H2; [f_equal; lia|..]; intros t k r Hk Hr; destruct (Hrs t k r Hk Hr) as (_ & _ & Hpw & _); rewrite Hpw; simpl; lia. }
    eapply (wpe_ranks _ _ _ (λ t y, ∃ k2, ks2 !! t = Some k2 ∧ y = (KIn (kp_H k2) (kp_C k2) (kp_Cl k2) (fst (kp_ws k2) + d, snd (kp_ws k2) - d), kp_best k2))).
    { intros t Ht. destruct (lookup_lt_is_Some_2 ks2 t) as [k2 Hk2]; [lia|]. apply wpe_bind, wpe_nidx with k2; [done|].
      apply wpe_bind, wpe_nidx with d; [by apply lookup_replicate_2|]. apply wpe_ret. eauto. }
    intros ys Hly Hys.
    assert (kn_H <$> (fst <$> ys) = Hs2) as HeqY.
    { rewrite <-HeqH2. apply list_eq_same_length with p; [by rewrite fmap_length; lia|by rewrite !fmap_length|]. intros t x y Ht. rewrite !list_lookup_fmap.
      destruct (ys !! t) as [z|] eqn:Hz; [|done]. destruct (Hys t z Hz) as (k2 & Hk2 & ->). rewrite Hk2. simpl. congruence. }
    assert (∀ z, z ∈ ys → ∃ t k2 k r, ks2 !! t = Some k2 ∧ ks !! t = Some k ∧ rs !! t = Some r ∧ z = (KIn (kp_H k2) (kp_C k2) (kp_Cl k2) (fst (kp_ws k2) + d, snd (kp_ws k2) - d), kp_best k2) ∧
       kp_ws k2 = kp_ws k ∧ kp_best k2 = b) as Hz.
    { intros z [t Hz]%elem_of_list_lookup. destruct (Hys t z Hz) as (k2 & Hk2 & ->). destruct (lookup_lt_is_Some_2 ks1 t) as [k1 Hk1]; [apply lookup_lt_Some in Hk2; lia|].
      destruct (Hat1 t k1 Hk1) as (k & r & Hk & Hr & ->). destruct (Hks2 t _ k2 Hk1 Hk2) as (_ & _ & _ & Hw2 & Hb2 & _). destruct (Hrs t k r Hk Hr) as (_ & _ & _ & _ & Hw1 & Hb1).
      exists t, k2, k, r. split_and!; try done; [congruence|]. rewrite Hb2, Hb1. apply Hbest. by eapply elem_of_list_lookup_2. }
    apply (HQ ys b).
    - lia.
    - split; rewrite ?HeqY.
      + done.
      + rewrite <-HeqH2. apply HS2.
      + intros k (z & -> & Hzin)%elem_of_list_fmap. destruct (Hz z Hzin) as (t & k2 & k & r & Hk2 & _ & _ & -> & _). simpl. rewrite <-HeqH2. by apply (synced_counts bp gn ows ks2 t).
      + intros k (z & -> & Hzin)%elem_of_list_fmap. destruct (Hz z Hzin) as (t & k2 & k & r & Hk2 & _ & _ & -> & _). simpl. apply (sy_ok _ _ _ _ HS2 t k2 Hk2).
      + intros k (z & -> & Hzin)%elem_of_list_fmap. destruct (Hz z Hzin) as (t & k2 & k & r & Hk2 & _ & _ & -> & _). simpl. apply (sy_ok _ _ _ _ HS2 t k2 Hk2).
      + destruct Hw as [HE|[Hw Hin]]; [by left|]. destruct Hbw as [HE|Hbw]; [by left|right]. split.
        * intros k (z & -> & Hzin)%elem_of_list_fmap. destruct (Hz z Hzin) as (t & k2 & k & r & Hk2 & Hk & _ & -> & Hwk & _). simpl. rewrite Hwk, (Hw k) by (by eapply elem_of_list_lookup_2).
          fold Bs. by rewrite Hgw2.
        * unfold gws. rewrite !(gpart_weight_gwt gn Hs2) by (by eapply same_shapes_distributed).
          rewrite <-!(gwt_ext Hs0 Hs2 (best_parts ks) (gpart Hs2)); [done|done| |done|]; intros u Hu; symmetry; apply Hflip; by rewrite (same_shapes_ids _ _ HShk).
    - done.
    - intros z Hzin. destruct (Hz z Hzin) as (t & k2 & k & r & Hk2 & _ & _ & -> & _ & Hb). done.
    - rewrite <-Hcutb. rewrite HeqY. apply (cut_by_ext m gn Hs0 Hs0); [done|apply same_shapes_refl|]. intros u Hu. apply Hflip. by rewrite (same_shapes_ids _ _ HShk).
  Qed.

  Lemma wpe_agree (bs : list bool) c (Q : bool → Prop) : bs ≠ [] → (∀ x, x ∈ bs → x = c) → Q c → wpe E (agree bs) Q.
  Proof.
    intros Hne Hall HQ. unfold agree. destruct bs as [|x l]; [done|]. assert (x = c) as -> by (apply Hall; set_solver).
    assert (∀ y, y ∈ l → y = c) as Hl by (intros y Hy; apply Hall; set_solver). clear Hall. simpl.
    destruct c; simpl.
    - assert (forallb id l = true) as ->; [|by apply wpe_ret]. apply forallb_forall. intros y Hy%elem_of_list_In. by rewrite (Hl y Hy).
    - assert (forallb negb l = true) as ->; [|by apply wpe_ret]. apply forallb_forall. intros y Hy%elem_of_list_In. by rewrite (Hl y Hy).
  Qed.

  Lemma wpe_klfm_par Cs ws opts cut (Q : list (kin * Z) → Prop) :
    let cut0 := cut_by (o_metric opts) (whole_nets Hs0 gn) (gpart Hs0) in
    m = o_metric opts → number = o_send_moves opts →
    (∀ v, v ∈ all_verts Hs0 → v_part v = 0 ∨ v_part v = 1) →
    Cs = (λ H, (λ n, counts_of Hs0 (n_id n)) <$> h_nets H) <$> Hs0 →
    cut = cut0 ∨ cut = long_max →
    E UB ∨ ws = gws Hs0 ∧ within ws mx →
    (∀ rs c, length rs = length Hs0 → kready (fst <$> rs) → c ≤ cut0 → (∀ r, r ∈ rs → snd r = c) →
       cut_by (o_metric opts) (whole_nets Hs0 gn) (gpart (kn_H <$> (fst <$> rs))) = c → Q rs) →
    wpe E (klfm_par bp Hs0 Cs ws mx opts cut) Q.
  Proof.
    intros cut0 Hm Hnum HB HCs Hcut Hw HQ. unfold klfm_par. set (p := length Hs0).
    apply wpe_bind. eapply (wpe_mono _ _ (λ cuts, cuts = replicate p cut0)).
    { case_decide as Hd; [by apply (wpe_cutsize_par bp Hbp gn Hs0 HD0 Hgn Hne0)|]. apply wpe_ret. destruct Hcut as [-> |?]; done. }
    intros cuts ->. apply wpe_bind, (wpe_sort_world gn); [done..|]. intros ins Hl HSh Hvs Hins. fold p in Hl.
    set (Hs1 := kn_H <$> ins) in *.
    pose proof (same_shapes_distributed gn Hs0 Hs1 HSh HD0) as HD1.
    assert (length Hs1 = p) as Hl1 by (unfold Hs1; by rewrite fmap_length).
    assert (Hs1 ≠ []) as Hne1. { intros Hnil. rewrite Hnil in HSh. inversion HSh. congruence. }
    assert (all_verts Hs1 = all_verts Hs0) as Hav by (unfold all_verts; by rewrite Hvs).
    apply wpe_bind, (wpe_init_cost_my_nets bp Hbp gn Hs1 HD1 Hgn Hne1). rewrite Hl1. intros ows Hlw Htab.
    apply wpe_bind. eapply (wpe_mono _ _ (λ st : Z * (list kin * list Z), ∃ c, length (fst (snd st)) = p ∧ kready (fst (snd st)) ∧ snd (snd st) = replicate p c ∧ c ≤ cut0 ∧
      cut_by m (whole_nets Hs0 gn) (gpart (kn_H <$> fst (snd st))) = c)).
    { eapply (wpe_loopM E _ (λ st : Z * (list kin * list Z), 0 ≤ fst st ∧ ∃ c, length (fst (snd st)) = p ∧ kready (fst (snd st)) ∧ snd (snd st) = replicate p c ∧ c ≤ cut0 ∧
        cut_by m (whole_nets Hs0 gn) (gpart (kn_H <$> fst (snd st))) = c) (λ st, Z.to_nat (o_max_passes opts - fst st))).
      - intros [i [is cs]] (Hi & c & Hli & Hkr & Hcs & Hc & Hcc). cbn [fst snd] in *. subst cs. case_decide as Hlt; [|apply wpe_ret; exists c; cbn [fst snd]; done].
        apply wpe_bind. rewrite <-Hnum. eapply (wpe_klfm_pass_par ows c is).
        { fold p. done. }
        { fold p. intros t ow How. eapply table_ok_shape; [apply same_shapes_sym, HSh|]. by apply Htab. }
        { done. }
        { done. }
        intros rs b Hlr Hkr' Hbc Hb Hcb. fold p in Hlr.
        assert (p ≠ 0%nat) as Hp0 by (unfold p; destruct Hs0; done).
        apply wpe_bind. apply (wpe_agree _ (bool_decide (b < c))).
        { intros Hnil. apply (f_equal length) in Hnil. rewrite zip_with_length, replicate_length in Hnil. simpl in Hnil. lia. }
        { intros x (r & c' & -> & Hr & Hc')%elem_of_zip_with. apply elem_of_replicate in Hc' as [-> _]. by rewrite (Hb r Hr). }
        case_bool_decide as Hlt'.
        + apply wpe_ret. cbn [fst snd]. split; [|lia]. split; [lia|]. exists b. split_and!; [by rewrite fmap_length|done| |lia|done].
          apply list_eq_same_length with p; [by rewrite replicate_length|by rewrite fmap_length|]. intros j x y Hj Hx Hy. rewrite lookup_replicate_2 in Hy by done.
          rewrite list_lookup_fmap in Hx. destruct (rs !! j) as [r|] eqn:Hr; [|done]. injection Hx as <-. injection Hy as <-. apply Hb. by eapply elem_of_list_lookup_2.
        + apply wpe_ret. cbn [fst snd]. exists c. split_and!; [by rewrite fmap_length|done|done|done|]. rewrite Hcb. lia.
      - cbn [fst snd]. split; [lia|]. exists cut0. split_and!; [done| |done|done|].
        + split.
          * done.
          * fold Hs1. by rewrite Hav.
          * intros k [t Hk]%elem_of_list_lookup. by apply (Hins t k Hk).
          * intros k [t Hk]%elem_of_list_lookup. by apply (Hins t k Hk).
          * intros k [t Hk]%elem_of_list_lookup. by apply (Hins t k Hk).
          * destruct Hw as [HE|[-> Hin]]; [by left|right]. fold Hs1. assert (gws Hs1 = gws Hs0) as -> by (unfold gws, gpart_weight; by rewrite Hav). split; [|done].
            intros k [t Hk]%elem_of_list_lookup. by apply (Hins t k Hk).
        + unfold cut0. rewrite <-Hm. fold Hs1. apply (cut_by_ext m gn Hs0 Hs0); [done|apply same_shapes_refl|]. intros u _. unfold gpart. by rewrite Hav.
      - cbn [fst snd]. lia. }
    intros [i [is cs]] (c & Hli & Hkr & Hcs & Hc & Hcc). cbn [fst snd] in *. subst cs. apply wpe_ret.
    assert (fst <$> zip is (replicate p c) = is) as Hfst by (apply fst_zip; rewrite replicate_length; lia).
    apply (HQ _ c); rewrite ?Hfst.
    - rewrite zip_with_length, replicate_length. fold p. lia.
    - done.
    - done.
    - intros [k c'] Hr. apply elem_of_zip_r, elem_of_replicate in Hr as [-> _]. done.
    - by rewrite <-Hm.
  Qed.
End pass.
