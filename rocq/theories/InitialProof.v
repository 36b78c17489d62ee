(** Proofs about initial_partitioning and bisect_random. *)
From Verif Require Export LabelPropProof.

(** ** The candidates of initial_partitioning, as a program of their own *)
Fixpoint ip_candidates (mx : Z * Z) (opts : options) (n : nat) (H : hg) : M (list (hg * Z)) :=
  match n with
  | O => ret []
  | S n => c <- ip_candidate mx opts H ;; cs <- ip_candidates mx opts n (fst c) ;; ret (c :: cs)
  end.

Lemma ip_rounds_candidates mx opts n : ∀ k s w,
  foldM (λ s _, ip_round mx opts s) (seq k n) s w =
    match ip_candidates mx opts n (ip_H s) w with
    | Ok (cs, w') => Ok (fold_left (ip_update mx) cs s, w')
    | Err e => Err e
    end.
Proof.
  induction n as [|n IH]; intros k s w; [done|]. cbn [seq foldM ip_candidates]. unfold bind at 1 2, ip_round at 1, bind at 1.
  destruct (ip_candidate mx opts (ip_H s) w) as [[c w']|]; [|done]. cbn.
  rewrite IH. assert (ip_H (ip_update mx s c) = fst c) as ->. { unfold ip_update. simpl. case_decide; done. }
  unfold bind. destruct (ip_candidates mx opts n (fst c) w') as [[cs w'']|]; done.
Qed.

(** what every candidate satisfies *)
Record good_candidate (H0 : hg) (mx : Z * Z) (b : Z) (c : hg * Z) : Prop := {
  gc_shape : same_shape H0 (fst c);
  gc_bis : bisected (fst c);
  gc_cut : snd c = cut_net (fst c);
  gc_bal : weights_below H0 b → 0 ≤ fst mx → 0 ≤ snd mx → tot_weight H0 + b ≤ fst mx + snd mx → balanced (fst c) mx;
}.

Lemma relabel_bisected H L : length L = length (h_verts H) → Forall (λ j, j = 0 ∨ j = 1) L → bisected (relabel H L).
Proof.
  intros Hl HF v [i Hi]%elem_of_list_lookup. apply relabel_lookup in Hi as (v0 & p & _ & Hp & ->); [|done].
  simpl. by eapply (Forall_lookup_1 _ _ _ _ HF).
Qed.
Lemma weight_part_pws H : (weight_part H 0, weight_part H 1) = pws H.
Proof. unfold pws. by rewrite !weight_part_spec. Qed.

Lemma weights_below_shape H H' b : same_shape H H' → weights_below H b → weights_below H' b.
Proof.
  intros Hs Hw v' [i Hi]%elem_of_list_lookup. destruct (Forall2_lookup_r _ _ _ _ _ (ss_verts _ _ Hs) Hi) as (v & Hv & _ & _ & <-).
  apply Hw. by eapply elem_of_list_lookup_2.
Qed.

Lemma wpe_ip_candidate E mx opts H b (Q : hg * Z → Prop) : klfm_pre H →
  (∀ c, good_candidate H mx b c → Q c) → wpe E (ip_candidate mx opts H) Q.
Proof.
  intros Hpre HQ. pose proof (kp_cons _ Hpre) as HC. apply wpe_bind.
  apply (wpe_label_propagation_bisect _ _ _ _ b); [done|apply (kp_weight _ Hpre)|].
  intros L C Hl HF HCt Hbal. apply wpe_bind. apply wpe_set_parts; [done|]. simpl.
  pose proof (relabel_shape _ _ Hl) as Hs.
  apply wpe_bind. apply wpe_klfm; [by eapply klfm_pre_shape|by apply relabel_bisected|done|by rewrite weight_part_pws|by left|].
  intros o HK Hcut _ Hlim. apply wpe_ret, HQ. split; simpl.
  - eapply same_shape_trans; [exact Hs|apply HK].
  - apply HK.
  - done.
  - intros H1 H2 H3 H4. destruct (Hbal H1 H2 H3 H4). pose proof (Hlim 0 ltac:(auto)). pose proof (Hlim 1 ltac:(auto)).
    unfold balanced, sel in *. simpl in *. lia.
Qed.

Lemma good_candidate_shape H0 H1 mx b c : same_shape H0 H1 → good_candidate H1 mx b c → good_candidate H0 mx b c.
Proof.
  intros Hs [Ha Hb Hc Hd]. split; [by eapply same_shape_trans|done|done|].
  intros. apply Hd; [by eapply weights_below_shape|done|done|]. by rewrite <-(same_shape_tot_weight _ _ Hs).
Qed.

Lemma wpe_ip_candidates E mx opts b n : ∀ H (Q : list (hg * Z) → Prop), klfm_pre H →
  (∀ cs, length cs = n → (∀ c, c ∈ cs → good_candidate H mx b c) → Q cs) → wpe E (ip_candidates mx opts n H) Q.
Proof.
  induction n as [|n IH]; intros H Q Hpre HQ; cbn [ip_candidates].
  - apply wpe_ret, HQ; [done|]. intros c Hc%elem_of_nil. done.
  - apply wpe_bind. apply (wpe_ip_candidate _ _ _ _ b); [done|]. intros c Hc. apply wpe_bind. apply IH.
    { by eapply klfm_pre_shape, (gc_shape _ _ _ _ Hc). }
    intros cs Hl Hcs. apply wpe_ret, HQ; [simpl; lia|]. intros c' [-> |Hin]%elem_of_cons; [done|].
    eapply good_candidate_shape; [apply (gc_shape _ _ _ _ Hc)|auto].
Qed.

(** the state after the selection among [cs] *)
Definition imbalance (mx : Z * Z) (c : hg * Z) : Z := Z.max (part_weight (fst c) 0 - fst mx) (part_weight (fst c) 1 - snd mx).
Lemma balanced_imbalance mx c : balanced (fst c) mx ↔ imbalance mx c ≤ 0.
Proof. unfold balanced, imbalance. lia. Qed.

Definition selected (mx : Z * Z) (cs : list (hg * Z)) (s : ip_state) : Prop :=
  ∃ c, c ∈ cs ∧ ip_L s = v_part <$> h_verts (fst c) ∧ ip_cut s = snd c ∧ ip_imb s = imbalance mx c ∧
    ∀ c', c' ∈ cs → balanced (fst c') mx → balanced (fst c) mx ∧ snd c ≤ snd c'.

Lemma selected_step mx cs s c : selected mx cs s → selected mx (cs ++ [c]) (ip_update mx s c).
Proof.
  intros (b & Hb & HL & Hcut & Himb & Hbest). unfold ip_update. rewrite !weight_part_spec. fold (imbalance mx c).
  rewrite Hcut, Himb. setoid_rewrite balanced_imbalance in Hbest. unfold selected. setoid_rewrite balanced_imbalance. case_decide as Hc.
  - exists c. split; [set_solver|]. split_and!; [done..|]. intros c' [Hc'| ->%elem_of_list_singleton]%elem_of_app Hbal; [|done].
    destruct (Hbest c' Hc' Hbal). lia.
  - exists b. split; [set_solver|]. split_and!; [done..|]. intros c' [Hc'| ->%elem_of_list_singleton]%elem_of_app Hbal; [by apply Hbest|].
    simpl in *. lia.
Qed.
Lemma selected_fold mx cs cs0 s : selected mx cs0 s → selected mx (cs0 ++ cs) (fold_left (ip_update mx) cs s).
Proof.
  revert cs0 s; induction cs as [|c cs IH]; intros cs0 s Hs; simpl; [by rewrite app_nil_r|].
  replace (cs0 ++ c :: cs) with ((cs0 ++ [c]) ++ cs) by (by rewrite <-app_assoc). apply IH. by apply selected_step.
Qed.
Lemma selected_first mx H L c : snd c < long_max → imbalance mx c < long_max →
  selected mx [c] (ip_update mx (IP H L long_max long_max) c).
Proof.
  intros Hc Hi. unfold ip_update. simpl. rewrite !weight_part_spec. fold (imbalance mx c).
  rewrite decide_True by (right; split; [right; unfold long_max; lia|done]).
  exists c. split; [set_solver|]. split_and!; [done..|]. by intros c' ->%elem_of_list_singleton.
Qed.

Lemma cut_net_le_total H : (∀ n, n ∈ h_nets H → 0 ≤ n_cost n) → cut_net H ≤ zsum (n_cost <$> h_nets H).
Proof.
  intros Hc. unfold cut_net, cut_net_size, net_list. rewrite <-list_fmap_compose. apply zsum_fmap_le.
  intros n Hn. simpl. specialize (Hc n Hn). case_decide; lia.
Qed.
(** the final hypergraph has the parts of the selected candidate *)
Lemma relabel_same_parts H1 H2 : consistent H1 → same_shape H1 H2 →
  ∀ u, part_of (relabel H1 (v_part <$> h_verts H2)) u = part_of H2 u.
Proof.
  intros HC Hs u. assert (length (v_part <$> h_verts H2) = length (h_verts H1)) as Hl.
  { rewrite fmap_length. symmetry. eapply Forall2_length, (ss_verts _ _ Hs). }
  rewrite lab_of_part_of by done. unfold lab_of. rewrite (ss_vmap _ _ Hs).
  assert (consistent H2) as HC2 by (by eapply same_shape_consistent).
  destruct (h_vmap H2 !! u) as [i|] eqn:Hi.
  - destruct (vmap_ok_inv _ _ _ (co_vmap_ok _ HC2) Hi) as (v & Hv & <-). rewrite list_lookup_fmap, Hv. simpl.
    symmetry. apply part_of_elem; [apply (co_vid _ HC2)|by eapply elem_of_list_lookup_2].
  - symmetry. apply part_of_absent. intros Hu. apply vids_elem in Hu as (v & Hv & <-).
    apply elem_of_list_lookup in Hv as [q Hq]. rewrite (vmap_ok_lookup _ _ _ (co_vmap_ok _ HC2) Hq) in Hi. done.
Qed.
Lemma cut_net_shape H1 H2 : same_shape H1 H2 → (∀ u, part_of H1 u = part_of H2 u) → cut_net H1 = cut_net H2.
Proof. apply cut_net_size_ext. Qed.
Lemma part_weight_shape H1 H2 p : consistent H1 → same_shape H1 H2 → (∀ u, part_of H1 u = part_of H2 u) → part_weight H1 p = part_weight H2 p.
Proof.
  intros HC Hs Hp. rewrite !part_weight_pwt; [by apply pwt_ext|..]; [eapply co_vid, same_shape_consistent; done|apply (co_vid _ HC)].
Qed.
Lemma part_weight_le_total H p : (∀ v, v ∈ h_verts H → 0 ≤ v_weight v) → 0 ≤ part_weight H p ≤ tot_weight H.
Proof.
  intros Hw. unfold part_weight, tot_weight. rewrite (zsum_filter_if (λ v, v_part v = p) v_weight). split.
  - apply zsum_nonneg. intros x (v & -> & Hv)%elem_of_list_fmap. specialize (Hw v Hv). case_decide; lia.
  - apply zsum_fmap_le. intros v Hv. specialize (Hw v Hv). case_decide; lia.
Qed.

(** set_parts draws no random numbers *)
Lemma foldM_world {A S} (f : S → A → M S) l : (∀ s x w s' w', f s x w = Ok (s', w') → w' = w) →
  ∀ s w s' w', foldM f l s w = Ok (s', w') → w' = w.
Proof.
  intros Hf. induction l as [|x l IH]; intros s w s' w'; cbn [foldM].
  - unfold ret. by intros [= _ ->].
  - unfold bind. destruct (f s x w) as [[s1 w1]|] eqn:Hs; [|done]. intros Hr. rewrite (IH _ _ _ _ Hr). by eapply Hf.
Qed.
Lemma set_parts_run H L w : length L = length (h_verts H) → set_parts H L w = Ok (relabel H L, w).
Proof.
  intros Hl. assert (wp (set_parts H L) (λ H', H' = relabel H L)) as Hsp by (by apply wpe_set_parts).
  apply wp_run with (w := w) in Hsp as (H' & w' & Heq & ->). rewrite Heq.
  assert (w' = w) as ->; [|done]. revert Heq. apply foldM_world. intros s i w1 s' w2. unfold bind, nidx, of_option.
  destruct (L !! i); [|done]. unfold ret. by intros [= _ ->].
Qed.

(** A result of initial_partitioning among candidates. *)
Record ip_result (H : hg) (mx : Z * Z) (cs : list (hg * Z)) (H' : hg) (cut : Z) : Prop := {
  ir_shape : same_shape H H';
  ir_bis : bisected H';
  ir_cut : cut = cut_net H';
  ir_cand : ∃ c, c ∈ cs ∧ ∀ u, part_of H' u = part_of (fst c) u;
  ir_best : ∀ c, c ∈ cs → balanced (fst c) mx → balanced H' mx ∧ cut ≤ cut_net (fst c);
}.

Lemma last_shape mx cs : ∀ s H, same_shape H (ip_H s) → (∀ c, c ∈ cs → same_shape H (fst c : hg)) →
  same_shape H (ip_H (fold_left (ip_update mx) cs s)).
Proof.
  induction cs as [|c cs IH]; intros s H Hs Hc; [done|]. simpl. apply IH; [|set_solver].
  unfold ip_update. case_decide; simpl; apply Hc; set_solver.
Qed.

Lemma initial_partitioning_run H mx opts b w : klfm_pre H → 0 ≤ fst mx → 0 ≤ snd mx → tot_weight H < long_max →
  ∃ cs H' cut w', ip_candidates mx opts 10 H w = Ok (cs, w') ∧ initial_partitioning H mx opts w = Ok ((H', cut), w') ∧
    length cs = 10%nat ∧ (∀ c, c ∈ cs → good_candidate H mx b c) ∧ ip_result H mx cs H' cut.
Proof.
  intros Hpre H0 H1 Htot. pose proof (kp_cons _ Hpre) as HC.
  assert (wp (ip_candidates mx opts 10 H) (λ cs, length cs = 10%nat ∧ ∀ c, c ∈ cs → good_candidate H mx b c)) as Hw.
  { apply (wpe_ip_candidates _ _ _ b); [done|]. auto. }
  apply wp_run with (w := w) in Hw as (cs & w' & Heq & Hlen & Hg).
  set (s0 := IP H (replicate (length (h_verts H)) 0) long_max long_max).
  set (s := fold_left (ip_update mx) cs s0).
  assert (selected mx cs s) as (c & Hc & HL & Hcut & _ & Hbest).
  { unfold s. destruct cs as [|c cs]; [done|]. assert (c ∈ c :: cs) as Hin by set_solver. destruct (Hg c Hin) as [Hs _ Hct _].
    simpl. apply (selected_fold mx cs [c]). apply selected_first.
    - rewrite Hct. pose proof (klfm_pre_shape _ _ Hpre Hs) as Hpre'. pose proof (cut_net_le_total _ (kp_cost _ Hpre')).
      pose proof (kp_total _ Hpre'). unfold long_max. lia.
    - pose proof (klfm_pre_shape _ _ Hpre Hs) as Hpre'. pose proof (part_weight_le_total (fst c) 0 (kp_weight _ Hpre')).
      pose proof (part_weight_le_total (fst c) 1 (kp_weight _ Hpre')). rewrite <-(same_shape_tot_weight _ _ Hs) in *. unfold imbalance. lia. }
  destruct (Hg c Hc) as [Hsc HBc Hctc _].
  assert (same_shape H (ip_H s)) as Hss.
  { apply last_shape; [apply same_shape_refl|]. intros c' Hc'. apply (gc_shape _ _ _ _ (Hg c' Hc')). }
  assert (length (ip_L s) = length (h_verts (ip_H s))) as Hl.
  { rewrite HL, fmap_length. rewrite <-(Forall2_length _ _ _ (ss_verts _ _ Hsc)). apply (Forall2_length _ _ _ (ss_verts _ _ Hss)). }
  assert (consistent (ip_H s)) as HCs by (by eapply same_shape_consistent).
  assert (∀ u, part_of (relabel (ip_H s) (ip_L s)) u = part_of (fst c) u) as Hpo.
  { rewrite HL. apply relabel_same_parts; [done|]. eapply same_shape_trans; [apply same_shape_sym; exact Hss|done]. }
  assert (same_shape (relabel (ip_H s) (ip_L s)) (fst c)) as Hsr.
  { eapply same_shape_trans; [apply same_shape_sym, relabel_shape; done|]. eapply same_shape_trans; [apply same_shape_sym; exact Hss|done]. }
  pose proof (relabel_consistent _ _ Hl HCs) as HCr.
  exists cs, (relabel (ip_H s) (ip_L s)), (ip_cut s), w'. split; [done|]. split.
  { unfold initial_partitioning, bind. fold s0. rewrite ip_rounds_candidates. simpl (ip_H s0). rewrite Heq. fold s.
    rewrite set_parts_run by done. done. }
  split; [done|]. split; [done|]. split.
  - eapply same_shape_trans; [exact Hss|by apply relabel_shape].
  - apply relabel_bisected; [done|]. rewrite HL. apply Forall_fmap, Forall_forall. intros v Hv. by apply HBc.
  - rewrite Hcut, Hctc. symmetry. by apply cut_net_shape.
  - exists c. done.
  - intros c' Hc' Hbal. destruct (Hbest c' Hc' Hbal) as [[Hb0 Hb1] Hle]. split.
    + unfold balanced. rewrite (part_weight_shape _ (fst c) 0), (part_weight_shape _ (fst c) 1) by done. done.
    + rewrite Hcut, <-(gc_cut _ _ _ _ (Hg c' Hc')). done.
Qed.

(** ** bisect_random *)

(** parts of the vertices after processing [st, st+n): [side] says which side each took *)
Definition br_parts (labels : Z * Z) (st : Z) (bs : list Z) (vs : list vertex) : list vertex :=
  imap (λ i v, match zlookup bs (Z.of_nat i - st) with Some p => set_part (interval_at labels p) v | None => v end) vs.
Definition br_weight (vs : list vertex) (st : Z) (bs : list Z) (p : Z) : Z :=
  zsum (imap (λ i q, if decide (q = p) then default 0 (v_weight <$> zlookup vs (st + Z.of_nat i)) else 0) bs).

Lemma wpe_bisect_random E H mx st en labels b (Q : hg * (Z * Z) → Prop) : 0 ≤ st → en ≤ Z.of_nat (length (h_verts H)) →
  (∀ bs, length bs = Z.to_nat (en - st) → Forall (λ p, p = 0 ∨ p = 1) bs →
    let ws := (br_weight (h_verts H) st bs 0, br_weight (h_verts H) st bs 1) in
    ((∀ i v, st ≤ i < en → zlookup (h_verts H) i = Some v → 0 ≤ v_weight v ≤ b) → 0 ≤ fst mx → 0 ≤ snd mx →
     zsum (v_weight <$> take (Z.to_nat (en - st)) (drop (Z.to_nat st) (h_verts H))) + b ≤ fst mx + snd mx →
     fst ws ≤ fst mx ∧ snd ws ≤ snd mx) →
    Q (with_verts (br_parts labels st bs (h_verts H)) H, ws)) →
  wpe E (bisect_random H mx st en labels) Q.
Proof.
  intros Hst Hen HQ. set (vs := h_verts H) in *.
  assert (∀ ds i ts, seqZ st (en - st) = ds ++ i :: ts → i = st + Z.of_nat (length ds) ∧ st + Z.of_nat (length ds) < en) as Hseq.
  { intros ds i ts Heq. assert (seqZ st (en - st) !! length ds = Some i) as Hl by (rewrite Heq; by apply list_lookup_middle).
    apply lookup_seqZ in Hl. lia. }
  eapply (wpe_foldM E _ (λ ds s, ∃ bs, length bs = length ds ∧ Forall (λ p, p = 0 ∨ p = 1) bs ∧
    s = (with_verts (br_parts labels st bs vs) H, (br_weight vs st bs 0, br_weight vs st bs 1)) ∧
    br_weight vs st bs 0 + br_weight vs st bs 1 = zsum (v_weight <$> take (length ds) (drop (Z.to_nat st) vs)) ∧
    ((∀ i v, st ≤ i < en → zlookup vs i = Some v → 0 ≤ v_weight v ≤ b) → 0 ≤ fst mx → 0 ≤ snd mx →
     zsum (v_weight <$> take (Z.to_nat (en - st)) (drop (Z.to_nat st) vs)) + b ≤ fst mx + snd mx →
     br_weight vs st bs 0 ≤ fst mx ∧ br_weight vs st bs 1 ≤ snd mx))).
  - exists []. split_and!; try done. f_equal. unfold with_verts, br_parts. destruct H as [a c vs0 ns d e f g]. simpl in *. f_equal.
    apply list_eq. intros i. unfold vs. simpl. rewrite list_lookup_imap. destruct (vs0 !! i); [|done]. simpl. f_equal.
    unfold zlookup. by case_bool_decide.
  - intros ds i ts s Heq (bs & Hlen & HF & -> & Hsum & Hlim). destruct (Hseq _ _ _ Heq) as [-> Hlt].
    destruct (lookup_lt_is_Some_2 vs (Z.to_nat st + length ds)) as [v Hv]; [lia|].
    assert (zlookup vs (st + Z.of_nat (length ds)) = Some v) as Hzv.
    { apply zlookup_Some. split; [lia|]. by replace (Z.to_nat (st + Z.of_nat (length ds))) with (Z.to_nat st + length ds)%nat by lia. }
    apply wpe_bind, wpe_rng. intros z _. set (p0 := z `mod` 2). assert (p0 = 0 ∨ p0 = 1) as Hp0 by (unfold p0; Z.div_mod_to_equations; lia).
    apply wpe_bind. simpl fst. eapply wpe_of_option_Some.
    { simpl. unfold br_parts. apply zlookup_Some. split; [lia|]. rewrite list_lookup_imap.
      replace (Z.to_nat (st + Z.of_nat (length ds))) with (Z.to_nat st + length ds)%nat by lia. rewrite Hv. simpl.
      replace (Z.of_nat (Z.to_nat st + length ds) - st) with (Z.of_nat (length bs)) by lia.
      rewrite zlookup_nat, lookup_ge_None_2 by lia. done. }
    apply wpe_bind, wpe_pget; [done|]. apply wpe_bind, wpe_pget; [done|].
    set (p := if decide _ then _ else _). assert (p = 0 ∨ p = 1) as Hp by (unfold p; case_decide; destruct Hp0 as [-> | ->]; auto).
    assert (∀ q, br_weight vs st (bs ++ [p]) q = br_weight vs st bs q + if decide (p = q) then v_weight v else 0) as Hbw.
    { intros q. unfold br_weight. rewrite imap_app, zsum_app. f_equal. simpl. rewrite Nat.add_0_r, Hlen, Hzv. simpl. unfold zsum. simpl. lia. }
    assert (zsum (v_weight <$> take (length (ds ++ [st + Z.of_nat (length ds)])) (drop (Z.to_nat st) vs)) =
      zsum (v_weight <$> take (length ds) (drop (Z.to_nat st) vs)) + v_weight v) as Hts.
    { rewrite app_length. simpl. rewrite Nat.add_1_r. erewrite take_S_r by (rewrite lookup_drop; exact Hv).
      rewrite fmap_app, zsum_app. csimpl. rewrite zsum_cons. unfold zsum at 2. simpl. lia. }
    apply wpe_bind, wpe_padd; [done|]. apply wpe_ret. exists (bs ++ [p]). split_and!.
    + rewrite !app_length. simpl. lia.
    + apply Forall_app. split; [done|]. by apply Forall_singleton.
    + f_equal.
      * unfold upd_vert, with_verts. simpl. f_equal. apply list_eq. intros q. unfold br_parts at 2. rewrite list_lookup_imap.
        destruct (decide (q = Z.to_nat (st + Z.of_nat (length ds)))) as [->|Hne].
        -- rewrite list_lookup_alter. unfold br_parts. rewrite list_lookup_imap.
           replace (Z.to_nat (st + Z.of_nat (length ds))) with (Z.to_nat st + length ds)%nat by lia. rewrite Hv. simpl.
           replace (Z.of_nat (Z.to_nat st + length ds) - st) with (Z.of_nat (length bs)) by lia.
           rewrite !zlookup_nat. rewrite lookup_ge_None_2 by lia. rewrite lookup_app_r, Nat.sub_diag by lia. done.
        -- rewrite list_lookup_alter_ne by done. unfold br_parts. rewrite list_lookup_imap. destruct (vs !! q) as [u|]; [|done]. simpl. f_equal.
           unfold zlookup. case_bool_decide; [|done]. destruct (decide (Z.to_nat (Z.of_nat q - st) < length bs)%nat).
           ++ rewrite lookup_app_l by lia. done.
           ++ rewrite (lookup_ge_None_2 bs) by lia. rewrite lookup_ge_None_2; [done|]. rewrite app_length. simpl. lia.
      * rewrite !Hbw. simpl. destruct Hp as [-> | ->]; simpl; f_equal; lia.
    + rewrite !Hbw, Hts, <-Hsum. destruct Hp as [-> | ->]; simpl; lia.
    + intros Hw H0 H1 Hsl. destruct (Hlim Hw H0 H1 Hsl) as [Hl0 Hl1]. rewrite !Hbw.
      assert (st ≤ st + Z.of_nat (length ds) < en) as Hir by lia. pose proof (Hw _ v Hir Hzv) as Hwv.
      assert (zsum (v_weight <$> take (length ds) (drop (Z.to_nat st) vs)) + v_weight v ≤ zsum (v_weight <$> take (Z.to_nat (en - st)) (drop (Z.to_nat st) vs))) as Hle.
      { rewrite <-Hts. set (m := length (ds ++ _)). assert (m ≤ Z.to_nat (en - st))%nat as Hm by (unfold m; rewrite app_length; simpl; lia).
        rewrite <-(take_drop m (take (Z.to_nat (en - st)) _)), fmap_app, zsum_app, take_take, Nat.min_l by lia.
        assert (0 ≤ zsum (v_weight <$> drop m (take (Z.to_nat (en - st)) (drop (Z.to_nat st) vs)))); [|lia].
        apply zsum_nonneg. intros x (u & -> & Hu)%elem_of_list_fmap. apply elem_of_list_lookup in Hu as [q Hq].
        rewrite lookup_drop in Hq. apply lookup_take_Some in Hq as [Hq Hqlt]. rewrite lookup_drop in Hq.
        apply (Hw (Z.of_nat (Z.to_nat st + (m + q)))); [lia|]. by rewrite zlookup_nat. }
      clear Hbw Hp Hlim. unfold p, sel. clear p. clearbody p0.
      destruct Hp0 as [-> | ->]; cbn [fst snd]; simpl; repeat case_decide; try done; try lia.
  - intros s (bs & Hlen & HF & -> & Hsum & Hlim). rewrite seqZ_length in Hlen. by apply HQ.
Qed.
