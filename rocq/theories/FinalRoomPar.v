(** The property lemmas of C69 for several processors. *)
From Verif Require Export RecRoom RecParProof FinalRecPar.
Local Open Scope list_scope.

Lemma zsum_le_const {A} (f : A → Z) (l : list A) c : (∀ x, x ∈ l → f x ≤ c) → zsum (f <$> l) ≤ Z.of_nat (length l) * c.
Proof.
  induction l as [|x l IH]; intros Hf; [done|]. csimpl. rewrite zsum_cons. specialize (IH ltac:(intros; apply Hf; by right)). specialize (Hf x ltac:(left)).
  rewrite Nat2Z.inj_succ. lia.
Qed.

(** random bisection on a group, when the vertices of every processor fit into its share of the limits *)
Lemma wpe_random_room bp (E : err → Prop) gn (Hs : list hg) opts mx low high b (Q : list (hg * (Z * Z)) → Prop) :
  lawful_family bp → o_bisection opts = BisRandom → spread_pre gn Hs → Hs ≠ [] → low ≠ high → 0 ≤ fst mx → 0 ≤ snd mx → 0 ≤ b →
  (∀ v, v ∈ all_verts Hs → v_weight v ≤ b) →
  (∀ H, H ∈ Hs → tot_weight H + b ≤ Z.quot (fst mx) (Z.of_nat (length Hs)) + Z.quot (snd mx) (Z.of_nat (length Hs))) →
  let G := (λ H, (H, Z.of_nat (length (h_verts H)))) <$> Hs in
  (∀ rs, Forall2 (job_ranged low high) G rs →
     zsum ((λ r : hg * (Z * Z), fst (snd r)) <$> rs) ≤ fst mx → zsum ((λ r : hg * (Z * Z), snd (snd r)) <$> rs) ≤ snd mx → Q rs) →
  wpe E (bisect_par bp ((λ g : work, (fst g, (0, snd g))) <$> G) opts mx (low, high)) Q.
Proof.
  intros Hbp Hbis Hpre Hne Hlh Hm0 Hm1 Hb Hw Hroom G HQ. unfold bisect_par. rewrite Hbis, fmap_length. replace (length G) with (length Hs) by (unfold G; by rewrite fmap_length).
  set (p := Z.of_nat (length Hs)) in *. assert (0 < p) as Hp by (unfold p; destruct Hs; [done|simpl; lia]).
  eapply (wpe_mapP E _ (λ t j r, ∃ g, G !! t = Some g ∧ job_ranged low high g r ∧ fst (snd r) ≤ Z.quot (fst mx) p ∧ snd (snd r) ≤ Z.quot (snd mx) p)).
  - intros t j Ht. apply list_lookup_fmap_Some in Ht as (g & Hg & ->). cbn [fst snd]. pose proof Hg as Hg'.
    apply list_lookup_fmap_Some in Hg' as (H & HH & ->). apply elem_of_list_lookup_2 in HH as Hin. cbn [fst snd].
    pose proof (bisect1_room bp opts b (Z.of_nat (length (h_verts H))) Hbp Hb E H (Z.quot (fst mx) p, Z.quot (snd mx) p) 0 (Z.of_nat (length (h_verts H))) low high) as Hx.
    unfold bisect1, room_needed in Hx. rewrite Hbis in Hx. cbn [fst snd] in Hx.
    apply Hx; [eapply spread_member; done| |done|apply Z.quot_pos; lia|apply Z.quot_pos; lia|lia|lia|done|].
    + intros v Hv. apply Hw. apply all_verts_elem. eauto.
    + intros H' R' HR Hlim. eexists. split; [exact Hg|]. cbn [fst snd]. split; [by exists R'|]. apply Hlim.
      specialize (Hroom H Hin). unfold range. change (Z.to_nat 0) with 0%nat. rewrite drop_0, Z.sub_0_r, Nat2Z.id, take_ge by lia. exact Hroom.
  - rewrite fmap_length. intros rs Hlen Hrs.
    assert (length rs = length Hs) as Hl by (rewrite Hlen; unfold G; by rewrite fmap_length).
    assert (∀ t g r, G !! t = Some g → rs !! t = Some r → job_ranged low high g r ∧ fst (snd r) ≤ Z.quot (fst mx) p ∧ snd (snd r) ≤ Z.quot (snd mx) p) as Hall.
    { intros t g r Hg Hr. destruct (Hrs t (fst g, (0, snd g)) r) as (g' & Hg' & Hj); [by rewrite list_lookup_fmap, Hg|done|]. congruence. }
    assert (∀ r, r ∈ rs → fst (snd r) ≤ Z.quot (fst mx) p ∧ snd (snd r) ≤ Z.quot (snd mx) p) as Hin.
    { intros r [t Hr]%elem_of_list_lookup. destruct (lookup_lt_is_Some_2 G t) as [g Hg]; [rewrite <-Hlen; by eapply lookup_lt_Some|]. by eapply Hall. }
    apply HQ.
    + apply Forall2_same_length_lookup. split; [done|]. intros t g r Hg Hr. by eapply Hall.
    + eapply Z.le_trans; [apply (zsum_le_const _ rs (Z.quot (fst mx) p)); intros r Hr; by apply Hin|]. rewrite Hl. fold p. rewrite Z.quot_div_nonneg by lia. apply Z.mul_div_le. lia.
    + eapply Z.le_trans; [apply (zsum_le_const _ rs (Z.quot (snd mx) p)); intros r Hr; by apply Hin|]. rewrite Hl. fold p. rewrite Z.quot_div_nonneg by lia. apply Z.mul_div_le. lia.
Qed.

Lemma wpe_two_parts_room bp (E : err → Prop) gn Hs eps eta opts b M (Q : list hg → Prop) : lawful_family bp → spread_pre gn Hs →
  (2 ≤ length Hs)%nat → Z.of_nat (length Hs) ≤ 2 ^ 50 → all_verts Hs ≠ [] →
  part_limit (gweight Hs) 2 eps = Some M → 4 ≤ M → M * 2 ≤ 2 ^ 50 → o_bisection opts = BisRandom → (∀ v, v ∈ all_verts Hs → v_weight v ≤ b) →
  (∀ H, H ∈ Hs → tot_weight H + b ≤ 2 * ((M - 4) / Z.of_nat (length Hs))) →
  (∀ Hs', rearranged gn Hs Hs' → (∀ v, v ∈ all_verts Hs' → 0 ≤ v_part v < 2) → (∀ q, 0 ≤ q < 2 → gpart_weight Hs' q ≤ M) → Q Hs') →
  wpe E (recursive_bisect_par bp Hs 2 eps eta opts) Q.
Proof.
  intros Hbp Hpre Hlen Hl50 Hne HM HM4 HM2 Hbis Hb Hroom HQ. unfold recursive_bisect_par, recursive_bisect_par_with.
  assert (Hs ≠ []) as HneH by (by intros ->). set (p := Z.of_nat (length Hs)) in *. assert (0 < p) as Hp by (unfold p; lia).
  assert (∀ v, v ∈ all_verts Hs → 0 < v_weight v) as Hpos by apply Hpre.
  assert (0 < gweight Hs) as HW.
  { unfold gweight. destruct (all_verts Hs) as [|v l]; [done|]. csimpl. rewrite zsum_cons. pose proof (Hpos v ltac:(left)).
    assert (0 ≤ zsum (v_weight <$> l)); [|lia]. apply zsum_nonneg. intros x (u & -> & Hu)%elem_of_list_fmap. specialize (Hpos u ltac:(by right)). lia. }
  assert (0 ≤ b) as Hb0.
  { destruct (all_verts Hs) as [|v l] eqn:Hv; [done|]. specialize (Hpos v ltac:(left)). specialize (Hb v ltac:(left)). lia. }
  assert (gweight Hs ≤ 2 * (M - 4)) as HWM.
  { rewrite <-gweight_sum. eapply Z.le_trans; [apply (zsum_le_const _ Hs (2 * ((M - 4) / p))); intros H HH; specialize (Hroom H HH); lia|]. fold p.
    pose proof (Z.mul_div_le (M - 4) p ltac:(lia)). nia. }
  apply wpe_bind. rewrite global_weight_spec. apply (wpe_agreed _ _ (gweight Hs)); [by destruct Hs|by intros x ?%elem_of_replicate_inv|].
  apply wpe_bind. unfold max_weight, d_to_Z. unfold part_limit in HM. rewrite HM. apply wpe_of_option_Some with M; [done|].
  set (opts' := with_sample_size _ opts). set (G := (λ H, (H, Z.of_nat (length (h_verts H)))) <$> Hs).
  assert (fst <$> G = Hs) as HG. { unfold G. rewrite <-list_fmap_compose. by apply list_fmap_id. }
  assert (∃ g1 g2 G', G = g1 :: g2 :: G') as (g1 & g2 & G' & HGe).
  { unfold G. destruct Hs as [|H1 [|H2 Hs']]; [done|simpl in Hlen; lia|]. csimpl. eauto. }
  assert (∀ n, rb_group (bisect1 bp) (bisect_par bp) M eta opts' (S n) G 0 1 (gweight Hs) =
    (mx <- compute_max_global_weight 2 1 1 (gweight Hs) M ;;
     rs <- bisect_par bp ((λ g : hg * Z, (fst g, (0, snd g))) <$> G) opts' mx (0, 1) ;;
     w0 <- agreed (bulk_sum ((λ r : hg * (Z * Z), fst (snd r)) <$> rs)) ;;
     w1 <- agreed (bulk_sum ((λ r : hg * (Z * Z), snd (snd r)) <$> rs)) ;;
     p_low <- p_low_par w0 w1 (Z.of_nat (length rs)) 1 1 ;;
     go <- agreed ((λ s, let l := new_labels 0 1 (my_part p_low s) in if decide (snd l - fst l > 0) then 1 else 0) <$> seq 0 (length rs)) ;;
     if decide (go = 1) then
       G' <- regroup eta rs 0 1 w0 w1 p_low ;;
       let n' := Z.to_nat p_low in
       let l0 := new_labels 0 1 0 in
       let l1 := new_labels 0 1 1 in
       a <- rb_group (bisect1 bp) (bisect_par bp) M eta opts' n (take n' G') (fst l0) (snd l0) w0 ;;
       b <- rb_group (bisect1 bp) (bisect_par bp) M eta opts' n (drop n' G') (fst l1) (snd l1) w1 ;;
       ret (a ++ b)
     else ret (fst <$> rs))) as Hstep.
  { intros n. rewrite HGe. reflexivity. }
  change (Z.to_nat 2) with (S 1). change (2 - 1) with 1. rewrite Hstep. clear Hstep.
  apply wpe_bind. apply wpe_compute_max_near; [lia|lia|lia|lia|lia|split; [lia|apply Hpre]|lia|]. intros m0 m1 _ H0 H1 Hm0 Hm1 Hnear.
  specialize (Hm0 eq_refl). specialize (Hm1 eq_refl). destruct (Hnear ltac:(lia)) as [[Hn0 _] [Hn1 _]]. unfold near in Hn0, Hn1. change (Z.log2 1 + 1) with 1 in Hn0, Hn1.
  assert (M - 4 ≤ m0) as L0 by lia. assert (M - 4 ≤ m1) as L1 by lia.
  apply wpe_bind. eapply (wpe_random_room bp E gn Hs opts' (m0, m1) 0 1 b); cbn [fst snd]; [done|done|done|done|lia|lia|lia|done|done| |].
  { intros H HH. specialize (Hroom H HH). fold p. rewrite !Z.quot_div_nonneg by lia. pose proof (Z.div_le_mono (M - 4) m0 p Hp L0). pose proof (Z.div_le_mono (M - 4) m1 p Hp L1). lia. }
  intros rs HF S0 S1. fold G in HF.
  assert (∀ g, g ∈ G → RecParBase.set_aside 0 g) as Ha.
  { intros g (H & -> & HH)%elem_of_list_fmap. split; [cbn [fst snd]; lia|]. unfold aside. cbn [fst snd]. rewrite Nat2Z.id, drop_all. by intros v ?%elem_of_nil. }
  destruct (group_weights 0 1 G rs ltac:(lia) Ha HF) as (W0 & W1 & _ & Hparts).
  pose proof (group_range 0 1 G rs ltac:(lia) HF) as Hrw.
  assert (range_weight G = gweight Hs) as HrG.
  { unfold range_weight, G. rewrite <-list_fmap_compose. unfold gweight, all_verts. clear.
    induction Hs as [|H Hs IH]; [done|]. csimpl. rewrite zsum_cons, fmap_app, zsum_app, Nat2Z.id, take_ge by lia. lia. }
  pose proof (group_rearranged gn 0 1 G rs Ha ltac:(rewrite HG; apply Hpre) HF) as Hre. rewrite HG in Hre.
  assert (length rs = length Hs) as Hlr. { apply Forall2_length in HF. rewrite <-HF. unfold G. by rewrite fmap_length. }
  assert (∀ v, v ∈ all_verts (fst <$> rs) → 0 < v_weight v) as Hpos'.
  { apply (sp_weight gn). eapply spread_rearranged; done. }
  assert (0 ≤ gpart_weight (fst <$> rs) 0) as P0.
  { apply zsum_nonneg. intros x (v & -> & Hx)%elem_of_list_fmap. apply elem_of_list_filter in Hx as [_ Hx]. specialize (Hpos' v Hx). lia. }
  assert (0 ≤ gpart_weight (fst <$> rs) 1) as P1.
  { apply zsum_nonneg. intros x (v & -> & Hx)%elem_of_list_fmap. apply elem_of_list_filter in Hx as [_ Hx]. specialize (Hpos' v Hx). lia. }
  rewrite W0 in S0. rewrite W1 in S1. rewrite W0, W1 in Hrw.
  apply wpe_bind. unfold bulk_sum. rewrite ParBase.foldl_add_acc, Z.add_0_l, W0. apply (wpe_agreed _ _ (gpart_weight (fst <$> rs) 0)).
  { rewrite fmap_length. destruct rs; [simpl in Hlr; lia|done]. }
  { by intros x ?%elem_of_replicate_inv. }
  apply wpe_bind. rewrite ParBase.foldl_add_acc, Z.add_0_l, W1. apply (wpe_agreed _ _ (gpart_weight (fst <$> rs) 1)).
  { rewrite fmap_length. destruct rs; [simpl in Hlr; lia|done]. }
  { by intros x ?%elem_of_replicate_inv. }
  apply wpe_bind. destruct (p_low_range (gpart_weight (fst <$> rs) 0) (gpart_weight (fst <$> rs) 1) (Z.of_nat (length rs)) 1 1) as (q & Hq & _).
  { done. } { done. } { rewrite Hrw, HrG. pose proof (sp_total _ _ Hpre). lia. } { lia. }
  unfold p_low_par. rewrite Hq. apply wpe_of_option_Some with q; [done|].
  apply wpe_bind. apply (wpe_agreed _ _ 0).
  { destruct rs; [simpl in Hlr; lia|done]. }
  { intros x (s & -> & _)%elem_of_list_fmap. cbv zeta. rewrite decide_False; [done|]. unfold new_labels. cbn [fst snd]. change (k_low_of 0 1) with 1. change (k_high_of 0 1) with 1. lia. }
  rewrite decide_False by lia. apply wpe_ret. apply HQ; [done| |].
  - intros v Hv. specialize (Hparts v Hv). lia.
  - intros r Hr. assert (r = 0 ∨ r = 1) as [-> | ->] by lia; cbn [fst snd] in *; lia.
Qed.

(** C69, what holds for random bisection into two parts on several processors.  Every processor gets the same share of the limits.  If the vertices of every single processor
    fit into its shares, then every run returns, and both parts are within the limit. *)
Lemma C69_random_two_parts_partial_proof : ∀ bp gn Hs eps eta opts b M w, lawful_family bp → spread_pre gn Hs →
  (2 ≤ length Hs)%nat → Z.of_nat (length Hs) ≤ 2 ^ 50 → all_verts Hs ≠ [] →
  part_limit (gweight Hs) 2 eps = Some M → 4 ≤ M → M * 2 ≤ 2 ^ 50 → o_bisection opts = BisRandom → (∀ v, v ∈ all_verts Hs → v_weight v ≤ b) →
  (∀ H, H ∈ Hs → tot_weight H + b ≤ 2 * ((M - 4) / Z.of_nat (length Hs))) →
  ∃ Hs' w', recursive_bisect_par bp Hs 2 eps eta opts w = Ok (Hs', w') ∧ rearranged gn Hs Hs' ∧ (∀ v, v ∈ all_verts Hs' → 0 ≤ v_part v < 2) ∧
    ∀ q, 0 ≤ q < 2 → gpart_weight Hs' q ≤ M.
Proof.
  intros bp gn Hs eps eta opts b M w Hbp Hpre Hlen Hl50 Hne HM HM4 HM2 Hbis Hb Hroom.
  assert (wp (recursive_bisect_par bp Hs 2 eps eta opts) (λ Hs', rearranged gn Hs Hs' ∧ (∀ v, v ∈ all_verts Hs' → 0 ≤ v_part v < 2) ∧ ∀ q, 0 ≤ q < 2 → gpart_weight Hs' q ≤ M)) as Hw
    by (eapply wpe_two_parts_room; done).
  apply wp_run with (w := w) in Hw as (Hs' & w' & Heq & Hq). by exists Hs', w'.
Qed.

Definition c69_pair : list hg := [lone 100 0 (replicate 50 1); lone 100 50 (replicate 50 1)].
Definition c69_eighth : dbl := S754_finite false 4503599627370496 (-55).
(** a hundred vertices on two processors: at most 56 of them may be in a part *)
Example C69_pair_example : lawful_family blocks ∧ spread_pre 0 c69_pair ∧ length c69_pair = 2%nat ∧ all_verts c69_pair ≠ [] ∧
  part_limit (gweight c69_pair) 2 c69_eighth = Some 56 ∧ (∀ v, v ∈ all_verts c69_pair → v_weight v ≤ 1) ∧
  (∀ H, H ∈ c69_pair → tot_weight H + 1 ≤ 2 * ((56 - 4) / 2)) ∧
  match recursive_bisect_par blocks c69_pair 2 c69_eighth c29_eps (Opts 5000 50 25 200 128 25 200 20 LambdaMinusOne BisRandom SampRandom) w0 with
  | Ok (Hs', _) => gpart_weight Hs' 0 = 56 ∧ gpart_weight Hs' 1 = 44 | Err _ => False end.
Proof.
  split; [apply blocks_lawful|]. split; [dec_spread|]. split; [done|]. split; [done|]. split; [vm_compute; reflexivity|].
  split; [apply Forall_forall, (bool_decide_eq_true_1 _); vm_compute; reflexivity|].
  split; [apply Forall_forall, (bool_decide_eq_true_1 _); vm_compute; reflexivity|]. vm_compute. split; reflexivity.
Qed.
