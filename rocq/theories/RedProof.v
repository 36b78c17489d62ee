(** Proofs about the redistribution on all processors (Redistribute.v). *)
From Verif Require Export RedRecv SpecRed ParProof ReaderPar.

Lemma concat_perm3 {A} : ∀ (ls la lb : list (list A)), length la = length ls → length lb = length ls →
  (∀ i l a b, ls !! i = Some l → la !! i = Some a → lb !! i = Some b → l ≡ₚ a ++ b) → concat ls ≡ₚ concat la ++ concat lb.
Proof.
  induction ls as [|l ls IH]; intros [|a la] [|b lb] H1 H2 HR; try done. cbn [concat].
  rewrite (HR 0%nat l a b) by done. rewrite (IH la lb); [|simpl in *; lia..|].
  - rewrite <-!app_assoc. f_equiv. rewrite (app_assoc b), (app_assoc (concat la)). f_equiv. apply Permutation_app_comm.
  - intros i l' a' b' Hl Ha Hb. by apply (HR (Datatypes.S i)).
Qed.
Lemma NoDup_concat_one {A} (ls : list (list A)) i l : NoDup (concat ls) → ls !! i = Some l → NoDup l.
Proof.
  revert i; induction ls as [|x ls IH]; intros [|i] Hnd Hi; try done; simpl in *; apply NoDup_app in Hnd as (H1 & _ & H2).
  - by injection Hi as ->.
  - by eapply IH.
Qed.
Lemma NoDup_concat_index {A} (ls : list (list A)) i j l l' x :
  NoDup (concat ls) → ls !! i = Some l → ls !! j = Some l' → x ∈ l → x ∈ l' → i = j.
Proof.
  revert i j; induction ls as [|y ls IH]; intros [|i] [|j] Hnd Hi Hj Hx Hx'; try done; simpl in *; apply NoDup_app in Hnd as (_ & Hd & Hnd).
  - injection Hi as ->. exfalso. apply (Hd x Hx). apply CoarsenProof.elem_of_concat. exists l'. split; [done|by eapply elem_of_list_lookup_2].
  - injection Hj as ->. exfalso. apply (Hd x Hx'). apply CoarsenProof.elem_of_concat. exists l. split; [done|by eapply elem_of_list_lookup_2].
  - f_equal. by eapply IH.
Qed.
Lemma fmap_concat {A B} (f : A → B) (ls : list (list A)) : f <$> concat ls = concat ((λ l : list A, f <$> l) <$> ls).
Proof. induction ls as [|l ls IH]; [done|]. cbn [concat]. rewrite fmap_app, fmap_cons. cbn [concat]. by rewrite IH. Qed.

Lemma filter_ext_in {A} (P Q : A → Prop) {HP : ∀ x, Decision (P x)} {HQ : ∀ x, Decision (Q x)} (l : list A) :
  (∀ x, x ∈ l → P x ↔ Q x) → filter P l = filter Q l.
Proof.
  induction l as [|x l IH]; intros Hl; [done|]. rewrite !filter_cons, IH by set_solver. pose proof (Hl x ltac:(left)). repeat case_decide; tauto.
Qed.

(** ** the surpluses *)
Lemma surplus_limit a : sh_part a = 0 ∨ sh_part a = 1 →
  surplus_0 a = limit_for 0 a - sh_w0 a ∧ surplus_1 a = limit_for 1 a - sh_w1 a.
Proof. unfold surplus_0, surplus_1, limit_for. intros [->| ->]; simpl; repeat case_decide; try done; lia. Qed.
Lemma limit_nonneg g a : 0 ≤ sh_max a → 0 ≤ limit_for g a.
Proof. unfold limit_for. case_decide; lia. Qed.
Lemma surplus_total (f : share → Z) (w : share → Z) g label Hs sh :
  length sh = length Hs → (∀ a, a ∈ sh → f a = limit_for g a - w a) →
  (∀ s H a, Hs !! s = Some H → sh !! s = Some a → w a = part_weight H label) →
  zsum (f <$> sh) = zsum (limit_for g <$> sh) - gpart_weight Hs label.
Proof.
  unfold gpart_weight, all_verts. revert Hs; induction sh as [|a sh IH]; intros [|H Hs] Hlen Hf Hw; try done.
  csimpl. rewrite !zsum_cons, filter_app, fmap_app, zsum_app.
  rewrite (IH Hs); [|simpl in *; lia| |].
  - rewrite (Hf a) by left. rewrite (Hw 0%nat H a) by done. unfold part_weight. lia.
  - intros b Hb. apply Hf. by right.
  - intros s H' b HH Hb. by apply (Hw (Datatypes.S s)).
Qed.

Section redistribute.
  Context (gn : Z) (Hs : list hg) (sh : list share) (low high p_low : Z).
  Hypothesis (HD : distributed gn Hs).
  Hypothesis (Hw : ∀ v, v ∈ all_verts Hs → 0 ≤ v_weight v).
  Hypothesis (Hlh : low ≠ high).
  Hypothesis (Hsh : proper_shares Hs sh low high).
  Let sur0 := surplus_0 <$> sh.
  Let sur1 := surplus_1 <$> sh.

  (** what the first half leaves on processor [s] *)
  Record sent_half (s : nat) (H : hg) (a : share) (r : rs_state * (list vertex * (Z * Z))) : Prop := {
    sh_hg : Hs !! s = Some H;
    sh_share : sh !! s = Some a;
    sh_sent : sent_off (λ m, sends low sur0 m ∨ sends high sur1 m) (Z.of_nat (length Hs)) (Z.of_nat s) H
       (rs_H (fst r)) (h_verts (rs_H (fst r)) ++ fst (snd r)) (rs_q (fst r)) (rs_cost (fst r));
    sh_noaside : p_low > 0 → fst (snd r) = [];
    sh_aside : ¬ p_low > 0 → fst (snd r) ≡ₚ filter (λ v, v_part v = low) (h_verts H) ∧
      (∀ v, v ∈ h_verts (rs_H (fst r)) → v_part v ≠ low) ∧ ∀ m, m ∈ rs_q (fst r) → v_part (snd m) = high;
    sh_low : p_low > 0 → 0 ≤ surplus_0 a + lweight low (rs_q (fst r)).*2 ∨ zsum sur0 < 0;
    sh_high : 0 ≤ surplus_1 a + lweight high (rs_q (fst r)).*2 ∨ zsum sur1 < 0;
  }.

  Lemma sent_halves E (Q : list (rs_state * (list vertex * (Z * Z))) → Prop) :
    (∀ rs, length rs = length Hs → (∀ s r, rs !! s = Some r → ∃ H a, sent_half s H a r) → Q rs) →
    wpe E (mapP (λ s, H <- nidx Hs s ;; sur0 <- nidx (gather_all (surplus_0 <$> sh)) s ;; sur1 <- nidx (gather_all (surplus_1 <$> sh)) s ;;
          red_send (length Hs) s H low high p_low sur0 sur1) (seq 0 (length Hs))) Q.
  Proof.
    intros HQ. pose proof (ps_len _ _ _ _ Hsh) as Hlen.
    apply (wpe_ranks E _ _ (λ s r, ∃ H a, sent_half s H a r)); [|done].
    intros s Hs'. destruct (lookup_lt_is_Some_2 Hs s Hs') as [H HH]. destruct (lookup_lt_is_Some_2 sh s) as [a Ha]; [lia|].
    apply wpe_bind. eapply wpe_nidx; [exact HH|].
    apply wpe_bind. eapply wpe_nidx.
    { unfold gather_all. apply lookup_replicate. split; [reflexivity|]. rewrite fmap_length. lia. }
    apply wpe_bind. eapply wpe_nidx.
    { unfold gather_all. apply lookup_replicate. split; [reflexivity|]. rewrite fmap_length. lia. }
    fold sur0 sur1.
    assert (HC : consistent H) by (apply (di_local _ _ HD); by eapply elem_of_list_lookup_2).
    apply elem_of_list_lookup_2 in Ha as Hain.
    destruct (surplus_limit a (ps_part _ _ _ _ Hsh a Hain)) as [Hs0 Hs1].
    pose proof (limit_nonneg 0 a (ps_max _ _ _ _ Hsh a Hain)) as Hn0. pose proof (limit_nonneg 1 a (ps_max _ _ _ _ Hsh a Hain)) as Hn1.
    eapply wpe_red_send with (own0 := surplus_0 a) (own1 := surplus_1 a).
    - by apply consistent_linked.
    - by apply co_nmap_ok.
    - intros v Hv. apply Hw. apply all_verts_elem. exists H. split; [by eapply elem_of_list_lookup_2|done].
    - done.
    - unfold sur0. by rewrite fmap_length.
    - unfold sur1. by rewrite fmap_length.
    - unfold sur0. by rewrite list_lookup_fmap, Ha.
    - unfold sur1. by rewrite list_lookup_fmap, Ha.
    - rewrite Hs0, (ps_w0 _ _ _ _ Hsh s H a HH Ha), part_weight_lweight. lia.
    - rewrite Hs1, (ps_w1 _ _ _ _ Hsh s H a HH Ha), part_weight_lweight. lia.
    - intros st aside r0 r1 snt cs HS Hq Hc H1 H2 H3 H4 H5 H6. exists H, a. subst snt cs. split; simpl; try done.
      + intros Hp. destruct (H3 Hp) as [[_ ?]|(_ & _ & ?)]; [by left|by right].
      + destruct H4 as [[_ ?]|(_ & _ & ?)]; [by left|by right].
  Qed.

  Lemma sent_concat rs : length rs = length Hs → (∀ s r, rs !! s = Some r → ∃ H a, sent_half s H a r) →
    all_verts Hs ≡ₚ concat ((λ r : rs_state * (list vertex * (Z * Z)), (rs_q (fst r)).*2) <$> rs) ++
      concat ((λ r : rs_state * (list vertex * (Z * Z)), h_verts (rs_H (fst r)) ++ fst (snd r)) <$> rs).
  Proof.
    intros Hlen Hrs. apply concat_perm3; [by rewrite !fmap_length..|].
    intros i l a b Hl Ha Hb. rewrite list_lookup_fmap in Hl; rewrite list_lookup_fmap in Ha; rewrite list_lookup_fmap in Hb.
    destruct (rs !! i) as [r|] eqn:Hr; [|done]. injection Ha as <-. injection Hb as <-.
    destruct (Hrs i r Hr) as (H & a & HS). rewrite (sh_hg _ _ _ _ HS) in Hl. injection Hl as <-.
    apply (so_verts _ _ _ _ _ _ _ _ (sh_sent _ _ _ _ HS)).
  Qed.

  (** the result on processor [s]; [q] is what arrived *)
  Record red_result (s : nat) (H : hg) (a : share) (r : hg * Z) : Prop := {
    rr_hg : Hs !! s = Some H;
    rr_share : sh !! s = Some a;
    rr_gsize : h_gsize (fst r) = h_gsize H;
    rr_nz : h_nz (fst r) = h_nz H;
    rr_kept_low : p_low > 0 → room_for 0 low Hs sh → kept_weight low H (fst r) ≤ limit_for 0 a;
    rr_kept_high : room_for 1 high Hs sh → kept_weight high H (fst r) ≤ limit_for 1 a;
    rr_in : ∀ v, v ∈ h_verts (fst r) → v ∈ h_verts H ∨ 
        p_low > 0 ∧ v_part v = low ∧ 0 < limit_for 0 a ∨ v_part v = high ∧ 0 < limit_for 1 a;
    rr_end_high : p_low > 0 → snd r = Z.of_nat (length (h_verts (fst r)));
    rr_end_low : ¬ p_low > 0 → ∃ n, snd r = Z.of_nat n ∧ (n ≤ length (h_verts (fst r)))%nat ∧
       ∀ i v, h_verts (fst r) !! i = Some v → (v_part v = low ↔ (n ≤ i)%nat);
  }.

  Lemma wpe_redistribute E (Q : list (hg * Z) → Prop) :
    (∀ res, length res = length Hs → distributed gn res.*1 → all_verts res.*1 ≡ₚ all_verts Hs →
       (∀ e', e' ∈ all_nets res.*1 → ∃ e, e ∈ all_nets Hs ∧ n_id e = n_id e' ∧ n_cost e = n_cost e') →
       (∀ s r, res !! s = Some r → ∃ H a, red_result s H a r) → Q res) →
    wpe E (redistribute Hs sh low high p_low) Q.
  Proof.
    intros HQ. unfold redistribute. apply wpe_bind. apply sent_halves. intros rs Hlrs Hrs.
    set (outs := (λ r : rs_state * (list vertex * (Z * Z)), rs_q (fst r)) <$> rs).
    set (couts := (λ r : rs_state * (list vertex * (Z * Z)), rs_cost (fst r)) <$> rs).
    assert (Hout : ∀ m, m ∈ concat outs ↔ ∃ s r, rs !! s = Some r ∧ m ∈ rs_q (fst r)).
    { intros m. unfold outs. rewrite CoarsenProof.elem_of_concat. split.
      - intros (l & Hm & (r & -> & [s Hr]%elem_of_list_lookup)%elem_of_list_fmap). eauto.
      - intros (s & r & Hr & Hm). exists (rs_q (fst r)). split; [done|]. apply elem_of_list_fmap. exists r. split; [done|]. by eapply elem_of_list_lookup_2. }
    assert (Hcout : ∀ m, m ∈ concat couts ↔ ∃ s r, rs !! s = Some r ∧ m ∈ rs_cost (fst r)).
    { intros m. unfold couts. rewrite CoarsenProof.elem_of_concat. split.
      - intros (l & Hm & (r & -> & [s Hr]%elem_of_list_lookup)%elem_of_list_fmap). eauto.
      - intros (s & r & Hr & Hm). exists (rs_cost (fst r)). split; [done|]. apply elem_of_list_fmap. exists r. split; [done|]. by eapply elem_of_list_lookup_2. }
    assert (Hto : ∀ m, m ∈ concat outs → 0 ≤ fst m < Z.of_nat (length Hs)).
    { intros m (s & r & Hr & Hm)%Hout. destruct (Hrs s r Hr) as (H & a & HS). by apply (so_to _ _ _ _ _ _ _ _ (sh_sent _ _ _ _ HS)). }
    apply wpe_bind. apply wpe_exchange.
    { unfold outs. rewrite fmap_length, Hlrs. exact Hto. }
    intros qs Hlqs Hqs. unfold outs in Hlqs. rewrite fmap_length, Hlrs in Hlqs.
    apply wpe_bind. apply wpe_exchange.
    { unfold couts. rewrite fmap_length, Hlrs. intros m (s & r & Hr & Hm)%Hcout. destruct (Hrs s r Hr) as (H & a & HS).
      by apply (so_cto _ _ _ _ _ _ _ _ (sh_sent _ _ _ _ HS)). }
    intros cs Hlcs Hcs. unfold couts in Hlcs. rewrite fmap_length, Hlrs in Hlcs.
    assert (Hbox : ∀ t box v, qs !! t = Some box → v ∈ box → ∃ s r, rs !! s = Some r ∧ (Z.of_nat t, v) ∈ rs_q (fst r)).
    { intros t box v Ht Hv. rewrite (Hqs t box Ht) in Hv. apply elem_of_list_fmap in Hv as ([t' v'] & -> & [Heq Hin]%elem_of_list_filter).
      simpl in *. subst t'. by apply Hout. }
    assert (Hcbox : ∀ t box m, cs !! t = Some box → m ∈ box ↔ ∃ s r, rs !! s = Some r ∧ (Z.of_nat t, m) ∈ rs_cost (fst r)).
    { intros t box m Ht. rewrite (Hcs t box Ht), elem_of_list_fmap. split.
      - intros ([t' m'] & -> & [Heq Hin]%elem_of_list_filter). simpl in *. subst t'. by apply Hcout.
      - intros Hm%Hcout. exists (Z.of_nat t, m). split; [done|]. by apply elem_of_list_filter. }
    assert (Hqall : concat qs ≡ₚ concat ((λ r : rs_state * (list vertex * (Z * Z)), (rs_q (fst r)).*2) <$> rs)).
    { transitivity (snd <$> concat outs).
      - rewrite <-(concat_split_by fst (concat outs) (length Hs) Hto), fmap_concat, <-list_fmap_compose. unfold compose.
        assert (∀ (l : list (list vertex)) (f : nat → list vertex) k, (∀ t box, l !! t = Some box → box ≡ₚ f (k + t)%nat) → concat l ≡ₚ concat (f <$> seq k (length l))) as Haux.
        { induction l as [|x l IH]; intros f k Hf; [done|]. cbn [length seq]. rewrite fmap_cons. cbn [concat]. f_equiv.
          - rewrite (Hf 0%nat x) by done. by rewrite Nat.add_0_r.
          - apply IH. intros t box Ht. rewrite (Hf (Datatypes.S t) box) by done. f_equiv. lia. }
        rewrite <-Hlqs. apply (Haux qs (λ t : nat, snd <$> filter (λ m : Z * vertex, fst m = Z.of_nat t) (concat outs)) 0%nat).
        intros t box Ht. by apply Hqs.
      - unfold outs. rewrite fmap_concat, <-list_fmap_compose. done. }
    assert (Hall : all_verts Hs ≡ₚ concat qs ++ concat ((λ r : rs_state * (list vertex * (Z * Z)), h_verts (rs_H (fst r)) ++ fst (snd r)) <$> rs)).
    { rewrite Hqall. by apply sent_concat. }
    (* every vertex that arrives was on another processor *)
    assert (Hnew : ∀ t box v H, qs !! t = Some box → v ∈ box → Hs !! t = Some H → v ∉ h_verts H).
    { intros t box v H Ht Hv HH Hin. destruct (Hbox t box v Ht Hv) as (s & r & Hr & Hm). destruct (Hrs s r Hr) as (H' & a & HS).
      destruct (so_to _ _ _ _ _ _ _ _ (sh_sent _ _ _ _ HS) _ Hm) as [_ Hne]. simpl in Hne.
      assert (v ∈ h_verts H') as Hin'.
      { rewrite (so_verts _ _ _ _ _ _ _ _ (sh_sent _ _ _ _ HS)). apply elem_of_app. left. apply elem_of_list_fmap. by exists (Z.of_nat t, v). }
      pose proof (sh_hg _ _ _ _ HS) as HH'. pose proof (di_verts _ _ HD) as Hnd. unfold all_verts in Hnd.
      assert (NoDup (concat (h_verts <$> Hs))) as Hnd' by by apply NoDup_fmap_1 in Hnd.
      apply Hne. f_equal. eapply (NoDup_concat_index (h_verts <$> Hs)); [exact Hnd'| | |exact Hin|exact Hin']; by rewrite list_lookup_fmap, ?HH, ?HH'. }
    eapply (wpe_ranks E _ _ (λ t y, ∃ H a r box, rs !! t = Some r ∧ sent_half t H a r ∧ qs !! t = Some box ∧ consistent (fst y) ∧
       h_verts (fst y) = h_verts (rs_H (fst r)) ++ box ++ fst (snd r) ∧ h_gnets (fst y) = h_gnets H ∧ (h_gsize (fst y) = h_gsize H ∧ h_nz (fst y) = h_nz H) ∧
       snd y = Z.of_nat (length (h_verts (rs_H (fst r))) + length box) ∧
       (∀ e', e' ∈ h_nets (fst y) → ∃ e, e ∈ all_nets Hs ∧ n_id e = n_id e' ∧ n_cost e = n_cost e'))).
    - intros t Ht. destruct (lookup_lt_is_Some_2 rs t) as [r Hr]; [lia|]. destruct (lookup_lt_is_Some_2 qs t) as [box Hq]; [lia|].
      destruct (lookup_lt_is_Some_2 cs t) as [cb Hcb]; [lia|].
      apply wpe_bind. eapply wpe_nidx; [exact Hr|]. apply wpe_bind. eapply wpe_nidx; [exact Hq|]. apply wpe_bind. eapply wpe_nidx; [exact Hcb|].
      destruct (Hrs t r Hr) as (H & a & HS). pose proof (sh_sent _ _ _ _ HS) as HO.
      pose proof (sh_hg _ _ _ _ HS) as HH. apply elem_of_list_lookup_2 in HH as HHin.
      pose proof (di_local _ _ HD H HHin) as HC.
      apply wpe_red_receive.
      + apply HO.
      + eapply frame_nmap_ok; [apply HO|by apply co_nmap_ok].
      + pose proof (di_verts _ _ HD) as Hnd. rewrite Hall in Hnd.
        rewrite <-(concat_perm3 (zip_with app qs ((λ r : rs_state * (list vertex * (Z * Z)), h_verts (rs_H (fst r)) ++ fst (snd r)) <$> rs)) qs) in Hnd.
        * rewrite fmap_concat in Hnd. eapply (NoDup_concat_one _ t); [exact Hnd|].
          rewrite list_lookup_fmap, lookup_zip_with, Hq. simpl. rewrite list_lookup_fmap, Hr. done.
        * rewrite zip_with_length, fmap_length. lia.
        * rewrite zip_with_length, fmap_length. lia.
        * intros i l x y Hl Hx Hy. rewrite lookup_zip_with, Hx in Hl. simpl in Hl. rewrite Hy in Hl. simpl in Hl. by injection Hl as <-.
      + intros v Hv. destruct (Hbox t box v Hq Hv) as (s & r' & Hr' & Hm). destruct (Hrs s r' Hr') as (H' & a' & HS').
        assert (consistent H') as HC' by (apply (di_local _ _ HD); eapply elem_of_list_lookup_2; apply HS').
        apply (co_vnets _ HC'). rewrite (so_verts _ _ _ _ _ _ _ _ (sh_sent _ _ _ _ HS')). apply elem_of_app. left. apply elem_of_list_fmap. by exists (Z.of_nat t, v).
      + intros v n Hv Hn. destruct (Hbox t box v Hq Hv) as (s & r' & Hr' & Hm). destruct (Hrs s r' Hr') as (H' & a' & HS').
        destruct (so_nets _ _ _ _ _ _ _ _ (sh_sent _ _ _ _ HS') _ _ _ Hm Hn) as [c Hc].
        apply elem_of_list_fmap. exists (n, c). split; [done|]. apply (Hcbox t cb _ Hcb). eauto.
      + intros H' HC' Hv' Hg' Hgs' Hz' Hn'. exists H, a, r, box. cbn [fst snd]. split_and!; try done.
        { rewrite Hg'. apply HO. }
        { rewrite Hgs'. apply HO. }
        { rewrite Hz'. apply HO. }
        intros e' He'. destruct (Hn' e' He') as (e & (Hid & Hcost & _) & [Hin|(_ & _ & Hin)]).
        * destruct (frame_back _ _ _ (so_frame _ _ _ _ _ _ _ _ HO) Hin) as (e0 & He0 & (Hid0 & Hcost0 & _)).
          exists e0. split; [|split; congruence]. apply all_nets_elem. eauto.
        * apply (Hcbox t cb _ Hcb) in Hin as (s & r' & Hr' & Hm). destruct (Hrs s r' Hr') as (H'' & a' & HS').
          destruct (so_costs _ _ _ _ _ _ _ _ (sh_sent _ _ _ _ HS') _ _ _ Hm) as (e0 & He0 & Hid0 & Hcost0).
          exists e0. split; [|split; congruence]. apply all_nets_elem. exists H''. split; [|done]. eapply elem_of_list_lookup_2. apply HS'.
    - intros res Hlres Hres.
      assert (Hperm : all_verts res.*1 ≡ₚ all_verts Hs).
      { rewrite Hall. unfold all_verts. apply concat_perm3; [rewrite !fmap_length; lia|rewrite !fmap_length; lia|].
        intros i l x y Hl Hx Hy. rewrite !list_lookup_fmap in Hl. destruct (res !! i) as [r'|] eqn:Hr'; [|done]. injection Hl as <-.
        destruct (Hres i r' Hr') as (H & a & r & box & Hr & HS & Hq & _ & Hv & _). rewrite Hq in Hx. injection Hx as <-.
        rewrite list_lookup_fmap, Hr in Hy. injection Hy as <-. rewrite Hv. by rewrite Permutation_app_swap_app. }
      apply HQ; [done| |done| |].
      + split.
        * intros H' (r' & -> & [i Hi]%elem_of_list_lookup)%elem_of_list_fmap. by destruct (Hres i r' Hi) as (?&?&?&?&?&?&?&?&?).
        * intros H' (r' & -> & [i Hi]%elem_of_list_lookup)%elem_of_list_fmap. destruct (Hres i r' Hi) as (H & a & r & box & Hr & HS & _ & _ & _ & Hg & _).
          rewrite Hg. apply (di_gnets _ _ HD). eapply elem_of_list_lookup_2. apply HS.
        * rewrite Hperm. apply HD.
        * intros n (H' & (r' & -> & [i Hi]%elem_of_list_lookup)%elem_of_list_fmap & Hn)%all_nets_elem.
          destruct (Hres i r' Hi) as (H & a & r & box & Hr & HS & _ & _ & _ & _ & _ & _ & Hnets).
          destruct (Hnets n Hn) as (e & He & <- & _). by apply (di_range _ _ HD).
        * intros n n' (H1 & (r1 & -> & [i Hi]%elem_of_list_lookup)%elem_of_list_fmap & Hn)%all_nets_elem
            (H2 & (r2 & -> & [j Hj]%elem_of_list_lookup)%elem_of_list_fmap & Hn')%all_nets_elem Heq.
          destruct (Hres i r1 Hi) as (? & ? & ? & ? & _ & _ & _ & _ & _ & _ & _ & _ & Hnets1).
          destruct (Hres j r2 Hj) as (? & ? & ? & ? & _ & _ & _ & _ & _ & _ & _ & _ & Hnets2).
          destruct (Hnets1 n Hn) as (e & He & Hid & <-). destruct (Hnets2 n' Hn') as (e' & He' & Hid' & <-).
          apply (di_cost _ _ HD); [done|done|congruence].
      + intros n (H' & (r' & -> & [i Hi]%elem_of_list_lookup)%elem_of_list_fmap & Hn)%all_nets_elem.
        destruct (Hres i r' Hi) as (H & a & r & box & Hr & HS & _ & _ & _ & _ & _ & _ & Hnets). by apply Hnets.
      + intros s r' Hr'. destruct (Hres s r' Hr') as (H & a & r & box & Hr & HS & Hq & HC & Hv & _ & [Hgsz Hnzz] & Hend & _).
        pose proof (sh_sent _ _ _ _ HS) as HO. pose proof (sh_hg _ _ _ _ HS) as HH. pose proof (sh_share _ _ _ _ HS) as Ha.
        apply elem_of_list_lookup_2 in Ha as Hain. destruct (surplus_limit a (ps_part _ _ _ _ Hsh a Hain)) as [Hs0 Hs1].
        assert (Hkept : ∀ label, kept_weight label H (fst r') = lweight label (h_verts H) - lweight label (rs_q (fst r)).*2).
        { intros label. rewrite (lweight_perm _ _ _ (so_verts _ _ _ _ _ _ _ _ HO)), lweight_app.
          unfold kept_weight. rewrite Hv. rewrite Permutation_app_swap_app, filter_app, (filter_none _ box).
          - simpl. rewrite (filter_ext_in _ (λ v, v_part v = label)); [unfold lweight; lia|].
            intros v Hv'. split; [tauto|]. intros ?. split; [done|]. rewrite (so_verts _ _ _ _ _ _ _ _ HO). apply elem_of_app. by right.
          - intros v Hvb [_ Hin]. by apply (Hnew s box v H). }
        exists H, a. split; try done.
        * intros Hp Hroom. rewrite Hkept. destruct (sh_low _ _ _ _ HS Hp) as [Hok|Hbad].
          -- rewrite Hs0, (ps_w0 _ _ _ _ Hsh s H a HH Ha), part_weight_lweight in Hok. lia.
          -- unfold sur0 in Hbad. rewrite (surplus_total _ sh_w0 0 low Hs) in Hbad; [unfold room_for in Hroom; lia|apply Hsh| |apply Hsh].
             intros b Hb. apply surplus_limit. by apply (ps_part _ _ _ _ Hsh).
        * intros Hroom. rewrite Hkept. destruct (sh_high _ _ _ _ HS) as [Hok|Hbad].
          -- rewrite Hs1, (ps_w1 _ _ _ _ Hsh s H a HH Ha), part_weight_lweight in Hok. lia.
          -- unfold sur1 in Hbad. rewrite (surplus_total _ sh_w1 1 high Hs) in Hbad; [unfold room_for in Hroom; lia|apply Hsh| |apply Hsh].
             intros b Hb. apply surplus_limit. by apply (ps_part _ _ _ _ Hsh).
        * intros v Hvin. rewrite Hv in Hvin. rewrite !elem_of_app in Hvin. destruct Hvin as [Hvin|[Hvin|Hvin]].
          -- left. rewrite (so_verts _ _ _ _ _ _ _ _ HO), !elem_of_app. tauto.
          -- right. destruct (Hbox s box v Hq Hvin) as (s' & r2 & Hr2 & Hm). destruct (Hrs s' r2 Hr2) as (H2 & a2 & HS2).
             assert (0 ≤ sh_w0 a) as Hw0.
             { rewrite (ps_w0 _ _ _ _ Hsh s H a HH Ha), part_weight_lweight. apply lweight_nonneg. intros x Hx. apply Hw, all_verts_elem. exists H. split; [by eapply elem_of_list_lookup_2|done]. }
             assert (0 ≤ sh_w1 a) as Hw1.
             { rewrite (ps_w1 _ _ _ _ Hsh s H a HH Ha), part_weight_lweight. apply lweight_nonneg. intros x Hx. apply Hw, all_verts_elem. exists H. split; [by eapply elem_of_list_lookup_2|done]. }
             destruct (so_label _ _ _ _ _ _ _ _ (sh_sent _ _ _ _ HS2) _ Hm) as [(Hlab & st & Hst & Hpos)|(Hlab & st & Hst & Hpos)]; simpl in Hlab, Hst.
             ++ left. apply zlookup_Some in Hst as [_ Hst]. rewrite Nat2Z.id in Hst. unfold sur0 in Hst. rewrite list_lookup_fmap, Ha in Hst. injection Hst as <-.
                split; [|split; [done|lia]]. destruct (decide (p_low > 0)) as [?|Hp]; [done|].
                destruct (sh_aside _ _ _ _ HS2 Hp) as (_ & _ & Hhigh). specialize (Hhigh _ Hm). simpl in Hhigh. congruence.
             ++ right. apply zlookup_Some in Hst as [_ Hst]. rewrite Nat2Z.id in Hst. unfold sur1 in Hst. rewrite list_lookup_fmap, Ha in Hst. injection Hst as <-.
                split; [done|lia].
          -- left. rewrite (so_verts _ _ _ _ _ _ _ _ HO), !elem_of_app. tauto.
        * intros Hp. rewrite Hend, Hv, (sh_noaside _ _ _ _ HS Hp), app_nil_r, app_length. done.
        * intros Hp. exists (length (h_verts (rs_H (fst r))) + length box)%nat. split; [done|]. split; [rewrite Hv, !app_length; lia|].
          destruct (sh_aside _ _ _ _ HS Hp) as (Has & Hrest & _).
          intros i v Hi. rewrite Hv, app_assoc in Hi. apply lookup_app_Some in Hi as [Hi|[Hge Hi]].
          -- apply lookup_lt_Some in Hi as Hlt. rewrite app_length in Hlt.
             assert (v_part v ≠ low); [|split; [done|lia]].
             apply elem_of_list_lookup_2 in Hi. apply elem_of_app in Hi as [?|Hvb]; [by apply Hrest|].
             destruct (Hbox s box v Hq Hvb) as (s' & r2 & Hr2 & Hm). destruct (Hrs s' r2 Hr2) as (H2 & a2 & HS2).
             destruct (sh_aside _ _ _ _ HS2 Hp) as (_ & _ & Hhigh). specialize (Hhigh _ Hm). simpl in Hhigh. congruence.
          -- rewrite app_length in Hge. split; [lia|]. intros _. apply elem_of_list_lookup_2 in Hi. rewrite Has in Hi.
             by apply elem_of_list_filter in Hi as [? _].
  Qed.
End redistribute.
