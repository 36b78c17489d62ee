(** update_C keeps counts and cut exact. *)
From Verif Require Export KparMove.

Lemma wpe_foldM_seq {A} (E : err → Prop) (f : A → nat → M A) (I : nat → A → Prop) n (s : A) (Q : A → Prop) :
  I 0%nat s → (∀ i s, (i < n)%nat → I i s → wpe E (f s i) (I (S i))) → (∀ s, I n s → Q s) → wpe E (foldM f (seq 0 n) s) Q.
Proof.
  intros H0 HS HQ. eapply (wpe_foldM E _ (λ ds s, I (length ds) s)); [done| |].
  - intros ds i ts s' Heq HI.
    assert (i = length ds ∧ i < n)%nat as [-> Hi].
    { assert (seq 0 n !! length ds = Some i) as Hl by (rewrite Heq; by apply list_lookup_middle). apply lookup_seq in Hl. lia. }
    rewrite app_length, Nat.add_1_r. by apply HS.
  - rewrite seq_length. done.
Qed.

(** ** the owner's part of update_C *)
Definition both (c : Z * Z) : Z := if decide (fst c = 0 ∨ snd c = 0) then 0 else 1.
Definition shift (d : Z) (c : Z * Z) : Z * Z := (fst c + d, snd c - d).
Definition cut_of (xs : list Z) (cs : list (Z * Z)) : Z := zsum (zip_with (λ x c, x * both c) xs cs).

Lemma cut_of_insert xs cs (i : nat) x c c' : xs !! i = Some x → cs !! i = Some c →
  cut_of xs (<[i := c']> cs) = cut_of xs cs - x * both c + x * both c'.
Proof.
  unfold cut_of. revert cs i; induction xs as [|y xs IH]; intros [|d cs] [|i] Hx Hc; simplify_eq/=.
  - rewrite !zsum_cons. lia.
  - rewrite !zsum_cons, (IH cs i) by done. lia.
Qed.

(** the change of entry [i] that the messages [box] amount to *)
Definition delta (loc : Z → Z) (box : list (Z * Z)) (i : nat) (c0 : Z) : Z :=
  zsum ((λ m : Z * Z, snd m - c0) <$> filter (λ m : Z * Z, loc (fst m) = Z.of_nat i) box).

Lemma wpe_update_own E part t ow box own cut (Q : list (Z * Z) * Z * list (Z * (Z * Z)) → Prop) :
  let count := Z.to_nat (pa_count part (Z.of_nat t)) in
  length own = count → length (ow_cost ow) = count → length (ow_procs ow) = count →
  (∀ m, m ∈ box → 0 ≤ pa_local part (fst m) < Z.of_nat count) →
  let own' := imap (λ i c, shift (delta (pa_local part) box i (fst c)) c) own in
  (∀ out, (∀ m, m ∈ out ↔ ∃ (i : nat) c c' ps, own !! i = Some c ∧ own' !! i = Some c' ∧ fst c ≠ fst c' ∧ ow_procs ow !! i = Some ps ∧
       fst m ∈ ps ∧ snd m = (pa_global part (Z.of_nat i) (Z.of_nat t), fst c')) →
     Q (own', cut + cut_of (ow_cost ow) own' - cut_of (ow_cost ow) own, out)) →
  wpe E (update_own part t ow box own cut) Q.
Proof.
  intros count Hlo Hlc Hlp Hbox own' HQ. unfold update_own. apply wpe_bind.
  set (new ds := imap (λ i c, shift (delta (pa_local part) ds i (fst c)) c) own).
  eapply (wpe_foldM E _ (λ ds (st : list (Z * Z) * Z), fst st = new ds ∧
            snd st = cut + cut_of (ow_cost ow) (fst st) - cut_of (ow_cost ow) own)).
  - split; simpl; [|lia]. apply list_eq. intros i. unfold new. rewrite list_lookup_imap. destruct (own !! i) as [[a b]|]; [|done].
    simpl. f_equal. unfold shift, delta. csimpl. unfold zsum. simpl. f_equal; lia.
  - intros ds m ts [Cn cu] Heq [HCn Hcu]. cbn [fst snd] in *.
    assert (0 ≤ pa_local part (fst m) < Z.of_nat count) as Hm by (apply Hbox; rewrite Heq; set_solver).
    set (l := Z.to_nat (pa_local part (fst m))).
    destruct (lookup_lt_is_Some_2 own l) as [old Hold]; [subst l; lia|].
    destruct (lookup_lt_is_Some_2 (ow_cost ow) l) as [x Hx]; [subst l; lia|].
    apply wpe_bind, wpe_idx with old; [apply zlookup_Some; split; [lia|done]|].
    set (d := snd m - fst old).
    assert (∀ i (c : Z * Z), delta (pa_local part) (ds ++ [m]) i (fst c) = delta (pa_local part) ds i (fst c) + (if decide (i = l) then snd m - fst c else 0)) as Hd.
    { intros i c. unfold delta. rewrite filter_app, fmap_app, zsum_app, filter_cons, filter_nil. f_equal.
      destruct (decide (i = l)); [rewrite decide_True by (subst l; lia)|rewrite decide_False by (subst l; lia)]; csimpl; unfold zsum; simpl; lia. }
    assert (Cn !! l = Some (shift (delta (pa_local part) ds l (fst old)) old)) as Hc.
    { rewrite HCn. unfold new. rewrite list_lookup_imap, Hold. done. }
    set (c := shift (delta (pa_local part) ds l (fst old)) old) in *.
    assert (new (ds ++ [m]) = <[l := shift d c]> (new ds)) as Hnew.
    { apply list_eq. intros i. unfold new at 1. rewrite list_lookup_imap. destruct (decide (i = l)) as [->|Hne].
      - rewrite list_lookup_insert by (unfold new; rewrite imap_length; by eapply lookup_lt_Some). rewrite Hold. simpl. f_equal.
        rewrite Hd, decide_True by done. unfold c, shift, d. simpl. f_equal; lia.
      - rewrite list_lookup_insert_ne by done. unfold new. rewrite list_lookup_imap. destruct (own !! i) as [c1|]; [|done]. simpl. f_equal.
        rewrite Hd, decide_False by done. by rewrite Z.add_0_r. }
    fold d. case_decide as Hd0.
    + apply wpe_bind, wpe_idx with c; [apply zlookup_Some; split; [lia|done]|].
      apply wpe_bind. apply (wpe_mono _ _ (λ cut1, cut1 = cu + x - x * both c)).
      { unfold both. case_decide.
        - apply wpe_bind, wpe_idx with x; [apply zlookup_Some; split; [lia|done]|]. apply wpe_ret. lia.
        - apply wpe_ret. lia. }
      intros cut1 ->.
      apply wpe_bind. apply (wpe_mono _ _ (λ cut2, cut2 = cu - x * both c + x * both (shift d c))).
      { assert (both (shift d c) = if decide (fst c + d = 0 ∨ snd c - d = 0) then 0 else 1) as -> by done. case_decide.
        - apply wpe_bind, wpe_idx with x; [apply zlookup_Some; split; [lia|done]|]. apply wpe_ret. lia.
        - apply wpe_ret. lia. }
      intros cut2 ->. apply wpe_ret. cbn [fst snd]. change (zinsert (pa_local part (fst m)) (fst c + d, snd c - d) Cn) with (<[l := shift d c]> Cn).
      split; [rewrite Hnew, HCn; done|]. rewrite (cut_of_insert _ _ _ x c) by done. lia.
    + apply wpe_ret. cbn [fst snd]. split; [|done]. rewrite Hnew, <-HCn. symmetry. apply list_insert_id. rewrite Hc. f_equal.
      unfold shift. destruct c as [c1 c2]. simpl. f_equal; lia.
  - intros [Cn cu] [HCn Hcu]. cbn [fst snd] in *. change (new box) with own' in HCn. subst Cn. apply wpe_bind.
    assert (length own' = count) as Hlo' by (unfold own'; by rewrite imap_length).
    assert (∀ (i : nat) c, own !! i = Some c → ∃ c', own' !! i = Some c' ∧ (fst c = fst c' → c' = c)) as Hsame.
    { intros i c Hi. eexists. unfold own'. rewrite list_lookup_imap, Hi. split; [done|]. unfold shift. destruct c as [c1 c2]. simpl. intros. f_equal; lia. }
    eapply (wpe_foldM_seq E _ (λ j (st : list (Z * Z) * list (Z * (Z * Z))), fst st = take j own' ++ drop j own ∧
      ∀ m, m ∈ snd st ↔ ∃ (i : nat) c c' ps, (i < j)%nat ∧ own !! i = Some c ∧ own' !! i = Some c' ∧ fst c ≠ fst c' ∧ ow_procs ow !! i = Some ps ∧
       fst m ∈ ps ∧ snd m = (pa_global part (Z.of_nat i) (Z.of_nat t), fst c'))).
    + split; [done|]. intros m. simpl. split; [by intros ?%elem_of_nil|]. intros (i & ? & ? & ? & ? & _). lia.
    + intros i [P out] Hi [HP Hout]. cbn [fst snd] in *. subst P. fold count in Hi.
      destruct (lookup_lt_is_Some_2 own i) as [c Hc]; [lia|]. destruct (Hsame i c Hc) as (c' & Hc' & Hcc).
      destruct (lookup_lt_is_Some_2 (ow_procs ow) i) as [ps Hps]; [lia|].
      apply wpe_bind. eapply wpe_nidx.
      { rewrite lookup_app_r by (rewrite take_length; lia). rewrite take_length, lookup_drop. rewrite Nat.min_l by lia.
        rewrite Nat.sub_diag, Nat.add_0_r. exact Hc. }
      apply wpe_bind, wpe_nidx with c'; [done|].
      assert (∀ e, <[i := e]> (take i own' ++ drop i own) = take i own' ++ e :: drop (S i) own) as Hins.
      { intros e. rewrite insert_app_r_alt by (rewrite take_length; lia). rewrite take_length, Nat.min_l by lia. rewrite Nat.sub_diag.
        by rewrite (drop_S _ c i Hc). }
      case_decide as Hne.
      * apply wpe_bind, wpe_nidx with ps; [done|]. apply wpe_ret. cbn [fst snd]. split.
        { rewrite Hins, (take_S_r _ _ c' Hc'), <-app_assoc. done. }
        intros m. rewrite elem_of_app, Hout. split.
        -- intros [(i' & c1 & c1' & ps1 & Hlt & Hrest)|(u & -> & Hu)%elem_of_list_fmap].
           ++ exists i', c1, c1', ps1. split; [lia|done].
           ++ exists i, c, c', ps. split; [lia|]. done.
        -- intros (i' & c1 & c1' & ps1 & Hlt & H1 & H2 & H3 & H4 & H5 & H6). destruct (decide (i' = i)) as [->|].
           ++ right. apply elem_of_list_fmap. exists (fst m). destruct m as [u b]. simpl in *. simplify_eq. done.
           ++ left. exists i', c1, c1', ps1. split; [lia|done].
      * rewrite (Hcc Hne) in Hc'. apply wpe_ret. cbn [fst snd]. split.
        { rewrite (take_S_r _ _ c Hc'), <-app_assoc. by rewrite (drop_S _ c i Hc). }
        intros m. rewrite Hout. split; intros (i' & c1 & c1' & ps1 & Hlt & H1 & H2 & H3 & Hrest).
        -- exists i', c1, c1', ps1. split; [lia|done].
        -- exists i', c1, c1', ps1. split; [|done]. destruct (decide (i' = i)) as [->|]; [|lia]. simplify_eq.
    + intros [P out] [HP Hout]. cbn [fst snd] in *. apply wpe_ret. cbn [fst snd].
      fold count in HP, Hout. rewrite drop_ge, app_nil_r, take_ge in HP by lia. subst P. rewrite Hcu. apply HQ.
      intros m. rewrite Hout. split; intros (i' & c1 & c1' & ps1 & Hrest); exists i', c1, c1', ps1; [naive_solver|].
      destruct Hrest as (H1 & Hrest). split; [|done]. apply lookup_lt_Some in H1. lia.
Qed.

(** ** the local part *)
Lemma wpe_update_local E (update_g : bool) box k (g g' : Z → Z) (RG : gstruct → Prop) (Q : kproc → Prop) :
  consistent (kp_H k) → length (kp_C k) = length (h_nets (kp_H k)) →
  kp_prev0 k = (λ n, g (n_id n)) <$> h_nets (kp_H k) →
  (∀ m, m ∈ box → ∃ n, n ∈ h_nets (kp_H k) ∧ m = (n_id n, g' (n_id n))) →
  (∀ n, n ∈ h_nets (kp_H k) → g (n_id n) ≠ g' (n_id n) → (n_id n, g' (n_id n)) ∈ box) →
  (∀ G, RG G → g_H G = kp_H k ∧ g_C G = kp_C k) →
  (if update_g then
     ∀ prev0 : list Z, prev0 = (λ n, g' (n_id n)) <$> h_nets (kp_H k) →
     wpe E (foldM (λ (G : gstruct) (i : nat),
              n <- nidx (h_nets (kp_H k)) i ;; c0 <- nidx prev0 i ;; c <- nidx (g_C G) i ;;
              if decide (c0 ≠ fst c) then update_gains G n c (c0, n_gsize n - c0) else ret G)
              (seq 0 (length (h_nets (kp_H k)))) (kp_G k)) RG
   else RG (kp_G k)) →
  (∀ G, RG G → Q (KProc (with_C ((λ n, (g' (n_id n), n_gsize n - g' (n_id n))) <$> h_nets (kp_H k)) G) (kp_Cl k) (kp_ws k) (kp_own k)
     ((λ n, g' (n_id n)) <$> h_nets (kp_H k)) (kp_cut k) (kp_best k) (kp_nim k) (kp_done k))) →
  wpe E (update_local update_g box k) Q.
Proof.
  intros HC Hlen Hprev Hbox Hall HRG Hg HQ. unfold update_local. set (H := kp_H k) in *. apply wpe_bind.
  eapply (wpe_foldM E _ (λ ds p0, length p0 = length (h_nets H) ∧ ∀ i n, h_nets H !! i = Some n →
     p0 !! i = Some (if decide (n_id n ∈ fst <$> ds) then g' (n_id n) else g (n_id n)))).
  - rewrite Hprev. rewrite fmap_length. split; [done|]. intros i n Hi. rewrite list_lookup_fmap, Hi. simpl. done.
  - intros ds m ts p0 Heq [Hl Hp0]. destruct (Hbox m) as (n & Hn & ->); [rewrite Heq; set_solver|]. cbn [fst snd].
    pose proof Hn as [i Hi]%elem_of_list_lookup.
    apply wpe_bind. eapply wpe_local_id_net; [by apply co_nmap_ok|exact Hi|].
    unfold aadd. apply wpe_bind. eapply wpe_idx; [apply zlookup_Some; split; [lia|]; rewrite Nat2Z.id; by apply Hp0|].
    apply wpe_ret. rewrite zinsert_length. split; [done|]. intros j n' Hj. unfold zinsert. rewrite Nat2Z.id.
    destruct (decide (i = j)) as [->|Hne].
    + simplify_eq. rewrite list_lookup_insert by (rewrite Hl; by eapply lookup_lt_Some). rewrite decide_True by (rewrite fmap_app; set_solver). done.
    + rewrite list_lookup_insert_ne by done. rewrite (Hp0 j n' Hj). f_equal. rewrite fmap_app. csimpl.
      assert (n_id n' ≠ n_id n) as Hid.
      { intros Hid. apply Hne. eapply (NoDup_lookup (nids H)); [apply (co_nid _ HC)|..]; unfold nids; rewrite list_lookup_fmap.
        - rewrite Hi. done.
        - rewrite Hj. simpl. by f_equal. }
      destruct (decide (n_id n' ∈ fst <$> ds)); [rewrite decide_True by set_solver|rewrite decide_False by set_solver]; done.
  - intros p0 [Hl Hp0].
    assert (p0 = (λ n, g' (n_id n)) <$> h_nets H) as Hp0'.
    { apply list_eq_same_length with (length (h_nets H)); [by rewrite fmap_length|done|]. intros i x y Hi Hx Hy.
      rewrite list_lookup_fmap in Hy. destruct (h_nets H !! i) as [n|] eqn:Hn; [|done]. injection Hy as <-. rewrite (Hp0 i n Hn) in Hx. injection Hx as <-.
      case_decide as Hin; [done|]. destruct (decide (g (n_id n) = g' (n_id n))) as [|Hne]; [done|]. exfalso. apply Hin.
      apply elem_of_list_fmap. exists (n_id n, g' (n_id n)). split; [done|]. apply Hall; [by eapply elem_of_list_lookup_2|done]. }
    clear Hp0 Hl. apply wpe_bind. apply (wpe_mono _ _ RG).
    { destruct update_g; [|by apply wpe_ret]. by apply Hg. }
    intros G HG. destruct (HRG G HG) as [HGH HGC]. apply wpe_bind.
    set (c' := λ n : net, (g' (n_id n), n_gsize n - g' (n_id n))).
    eapply (wpe_foldM_seq E _ (λ j C, C = take j (c' <$> h_nets H) ++ drop j (kp_C k))).
    + by rewrite HGC.
    + intros i C Hi ->. destruct (lookup_lt_is_Some_2 (h_nets H) i Hi) as [n Hn]. destruct (lookup_lt_is_Some_2 (kp_C k) i) as [c Hc]; [by rewrite Hlen|].
      apply wpe_bind, wpe_nidx with n; [done|]. apply wpe_bind, wpe_nidx with (g' (n_id n)).
      { rewrite Hp0', list_lookup_fmap, Hn. done. }
      assert (length (take i (c' <$> h_nets H)) = i) as Hti by (rewrite take_length, fmap_length; lia).
      apply wpe_bind, wpe_nidx with c.
      { rewrite lookup_app_r by lia. rewrite Hti, lookup_drop, Nat.sub_diag, Nat.add_0_r. done. }
      apply wpe_ret. rewrite insert_app_r_alt by lia. rewrite Hti, Nat.sub_diag, (drop_S _ c i Hc). simpl.
      rewrite (take_S_r _ _ (c' n)) by (by rewrite list_lookup_fmap, Hn). by rewrite <-app_assoc.
    + intros C ->. rewrite drop_ge, app_nil_r, take_ge by (rewrite ?fmap_length; lia). apply wpe_ret. rewrite Hp0'. by apply HQ.
Qed.
