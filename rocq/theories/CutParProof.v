(** Proofs about remove_cut_nets and add_cut_nets on all processors. *)
From Verif Require Export CutNetPar RecParProof SpecCut.

(** ** Messages to all processors *)
Lemma to_all_elem {A} p (ms : list A) x : x ∈ to_all p ms ↔ snd x ∈ ms ∧ 0 ≤ fst x < Z.of_nat p.
Proof.
  unfold to_all. rewrite CoarsenProof.elem_of_concat. split.
  - intros (l & Hx & (m & -> & Hm)%elem_of_list_fmap). apply elem_of_list_fmap in Hx as (t & -> & Ht%elem_of_seq). simpl. split; [done|lia].
  - destruct x as [t m]. simpl. intros [Hm Ht]. eexists. split; [|by apply elem_of_list_fmap_1]. apply elem_of_list_fmap. exists (Z.to_nat t).
    rewrite elem_of_seq. split; [f_equal; lia|lia].
Qed.
Lemma to_all_filter {A} p (ms : list A) (t : nat) : (t < p)%nat → snd <$> filter (λ x : Z * A, fst x = Z.of_nat t) (to_all p ms) = ms.
Proof.
  intros Ht. unfold to_all. induction ms as [|m ms IH]; [done|]. csimpl. rewrite filter_app, fmap_app, IH.
  assert (filter (λ x : Z * A, fst x = Z.of_nat t) ((λ t0 : nat, (Z.of_nat t0, m)) <$> seq 0 p) = [(Z.of_nat t, m)]) as ->; [|done].
  assert (seq 0 p = seq 0 t ++ t :: seq (S t) (p - S t)) as ->.
  { replace p with (t + S (p - S t))%nat at 1 by lia. rewrite seq_app. done. }
  rewrite fmap_app, fmap_cons, filter_app, filter_cons. cbn [fst]. rewrite decide_True by done.
  rewrite !filter_none; [done| |]; intros x (u & -> & Hu%elem_of_seq)%elem_of_list_fmap; simpl; lia.
Qed.
Lemma wpe_exchange_all {A} E p (mss : list (list A)) (Q : list (list A) → Prop) : length mss = p →
  (∀ ins, length ins = p → (∀ t box, ins !! t = Some box → box ≡ₚ concat mss) → Q ins) →
  wpe E (exchange (to_all p <$> mss)) Q.
Proof.
  intros Hl HQ. apply wpe_exchange.
  - intros m. rewrite fmap_length, Hl, CoarsenProof.elem_of_concat. intros (l & Hm & (ms & -> & _)%elem_of_list_fmap). by apply to_all_elem in Hm as [_ Hm].
  - rewrite fmap_length, Hl. intros ins Hi Hbox. apply HQ; [done|]. intros t box Ht. rewrite (Hbox t box Ht). apply lookup_lt_Some in Ht. rewrite Hi in Ht.
    clear -Ht. induction mss as [|ms mss IH]; [done|]. csimpl. rewrite filter_app, fmap_app, to_all_filter by done. by rewrite IH.
Qed.

(** ** Removing *)
Lemma wpe_take_out (E : err → Prop) ids P (Q : keeper → Prop) : consistent (fst P) →
  (∀ H' add, nets_removed ids (fst P) H' → consistent H' → add ≡ₚ core <$> filter (λ n, n_id n ∈ ids) (h_nets (fst P)) → Q (H', snd P ++ add)) →
  wpe E (take_out ids P) Q.
Proof.
  destruct P as [H cut]. cbn [fst snd]. intros HC HQ. unfold take_out.
  eapply (wpe_foldM E _ (λ ds s, nets_removed ds H (fst s) ∧ consistent (fst s) ∧
     ∃ ns, snd s = cut ++ (core <$> ns) ∧ NoDup (n_id <$> ns) ∧ (∀ id, id ∈ n_id <$> ns ↔ id ∈ ds ∧ id ∈ nids H) ∧ ∀ n, n ∈ ns → n ∈ h_nets H)).
  - split; [apply nets_removed_refl|]. split; [done|]. exists []. split; [by rewrite app_nil_r|]. split; [constructor|]. split; [set_solver|set_solver].
  - intros ds id ts [H' c] Heq (HR & HC' & ns & Hc & Hnd & Hids & Hsub). cbn [fst snd] in *.
    destruct (is_local_net H' id) eqn:Hloc.
    + unfold is_local_net in Hloc. apply bool_decide_eq_true in Hloc as [i Hi]. apply (co_nmap _ HC') in Hi as (n & Hi & <-).
      assert (n ∈ h_nets H') as Hn' by (by eapply elem_of_list_lookup_2). pose proof Hn' as Hn. rewrite (nsr_nets _ _ _ HR) in Hn.
      apply elem_of_list_filter in Hn as [Hds Hn].
      apply wpe_bind, wpe_get_net; [by apply co_nmap_ok|done|].
      apply wpe_bind, wpe_remove_net; [done..|]. intros H'' HR' HC'' Hvm'. apply wpe_ret. cbn [fst snd].
      split; [|split; [done|]].
      * eapply (nets_removed_snoc _ _ _ H'); [by apply co_nmap_ok|done..].
      * exists (ns ++ [n]). rewrite Hc, !fmap_app, <-app_assoc. split; [done|]. csimpl. split; [|split].
        -- apply NoDup_app. split; [done|]. split; [|apply NoDup_singleton]. intros x (Hx & _)%Hids. set_solver.
        -- intros x. rewrite elem_of_app, Hids, !elem_of_app, !elem_of_list_singleton.
           assert (n_id n ∈ nids H) by (apply nids_elem; eauto). naive_solver.
        -- set_solver.
    + apply wpe_ret. cbn [fst snd]. assert (id ∉ nids H') as Hid.
      { intros (n & [i Hi]%elem_of_list_lookup & <-)%nids_elem. unfold is_local_net in Hloc. apply bool_decide_eq_false in Hloc. apply Hloc. exists i. apply (co_nmap _ HC'). eauto. }
      assert (id ∈ nids H → id ∈ ds) as Hid'.
      { intros (n & Hn & <-)%nids_elem. destruct (decide (n_id n ∈ ds)) as [|Hd]; [done|]. destruct Hid. apply nids_elem. exists n. split; [|done].
        rewrite (nsr_nets _ _ _ HR). by apply elem_of_list_filter. }
      split; [|split; [done|]].
      * destruct (decide (id ∈ ds)) as [Hds|Hds]; [eapply nets_removed_ext; [|exact HR]; set_solver|].
        assert (id ∉ nids H) as Hno by tauto. destruct HR as [R1 R2 R3 R4 R5]. split; [| |done..].
        -- rewrite R1. apply reflexive_eq, HgMore.filter_ext. intros n Hn. rewrite elem_of_app, elem_of_list_singleton.
           assert (n_id n ≠ id) by (intros <-; apply Hno; apply nids_elem; eauto). tauto.
        -- apply Forall2_same_length_lookup_2; [by eapply Forall2_length|]. intros i v v' Hi Hi'.
           destruct (Forall2_lookup_lr _ _ _ _ _ _ R2 Hi Hi') as (E1 & E2 & E3 & E4). split_and!; [done..|]. rewrite E4. apply reflexive_eq, HgMore.filter_ext.
           intros m Hm. rewrite elem_of_app, elem_of_list_singleton. assert (m ≠ id); [|tauto]. intros ->. apply Hno.
           destruct (co_inc1 _ HC v id) as (n & Hn & <- & _); [by eapply elem_of_list_lookup_2|done|]. apply nids_elem. eauto.
      * exists ns. split; [done|]. split; [done|]. split; [|done]. intros x. rewrite Hids, elem_of_app, elem_of_list_singleton. naive_solver.
  - intros [H' c] (HR & HC' & ns & Hc & Hnd & Hids & Hsub). cbn [fst snd] in *. subst c. apply HQ; [done|done|]. f_equiv.
    eapply (perm_of_ids _ _ (h_nets H)); [apply (co_nid _ HC)|done|intros n Hn; by apply elem_of_list_filter in Hn as [_ Hn]|].
    apply NoDup_Permutation; [done|apply NoDup_fmap_filter, (co_nid _ HC)|]. intros x. rewrite Hids. split.
    + intros [Hx (n & Hn & <-)%nids_elem]. apply elem_of_list_fmap_1. by apply elem_of_list_filter.
    + intros (n & -> & [Hx Hn]%elem_of_list_filter)%elem_of_list_fmap. split; [done|]. apply nids_elem. eauto.
Qed.

(** ** The labels of the pieces *)
Lemma wpe_piece_label (E : err → Prop) H n (Q : Z → Prop) : consistent H → n ∈ h_nets H → (n_verts n = [] → E UB) →
  (∀ u us, n_verts n = u :: us → Q (if decide (us = [] ∧ part_of H u = u) then u else -1)) → wpe E (piece_label H n) Q.
Proof.
  intros HC Hn HE HQ. unfold piece_label. pose proof (co_nverts _ HC n Hn) as Hnd.
  destruct (n_verts n) as [|u us] eqn:Hus. { apply wpe_bind. simpl. apply wpe_fail. by apply HE. }
  assert (∀ x, x ∈ u :: us → x ∈ vids H) as Hin. { intros x Hx. eapply net_in_vids; [done|exact Hn|]. by rewrite Hus. }
  apply wpe_bind. eapply wpe_nidx; [done|].
  apply wpe_bind. apply wpe_vert_id; [by apply co_vmap_ok|apply Hin; set_solver|]. intros v0 Hv0 Hid0 Hp0. rewrite Hp0.
  eapply (wpe_foldM E _ (λ ds l, match ds with [] => l = part_of H u | [_] => l = (if decide (part_of H u = u) then u else -1) | _ => l = -1 end)).
  - done.
  - intros ds x ts l Heq Hl.
    assert (wpe E (if decide (l = -1) then ret l else v <- vert H x ;; ret (if decide (l ≠ v_id v) then -1 else l)) (λ l', l' = if decide (l = x) then l else -1)) as Hw.
    { destruct (decide (l = -1)) as [Hl1|Hl1]; [apply wpe_ret; cbv beta; rewrite Hl1; by destruct (decide (-1 = x))|].
      apply wpe_bind, wpe_vert_id; [by apply co_vmap_ok|apply Hin; rewrite Heq; set_solver|]. intros v _ -> _. apply wpe_ret.
      destruct (decide (l = x)); [rewrite decide_False by tauto|rewrite decide_True by done]; done. }
    eapply wpe_mono; [exact Hw|]. intros l' ->. clear Hw. destruct ds as [|d [|d2 ds]]; simpl in Heq |- *.
    + injection Heq as <- <-. subst l. case_decide; done.
    + injection Heq as <- ->. apply NoDup_cons in Hnd as [Hnd _]. subst l. destruct (decide (part_of H u = u)) as [Hx|Hx]; [|by destruct (decide (-1 = x))]. rewrite decide_False; [done|]. intros ->. apply Hnd. by left.
    + subst l. destruct (decide (-1 = x)), ds; done.
  - intros l Hl. destruct us as [|u2 us]; simpl in Hl.
    + rewrite Hl. pose proof (HQ u [] eq_refl) as HQ'. destruct (decide (part_of H u = u)); [rewrite decide_True in HQ' by done|rewrite decide_False in HQ' by tauto]; done.
    + rewrite Hl. pose proof (HQ u (u2 :: us) eq_refl) as HQ'. rewrite decide_False in HQ'; [done|]. by intros [? _].
Qed.

(** ** The owner of a net *)
(** all labels of [i] are the same part *)
Definition same_label (ms : list (Z * Z)) (i c : Z) : Prop := 0 ≤ c ∧ ∀ l, (i, l) ∈ ms → l = c.
Lemma wpe_owner_cuts (E : err → Prop) part size box (Q : list Z → Prop) :
  (∀ m, m ∈ box → 0 ≤ pa_local part (fst m) < size ∨ E UB) →
  (∀ m m', m ∈ box → m' ∈ box → pa_local part (fst m) = pa_local part (fst m') → fst m = fst m') →
  (∀ m, m ∈ box → -1 ≤ snd m) →
  (∀ r, (∀ i, i ∈ r ↔ (∃ l, (i, l) ∈ box) ∧ ¬ ∃ c, same_label box i c) → Q r) →
  wpe E (owner_cuts part size box) Q.
Proof.
  intros Hr Hinj Hl HQ. unfold owner_cuts. apply wpe_bind.
  eapply (wpe_foldM E _ (λ ds s, (∀ m, m ∈ box → ∀ c, zlookup (fst s) (pa_local part (fst m)) = Some c →
      (c = -2 ∧ (∀ l, (fst m, l) ∉ ds) ∧ fst m ∉ snd s) ∨
      (c = -1 ∧ (∃ l, (fst m, l) ∈ ds) ∧ (¬ ∃ c, same_label ds (fst m) c) ∧ fst m ∈ snd s) ∨
      (0 ≤ c ∧ (∃ l, (fst m, l) ∈ ds) ∧ same_label ds (fst m) c ∧ fst m ∉ snd s)) ∧
      (∀ i, i ∈ snd s → ∃ l, (i, l) ∈ ds) ∧ (∀ m, m ∈ ds → is_Some (zlookup (fst s) (pa_local part (fst m)))) ∧ length (fst s) = Z.to_nat size)).
  - split_and!; [|set_solver|set_solver|apply replicate_length]. intros m Hm c Hc. left. apply zlookup_Some in Hc as [_ Hc]. apply lookup_replicate in Hc as [-> _]. set_solver.
  - intros ds [i l] ts [st out] Heq (Hst & Hout & Hdef & Hlen). cbn [fst snd] in *. assert ((i, l) ∈ box) as Hm by (rewrite Heq; set_solver).
    assert (-1 ≤ l) as Hl1 by (by apply (Hl (i, l))).
    destruct (zlookup st (pa_local part i)) as [c|] eqn:Hc; cycle 1.
    { apply wpe_bind. unfold idx. rewrite Hc. simpl. apply wpe_fail. destruct (Hr _ Hm) as [Hr'|?]; [|done]. cbn [fst] in Hr'.
      destruct (zlookup_is_Some st (pa_local part i)) as [? Hx]; [lia|congruence]. }
    pose proof (zlookup_Some_lt _ _ _ Hc) as Hlt.
    apply wpe_bind. eapply wpe_idx; [exact Hc|]. specialize (Hst _ Hm c) as Hcur. cbn [fst] in Hcur. specialize (Hcur Hc).
    assert (∀ j l', j ≠ i → (j, l') ∈ ds ++ [(i, l)] ↔ (j, l') ∈ ds) as Hoth. { intros j l' Hj. rewrite elem_of_app, elem_of_list_singleton. naive_solver. }
    assert (∀ j c', j ≠ i → same_label (ds ++ [(i, l)]) j c' ↔ same_label ds j c') as Hoths. { intros j c' Hj. unfold same_label. naive_solver. }
    assert (∀ (st' out' : list Z), (∀ j, pa_local part j ≠ pa_local part i → zlookup st' (pa_local part j) = zlookup st (pa_local part j)) →
      (∀ j, j ≠ i → j ∈ out' ↔ j ∈ out) → length st' = length st → is_Some (zlookup st' (pa_local part i)) →
      (∀ c', zlookup st' (pa_local part i) = Some c' → 
        (c' = -1 ∧ (¬ ∃ c, same_label (ds ++ [(i, l)]) i c) ∧ i ∈ out') ∨ (0 ≤ c' ∧ same_label (ds ++ [(i, l)]) i c' ∧ i ∉ out')) →
      (∀ m, m ∈ box → ∀ c, zlookup st' (pa_local part (fst m)) = Some c →
      (c = -2 ∧ (∀ l', (fst m, l') ∉ ds ++ [(i, l)]) ∧ fst m ∉ out') ∨
      (c = -1 ∧ (∃ l', (fst m, l') ∈ ds ++ [(i, l)]) ∧ (¬ ∃ c, same_label (ds ++ [(i, l)]) (fst m) c) ∧ fst m ∈ out') ∨
      (0 ≤ c ∧ (∃ l', (fst m, l') ∈ ds ++ [(i, l)]) ∧ same_label (ds ++ [(i, l)]) (fst m) c ∧ fst m ∉ out')) ∧
      (∀ j, j ∈ out' → ∃ l', (j, l') ∈ ds ++ [(i, l)]) ∧ (∀ m, m ∈ ds ++ [(i, l)] → is_Some (zlookup st' (pa_local part (fst m)))) ∧ length st' = Z.to_nat size) as Hdone.
    { intros st' out' Hz Ho Hls His Hcase. split_and!.
      - intros [j l'] Hj c' Hc'. cbn [fst] in *. destruct (decide (j = i)) as [->|Hne].
        + right. assert (∃ l', (i, l') ∈ ds ++ [(i, l)]) by (exists l; set_solver). destruct (Hcase c' Hc') as [(? & ? & ?)|(? & ? & ?)]; [left|right]; done.
        + rewrite Hz in Hc' by (intros Hx; apply Hne; by apply (Hinj _ _ Hj Hm)).
          destruct (Hst _ Hj c' Hc') as [(? & Hx & ?)|[(? & (l2 & ?) & Hx & ?)|(? & (l2 & ?) & ? & ?)]]; cbn [fst] in *.
          * left. split; [done|]. split; [intros l2; rewrite Hoth by done; apply Hx|by rewrite Ho].
          * right; left. split; [done|]. split; [exists l2; by apply Hoth|]. split; [|by rewrite Ho]. intros [c2 Hc2]. apply Hx. exists c2. by apply Hoths in Hc2.
          * right; right. split; [done|]. split; [exists l2; by apply Hoth|]. split; [by apply Hoths|by rewrite Ho].
      - intros j Hj. destruct (decide (j = i)) as [->|Hne]; [exists l; set_solver|]. apply Ho in Hj; [|done]. destruct (Hout j Hj) as [l2 ?]. exists l2. by apply Hoth.
      - intros [j l'] Hj. cbn [fst]. destruct (decide (pa_local part j = pa_local part i)) as [->|Hne]; [done|]. rewrite Hz by done.
        apply elem_of_app in Hj as [Hj|Hj]; [by apply (Hdef (j, l'))|]. apply elem_of_list_singleton in Hj. congruence.
      - congruence. }
    assert (∀ x j, pa_local part j ≠ pa_local part i → zlookup (zinsert (pa_local part i) x st) (pa_local part j) = zlookup st (pa_local part j)) as Hz1.
    { intros x j Hj. rewrite zlookup_zinsert by done. by rewrite decide_False. }
    assert (∀ x, zlookup (zinsert (pa_local part i) x st) (pa_local part i) = Some x) as Hz2. { intros x. rewrite zlookup_zinsert by done. by rewrite decide_True. }
    case_decide as Hc2; [|case_decide as Hc3]; apply wpe_ret; cbn [fst snd].
    + subst c. destruct Hcur as [(_ & Hnone & Hno)|[(? & _)|(? & _)]]; [|lia|lia]. apply Hdone; [apply Hz1| |apply zinsert_length|by rewrite Hz2|].
      * intros j Hj. case_decide; [|done]. rewrite elem_of_app, elem_of_list_singleton. naive_solver.
      * rewrite Hz2. intros c' [= <-]. case_decide as Hlm.
        -- left. split; [done|]. split; [|set_solver]. intros (c' & Hc' & Hall). specialize (Hall l ltac:(set_solver)). lia.
        -- right. split; [lia|]. split; [|done]. split; [lia|]. intros l'. rewrite elem_of_app, elem_of_list_singleton. intros [?|[= ->]]; [by destruct (Hnone l')|done].
    + destruct Hcur as [(? & _)|[(? & _)|(_ & (l2 & Hl2) & [Hs0 Hs] & Hno)]]; [lia|lia|]. apply Hdone; [apply Hz1| |apply zinsert_length|by rewrite Hz2|].
      * intros j Hj. rewrite elem_of_app, elem_of_list_singleton. naive_solver.
      * rewrite Hz2. intros c' [= <-]. left. split; [done|]. split; [|set_solver]. intros (c' & Hc' & Hall). pose proof (Hall l ltac:(set_solver)). pose proof (Hall l2 ltac:(set_solver)).
        pose proof (Hs _ Hl2). lia.
    + apply Hdone; [done|done|done|by rewrite Hc|]. rewrite Hc. intros c' [= <-]. destruct Hcur as [(? & _)|[(? & (l2 & Hl2) & Hs & Hin)|(Hc0 & (l2 & Hl2) & [Hs0 Hs] & Hno)]]; [lia| |].
      * left. split; [done|]. split; [|done]. intros (c' & Hc' & Hall). apply Hs. exists c'. split; [done|]. intros l' Hl'. apply Hall. set_solver.
      * right. split; [done|]. split; [|done]. split; [done|]. intros l'. rewrite elem_of_app, elem_of_list_singleton. intros [?|[= ->]]; [by apply Hs|lia].
  - intros [st out] (Hst & Hout & Hdef & Hlen). cbn [fst snd] in *. apply wpe_ret, HQ. intros i. split.
    + intros Hi. destruct (Hout i Hi) as [l Hil]. split; [eauto|]. destruct (Hdef _ Hil) as [c Hc]. destruct (Hst _ Hil c Hc) as [(_ & Hx & _)|[(_ & _ & ? & _)|(_ & _ & _ & ?)]]; [|done|done].
      by destruct (Hx l).
    + intros [[l Hil] Hns]. destruct (Hdef _ Hil) as [c Hc]. destruct (Hst _ Hil c Hc) as [(_ & Hx & _)|[(_ & _ & _ & ?)|(_ & _ & ? & _)]]; [by destruct (Hx l)|done|].
      destruct Hns. eauto.
Qed.

(** ** One sub_world *)
(** the label of a piece *)
Definition lab (H : hg) (n : net) : Z :=
  match n_verts n with u :: us => if decide (us = [] ∧ part_of H u = u) then u else -1 | [] => -1 end.
Section group_cuts.
  Context (bp : Z → Z → partitioning) (Hbp : lawful_family bp) (gn : Z) (Hs : list hg) (HD : distributed gn Hs) (first : nat).
  Context (E : err → Prop) (Hempty : (∃ n, n ∈ all_nets Hs ∧ n_verts n = []) → E UB).

  Lemma wpe_labels (Q : list (list (Z * (Z * Z))) → Prop) (p : nat) :
    ((∀ n, n ∈ all_nets Hs → n_verts n ≠ []) →
     Q ((λ H, (λ n, (pa_owner (bp (Z.of_nat p) gn) (n_id n), (n_id n, lab H n))) <$> h_nets H) <$> Hs)) →
    wpe E (mapP (λ H, mapP (λ n, l <- piece_label H n ;; ret (pa_owner (net_partition bp p H) (n_id n), (n_id n, l))) (h_nets H)) Hs) Q.
  Proof.
    intros HQ. apply (wpe_mapP E _ (λ _ H o, o = ((λ n, (pa_owner (bp (Z.of_nat p) gn) (n_id n), (n_id n, lab H n))) <$> h_nets H) ∧ ∀ n, n ∈ h_nets H → n_verts n ≠ [])).
    - intros t H HH%elem_of_list_lookup_2. pose proof (di_local _ _ HD H HH) as HC.
      apply (wpe_mapP E _ (λ _ n x, x = (pa_owner (bp (Z.of_nat p) gn) (n_id n), (n_id n, lab H n)) ∧ n_verts n ≠ [])).
      + intros j n Hn%elem_of_list_lookup_2. apply wpe_bind, wpe_piece_label; [done|done|intros ?; apply Hempty; exists n; split; [apply all_nets_elem; eauto|done]|].
        intros u us Hus. apply wpe_ret. unfold lab, net_partition. rewrite Hus, (di_gnets _ _ HD H HH). split; [done|congruence].
      + intros l Hl Hx. split.
        * apply list_eq_same_length with (length (h_nets H)); [by rewrite ?fmap_length|by rewrite ?fmap_length|]. intros j x y Hj Hx' Hy. apply list_lookup_fmap_Some in Hy as (n & Hn & ->).
          by destruct (Hx j n x Hn Hx') as [-> _].
        * intros n [j Hn]%elem_of_list_lookup. destruct (lookup_lt_is_Some_2 l j) as [x Hx']; [rewrite Hl; by eapply lookup_lt_Some|]. by eapply (Hx j n x).
    - intros l Hl Hx.
      assert (∀ n, n ∈ all_nets Hs → n_verts n ≠ []) as Hne.
      { intros n (H & [t HH]%elem_of_list_lookup & Hn)%all_nets_elem. destruct (lookup_lt_is_Some_2 l t) as [x Hx']; [rewrite Hl; by eapply lookup_lt_Some|]. by eapply (Hx t H x). }
      assert (l = (λ H, (λ n, (pa_owner (bp (Z.of_nat p) gn) (n_id n), (n_id n, lab H n))) <$> h_nets H) <$> Hs) as ->; [|by apply HQ].
      apply list_eq_same_length with (length Hs); [by rewrite ?fmap_length|by rewrite ?fmap_length|]. intros j x y Hj Hx' Hy. apply list_lookup_fmap_Some in Hy as (n & Hn & ->).
      by destruct (Hx j n x Hn Hx') as [-> _].
  Qed.

  Lemma wpe_group_cuts (Q : list (list Z) → Prop) : Hs ≠ [] → (E UB ∨ first = 0%nat ∨ length Hs = 1%nat) → (∀ v, v ∈ all_verts Hs → 0 ≤ v_id v) →
    (∀ l, length l = length Hs → (∀ n, n ∈ all_nets Hs → n_verts n ≠ []) → (∀ i, i ∈ concat l ↔ taken_out Hs i) → Q l) →
    wpe E (group_cuts bp first Hs) Q.
  Proof.
    intros Hne Hfirst Hids HQ. assert ((∃ H, Hs = [H]) ∨ ¬ ∃ H, Hs = [H]) as [[H HHs]|Hmany] by (destruct Hs as [|H [|H2 l]]; [done|left; eauto|right; by intros [? ?]]).
    - assert (H ∈ Hs) as HH by (rewrite HHs; by left). pose proof (di_local _ _ HD H HH) as HC.
      rewrite HHs. cbn [group_cuts]. apply wpe_bind. apply (wpe_mapP E _ (λ _ n b, b = bool_decide (wide n) ∧ n_verts n ≠ [])).
      { intros i n Hi%elem_of_list_lookup_2. apply wpe_net_is_cut; [done|done|intros ?; apply Hempty; exists n; split; [apply all_nets_elem; eauto|done]|done]. }
      intros bs Hl Hbs. assert (bs = (λ n, bool_decide (wide n)) <$> h_nets H) as Hbs'.
      { apply list_eq_same_length with (length (h_nets H)); [by rewrite ?fmap_length|by rewrite ?fmap_length|]. intros j x y Hj Hx' Hy. apply list_lookup_fmap_Some in Hy as (n & Hn & ->).
        by destruct (Hbs j n x Hn Hx') as [-> _]. }
      apply wpe_ret. cbv zeta. rewrite (zip_filter_bool wide _ _ Hbs').
      assert (∀ n, n ∈ h_nets H → n_verts n ≠ []) as Hne'.
      { intros n [i Hi]%elem_of_list_lookup. destruct (bs !! i) as [b|] eqn:Hb; [by eapply (Hbs i n b)|]. apply lookup_ge_None in Hb. apply lookup_lt_Some in Hi. lia. }
      assert (all_nets Hs = h_nets H) as Hall by (rewrite HHs; unfold all_nets; csimpl; by rewrite app_nil_r).
      apply HQ; [by rewrite HHs|by rewrite Hall|]. intros i. csimpl. rewrite app_nil_r. unfold taken_out. rewrite decide_True by (by rewrite HHs). rewrite Hall.
      assert (∀ n, n ∈ h_nets H → gverts Hs (n_id n) = n_verts n) as Hgv.
      { intros n Hn. unfold gverts, pieces. rewrite Hall. assert (filter (λ m, n_id m = n_id n) (h_nets H) = [n]) as ->; [|csimpl; by rewrite app_nil_r].
        pose proof (co_nid _ HC) as Hnd. clear -Hn Hnd. induction (h_nets H) as [|m l IH]; [by apply elem_of_nil in Hn|]. csimpl in Hnd. apply NoDup_cons in Hnd as [Hnot Hnd].
        rewrite filter_cons. apply elem_of_cons in Hn as [<-|Hn].
        - rewrite decide_True by done. f_equal. apply filter_none. intros x Hx Heq. apply Hnot. rewrite <-Heq. by apply elem_of_list_fmap_1.
        - rewrite decide_False; [by apply IH|]. intros Heq. apply Hnot. rewrite Heq. by apply elem_of_list_fmap_1. }
      split.
      + intros (n & -> & [Hw Hn]%elem_of_list_filter)%elem_of_list_fmap. split; [eauto|]. rewrite Hgv by done. exact Hw.
      + intros [(n & Hn & <-) Hw]. rewrite Hgv in Hw by done. apply elem_of_list_fmap_1. apply elem_of_list_filter. done.
    - set (p := length Hs). assert (0 < Z.of_nat p) as Hp by (unfold p; destruct Hs; [done|simpl; lia]).
      assert (length Hs ≠ 1%nat) as Hl1. { intros Hl. destruct Hs as [|a [|b l]]; try done. apply Hmany. eauto. }
      set (part := bp (Z.of_nat p) gn). assert (all_nets Hs ≠ [] → 0 ≤ gn) as Hgn.
      { destruct (all_nets Hs) as [|n l] eqn:Heq; [done|]. intros _. assert (n ∈ all_nets Hs) as Hn by (rewrite Heq; by left). pose proof (di_range _ _ HD n Hn). lia. }
      assert (∀ n, n ∈ all_nets Hs → lawful (Z.of_nat p) gn part) as Hlaw. { intros n Hn. apply Hbp; [done|]. apply Hgn. intros Heq. rewrite Heq in Hn. by apply elem_of_nil in Hn. }
      set (out := λ H, (λ n, (pa_owner part (n_id n), (n_id n, lab H n))) <$> h_nets H).
      assert (group_cuts bp first Hs = (outs <- mapP (λ H, mapP (λ n, l <- piece_label H n ;; ret (pa_owner (net_partition bp p H) (n_id n), (n_id n, l))) (h_nets H)) Hs ;;
        boxes <- exchange outs ;;
        mapP (λ t, H <- nidx Hs t ;; box <- nidx boxes t ;;
          let part := net_partition bp p H in
          owner_cuts part (pa_count part (Z.of_nat (first + t))) box) (seq 0 p))) as ->.
      { unfold p. destruct Hs as [|a [|b l]]; [done|exfalso; apply Hmany; eauto|done]. }
      apply wpe_bind, wpe_labels. intros Hnem. fold part. fold out.
      assert (∀ m, m ∈ concat (out <$> Hs) ↔ ∃ H n, H ∈ Hs ∧ n ∈ h_nets H ∧ m = (pa_owner part (n_id n), (n_id n, lab H n))) as Hmsg.
      { intros m. rewrite CoarsenProof.elem_of_concat. split.
        - intros (l & Hm & (H & -> & HH)%elem_of_list_fmap). apply elem_of_list_fmap in Hm as (n & -> & Hn). eauto.
        - intros (H & n & HH & Hn & ->). exists (out H). split; [|by apply elem_of_list_fmap_1]. apply elem_of_list_fmap. eauto. }
      apply wpe_bind, wpe_exchange.
      { intros m (H & n & HH & Hn & ->)%Hmsg. cbn [fst]. rewrite fmap_length. assert (n ∈ all_nets Hs) as Hn' by (apply all_nets_elem; eauto).
        apply (la_owner _ _ _ (Hlaw n Hn')). by apply (di_range _ _ HD). }
      rewrite fmap_length. fold p. intros boxes Hlb Hbox.
      assert (∀ t box i l, boxes !! t = Some box → (i, l) ∈ box ↔ pa_owner part i = Z.of_nat t ∧ ∃ H n, H ∈ Hs ∧ n ∈ h_nets H ∧ n_id n = i ∧ l = lab H n) as Hin.
      { intros t box i l Ht. rewrite (Hbox t box Ht), elem_of_list_fmap. split.
        - intros ([o x] & Heq & [Ho Hm]%elem_of_list_filter). cbn [fst snd] in *. subst x. apply Hmsg in Hm as (H & n & HH & Hn & [= -> -> ->]). split; [done|]. exists H, n. done.
        - intros (Ho & H & n & HH & Hn & <- & ->). exists (pa_owner part (n_id n), (n_id n, lab H n)). split; [done|]. apply elem_of_list_filter. split; [done|].
          apply Hmsg. exists H, n. done. }
      assert (∀ H n, H ∈ Hs → n ∈ h_nets H → n ∈ all_nets Hs) as Hall by (intros; apply all_nets_elem; eauto).
      assert (∀ H n u, H ∈ Hs → n ∈ h_nets H → u ∈ n_verts n → 0 ≤ u ∧ gpart Hs u = part_of H u) as Hu0.
      { intros H n u HH Hn Hu. assert (u ∈ vids H) as Hv by (eapply net_in_vids; [by apply (di_local _ _ HD)|done|done]). split; [|by eapply gpart_local].
        apply vids_elem in Hv as (v & Hv & <-). apply Hids, all_verts_elem. eauto. }
      assert (∀ H n, H ∈ Hs → n ∈ h_nets H → -1 ≤ lab H n) as Hlab.
      { intros H n HH Hn. unfold lab. destruct (n_verts n) as [|u us] eqn:Hus; [done|]. case_decide; [|done]. destruct (Hu0 H n u HH Hn ltac:(rewrite Hus; by left)). lia. }
      eapply (wpe_ranks _ _ _ (λ t r, ∃ box, boxes !! t = Some box ∧ ∀ i, i ∈ r ↔ (∃ l, (i, l) ∈ box) ∧ ¬ ∃ c, same_label box i c)).
      { intros t Ht. destruct (lookup_lt_is_Some_2 Hs t Ht) as [H HH]. destruct (lookup_lt_is_Some_2 boxes t ltac:(lia)) as [box Hb].
        apply wpe_bind. eapply wpe_nidx; [exact HH|]. apply wpe_bind. eapply wpe_nidx; [exact Hb|]. cbv zeta.
        assert (net_partition bp p H = part) as ->. { unfold net_partition, part. rewrite (di_gnets _ _ HD H); [done|]. by eapply elem_of_list_lookup_2. }
        apply wpe_owner_cuts.
        - intros [i l] (Ho & H' & n & HH' & Hn & <- & ->)%(Hin t box _ _ Hb). cbn [fst]. destruct Hfirst as [?|[->|?]]; [by right|left|done]. simpl. rewrite <-Ho.
          apply (la_local _ _ _ (Hlaw n (Hall H' n HH' Hn))). by apply (di_range _ _ HD), (Hall H').
        - intros [i l] [i' l'] (Ho & H1 & n & HH1 & Hn & <- & ->)%(Hin t box _ _ Hb) (Ho' & H2 & n' & HH2 & Hn' & <- & ->)%(Hin t box _ _ Hb) Heq. cbn [fst] in *.
          pose proof (Hlaw n (Hall H1 n HH1 Hn)) as HL.
          rewrite <-(la_global _ _ _ HL (n_id n)), <-(la_global _ _ _ HL (n_id n')) by (apply (di_range _ _ HD); eauto). congruence.
        - intros [i l] (Ho & H' & n & HH' & Hn & <- & ->)%(Hin t box _ _ Hb). cbn [snd]. by apply Hlab.
        - intros r Hr. exists box. done. }
      intros rs Hlr Hrs. apply HQ; [done|done|]. intros i. unfold taken_out. rewrite decide_False by done.
      assert (∀ H n u us, H ∈ Hs → n ∈ h_nets H → n_verts n = u :: us → u ∈ gverts Hs (n_id n)) as Hug. { intros H n u us HH Hn Hus. apply gverts_elem. exists n. split; [eauto|]. split; [done|]. rewrite Hus. by left. }
      assert (∀ t box, boxes !! t = Some box → pa_owner part i = Z.of_nat t → (∃ n, n ∈ all_nets Hs ∧ n_id n = i) →
        (∃ c, same_label box i c) ↔ ∃ u, gverts Hs i = [u] ∧ gpart Hs u = u) as Hiff.
      { intros t box Hb Ho (n0 & Hn0 & Hi0). pose proof Hn0 as (H0 & HH0 & Hn0')%all_nets_elem. split.
        - intros (c & Hc & Hsame).
          assert (∀ H n, H ∈ Hs → n ∈ h_nets H → n_id n = i → n_verts n = [c] ∧ part_of H c = c) as Hone.
          { intros H n HH Hn Hi. assert (lab H n = c) as Hlc. { apply Hsame, (Hin t box _ _ Hb). split; [done|]. exists H, n. done. }
            unfold lab in Hlc. destruct (n_verts n) as [|u us]; [lia|]. case_decide as Hd; [|lia]. destruct Hd as [-> Hd]. by subst u. }
          destruct (Hone H0 n0 HH0 Hn0' Hi0) as [Hv0 Hp0]. exists c. split.
          + assert (c ∈ gverts Hs i) as Hcin by (rewrite <-Hi0; by eapply Hug).
            pose proof (gverts_NoDup gn Hs i HD) as Hnd.
            assert (∀ u, u ∈ gverts Hs i → u = c) as Honly. { intros u (n & (H & HH & Hn)%all_nets_elem & Hi & Hu)%gverts_elem. destruct (Hone H n HH Hn Hi) as [Hx _]. rewrite Hx in Hu. by apply elem_of_list_singleton in Hu. }
            destruct (gverts Hs i) as [|a l]; [by apply elem_of_nil in Hcin|]. rewrite (Honly a) in * by (by left). f_equal. destruct l as [|b l]; [done|].
            rewrite (Honly b) in Hnd by (right; by left). apply NoDup_cons in Hnd as [Hnd _]. destruct Hnd. by left.
          + destruct (Hu0 H0 n0 c HH0 Hn0') as [_ ->]; [rewrite Hv0; by left|done].
        - intros (u & Hg & Hu). exists u. split.
          + assert (u ∈ gverts Hs i) as (n & (H & HH & Hn)%all_nets_elem & _ & Hx)%gverts_elem by (rewrite Hg; by left). by destruct (Hu0 H n u HH Hn Hx).
          + intros l (_ & H & n & HH & Hn & Hi & ->)%(Hin t box _ _ Hb). unfold lab.
            pose proof (Hnem n (Hall H n HH Hn)) as Hnn. pose proof (co_nverts _ (di_local _ _ HD H HH) n Hn) as Hnd.
            assert (∀ x, x ∈ n_verts n → x = u) as Honly. { intros x Hx. assert (x ∈ gverts Hs i) as Hxg by (apply gverts_elem; exists n; eauto). rewrite Hg in Hxg. by apply elem_of_list_singleton in Hxg. }
            destruct (n_verts n) as [|a l] eqn:Hv'; [done|]. rewrite (Honly a) in * by (by left). destruct (Hu0 H n u HH Hn ltac:(rewrite Hv'; by left)) as [_ Hpu].
            rewrite decide_True; [done|]. split; [|congruence]. destruct l as [|b l]; [done|].
            rewrite (Honly b) in Hnd by (right; by left). apply NoDup_cons in Hnd as [Hnd _]. destruct Hnd. by left. }
      rewrite CoarsenProof.elem_of_concat. split.
      + intros (r & Hi & [t Hr]%elem_of_list_lookup). destruct (Hrs t r Hr) as (box & Hb & Hir). apply Hir in Hi as [[l Hl] Hns].
        apply (Hin t box _ _ Hb) in Hl as (Ho & H & n & HH & Hn & Hi & ->). assert (∃ n, n ∈ all_nets Hs ∧ n_id n = i) as Hex by eauto.
        split; [done|]. by rewrite <-(Hiff t box Hb Ho Hex).
      + intros [Hex Hns]. pose proof Hex as (n & Hn & Hi). pose proof Hn as (H & HH & Hn')%all_nets_elem.
        pose proof (la_owner _ _ _ (Hlaw n Hn) (n_id n) (di_range _ _ HD n Hn)) as Ho. rewrite Hi in Ho.
        destruct (lookup_lt_is_Some_2 rs (Z.to_nat (pa_owner part i)) ltac:(lia)) as [r Hr]. exists r. split; [|by eapply elem_of_list_lookup_2].
        destruct (Hrs _ r Hr) as (box & Hb & Hir). apply Hir. assert (pa_owner part i = Z.of_nat (Z.to_nat (pa_owner part i))) as Ho' by lia.
        split; [|by rewrite (Hiff _ box Hb Ho' Hex)]. exists (lab H n). apply (Hin _ box _ _ Hb). split; [done|]. exists H, n. done.
  Qed.
End group_cuts.

(** ** All sub_worlds *)
Notation no_empty := no_bare (only parsing).
(** the total_cut of every group is large enough: only the first one has several processors *)
Notation well_grouped := one_by_one (only parsing).
Lemma wpe_all_cuts bp gn (E : err → Prop) groups : lawful_family bp → ∀ first (Q : list (list Z) → Prop),
  (∀ Hs, Hs ∈ groups → Hs ≠ [] ∧ distributed gn Hs ∧ (∀ v, v ∈ all_verts Hs → 0 ≤ v_id v) ∧ (E UB ∨ no_empty Hs)) →
  (E UB ∨ (well_grouped groups ∧ (first = 0%nat ∨ ∀ g, g ∈ groups → length g = 1%nat))) →
  (∀ l, length l = length (concat groups) → (∀ Hs, Hs ∈ groups → no_empty Hs) → (∀ i, i ∈ concat l ↔ ∃ Hs, Hs ∈ groups ∧ taken_out Hs i) → Q l) →
  wpe E (all_cuts bp first groups) Q.
Proof.
  intros Hbp. induction groups as [|Hs groups IH]; intros first Q Hg Hf HQ; cbn [all_cuts].
  { apply wpe_ret, HQ; [done|set_solver|]. set_solver. }
  destruct (Hg Hs ltac:(by left)) as (Hne & HD & Hids & Hem). apply wpe_bind. eapply (wpe_group_cuts bp Hbp gn); [done| |done| |done|].
  { intros (n & Hn & Hx). destruct Hem as [?|Hem]; [done|]. by destruct (Hem n Hn). }
  { destruct Hf as [?|[_ [->|Hf]]]; [by left|by right; left|right; right]. apply Hf. by left. }
  intros a Hla Hnoe Ha. apply wpe_bind, IH.
  { intros Hs' Hs''. apply Hg. by right. }
  { destruct Hf as [?|[Hw Hf]]; [by left|right]. assert (∀ g, g ∈ groups → length g = 1%nat) as Hone. { intros g [t Ht]%elem_of_list_lookup. by apply (Hw t). }
    split; [|by right]. intros t g Ht. apply Hone. by eapply elem_of_list_lookup_2. }
  intros b Hlb Hnob Hb. apply wpe_ret, HQ.
  - simpl. rewrite !app_length. lia.
  - intros Hs' [->|?]%elem_of_cons; [done|by apply Hnob].
  - intros i. rewrite concat_app, elem_of_app, Ha, Hb. split.
    + intros [?|(Hs' & ? & ?)]; [exists Hs; split; [by left|done]|exists Hs'; split; [by right|done]].
    + intros (Hs' & [->|?]%elem_of_cons & ?); [by left|right; eauto].
Qed.

(** what happens to a processor from which the nets [R] are removed *)
Definition taken (R : list Z) (P P' : keeper) : Prop :=
  nets_removed R (fst P) (fst P') ∧ consistent (fst P') ∧
  ∃ add, snd P' = snd P ++ add ∧ add ≡ₚ core <$> filter (λ n, n_id n ∈ R) (h_nets (fst P)).
Lemma in_groups_Forall2 {A B} (R : A → B → Prop) groups l : Forall2 R (concat groups) l → Forall2 (Forall2 R) groups (in_groups groups l).
Proof.
  revert l. induction groups as [|g groups IH]; intros l HF; cbn [in_groups]; [constructor|]. simpl in HF. apply Forall2_app_inv_l in HF as (l1 & l2 & H1 & H2 & ->).
  pose proof (Forall2_length _ _ _ H1) as Hl. rewrite Hl, take_app, drop_app. constructor; [done|by apply IH].
Qed.
Lemma wpe_remove_cut_nets_par bp gn (E : err → Prop) (groups : list (list keeper)) (Q : list (list keeper) → Prop) : lawful_family bp →
  (∀ g, g ∈ groups → g ≠ [] ∧ distributed gn (fst <$> g) ∧ (∀ v, v ∈ all_verts (fst <$> g) → 0 ≤ v_id v) ∧ (E UB ∨ no_empty (fst <$> g))) →
  (E UB ∨ well_grouped groups) →
  (∀ gs' R, (∀ i, i ∈ R ↔ ∃ g, g ∈ groups ∧ taken_out (fst <$> g) i) → (∀ g, g ∈ groups → no_empty (fst <$> g)) →
     Forall2 (Forall2 (taken R)) groups gs' → Q gs') →
  wpe E (remove_cut_nets_par bp groups) Q.
Proof.
  intros Hbp Hg Hw HQ. unfold remove_cut_nets_par. set (ps := concat groups). apply wpe_bind.
  apply (wpe_all_cuts bp gn); [done| | |].
  { intros Hs (g & -> & Hin)%elem_of_list_fmap. destruct (Hg g Hin) as (Hne & ?). split; [|done]. by intros ?%fmap_nil_inv. }
  { destruct Hw as [?|Hw]; [by left|right]. split; [|by left]. intros t Hs Ht. apply list_lookup_fmap_Some in Ht as (g & Ht & ->). rewrite fmap_length. by apply (Hw t). }
  intros sent Hls Hne Hsent.
  assert (length (concat ((λ g : list keeper, fst <$> g) <$> groups)) = length ps) as Hlen.
  { unfold ps. clear. induction groups as [|g groups IH]; [done|]. csimpl. rewrite !app_length, fmap_length. f_equal. exact IH. }
  apply wpe_bind. apply wpe_exchange_all; [lia|]. intros boxes Hlb Hbox. apply wpe_bind.
  set (R := concat sent) in *.
  eapply (wpe_ranks _ _ _ (λ t P', ∃ P, ps !! t = Some P ∧ taken R P P')).
  { intros t Ht. destruct (lookup_lt_is_Some_2 ps t Ht) as [P HP]. destruct (lookup_lt_is_Some_2 boxes t ltac:(lia)) as [box Hb].
    apply wpe_bind. eapply wpe_nidx; [exact HP|]. apply wpe_bind. eapply wpe_nidx; [exact Hb|].
    assert (consistent (fst P)) as HC.
    { assert (P ∈ ps) as Hin by (by eapply elem_of_list_lookup_2). unfold ps in Hin. apply CoarsenProof.elem_of_concat in Hin as (g & HP' & Hin).
      destruct (Hg g Hin) as (_ & HD & _). apply (di_local _ _ HD). by apply elem_of_list_fmap_1. }
    apply wpe_take_out; [done|]. intros H' add HR HC' Hadd. exists P. split; [done|]. pose proof (Hbox t box Hb) as Hp.
    split; [|split; [done|]].
    - eapply nets_removed_ext; [|exact HR]. intros x. by rewrite Hp.
    - exists add. split; [done|]. rewrite Hadd. erewrite (HgMore.filter_ext (λ n, n_id n ∈ box)); [done|]. intros n _. by rewrite Hp. }
  intros ps' Hlp Hps. apply wpe_ret. apply (HQ _ R).
  - intros i. rewrite Hsent. split.
    + intros (Hs & (g & -> & Hin)%elem_of_list_fmap & ?). eauto.
    + intros (g & Hin & ?). exists (fst <$> g). split; [|done]. by apply (elem_of_list_fmap_1 (λ g : list keeper, fst <$> g)).
  - intros g Hin. apply Hne. by apply (elem_of_list_fmap_1 (λ g : list keeper, fst <$> g)).
  - apply in_groups_Forall2. fold ps. apply Forall2_same_length_lookup. split; [done|]. intros t P P' HP HP'. destruct (Hps t P' HP') as (P0 & HP0 & HT). congruence.
Qed.
