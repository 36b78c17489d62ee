From Verif Require Export CollCount.
From Verif Require Import ListLemmas.

Section result.
  Context (W : wid → Z * Z) (m : metric) (k : Z).

  Definition st_init (p s : Z) : cstate := CS [0] p s 0 (k - 1) (if decide (p = 1) then [(0, k - 1)] else []) 0.

  (** what a processor does in the initial world *)
  Definition rounds_of (e : list ev) : nat :=
    (Nat.pred (nb e) + if decide (2 * Z.of_nat (nb e) < k)%Z then 1 else 0)%nat.
  Lemma rb_ops_root p s e : 2 ≤ k → 0 ≤ s < p → rb_ops W m k p s = Some e →
    root e = [([], OSum); ([], OSplit 0)] ++ (if decide (m = CutNet) then qs (rounds_of e) ++ add_ops else []) ++ [([], OSync)].
  Proof.
    intros Hk Hs. unfold rb_ops. fold (st_init p s).
    destruct (par_loop _ _ _ _) as [[e1 st]|] eqn:Hp; cbn [mbind option_bind fst snd]; [|done].
    destruct (seq_loop _ _ _ _ _) as [[e2 sp]|] eqn:Hq; cbn [mbind option_bind fst snd]; [|done].
    intros [= <-]. pose proof (par_loop_shape _ _ _ _ _ _ Hp) as (HG & _ & _). cbn [cs_G st_init] in HG.
    apply par_loop_count in Hp as (P1 & P2 & P3); [|done|done|done|cbn; lia].
    assert (cs_G st ≠ []) as HGn. { destruct HG as [X ->]. done. }
    cbn [cs_splits st_init] in P1.
    assert (∀ j, j ∈ cs_jobs st → snd j - fst j > 0) as Hj.
    { intros j Hj. destruct P3 as [(_ & P3 & P4 & _)|(_ & P3 & _)]; rewrite P3 in Hj.
      - by apply elem_of_list_singleton in Hj as ->.
      - by apply elem_of_nil in Hj. }
    apply seq_loop_count in Hq as (Q1 & Q2 & Q3); [|done|done].
    change (([], OSum) :: ([], OSplit 0) :: ?l) with ([([], OSum); ([], OSplit 0)] ++ l).
    rewrite !root_app.
    assert (∀ x y z : list ev, nb ([([], OSum); ([], OSplit 0)] ++ x ++ y ++ z) = (nb x + nb y + nb z)%nat) as Hnb.
    { intros x y z. rewrite !nb_app. change (nb [([], OSum); ([], OSplit 0)]) with 0%nat. lia. }
    unfold rounds_of. rewrite Hnb.
    assert (nb (end_ops m k (cs_G st) (cs_p st) sp) = 0%nat) as ->.
    { unfold end_ops. rewrite nb_app. destruct (decide (m = CutNet)); [|done]. rewrite nb_app.
      destruct (decide (_ < _)); [by rewrite nb_remove|done]. }
    rewrite Nat.add_0_r.
    assert (root e1 ++ root e2 = qs (if decide (m = CutNet) then Nat.pred (nb e1 + nb e2) else 0%nat)) as Hr.
    { rewrite Q3. destruct P3 as [(_ & P3 & P4 & ->)|(_ & P3 & P4 & ->)].
      - destruct (decide (m = CutNet)); [|done]. rewrite <- qs_add. f_equal.
        assert (nb e2 ≠ 0%nat); [|lia]. unfold tot in Q2. rewrite P3 in Q2. cbn in Q2. lia.
      - assert (nb e2 = 0%nat) as ->. { unfold tot in Q2. rewrite P3 in Q2. cbn in Q2. lia. }
        destruct (decide (m = CutNet)); [|done]. cbn [Nat.pred]. unfold qs at 2. cbn. rewrite app_nil_r. f_equal. lia. }
    rewrite (app_assoc (root e1)), Hr. unfold end_ops. rewrite root_app.
    destruct (decide (m = CutNet)) as [Hm|Hm]; [|done].
    rewrite qs_add, root_app. rewrite <- !app_assoc. apply (f_equal2 app); [done|]. cbn [app]. apply (f_equal2 app); [done|].
    replace (sp * 2) with (2 * Z.of_nat (nb e1 + nb e2)) by lia.
    destruct (decide (2 * Z.of_nat (nb e1 + nb e2) < k)); [rewrite root_remove by done|]; done.
  Qed.

  (** ** Two processors agree if they agree on the initial world *)
  Lemma shared_app F F' e e' : shared F F' (e ++ e') = shared F F' e ++ shared F F' e'.
  Proof. unfold shared. by rewrite filter_app, fmap_app. Qed.
  Lemma shared_root F F' X c d e : c ≠ d → X ++ [d] `prefix_of` F' →
    (∀ x, x ∈ e → X ++ [c] `prefix_of` fst x ∨ fst x = []) → shared F F' e = kev <$> root e.
  Proof.
    intros Hcd HF' He. unfold shared, root. f_equal.
    induction e as [|x e IH]; [done|]. rewrite !filter_cons.
    rewrite IH by (intros y Hy; by apply He, elem_of_list_further).
    destruct (He x (elem_of_list_here _ _)) as [Hx|Hx].
    - rewrite decide_False. 2: { intros [_ Hn]. pose proof (transitivity Hx Hn) as Hn'.
        destruct Hn' as [Y HY], HF' as [Y' HY']. rewrite HY in HY'. rewrite <- !app_assoc in HY'. apply app_inv_head in HY'. by injection HY'. }
      rewrite decide_False; [done|]. intros Hn. rewrite Hn in Hx. destruct Hx as [Y HY]. by destruct X.
    - rewrite !decide_True; [done|done|]. rewrite Hx. split; apply prefix_nil.
  Qed.
  Lemma shared_sym F F' e : shared F F' e = shared F' F e.
  Proof. unfold shared. f_equal. apply list_filter_iff. tauto. Qed.

  Lemma rb_ops_two p s s' e e' : 1 ≤ k → 0 ≤ s < p → 0 ≤ s' < p →
    rb_ops W m k p s = Some e → rb_ops W m k p s' = Some e' →
    root e = root e' → shared (inner W m k p s) (inner W m k p s') e = shared (inner W m k p s) (inner W m k p s') e'.
  Proof.
    intros Hk Hs Hs'. unfold rb_ops, inner. fold (st_init p s) (st_init p s').
    destruct (par_loop _ _ _ (st_init p s)) as [[e1 a]|] eqn:Ha; cbn [mbind option_bind fst snd]; [|done].
    destruct (seq_loop _ _ _ _ _) as [[e2 sp]|] eqn:Hqa; cbn [mbind option_bind fst snd]; [|done]. intros [= <-].
    destruct (par_loop _ _ _ (st_init p s')) as [[e1' b]|] eqn:Hb; cbn [mbind option_bind fst snd]; [|done].
    destruct (seq_loop _ _ _ (cs_jobs b) _) as [[e2' sp']|] eqn:Hqb; cbn [mbind option_bind fst snd]; [|done]. intros [= <-].
    assert (together (st_init p s) (st_init p s')) as Ht by (unfold together; cbn; auto 10).
    destruct (par_loop_two W m _ _ _ _ _ _ _ Ht Hs Hs' Ha Hb)
      as [[-> (E1 & E2 & E3 & E4 & _)]|(X & c & d & h & ta & tb & Hcd & -> & -> & Pa & Pb & PX & Ta & Tb)].
    - rewrite <- E1, <- E3, <- E4 in Hqb. rewrite Hqa in Hqb. injection Hqb as <- <-. by rewrite <- E1, <- E2.
    - apply seq_loop_on in Hqa as [Qa _]. apply seq_loop_on in Hqb as [Qb _].
      destruct (end_ops_on m k (cs_G a) (cs_p a) sp) as [Ea _].
      destruct (end_ops_on m k (cs_G b) (cs_p b) sp') as [Eb _].
      set (ra := ta ++ e2 ++ end_ops m k (cs_G a) (cs_p a) sp).
      set (rb := tb ++ e2' ++ end_ops m k (cs_G b) (cs_p b) sp').
      assert (∀ x, x ∈ ra → X ++ [c] `prefix_of` fst x ∨ fst x = []) as Hra.
      { intros x [Hx|[Hx|Hx]%elem_of_app]%elem_of_app; [by apply Ta|apply Qa in Hx as [->|[-> _]]; auto|apply Ea in Hx as [->| ->]; auto]. }
      assert (∀ x, x ∈ rb → X ++ [d] `prefix_of` fst x ∨ fst x = []) as Hrb.
      { intros x [Hx|[Hx|Hx]%elem_of_app]%elem_of_app; [by apply Tb|apply Qb in Hx as [->|[-> _]]; auto|apply Eb in Hx as [->| ->]; auto]. }
      assert (X ≠ []) as HX. { destruct PX as [Y ->]. done. }
      change (([], OSum) :: ([], OSplit 0) :: ?l) with ([([], OSum); ([], OSplit 0)] ++ l).
      rewrite <- !app_assoc. change (((X, ?o) :: ?t) ++ ?l) with ([(X, o)] ++ t ++ l). fold ra rb.
      rewrite !root_app, !shared_app. intros Hr.
      assert (∀ o, root [(X, o)] = []) as Hz by (intros o; apply root_none; intros x ->%elem_of_list_singleton; done).
      rewrite !Hz in Hr. cbn [app] in Hr. apply app_inv_head, app_inv_head in Hr. do 2 f_equal. f_equal.
      + unfold shared. rewrite !filter_cons, !filter_nil. cbn [fst]. by destruct (decide _).
      + rewrite (shared_root _ _ X c d ra) by done. rewrite shared_sym, (shared_root _ _ X d c rb) by done. by rewrite Hr.
  Qed.

  Lemma rb_ops_one p s s' e e' : k = 1 → 0 ≤ s < p → 0 ≤ s' < p →
    rb_ops W m k p s = Some e → rb_ops W m k p s' = Some e' → e = e'.
  Proof.
    intros -> Hs Hs'. unfold rb_ops. change (Z.to_nat 1) with 1%nat. cbn [par_loop cs_high cs_low cs_p].
    destruct (decide (1 - 1 - 0 > 0 ∧ p > 1)) as [[]|_]; [lia|]. cbn [mbind option_bind fst snd cs_G cs_jobs cs_splits cs_p]. congruence.
  Qed.
End result.

(** ** All processors *)
Lemma traces_lookup W m k p full : traces W m k p = Some full →
  length full = Z.to_nat p ∧ ∀ i e, full !! i = Some e → 0 ≤ Z.of_nat i < p ∧ rb_ops W m k p (Z.of_nat i) = Some e.
Proof.
  unfold traces. rewrite mapM_Some. intros H. pose proof (Forall2_length _ _ _ H) as Hl. rewrite seq_length in Hl.
  split; [done|]. intros i e Hi. destruct (Forall2_lookup_r _ _ _ _ _ H Hi) as (j & Hj & He).
  apply lookup_seq in Hj as [-> Hlt]. cbn in He. split; [|done]. lia.
Qed.

Lemma ops_of_root e : ops_of [] e = (λ x : ev, kind (snd x)) <$> root e.
Proof. unfold ops_of, root. f_equal. by apply list_filter_iff. Qed.

Lemma traces_agreeing W m k p full : 1 ≤ k → traces W m k p = Some full →
  (∀ e e', e ∈ full → e' ∈ full → root e = root e') → ∃ Fs, agreeing full Fs.
Proof.
  intros Hk Ht Hr. apply traces_lookup in Ht as [Hl Hall].
  exists ((λ s : nat, inner W m k p (Z.of_nat s)) <$> seq 0 (Z.to_nat p)).
  assert (∀ i F, ((λ s : nat, inner W m k p (Z.of_nat s)) <$> seq 0 (Z.to_nat p)) !! i = Some F → F = inner W m k p (Z.of_nat i)) as HF.
  { intros i F. rewrite list_lookup_fmap. intros (j & Hj & ->)%fmap_Some. by apply lookup_seq in Hj as [-> _]. }
  split.
  - by rewrite fmap_length, seq_length.
  - intros i e F He ->%HF. apply Hall in He as [_ He]. by apply rb_ops_worlds in He as [? _].
  - intros i e F He ->%HF. apply Hall in He as [_ He]. by apply rb_ops_worlds in He as [_ ?].
  - intros i j e e' F F' He He' ->%HF ->%HF. destruct (Hall i e He) as [H1 H2], (Hall j e' He') as [H3 H4].
    apply (rb_ops_two W m k p (Z.of_nat i) (Z.of_nat j)); try done. apply Hr; by eapply elem_of_list_lookup_2.
Qed.

Lemma agreeing_ops full Fs e e' G : agreeing full Fs → e ∈ full → e' ∈ full → G ∈ worlds e → G ∈ worlds e' → ops_of G e = ops_of G e'.
Proof.
  intros Hag (i & Hi)%elem_of_list_lookup (j & Hj)%elem_of_list_lookup HG HG'.
  destruct (lookup_lt_is_Some_2 Fs i) as [F HF]; [rewrite <- (ag_len _ _ Hag); by eapply lookup_lt_Some|].
  destruct (lookup_lt_is_Some_2 Fs j) as [F' HF']; [rewrite <- (ag_len _ _ Hag); by eapply lookup_lt_Some|].
  apply (ag_worlds _ _ Hag i e F Hi HF) in HG. apply (ag_worlds _ _ Hag j e' F' Hj HF') in HG'.
  pose proof (ag_shared _ _ Hag i j e e' F F' Hi Hj HF HF') as Hs.
  assert (∀ l, ops_of G l = snd <$> filter (λ x : ev, fst x = G) (shared F F' l)) as Hops.
  { intros l. unfold ops_of, shared. induction l as [|x l IH]; [done|]. rewrite !filter_cons.
    destruct (decide (fst x = G)) as [Hx|Hx].
    - rewrite decide_True by (by rewrite Hx). rewrite !fmap_cons, filter_cons, decide_True by done. rewrite fmap_cons. by rewrite IH.
    - destruct (decide (_ ∧ _)) as [Hx'|Hx']; [|done]. rewrite fmap_cons, filter_cons, decide_False by done. done. }
  by rewrite !Hops, Hs.
Qed.

(** ** Executions *)
Lemma root_worlds e : [] ∈ worlds e.
Proof. apply elem_of_list_here. Qed.

Lemma reach_root full cur : rtc (step full) full cur →
  length cur = length full ∧ ∃ n, ∀ i e c, full !! i = Some e → cur !! i = Some c → length (root e) = (n + length (root c))%nat.
Proof.
  intros Hr. apply rtc_ind_r with (P := λ cur, length cur = length full ∧ ∃ n, ∀ i e c, full !! i = Some e → cur !! i = Some c → length (root e) = (n + length (root c))%nat) (x := full) (z := cur) in Hr; [done|..].
  - split; [done|]. exists 0%nat. intros i e c H1 H2. by simplify_eq.
  - intros y z _ (Hl & Hl' & G & o & _ & Hm) (_ & n & IH). split; [done|].
    exists (n + if decide (G = []) then 1 else 0)%nat. intros i e c He Hc.
    destruct (lookup_lt_is_Some_2 y i) as [d Hd]; [rewrite Hl; by eapply lookup_lt_Some|].
    specialize (Hm i e d c He Hd Hc). specialize (IH i e d He Hd). unfold moves in Hm.
    destruct (decide (G = [])) as [->|HG].
    + rewrite decide_True in Hm by apply root_worlds. destruct Hm as (x & -> & Hx & _).
      unfold root in IH. rewrite filter_cons_True in IH by done. cbn in IH. unfold root. lia.
    + destruct (decide (G ∈ worlds e)); [|subst; lia]. destruct Hm as (x & -> & Hx & _).
      unfold root in IH. rewrite filter_cons_False in IH by (by rewrite Hx). unfold root. lia.
Qed.

Lemma differ_never full e e' : e ∈ full → e' ∈ full → length (ops_of [] e) ≠ length (ops_of [] e') → never_finishes full.
Proof.
  intros (i & Hi)%elem_of_list_lookup (j & Hj)%elem_of_list_lookup Hne cur Hr Hfin.
  apply reach_root in Hr as (Hl & n & Hn).
  destruct (lookup_lt_is_Some_2 cur i) as [c Hc]; [rewrite Hl; by eapply lookup_lt_Some|].
  destruct (lookup_lt_is_Some_2 cur j) as [c' Hc']; [rewrite Hl; by eapply lookup_lt_Some|].
  pose proof (Hn i e c Hi Hc) as H1. pose proof (Hn j e' c' Hj Hc') as H2.
  rewrite (Hfin c) in H1 by (by eapply elem_of_list_lookup_2). rewrite (Hfin c') in H2 by (by eapply elem_of_list_lookup_2).
  apply Hne. rewrite !ops_of_root, !fmap_length. cbn in *. congruence.
Qed.

(** every execution that goes on as long as it can is finite *)
Definition left_over (cur : list (list ev)) : nat := sum_list (length <$> cur).
Lemma sum_list_le (l l' : list nat) : length l = length l' → (∀ i x y, l !! i = Some x → l' !! i = Some y → (x ≤ y)%nat) → (sum_list l ≤ sum_list l')%nat.
Proof.
  revert l'. induction l as [|a l IH]; intros [|b l'] Hl H; try done. cbn.
  assert (sum_list l ≤ sum_list l')%nat by (apply IH; [cbn in Hl; lia|intros i x y Hx Hy; by apply (H (Datatypes.S i))]).
  pose proof (H 0%nat a b eq_refl eq_refl). lia.
Qed.
Lemma sum_list_lt (l l' : list nat) : length l = length l' → (∀ i x y, l !! i = Some x → l' !! i = Some y → (x ≤ y)%nat) →
  (∃ i x y, l !! i = Some x ∧ l' !! i = Some y ∧ (x < y)%nat) → (sum_list l < sum_list l')%nat.
Proof.
  revert l'. induction l as [|a l IH]; intros [|b l'] Hl H (i & x & y & Hx & Hy & Hlt); try done. cbn.
  pose proof (H 0%nat a b eq_refl eq_refl) as H0.
  assert (∀ i x y, l !! i = Some x → l' !! i = Some y → (x ≤ y)%nat) as H' by (intros i' x' y' Hx' Hy'; by apply (H (Datatypes.S i'))).
  destruct i as [|i]; cbn in Hx, Hy.
  - simplify_eq. pose proof (sum_list_le l l' ltac:(cbn in Hl; lia) H'). lia.
  - assert (sum_list l < sum_list l')%nat by (apply IH; [cbn in Hl; lia|done|eauto 10]). lia.
Qed.
Lemma step_left full cur cur' : step full cur cur' → (left_over cur' < left_over cur)%nat.
Proof.
  intros (Hl & Hl' & G & o & (e & He & HG) & Hm). unfold left_over. apply sum_list_lt.
  - rewrite !fmap_length. lia.
  - intros i x y. rewrite !list_lookup_fmap. intros (c' & Hc' & ->)%fmap_Some (c & Hc & ->)%fmap_Some.
    destruct (lookup_lt_is_Some_2 full i) as [e' He']; [rewrite <- Hl; by eapply lookup_lt_Some|].
    specialize (Hm i e' c c' He' Hc Hc'). unfold moves in Hm. destruct (decide _); [|by subst].
    destruct Hm as (z & -> & _). cbn. lia.
  - apply elem_of_list_lookup in He as [i Hi]. pose proof (lookup_lt_Some _ _ _ Hi) as Hlt.
    destruct (lookup_lt_is_Some_2 cur i) as [c Hc]; [by rewrite Hl|].
    destruct (lookup_lt_is_Some_2 cur' i) as [c' Hc']; [by rewrite Hl'|].
    exists i, (length c'), (length c). rewrite !list_lookup_fmap, Hc, Hc'. split; [done|]. split; [done|].
    specialize (Hm i e c c' Hi Hc Hc'). unfold moves in Hm. rewrite decide_True in Hm by done. destruct Hm as (z & -> & _). cbn. lia.
Qed.

Lemma deadlock_free_finishes full : deadlock_free full → ∃ cur, rtc (step full) full cur ∧ finished cur.
Proof.
  intros Hd. assert (∀ n cur, rtc (step full) full cur → (left_over cur < n)%nat → ∃ cur', rtc (step full) full cur' ∧ finished cur') as H.
  { induction n as [|n IH]; intros cur Hr Hn; [lia|]. destruct (Hd cur Hr) as [Hf|[cur' Hs]]; [by exists cur|].
    apply (IH cur'); [by eapply rtc_r|]. apply step_left in Hs. lia. }
  apply (H (Datatypes.S (left_over full)) full); [done|lia].
Qed.
