(** Proofs about gain_buckets: contents, bracket of the non-empty indices, next. *)
From Verif Require Export Gain HgMoves.

(** split the first decision of the goal (never of a hypothesis) *)
Tactic Notation "gdec" "as" ident(H) :=
  match goal with |- context [decide ?P] => destruct (decide P) as [H|H] end.
Tactic Notation "gdec" := let H := fresh in gdec as H.

(** [b] holds exactly the pairs (id, gain) of [T]; [S] is the largest gain. *)
Record gb_rep (S : Z) (b : gbuckets) (T : Z → Z → Prop) : Prop := {
  gr_S : 0 ≤ S;
  gr_len : Z.of_nat (length (gb_b b)) = 2 * S + 1;
  gr_range : ∀ id g, T id g → -S ≤ g ≤ S;
  gr_cont : ∀ j s id, zlookup (gb_b b) j = Some s → id ∈ s ↔ T id (j - S);
  gr_min : ∀ id g, T id g → gb_min b ≤ g;
  gr_min_range : -S ≤ gb_min b ≤ S;
}.
Record gb_ok (S : Z) (b : gbuckets) (T : Z → Z → Prop) : Prop := {
  gk_rep : gb_rep S b T;
  gk_max : ∀ id g, T id g → S + g ≤ gb_max b;
  gk_max_range : -1 ≤ gb_max b < 2 * S + 1;
}.

Lemma gb_rep_half S b T : gb_rep S b T → bhalf b = S.
Proof. intros R. unfold bhalf. rewrite (gr_len _ _ _ R). pose proof (gr_S _ _ _ R). Z.div_mod_to_equations. lia. Qed.
Lemma gb_rep_g2i S b T g : gb_rep S b T → gain_to_index b g = S + g.
Proof. intros R. unfold gain_to_index. by rewrite (gb_rep_half _ _ _ R). Qed.
Lemma gb_rep_i2g S b T g : gb_rep S b T → index_to_gain b g = g - S.
Proof. intros R. unfold index_to_gain. by rewrite (gb_rep_half _ _ _ R). Qed.

Lemma gb_rep_ext S b T T' : (∀ id g, T id g ↔ T' id g) → gb_rep S b T → gb_rep S b T'.
Proof.
  intros HT [? ? ? Hc ? ?]. split; try done; intros.
  - naive_solver.
  - rewrite Hc by done. apply HT.
  - naive_solver.
Qed.
Lemma gb_ok_ext S b T T' : (∀ id g, T id g ↔ T' id g) → gb_ok S b T → gb_ok S b T'.
Proof.
  intros HT [R Hm ?]. split; [by eapply gb_rep_ext|naive_solver|done].
Qed.

Lemma gb_rep_lookup S b T g : gb_rep S b T → -S ≤ g ≤ S →
  ∃ s, zlookup (gb_b b) (S + g) = Some s ∧ ∀ id, id ∈ s ↔ T id g.
Proof.
  intros R Hg. destruct (zlookup_is_Some (gb_b b) (S + g)) as [s Hs].
  { rewrite (gr_len _ _ _ R). lia. }
  exists s. split; [done|]. intros id. rewrite (gr_cont _ _ _ R _ _ _ Hs). by replace (S + g - S) with g by lia.
Qed.

(** state right after construction *)
Lemma gb_new_rep S : 0 ≤ S → gb_rep S (gb_new (2 * S + 1)) (λ _ _, False).
Proof.
  intros HS. split; simpl; try done.
  - rewrite replicate_length. lia.
  - intros j s id [Hj Hs]%zlookup_Some. apply lookup_replicate in Hs as [-> _]. set_solver.
  - rewrite Z2Nat.id by lia. Z.div_mod_to_equations. lia.
Qed.
Lemma gb_new_max S : gb_max (gb_new (2 * S + 1)) = 2 * S + 1.
Proof. done. Qed.

Definition T_add (T : Z → Z → Prop) (id g : Z) : Z → Z → Prop := λ id' g', T id' g' ∨ id' = id ∧ g' = g.
Definition T_del (T : Z → Z → Prop) (id g : Z) : Z → Z → Prop := λ id' g', T id' g' ∧ ¬ (id' = id ∧ g' = g).

Lemma wpe_gb_insert_gen E S b T id g (Q : gbuckets → Prop) :
  gb_rep S b T → -S ≤ g ≤ S →
  (∀ b', gb_rep S b' (T_add T id g) →
     gb_max b' = (if decide (default [] (zlookup (gb_b b) (S + g)) = []) then Z.max (gb_max b) (S + g) else gb_max b) → Q b') →
  wpe E (gb_insert b id g) Q.
Proof.
  intros R Hg HQ. unfold gb_insert. rewrite (gb_rep_g2i _ _ _ _ R).
  destruct (gb_rep_lookup _ _ _ g R Hg) as (s & Hs & Hin).
  apply wpe_bind. eapply wpe_idx; [done|].
  assert (∀ s' : list Z, (∀ x, x ∈ s' ↔ x ∈ s ∨ x = id) →
    let e := bool_decide (s = []) in
    let mn := if e && bool_decide (g < gb_min b) then g else gb_min b in
    let mx := if e && bool_decide (S + g > gb_max b) then S + g else gb_max b in
    Q (GB (zinsert (S + g) s' (gb_b b)) mx mn)) as Hfin.
  { intros s' Hs' e mn mx. apply HQ; simpl.
    - pose proof (zlookup_Some_lt _ _ _ Hs) as Hlt.
      assert (∀ id' g', T_add T id g id' g' → mn ≤ g') as Hmn.
      { unfold mn, e. intros id' g' [HT|[-> ->]].
        - pose proof (gr_min _ _ _ R _ _ HT). destruct (bool_decide (s = []) && bool_decide (g < gb_min b)) eqn:Hb; [|lia].
          apply andb_true_iff in Hb as [_ ?%bool_decide_eq_true]. lia.
        - destruct (decide (s = [])) as [Hsn|Hsn].
          + rewrite bool_decide_eq_true_2 by done. simpl. case_bool_decide; lia.
          + rewrite bool_decide_eq_false_2 by done. simpl. destruct s as [|x s]; [done|].
            apply (gr_min _ _ _ R x). apply Hin. set_solver. }
      split; simpl.
      + apply R.
      + rewrite zinsert_length. apply R.
      + intros id' g' [HT|[-> ->]]; [by apply (gr_range _ _ _ R) in HT|done].
      + intros j s1 id'. rewrite zlookup_zinsert by done. gdec as Hj.
        * intros [= <-]. rewrite Hs', Hin. unfold T_add. subst j. replace (S + g - S) with g by lia. naive_solver.
        * intros Hj'. rewrite (gr_cont _ _ _ R _ _ _ Hj'). unfold T_add. split; [by left|]. intros [?|[-> Hg']]; [done|lia].
      + done.
      + pose proof (gr_min_range _ _ _ R). unfold mn. destruct (_ && _); lia.
    - rewrite Hs. simpl. unfold mx, e. destruct (decide (s = [])) as [->|Hsn].
      + rewrite bool_decide_eq_true_2 by done. simpl. case_bool_decide; lia.
      + by rewrite bool_decide_eq_false_2. }
  apply wpe_bind. gdec as Hid.
  - apply wpe_ret, wpe_ret, Hfin. intros x. split; [by left|]. intros [?| ->]; done.
  - apply wpe_shuffle. intros s' Hs'. apply wpe_ret, Hfin. intros x. rewrite Hs'. set_solver.
Qed.

Lemma wpe_gb_insert E S b T id g (Q : gbuckets → Prop) :
  gb_ok S b T → -S ≤ g ≤ S →
  (∀ b', gb_ok S b' (T_add T id g) → Q b') →
  wpe E (gb_insert b id g) Q.
Proof.
  intros [R Hmax Hmr] Hg HQ. apply (wpe_gb_insert_gen _ _ _ _ _ _ _ R Hg). intros b' R' Hm. apply HQ.
  split; [done| |].
  - destruct (gb_rep_lookup _ _ _ g R Hg) as (s & Hs & Hin). rewrite Hs in Hm. simpl in Hm.
    intros id' g' [HT|[-> ->]].
    + apply Hmax in HT. rewrite Hm. gdec; lia.
    + rewrite Hm. gdec as Hsn; [lia|]. destruct s as [|x s]; [done|].
      apply (Hmax x). apply Hin. set_solver.
  - rewrite Hm. gdec; lia.
Qed.

(** during initialisation: max_index_present = size stays *)
Lemma wpe_gb_insert_init E S b T id g (Q : gbuckets → Prop) :
  gb_rep S b T → gb_max b = 2 * S + 1 → -S ≤ g ≤ S →
  (∀ b', gb_rep S b' (T_add T id g) → gb_max b' = 2 * S + 1 → Q b') →
  wpe E (gb_insert b id g) Q.
Proof.
  intros R Hm Hg HQ. apply (wpe_gb_insert_gen _ _ _ _ _ _ _ R Hg). intros b' R' Hm'. apply HQ; [done|].
  rewrite Hm'. gdec; lia.
Qed.

Lemma wpe_gb_remove E S b T id g (Q : bool * gbuckets → Prop) :
  gb_ok S b T → -S ≤ g ≤ S →
  (∀ f b', gb_ok S b' (T_del T id g) → (f = true ↔ T id g) → Q (f, b')) →
  wpe E (gb_remove b id g) Q.
Proof.
  intros [R Hmax Hmr] Hg HQ. unfold gb_remove. rewrite (gb_rep_g2i _ _ _ _ R).
  destruct (gb_rep_lookup _ _ _ g R Hg) as (s & Hs & Hin).
  apply wpe_bind. eapply wpe_idx; [done|]. apply wpe_ret, HQ.
  - pose proof (zlookup_Some_lt _ _ _ Hs) as Hlt. split; simpl.
    + split; simpl; try apply R.
      * rewrite zinsert_length. apply R.
      * intros id' g' [HT _]. by apply (gr_range _ _ _ R) in HT.
      * intros j s1 id'. rewrite zlookup_zinsert by done. gdec as Hj.
        -- intros [= <-]. rewrite elem_of_list_filter, Hin. unfold T_del. subst j.
           replace (S + g - S) with g by lia. naive_solver.
        -- intros Hj'. rewrite (gr_cont _ _ _ R _ _ _ Hj'). unfold T_del. split; [|naive_solver].
           intros HT. split; [done|]. intros [_ Hg']. lia.
      * intros id' g' [HT _]. by apply (gr_min _ _ _ R) in HT.
    + intros id' g' [HT _]. by apply Hmax in HT.
    + done.
  - rewrite bool_decide_eq_true. apply Hin.
Qed.

(** the scan: the highest non-empty index *)
Lemma wpe_find_next_index E S b T (Q : Z * gbuckets → Prop) :
  gb_ok S b T →
  (∀ b', gb_ok S b' T → (∀ id g, ¬ T id g) → Q (-1, b')) →
  (∀ i b' s x, gb_ok S b' T → 0 ≤ i → zlookup (gb_b b') i = Some (x :: s) →
     T x (i - S) → (∀ id g, T id g → g ≤ i - S) → Q (i, b')) →
  wpe E (find_next_index b) Q.
Proof.
  intros HK HQ1 HQ2. pose proof HK as [R Hmax Hmr]. unfold find_next_index.
  pose proof (gr_S _ _ _ R) as HS.
  gdec as Hm1.
  { apply wpe_ret, HQ1; [done|]. intros id g HT. pose proof (Hmax _ _ HT). pose proof (gr_range _ _ _ R _ _ HT). lia. }
  rewrite (gb_rep_g2i _ _ _ _ R). set (mi := S + gb_min b).
  pose proof (gr_min_range _ _ _ R) as Hmn.
  apply wpe_bind.
  eapply wpe_mono; [eapply (wpe_loopM E _ (λ i, -1 ≤ i ≤ gb_max b ∧ ∀ id g, T id g → S + g ≤ i) (λ i, Z.to_nat (i + 1))
    (λ i, -1 ≤ i ≤ gb_max b ∧ (∀ id g, T id g → S + g ≤ i) ∧
       (i >= mi → ∃ x s, zlookup (gb_b b) i = Some (x :: s))))|].
  2:{ split; [lia|done]. }
  2:{ lia. }
  - intros i [Hi Hb]. gdec as Him; [|apply wpe_ret; split_and!; [lia..|done|done]].
    destruct (zlookup_is_Some (gb_b b) i) as [s Hs]; [rewrite (gr_len _ _ _ R); lia|].
    apply wpe_bind. eapply wpe_idx; [done|]. gdec as Hsn.
    + apply wpe_ret. split; [|lia]. split; [lia|]. intros id g HT. pose proof (Hb _ _ HT).
      destruct (decide (S + g = i)) as [Heq|]; [|lia]. exfalso.
      assert (id ∈ s); [|set_solver]. rewrite (gr_cont _ _ _ R _ _ _ Hs). by replace (i - S) with g by lia.
    + apply wpe_ret. split; [lia|]. split; [done|]. intros _. destruct s as [|x s]; [done|]. eauto.
  - intros i (Hi & Hb & Hne). apply wpe_ret.
    assert (gb_ok S (GB (gb_b b) i (gb_min b)) T) as HK'.
    { split; simpl; [|done|lia]. destruct R. split; done. }
    gdec as Him.
    + destruct (Hne Him) as (x & s & Hx). eapply HQ2; [done|lia|done| |].
      * rewrite <-(gr_cont _ _ _ R _ _ _ Hx). set_solver.
      * intros id g HT. pose proof (Hb _ _ HT). lia.
    + apply HQ1; [done|]. intros id g HT. pose proof (Hb _ _ HT). pose proof (gr_min _ _ _ R _ _ HT). lia.
Qed.

Lemma wpe_gb_next E S b T (Q : Z * gbuckets → Prop) :
  gb_ok S b T →
  (∀ b', gb_ok S b' T → (∀ id g, ¬ T id g) → Q (-1, b')) →
  (∀ x g b', gb_ok S b' T → T x g → (∀ id g', T id g' → g' ≤ g) → Q (x, b')) →
  wpe E (gb_next b) Q.
Proof.
  intros HK HQ1 HQ2. apply wpe_bind. eapply wpe_find_next_index; [done|..].
  - intros b' HK' He. simpl. by apply wpe_ret, HQ1.
  - intros i b' s x HK' Hi Hs HT Hm. simpl. rewrite decide_True by lia.
    apply wpe_bind. eapply wpe_idx; [done|]. simpl. apply wpe_ret. by eapply HQ2.
Qed.

Lemma wpe_gb_gain_next E S b T (Q : Z * gbuckets → Prop) :
  gb_ok S b T →
  (∀ b', gb_ok S b' T → (∀ id g, ¬ T id g) → Q (long_min, b')) →
  (∀ x g b', gb_ok S b' T → T x g → (∀ id g', T id g' → g' ≤ g) → Q (g, b')) →
  wpe E (gb_gain_next b) Q.
Proof.
  intros HK HQ1 HQ2. apply wpe_bind. eapply wpe_find_next_index; [done|..].
  - intros b' HK' He. simpl. by apply wpe_ret, HQ1.
  - intros i b' s x HK' Hi Hs HT Hm. simpl. rewrite decide_True by lia.
    apply wpe_ret. simpl. rewrite (gb_rep_i2g _ _ _ _ (gk_rep _ _ _ HK')). by eapply HQ2.
Qed.
