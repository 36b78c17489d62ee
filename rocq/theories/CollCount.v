From Verif Require Export CollProof.
From Verif Require Import ListLemmas.

(** ** What a processor does in the initial world *)
Definition root (e : list ev) : list ev := filter (λ x : ev, fst x = []) e.
Lemma root_app e e' : root (e ++ e') = root e ++ root e'.
Proof. apply filter_app. Qed.
Lemma root_none e : (∀ x, x ∈ e → fst x ≠ []) → root e = [].
Proof.
  intros H. induction e as [|x e IH]; [done|]. unfold root. rewrite filter_cons_False by (apply H, elem_of_list_here).
  apply IH. intros y Hy. by apply H, elem_of_list_further.
Qed.
Definition qs (n : nat) : list ev := concat (replicate n [([], OQueue); ([], OSync)]).
Lemma qs_add n n' : qs (n + n') = qs n ++ qs n'.
Proof. unfold qs. by rewrite replicate_add, concat_app. Qed.
(** the number of bisections *)
Definition nb (e : list ev) : nat := length (filter (λ x : ev, snd x = OBisect) e).
Lemma nb_app e e' : nb (e ++ e') = (nb e + nb e')%nat.
Proof. unfold nb. by rewrite filter_app, app_length. Qed.
Definition tot (jobs : list (Z * Z)) : Z := zsum ((λ j : Z * Z, snd j - fst j) <$> jobs).

Lemma root_remove G p : G ≠ [] → root (remove_ops G p) = qs 1.
Proof.
  intros HG. unfold remove_ops, root. rewrite !filter_app. destruct (decide (p = 1)); [done|].
  rewrite (filter_cons_False _ (G, OQueue)) by done. rewrite (filter_cons_False _ (G, OSync)) by done. done.
Qed.
Lemma nb_remove G p : nb (remove_ops G p) = 0%nat.
Proof. unfold remove_ops. by destruct (decide (p = 1)). Qed.

Section count.
  Context (W : wid → Z * Z) (m : metric) (k : Z).
  Local Notation cut n := (if decide (m = CutNet) then n else 0%nat).

  Lemma root_cut G p : G ≠ [] → root (if decide (m = CutNet) then remove_ops G p else []) = qs (cut 1%nat).
  Proof. intros HG. destruct (decide _); [by apply root_remove|done]. Qed.

  Lemma k_low_high low high : high - low > 0 →
    1 ≤ k_low_of low high ∧ k_low_of low high ≤ k_high_of low high ∧ k_low_of low high + k_high_of low high = high - low + 1 ∧
    k_high_of low high ≤ k_low_of low high + 1.
  Proof. intros H. unfold k_high_of, k_low_of. pose proof (Z.div_mod (high - low + 1) 2 ltac:(done)). pose proof (Z.mod_pos_bound (high - low + 1) 2 ltac:(done)). lia. Qed.

  Lemma seq_job_count f G : ∀ low high jobs sp e jobs' sp', G ≠ [] → low ≤ high → (∀ j, j ∈ jobs → snd j - fst j > 0) →
    seq_job m f G low high jobs sp = Some (e, (jobs', sp')) →
    (∀ j, j ∈ jobs' → snd j - fst j > 0) ∧
    sp' = sp + Z.of_nat (nb e) ∧ sp' + tot jobs' = sp + tot jobs + (high - low) ∧
    (jobs ≠ [] → jobs' ≠ []) ∧
    root e = qs (cut (if decide (jobs' = []) then Nat.pred (nb e) else nb e)) ∧
    (high - low > 0 → nb e ≠ 0%nat).
  Proof.
    induction f as [|f IH]; intros low high jobs sp e jobs' sp' HG Hlh Hj; cbn [seq_job]; destruct (decide (high - low > 0)) as [Hd|Hd]; try done.
    1, 3: intros [= <- <- <-]; assert (high = low) as -> by lia; split; [done|]; split; [cbn; lia|]; split; [lia|];
      split; [done|]; split; [by destruct (decide (jobs = [])), (decide (m = CutNet))|lia].
    pose proof (k_low_high low high Hd) as (K1 & K2 & K3 & K4).
    set (jobs1 := if decide (snd (labels_1 low high) - fst (labels_1 low high) > 0) then _ else _).
    assert (∀ j, j ∈ jobs1 → snd j - fst j > 0) as Hj1.
    { subst jobs1. destruct (decide (_ > 0)) as [H1|H1]; [|exact Hj]. by intros j [->|Hin]%elem_of_cons; [|apply Hj]. }
    assert (tot jobs1 = tot jobs + (k_high_of low high - 1)) as Ht1.
    { subst jobs1. unfold labels_1 in *. cbn [fst snd] in *. destruct (decide (_ > 0)) as [H1|H1].
      - unfold tot. rewrite fmap_cons. cbn [fst snd]. rewrite zsum_cons. lia.
      - assert (k_high_of low high = 1) by lia. lia. }
    assert (jobs1 = [] → jobs = [] ∧ k_high_of low high = 1) as He1.
    { subst jobs1. unfold labels_1. cbn [fst snd]. destruct (decide (_ > 0)) as [H1|H1]; [done|]. intros ->. split; [done|lia]. }
    assert (jobs ≠ [] → jobs1 ≠ []) as Hne1 by (subst jobs1; destruct (decide (_ > 0)); [done|done]).
    clearbody jobs1.
    destruct (seq_job _ _ _ _ _ _ _) as [[e1 [jobs2 sp2]]|] eqn:Hr; cbn [mbind option_bind]; [|done].
    cbn [fst snd]. intros [= <- <- <-]. unfold labels_0 in Hr. cbn [fst snd] in Hr.
    apply IH in Hr as (R1 & R2 & R3 & R4 & R5 & R6); [|done|lia|done].
    assert (nb ([(G, OBisect)] ++ (if decide (m = CutNet ∧ jobs1 ≠ []) then remove_ops G 1 else []) ++ e1) = Datatypes.S (nb e1)) as Hnb.
    { rewrite !nb_app. destruct (decide (m = CutNet ∧ _)); [rewrite nb_remove|]; done. }
    change ((G, OBisect) :: ?l) with ([(G, OBisect)] ++ l). rewrite Hnb.
    split; [done|]. split; [lia|]. split; [lia|]. split; [by auto|]. split; [|done].
    rewrite !root_app. rewrite (root_none [(G, OBisect)]) by (intros x ->%elem_of_list_singleton; done).
    rewrite R5. cbn [app Nat.pred].
    destruct (decide (m = CutNet)) as [Hm|Hm]; [|by destruct (decide (m = CutNet ∧ _)) as [[]|]].
    destruct (decide (jobs1 = [])) as [Hz|Hz].
    - destruct (decide (m = CutNet ∧ _)) as [[_ ?]|_]; [done|]. destruct (He1 Hz) as [_ Hkh].
      assert (nb e1 = 0%nat ∧ jobs2 = []) as [Hn ->].
      { assert (tot jobs1 = 0) as T1 by (by rewrite Hz).
        assert (0 ≤ tot jobs2) as T2.
        { unfold tot. apply zsum_nonneg. intros x (j & -> & Hx)%elem_of_list_fmap. specialize (R1 j Hx). lia. }
        split; [lia|]. destruct jobs2 as [|j jobs2]; [done|exfalso].
        assert (0 ≤ tot jobs2) as T3.
        { unfold tot. apply zsum_nonneg. intros x (j' & -> & Hx)%elem_of_list_fmap.
          specialize (R1 j' (elem_of_list_further _ _ _ Hx)). lia. }
        specialize (R1 j (elem_of_list_here _ _)). unfold tot in *. rewrite fmap_cons, zsum_cons in R3. cbn [fst snd] in R3. lia. }
      rewrite Hn. done.
    - destruct (decide (m = CutNet ∧ jobs1 ≠ [])) as [_|Hno]; [|by exfalso; apply Hno].
      rewrite root_remove by done. destruct (decide (jobs2 = [])) as [H2|H2]; [by exfalso; apply R4|].
      by rewrite <- qs_add.
  Qed.

  Lemma seq_loop_count f G : ∀ jobs sp e sp', G ≠ [] → (∀ j, j ∈ jobs → snd j - fst j > 0) →
    seq_loop m f G jobs sp = Some (e, sp') →
    sp' = sp + Z.of_nat (nb e) ∧ sp' = sp + tot jobs ∧ root e = qs (cut (Nat.pred (nb e))).
  Proof.
    induction f as [|f IH]; intros [|j jobs] sp e sp' HG Hj; cbn [seq_loop]; try done.
    1, 2: intros [= <- <-]; split; [cbn; lia|]; split; [cbn; lia|]; by destruct (decide _).
    destruct (seq_job _ _ _ _ _ _ _) as [[e1 [jobs1 sp1]]|] eqn:H1; cbn [mbind option_bind fst snd]; [|done].
    destruct (seq_loop _ _ _ _ _) as [[e2 r2]|] eqn:H2; cbn [mbind option_bind fst snd]; [|done].
    intros [= <- <-]. pose proof (Hj j (elem_of_list_here _ _)) as Hjj.
    apply seq_job_count in H1 as (R1 & R2 & R3 & R4 & R5 & R6);
      [|done|lia|intros j' Hj'; by apply Hj, elem_of_list_further].
    apply IH in H2 as (S1 & S2 & S3); [|done|done].
    rewrite nb_app, root_app, R5, S3.
    split; [lia|]. split; [unfold tot in *; rewrite fmap_cons, zsum_cons; lia|].
    destruct (decide (m = CutNet)) as [Hm|Hm]; [|done]. rewrite <- qs_add. f_equal.
    specialize (R6 Hjj). destruct (decide (jobs1 = [])) as [->|Hz].
    - assert (nb e2 = 0)%nat by (cbn in S2; lia). lia.
    - assert (nb e2 ≠ 0)%nat; [|lia]. destruct jobs1 as [|j1 jobs1]; [done|].
      assert (0 ≤ tot jobs1) as T3.
      { unfold tot. apply zsum_nonneg. intros x (j' & -> & Hx)%elem_of_list_fmap.
        specialize (R1 j' (elem_of_list_further _ _ _ Hx)). lia. }
      specialize (R1 j1 (elem_of_list_here _ _)). unfold tot in *. rewrite fmap_cons, zsum_cons in S2. lia.
  Qed.
End count.

Section agree.
  Context (W : wid → Z * Z) (m : metric) (k : Z).
  Local Notation cut n := (if decide (m = CutNet) then n else 0%nat).

  Definition ranked (st : cstate) : Prop := 0 ≤ cs_s st < cs_p st.
  Definition stocked (st : cstate) : Prop := cs_jobs st = if decide (cs_p st = 1) then [(cs_low st, cs_high st)] else [].

  Lemma par_round_full st e st' : par_round W m st = Some (e, st') → ranked st → cs_high st - cs_low st > 0 →
    cs_splits st' = cs_splits st + 1 ∧ ranked st' ∧ cs_high st' - cs_low st' < cs_high st - cs_low st ∧
    ((e = head_ops (cs_G st) ++ [(cs_G st, OSync)] ∧ cs_G st' = cs_G st ∧ cs_high st' - cs_low st' ≤ 0 ∧
      cs_jobs st' = cs_jobs st ∧ cs_p st' = cs_p st) ∨
     ∃ c, e = move_ops m (cs_G st) (cs_p st) ++ [(cs_G st, OSplit c); (cs_G st ++ [c], OSync)] ∧ cs_G st' = cs_G st ++ [c] ∧
      cs_high st' - cs_low st' > 0 ∧
      cs_jobs st' = if decide (cs_p st' = 1) then [(cs_low st', cs_high st')] else cs_jobs st).
  Proof.
    intros Hr Hrk Hlen. pose proof (k_low_high _ _ Hlen) as (K1 & K2 & K3 & K4). revert Hr.
    unfold par_round. destruct (p_low_of _ _ _ _ _) as [q|]; cbn -[app decide]; [|done].
    unfold ranked in *.
    destruct (decide (cs_s st < q)) as [Hq|Hq]; (destruct (decide (_ > 0)) as [Hd|Hd]; intros [= <- <-]); cbn [cs_splits cs_G cs_p cs_s cs_low cs_high cs_jobs] in *.
    - destruct (decide (0 = 0)); [|done]. split; [done|]. split; [lia|]. split; [lia|].
      right. exists 0. unfold move_ops. cbn -[remove_ops redistribute_ops]. by rewrite <- !app_assoc.
    - split; [done|]. split; [lia|]. split; [lia|]. left. split; [done|]. split; [done|]. split; [lia|done].
    - destruct (decide (1 = 0)); [done|]. split; [done|]. split; [lia|]. split; [lia|].
      right. exists 1. unfold move_ops. cbn -[remove_ops redistribute_ops]. by rewrite <- !app_assoc.
    - split; [done|]. split; [lia|]. split; [lia|]. left. split; [done|]. split; [done|]. split; [lia|done].
  Qed.

  Lemma nb_stay (G : wid) : nb (head_ops G ++ [(G, OSync)]) = 1%nat.
  Proof. done. Qed.
  Lemma nb_move (G G' : wid) p c : nb (move_ops m G p ++ [(G, OSplit c); (G', OSync)]) = 1%nat.
  Proof. rewrite nb_app. unfold move_ops. rewrite !nb_app. destruct (decide _); [rewrite nb_remove|]; done. Qed.
  Lemma root_stay (G : wid) : G ≠ [] → root (head_ops G ++ [(G, OSync)]) = [].
  Proof.
    intros HG. apply root_none. intros x [Hx|Hx]%elem_of_app; [apply head_ops_on in Hx; by rewrite Hx|].
    by apply elem_of_list_singleton in Hx as ->.
  Qed.
  Lemma root_move (G : wid) p c : G ≠ [] → root (move_ops m G p ++ [(G, OSplit c); (G ++ [c], OSync)]) = qs (cut 1%nat).
  Proof.
    intros HG. unfold move_ops. rewrite !root_app. rewrite (root_none (head_ops G)) by (intros x Hx; by rewrite (head_ops_on G x Hx)).
    rewrite (root_none (redistribute_ops G)), (root_none [(G, OSplit c); _]).
    - rewrite !app_nil_r. cbn [app]. by apply root_cut.
    - intros x. rewrite !elem_of_cons, elem_of_nil. intros [->|[->|[]]]; cbn; [done|]. by destruct G.
    - intros x Hx. unfold redistribute_ops in Hx. rewrite !elem_of_cons, elem_of_nil in Hx.
      repeat (destruct Hx as [->|Hx]; [done|]); done.
  Qed.

  Lemma par_loop_count f : ∀ st e st', cs_G st ≠ [] → ranked st → stocked st → cs_high st - cs_low st > 0 →
    par_loop W m f st = Some (e, st') →
    cs_splits st' = cs_splits st + Z.of_nat (nb e) ∧ ranked st' ∧
    ((cs_p st' = 1 ∧ cs_jobs st' = [(cs_low st', cs_high st')] ∧ cs_high st' - cs_low st' > 0 ∧ root e = qs (cut (nb e))) ∨
     (cs_p st' ≠ 1 ∧ cs_jobs st' = [] ∧ nb e ≠ 0%nat ∧ root e = qs (cut (Nat.pred (nb e))))).
  Proof.
    induction f as [|f IH]; intros st e st' HG Hrk Hst Hlen; cbn [par_loop]; destruct (decide (_ ∧ _)) as [Hd|Hd]; try done.
    1, 3: intros [= <- <-]; assert (cs_p st = 1) as Hp by (unfold ranked in Hrk; lia); split; [cbn; lia|]; split; [done|]; left;
      split; [done|]; split; [unfold stocked in Hst; by rewrite decide_True in Hst|]; split; [done|]; by destruct (decide (m = CutNet)).
    destruct (par_round W m st) as [[e1 st1]|] eqn:Hr; cbn [mbind option_bind fst snd]; [|done].
    destruct (par_loop W m f st1) as [[e2 st2]|] eqn:Hl; cbn [mbind option_bind fst snd]; [|done].
    intros [= <- <-]. destruct (par_round_full _ _ _ Hr Hrk Hlen) as (R1 & R2 & _ & R3).
    assert (cs_jobs st = []) as Hj. { unfold stocked in Hst. rewrite decide_False in Hst; [done|lia]. }
    destruct R3 as [(-> & R4 & R5 & R6 & R7)|(c & -> & R4 & R5 & R6)].
    - (* the loop ends *)
      assert (e2 = [] ∧ st2 = st1) as [-> ->].
      { destruct f; cbn [par_loop] in Hl; (destruct (decide (_ ∧ _)) as [[]|] in Hl; [lia|]); by injection Hl as <- <-. }
      rewrite app_nil_r, nb_stay, root_stay by done. split; [lia|]. split; [done|]. right.
      split; [lia|]. split; [congruence|]. split; [done|]. by destruct (decide (m = CutNet)).
    - rewrite Hj in R6. apply IH in Hl as (S1 & S2 & S3); [|rewrite R4; by destruct (cs_G st)|done|done|done].
      rewrite nb_app, root_app, nb_move, root_move by done. split; [lia|]. split; [done|].
      destruct S3 as [(T1 & T2 & T3 & T4)|(T1 & T2 & T3 & T4)].
      + left. do 3 (split; [done|]). rewrite T4. destruct (decide (m = CutNet)); [|done]. by rewrite <- qs_add.
      + right. split; [done|]. split; [done|]. split; [lia|]. rewrite T4. destruct (decide (m = CutNet)); [|done].
        rewrite <- qs_add. f_equal. lia.
  Qed.

  (** ** Two processors *)
  Definition together (a b : cstate) : Prop :=
    cs_G a = cs_G b ∧ cs_p a = cs_p b ∧ cs_jobs a = cs_jobs b ∧ cs_splits a = cs_splits b ∧
    ((cs_low a = cs_low b ∧ cs_high a = cs_high b) ∨ (cs_high a - cs_low a ≤ 0 ∧ cs_high b - cs_low b ≤ 0)).

  Lemma par_round_two a b ea eb a' b' : together a b → ranked a → ranked b → cs_high a - cs_low a > 0 →
    par_round W m a = Some (ea, a') → par_round W m b = Some (eb, b') →
    (ea = eb ∧ together a' b') ∨
    ∃ c d, c ≠ d ∧ ea = move_ops m (cs_G a) (cs_p a) ++ [(cs_G a, OSplit c); (cs_G a ++ [c], OSync)] ∧
      eb = move_ops m (cs_G a) (cs_p a) ++ [(cs_G a, OSplit d); (cs_G a ++ [d], OSync)] ∧
      cs_G a' = cs_G a ++ [c] ∧ cs_G b' = cs_G a ++ [d].
  Proof.
    destruct a as [G p sa low high jobs sp], b as [G' p' sb low' high' jobs' sp']. unfold together, ranked.
    cbn [cs_G cs_p cs_s cs_low cs_high cs_jobs cs_splits]. intros (<- & <- & <- & <- & [[<- <-]|[Hx _]]) Ha Hb Hlen; [|lia].
    pose proof (k_low_high _ _ Hlen) as (K1 & K2 & K3 & K4).
    unfold par_round. cbn [cs_G cs_p cs_s cs_low cs_high cs_jobs cs_splits].
    destruct (p_low_of _ _ _ _ _) as [q|] eqn:Hq; cbn -[app decide]; [|done].
    assert (0 < q → k_low_of low high ≠ 1 ∨ k_high_of low high = 1) as Hx.
    { intros H1. unfold p_low_of in Hq. destruct (d_trunc _); [|done]. cbn in Hq. injection Hq as Hq.
      destruct (decide (_ ∧ _)) as [|Hn] in Hq; lia. }
    destruct (decide (sa < q)) as [Hsa|Hsa], (decide (sb < q)) as [Hsb|Hsb].
    - destruct (decide (_ > 0)) as [Hd|Hd]; intros [= <- <-] [= <- <-]; left; cbn [cs_G cs_p cs_s cs_low cs_high cs_jobs cs_splits]; auto 10.
    - destruct (decide (high - (1 - 0) * _ - _ > 0)) as [Hd|Hd], (decide (high - (1 - 1) * _ - _ > 0)) as [Hd'|Hd']; intros [= <- <-] [= <- <-].
      + right. exists 0, 1. split; [done|]. cbn [cs_G]. split; [|split; [|done]]; unfold move_ops; cbn -[remove_ops redistribute_ops]; by rewrite <- !app_assoc.
      + exfalso. lia.
      + exfalso. lia.
      + left. cbn [cs_G cs_p cs_s cs_low cs_high cs_jobs cs_splits]. do 5 (split; [done|]). right. lia.
    - destruct (decide (high - (1 - 1) * _ - _ > 0)) as [Hd|Hd], (decide (high - (1 - 0) * _ - _ > 0)) as [Hd'|Hd']; intros [= <- <-] [= <- <-].
      + right. exists 1, 0. split; [done|]. cbn [cs_G]. split; [|split; [|done]]; unfold move_ops; cbn -[remove_ops redistribute_ops]; by rewrite <- !app_assoc.
      + exfalso. lia.
      + exfalso. lia.
      + left. cbn [cs_G cs_p cs_s cs_low cs_high cs_jobs cs_splits]. do 5 (split; [done|]). right. lia.
    - destruct (decide (_ > 0)) as [Hd|Hd]; intros [= <- <-] [= <- <-]; left; cbn [cs_G cs_p cs_s cs_low cs_high cs_jobs cs_splits]; auto 10.
  Qed.

  (** either the two stay together to the end, or they part in some world [X] and have only the
      initial world in common from then on, apart from worlds they have done with *)
  Lemma par_loop_two f : ∀ a b ea eb a' b', together a b → ranked a → ranked b →
    par_loop W m f a = Some (ea, a') → par_loop W m f b = Some (eb, b') →
    (ea = eb ∧ together a' b') ∨
    ∃ X c d h ta tb, c ≠ d ∧ ea = h ++ (X, OSplit c) :: ta ∧ eb = h ++ (X, OSplit d) :: tb ∧
      X ++ [c] `prefix_of` cs_G a' ∧ X ++ [d] `prefix_of` cs_G b' ∧ cs_G a `prefix_of` X ∧
      (∀ x, x ∈ ta → X ++ [c] `prefix_of` fst x ∨ fst x = []) ∧
      (∀ x, x ∈ tb → X ++ [d] `prefix_of` fst x ∨ fst x = []).
  Proof.
    induction f as [|f IH]; intros a b ea eb a' b' Ht Ha Hb; cbn [par_loop].
    { destruct (decide (cs_high a - _ > 0 ∧ _)), (decide (cs_high b - _ > 0 ∧ _)); try done. intros [= <- <-] [= <- <-]. by left. }
    destruct (decide (cs_high a - _ > 0 ∧ _)) as [Hd|Hd].
    2: { destruct (decide (cs_high b - _ > 0 ∧ _)) as [Hd'|Hd']; [|intros [= <- <-] [= <- <-]; by left].
      exfalso. destruct Ht as (_ & Ep & _ & _ & [[E1 E2]|[_ E]]); [|lia]. apply Hd. rewrite E1, E2, Ep. done. }
    assert (cs_low a = cs_low b ∧ cs_high a = cs_high b) as [E1 E2] by (destruct Ht as (_ & _ & _ & _ & [|[]]); [done|lia]).
    assert (cs_p a = cs_p b) as Ep by apply Ht.
    rewrite decide_True by (rewrite <- E1, <- E2, <- Ep; done).
    destruct (par_round W m a) as [[ea1 a1]|] eqn:Ra; cbn [mbind option_bind fst snd]; [|done].
    destruct (par_loop W m f a1) as [[ea2 a2]|] eqn:La; cbn [mbind option_bind fst snd]; [|done]. intros [= <- <-].
    destruct (par_round W m b) as [[eb1 b1]|] eqn:Rb; cbn [mbind option_bind fst snd]; [|done].
    destruct (par_loop W m f b1) as [[eb2 b2]|] eqn:Lb; cbn [mbind option_bind fst snd]; [|done]. intros [= <- <-].
    destruct (par_round_full _ _ _ Ra Ha) as (_ & Ha1 & _ & _); [lia|].
    destruct (par_round_full _ _ _ Rb Hb) as (_ & Hb1 & _ & _); [lia|].
    pose proof (par_round_cases _ _ _ _ _ Ra) as Hca.
    destruct (par_round_two a b ea1 eb1 a1 b1 Ht Ha Hb ltac:(lia) Ra Rb) as [[-> Ht1]|(c & d & Hcd & -> & -> & HGa & HGb)].
    - destruct (IH a1 b1 ea2 eb2 a2 b2 Ht1 Ha1 Hb1 La Lb) as [[-> H]|(X & c & d & h & ta & tb & H1 & -> & -> & H2 & H3 & H4 & H5)]; [by left|].
      right. exists X, c, d, (eb1 ++ h), ta, tb. rewrite <- !app_assoc. do 5 (split; [done|]). split; [|done].
      etrans; [|done]. destruct Hca as [(_ & -> & _)|(c' & _ & ->)]; [done|by apply prefix_app_r].
    - right. apply par_loop_shape in La as (Pa & Oa & _). apply par_loop_shape in Lb as (Pb & Ob & _).
      exists (cs_G a), c, d, (move_ops m (cs_G a) (cs_p a)), ((cs_G a ++ [c], OSync) :: ea2), ((cs_G a ++ [d], OSync) :: eb2).
      rewrite <- !app_assoc. rewrite HGa in *. rewrite HGb in *. do 6 (split; [done|]). split.
      + intros x [->|Hx]%elem_of_cons; [by left|]. destruct (Oa x Hx) as [_ [H|[H _]]]; auto.
      + intros x [->|Hx]%elem_of_cons; [by left|]. destruct (Ob x Hx) as [_ [H|[H _]]]; auto.
  Qed.
End agree.
