(** Proofs about create_random_hypergraph ([Writer]). *)
From Coq Require String.
Import (notations) String.
From Verif Require Export WriterProof.
Local Open Scope list_scope.

Definition cap32 (x : Z) : Z := Z.min x 4294967296.
Definition in_box (n m : Z) (e : Z * Z) : Prop := 1 ≤ fst e ≤ cap32 m ∧ 1 ≤ snd e ≤ cap32 n.
Definition rstate := (list (gset Z) * (Z * text))%type.
(** the state after the entries [es] have been written *)
Record rinv (n m : Z) (hdr : text) (es : list (Z * Z)) (s : rstate) : Prop := {
  ri_count : fst (snd s) = Z.of_nat (length es);
  ri_text : snd (snd s) = hdr ++ entries_text es;
  ri_nodup : NoDup es;
  ri_box : Forall (in_box n m) es;
  ri_length : length (fst s) = Z.to_nat m;
  ri_sets : ∀ i X, 0 ≤ i → zlookup (fst s) i = Some X → ∀ j, j ∈ X ↔ (i + 1, j + 1) ∈ es;
}.

Lemma rinv_init n m hdr : rinv n m hdr [] (replicate (Z.to_nat m) ∅, (0, hdr)).
Proof.
  split; cbn [fst snd].
  - done.
  - cbn. by rewrite app_nil_r.
  - constructor.
  - constructor.
  - by rewrite replicate_length.
  - intros i X Hi Hl j. apply zlookup_Some in Hl as [_ Hl]. apply lookup_replicate in Hl as [-> _]. set_solver.
Qed.
Lemma rinv_step n m hdr es ls c t i j X : 0 ≤ n → 0 ≤ m →
  rinv n m hdr es (ls, (c, t)) → 0 ≤ i < cap32 m → 0 ≤ j < cap32 n → zlookup ls i = Some X → j ∉ X →
  rinv n m hdr (es ++ [(i + 1, j + 1)])
    (zinsert i ({[j]} ∪ X) ls, (c + 1, t ++ show (i + 1) ++ " "%char :: show (j + 1) ++ [nl])).
Proof.
  intros Hn Hm [H1 H2 H3 H4 H5 H6] Hi Hj HX HjX. cbn [fst snd] in *. split; cbn [fst snd].
  - rewrite app_length, H1. cbn. lia.
  - rewrite H2, entries_text_app, <-app_assoc. f_equal. f_equal. unfold entries_text. cbn [fmap list_fmap concat]. rewrite app_nil_r.
    unfold with_newline, entry_text. cbn [fst snd]. rewrite nl_newline, <-app_assoc. done.
  - apply NoDup_app. split; [done|]. split; [|apply NoDup_singleton]. intros e He ->%elem_of_list_singleton.
    apply HjX. apply (H6 i X); [lia|done..].
  - apply Forall_app. split; [done|]. apply Forall_cons. split; [|constructor]. unfold in_box. cbn [fst snd]. lia.
  - by rewrite zinsert_length.
  - intros i' X' Hi' HX' j'. pose proof (zlookup_Some_lt _ _ _ HX) as Hlt. rewrite zlookup_zinsert in HX' by done.
    rewrite elem_of_app, elem_of_list_singleton. destruct (decide (i' = i)) as [->|Hne].
    + rewrite ?decide_True in HX' by done. injection HX' as <-. rewrite elem_of_union, elem_of_singleton, (H6 i X Hi' HX j').
      split; [intros [->|?]; auto|intros [?|[= ?]]; [auto|left; lia]].
    + rewrite ?decide_False in HX' by done. rewrite (H6 i' X' Hi' HX' j'). split; [auto|]. intros [?|[= ? ?]]; [done|lia].
Qed.

Lemma wpe_rng_mod (E : err → Prop) m (Q : Z → Prop) : 0 < m < two64 → (∀ i, 0 ≤ i < cap32 m → Q i) → wpe E (rng_mod m) Q.
Proof.
  intros Hm HQ. unfold rng_mod. apply wpe_bind, wpe_rng. intros u Hu. apply wpe_bind, wpe_guard; [apply bool_decide_true; lia|].
  apply wpe_ret, HQ. rewrite (Z.mod_small m) by lia. pose proof (Z.mod_pos_bound u m ltac:(lia)).
  pose proof (Z.mod_le u m ltac:(lia) ltac:(lia)). unfold cap32, rng_max in *. lia.
Qed.
Lemma wpe_random_step (E : err → Prop) n m nz hdr es s (Q : bool * rstate → Prop) :
  0 < n < two64 → 0 < m < two64 → rinv n m hdr es s →
  (fst (snd s) < nz → ∀ es' s', rinv n m hdr es' s' → (length es ≤ length es')%nat → Z.of_nat (length es') ≤ nz → Q (true, s')) →
  (nz ≤ fst (snd s) → Q (false, s)) →
  wpe E (random_step n m nz s) Q.
Proof.
  intros Hn Hm Hinv Ht Hf. unfold random_step. pose proof (ri_count _ _ _ _ _ Hinv) as Hc. destruct (decide (fst (snd s) < nz)); [|apply wpe_ret; apply Hf; lia].
  apply wpe_bind, wpe_rng_mod; [done|]. intros i Hi. apply wpe_bind, wpe_rng_mod; [done|]. intros j Hj.
  destruct (zlookup_is_Some (fst s) i) as [X HX].
  { rewrite (ri_length _ _ _ _ _ Hinv). unfold cap32 in Hi. lia. }
  apply wpe_bind. eapply wpe_idx; [exact HX|]. destruct (decide (j ∈ X)).
  - apply wpe_ret. eapply (Ht ltac:(done) es); [done|lia|lia].
  - apply wpe_ret. destruct s as [ls [c t]]. cbn [fst snd] in *. eapply (Ht ltac:(done)).
    + eapply rinv_step; eauto; lia.
    + rewrite app_length. lia.
    + rewrite app_length. cbn. lia.
Qed.

(** there are only so many different entries *)
Definition box_list (n m : Z) : list (Z * Z) := concat ((λ i, (λ j, (i, j)) <$> seqZ 1 (cap32 n)) <$> seqZ 1 (cap32 m)).
Lemma box_list_elem n m e : in_box n m e → e ∈ box_list n m.
Proof.
  intros [H1 H2]. unfold box_list. apply elem_of_list_In, in_concat. setoid_rewrite <-elem_of_list_In.
  exists ((λ j, (fst e, j)) <$> seqZ 1 (cap32 n)). split.
  - apply elem_of_list_fmap. exists (fst e). split; [done|]. apply elem_of_seqZ. lia.
  - apply elem_of_list_fmap. exists (snd e). split; [by destruct e|]. apply elem_of_seqZ. lia.
Qed.
Lemma box_list_length n m : 0 ≤ n → 0 ≤ m → Z.of_nat (length (box_list n m)) = cap32 n * cap32 m.
Proof.
  intros Hn Hm. unfold box_list.
  assert (∀ l : list Z, Z.of_nat (length (concat ((λ i, (λ j, (i, j)) <$> seqZ 1 (cap32 n)) <$> l))) = cap32 n * Z.of_nat (length l)) as H.
  { induction l as [|x l IH]; [cbn; lia|]. rewrite fmap_cons. cbn [concat]. rewrite app_length, fmap_length, seqZ_length. cbn [length]. unfold cap32 in *. lia. }
  rewrite H, seqZ_length. unfold cap32. lia.
Qed.
Lemma box_count n m es : 0 ≤ n → 0 ≤ m → NoDup es → Forall (in_box n m) es → Z.of_nat (length es) ≤ cap32 n * cap32 m.
Proof.
  intros Hn Hm Hnd Hb. rewrite <-box_list_length by done. apply inj_le. apply submseteq_length, NoDup_submseteq; [done|].
  intros e He. apply box_list_elem. rewrite Forall_forall in Hb. by apply Hb.
Qed.

(** a free place *)
Lemma box_free n m es : 0 ≤ n → 0 ≤ m → Z.of_nat (length es) < cap32 n * cap32 m → ∃ i j, 0 ≤ i < cap32 m ∧ 0 ≤ j < cap32 n ∧ (i + 1, j + 1) ∉ es.
Proof.
  intros Hn Hm Hlt.
  destruct (decide (Forall (λ e, e ∈ es) (box_list n m))) as [Hall|Hex].
  - exfalso. rewrite <-box_list_length in Hlt by done.
    assert (length (box_list n m) ≤ length es)%nat; [|lia]. apply submseteq_length, NoDup_submseteq.
    + unfold box_list. generalize (NoDup_seqZ 1 (cap32 m)). generalize (seqZ 1 (cap32 m)). intros l Hl.
      induction Hl as [|x l Hx Hl IH]; [constructor|]. rewrite fmap_cons. cbn [concat]. apply NoDup_app. split; [|split; [|done]].
      * apply NoDup_fmap_2_strong; [|apply NoDup_seqZ]. intros ???? [=]. done.
      * intros e (j & -> & _)%elem_of_list_fmap He. apply elem_of_list_In, in_concat in He as (l' & Hl' & He).
        apply elem_of_list_In in Hl', He. apply elem_of_list_fmap in Hl' as (i & -> & Hi). apply elem_of_list_fmap in He as (j' & [= -> ->] & _). done.
    + intros e He. rewrite Forall_forall in Hall. by apply Hall.
  - apply not_Forall_Exists in Hex; [|apply _]. apply Exists_exists in Hex as (e & He & Hn'). cbn in Hn'.
    unfold box_list in He. apply elem_of_list_In, in_concat in He as (l' & Hl' & He).
    apply elem_of_list_In in Hl', He. apply elem_of_list_fmap in Hl' as (i & -> & Hi%elem_of_seqZ). apply elem_of_list_fmap in He as (j & -> & Hj%elem_of_seqZ).
    exists (i - 1), (j - 1). split; [lia|]. split; [lia|]. by rewrite !Z.sub_add.
Qed.

(** ** Termination on suitable draws *)
Definition starts_with (w : world) (l : list Z) : Prop := ∀ i x, l !! i = Some x → w_tape w i = x.
Lemma starts_with_cons2 w a b l : starts_with w (a :: b :: l) →
  w_tape w 0%nat = a ∧ w_tape w 1%nat = b ∧ ∀ lg, starts_with (World (λ n, w_tape w (S (S n))) lg) l.
Proof.
  intros H. split; [by apply (H 0%nat)|]. split; [by apply (H 1%nat)|]. intros lg i x Hi. cbn. by apply (H (S (S i))).
Qed.
Lemma rng_mod_run m w : 0 < m < two64 →
  rng_mod m w = Ok ((w_tape w 0%nat `mod` 4294967296) `mod` m, World (λ n, w_tape w (S n)) (w_log w)).
Proof.
  intros Hm. unfold rng_mod, rng, choose, guardM, bind, ret. rewrite bool_decide_true by lia. cbn. rewrite (Z.mod_small m two64) by lia. done.
Qed.
Lemma random_step_run n m nz hdr es s a b : 0 < n < two64 → 0 < m < two64 → rinv n m hdr es s → fst (snd s) < nz →
  ∃ es' s', rinv n m hdr es' s' ∧ (length es ≤ length es')%nat ∧
    ((((a mod 4294967296) mod m) + 1, ((b mod 4294967296) mod n) + 1) ∉ es → (length es < length es')%nat) ∧
    ∀ w l, starts_with w (a :: b :: l) → ∃ w', random_step n m nz s w = Ok ((true, s'), w') ∧ starts_with w' l.
Proof.
  intros Hn Hm Hinv Hlt.
  set (i := (a mod 4294967296) mod m). set (j := (b mod 4294967296) mod n).
  assert (0 ≤ i < cap32 m) as Hi.
  { subst i. pose proof (Z.mod_pos_bound (a mod 4294967296) m ltac:(lia)). pose proof (Z.mod_pos_bound a 4294967296 ltac:(lia)).
    pose proof (Z.mod_le (a mod 4294967296) m ltac:(lia) ltac:(lia)). unfold cap32. lia. }
  assert (0 ≤ j < cap32 n) as Hj.
  { subst j. pose proof (Z.mod_pos_bound (b mod 4294967296) n ltac:(lia)). pose proof (Z.mod_pos_bound b 4294967296 ltac:(lia)).
    pose proof (Z.mod_le (b mod 4294967296) n ltac:(lia) ltac:(lia)). unfold cap32. lia. }
  destruct (zlookup_is_Some (fst s) i) as [X HX].
  { rewrite (ri_length _ _ _ _ _ Hinv). unfold cap32 in Hi. lia. }
  assert (∀ w l, starts_with w (a :: b :: l) → ∃ w', random_step n m nz s w =
    (if decide (j ∈ X) then ret (true, s) else ret (true, (zinsert i ({[j]} ∪ X) (fst s),
                     (fst (snd s) + 1, snd (snd s) ++ show (i + 1) ++ " "%char :: show (j + 1) ++ [nl])))) w' ∧ starts_with w' l) as Hrun.
  { intros w l Hw. apply starts_with_cons2 in Hw as (Ha & Hb & Hl). unfold random_step. rewrite decide_True by done.
    unfold bind at 1. rewrite rng_mod_run by done. unfold bind at 1. rewrite rng_mod_run by done. cbn [w_tape w_log]. rewrite Ha, Hb. fold i j.
    unfold bind at 1, idx. rewrite HX. cbn [of_option]. unfold ret at 1. eexists. split; [reflexivity|]. apply Hl. }
  destruct (decide (j ∈ X)) as [HjX|HjX].
  - exists es, s. split; [done|]. split; [lia|]. split.
    + intros Hnot. exfalso. apply Hnot. apply (ri_sets _ _ _ _ _ Hinv i X); [lia|done..].
    + intros w l Hw. destruct (Hrun w l Hw) as (w' & -> & Hl). exists w'. done.
  - destruct s as [ls [c t]]. cbn [fst snd] in *. eexists _, _. split; [eapply (rinv_step n m hdr es ls c t i j X); eauto; lia|].
    split; [rewrite app_length; cbn; lia|]. split; [intros _; rewrite app_length; cbn; lia|].
    intros w l Hw. destruct (Hrun w l Hw) as (w' & -> & Hl). exists w'. done.
Qed.
Lemma random_stop_run n m nz s w : nz ≤ fst (snd s) → loopM 1 (random_step n m nz) s w = Ok (s, w).
Proof. intros H. cbn [loopM]. unfold bind, random_step. rewrite decide_False by lia. done. Qed.
Lemma loopM_step {T} fuel (body : T → M (bool * T)) s w s' w' :
  body s w = Ok ((true, s'), w') → loopM (S fuel) body s w = loopM fuel body s' w'.
Proof. intros H. cbn [loopM]. unfold bind. by rewrite H. Qed.

(** from every state that the loop can be in, some draws end it *)
Lemma random_finish n m nz hdr es s : 0 < n < two64 → 0 < m < two64 → nz ≤ cap32 n * cap32 m → rinv n m hdr es s →
  ∃ fuel τ, ∀ w, starts_with w τ → ∃ s' w', loopM fuel (random_step n m nz) s w = Ok (s', w').
Proof.
  intros Hn Hm Hnz. remember (Z.to_nat (nz - Z.of_nat (length es))) as k eqn:Hk. revert es s Hk.
  induction k as [k IH] using lt_wf_ind. intros es s -> Hinv. pose proof (ri_count _ _ _ _ _ Hinv) as Hc.
  destruct (decide (fst (snd s) < nz)) as [Hlt|Hge].
  - destruct (box_free n m es) as (i & j & Hi & Hj & Hfree); [lia..|].
    destruct (random_step_run n m nz hdr es s i j) as (es' & s' & Hinv' & _ & Hgrow & Hrun); [done..|].
    rewrite !(Z.mod_small _ 4294967296), !Z.mod_small in Hgrow by (unfold cap32 in *; lia). specialize (Hgrow Hfree).
    destruct (IH (Z.to_nat (nz - Z.of_nat (length es'))) ltac:(lia) es' s' eq_refl Hinv') as (fuel & τ & Hτ).
    exists (S fuel), (i :: j :: τ). intros w Hw. destruct (Hrun w τ Hw) as (w' & Hstep & Hw').
    destruct (Hτ w' Hw') as (s'' & w'' & Hend). exists s'', w''. by rewrite (loopM_step _ _ _ _ _ _ Hstep).
  - exists 1%nat, []. intros w _. exists s, w. apply random_stop_run. lia.
Qed.
Lemma random_finish_after n m nz hdr (k : nat) : ∀ π es s, (length π ≤ k)%nat →
  0 < n < two64 → 0 < m < two64 → nz ≤ cap32 n * cap32 m → rinv n m hdr es s →
  ∃ fuel τ, ∀ w, starts_with w (π ++ τ) → ∃ s' w', loopM fuel (random_step n m nz) s w = Ok (s', w').
Proof.
  induction k as [k IH] using lt_wf_ind. intros π es s Hk Hn Hm Hnz Hinv.
  destruct (decide (fst (snd s) < nz)) as [Hlt|Hge].
  2: { exists 1%nat, []. intros w _. exists s, w. apply random_stop_run. lia. }
  destruct π as [|a π]; [by apply (random_finish n m nz hdr es s)|].
  destruct π as [|b π].
  - destruct (random_step_run n m nz hdr es s a 0) as (es' & s' & Hinv' & _ & _ & Hrun); [done..|].
    destruct (random_finish n m nz hdr es' s') as (fuel & τ & Hτ); [done..|].
    exists (S fuel), (0 :: τ). intros w Hw. destruct (Hrun w τ Hw) as (w' & Hstep & Hw').
    destruct (Hτ w' Hw') as (s'' & w'' & Hend). exists s'', w''. by rewrite (loopM_step _ _ _ _ _ _ Hstep).
  - destruct (random_step_run n m nz hdr es s a b) as (es' & s' & Hinv' & _ & _ & Hrun); [done..|]. cbn [length] in Hk.
    destruct (IH (k - 2)%nat ltac:(lia) π es' s') as (fuel & τ & Hτ); [lia|done..|].
    exists (S fuel), τ. intros w Hw. destruct (Hrun w (π ++ τ) Hw) as (w' & Hstep & Hw').
    destruct (Hτ w' Hw') as (s'' & w'' & Hend). exists s'', w''. by rewrite (loopM_step _ _ _ _ _ _ Hstep).
Qed.

(** ** The file *)
Definition random_header (n m nz : Z) : text := banner_random ++ [nl] ++ show m ++ " "%char :: show n ++ " "%char :: show nz ++ [nl].
Lemma random_listing n m nz es : 0 ≤ n → 0 ≤ m → 0 ≤ nz → Forall (λ e : Z * Z, 0 ≤ fst e ∧ 0 ≤ snd e) es →
  listing (random_header n m nz ++ entries_text es) MGeneral m n nz es.
Proof.
  intros Hn Hm Hnz Hes. exists banner_random, [], (show m ++ " "%char :: show n ++ " "%char :: show nz), (entry_text <$> es), (entries_text es).
  assert (gap [" "%char]) as Hgap by (apply (bool_decide_eq_true_1 _); vm_compute; reflexivity).
  split; [|split; [|split; [|split; [|split]]]].
  - unfold random_header, with_newline. rewrite nl_newline. cbn [concat fmap list_fmap]. repeat (progress (rewrite <-?app_assoc; cbn [app])). reflexivity.
  - exists (String.list_ascii_of_string "%%MatrixMarket"%string), [" "%char], (String.list_ascii_of_string "matrix"%string), [" "%char],
      (String.list_ascii_of_string "coordinate"%string), [" "%char], (String.list_ascii_of_string "pattern"%string), [" "%char], [].
    split; [reflexivity|]. do 4 (split; [apply (bool_decide_eq_true_1 _); vm_compute; reflexivity|]). split; [apply symmetry_word|].
    do 4 (split; [done|]). by left.
  - constructor.
  - exists [], (show m), [" "%char], (show n), [" "%char], (show nz), []. split; [by rewrite app_nil_r|]. split; [constructor|].
    split; [by apply show_numeral|]. split; [done|]. split; [by apply show_numeral|]. split; [done|]. split; [by apply show_numeral|]. by left.
  - clear -Hes Hgap. induction Hes as [|e es [? ?] _ IH]; csimpl; constructor; [|done].
    exists [], (show (fst e)), [" "%char], (show (snd e)), []. split; [by rewrite app_nil_r|]. split; [constructor|]. split; [by apply show_numeral|]. split; [done|]. split; [by apply show_numeral|]. by left.
  - by left.
Qed.
