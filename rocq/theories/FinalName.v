(** The property lemmas of C72: the name of the result file. *)
From Coq Require Import Ascii.
From Coq Require String.
Import (notations) String.
From Verif Require Export ResultName SpecName WriterProof.
Local Open Scope list_scope.

Lemma last_split {A} (c : A) x s x' s' : c ∉ s → c ∉ s' → x ++ c :: s = x' ++ c :: s' → x = x' ∧ s = s'.
Proof.
  intros Hs Hs' [(y & -> & Hy)|(y & -> & Hy)]%app_eq_inv; destruct y as [|d y]; simplify_eq/=; rewrite ?app_nil_r; try done.
  - exfalso. apply Hs'. set_solver.
  - exfalso. apply Hs. set_solver.
Qed.
Lemma show_inj a b : show a = show b → a = b.
Proof.
  assert (∀ n, 0 ≤ n → ∃ c s, show n = c :: s ∧ c ≠ "-"%char) as Hd.
  { intros n Hn. destruct (show_numeral n Hn) as (Hne & HF & _). destruct (show n) as [|c s]; [done|]. exists c, s. split; [done|]. apply Forall_cons in HF as [Hc _]. apply digit_not_sign in Hc. tauto. }
  assert (∀ n, n < 0 → show n = "-"%char :: show (- n)) as Hneg.
  { intros n Hn. unfold show. rewrite decide_True by done. by rewrite decide_False by lia. }
  assert (∀ a b, 0 ≤ a → 0 ≤ b → show a = show b → a = b) as Hpos.
  { intros x y Hx Hy Hxy. destruct (show_numeral x Hx) as (_ & _ & ->). destruct (show_numeral y Hy) as (_ & _ & ->). by rewrite Hxy. }
  intros Hab. destruct (decide (a < 0)), (decide (b < 0)).
  - rewrite (Hneg a), (Hneg b) in Hab by done. injection Hab as Hab. apply Hpos in Hab; lia.
  - rewrite Hneg in Hab by done. destruct (Hd b ltac:(lia)) as (c & s & Hc & Hn). rewrite Hc in Hab. congruence.
  - rewrite (Hneg b) in Hab by done. destruct (Hd a ltac:(lia)) as (c & s & Hc & Hn). rewrite Hc in Hab. congruence.
  - apply Hpos; [lia..|done].
Qed.
Lemma show_chars n c : c ∈ show n → (48 ≤ nat_of_ascii c ≤ 57)%nat ∨ c = "-"%char.
Proof.
  assert (∀ n, 0 ≤ n → ∀ c, c ∈ show n → (48 ≤ nat_of_ascii c ≤ 57)%nat) as Hp.
  { intros m Hm d Hd. destruct (show_numeral m Hm) as (_ & HF & _). rewrite Forall_forall in HF. by apply HF. }
  intros Hc. destruct (decide (n < 0)).
  - unfold show in Hc. rewrite decide_True in Hc by done. apply elem_of_cons in Hc as [->|Hc]; [by right|]. left. apply (Hp (- n)); [lia|]. unfold show. by rewrite decide_False by lia.
  - left. apply (Hp n); [lia|done].
Qed.
Lemma show_not_in n c : (57 < nat_of_ascii c)%nat ∨ nat_of_ascii c = 47%nat → c ∉ show n.
Proof. intros Hc [?| ->]%show_chars; [lia|]. assert (nat_of_ascii "-"%char = 45%nat) as H45 by reflexivity. rewrite H45 in Hc. lia. Qed.
Lemma base_name_ok f : last_component f (base_name f).
Proof.
  unfold base_name, find_last_of, last_component. destruct (list_find _ (reverse f)) as [[i c]|] eqn:Hf; simpl.
  - apply list_find_Some in Hf as (Hi & -> & Hl). assert (i < length f)%nat as Hlt by (apply lookup_lt_Some in Hi; by rewrite reverse_length in Hi).
    rewrite reverse_lookup in Hi by done.
    replace (length f - S i)%nat with (length f - 1 - i)%nat in Hi by lia.
    exists (take (S (length f - 1 - i)) f). split; [by rewrite take_drop|]. split.
    + intros [j Hj]%elem_of_list_lookup. rewrite lookup_drop in Hj. pose proof (lookup_lt_Some _ _ _ Hj) as Hjl.
      apply (Hl (length f - 1 - (S (length f - 1 - i) + j))%nat "/"%char); [|lia|done]. rewrite reverse_lookup by lia. rewrite <-Hj. f_equal. lia.
    + right. exists (take (length f - 1 - i) f). by apply take_S_r.
  - apply list_find_None in Hf. exists []. split; [done|]. split; [|by left]. rewrite drop_0. rewrite Forall_forall in Hf. intros Hin. apply (Hf "/"%char); [by apply elem_of_reverse|done].
Qed.
Lemma last_component_unique f b b' : last_component f b → last_component f b' → b = b'.
Proof.
  assert (∀ d d' b b', d ++ b = d' ++ ["/"%char] ++ b' → "/"%char ∉ b → "/"%char ∉ b' → (d = [] ∨ ∃ d', d = d' ++ ["/"%char]) → b = b') as Hw.
  { intros d d' x x' Heq Hx Hx' [->|[d'' ->]].
    - simpl in Heq. subst x. set_solver.
    - rewrite <-app_assoc in Heq. simpl in Heq. by apply last_split in Heq as [_ ->]. }
  intros (d & -> & Hb & Hd) (d' & Heq & Hb' & [->|[d'' ->]]).
  - symmetry. simpl in Heq. destruct Hd as [->|[d'' ->]]; [done|]. rewrite <-Heq in Hb'. set_solver.
  - rewrite <-app_assoc in Heq. by eapply Hw.
Qed.

(** C72: two runs for different matrix files write to the same result file if the files have the same name, in whatever directories they are. *)
Lemma C72_other_file_refuted_proof : ¬ ∀ f k p f' k' p', result_name f k p = result_name f' k' p' → f = f' ∧ k = k' ∧ p = p'.
Proof.
  intros Hall. destruct (Hall (String.list_ascii_of_string "a/m.mtx"%string) 2 1 (String.list_ascii_of_string "b/m.mtx"%string) 2 1) as [He _]; [by vm_compute|]. discriminate He.
Qed.
(** C72, universally: all files with the same last component share their result file, and only they, with the same number of parts and of processors. *)
Lemma C72_result_name_partial_proof : ∀ f k p f' k' p' b b', last_component f b → last_component f' b' →
  (result_name f k p = result_name f' k' p' ↔ b = b' ∧ k = k' ∧ p = p').
Proof.
  intros f k p f' k' p' b b' Hb Hb'. rewrite (last_component_unique f b (base_name f)), (last_component_unique f' b' (base_name f')) by (done || apply base_name_ok).
  unfold result_name. split; [|by intros (-> & -> & ->)]. intros Heq%app_inv_head. cbn [String.list_ascii_of_string app] in Heq.
  replace (base_name f ++ "-"%char :: "k"%char :: show k ++ "-"%char :: "p"%char :: show p) with ((base_name f ++ "-"%char :: "k"%char :: show k ++ ["-"%char]) ++ "p"%char :: show p) in Heq
    by (rewrite <-?app_assoc; cbn [app]; by rewrite <-?app_assoc).
  replace (base_name f' ++ "-"%char :: "k"%char :: show k' ++ "-"%char :: "p"%char :: show p') with ((base_name f' ++ "-"%char :: "k"%char :: show k' ++ ["-"%char]) ++ "p"%char :: show p') in Heq
    by (rewrite <-?app_assoc; cbn [app]; by rewrite <-?app_assoc).
  apply last_split in Heq as [Heq Hp%show_inj]; [|apply show_not_in; left; apply Nat.ltb_lt; reflexivity..].
  replace (base_name f ++ "-"%char :: "k"%char :: show k ++ ["-"%char]) with ((base_name f ++ ["-"%char]) ++ "k"%char :: show k ++ ["-"%char]) in Heq by (by rewrite <-?app_assoc).
  replace (base_name f' ++ "-"%char :: "k"%char :: show k' ++ ["-"%char]) with ((base_name f' ++ ["-"%char]) ++ "k"%char :: show k' ++ ["-"%char]) in Heq by (by rewrite <-?app_assoc).
  assert (∀ n, "k"%char ∉ show n ++ ["-"%char]) as Hk.
  { intros n [Hin|Hin]%elem_of_app; [|by apply elem_of_list_singleton in Hin]. revert Hin. apply show_not_in. left. apply Nat.ltb_lt. reflexivity. }
  apply last_split in Heq as [Hbase Hkk]; [|apply Hk..]. apply app_inv_tail in Hbase. apply app_inv_tail in Hkk. by apply show_inj in Hkk.
Qed.
(** C72: the result file is in the results directory, whatever the name of the matrix file. *)
Lemma C72_result_directory_proof : ∀ f k p, directly_in results_dir (result_name f k p).
Proof.
  intros f k p. eexists. split; [unfold result_name; reflexivity|]. split; [by destruct (base_name f)|].
  destruct (base_name_ok f) as (d & _ & Hb & _). assert (∀ n, "/"%char ∉ show n) as Hs by (intros n; apply show_not_in; by right).
  cbn [String.list_ascii_of_string app]. rewrite !elem_of_app, !elem_of_cons, elem_of_app, !elem_of_cons. specialize (Hs k) as H1. specialize (Hs p) as H2.
  intros [?|[?|[?|[?|[?|[?|?]]]]]]; done.
Qed.

Definition ex_matrix : ctext := String.list_ascii_of_string "../test/data/dolphins.mtx"%string.
Definition ex_base : ctext := String.list_ascii_of_string "dolphins.mtx"%string.
Definition ex_result : ctext := String.list_ascii_of_string "../tools/results/dolphins.mtx-k16-p4"%string.
Lemma ex_last : last_component ex_matrix ex_base.
Proof.
  exists (String.list_ascii_of_string "../test/data/"%string). split; [reflexivity|]. split.
  - unfold ex_base. cbn [String.list_ascii_of_string]. rewrite !elem_of_cons, elem_of_nil. intros Hin. repeat (destruct Hin as [Hin|Hin]; [discriminate Hin|]). done.
  - right. by exists (String.list_ascii_of_string "../test/data"%string).
Qed.
(** the name for a matrix in another directory *)
Example C72_example : result_name ex_matrix 16 4 = ex_result ∧ last_component ex_matrix ex_base.
Proof. split; [by vm_compute|exact ex_last]. Qed.
