(** Base: the outcome monad, the nondeterminism tape, loops, and Hoare-style
    rules about them.  Nothing in this file models a particular function of
    /repo; it is the vocabulary in which the functions are written. *)
From Coq Require Export ZArith Lia.
From stdpp Require Export prelude gmap sorting.

Global Open Scope Z_scope.

(** How a run of a C++ function can fail. *)
Inductive err : Type :=
| UB      (* undefined behaviour: out-of-range access, bad cast, ... *)
| Abort   (* a failing assert(); CMakeLists.txt does not define NDEBUG *)
| Throw   (* an exception that the code does not catch *)
| Fuel.   (* a while loop of the model ran out of fuel *)

(** Accesses just outside a live vector whose value is then discarded: they are
    undefined behaviour, but the run goes on. They are logged. *)
Inductive tag : Type :=
| StaleNetRead      (* hypergraph.cpp:113, nets_[index] after pop_back *)
| StaleVertexRead   (* hypergraph.cpp:100, vertices_[index] after pop_back *)
| PastEndWrite.     (* write_partitioning.cpp start_parts: result[k+1] *)
Global Instance tag_eq_dec : EqDecision tag.
Proof. solve_decision. Defined.

Inductive out (A : Type) : Type :=
| Ok (a : A)
| Err (e : err).
Global Arguments Ok {A} _.
Global Arguments Err {A} _.

(** The world: everything the program does not control (an arbitrary tape) and the
    log of benign undefined accesses. *)
Record world := World { w_tape : nat → Z; w_log : list tag }.

Definition M (A : Type) : Type := world → out (A * world).

Definition ret {A} (a : A) : M A := λ w, Ok (a, w).
Definition fail {A} (e : err) : M A := λ _, Err e.
Definition bind {A B} (m : M A) (f : A → M B) : M B :=
  λ w, match m w with
       | Ok (a, w') => f a w'
       | Err e => Err e
       end.

Declare Scope m_scope.
Delimit Scope m_scope with M.
Global Open Scope m_scope.
Notation "x <- m ;; k" := (bind m (λ x, k))
  (at level 100, m at next level, right associativity) : m_scope.
Notation "' pat <- m ;; k" := (bind m (λ x, let 'pat := x in k))
  (at level 100, pat pattern, m at next level, right associativity) : m_scope.
Notation "m ;;; k" := (bind m (λ _, k))
  (at level 100, right associativity) : m_scope.

(** Read one value of the tape. *)
Definition choose : M Z :=
  λ w, Ok (w_tape w 0%nat, World (λ n, w_tape w (S n)) (w_log w)).

(** std::mt19937::operator(): an arbitrary 32-bit value. *)
Definition rng_max : Z := 4294967295.
Definition rng : M Z := z <- choose ;; ret (z `mod` 4294967296).

(** Record a benign undefined access and go on. *)
Definition log_tag (t : tag) : M () :=
  λ w, Ok (tt, World (w_tape w) (w_log w ++ [t])).

(** Partial lookups. *)
Definition of_option {A} (e : err) (o : option A) : M A :=
  match o with Some a => ret a | None => fail e end.
(** assert(b) *)
Definition assertM (b : bool) : M () := if b then ret tt else fail Abort.
Definition guardM (e : err) (b : bool) : M () := if b then ret tt else fail e.

(** v[i] with a (signed) index; out of range is undefined behaviour. *)
Definition zlookup {A} (l : list A) (i : Z) : option A :=
  if bool_decide (0 ≤ i) then l !! Z.to_nat i else None.
Definition zinsert {A} (i : Z) (x : A) (l : list A) : list A :=
  <[Z.to_nat i := x]> l.
Definition idx {A} (l : list A) (i : Z) : M A := of_option UB (zlookup l i).
Definition nidx {A} (l : list A) (i : nat) : M A := of_option UB (l !! i).

(** Range-for loop. *)
Fixpoint foldM {A S} (f : S → A → M S) (l : list A) (s : S) : M S :=
  match l with
  | [] => ret s
  | x :: l' => s' <- f s x ;; foldM f l' s'
  end.

(** Loop with a body that says whether to continue. *)
Fixpoint loopM {S} (fuel : nat) (body : S → M (bool * S)) (s : S) : M S :=
  match fuel with
  | O => fail Fuel
  | Datatypes.S n =>
      '(b, s') <- body s ;;
      if b : bool then loopM n body s' else ret s'
  end.

(** ** Hoare-style rules.  [wpe E m Q]: from every world, [m] either succeeds with a
    value in [Q] or fails with an error in [E]. *)
Definition wpe {A} (E : err → Prop) (m : M A) (Q : A → Prop) : Prop :=
  ∀ w, match m w with Ok (a, _) => Q a | Err e => E e end.

Notation wp := (wpe (λ _, False)).
Notation wlp := (wpe (λ _, True)).

Section rules.
  Context (E : err → Prop).

  Lemma wpe_ret {A} (a : A) (Q : A → Prop) : Q a → wpe E (ret a) Q.
  Proof. intros H w. exact H. Qed.

  Lemma wpe_fail {A} e (Q : A → Prop) : E e → wpe E (fail e) Q.
  Proof. intros H w. exact H. Qed.

  Lemma wpe_bind {A B} (m : M A) (f : A → M B) (Q : B → Prop) :
    wpe E m (λ a, wpe E (f a) Q) → wpe E (bind m f) Q.
  Proof.
    intros H w. specialize (H w). unfold bind.
    destruct (m w) as [[a w']|e]; [apply H|apply H].
  Qed.

  Lemma wpe_mono {A} (m : M A) (Q R : A → Prop) :
    wpe E m Q → (∀ a, Q a → R a) → wpe E m R.
  Proof.
    intros H HQ w. specialize (H w). destruct (m w) as [[a w']|e]; auto.
  Qed.

  Lemma wpe_choose (Q : Z → Prop) : (∀ z, Q z) → wpe E choose Q.
  Proof. intros H w. apply H. Qed.

  Lemma wpe_rng (Q : Z → Prop) : (∀ z, 0 ≤ z ≤ rng_max → Q z) → wpe E rng Q.
  Proof.
    intros H. apply wpe_bind, wpe_choose. intros z. apply wpe_ret, H.
    pose proof (Z.mod_pos_bound z 4294967296). unfold rng_max. lia.
  Qed.

  Lemma wpe_log t (Q : () → Prop) : Q tt → wpe E (log_tag t) Q.
  Proof. intros H w. exact H. Qed.

  Lemma wpe_of_option {A} e (o : option A) (Q : A → Prop) :
    (∀ a, o = Some a → Q a) → (o = None → E e) → wpe E (of_option e o) Q.
  Proof.
    intros H1 H2. destruct o; [apply wpe_ret|apply wpe_fail]; auto.
  Qed.

  Lemma wpe_of_option_Some {A} e (o : option A) a (Q : A → Prop) :
    o = Some a → Q a → wpe E (of_option e o) Q.
  Proof. intros -> H. by apply wpe_ret. Qed.

  Lemma wpe_assert b (Q : () → Prop) : b = true → Q tt → wpe E (assertM b) Q.
  Proof. intros -> H. by apply wpe_ret. Qed.

  Lemma wpe_guard e b (Q : () → Prop) : b = true → Q tt → wpe E (guardM e b) Q.
  Proof. intros -> H. by apply wpe_ret. Qed.

  Lemma wpe_idx {A} (l : list A) i a (Q : A → Prop) :
    zlookup l i = Some a → Q a → wpe E (idx l i) Q.
  Proof. apply wpe_of_option_Some. Qed.

  Lemma wpe_nidx {A} (l : list A) i a (Q : A → Prop) :
    l !! i = Some a → Q a → wpe E (nidx l i) Q.
  Proof. apply wpe_of_option_Some. Qed.

  (** Fold rule: the invariant is indexed by the processed prefix. *)
  Lemma wpe_foldM_gen {A S} (f : S → A → M S) (I : list A → S → Prop) :
    ∀ l done s (Q : S → Prop),
    I done s →
    (∀ done' x todo s, done' ++ x :: todo = done ++ l → I done' s →
       wpe E (f s x) (I (done' ++ [x]))) →
    (∀ s, I (done ++ l) s → Q s) →
    wpe E (foldM f l s) Q.
  Proof.
    induction l as [|x l IH]; intros done s Q Hi Hstep HQ; simpl.
    - apply wpe_ret, HQ. by rewrite app_nil_r.
    - apply wpe_bind. eapply wpe_mono; [by apply (Hstep done x l)|].
      intros s' Hs'. apply (IH (done ++ [x])); [done| |].
      + intros done' y todo s0 Heq. apply (Hstep done' y todo).
        by rewrite Heq, <-app_assoc.
      + intros s0. rewrite <-app_assoc. apply HQ.
  Qed.

  Lemma wpe_foldM {A S} (f : S → A → M S) (I : list A → S → Prop) l s (Q : S → Prop) :
    I [] s →
    (∀ done x todo s, l = done ++ x :: todo → I done s →
       wpe E (f s x) (I (done ++ [x]))) →
    (∀ s, I l s → Q s) →
    wpe E (foldM f l s) Q.
  Proof.
    intros H0 Hs HQ. apply (wpe_foldM_gen f I l []); [done| |done].
    intros done' x todo s' Heq. apply (Hs done' x todo). done.
  Qed.

  (** Simple fold rule: constant invariant. *)
  Lemma wpe_foldM_inv {A S} (f : S → A → M S) (I : S → Prop) l s (Q : S → Prop) :
    I s →
    (∀ x s, x ∈ l → I s → wpe E (f s x) I) →
    (∀ s, I s → Q s) →
    wpe E (foldM f l s) Q.
  Proof.
    intros H0 Hs HQ. apply (wpe_foldM f (λ _, I)); [done| |done].
    intros done x todo s' -> Hi. apply Hs; [|done]. set_solver.
  Qed.

  Lemma wpe_loopM {S} (body : S → M (bool * S)) (I : S → Prop) (μ : S → nat) (Q : S → Prop) :
    (∀ s, I s → wpe E (body s) (λ '(b, s'),
        if b : bool then I s' ∧ (μ s' < μ s)%nat else Q s')) →
    ∀ fuel s, I s → (μ s < fuel)%nat → wpe E (loopM fuel body s) Q.
  Proof.
    intros Hb fuel. induction fuel as [|n IH]; intros s Hi Hm; [lia|simpl].
    apply wpe_bind. eapply wpe_mono; [by apply Hb|].
    intros [[] s'] Hs'; [|by apply wpe_ret].
    apply IH; [tauto|lia].
  Qed.

  (** Partial-correctness version: fuel exhaustion allowed. *)
  Lemma wpe_loopM_partial {S} (body : S → M (bool * S)) (I : S → Prop) (Q : S → Prop) :
    E Fuel →
    (∀ s, I s → wpe E (body s) (λ '(b, s'), if b : bool then I s' else Q s')) →
    ∀ fuel s, I s → wpe E (loopM fuel body s) Q.
  Proof.
    intros HE Hb fuel. induction fuel as [|n IH]; intros s Hi; simpl; [by apply wpe_fail|].
    apply wpe_bind. eapply wpe_mono; [by apply Hb|].
    intros [[] s'] Hs'; [|by apply wpe_ret].
    by apply IH.
  Qed.
End rules.

Lemma wpe_weaken {A} (E E' : err → Prop) (m : M A) (Q : A → Prop) :
  wpe E m Q → (∀ e, E e → E' e) → wpe E' m Q.
Proof. intros H HE w. specialize (H w). destruct (m w) as [[]|]; auto. Qed.

Lemma wp_wpe {A} E (m : M A) (Q : A → Prop) : wp m Q → wpe E m Q.
Proof. intros H. eapply wpe_weaken; [exact H|]. intros e []. Qed.

Lemma wpe_conj {A} (E1 E2 : err → Prop) (m : M A) (Q R : A → Prop) :
  wpe E1 m Q → wpe E2 m R → wpe (λ e, E1 e ∧ E2 e) m (λ a, Q a ∧ R a).
Proof. intros H1 H2 w. specialize (H1 w). specialize (H2 w). destruct (m w) as [[]|]; auto. Qed.

(** The readable form used in the property statements. *)
Lemma wp_run {A} (m : M A) (Q : A → Prop) :
  wp m Q → ∀ w, ∃ a w', m w = Ok (a, w') ∧ Q a.
Proof. intros H w. specialize (H w). destruct (m w) as [[a w']|]; naive_solver. Qed.
Lemma wlp_run {A} (m : M A) (Q : A → Prop) :
  wlp m Q → ∀ w a w', m w = Ok (a, w') → Q a.
Proof. intros H w a w' Heq. specialize (H w). by rewrite Heq in H. Qed.

(** Executed examples use this world. *)
Definition w0 : world := World (λ _, 0) [].

(** ** Iteration helpers shared by the models *)

(** Arbitrary element of a non-empty hash set ([*s.begin()]): any element. *)
Definition pick_set (X : gset Z) : M Z :=
  z <- choose ;;
  let l := elements X in
  nidx l (Z.to_nat (z `mod` Z.max 1 (Z.of_nat (length l)))).

(** Arbitrary permutation of a list (hash iteration order, std::shuffle, ...). *)
Fixpoint insert_at {A} (n : nat) (x : A) (l : list A) : list A :=
  match n, l with
  | O, _ => x :: l
  | S n', [] => [x]
  | S n', y :: l' => y :: insert_at n' x l'
  end.
Fixpoint shuffleM {A} (l : list A) : M (list A) :=
  match l with
  | [] => ret []
  | x :: l' =>
      r <- shuffleM l' ;;
      z <- choose ;;
      ret (insert_at (Z.to_nat z) x r)
  end.

Lemma insert_at_perm {A} n (x : A) l : insert_at n x l ≡ₚ x :: l.
Proof.
  revert l; induction n as [|n IH]; intros [|y l]; simpl; try done.
  rewrite IH. by rewrite Permutation_swap.
Qed.

Lemma wpe_shuffle {A} E (l : list A) (Q : list A → Prop) :
  (∀ l', l' ≡ₚ l → Q l') → wpe E (shuffleM l) Q.
Proof.
  revert Q; induction l as [|x l IH]; intros Q HQ; simpl.
  - by apply wpe_ret, HQ.
  - apply wpe_bind. apply IH. intros l' Hl'.
    apply wpe_bind, wpe_choose. intros z. apply wpe_ret, HQ.
    by rewrite insert_at_perm, Hl'.
Qed.

(** Every permutation is produced by some tape, so [shuffleM] is as general as the
    unspecified orders it stands for. *)
Lemma shuffle_complete {A} (l l' : list A) :
  l' ≡ₚ l → ∃ w w', shuffleM l w = Ok (l', w').
Proof.
  cut (∀ l l' : list A, l' ≡ₚ l → ∃ f : nat → Z, ∀ w,
     (∀ i, (i < length l)%nat → w_tape w i = f i) →
     ∃ w', shuffleM l w = Ok (l', w') ∧ ∀ i, w_tape w' i = w_tape w (length l + i)%nat).
  { intros H Hp. destruct (H l l' Hp) as [f Hf].
    exists (World f []). destruct (Hf (World f [])) as (w' & ? & _); eauto. }
  clear. intros l; induction l as [|x l IH]; intros l' Hp; simpl.
  - apply Permutation_nil_r in Hp as ->. exists (λ _, 0). intros w _. by exists w.
  - assert (x ∈ l') as Hx by (rewrite Hp; set_solver).
    apply elem_of_list_split in Hx as (l1 & l2 & ->).
    destruct (IH (l1 ++ l2)) as [f Hf].
    { apply (Permutation_cons_inv (a:=x)). rewrite <-Hp. by rewrite Permutation_middle. }
    exists (λ i, if decide (i < length l)%nat then f i else Z.of_nat (length l1)).
    intros w Hw. unfold bind.
    destruct (Hf w) as (w' & -> & Hw').
    { intros i Hi. rewrite Hw by lia. case_decide; [done|lia]. }
    unfold choose, ret. simpl. eexists. split.
    + do 2 f_equal. rewrite Hw', Hw by lia.
      case_decide; [lia|]. rewrite Nat2Z.id.
      clear. induction l1; simpl; [by destruct l2|by f_equal].
    + intros i. simpl. rewrite Hw'. f_equal. lia.
Qed.

Lemma wpe_pick_set E (X : gset Z) (Q : Z → Prop) :
  X ≠ ∅ → (∀ x, x ∈ X → Q x) → wpe E (pick_set X) Q.
Proof.
  intros HX HQ. apply wpe_bind, wpe_choose. intros z.
  assert (elements X ≠ []) as Hne.
  { intros He. apply HX. apply elements_empty_iff in He. set_solver. }
  assert (length (elements X) ≠ 0%nat) by (by destruct (elements X)).
  pose proof (Z.mod_pos_bound z (Z.max 1 (Z.of_nat (length (elements X))))).
  destruct (lookup_lt_is_Some_2 (elements X)
    (Z.to_nat (z `mod` Z.max 1 (Z.of_nat (length (elements X)))))) as [x Hx]; [lia|].
  apply wpe_nidx with x; [done|]. apply HQ.
  apply elem_of_elements. by eapply elem_of_list_lookup_2.
Qed.
