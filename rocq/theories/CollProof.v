From Verif Require Export SpecColl.
From Verif Require Import ListLemmas.

Definition kev (x : ev) : ev := (fst x, kind (snd x)).
Definition shared (F F' : wid) (e : list ev) : list ev :=
  kev <$> filter (λ x : ev, fst x `prefix_of` F ∧ fst x `prefix_of` F') e.
Global Instance ppdec (F F' : wid) (x : ev) : Decision (fst x `prefix_of` F ∧ fst x `prefix_of` F').
Proof. apply _. Defined.

(** ** Progress in general *)
Lemma longest (l : list (list ev)) :
  (∀ c, c ∈ l → c = []) ∨
  ∃ i x c, l !! i = Some (x :: c) ∧ ∀ j y d, l !! j = Some (y :: d) → (length (fst y) ≤ length (fst x))%nat.
Proof.
  induction l as [|a l IH]; [left; intros c Hc; by apply elem_of_nil in Hc|].
  destruct a as [|y d].
  - destruct IH as [H|(i & x & c & Hi & Hm)].
    + left. intros c [->|Hc]%elem_of_cons; [done|by apply H].
    + right. exists (Datatypes.S i), x, c. split; [done|]. intros [|j] y d Hj; [done|by apply (Hm j y d)].
  - right. destruct IH as [H|(i & x & c & Hi & Hm)].
    + exists 0%nat, y, d. split; [done|]. intros [|j] y' d' Hj; [by simplify_eq/=|].
      cbn in Hj. apply elem_of_list_lookup_2, H in Hj. done.
    + destruct (decide (length (fst x) ≤ length (fst y))%nat) as [Hle|Hgt].
      * exists 0%nat, y, d. split; [done|]. intros [|j] y' d' Hj; [by simplify_eq/=|].
        cbn in Hj. apply Hm in Hj. by etrans.
      * exists (Datatypes.S i), x, c. split; [done|]. intros [|j] y' d' Hj; [injection Hj as <- <-; by apply Nat.lt_le_incl, Nat.nle_gt|].
        cbn in Hj. by apply Hm in Hj.
Qed.

Lemma prefix_shorter (A B C : wid) : A `prefix_of` C → B `prefix_of` C → (length A ≤ length B)%nat → A `prefix_of` B.
Proof.
  intros HA HB Hl. destruct (prefix_weak_total A B C HA HB) as [H|H]; [done|].
  destruct H as [k ->]. rewrite app_length in Hl. destruct k as [|z k]; [by rewrite app_nil_r|cbn in Hl; lia].
Qed.

(** [Fs]: the innermost world of every processor *)
Record agreeing (full : list (list ev)) (Fs : list wid) : Prop := {
  ag_len : length full = length Fs;
  ag_worlds : ∀ i e F, full !! i = Some e → Fs !! i = Some F → ∀ G, G ∈ worlds e ↔ G `prefix_of` F;
  ag_events : ∀ i e F, full !! i = Some e → Fs !! i = Some F → ∀ x, x ∈ e → fst x `prefix_of` F;
  ag_shared : ∀ i j e e' F F', full !! i = Some e → full !! j = Some e' → Fs !! i = Some F → Fs !! j = Some F' →
    shared F F' e = shared F F' e' }.

Record agreeing_now (full cur : list (list ev)) (Fs : list wid) : Prop := {
  an_len : length cur = length full;
  an_events : ∀ i e F, cur !! i = Some e → Fs !! i = Some F → ∀ x, x ∈ e → fst x `prefix_of` F;
  an_shared : ∀ i j e e' F F', cur !! i = Some e → cur !! j = Some e' → Fs !! i = Some F → Fs !! j = Some F' →
    shared F F' e = shared F F' e' }.

Lemma step_agreeing full Fs cur cur' :
  agreeing full Fs → agreeing_now full cur Fs → step full cur cur' → agreeing_now full cur' Fs.
Proof.
  intros Hf Hc (Hl & Hl' & G & o & _ & Hm).
  assert (∀ i c', cur' !! i = Some c' → ∃ e c F, full !! i = Some e ∧ cur !! i = Some c ∧ Fs !! i = Some F ∧ moves G o e c c') as Hall.
  { intros i c' Hi. pose proof (lookup_lt_Some _ _ _ Hi) as Hlt.
    destruct (lookup_lt_is_Some_2 full i) as [e He]; [lia|].
    destruct (lookup_lt_is_Some_2 cur i) as [c Hci]; [lia|].
    destruct (lookup_lt_is_Some_2 Fs i) as [F HF]; [rewrite <- (ag_len _ _ Hf); lia|].
    exists e, c, F. eauto 10. }
  split; [lia|..].
  - intros i c' F Hi HF x Hx. destruct (Hall i c' Hi) as (e & c & F0 & He & Hci & HF0 & Hmv).
    apply (an_events _ _ _ Hc i c F Hci HF). unfold moves in Hmv. destruct (decide _); [|by subst].
    destruct Hmv as (y & -> & _). by apply elem_of_list_further.
  - intros i j c1' c2' F F' Hi Hj HF HF'.
    destruct (Hall i c1' Hi) as (e1 & c1 & F1 & He1 & Hc1 & HF1 & Hm1).
    destruct (Hall j c2' Hj) as (e2 & c2 & F2 & He2 & Hc2 & HF2 & Hm2).
    simplify_eq. pose proof (an_shared _ _ _ Hc i j _ _ _ _ Hc1 Hc2 HF HF') as Hs.
    pose proof (ag_worlds _ _ Hf i _ _ He1 HF) as W1. pose proof (ag_worlds _ _ Hf j _ _ He2 HF') as W2.
    unfold moves in *. unfold shared in *.
    destruct (decide (G ∈ worlds e1)) as [G1|G1], (decide (G ∈ worlds e2)) as [G2|G2].
    + destruct Hm1 as (x1 & -> & Hx1 & Ho1), Hm2 as (x2 & -> & Hx2 & Ho2).
      apply W1 in G1. apply W2 in G2.
      rewrite !filter_cons_True in Hs by (rewrite ?Hx1, ?Hx2; done). csimpl in Hs. by injection Hs.
    + destruct Hm1 as (x1 & -> & Hx1 & Ho1). subst c2'.
      rewrite filter_cons_False in Hs; [done|]. rewrite Hx1. intros [_ Hn]. by apply G2, W2.
    + destruct Hm2 as (x2 & -> & Hx2 & Ho2). subst c1'.
      rewrite (filter_cons_False _ x2) in Hs; [done|]. rewrite Hx2. intros [Hn _]. by apply G1, W1.
    + by subst.
Qed.

Lemma reach_agreeing full Fs c0 cur :
  agreeing full Fs → agreeing_now full c0 Fs → rtc (step full) c0 cur → agreeing_now full cur Fs.
Proof.
  intros Hf H0 Hr. induction Hr as [|x y z Hxy Hyz IH]; [done|]. apply IH. by eapply step_agreeing.
Qed.

Lemma agreeing_progress full Fs : agreeing full Fs → deadlock_free full.
Proof.
  intros Hf cur Hr.
  assert (agreeing_now full full Fs) as H0 by (split; [done|apply Hf|apply Hf]).
  pose proof (reach_agreeing full Fs full cur Hf H0 Hr) as Hc. clear H0 Hr.
  destruct (longest cur) as [H|(i & [G o] & c & Hi & Hmax)]; [by left|right].
  assert (i < length full)%nat as Hlt by (rewrite <- (an_len _ _ _ Hc); by eapply lookup_lt_Some).
  destruct (lookup_lt_is_Some_2 full i Hlt) as [e He].
  destruct (lookup_lt_is_Some_2 Fs i) as [F HF]; [by rewrite <- (ag_len _ _ Hf)|].
  assert (G `prefix_of` F) as HG by (apply (an_events _ _ _ Hc i _ _ Hi HF (G, o)), elem_of_list_here).
  exists (zip_with (λ e c : list ev, if decide (G ∈ worlds e) then tail c else c) full cur).
  split; [apply Hc|]. split; [rewrite zip_with_length, (an_len _ _ _ Hc); lia|].
  exists G, (kind o). split.
  { exists e. split; [by apply elem_of_list_lookup_2 in He|]. by apply (ag_worlds _ _ Hf i e F He HF). }
  intros j e' c' d He' Hc' Hd. rewrite lookup_zip_with, He' in Hd. cbn in Hd. rewrite Hc' in Hd. cbn in Hd.
  apply (inj Some) in Hd. unfold moves. destruct (decide _) as [Hin|Hn]; [|by subst]. subst d.
  pose proof (lookup_lt_Some _ _ _ He') as Hlt'.
  destruct (lookup_lt_is_Some_2 Fs j) as [F' HF']; [by rewrite <- (ag_len _ _ Hf)|].
  apply (ag_worlds _ _ Hf j e' F' He' HF') in Hin.
  pose proof (an_shared _ _ _ Hc i j _ _ _ _ Hi Hc' HF HF') as Hs. unfold shared in Hs.
  rewrite filter_cons_True in Hs by done. csimpl in Hs.
  destruct c' as [|[G' o'] c']; [done|].
  pose proof (Hmax j _ _ Hc') as Hle. cbn [fst] in Hle.
  assert (G' `prefix_of` F') as HG' by (apply (an_events _ _ _ Hc j _ _ Hc' HF' (G', o')), elem_of_list_here).
  pose proof (prefix_shorter G' G F' HG' Hin Hle) as Hp.
  rewrite filter_cons_True in Hs by (cbn; split; [by etrans|done]). csimpl in Hs.
  unfold kev in Hs. cbn in Hs. injection Hs as HGG Hoo _.
  exists (G', o'). cbn. done.
Qed.

(** ** The form of a trace *)
Definition splits_of (e : list ev) : list wid :=
  omap (λ x : ev, match snd x with OSplit c => Some (fst x ++ [c]) | _ => None end) e.
Lemma splits_app e e' : splits_of (e ++ e') = splits_of e ++ splits_of e'.
Proof. apply omap_app. Qed.

Definition proper_ext (G G' : wid) : Prop := ∃ c D, G' = G ++ c :: D.
Lemma proper_ext_snoc (G G' : wid) c : proper_ext (G ++ [c]) G' → proper_ext G G'.
Proof. intros (d & D & ->). exists c, (d :: D). by rewrite <- app_assoc. Qed.

Section shape.
  Context (W : wid → Z * Z) (m : metric) (k : Z).

  Lemma remove_ops_on G p x : x ∈ remove_ops G p → fst x = [] ∨ fst x = G.
  Proof.
    unfold remove_ops. destruct (decide _); cbn; rewrite !elem_of_cons, elem_of_nil; intros Hx;
      repeat (destruct Hx as [->|Hx]; [by auto|]); done.
  Qed.
  Lemma remove_ops_splits G p : splits_of (remove_ops G p) = [].
  Proof. unfold remove_ops. by destruct (decide _). Qed.

  (** the part of a round that all processors of the world do alike *)
  Definition head_ops (G : wid) : list ev := [(G, OBisect); (G, OSum); (G, OSum)].
  Definition move_ops (G : wid) (p : Z) : list ev := head_ops G ++ (if decide (m = CutNet) then remove_ops G p else []) ++ redistribute_ops G.

  Lemma par_round_cases st e st' : par_round W m st = Some (e, st') →
    (e = head_ops (cs_G st) ++ [(cs_G st, OSync)] ∧ cs_G st' = cs_G st ∧ cs_high st' - cs_low st' ≤ 0) ∨
    ∃ c, e = move_ops (cs_G st) (cs_p st) ++ [(cs_G st, OSplit c); (cs_G st ++ [c], OSync)] ∧ cs_G st' = cs_G st ++ [c].
  Proof.
    unfold par_round. destruct (p_low_of _ _ _ _ _) as [q|]; cbn -[app decide]; [|done].
    set (c := if decide (cs_s st < q) then 0 else 1).
    destruct (decide (_ > 0)) as [Hd|Hd]; intros [= <- <-].
    - right. exists c. split; [|done]. unfold move_ops, head_ops. cbn -[remove_ops redistribute_ops].
      by rewrite <- !app_assoc.
    - left. cbn. split; [done|]. split; [done|lia].
  Qed.

  Lemma head_ops_on G x : x ∈ head_ops G → fst x = G.
  Proof. unfold head_ops. rewrite !elem_of_cons, elem_of_nil. by intros [->|[->|[->|[]]]]. Qed.
  Lemma move_ops_on G p x : x ∈ move_ops G p → fst x = G ∨ (fst x = [] ∧ m = CutNet).
  Proof.
    unfold move_ops. rewrite !elem_of_app. intros [Hx|[Hx|Hx]].
    - left. by apply head_ops_on.
    - destruct (decide (m = CutNet)) as [Hm|]; [|by apply elem_of_nil in Hx].
      apply remove_ops_on in Hx as [Hx|Hx]; auto.
    - left. unfold redistribute_ops in Hx. rewrite !elem_of_cons, elem_of_nil in Hx.
      repeat (destruct Hx as [->|Hx]; [done|]); done.
  Qed.
  Lemma move_ops_splits G p : splits_of (move_ops G p) = [].
  Proof. unfold move_ops. rewrite !splits_app. destruct (decide _); [rewrite remove_ops_splits|]; done. Qed.

  Lemma par_loop_shape f : ∀ st e st', par_loop W m f st = Some (e, st') →
    cs_G st `prefix_of` cs_G st' ∧
    (∀ x, x ∈ e → fst x `prefix_of` cs_G st' ∧ (cs_G st `prefix_of` fst x ∨ (fst x = [] ∧ m = CutNet))) ∧
    (∀ G', G' ∈ splits_of e ↔ G' `prefix_of` cs_G st' ∧ proper_ext (cs_G st) G').
  Proof.
    induction f as [|f IH]; intros st e st'; cbn [par_loop]; destruct (decide _) as [Hd|Hd]; try done.
    2: destruct (par_round W m st) as [[e1 st1]|] eqn:Hr; cbn [mbind option_bind]; [|done].
    2: destruct (par_loop W m f (snd (e1, st1))) as [[e2 st2]|] eqn:Hl; cbn [mbind option_bind]; [|done].
    1, 3: intros [= <- <-]; split; [done|]; split; [by intros x ?%elem_of_nil|];
      intros G'; cbn; rewrite elem_of_nil; split; [done|]; intros [Hp (c & D & ->)];
      apply prefix_length in Hp; rewrite app_length in Hp; cbn in Hp; lia.
    cbn [fst snd] in *. intros [= <- <-]. apply IH in Hl as (Hp & Hon & Hsp).
    apply par_round_cases in Hr as [(-> & HG & _)|(c & -> & HG)].
    - rewrite HG in *. split; [done|]. split.
      + intros x [Hx|Hx]%elem_of_app; [|by apply Hon].
        assert (fst x = cs_G st) as ->; [|by auto].
        apply elem_of_app in Hx as [Hx|Hx]; [by apply head_ops_on|]. by apply elem_of_list_singleton in Hx as ->.
      + intros G'. rewrite splits_app. cbn. apply Hsp.
    - rewrite HG in *. assert (cs_G st `prefix_of` cs_G st2) as Hp2 by (etrans; [|done]; by apply prefix_app_r).
      split; [done|]. split.
      + intros x [Hx|Hx]%elem_of_app.
        * apply elem_of_app in Hx as [Hx|Hx].
          -- apply move_ops_on in Hx as [->|[Hx Hm]]; [by auto|]. rewrite Hx. split; [apply prefix_nil|by auto].
          -- rewrite !elem_of_cons, elem_of_nil in Hx. destruct Hx as [->|[->|[]]]; cbn; [by auto|].
             split; [done|]. left. by apply prefix_app_r.
        * destruct (Hon x Hx) as [H1 H2]. split; [done|]. destruct H2 as [H2|H2]; [|by auto]. left.
          etrans; [|done]. by apply prefix_app_r.
      + intros G'. rewrite splits_app, splits_app, move_ops_splits. cbn. rewrite elem_of_cons, Hsp. split.
        * intros [->|[H1 H2]]; [split; [done|by exists c, []]|]. split; [done|by eapply proper_ext_snoc].
        * intros [H1 (d & D & ->)].
          assert (d = c) as ->.
          { destruct Hp as [X1 HX1], H1 as [X2 HX2]. rewrite HX1 in HX2. rewrite <- !app_assoc in HX2. cbn in HX2.
            apply app_inv_head in HX2. by injection HX2 as <-. }
          destruct D as [|d D]; [by left|right]. split; [done|]. exists d, D. by rewrite <- app_assoc.
  Qed.

  Lemma seq_job_on f G : ∀ low high jobs sp e r, seq_job m f G low high jobs sp = Some (e, r) →
    (∀ x, x ∈ e → fst x = G ∨ (fst x = [] ∧ m = CutNet)) ∧ splits_of e = [].
  Proof.
    induction f as [|f IH]; intros low high jobs sp e r; cbn [seq_job]; destruct (decide _) as [Hd|Hd]; try done;
      [by intros [= <- <-]; split; [intros x ?%elem_of_nil|]| |by intros [= <- <-]; split; [intros x ?%elem_of_nil|]].
    set (jobs' := if decide (snd (labels_1 low high) - fst (labels_1 low high) > 0) then _ else _). clearbody jobs'.
    destruct (seq_job _ _ _ _ _ _ _) as [[e1 r1]|] eqn:Hr; cbn [mbind option_bind]; [|done].
    cbn [fst snd]. intros [= <- <-]. apply IH in Hr as [H1 H2]. split.
    - intros x [->|Hx]%elem_of_cons; [by left|].
      apply elem_of_app in Hx as [Hx|Hx]; [|by apply H1].
      destruct (decide _) as [[Hm _]|]; [|by apply elem_of_nil in Hx]. apply remove_ops_on in Hx as [Hx|Hx]; auto.
    - change (splits_of ((if decide (m = CutNet ∧ jobs' ≠ []) then remove_ops G 1 else []) ++ e1) = []).
      rewrite splits_app, H2. destruct (decide _); [by rewrite remove_ops_splits|done].
  Qed.
  Lemma seq_loop_on f G : ∀ jobs sp e r, seq_loop m f G jobs sp = Some (e, r) →
    (∀ x, x ∈ e → fst x = G ∨ (fst x = [] ∧ m = CutNet)) ∧ splits_of e = [].
  Proof.
    induction f as [|f IH]; intros [|j jobs] sp e r; cbn [seq_loop]; try done;
      [by intros [= <- <-]; split; [intros x ?%elem_of_nil|]|by intros [= <- <-]; split; [intros x ?%elem_of_nil|]|].
    destruct (seq_job _ _ _ _ _ _ _) as [[e1 [r1 r1']]|] eqn:H1; cbn [mbind option_bind fst snd]; [|done].
    destruct (seq_loop _ _ _ _ _) as [[e2 r2]|] eqn:H2; cbn [mbind option_bind fst snd]; [|done].
    intros [= <- <-]. apply seq_job_on in H1 as [H1 H1']. apply IH in H2 as [H2 H2'].
    split; [|by rewrite splits_app, H1', H2']. intros x [Hx|Hx]%elem_of_app; auto.
  Qed.
  Lemma end_ops_on G p sp : (∀ x, x ∈ end_ops m k G p sp → fst x = [] ∨ fst x = G) ∧ splits_of (end_ops m k G p sp) = [].
  Proof.
    unfold end_ops. split.
    - intros x [Hx|Hx]%elem_of_app; [|apply elem_of_list_singleton in Hx as ->; by left].
      destruct (decide (m = CutNet)); [|by apply elem_of_nil in Hx]. apply elem_of_app in Hx as [Hx|Hx].
      + destruct (decide _); [by apply remove_ops_on in Hx|by apply elem_of_nil in Hx].
      + unfold add_ops in Hx. rewrite !elem_of_cons, elem_of_nil in Hx. destruct Hx as [->|[->|[]]]; by left.
    - rewrite splits_app. destruct (decide (m = CutNet)); [|done]. destruct (decide _); [|done].
      by rewrite splits_app, remove_ops_splits.
  Qed.

  (** the innermost world of a processor *)
  Definition inner (p s : Z) : wid :=
    match par_loop W m (Z.to_nat k) (CS [0] p s 0 (k - 1) (if decide (p = 1) then [(0, k - 1)] else []) 0) with
    | Some r => cs_G (snd r) | None => [] end.

  Lemma rb_ops_worlds p s e : rb_ops W m k p s = Some e →
    (∀ G, G ∈ worlds e ↔ G `prefix_of` inner p s) ∧ (∀ x, x ∈ e → fst x `prefix_of` inner p s).
  Proof.
    unfold rb_ops, inner. set (st0 := CS _ _ _ _ _ _ _).
    destruct (par_loop _ _ _ _) as [[e1 st]|] eqn:Hp; cbn [mbind option_bind fst snd]; [|done].
    destruct (seq_loop _ _ _ _ _) as [[e2 sp]|] eqn:Hs; cbn [mbind option_bind fst snd]; [|done].
    intros [= <-]. apply par_loop_shape in Hp as (HG & Hon & Hsp). apply seq_loop_on in Hs as [Hon2 Hsp2].
    destruct (end_ops_on (cs_G st) (cs_p st) sp) as [Hon3 Hsp3]. subst st0. cbn [cs_G] in *. split.
    - intros G. change (worlds ?l) with ([] :: splits_of l).
      change (([], OSum) :: ([], OSplit 0) :: ?l) with ([([], OSum); ([], OSplit 0)] ++ l).
      rewrite !splits_app, Hsp2, Hsp3, app_nil_r. cbn -[splits_of]. cbn [splits_of omap list_omap snd fst app]. fold (splits_of e1).
      rewrite !elem_of_cons, Hsp. split.
      + intros [->|[->|[H _]]]; [apply prefix_nil|done|done].
      + intros H. destruct G as [|c D]; [by left|right].
        assert (c = 0) as ->. { destruct HG as [X HX], H as [Y HY]. rewrite HX in HY. by injection HY. }
        destruct D as [|d D]; [by left|right]. split; [done|]. by exists d, D.
    - intros x. rewrite !elem_of_cons. intros [->|[->|Hx]]; [apply prefix_nil..|].
      apply elem_of_app in Hx as [Hx|Hx]; [by apply Hon|]. apply elem_of_app in Hx as [Hx|Hx].
      + apply Hon2 in Hx as [->|[-> _]]; [done|apply prefix_nil].
      + apply Hon3 in Hx as [->| ->]; [apply prefix_nil|done].
  Qed.
End shape.
