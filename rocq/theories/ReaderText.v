(** The reader on texts that follow the format: what its scanning functions deliver. *)
From Verif Require Export Reader SpecReader HgOps.

Lemma nl_newline : nl = newline.
Proof. reflexivity. Qed.
Lemma is_space_iff c : is_space c = true ↔ whitespace c.
Proof. unfold is_space, whitespace. by rewrite bool_decide_eq_true. Qed.
Lemma is_space_false c : is_space c = false ↔ ¬ whitespace c.
Proof. rewrite <-is_space_iff. by destruct (is_space c). Qed.
Lemma newline_whitespace : whitespace newline.
Proof. unfold whitespace. change (nat_of_ascii newline) with 10%nat. set_solver. Qed.

Definition is_digit (c : ascii) : Prop := (48 ≤ nat_of_ascii c ≤ 57)%nat.
Lemma digit_Some c : is_digit c → digit c = Some (Z.of_nat (nat_of_ascii c) - 48).
Proof. intros ?. unfold digit. by rewrite decide_True. Qed.
Lemma digit_None c : ¬ is_digit c → digit c = None.
Proof. intros ?. unfold digit. by rewrite decide_False. Qed.
Lemma whitespace_not_digit c : whitespace c → ¬ is_digit c.
Proof. unfold whitespace, is_digit. rewrite !elem_of_cons, elem_of_nil. lia. Qed.
Lemma digit_not_newline c : is_digit c → c ≠ newline.
Proof. intros Hc ->. by apply (whitespace_not_digit _ newline_whitespace). Qed.
Lemma digit_not_sign c : is_digit c → c ≠ "-"%char ∧ c ≠ "+"%char ∧ c ≠ "%"%char.
Proof.
  unfold is_digit. intros Hc. split; [intros ->|split; intros ->];
    vm_compute in Hc; destruct Hc as [H1 H2]; lia.
Qed.

(** *** No newline *)
Lemma no_newline_app (a b : text) : newline ∉ a → newline ∉ b → newline ∉ a ++ b.
Proof. rewrite elem_of_app. tauto. Qed.
Lemma blanks_no_newline s : Forall blank s → newline ∉ s.
Proof. intros HF Hi. rewrite Forall_forall in HF. by destruct (HF _ Hi). Qed.
Lemma gap_no_newline s : gap s → newline ∉ s.
Proof. intros [_ ?]. by apply blanks_no_newline. Qed.
Lemma word_no_newline s : is_word s → newline ∉ s.
Proof. intros [_ HF] Hi. rewrite Forall_forall in HF. by apply (HF _ Hi), newline_whitespace. Qed.
Lemma numeral_no_newline n s : numeral n s → newline ∉ s.
Proof. intros (_ & HF & _) Hi. rewrite Forall_forall in HF. by apply (digit_not_newline newline (HF _ Hi)). Qed.
Lemma tail_no_newline s : line_tail s → newline ∉ s.
Proof.
  intros [->|(c & s' & -> & [_ Hc] & Hs)]; [apply not_elem_of_nil|]. rewrite elem_of_cons. intros [?|?]; [by apply Hc|done].
Qed.
Lemma symmetry_word sy : is_word (symmetry_name sy).
Proof.
  split; [by destruct sy|].
  destruct sy; cbn [symmetry_name]; repeat constructor; unfold whitespace; rewrite !elem_of_cons, elem_of_nil;
    vm_compute; intros [?|[?|[?|[?|[?|[?|[]]]]]]]; discriminate.
Qed.
Global Hint Resolve no_newline_app blanks_no_newline gap_no_newline word_no_newline numeral_no_newline
  tail_no_newline symmetry_word : nonl.

Lemma banner_no_newline (sym l : text) : banner_line sym l → newline ∉ l.
Proof. intros (w1 & g1 & w2 & g2 & w3 & g3 & w4 & g4 & tl & -> & ?). destruct_and!. eauto 20 with nonl. Qed.
Lemma comment_no_newline l : comment_line l → newline ∉ l.
Proof. intros (c & -> & Hc & _). rewrite elem_of_cons. intros [?|?]; [discriminate|done]. Qed.
Lemma size_no_newline E V L l : size_line E V L l → newline ∉ l.
Proof. intros (a & sE & g1 & sV & g2 & sL & tl & -> & ?). destruct_and!. eauto 20 with nonl. Qed.
Lemma entry_no_newline ev l : entry_line ev l → newline ∉ l.
Proof. intros (a & se & g & sv & tl & -> & ?). destruct_and!. eauto 20 with nonl. Qed.

Lemma wn_app (l r : text) : with_newline l ++ r = l ++ newline :: r.
Proof. unfold with_newline. by rewrite <-(assoc_L (++)). Qed.

(** *** Lines *)
Lemma split_line_newline l r : newline ∉ l → split_line (l ++ newline :: r) = (l, Some r).
Proof.
  induction l as [|c l IH]; intros Hl; cbn [app split_line].
  - by rewrite decide_True.
  - apply not_elem_of_cons in Hl as [Hc Hl]. rewrite decide_False by (rewrite nl_newline; congruence).
    by rewrite (IH Hl).
Qed.
Lemma split_line_none l : newline ∉ l → split_line l = (l, None).
Proof.
  induction l as [|c l IH]; intros Hl; cbn [split_line]; [done|].
  apply not_elem_of_cons in Hl as [Hc Hl]. rewrite decide_False by (rewrite nl_newline; congruence).
  by rewrite (IH Hl).
Qed.
Lemma getline_newline l r line : newline ∉ l →
  getline (Stream (l ++ newline :: r) false false) line = (Stream r false false, l).
Proof. intros Hl. unfold getline. cbn [good s_eof s_fail negb orb s_rest]. by rewrite split_line_newline. Qed.

Lemma rest_lines_lines ls tl fuel :
  Forall (λ l, newline ∉ l) ls → newline ∉ tl → (length ls < fuel)%nat →
  rest_lines fuel (concat (with_newline <$> ls) ++ tl) = ls ++ (match tl with [] => [] | _ => [tl] end).
Proof.
  intros HF Htl. revert fuel. induction HF as [|l ls Hl HF IH]; intros fuel Hfuel; (destruct fuel as [|fuel]; [cbn in Hfuel; lia|]).
  - cbn [fmap list_fmap concat app rest_lines]. rewrite split_line_none by done. cbn [fst snd]. by destruct tl.
  - rewrite fmap_cons. cbn [concat rest_lines]. rewrite <-!(assoc_L (++)), wn_app.
    rewrite split_line_newline by done. cbn [fst snd app]. rewrite IH; [done|]. cbn in Hfuel. lia.
Qed.
Lemma lines_length (ls : list text) : (length ls ≤ length (concat (with_newline <$> ls)))%nat.
Proof.
  induction ls as [|l ls IH]; [done|]. rewrite fmap_cons. cbn [concat length]. unfold with_newline at 1.
  rewrite !app_length. cbn. lia.
Qed.

Lemma lines_end (ls : list text) : ls ≠ [] → ∃ X, concat (with_newline <$> ls) = X ++ [newline].
Proof.
  destruct ls as [|l ls _] using rev_ind; [done|]. intros _. rewrite fmap_app, concat_app. cbn [fmap list_fmap concat].
  rewrite app_nil_r. unfold with_newline at 2. rewrite (assoc_L (++)). eauto.
Qed.

(** *** Items *)
Lemma skip_ws_blanks a r : Forall blank a → skip_ws (a ++ r) = skip_ws r.
Proof.
  induction 1 as [|c a [Hc _] _ IH]; [done|]. cbn [app skip_ws]. by rewrite (proj2 (is_space_iff c) Hc).
Qed.
Lemma skip_ws_stop c r : ¬ whitespace c → skip_ws (c :: r) = c :: r.
Proof. intros Hc. cbn [skip_ws]. by rewrite (proj2 (is_space_false c) Hc). Qed.
Lemma span_word_app w r : Forall (λ c, ¬ whitespace c) w → (r = [] ∨ ∃ c r', r = c :: r' ∧ whitespace c) →
  span_word (w ++ r) = (w, r).
Proof.
  intros Hw Hr. induction Hw as [|c w Hc _ IH].
  - cbn [app]. destruct Hr as [->|(c & r' & -> & Hc)]; [done|]. cbn [span_word]. by rewrite (proj2 (is_space_iff c) Hc).
  - cbn [app span_word]. by rewrite (proj2 (is_space_false c) Hc), IH.
Qed.
Definition stops (r : text) : Prop := r = [] ∨ ∃ c r', r = c :: r' ∧ whitespace c.
Lemma gap_stops g r : gap g → stops (g ++ r).
Proof. intros [Hne HF]. destruct HF as [|c g [Hc _] _]; [done|]. right. by exists c, (g ++ r). Qed.
Lemma tail_stops s r : line_tail s → stops r → stops (s ++ r).
Proof. intros [->|(c & s' & -> & [Hc _] & _)] Hr; [done|]. right. by exists c, (s' ++ r). Qed.
Lemma newline_stops r : stops (newline :: r).
Proof. right. exists newline, r. split; [done|]. apply newline_whitespace. Qed.

Lemma get_word_app a w r : Forall blank a → is_word w → stops r → get_word (a ++ w ++ r) = Some (w, r).
Proof.
  intros Ha [Hne Hw] Hr. unfold get_word. rewrite skip_ws_blanks by done.
  pose proof (span_word_app w r Hw Hr) as Hspan. destruct Hw as [|c w Hc Hw]; [done|].
  cbn [app] in *. by rewrite skip_ws_stop, Hspan.
Qed.

Lemma get_word_0 w r : is_word w → stops r → get_word (w ++ r) = Some (w, r).
Proof. intros. by apply (get_word_app []). Qed.

Lemma digits_app s r acc b : Forall is_digit s → (r = [] ∨ ∃ c r', r = c :: r' ∧ ¬ is_digit c) →
  digits (s ++ r) acc b = (foldl (λ a c, 10 * a + (Z.of_nat (nat_of_ascii c) - 48)) acc s, bool_decide (s ≠ []) || b, r).
Proof.
  intros Hs Hr. revert acc b. induction Hs as [|c s Hc Hs IH]; intros acc b.
  - cbn [app foldl]. destruct Hr as [->|(c & r' & -> & Hc)]; [done|]. cbn [digits]. by rewrite digit_None.
  - cbn [app digits foldl]. rewrite (digit_Some c Hc), IH. f_equal. f_equal.
    rewrite (bool_decide_true (c :: s ≠ [])) by done. by rewrite orb_true_r.
Qed.
Lemma stops_digits r : stops r → r = [] ∨ ∃ c r', r = c :: r' ∧ ¬ is_digit c.
Proof. intros [->|(c & r' & -> & Hc)]; [by left|]. right. exists c, r'. split; [done|]. by apply whitespace_not_digit. Qed.
Lemma parse_numeral n s r : numeral n s → n < two64 → stops r → parse_unsigned (s ++ r) = (n, true, r).
Proof.
  intros (Hne & Hs & Hn) Hlt Hr. pose proof (digits_app s r 0 false Hs (stops_digits r Hr)) as Hd.
  destruct s as [|c s]; [done|]. unfold parse_unsigned. cbn [app] in *.
  pose proof (Forall_inv Hs) as Hc. destruct (digit_not_sign c Hc) as (Hm & Hp & _).
  rewrite decide_False by tauto. rewrite Hd, (bool_decide_false (c = _)), (bool_decide_true (c :: s ≠ [])) by done.
  cbn [fst snd negb orb]. rewrite <-Hn. by rewrite decide_False by lia.
Qed.
Lemma numeral_word n s : numeral n s → is_word s.
Proof.
  intros (Hne & Hs & _). split; [done|]. eapply Forall_impl; [exact Hs|]. intros c Hc Hw. by apply (whitespace_not_digit c).
Qed.
Lemma skip_ws_word w r : is_word w → skip_ws (w ++ r) = w ++ r.
Proof. intros [Hne Hw]. destruct Hw as [|c w Hc _]; [done|]. by apply skip_ws_stop. Qed.
Lemma get_num_app a n s r : Forall blank a → numeral n s → n < two64 → stops r → get_num (a ++ s ++ r) = Some (n, r).
Proof.
  intros Ha Hs Hn Hr. unfold get_num. rewrite skip_ws_blanks, skip_ws_word by eauto using numeral_word.
  pose proof (parse_numeral n s r Hs Hn Hr) as Hp. destruct Hs as (? & _). destruct s; [done|]. cbn [app] in *. by rewrite Hp.
Qed.
Lemma stream_num_app a n s r : Forall blank a → numeral n s → n < two64 → stops r → r ≠ [] →
  stream_num (Stream (a ++ s ++ r) false false) = (Some n, Stream r false false).
Proof.
  intros Ha Hs Hn Hr Hne. unfold stream_num. cbn [good s_eof s_fail negb orb s_rest].
  rewrite skip_ws_blanks, skip_ws_word by eauto using numeral_word.
  pose proof (parse_numeral n s r Hs Hn Hr) as Hp. destruct Hs as (? & _). destruct s; [done|]. cbn [app] in *. rewrite Hp.
  cbn [fst snd negb]. by rewrite (bool_decide_false (r = [])) by done.
Qed.
Lemma gap_blanks g : gap g → Forall blank g.
Proof. by intros [_ ?]. Qed.
Lemma get_entry_line ev l : entry_line ev l → fst ev < two64 → snd ev < two64 → get_entry l = Some ev.
Proof.
  intros (a & se & g & sv & tl & -> & Ha & He & Hg & Hv & Htl) ??. unfold get_entry.
  rewrite (get_num_app a (fst ev) se) by (eauto using gap_stops). cbn [snd fst].
  rewrite (get_num_app g (snd ev) sv); [by destruct ev|by apply gap_blanks|done|done|].
  rewrite <-(app_nil_r tl). apply tail_stops; [done|]. by left.
Qed.

(** *** Comments *)
Lemma ignore_line l r n : newline ∉ l → (length l < n)%nat → ignore n (l ++ newline :: r) = r.
Proof.
  revert n. induction l as [|c l IH]; intros n Hl Hn; (destruct n as [|n]; [cbn in Hn; lia|]); cbn [app ignore].
  - by rewrite decide_True.
  - apply not_elem_of_cons in Hl as [Hc Hl]. rewrite decide_False by (rewrite nl_newline; congruence).
    apply IH; [done|]. cbn in Hn. lia.
Qed.
Lemma skip_comments_app cs r fuel :
  Forall comment_line cs → (∀ c r', r = c :: r' → c ≠ "%"%char) → (length cs ≤ fuel)%nat →
  skip_comments fuel (concat (with_newline <$> cs) ++ r) = r.
Proof.
  intros Hcs Hr. revert fuel. induction Hcs as [|l cs Hl Hcs IH]; intros fuel Hfuel.
  - cbn [fmap list_fmap concat app]. destruct fuel, r as [|c r]; cbn [skip_comments]; try done. rewrite decide_False; [done|]. by eapply Hr.
  - destruct fuel as [|fuel]; [cbn in Hfuel; lia|]. rewrite fmap_cons. cbn [concat].
    pose proof (comment_no_newline l Hl) as Hnl. destruct Hl as (c & -> & Hc & Hlen).
    rewrite <-(assoc_L (++)). unfold with_newline at 1. rewrite <-(assoc_L (++)). cbn [app skip_comments].
    rewrite decide_True by done. change ("%"%char :: c ++ newline :: ?x) with (("%"%char :: c) ++ newline :: x).
    rewrite ignore_line; [|done|lia]. apply IH. cbn in Hfuel. lia.
Qed.

Lemma size_line_first E V L l r : size_line E V L l → ∃ c l', l ++ r = c :: l' ∧ c ≠ "%"%char.
Proof.
  intros (a & sE & g1 & sV & g2 & sL & tl & -> & Ha & (Hne & HE & _) & _).
  destruct Ha as [|c a [Hc _] _].
  - destruct HE as [|c s Hc _]; [done|]. cbn [app]. eexists _, _. split; [done|]. by apply digit_not_sign.
  - cbn [app]. eexists _, _. split; [done|]. intros ->. unfold whitespace in Hc. rewrite !elem_of_cons, elem_of_nil in Hc. vm_compute in Hc.
    destruct Hc as [?|[?|[?|[?|[?|[?|[]]]]]]]; discriminate.
Qed.

(** *** The header *)
Lemma read_header_listing (sym : text) E V L (banner : text) comments sizes body :
  banner_line sym banner → Forall comment_line comments → size_line E V L sizes →
  E < two64 → V < two64 → L < two64 →
  ∃ line, read_header (with_newline banner ++ concat (with_newline <$> comments) ++ with_newline sizes ++ body) =
    Some (sym, (Some E, Some V, Some L), (Stream body false false, line)).
Proof.
  intros Hb Hc Hs HE HV HL. unfold read_header. rewrite wn_app.
  rewrite getline_newline by (by eapply banner_no_newline). cbn [fst snd].
  destruct Hb as (w1 & g1 & w2 & g2 & w3 & g3 & w4 & g4 & tl & -> & Hw1 & Hw2 & Hw3 & Hw4 & Hw5 & Hg1 & Hg2 & Hg3 & Hg4 & Htl).
  rewrite (get_word_0 w1) by (auto using gap_stops). cbn [snd].
  rewrite (get_word_app g1 w2) by (auto using gap_stops, gap_blanks). cbn [snd].
  rewrite (get_word_app g2 w3) by (auto using gap_stops, gap_blanks). cbn [snd].
  rewrite (get_word_app g3 w4) by (auto using gap_stops, gap_blanks). cbn [snd].
  rewrite (get_word_app g4 sym); [|by apply gap_blanks|done|].
  2: { rewrite <-(app_nil_r tl). apply tail_stops; [done|]. by left. }
  cbn [fst snd]. unfold skip_comments_st. cbn [good s_eof s_fail negb orb s_rest].
  destruct (size_line_first _ _ _ _ (newline :: body) Hs) as (c & l' & Hcl & Hcp).
  assert (with_newline sizes ++ body = c :: l') as Hcl'.
  { by rewrite wn_app. }
  rewrite skip_comments_app; [|done| |].
  2: { intros c' r' Hr. rewrite Hcl' in Hr. by injection Hr as <- <-. }
  2: { rewrite app_length. pose proof (lines_length comments). lia. }
  rewrite (bool_decide_false (with_newline sizes ++ body = [])) by (by rewrite Hcl').
  destruct Hs as (a & sE & gg1 & sV & gg2 & sL & tl' & -> & Ha & HsE & Hgg1 & HsV & Hgg2 & HsL & Htl').
  rewrite wn_app, <-!(assoc_L (++)).
  assert (∀ g x, gap g → g ++ x ≠ []) as Hne. { intros g x [Hg _] [-> _]%app_nil. done. }
  rewrite (stream_num_app a E sE) by (auto using gap_stops). cbn [fst snd].
  rewrite (stream_num_app gg1 V sV) by (auto using gap_stops, gap_blanks). cbn [fst snd].
  rewrite (stream_num_app gg2 L sL); [|by apply gap_blanks|done|done| |].
  2: { apply tail_stops; [done|]. apply newline_stops. }
  2: { intros [_ ?]%app_nil. done. }
  cbn [fst snd]. rewrite getline_newline by (by apply tail_no_newline). eauto.
Qed.

Lemma stream_lines_listing (lines : list text) body :
  Forall (λ l, newline ∉ l) lines → Forall (λ l, l ≠ []) lines →
  body = concat (with_newline <$> lines) ∨ with_newline body = concat (with_newline <$> lines) →
  stream_lines (Stream body false false) = lines.
Proof.
  intros Hnl Hne Hb. unfold stream_lines. cbn [good s_eof s_fail negb orb s_rest]. destruct Hb as [->|Hb].
  - rewrite <-(app_nil_r (concat _)) at 2. rewrite rest_lines_lines; [apply app_nil_r|done|apply not_elem_of_nil|].
    pose proof (lines_length lines). lia.
  - destruct lines as [|l ls _] using rev_ind.
    + by apply app_nil in Hb as [_ ?].
    + rewrite fmap_app, concat_app in Hb. cbn [fmap list_fmap concat] in Hb. rewrite app_nil_r in Hb. unfold with_newline in Hb.
      rewrite (assoc_L (++)) in Hb. apply app_inj_tail in Hb as [-> _]. apply Forall_app in Hnl as [Hnl Hl%Forall_inv].
      apply Forall_app in Hne as [_ Hl'%Forall_inv]. change (λ l0 : text, l0 ++ [newline]) with with_newline.
      rewrite rest_lines_lines; [|done|done|].
      * by destruct l.
      * rewrite app_length. pose proof (lines_length ls). lia.
Qed.

Lemma entry_line_nonempty ev l : entry_line ev l → l ≠ [].
Proof.
  intros (a & se & g & sv & tl & -> & _ & (Hne & _) & _). intros [_ [-> _]%app_nil]%app_nil. done.
Qed.
Lemma entry_lines_ok entries (lines : list text) : Forall2 entry_line entries lines →
  Forall (λ l, newline ∉ l) lines ∧ Forall (λ l, l ≠ []) lines.
Proof.
  induction 1 as [|ev l entries lines Hl _ [IH1 IH2]]; [done|]. split; constructor; eauto using entry_no_newline, entry_line_nonempty.
Qed.

(** calls of getline that deliver exactly the lines *)
Lemma next_lines_listing (lines : list text) body line :
  Forall (λ l, newline ∉ l) lines → Forall (λ l, l ≠ []) lines →
  body = concat (with_newline <$> lines) ∨ with_newline body = concat (with_newline <$> lines) →
  next_lines (length lines) (Stream body false false) line = lines.
Proof.
  intros Hnl Hne. revert body line. induction Hnl as [|l lines Hl Hnl IH]; intros body line Hb; [done|].
  pose proof (Forall_inv Hne) as Hl'. apply Forall_inv_tail in Hne. cbn [length next_lines].
  rewrite fmap_cons in Hb. cbn [concat] in Hb. unfold with_newline in Hb at 1.
  destruct Hb as [->|Hb].
  - rewrite <-(assoc_L (++)). cbn [app]. rewrite getline_newline by done. cbn [fst snd]. f_equal. apply IH; [done|]. by left.
  - destruct lines as [|l2 lines].
    + cbn [fmap list_fmap concat] in Hb. rewrite app_nil_r in Hb. apply app_inj_tail in Hb as [-> _].
      cbn [length next_lines]. unfold getline. cbn [good s_eof s_fail negb orb s_rest]. by rewrite split_line_none.
    + assert (∃ body', body = l ++ newline :: body' ∧ with_newline body' = concat (with_newline <$> l2 :: lines)) as (body' & -> & Hb').
      { destruct (lines_end (l2 :: lines)) as (X & HX); [done|]. rewrite HX in Hb |- *.
        rewrite !(assoc_L (++)) in Hb. apply app_inj_tail in Hb as [-> _]. exists X. split; [|done].
        apply wn_app. }
      rewrite getline_newline by done. cbn [fst snd]. f_equal. apply IH; [done|]. by right.
Qed.
