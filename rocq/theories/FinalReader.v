(** The property lemmas C33-C35: reading matrices. *)
From Coq Require Export String.
From Verif Require Export ReaderPar ReaderBad FinalPar.
Local Open Scope list_scope.

(** ** Example texts *)
Definition chars (s : string) : ctext := list_ascii_of_string s.
Definition ex_banner (sy : matrix_symmetry) : ctext :=
  chars "%%MatrixMarket matrix coordinate real " ++ symmetry_name sy.
Definition ex_comments : list ctext := [chars "% made by hand"; chars "%"].
(** a 3 by 4 matrix whose second row is empty; the last newline is missing *)
Definition ex_lines : list ctext := [chars "1 1 2.5"; chars "  01 3 -1"; chars "3 2"; chars "3 4	7e3 x"; chars "1 4 1"].
Definition ex_entries : list (Z * Z) := [(1, 1); (1, 3); (3, 2); (3, 4); (1, 4)].
Definition ex_text : ctext :=
  with_newline (ex_banner MGeneral) ++ concat (with_newline <$> ex_comments) ++ with_newline (chars "3  4 5") ++
  (concat (with_newline <$> take 4 ex_lines) ++ chars "1 4 1").
(** a symmetric 3 by 3 matrix *)
Definition ex_lines_sym : list ctext := [chars "1 1"; chars "2 1"; chars "3 2"].
Definition ex_entries_sym : list (Z * Z) := [(1, 1); (2, 1); (3, 2)].
Definition ex_text_sym : ctext :=
  with_newline (ex_banner MSymmetric) ++ [] ++ with_newline (chars "3 3 3") ++ concat (with_newline <$> ex_lines_sym).

Global Instance whitespace_dec c : Decision (whitespace c).
Proof. unfold whitespace. apply _. Defined.
Global Instance blank_dec c : Decision (blank c).
Proof. unfold blank. apply _. Defined.
Global Instance numeral_dec n s : Decision (numeral n s).
Proof. unfold numeral. apply _. Defined.
Global Instance is_word_dec s : Decision (is_word s).
Proof. unfold is_word. apply _. Defined.
Global Instance gap_dec s : Decision (gap s).
Proof. unfold gap. apply _. Defined.
Ltac by_comp := apply (bool_decide_eq_true_1 _); vm_compute; reflexivity.
Lemma tail_ok (s : ctext) : bool_decide (s = [] ∨ (blank (hd newline s) ∧ newline ∉ tl s)) = true → line_tail s.
Proof.
  intros [->|Hs]%bool_decide_eq_true_1; [by left|]. destruct s as [|c s']; [by left|]. right. exists c, s'. done.
Qed.
Ltac by_tail := apply tail_ok; vm_compute; reflexivity.

Lemma ex_banner_ok sy : banner_line (symmetry_name sy) (ex_banner sy).
Proof.
  exists (chars "%%MatrixMarket"), (chars " "), (chars "matrix"), (chars " "), (chars "coordinate"), (chars " "), (chars "real"), (chars " "), [].
  split; [by destruct sy|]. split; [by_comp|]. split; [by_comp|]. split; [by_comp|]. split; [by_comp|]. split; [apply symmetry_word|].
  split; [by_comp|]. split; [by_comp|]. split; [by_comp|]. split; [by_comp|]. by left.
Qed.
Lemma ex_entry a se g sv tl ev : bool_decide (Forall blank a ∧ numeral (fst ev) se ∧ gap g ∧ numeral (snd ev) sv) = true → line_tail tl →
  entry_line ev (a ++ se ++ g ++ sv ++ tl).
Proof. intros (?&?&?&?)%bool_decide_eq_true_1 ?. exists a, se, g, sv, tl. done. Qed.
Lemma ex_listing : listing ex_text MGeneral 3 4 5 ex_entries.
Proof.
  exists (ex_banner MGeneral), ex_comments, (chars "3  4 5"), ex_lines, (concat (with_newline <$> take 4 ex_lines) ++ chars "1 4 1").
  split; [reflexivity|]. split; [apply ex_banner_ok|]. split; [|split; [|split]].
  - apply Forall_cons. split; [exists (chars " made by hand")|apply Forall_cons; split; [exists []|done]].
    + split; [done|]. split; [by_comp|]. vm_compute. lia.
    + split; [done|]. split; [by_comp|]. vm_compute. lia.
  - exists [], (chars "3"), (chars "  "), (chars "4"), (chars " "), (chars "5"), [].
    split; [done|]. split; [by_comp|]. split; [by_comp|]. split; [by_comp|]. split; [by_comp|]. split; [by_comp|]. split; [by_comp|]. by left.
  - constructor; [|constructor; [|constructor; [|constructor; [|constructor; [|constructor]]]]].
    + apply (ex_entry [] (chars "1") (chars " ") (chars "1") (chars " 2.5")); [vm_compute; reflexivity|by_tail].
    + apply (ex_entry (chars "  ") (chars "01") (chars " ") (chars "3") (chars " -1")); [vm_compute; reflexivity|by_tail].
    + apply (ex_entry [] (chars "3") (chars " ") (chars "2") []); [vm_compute; reflexivity|by_tail].
    + apply (ex_entry [] (chars "3") (chars " ") (chars "4") (chars "	7e3 x")); [vm_compute; reflexivity|by_tail].
    + apply (ex_entry [] (chars "1") (chars " ") (chars "4") (chars " 1")); [vm_compute; reflexivity|by_tail].
  - right. reflexivity.
Qed.
Lemma ex_valid : valid_listing MGeneral 3 4 5 ex_entries.
Proof. split; [by_comp|done..]. Qed.
Lemma ex_listing_sym : listing ex_text_sym MSymmetric 3 3 3 ex_entries_sym.
Proof.
  exists (ex_banner MSymmetric), [], (chars "3 3 3"), ex_lines_sym, (concat (with_newline <$> ex_lines_sym)).
  split; [reflexivity|]. split; [apply ex_banner_ok|]. split; [done|]. split; [|split].
  - exists [], (chars "3"), (chars " "), (chars "3"), (chars " "), (chars "3"), [].
    split; [done|]. split; [by_comp|]. split; [by_comp|]. split; [by_comp|]. split; [by_comp|]. split; [by_comp|]. split; [by_comp|]. by left.
  - constructor; [|constructor; [|constructor; [|constructor]]].
    + apply (ex_entry [] (chars "1") (chars " ") (chars "1") []); [vm_compute; reflexivity|by_tail].
    + apply (ex_entry [] (chars "2") (chars " ") (chars "1") []); [vm_compute; reflexivity|by_tail].
    + apply (ex_entry [] (chars "3") (chars " ") (chars "2") []); [vm_compute; reflexivity|by_tail].
  - by left.
Qed.
Lemma ex_valid_sym : valid_listing MSymmetric 3 3 3 ex_entries_sym.
Proof. split; [by_comp|done..]. Qed.

(** ** C33 *)
(** C33: reading a valid listing gives the row-net hypergraph of the matrix, with unit weights or
    degrees as weights; it is well formed when no nonzero is repeated. *)
Lemma C33_reading_proof t sy E V L entries mode weight w :
  listing t sy E V L entries → valid_listing sy E V L entries →
  (mode = ModeOne ∧ weight = weight_one) ∨ (mode = ModeDegree ∧ weight = weight_degree) →
  ∃ H w', read_hypergraph t mode w = Ok (Some H, w') ∧
    row_net E V (nonzeros sy entries) weight H ∧
    h_nz H = Z.of_nat (length (nonzeros sy entries)) ∧
    (NoDup (nonzeros sy entries) → consistent H).
Proof.
  intros Hl Hv Hmode. assert (mode ≠ ModeOther ∧ weight = mode_weight mode) as [Hm ->] by (destruct Hmode as [[-> ->]|[-> ->]]; done).
  pose proof (read_hypergraph_listing t sy E V L entries mode Hl Hv Hm) as Hw.
  apply wp_run with (w := w) in Hw as (o & w' & Heq & ->). eexists _, w'. split; [exact Heq|]. clear Heq. split; [|split].
  - by apply built_row_net.
  - done.
  - intros Hnd. pose proof (nonzeros_range _ _ _ _ _ Hv) as Hr.
    apply (with_nets_same_ids_consistent (mk_hg V E (columns (nonzeros sy entries) (mode_weight mode) (seqZ 0 V)) (rows (nonzeros sy entries) E) (Z.of_nat (length (nonzeros sy entries))))
        (λ n, set_ngsize (Z.of_nat (length (n_verts n))) n)); [done|].
    apply matrix_consistent; [done..|apply NoDup_seqZ| |].
    + eapply Forall_impl; [exact Hr|]. by intros ev [? _].
    + intros ev. split; [|tauto]. intros Hev. split; [done|]. rewrite Forall_forall in Hr. destruct (Hr _ Hev). apply elem_of_seqZ. lia.
Qed.
Definition summary (r : out (option hg * world)) : option (Z * Z * Z * list vertex * list net) :=
  match r with Ok (Some H, _) => Some (h_gsize H, h_gnets H, h_nz H, h_verts H, h_nets H) | _ => None end.
Example C33_example :
  (listing ex_text MGeneral 3 4 5 ex_entries ∧ valid_listing MGeneral 3 4 5 ex_entries ∧ NoDup (nonzeros MGeneral ex_entries) ∧
   summary (read_hypergraph ex_text ModeDegree w0) =
     Some (4, 3, 5, [Vertex 0 [0] 1 (-1); Vertex 1 [2] 1 (-1); Vertex 2 [0] 1 (-1); Vertex 3 [2; 0] 2 (-1)],
           [Net 0 [0; 2; 3] 1 3; Net 2 [1; 3] 1 2])) ∧
  (listing ex_text_sym MSymmetric 3 3 3 ex_entries_sym ∧ valid_listing MSymmetric 3 3 3 ex_entries_sym ∧
   summary (read_hypergraph ex_text_sym ModeOne w0) =
     Some (3, 3, 5, [Vertex 0 [0; 1] 1 (-1); Vertex 1 [0; 2] 1 (-1); Vertex 2 [1] 1 (-1)],
           [Net 0 [0; 1] 1 2; Net 1 [0; 2] 1 2; Net 2 [1] 1 1])).
Proof.
  split; (split; [first [apply ex_listing|apply ex_listing_sym]|]); (split; [first [apply ex_valid|apply ex_valid_sym]|]).
  - split; [by_comp|]. vm_compute. reflexivity.
  - vm_compute. reflexivity.
Qed.

(** ** C34 *)
(** C34, what holds for every text: the reader returns nothing, or a hypergraph that is the row-net
    hypergraph of some list of entries that are all in range, or it ends in undefined behaviour or
    with an exception of std::vector.  Missing: that it never ends in undefined behaviour, which is
    false (below). *)
Lemma C34_outcome_partial_proof t mode w :
  match read_hypergraph t mode w with
  | Ok (None, _) => True
  | Ok (Some H, _) => ∃ nzs weight,
      Forall (λ ev, 1 ≤ fst ev ≤ h_gnets H ∧ 1 ≤ snd ev ≤ h_gsize H) nzs ∧
      ((mode = ModeOne ∧ weight = weight_one) ∨ (mode = ModeDegree ∧ weight = weight_degree)) ∧
      row_net (h_gnets H) (h_gsize H) nzs weight H ∧ (NoDup nzs → consistent H)
  | Err e => e = UB ∨ e = Throw
  end.
Proof.
  pose proof (read_hypergraph_any t mode w) as Hw. destruct (read_hypergraph t mode w) as [[[H|] w']|e]; [|done|done].
  destruct (Hw H eq_refl) as (Hm & nzs & Hr & Hrn & Hc). exists nzs, (mode_weight mode). split; [done|]. split; [|done].
  destruct mode; auto. done.
Qed.
Lemma get_word_blanks l : Forall blank l → get_word l = None.
Proof. intros Hl. unfold get_word. rewrite <-(app_nil_r l). by rewrite skip_ws_blanks. Qed.
Lemma get_entry_no_number l : no_number l → get_entry l = None.
Proof.
  intros [_ [Hl|(a & c & r & -> & Ha & Hc & Hp & Hm & Hd)]]; unfold get_entry, get_num.
  - rewrite <-(app_nil_r l). by rewrite skip_ws_blanks.
  - rewrite skip_ws_blanks by done. rewrite skip_ws_stop by done. unfold parse_unsigned.
    rewrite decide_False by tauto. cbn [digits]. rewrite (digit_None c) by done. done.
Qed.
Lemma no_number_newline l : no_number l → newline ∉ l.
Proof. by intros [? _]. Qed.

(** C34, malformed texts that are rejected: *)
(** a first line with fewer than five words, *)
Lemma C34_banner_partial_proof l r mode w :
  at_most_words 4 l → newline ∉ l → read_hypergraph (with_newline l ++ r) mode w = Ok (None, w).
Proof.
  intros Hl Hnl. unfold read_hypergraph, read_header. rewrite wn_app, getline_newline by done. cbn [fst snd].
  assert (∀ n l, at_most_words n l → match get_word l with None => True | Some w => match n with O => False | S n => at_most_words n (snd w) end end) as Hstep.
  { intros n l0 Hl0. destruct n as [|n]; cbn [at_most_words] in Hl0; destruct Hl0 as [Hb|Hw]; try done; try (by rewrite (get_word_blanks _ Hb)).
    destruct Hw as (a & x & r0 & -> & Ha & Hx & Hr & Hn). rewrite (get_word_app a x r0); [done..|].
    destruct Hr as [->|(c & r' & -> & [Hc _])]; [by left|]. right. eauto. }
  pose proof (Hstep _ _ Hl) as H1. destruct (get_word l) as [w1|]; [|done].
  pose proof (Hstep _ _ H1) as H2. destruct (get_word (snd w1)) as [w2|]; [|done].
  pose proof (Hstep _ _ H2) as H3. destruct (get_word (snd w2)) as [w3|]; [|done].
  pose proof (Hstep _ _ H3) as H4. destruct (get_word (snd w3)) as [w4|]; [|done].
  pose proof (Hstep _ _ H4) as H5. destruct (get_word (snd w4)) as [w5|]; [|done]. done.
Qed.
(** a symmetry other than general and symmetric, *)
Lemma C34_symmetry_partial_proof sym banner comments sizes body E V L mode w :
  banner_line sym banner → sym ≠ symmetry_name MGeneral → sym ≠ symmetry_name MSymmetric →
  Forall comment_line comments → size_line E V L sizes →
  E ≤ 384307168202282325 → V ≤ 384307168202282325 → L < 18446744073709551616 →
  ∃ w', read_hypergraph (with_newline banner ++ concat (with_newline <$> comments) ++ with_newline sizes ++ body) mode w = Ok (None, w').
Proof.
  intros Hb Hg Hs Hc Hsz HE HV HL.
  assert (wp (read_hypergraph (with_newline banner ++ concat (with_newline <$> comments) ++ with_newline sizes ++ body) mode) (λ o, o = None)) as Hw.
  { unfold read_hypergraph. destruct (read_header_listing sym E V L banner comments sizes body Hb Hc Hsz) as (line & ->); [unfold two64; lia..|].
    cbn [fst snd]. apply wpe_bind, wpe_new_lists; [done|]. apply wpe_bind, wpe_new_lists; [done|].
    apply wpe_bind. eapply wpe_of_option_Some; [done|]. apply wpe_bind. eapply wpe_of_option_Some; [done|].
    apply wpe_bind. rewrite decide_False by done. rewrite decide_False by done. by apply wpe_ret, wpe_ret. }
  apply wp_run with (w := w) in Hw as (o & w' & Heq & ->). eauto.
Qed.
(** a line that does not begin with a number (a blank line, say) after correct entries, *)
Lemma C34_line_partial_proof sy banner comments sizes E V L entries lines bad rest mode w :
  banner_line (symmetry_name sy) banner → Forall comment_line comments → size_line E V L sizes →
  Forall2 entry_line entries lines → valid_listing sy E V (Z.of_nat (length entries)) entries → L < 18446744073709551616 →
  no_number bad → Forall (λ l, newline ∉ l) rest →
  ∃ w', read_hypergraph (with_newline banner ++ concat (with_newline <$> comments) ++ with_newline sizes ++
                         concat (with_newline <$> lines ++ bad :: rest)) mode w = Ok (None, w').
Proof.
  intros Hb Hc Hsz Hl Hval HL Hbad Hrest.
  pose proof (vl_rows _ _ _ _ _ Hval) as HE. pose proof (vl_cols _ _ _ _ _ Hval) as HV.
  set (body := concat (with_newline <$> lines ++ bad :: rest)).
  assert (wp (read_hypergraph (with_newline banner ++ concat (with_newline <$> comments) ++ with_newline sizes ++ body) mode) (λ o, o = None)) as Hw.
  { unfold read_hypergraph. destruct (read_header_listing (symmetry_name sy) E V L banner comments sizes body Hb Hc Hsz) as (line & ->); [unfold two64; lia..|].
    cbn [fst snd].
    destruct (entry_lines_ok _ _ Hl) as [Hnl Hne].
    assert (stream_lines (Stream body false false) = lines ++ bad :: rest) as ->.
    { unfold stream_lines. cbn [good s_eof s_fail negb orb s_rest]. unfold body.
      rewrite <-(app_nil_r (concat _)) at 2. rewrite rest_lines_lines; [apply app_nil_r| |apply not_elem_of_nil|].
      - apply Forall_app. split; [done|]. constructor; [by apply no_number_newline|done].
      - pose proof (lines_length (lines ++ bad :: rest)). lia. }
    pose proof (valid_entries _ _ _ _ _ _ Hval Hl) as Hent. pose proof (get_entry_no_number _ Hbad) as Hn.
    apply wpe_bind, wpe_new_lists; [done|]. apply wpe_bind, wpe_new_lists; [done|].
    apply wpe_bind. eapply wpe_of_option_Some; [done|]. apply wpe_bind. eapply wpe_of_option_Some; [done|].
    change (((λ _ : Z, []) <$> seqZ 0 V), ((λ _ : Z, []) <$> seqZ 0 E)) with (lists_seq E V []).
    apply wpe_bind. destruct sy; cbn [symmetry_name].
    - rewrite decide_True by done. apply wpe_bind. eapply wpe_of_option_Some; [done|]. apply wpe_bind.
      eapply wpe_mono; [by apply (wpe_read_general_stop E V HE HV _ entries)|]. intros o ->. by apply wpe_ret, wpe_ret.
    - rewrite decide_False by done. rewrite decide_True by done.
      eapply wpe_mono; [apply (wpe_read_symmetric_stop E V HE HV _ entries); [by apply (vl_square _ _ _ _ _ Hval)|done..]|]. intros o ->. by apply wpe_ret. }
  apply wp_run with (w := w) in Hw as (o & w' & Heq & ->). eauto.
Qed.
(** and a weight mode other than one and degree. *)
Lemma C34_mode_partial_proof t sy E V L entries w :
  listing t sy E V L entries → valid_listing sy E V L entries →
  ∃ w', read_hypergraph t ModeOther w = Ok (None, w').
Proof.
  intros (banner & comments & sizes & lines & body & -> & Hb & Hc & Hs & Hl & Hbody) Hval.
  pose proof (vl_rows _ _ _ _ _ Hval) as HE. pose proof (vl_cols _ _ _ _ _ Hval) as HV. pose proof (vl_entries _ _ _ _ _ Hval) as HL.
  assert (wp (read_hypergraph (with_newline banner ++ concat (with_newline <$> comments) ++ with_newline sizes ++ body) ModeOther) (λ o, o = None)) as Hw.
  { unfold read_hypergraph. destruct (read_header_listing (symmetry_name sy) E V L banner comments sizes body Hb Hc Hs) as (line & ->); [unfold two64; lia..|].
    cbn [fst snd]. destruct (entry_lines_ok _ _ Hl) as [Hnl Hne]. rewrite (stream_lines_listing lines body Hnl Hne Hbody).
    pose proof (valid_entries _ _ _ _ _ _ Hval Hl) as Hent.
    apply wpe_bind, wpe_new_lists; [done|]. apply wpe_bind, wpe_new_lists; [done|].
    apply wpe_bind. eapply wpe_of_option_Some; [done|]. apply wpe_bind. eapply wpe_of_option_Some; [done|].
    change (((λ _ : Z, []) <$> seqZ 0 V), ((λ _ : Z, []) <$> seqZ 0 E)) with (lists_seq E V []).
    apply wpe_bind. destruct sy; cbn [symmetry_name].
    - rewrite decide_True by done. apply wpe_bind. eapply wpe_of_option_Some; [done|]. apply wpe_bind.
      apply (wpe_read_general E V HE HV _ entries lines); [done|]. by apply wpe_ret, wpe_ret.
    - rewrite decide_False by done. rewrite decide_True by done.
      apply (wpe_read_symmetric E V HE HV _ entries lines); [by apply (vl_square _ _ _ _ _ Hval)|done|]. by apply wpe_ret. }
  apply wp_run with (w := w) in Hw as (o & w' & Heq & ->). eauto.
Qed.

(** C34 fails: whatever else the listing holds, an entry with an index 0 or beyond the announced size
    makes the reader write outside its arrays; *)
Lemma C34_out_of_range_refuted_proof t E V L entries mode w :
  listing t MGeneral E V L entries → E ≤ 384307168202282325 → V ≤ 384307168202282325 → L < 18446744073709551616 →
  Forall (λ ev, fst ev < 18446744073709551616 ∧ snd ev < 18446744073709551616) entries →
  Exists (λ ev, ¬ (1 ≤ fst ev ≤ E ∧ 1 ≤ snd ev ≤ V)) entries →
  read_hypergraph t mode w = Err UB.
Proof.
  intros (banner & comments & sizes & lines & body & -> & Hb & Hc & Hs & Hl & Hbody) HE HV HL H64 Hex.
  unfold read_hypergraph. destruct (read_header_listing (symmetry_name MGeneral) E V L banner comments sizes body Hb Hc Hs) as (line & ->); [unfold two64; lia..|].
  cbn [fst snd]. destruct (entry_lines_ok _ _ Hl) as [Hnl Hne]. rewrite (stream_lines_listing lines body Hnl Hne Hbody).
  assert (∀ n w, n ≤ 384307168202282325 → new_lists (Some n) w = Ok ((λ _ : Z, []) <$> seqZ 0 n, w)) as Hnew.
  { intros n w1 Hn. unfold new_lists, bind, of_option, guardM, ret. cbn. rewrite bool_decide_true by done. by rewrite fmap_replicate_nil. }
  assert (Forall2 (λ ev l, get_entry l = Some ev) entries lines) as Hent.
  { clear -Hl H64. induction Hl as [|ev l entries lines Hl _ IH]; [constructor|]. apply Forall_cons in H64 as [[??] ?]. constructor; [|by apply IH].
    by apply get_entry_line. }
  unfold bind at 1. rewrite (Hnew V w HV). unfold bind at 1. rewrite (Hnew E w HE).
  change (((λ _ : Z, []) <$> seqZ 0 V), ((λ _ : Z, []) <$> seqZ 0 E)) with (lists_seq E V []).
  unfold of_option. unfold bind at 1, ret at 1. unfold bind at 1, ret at 1. unfold bind at 1. cbn [symmetry_name]. rewrite decide_True by done.
  unfold bind at 1, ret at 1. unfold bind at 1. by rewrite (read_general_oob E V HE HV entries lines).
Qed.
Lemma skip_ws_all (l : text) : Forall whitespace l → skip_ws l = [].
Proof. induction 1 as [|c l Hc _ IH]; [done|]. cbn [skip_ws]. by rewrite (proj2 (is_space_iff c) Hc). Qed.
(** and a file in which only white space follows the banner makes it use variables that were never set. *)
Lemma C34_missing_sizes_refuted_proof sym banner space mode w :
  banner_line sym banner → Forall whitespace space → read_hypergraph (with_newline banner ++ space) mode w = Err UB.
Proof.
  intros Hb Hsp. unfold read_hypergraph, read_header. rewrite wn_app.
  rewrite getline_newline by (by eapply banner_no_newline). cbn [fst snd].
  destruct Hb as (w1 & g1 & w2 & g2 & w3 & g3 & w4 & g4 & tl & -> & Hw1 & Hw2 & Hw3 & Hw4 & Hw5 & Hg1 & Hg2 & Hg3 & Hg4 & Htl).
  rewrite (get_word_0 w1) by (auto using gap_stops). cbn [snd].
  rewrite (get_word_app g1 w2) by (auto using gap_stops, gap_blanks). cbn [snd].
  rewrite (get_word_app g2 w3) by (auto using gap_stops, gap_blanks). cbn [snd].
  rewrite (get_word_app g3 w4) by (auto using gap_stops, gap_blanks). cbn [snd].
  rewrite (get_word_app g4 sym); [|by apply gap_blanks|done|]. 2: { rewrite <-(app_nil_r tl). apply tail_stops; [done|]. by left. }
  cbn [fst snd].
  assert (∃ st, stream_num (skip_comments_st (Stream space false false)) = (None, st) ∧ good st = false) as (st & -> & Hst).
  { unfold skip_comments_st. cbn [good s_eof s_fail orb negb s_rest].
    assert (skip_comments (length space) space = space) as ->.
    { destruct space as [|c sp]; [done|]. cbn [length skip_comments]. destruct (decide (c = "%"%char)) as [->|]; [|done].
      apply Forall_cons in Hsp as [Hc _]. by apply (bool_decide_eq_true_2 _) in Hc. }
    unfold stream_num. destruct space as [|c sp]; [by eexists|]. rewrite bool_decide_false by done. cbn [good s_eof s_fail orb negb s_rest].
    rewrite skip_ws_all by done. by eexists. }
  cbn [fst snd]. unfold stream_num at 1. rewrite Hst. done.
Qed.
Definition ex_bad_text : ctext :=
  with_newline (ex_banner MGeneral) ++ [] ++ with_newline (chars "2 2 2") ++ concat (with_newline <$> [chars "1 1"; chars "3 1"]).
Example C34_example :
  (read_hypergraph ex_text ModeOther w0 = Ok (None, w0)) ∧
  (at_most_words 4 (chars " % matrix x general") ∧
   read_hypergraph (with_newline (chars " % matrix x general") ++ chars "1 1 0") ModeOne w0 = Ok (None, w0)) ∧
  (no_number [] ∧ no_number (chars " x1 2") ∧
   read_hypergraph (with_newline (ex_banner MGeneral) ++ with_newline (chars "2 2 2") ++ concat (with_newline <$> [chars "1 1"; []; chars "9 9"])) ModeOne w0
     = Ok (None, w0)) ∧
  (listing ex_bad_text MGeneral 2 2 2 [(1, 1); (3, 1)] ∧ read_hypergraph ex_bad_text ModeOne w0 = Err UB) ∧
  (banner_line (symmetry_name MGeneral) (ex_banner MGeneral) ∧ read_hypergraph (with_newline (ex_banner MGeneral)) ModeOne w0 = Err UB).
Proof.
  split; [vm_compute; reflexivity|]. split; [split; [|vm_compute; reflexivity]|split; [|split]].
  - right. exists (chars " "), (chars "%"), (chars " matrix x general"). split; [done|]. split; [by_comp|]. split; [by_comp|]. split; [right; eexists _, _; split; [done|by_comp]|].
    right. exists (chars " "), (chars "matrix"), (chars " x general"). split; [done|]. split; [by_comp|]. split; [by_comp|]. split; [right; eexists _, _; split; [done|by_comp]|].
    right. exists (chars " "), (chars "x"), (chars " general"). split; [done|]. split; [by_comp|]. split; [by_comp|]. split; [right; eexists _, _; split; [done|by_comp]|].
    right. exists (chars " "), (chars "general"), []. split; [done|]. split; [by_comp|]. split; [by_comp|]. split; [by left|]. left. constructor.
  - split; [split; [apply not_elem_of_nil|by left]|]. split; [|vm_compute; reflexivity].
    split; [by_comp|]. right. exists (chars " "), "x"%char, (chars "1 2"). split; [done|]. by_comp.
  - split; [|vm_compute; reflexivity].
    exists (ex_banner MGeneral), [], (chars "2 2 2"), [chars "1 1"; chars "3 1"], (concat (with_newline <$> [chars "1 1"; chars "3 1"])).
    split; [reflexivity|]. split; [apply ex_banner_ok|]. split; [done|]. split; [|split].
    + exists [], (chars "2"), (chars " "), (chars "2"), (chars " "), (chars "2"), [].
      split; [done|]. split; [by_comp|]. split; [by_comp|]. split; [by_comp|]. split; [by_comp|]. split; [by_comp|]. split; [by_comp|]. by left.
    + constructor; [|constructor; [|constructor]].
      * apply (ex_entry [] (chars "1") (chars " ") (chars "1") []); [vm_compute; reflexivity|by_tail].
      * apply (ex_entry [] (chars "3") (chars " ") (chars "1") []); [vm_compute; reflexivity|by_tail].
    + by left.
  - split; [apply ex_banner_ok|]. vm_compute. reflexivity.
Qed.

(** ** C35 *)
(** C35: on any number of processors, if no nonzero is repeated and there are fewer than 2^32 entries,
    every processor gets the vertices it owns, together all vertices once, each with the nets and the
    weight of sequential reading (the nets in any order); the pieces of a net together are the
    vertices of sequential reading.  Missing: listings with 2^32 entries or more (false, below) and
    listings that repeat an entry. *)
Lemma C35_distributed_reading_partial_proof (bp : Z → Z → partitioning) (p : nat) t sy E V L entries mode w w1 :
  lawful_family bp → (0 < p)%nat → listing t sy E V L entries → valid_listing sy E V L entries →
  mode = ModeOne ∨ mode = ModeDegree → L < 4294967296 → NoDup (nonzeros sy entries) →
  ∃ H w1' Hs w', read_hypergraph t mode w1 = Ok (Some H, w1') ∧
    read_hypergraph_par bp t mode p w = Ok (Some Hs, w') ∧ length Hs = p ∧ distributed E Hs ∧
    (∀ Hl, Hl ∈ Hs → h_gsize Hl = h_gsize H ∧ h_gnets Hl = h_gnets H ∧ h_nz Hl = h_nz H) ∧
    v_id <$> all_verts Hs ≡ₚ v_id <$> h_verts H ∧
    (∀ (s : nat) Hl v, Hs !! s = Some Hl → v ∈ h_verts Hl → pa_owner (bp (Z.of_nat p) V) (v_id v) = Z.of_nat s ∧
       ∃ v0, v0 ∈ h_verts H ∧ v_id v = v_id v0 ∧ v_weight v = v_weight v0 ∧ v_part v = v_part v0 ∧ v_nets v ≡ₚ v_nets v0) ∧
    (∀ n0, n0 ∈ h_nets H → gverts Hs (n_id n0) ≡ₚ n_verts n0) ∧
    (∀ n, n ∈ all_nets Hs → ∃ n0, n0 ∈ h_nets H ∧ n_id n = n_id n0 ∧ n_cost n = n_cost n0 ∧ n_gsize n = n_gsize n0).
Proof.
  intros Hbp Hp Hl Hv Hmode HL Hnd.
  assert (mode ≠ ModeOther) as Hm by (destruct Hmode as [->| ->]; done).
  destruct (C33_reading_proof t sy E V L entries mode (mode_weight mode) w1 Hl Hv) as (H & w1' & Hread & Hrn & Hnz & _).
  { destruct Hmode as [->| ->]; auto. }
  exists H, w1'. set (Hs0 := piece_at bp p sy E V entries mode <$> seq 0 p).
  assert (∀ i, 0 ≤ i < E → gverts Hs0 i ≡ₚ row (nonzeros sy entries) i) as Hg0 by (intros i Hi; by eapply Hs0_gverts).
  assert (distributed E Hs0) as HD0 by (by eapply Hs0_distributed).
  assert (wp (read_hypergraph_par bp t mode p) (λ o, ∃ Hs', o = Some Hs' ∧ length Hs' = p ∧
    (∀ s H H', Hs0 !! s = Some H → Hs' !! s = Some H' → small_nets_removed 0 Hs0 H H' ∧ consistent H'))) as Hw.
  { eapply wpe_read_hypergraph_par; eauto. }
  apply wp_run with (w := w) in Hw as (o & w' & Heq & Hs & -> & Hlen & HR). exists Hs, w'.
  assert (length Hs = length Hs0) as Hlen0 by (unfold Hs0; rewrite fmap_length, seq_length; done).
  assert (∀ (s : nat) Hl, Hs !! s = Some Hl → (s < p)%nat ∧ Hs0 !! s = Some (piece_at bp p sy E V entries mode s)) as Hlook.
  { intros s Hl' HHl. apply lookup_lt_Some in HHl. split; [lia|]. unfold Hs0. rewrite list_lookup_fmap, lookup_seq_lt by lia. done. }
  assert (∀ nid, 0 ≤ nid < E → row (nonzeros sy entries) nid ≠ [] → 0 < gsize Hs0 nid) as Hpos.
  { intros nid Hnid Hne. unfold gsize. rewrite (Hg0 nid Hnid). destruct (row _ nid); [done|]. cbn [length]. lia. }
  pose proof (nonzeros_range _ _ _ _ _ Hv) as Hr. rewrite Forall_forall in Hr.
  split; [done|]. split; [done|]. split; [done|]. split; [by eapply snr_distributed|].
  split; [|split; [|split; [|split]]].
  - intros Hl' (s & HHl)%elem_of_list_lookup. destruct (Hlook _ _ HHl) as [Hs1 HH0]. destruct (HR _ _ _ HH0 HHl) as [[_ _ Hgs Hgn Hz _ _] _].
    rewrite Hgs, Hgn, Hz, (rn_gsize _ _ _ _ _ Hrn), (rn_gnets _ _ _ _ _ Hrn), Hnz. done.
  - rewrite (snr_all_vids Hs0 Hs 0 Hlen0 HR). unfold Hs0. erewrite Hs0_vids_perm by eauto. rewrite (rn_verts _ _ _ _ _ Hrn).
    rewrite <-list_fmap_compose. rewrite (list_fmap_ext _ id); [by rewrite list_fmap_id|done].
  - intros s Hl' v HHl Hvl. destruct (Hlook _ _ HHl) as [Hs1 HH0]. destruct (HR _ _ _ HH0 HHl) as [[_ Hvs _ _ _ _ _] _].
    apply elem_of_list_lookup in Hvl as (i & Hi). destruct (Forall2_lookup_r _ _ _ _ _ Hvs Hi) as (v0 & Hv0 & Hid & Hwt & Hpt & Hn).
    apply elem_of_list_lookup_2 in Hv0. apply elem_of_list_fmap in Hv0 as (j & -> & Hj). cbn [v_id v_weight v_part v_nets] in *.
    eapply ids_at_elem in Hj as [Hj Ho]; eauto. rewrite Hid. split; [done|].
    eexists. split; [rewrite (rn_verts _ _ _ _ _ Hrn); apply elem_of_list_fmap; exists j; split; [reflexivity|apply elem_of_seqZ; lia]|].
    cbn [v_id v_weight v_part v_nets]. split; [done|]. split; [done|]. split; [done|]. rewrite Hn, filter_all; [done|].
    intros nid Hnid. apply elem_of_column in Hnid. pose proof (Hr _ Hnid) as Hrng. cbn in Hrng. apply Hpos; [lia|].
    intros Hnil. assert (j ∈ row (nonzeros sy entries) nid) as Hx by (by apply elem_of_row). rewrite Hnil in Hx. by apply elem_of_nil in Hx.
  - intros n0 Hn0. rewrite (rn_nets _ _ _ _ _ Hrn) in Hn0. apply elem_of_list_fmap in Hn0 as (i & -> & [Hne Hi%elem_of_seqZ]%elem_of_list_filter). cbn [n_id n_verts].
    rewrite (snr_gverts Hs0 Hs 0 Hlen0 HR). rewrite decide_True by (apply Hpos; [lia|done]). apply Hg0. lia.
  - intros n Hn. rewrite (snr_all_nets Hs0 Hs 0 Hlen0 HR) in Hn. apply elem_of_list_fmap in Hn as (n0 & -> & [[_ Hne0] Hn0]%elem_of_list_filter). cbn [n_id n_cost n_gsize].
    apply all_nets_elem in Hn0 as (H0 & (s & -> & _)%elem_of_list_fmap & (i & -> & [Hne Hi%elem_of_seqZ]%elem_of_list_filter)%elem_of_list_fmap). cbn [n_id n_cost] in *.
    assert (row (nonzeros sy entries) i ≠ []) as Hrow.
    { intros Hnil. destruct (row (mine (bp (Z.of_nat p) V) s (nonzeros sy entries)) i) as [|x l] eqn:Hx; [done|].
      assert (x ∈ row (mine (bp (Z.of_nat p) V) s (nonzeros sy entries)) i) as Hx' by (rewrite Hx; left). apply elem_of_row in Hx'.
      apply elem_of_list_filter in Hx' as [_ Hx']. apply elem_of_row in Hx'. rewrite Hnil in Hx'. by apply elem_of_nil in Hx'. }
    eexists. split; [rewrite (rn_nets _ _ _ _ _ Hrn); apply elem_of_list_fmap; exists i; split; [reflexivity|]; apply elem_of_list_filter; split; [done|apply elem_of_seqZ; lia]|].
    cbn [n_id n_cost n_gsize]. split; [done|]. split; [done|]. unfold gsize. rewrite (Hg0 i) by lia. done.
Qed.
Definition summary_par (r : out (option (list hg) * world)) : option (list (list vertex * list net)) :=
  match r with Ok (Some Hs, _) => Some ((λ H, (h_verts H, h_nets H)) <$> Hs) | _ => None end.
Example C35_example :
  listing ex_text MGeneral 3 4 5 ex_entries ∧ valid_listing MGeneral 3 4 5 ex_entries ∧ NoDup (nonzeros MGeneral ex_entries) ∧
  lawful_family blocks ∧
  summary_par (read_hypergraph_par blocks ex_text ModeDegree 2 w0) =
    Some [([Vertex 0 [0] 1 (-1); Vertex 1 [2] 1 (-1)], [Net 0 [0] 1 3; Net 2 [1] 1 2]);
          ([Vertex 2 [0] 1 (-1); Vertex 3 [2; 0] 2 (-1)], [Net 0 [2; 3] 1 3; Net 2 [3] 1 2])].
Proof.
  split; [apply ex_listing|]. split; [apply ex_valid|]. split; [by_comp|]. split; [apply blocks_lawful|]. vm_compute. reflexivity.
Qed.

Lemma wlp_true {A} (m : M A) : wlp m (λ _, True).
Proof. intros w. by destruct (m w) as [[? ?]|]. Qed.
(** C35 fails for listings with 2^32 entries or more: the 32 bit loop counter never reaches their
    number, so distributed reading returns no hypergraph, although sequential reading does. *)
Lemma C35_large_refuted_proof (bp : Z → Z → partitioning) (p : nat) t sy E V L entries mode w w1 :
  (0 < p)%nat → listing t sy E V L entries → valid_listing sy E V L entries → 4294967296 ≤ L →
  mode = ModeOne ∨ mode = ModeDegree →
  (∃ H w1', read_hypergraph t mode w1 = Ok (Some H, w1')) ∧
  (∀ Hs w', read_hypergraph_par bp t mode p w ≠ Ok (Some Hs, w')).
Proof.
  intros Hp Hlst Hv HL Hmode. split.
  { destruct (C33_reading_proof t sy E V L entries mode (mode_weight mode) w1 Hlst Hv) as (H & w1' & Hread & _); [|eauto].
    destruct Hmode as [->| ->]; auto. }
  assert (wlp (read_hypergraph_par bp t mode p) (λ o, o = None)) as Hw.
  2: { intros Hs w' Heq. by eapply wlp_run in Hw; [|exact Heq]. }
  unfold read_hypergraph_par. apply wpe_bind.
  apply (wpe_mapP _ _ (λ _ _ o, o = None)).
  - intros i s _. unfold read_local.
    destruct Hlst as (banner & comments & sizes & lines & body & -> & Hb & Hc & Hs & Hl & Hbody).
    pose proof (vl_rows _ _ _ _ _ Hv) as HE. pose proof (vl_cols _ _ _ _ _ Hv) as HV. pose proof (vl_entries _ _ _ _ _ Hv) as HL64.
    destruct (read_header_listing (symmetry_name sy) E V L banner comments sizes body Hb Hc Hs) as (line & ->); [unfold two64; lia..|].
    cbn [fst snd].
    assert (∀ {A} (o : option A), wlp (loop_end L o) (λ o, o = None)) as Hend.
    { intros A o. unfold loop_end, endless. rewrite bool_decide_true by done. destruct o; [by apply wpe_fail|by apply wpe_ret]. }
    apply wpe_bind. eapply wpe_of_option_Some; [done|]. apply wpe_bind. eapply wpe_mono; [apply wlp_true|]. intros nl _.
    apply wpe_bind. eapply wpe_mono; [apply wlp_true|]. intros vl _.
    apply wpe_bind. eapply wpe_of_option_Some; [done|]. apply wpe_bind.
    eapply (wpe_mono _ _ (λ o, o = None)); [|intros o ->; by apply wpe_ret].
    destruct sy; cbn [symmetry_name].
    + rewrite decide_True by done. apply wpe_bind. eapply wpe_of_option_Some; [done|]. unfold read_general_par.
      apply wpe_bind. eapply wpe_mono; [apply wlp_true|]. intros o _. apply Hend.
    + rewrite decide_False by done. rewrite decide_True by done. apply wpe_bind. eapply wpe_of_option_Some; [done|]. unfold read_symmetric_par.
      apply wpe_bind. eapply wpe_mono; [apply wlp_true|]. intros o _. apply Hend.
  - intros os Hlen Hos. rewrite seq_length in Hlen.
    destruct (mapM (λ o : option hg, o) os) as [Hs|] eqn:Hmap.
    + destruct os as [|o os]; [cbn in Hlen; lia|]. assert (o = None) as ->.
      { apply (Hos 0%nat 0%nat); [|done]. by rewrite lookup_seq_lt. }
      done.
    + destruct (decide _); [by apply wpe_ret|by apply wpe_fail].
Qed.
Lemma big_listing (n : nat) (s : ctext) : numeral (Z.of_nat n) s → Z.of_nat n < 18446744073709551616 →
  listing (with_newline (ex_banner MGeneral) ++ concat (with_newline <$> []) ++ with_newline ([] ++ chars "1" ++ chars " " ++ chars "1" ++ chars " " ++ s ++ []) ++
           concat (with_newline <$> replicate n (chars "1 1"))) MGeneral 1 1 (Z.of_nat n) (replicate n (1, 1)) ∧
  valid_listing MGeneral 1 1 (Z.of_nat n) (replicate n (1, 1)).
Proof.
  intros Hs Hn. split.
  - eexists _, [], _, (replicate n (chars "1 1")), _. split; [reflexivity|]. split; [apply ex_banner_ok|]. split; [constructor|]. split; [|split].
    + eexists _, _, _, _, _, _, _. split; [reflexivity|]. split; [constructor|]. split; [by_comp|]. split; [by_comp|]. split; [by_comp|]. split; [by_comp|].
      split; [exact Hs|]. by left.
    + clear. induction n as [|n IH]; [constructor|]. cbn [replicate]. constructor; [|exact IH].
      apply (ex_entry [] (chars "1") (chars " ") (chars "1") []); [vm_compute; reflexivity|by_tail].
    + by left.
  - split.
    + apply Forall_replicate. cbn. lia.
    + by rewrite replicate_length.
    + intros [=].
    + lia.
    + lia.
    + exact Hn.
Qed.
Example C35_large_example : ∃ t entries,
  listing t MGeneral 1 1 4294967296 entries ∧ valid_listing MGeneral 1 1 4294967296 entries.
Proof.
  pose proof (big_listing (Z.to_nat 4294967296) (chars "4294967296")) as Hb. rewrite Z2Nat.id in Hb by lia.
  assert (numeral 4294967296 (chars "4294967296")) as Hs by by_comp.
  destruct (Hb Hs ltac:(lia)) as [H1 H2]. eexists _, _. split; [exact H1|exact H2].
Qed.
