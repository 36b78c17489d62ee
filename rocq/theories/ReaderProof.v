(** The reader on valid listings: it builds the row-net hypergraph, or one processor's piece of it. *)
From Verif Require Export ReaderText HgCuts ParCut ParRemove.

Lemma pred64_eq v : 1 ≤ v ≤ two64 → pred64 v = v - 1.
Proof. intros ?. unfold pred64. apply Z.mod_small. unfold two64 in *. lia. Qed.
Lemma to_long_eq x : x < 9223372036854775808 → to_long x = x.
Proof. intros ?. unfold to_long. by rewrite decide_True. Qed.

Lemma wpe_push_at (Er : err → Prop) (f g : Z → list Z) k i x (Q : list (list Z) → Prop) :
  0 ≤ i < k → g i = f i ++ [x] → (∀ j, 0 ≤ j < k → j ≠ i → g j = f j) → Q (g <$> seqZ 0 k) →
  wpe Er (push_at (f <$> seqZ 0 k) i x) Q.
Proof.
  intros Hi Hx Hj HQ. unfold push_at. eapply wpe_bind, (wpe_idx _ _ _ (f i)); [by apply zlookup_fmap_seqZ|].
  apply wpe_ret. by rewrite (zinsert_fmap_seqZ f g).
Qed.

Lemma column_snoc nzs e v j : column (nzs ++ [(e, v)]) j = column nzs j ++ (if decide (v - 1 = j) then [e - 1] else []).
Proof. unfold column. rewrite filter_app, fmap_app. f_equal. rewrite filter_cons. cbn [snd]. by destruct (decide (v - 1 = j)). Qed.
Lemma row_snoc nzs e v i : row (nzs ++ [(e, v)]) i = row nzs i ++ (if decide (e - 1 = i) then [v - 1] else []).
Proof. unfold row. rewrite filter_app, fmap_app. f_equal. rewrite filter_cons. cbn [fst]. by destruct (decide (e - 1 = i)). Qed.

Definition maxdim : Z := 384307168202282325.

(** *** One processor's lists after the nonzeros [nzs] *)
Section owned.
  Context (part : partitioning) (p : Z) (s : nat) (E V : Z).
  Context (Hlaw : lawful p V part) (Hs : Z.of_nat s < p) (HE : E ≤ maxdim) (HV : V ≤ maxdim).
  Notation cnt := (pa_count part (Z.of_nat s)).
  Notation glob i := (pa_global part i (Z.of_nat s)).
  Definition mine (nzs : list (Z * Z)) : list (Z * Z) := filter (λ ev, pa_owner part (snd ev - 1) = Z.of_nat s) nzs.
  Definition lists_par (nzs : list (Z * Z)) : lists :=
    ((λ i, column nzs (glob i)) <$> seqZ 0 cnt, (λ i, row (mine nzs) i) <$> seqZ 0 E).

  Lemma wpe_push_owned (Er : err → Prop) nzs e v (Q : lists → Prop) :
    1 ≤ e ≤ E → 1 ≤ v ≤ V → Q (lists_par (nzs ++ [(e, v)])) → wpe Er (push_owned part s (lists_par nzs) e v) Q.
  Proof.
    intros He Hv HQ. unfold maxdim in *. unfold push_owned. rewrite !pred64_eq by (unfold two64; lia). rewrite !to_long_eq by lia.
    assert (mine (nzs ++ [(e, v)]) = mine nzs ++ mine [(e, v)]) as Hmine by apply filter_app.
    unfold mine at 3 in Hmine. rewrite filter_cons in Hmine. cbn [snd] in Hmine.
    destruct (decide (pa_owner part (v - 1) = Z.of_nat s)) as [Ho|Ho].
    - unfold lists_par in *. cbn [fst snd]. rewrite filter_nil in Hmine.
      pose proof (la_local _ _ _ Hlaw (v - 1) ltac:(lia)) as Hloc. rewrite Ho in Hloc.
      pose proof (la_global _ _ _ Hlaw (v - 1) ltac:(lia)) as Hglob. rewrite Ho in Hglob.
      apply wpe_bind. apply wpe_push_at with (g := λ i, column (nzs ++ [(e, v)]) (glob i)).
      + done.
      + rewrite column_snoc, Hglob. by rewrite decide_True.
      + intros j Hj Hne. rewrite column_snoc. destruct (decide _) as [Heq|_]; [|apply app_nil_r]. exfalso. apply Hne.
        pose proof (la_inv _ _ _ Hlaw (Z.of_nat s) j ltac:(lia) Hj) as (_ & _ & Hl). rewrite <-Heq in Hl. done.
      + apply wpe_bind. apply wpe_push_at with (g := λ i, row (mine (nzs ++ [(e, v)])) i).
        * lia.
        * rewrite Hmine, row_snoc. by rewrite decide_True.
        * intros j Hj Hne. rewrite Hmine, row_snoc. by rewrite decide_False, app_nil_r by lia.
        * by apply wpe_ret.
    - apply wpe_ret. rewrite filter_nil, app_nil_r in Hmine.
      replace (lists_par nzs) with (lists_par (nzs ++ [(e, v)])); [done|].
      unfold lists_par. rewrite Hmine. f_equal. apply list_fmap_ext. intros k x [-> Hk]%lookup_seqZ. rewrite column_snoc.
      destruct (decide _) as [Heq|_]; [|apply app_nil_r]. exfalso. apply Ho.
      pose proof (la_inv _ _ _ Hlaw (Z.of_nat s) (0 + Z.of_nat k) ltac:(lia) ltac:(lia)) as (_ & How & _). by rewrite Heq.
  Qed.

  Definition entries_of (entries : list (Z * Z)) (lines : list text) : Prop :=
    Forall2 (λ ev l, get_entry l = Some ev ∧ 1 ≤ fst ev ≤ E ∧ 1 ≤ snd ev ≤ V) entries lines.

  Lemma wpe_read_general_par (Er : err → Prop) entries lines st line (Q : option (lists * Z) → Prop) :
    entries_of entries lines → next_lines (length lines) st line = lines → Z.of_nat (length entries) < 4294967296 →
    Q (Some (lists_par entries, Z.of_nat (length entries))) →
    wpe Er (read_general_par part s (Z.of_nat (length entries)) st line (lists_par [])) Q.
  Proof.
    intros Hlines Hnext HL HQ. unfold read_general_par, loop_lines, loop_end, endless. rewrite bool_decide_false by lia. pose proof (Forall2_length _ _ _ Hlines) as Hlen. rewrite Nat2Z.id. rewrite <-Hlen in Hnext. rewrite Hnext. clear Hlen.
    assert (∀ nzs entries lines, entries_of entries lines → wpe Er (foldM (λ (o : option lists) line,
           match o with
           | None => ret None
           | Some ls => match get_entry line with
                        | None => ret None
                        | Some ev => ls' <- push_owned part s ls (fst ev) (snd ev) ;; ret (Some ls')
                        end
           end) lines (Some (lists_par nzs))) (λ o, o = Some (lists_par (nzs ++ entries)))) as Hf.
    { clear Hlines Hnext HL HQ entries lines. intros nzs entries lines HF. revert nzs. induction HF as [|ev l entries lines (Hev & He & Hv) _ IH]; intros nzs; cbn [foldM].
      - apply wpe_ret. by rewrite app_nil_r.
      - apply wpe_bind. rewrite Hev. apply wpe_bind. apply wpe_push_owned; [done..|]. apply wpe_ret. eapply wpe_mono; [apply IH|].
        intros o ->. rewrite <-(assoc_L (++)). by destruct ev. }
    apply wpe_bind. eapply wpe_mono; [apply Hf, Hlines|]. intros o ->. by apply wpe_ret.
  Qed.

  Lemma nonzeros_symmetric_cons ev entries :
    nonzeros MSymmetric (ev :: entries) = (if decide (snd ev = fst ev) then [ev] else [ev; (snd ev, fst ev)]) ++ nonzeros MSymmetric entries.
  Proof. cbn [nonzeros]. rewrite fmap_cons. cbn [concat]. f_equal. by destruct (decide (snd ev = fst ev)), (decide (fst ev = snd ev)). Qed.

  Lemma wpe_read_symmetric_par (Er : err → Prop) entries lines st line (Q : option (lists * Z) → Prop) :
    E = V →
    entries_of entries lines → next_lines (length lines) st line = lines → Z.of_nat (length entries) < 4294967296 →
    Q (Some (lists_par (nonzeros MSymmetric entries), Z.of_nat (length (nonzeros MSymmetric entries)))) →
    wpe Er (read_symmetric_par part s (Z.of_nat (length entries)) st line (lists_par [])) Q.
  Proof.
    intros Hsq Hlines Hnext HL HQ. unfold read_symmetric_par, loop_lines, loop_end, endless. rewrite bool_decide_false by lia. pose proof (Forall2_length _ _ _ Hlines) as Hlen. rewrite Nat2Z.id. rewrite <-Hlen in Hnext. rewrite Hnext. clear Hlen.
    assert (∀ nzs z entries lines, entries_of entries lines → wpe Er (foldM (λ (o : option (lists * Z)) line,
      match o with
      | None => ret None
      | Some sn => match get_entry line with
                   | None => ret None
                   | Some ev =>
                       s1 <- push_owned part s (fst sn) (fst ev) (snd ev) ;;
                       if decide (snd ev = fst ev) then ret (Some (s1, snd sn + 1))
                       else s2 <- push_owned part s s1 (snd ev) (fst ev) ;; ret (Some (s2, snd sn + 2))
                   end
      end) lines (Some (lists_par nzs, z))) (λ o, o = Some (lists_par (nzs ++ nonzeros MSymmetric entries), z + Z.of_nat (length (nonzeros MSymmetric entries))))) as Hf.
    { clear Hlines Hnext HL HQ. intros nzs z entries0 lines0 HF. revert nzs z. induction HF as [|ev l entries0 lines0 (Hev & He & Hv) _ IH]; intros nzs z; cbn [foldM].
      - apply wpe_ret. cbn. by rewrite app_nil_r, Z.add_0_r.
      - rewrite nonzeros_symmetric_cons. apply wpe_bind. rewrite Hev. apply wpe_bind. apply wpe_push_owned; [done..|]. cbn [fst snd].
        destruct (decide (snd ev = fst ev)).
        + apply wpe_ret. eapply wpe_mono; [apply IH|]. intros o ->. do 2 f_equal.
          * rewrite <-(assoc_L (++)). by destruct ev.
          * rewrite app_length. cbn [length]. lia.
        + apply wpe_bind, wpe_push_owned; [lia|lia|]. apply wpe_ret. eapply wpe_mono; [apply IH|]. intros o ->. do 2 f_equal.
          * rewrite <-!(assoc_L (++)). by destruct ev.
          * rewrite app_length. cbn [length]. lia. }
    apply wpe_bind. eapply wpe_mono; [apply Hf, Hlines|]. intros o ->. by apply wpe_ret.
  Qed.
End owned.

Lemma fmap_replicate_nil {A} (n : Z) : replicate (Z.to_nat n) (@nil A) = (λ _ : Z, []) <$> seqZ 0 n.
Proof.
  apply list_eq. intros i. rewrite list_lookup_fmap. destruct (decide (i < Z.to_nat n)%nat) as [Hi|Hi].
  - rewrite lookup_replicate_2 by done. by rewrite (proj2 (lookup_seqZ 0 n i (Z.of_nat i)) ltac:(lia)).
  - rewrite (lookup_ge_None_2 (replicate _ _)) by (rewrite replicate_length; lia). by rewrite (lookup_ge_None_2 (seqZ _ _)) by (rewrite seqZ_length; lia).
Qed.

Lemma wpe_new_lists (Er : err → Prop) n (Q : list (list Z) → Prop) :
  n ≤ maxdim → Q ((λ _ : Z, []) <$> seqZ 0 n) → wpe Er (new_lists (Some n)) Q.
Proof.
  intros Hn HQ. unfold new_lists. apply wpe_bind. eapply wpe_of_option_Some; [done|]. apply wpe_bind.
  apply wpe_guard; [by apply bool_decide_eq_true|]. apply wpe_ret. by rewrite fmap_replicate_nil.
Qed.

Lemma zip_seq_fmap {A} (g : nat → A) n k : zip (seq k n) (g <$> seq k n) = (λ i, (i, g i)) <$> seq k n.
Proof. revert k; induction n as [|n IH]; intros k; [done|]. cbn [seq]. rewrite !fmap_cons. cbn [zip zip_with]. f_equal. apply IH. Qed.
Lemma build_nets_seqZ (f : Z → list Z) E :
  build_nets (f <$> seqZ 0 E) = (λ i, Net i (f i) 1 0) <$> filter (λ i, f i ≠ []) (seqZ 0 E).
Proof.
  unfold build_nets. rewrite fmap_length, seqZ_length. unfold seqZ. rewrite <-list_fmap_compose.
  replace ((f ∘ (λ i : nat, Z.of_nat i + 0)) <$> seq 0 (Z.to_nat E)) with ((f ∘ Z.of_nat) <$> seq 0 (Z.to_nat E)).
  2: { apply list_fmap_ext. intros ? x _. cbn. by rewrite Z.add_0_r. }
  rewrite zip_seq_fmap. induction (seq 0 (Z.to_nat E)) as [|x l IH]; [done|].
  rewrite !fmap_cons, filter_cons.
  change (omap net_of_row ((x, (f ∘ Z.of_nat) x) :: ((λ i, (i, (f ∘ Z.of_nat) i)) <$> l))) with
    (match net_of_row (x, f (Z.of_nat x)) with Some y => y :: omap net_of_row ((λ i, (i, (f ∘ Z.of_nat) i)) <$> l) | None => omap net_of_row ((λ i, (i, (f ∘ Z.of_nat) i)) <$> l) end).
  rewrite !Z.add_0_r, IH. unfold net_of_row. cbn [fst snd].
  destruct (f (Z.of_nat x)) eqn:Hf.
  - by rewrite decide_False by tauto.
  - rewrite decide_True by done. rewrite fmap_cons. by rewrite Hf.
Qed.

(** no net is removed when none is empty *)
Lemma remove_free_nets_none H w : Forall (λ n, n_verts n ≠ []) (h_nets H) →
  remove_free_nets H 0 w = Ok (with_nets ((λ n, set_ngsize (Z.of_nat (length (n_verts n))) n) <$> h_nets H) H, w).
Proof.
  intros HF. unfold remove_free_nets.
  assert (∀ n, n ∈ h_nets H → bool_decide (Z.of_nat (length (n_verts n)) ≤ 0) = false) as Hb.
  { intros n Hn. apply bool_decide_eq_false. rewrite Forall_forall in HF. specialize (HF n Hn). destruct (n_verts n); [done|]. cbn. lia. }
  rewrite filter_none. 2: { intros n Hn. by rewrite (Hb n Hn). }
  cbn [fmap list_fmap list_to_set]. rewrite elements_empty. cbn [shuffleM foldM].
  replace ((λ n, if bool_decide (Z.of_nat (length (n_verts n)) ≤ 0) then n else set_ngsize (Z.of_nat (length (n_verts n))) n) <$> h_nets H)
    with ((λ n, set_ngsize (Z.of_nat (length (n_verts n))) n) <$> h_nets H); [done|].
  apply list_fmap_ext. intros i n Hn. by rewrite Hb by (by eapply elem_of_list_lookup_2).
Qed.

(** *** The hypergraph made of the columns [ids] and a list of nonzeros *)
Definition mode_weight (mode : wmode) : list Z → Z := match mode with ModeDegree => weight_degree | _ => weight_one end.
Definition columns (nzs : list (Z * Z)) (w : list Z → Z) (ids : list Z) : list vertex :=
  (λ j, Vertex j (column nzs j) (w (column nzs j)) (-1)) <$> ids.
Definition rows (nzs : list (Z * Z)) (E : Z) : list net :=
  (λ i, Net i (row nzs i) 1 0) <$> filter (λ i, row nzs i ≠ []) (seqZ 0 E).

Lemma zip_with_self {A B} (f : A → B → vertex) (g : A → B) (l : list A) : zip_with f l (g <$> l) = (λ x, f x (g x)) <$> l.
Proof. induction l as [|x l IH]; [done|]. rewrite !fmap_cons. cbn [zip_with]. by rewrite IH. Qed.
Lemma build_vertices_eq mode nzs ids : mode ≠ ModeOther →
  build_vertices mode ids (column nzs <$> ids) = Some (columns nzs (mode_weight mode) ids).
Proof. intros Hm. destruct mode; [| |done]; cbn [build_vertices mode_weight]; by rewrite zip_with_self. Qed.

Lemma elem_of_column nzs j x : x ∈ column nzs j ↔ (x + 1, j + 1) ∈ nzs.
Proof.
  unfold column. rewrite elem_of_list_fmap. split.
  - intros ((e & v) & -> & [Hv Hin]%elem_of_list_filter). cbn in *. replace (e - 1 + 1, j + 1) with (e, v); [done|]. f_equal; lia.
  - intros Hin. exists (x + 1, j + 1). cbn. split; [lia|]. apply elem_of_list_filter. split; [cbn; lia|done].
Qed.
Lemma elem_of_row nzs i x : x ∈ row nzs i ↔ (i + 1, x + 1) ∈ nzs.
Proof.
  unfold row. rewrite elem_of_list_fmap. split.
  - intros ((e & v) & -> & [Hv Hin]%elem_of_list_filter). cbn in *. replace (i + 1, v - 1 + 1) with (e, v); [done|]. f_equal; lia.
  - intros Hin. exists (i + 1, x + 1). cbn. split; [lia|]. apply elem_of_list_filter. split; [cbn; lia|done].
Qed.
Lemma NoDup_column nzs j : NoDup nzs → NoDup (column nzs j).
Proof.
  intros Hnd. unfold column. apply NoDup_fmap_2_strong; [|by apply NoDup_filter].
  intros [e v] [e' v'] [Hv _]%elem_of_list_filter [Hv' _]%elem_of_list_filter. cbn in *. intros ?. f_equal; lia.
Qed.
Lemma NoDup_row nzs i : NoDup nzs → NoDup (row nzs i).
Proof.
  intros Hnd. unfold row. apply NoDup_fmap_2_strong; [|by apply NoDup_filter].
  intros [e v] [e' v'] [Hv _]%elem_of_list_filter [Hv' _]%elem_of_list_filter. cbn in *. intros ?. f_equal; lia.
Qed.

(** [nzs'] are the nonzeros of [nzs] in the columns [ids] *)
Lemma matrix_consistent nzs nzs' w ids E V nz :
  NoDup nzs → NoDup nzs' → NoDup ids → Forall (λ ev, 1 ≤ fst ev ≤ E) nzs →
  (∀ ev, ev ∈ nzs' ↔ ev ∈ nzs ∧ snd ev - 1 ∈ ids) →
  consistent (mk_hg V E (columns nzs w ids) (rows nzs' E) nz).
Proof.
  intros Hnd Hnd' Hids HE Hsub. rewrite Forall_forall in HE. apply mk_hg_consistent.
  - unfold columns. rewrite <-list_fmap_compose. by rewrite (list_fmap_ext _ id), list_fmap_id by done.
  - unfold rows. rewrite <-list_fmap_compose. rewrite (list_fmap_ext _ id), list_fmap_id by done. apply NoDup_filter, NoDup_seqZ.
  - intros v (j & -> & Hj)%elem_of_list_fmap. cbn. by apply NoDup_column.
  - intros n (i & -> & Hi)%elem_of_list_fmap. cbn. by apply NoDup_row.
  - intros v nid (j & -> & Hj)%elem_of_list_fmap Hn. cbn in *. apply elem_of_column in Hn.
    assert ((nid + 1, j + 1) ∈ nzs') as Hn'. { apply Hsub. split; [done|]. cbn. by replace (j + 1 - 1) with j by lia. }
    pose proof (HE _ Hn) as Hr. cbn in Hr.
    exists (Net nid (row nzs' nid) 1 0). cbn. rewrite elem_of_row. split; [|done]. apply elem_of_list_fmap. exists nid. split; [done|].
    apply elem_of_list_filter. split; [|apply elem_of_seqZ; lia]. intros Hnil. pose proof (proj2 (elem_of_row nzs' nid j) Hn') as Hx. rewrite Hnil in Hx. by apply elem_of_nil in Hx.
  - intros n vid (i & -> & Hi)%elem_of_list_fmap Hv. cbn in *. apply elem_of_row in Hv. apply Hsub in Hv as [Hv Hj]. cbn in Hj.
    replace (vid + 1 - 1) with vid in Hj by lia. exists (Vertex vid (column nzs vid) (w (column nzs vid)) (-1)). cbn. rewrite elem_of_column.
    split; [|done]. unfold columns. apply elem_of_list_fmap. by exists vid.
Qed.

Lemma rows_nonempty nzs E : Forall (λ n, n_verts n ≠ []) (rows nzs E).
Proof. apply Forall_forall. intros n (i & -> & [Hi _]%elem_of_list_filter)%elem_of_list_fmap. done. Qed.

(** *** Sequential reading *)
Definition whole_part (V : Z) : partitioning := Partitioning (λ _, 0) (λ x, x) (λ _, V) (λ i _, i).
Lemma whole_lawful V : lawful 1 V (whole_part V).
Proof. split; cbn; intros; lia. Qed.

Section seq.
  Context (E V : Z) (HE : E ≤ maxdim) (HV : V ≤ maxdim).
  Definition lists_seq (nzs : list (Z * Z)) : lists := (column nzs <$> seqZ 0 V, row nzs <$> seqZ 0 E).

  Lemma wpe_push_entry (Er : err → Prop) nzs e v (Q : lists → Prop) :
    1 ≤ e ≤ E → 1 ≤ v ≤ V → Q (lists_seq (nzs ++ [(e, v)])) → wpe Er (push_entry (lists_seq nzs) e v) Q.
  Proof.
    intros He Hv HQ.
    assert (∀ l, lists_par (whole_part V) 0 E l = lists_seq l) as Heq.
    { intros l. unfold lists_par, lists_seq. cbn. f_equal. unfold mine. by rewrite filter_all. }
    pose proof (wpe_push_owned (whole_part V) 1 0 E V (whole_lawful V) ltac:(lia) HE HV Er nzs e v Q He Hv) as Hp.
    rewrite !Heq in Hp. unfold push_owned in Hp. cbn [whole_part pa_owner pa_local] in Hp. rewrite decide_True in Hp by done.
    by apply Hp.
  Qed.

  Lemma wpe_read_general (Er : err → Prop) entries lines (Q : option lists → Prop) :
    entries_of E V entries lines → Q (Some (lists_seq entries)) → wpe Er (read_general lines (lists_seq [])) Q.
  Proof.
    intros Hlines HQ. unfold read_general.
    assert (∀ nzs entries lines, entries_of E V entries lines → wpe Er (read_general lines (lists_seq nzs))
      (λ o, o = Some (lists_seq (nzs ++ entries)))) as Hf.
    { clear Hlines HQ entries lines. intros nzs entries lines HF. unfold read_general. revert nzs.
      induction HF as [|ev l entries lines (Hev & He & Hv) _ IH]; intros nzs; cbn [foldM].
      - apply wpe_ret. by rewrite app_nil_r.
      - apply wpe_bind. rewrite Hev. apply wpe_bind. apply wpe_push_entry; [done..|]. apply wpe_ret. eapply wpe_mono; [apply IH|].
        intros o ->. rewrite <-(assoc_L (++)). by destruct ev. }
    eapply wpe_mono; [apply Hf, Hlines|]. intros o ->. done.
  Qed.

  Lemma wpe_read_symmetric (Er : err → Prop) entries lines (Q : option (lists * Z) → Prop) :
    E = V → entries_of E V entries lines →
    Q (Some (lists_seq (nonzeros MSymmetric entries), Z.of_nat (length (nonzeros MSymmetric entries)))) →
    wpe Er (read_symmetric lines (lists_seq [])) Q.
  Proof.
    intros Hsq Hlines HQ. unfold read_symmetric.
    assert (∀ nzs z entries lines, entries_of E V entries lines → wpe Er (foldM (λ (o : option (lists * Z)) line,
      match o with
      | None => ret None
      | Some sn => match get_entry line with
                   | None => ret None
                   | Some ev =>
                       s1 <- push_entry (fst sn) (fst ev) (snd ev) ;;
                       if decide (snd ev = fst ev) then ret (Some (s1, snd sn + 1))
                       else s2 <- push_entry s1 (snd ev) (fst ev) ;; ret (Some (s2, snd sn + 2))
                   end
      end) lines (Some (lists_seq nzs, z)))
      (λ o, o = Some (lists_seq (nzs ++ nonzeros MSymmetric entries), z + Z.of_nat (length (nonzeros MSymmetric entries))))) as Hf.
    { clear Hlines HQ. intros nzs z entries0 lines0 HF. revert nzs z.
      induction HF as [|ev l entries0 lines0 (Hev & He & Hv) _ IH]; intros nzs z; cbn [foldM].
      - apply wpe_ret. cbn. by rewrite app_nil_r, Z.add_0_r.
      - rewrite nonzeros_symmetric_cons. apply wpe_bind. rewrite Hev. apply wpe_bind. apply wpe_push_entry; [done..|]. cbn [fst snd].
        destruct (decide (snd ev = fst ev)).
        + apply wpe_ret. eapply wpe_mono; [apply IH|]. intros o ->. do 2 f_equal.
          * rewrite <-(assoc_L (++)). by destruct ev.
          * rewrite app_length. cbn [length]. lia.
        + apply wpe_bind, wpe_push_entry; [lia|lia|]. apply wpe_ret. eapply wpe_mono; [apply IH|]. intros o ->. do 2 f_equal.
          * rewrite <-!(assoc_L (++)). by destruct ev.
          * rewrite app_length. cbn [length]. lia. }
    eapply wpe_mono; [apply Hf, Hlines|]. intros o ->. exact HQ.
  Qed.
End seq.

Lemma numeral_nonneg n s : numeral n s → 0 ≤ n.
Proof.
  intros (_ & HF & ->). assert (∀ acc, 0 ≤ acc → 0 ≤ foldl (λ a c, 10 * a + (Z.of_nat (nat_of_ascii c) - 48)) acc s) as Hf; [|by apply Hf].
  induction HF as [|c s Hc _ IH]; intros acc Hacc; [done|]. cbn [foldl]. apply IH. lia.
Qed.
Lemma size_line_nonneg E V L l : size_line E V L l → 0 ≤ E ∧ 0 ≤ V.
Proof. intros (a & sE & g1 & sV & g2 & sL & tl & _ & _ & HE & _ & HV & _). split; by eapply numeral_nonneg. Qed.

Lemma valid_entries sy E V L entries lines :
  valid_listing sy E V L entries → Forall2 entry_line entries lines → entries_of E V entries lines.
Proof.
  intros Hval HF. pose proof (vl_range _ _ _ _ _ Hval) as Hr. pose proof (vl_rows _ _ _ _ _ Hval). pose proof (vl_cols _ _ _ _ _ Hval).
  clear Hval. induction HF as [|ev l entries lines Hl _ IH]; [constructor|]. apply Forall_cons in Hr as [Hev Hr].
  constructor; [|by apply IH]. split; [|done]. apply get_entry_line; [done| |]; unfold two64; lia.
Qed.
Lemma nonzeros_range sy E V L entries : valid_listing sy E V L entries →
  Forall (λ ev, 1 ≤ fst ev ≤ E ∧ 1 ≤ snd ev ≤ V) (nonzeros sy entries).
Proof.
  intros Hval. pose proof (vl_range _ _ _ _ _ Hval) as Hr. destruct sy; [done|]. pose proof (vl_square _ _ _ _ _ Hval eq_refl) as Hsq.
  clear Hval. induction Hr as [|ev entries Hev _ IH]; [constructor|]. rewrite nonzeros_symmetric_cons. apply Forall_app. split; [|done].
  destruct (decide _); repeat constructor; cbn; lia.
Qed.

Lemma read_hypergraph_listing t sy E V L entries mode :
  listing t sy E V L entries → valid_listing sy E V L entries → mode ≠ ModeOther →
  wp (read_hypergraph t mode) (λ o, o = Some
    (with_nets ((λ n, set_ngsize (Z.of_nat (length (n_verts n))) n) <$> rows (nonzeros sy entries) E)
      (mk_hg V E (columns (nonzeros sy entries) (mode_weight mode) (seqZ 0 V)) (rows (nonzeros sy entries) E)
         (Z.of_nat (length (nonzeros sy entries)))))).
Proof.
  intros (banner & comments & sizes & lines & body & -> & Hb & Hc & Hs & Hl & Hbody) Hval Hm.
  pose proof (vl_rows _ _ _ _ _ Hval) as HE. pose proof (vl_cols _ _ _ _ _ Hval) as HV. pose proof (vl_entries _ _ _ _ _ Hval) as HL.
  destruct (read_header_listing (symmetry_name sy) E V L banner comments sizes body Hb Hc Hs) as (line & Hhd); [unfold two64; lia..|].
  unfold read_hypergraph. rewrite Hhd. cbn [fst snd].
  destruct (entry_lines_ok _ _ Hl) as [Hnl Hne]. rewrite (stream_lines_listing lines body Hnl Hne Hbody).
  pose proof (valid_entries _ _ _ _ _ _ Hval Hl) as Hent.
  apply wpe_bind, wpe_new_lists; [done|]. apply wpe_bind, wpe_new_lists; [done|].
  apply wpe_bind. eapply wpe_of_option_Some; [done|]. apply wpe_bind. eapply wpe_of_option_Some; [done|].
  apply wpe_bind. change (((λ _ : Z, []) <$> seqZ 0 V), ((λ _ : Z, []) <$> seqZ 0 E)) with (lists_seq E V []).
  assert (wp (match build_vertices mode (seqZ 0 V) (column (nonzeros sy entries) <$> seqZ 0 V) with
          | None => ret None
          | Some vs =>
              H <- remove_free_nets (mk_hg V E vs (build_nets (row (nonzeros sy entries) <$> seqZ 0 E)) (Z.of_nat (length (nonzeros sy entries)))) 0 ;;
              ret (Some H)
          end) (λ o, o = Some
    (with_nets ((λ n, set_ngsize (Z.of_nat (length (n_verts n))) n) <$> rows (nonzeros sy entries) E)
      (mk_hg V E (columns (nonzeros sy entries) (mode_weight mode) (seqZ 0 V)) (rows (nonzeros sy entries) E)
         (Z.of_nat (length (nonzeros sy entries))))))) as Hend.
  { rewrite build_vertices_eq by done. rewrite build_nets_seqZ. apply wpe_bind. intros w. unfold bind.
    rewrite remove_free_nets_none by apply rows_nonempty. by apply wpe_ret. }
  destruct sy; cbn [symmetry_name].
  - rewrite decide_True by done. apply wpe_bind. eapply wpe_of_option_Some; [done|]. apply wpe_bind.
    apply (wpe_read_general E V HE HV _ entries lines); [done|]. apply wpe_ret. cbn [fmap option_fmap option_map fst snd lists_seq].
    rewrite (vl_count _ _ _ _ _ Hval). exact Hend.
  - rewrite decide_False by done. rewrite decide_True by done.
    apply (wpe_read_symmetric E V HE HV _ entries lines); [by apply (vl_square _ _ _ _ _ Hval)|done|]. exact Hend.
Qed.
