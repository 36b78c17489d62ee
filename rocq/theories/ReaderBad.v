(** The reader on arbitrary texts: what it can return, and when it leaves its arrays. *)
From Verif Require Export ReaderProof.

(** *** Numbers that are read fit in 64 bits *)
Lemma digits_nonneg l acc b : 0 ≤ acc → 0 ≤ (digits l acc b).1.1.
Proof.
  revert acc b. induction l as [|c l IH]; intros acc b Hacc; cbn [digits]; [done|].
  unfold digit. destruct (decide _) as [Hd|]; [|done]. apply IH. lia.
Qed.
Lemma parse_unsigned_range l : 0 ≤ (parse_unsigned l).1.1 < two64.
Proof.
  unfold parse_unsigned. set (l' := match l with [] => _ | _ => _ end). pose proof (digits_nonneg l' 0 false ltac:(done)) as Hd.
  destruct (negb _); [cbn; unfold two64; lia|]. destruct (decide _); [cbn; unfold two64; lia|]. cbn [fst].
  destruct l as [|c l0]; cbn [fst]; [lia|]. destruct (bool_decide _); [|lia]. apply Z.mod_pos_bound. unfold two64. lia.
Qed.
Lemma get_num_range l n r : get_num l = Some (n, r) → 0 ≤ n < two64.
Proof.
  unfold get_num. destruct (skip_ws l) as [|c l'] eqn:Hl; [done|]. destruct (snd (fst _)); [|done].
  intros [= <- _]. apply parse_unsigned_range.
Qed.
Lemma get_entry_range l ev : get_entry l = Some ev → 0 ≤ fst ev < two64 ∧ 0 ≤ snd ev < two64.
Proof.
  unfold get_entry. destruct (get_num l) as [[e r]|] eqn:He; [|done]. cbn [fst snd]. destruct (get_num r) as [[v r']|] eqn:Hv; [|done].
  intros [= <-]. cbn. split; by eapply get_num_range.
Qed.

Definition in_range (E V : Z) (ev : Z * Z) : Prop := 1 ≤ fst ev ≤ E ∧ 1 ≤ snd ev ≤ V.
Global Instance in_range_dec E V ev : Decision (in_range E V ev).
Proof. unfold in_range. apply _. Defined.

Lemma pred64_range v : 0 ≤ v < two64 → pred64 v = v - 1 ∨ (v = 0 ∧ pred64 v = two64 - 1).
Proof.
  intros Hv. destruct (decide (v = 0)) as [->|]; [by right|]. left. apply pred64_eq. lia.
Qed.

Lemma wpe_idx_err (Er : err → Prop) {A} (l : list A) i (Q : A → Prop) : zlookup l i = None → Er UB → wpe Er (idx l i) Q.
Proof. intros Hi He w. unfold idx, of_option. rewrite Hi. done. Qed.
Lemma zlookup_fmap_seqZ_None {A} (f : Z → A) k i : ¬ (0 ≤ i < k) → zlookup (f <$> seqZ 0 k) i = None.
Proof.
  intros Hi. unfold zlookup. case_bool_decide; [|done]. rewrite list_lookup_fmap, lookup_ge_None_2; [done|]. rewrite seqZ_length. lia.
Qed.

Section any.
  Context (E V : Z) (HE : E ≤ maxdim) (HV : V ≤ maxdim).

  (** a push of an entry out of range leaves an array *)
  Lemma wpe_push_entry_bad (Er : err → Prop) nzs e v (Q : lists → Prop) :
    0 ≤ e < two64 → 0 ≤ v < two64 → ¬ in_range E V (e, v) → Er UB → wpe Er (push_entry (lists_seq E V nzs) e v) Q.
  Proof.
    intros He Hv Hr Hu. unfold push_entry, lists_seq. cbn [fst snd]. unfold in_range, maxdim in *. cbn [fst snd] in Hr.
    apply wpe_bind. destruct (decide (1 ≤ v ≤ V)) as [Hv'|Hv'].
    - rewrite (pred64_eq v) by (unfold two64; lia).
      apply (wpe_push_at _ _ (λ j, if decide (j = v - 1) then column nzs j ++ [to_long (pred64 e)] else column nzs j)); [lia|by rewrite decide_True|intros j ??; by rewrite decide_False|].
      apply wpe_bind. unfold push_at. apply wpe_bind. apply wpe_idx_err; [|done]. apply zlookup_fmap_seqZ_None.
      unfold two64 in *. destruct (pred64_range e) as [->|[-> ->]]; [done|lia|unfold two64; lia].
    - unfold push_at. apply wpe_bind. apply wpe_idx_err; [|done]. apply zlookup_fmap_seqZ_None.
      unfold two64 in *. destruct (pred64_range v) as [->|[-> ->]]; [done|lia|unfold two64; lia].
  Qed.
  Lemma wpe_push_entry_any (Er : err → Prop) nzs e v (Q : lists → Prop) :
    0 ≤ e < two64 → 0 ≤ v < two64 → Er UB → (in_range E V (e, v) → Q (lists_seq E V (nzs ++ [(e, v)]))) →
    wpe Er (push_entry (lists_seq E V nzs) e v) Q.
  Proof.
    intros He Hv Hu HQ. destruct (decide (in_range E V (e, v))) as [Hr|Hr].
    - destruct Hr as [? ?]. apply wpe_push_entry; auto. apply HQ. done.
    - by apply wpe_push_entry_bad.
  Qed.

  Lemma wpe_read_general_any (Er : err → Prop) lines (Q : option lists → Prop) : Er UB → Q None →
    (∀ nzs, Forall (in_range E V) nzs → Q (Some (lists_seq E V nzs))) → wpe Er (read_general lines (lists_seq E V [])) Q.
  Proof.
    intros Hu Hn HQ. unfold read_general.
    eapply (wpe_foldM_inv Er _ (λ o, o = None ∨ ∃ nzs, Forall (in_range E V) nzs ∧ o = Some (lists_seq E V nzs))).
    - right. by exists [].
    - intros line o _ [->|(nzs & Hnzs & ->)]; [apply wpe_ret; by left|].
      destruct (get_entry line) as [[e v]|] eqn:Hev; [|apply wpe_ret; by left]. destruct (get_entry_range _ _ Hev) as [He Hv].
      apply wpe_bind. apply wpe_push_entry_any; [done..|]. intros Hr. apply wpe_ret. right. exists (nzs ++ [(e, v)]).
      split; [|done]. apply Forall_app. split; [done|]. by constructor.
    - intros o [->|(nzs & ? & ->)]; auto.
  Qed.
  Lemma wpe_read_symmetric_any (Er : err → Prop) lines (Q : option (lists * Z) → Prop) : Er UB → Q None →
    (∀ nzs z, Forall (in_range E V) nzs → Q (Some (lists_seq E V nzs, z))) → wpe Er (read_symmetric lines (lists_seq E V [])) Q.
  Proof.
    intros Hu Hn HQ. unfold read_symmetric.
    eapply (wpe_foldM_inv Er _ (λ o, o = None ∨ ∃ nzs z, Forall (in_range E V) nzs ∧ o = Some (lists_seq E V nzs, z))).
    - right. by exists [], 0.
    - intros line o _ [->|(nzs & z & Hnzs & ->)]; [apply wpe_ret; by left|].
      destruct (get_entry line) as [[e v]|] eqn:Hev; [|apply wpe_ret; by left]. destruct (get_entry_range _ _ Hev) as [He Hv].
      cbn [fst snd] in *.
      apply wpe_bind. apply wpe_push_entry_any; [done..|]. intros Hr.
      assert (Forall (in_range E V) (nzs ++ [(e, v)])) as Hnzs1 by (apply Forall_app; split; [done|by constructor]).
      destruct (decide (v = e)).
      + apply wpe_ret. right. eauto.
      + apply wpe_bind. apply wpe_push_entry_any; [done..|]. intros Hr'. apply wpe_ret. right. eexists _, _. split; [|done].
        apply Forall_app. split; [done|]. by constructor.
    - intros o [->|(nzs & z & ? & ->)]; auto.
  Qed.

  Lemma read_general_oob entries lines w :
    Forall2 (λ ev l, get_entry l = Some ev) entries lines → Exists (λ ev, ¬ in_range E V ev) entries →
    read_general lines (lists_seq E V []) w = Err UB.
  Proof.
    intros HF Hex.
    assert (∀ nzs, wpe (λ e, e = UB) (read_general lines (lists_seq E V nzs)) (λ _, False)) as Hw.
    { unfold read_general. induction HF as [|ev l entries lines Hev _ IH]; intros nzs; [by apply Exists_nil in Hex|]. cbn [foldM].
      destruct (get_entry_range _ _ Hev) as [He Hv].
      apply wpe_bind. rewrite Hev. apply wpe_bind. destruct (decide (in_range E V ev)) as [Hr|Hr].
      - destruct (Hr) as [? ?]. apply wpe_push_entry; [done..|]. apply wpe_ret. apply IH. apply Exists_cons in Hex as [?|?]; done.
      - apply wpe_push_entry_bad; [done..| |done]. by destruct ev. }
    specialize (Hw [] w). destruct (read_general _ _ w) as [[? ?]|]; [done|]. by rewrite Hw.
  Qed.

  (** a line without two numbers ends the reading *)
  Lemma wpe_read_general_stop (Er : err → Prop) entries lines l lines' :
    entries_of E V entries lines → get_entry l = None →
    wpe Er (read_general (lines ++ l :: lines') (lists_seq E V [])) (λ o, o = None).
  Proof.
    intros HF Hl.
    assert (∀ nzs, wpe Er (read_general (lines ++ l :: lines') (lists_seq E V nzs)) (λ o, o = None)) as Hw; [|apply Hw].
    unfold read_general. induction HF as [|ev l0 entries lines (Hev & He & Hv) _ IH]; intros nzs; cbn [app foldM].
    - apply wpe_bind. rewrite Hl. apply wpe_ret. apply wpe_foldM_inv with (I := λ o : option lists, o = None); [done| |done].
      intros x o _ ->. by apply wpe_ret.
    - apply wpe_bind. rewrite Hev. apply wpe_bind. apply wpe_push_entry; [done..|]. apply wpe_ret. apply IH.
  Qed.
  Lemma wpe_read_symmetric_stop (Er : err → Prop) entries lines l lines' :
    E = V → entries_of E V entries lines → get_entry l = None →
    wpe Er (read_symmetric (lines ++ l :: lines') (lists_seq E V [])) (λ o, o = None).
  Proof.
    intros Hsq HF Hl. unfold read_symmetric. generalize 0 as z. generalize (@nil (Z * Z)) as nzs.
    induction HF as [|ev l0 entries lines (Hev & He & Hv) _ IH]; intros nzs z; cbn [app foldM].
    - apply wpe_bind. rewrite Hl. apply wpe_ret. apply wpe_foldM_inv with (I := λ o : option (lists * Z), o = None); [done| |done].
      intros x o _ ->. by apply wpe_ret.
    - apply wpe_bind. rewrite Hev. apply wpe_bind. apply wpe_push_entry; [done..|]. cbn [fst snd]. destruct (decide _).
      + apply wpe_ret. apply IH.
      + apply wpe_bind, wpe_push_entry; [lia..|]. apply wpe_ret. apply IH.
  Qed.
End any.

(** the hypergraph of any list of entries in range *)
Lemma built_row_net E V nzs mode nz : mode ≠ ModeOther →
  row_net E V nzs (mode_weight mode)
    (with_nets ((λ n, set_ngsize (Z.of_nat (length (n_verts n))) n) <$> rows nzs E)
       (mk_hg V E (columns nzs (mode_weight mode) (seqZ 0 V)) (rows nzs E) nz)).
Proof.
  intros Hm. split; [done..|]. cbn [h_nets with_nets]. unfold rows. rewrite <-list_fmap_compose. done.
Qed.

(** every outcome of the reader *)
Lemma read_hypergraph_any t mode :
  wpe (λ e, e = UB ∨ e = Throw) (read_hypergraph t mode) (λ o, ∀ H, o = Some H → mode ≠ ModeOther ∧
    ∃ nzs, Forall (in_range (h_gnets H) (h_gsize H)) nzs ∧ row_net (h_gnets H) (h_gsize H) nzs (mode_weight mode) H ∧
      (NoDup nzs → consistent H)).
Proof.
  unfold read_hypergraph. destruct (read_header t) as [hd|]; [|apply wpe_ret; done].
  destruct hd as [[sym [[oE oV] oL]] [st line]]. cbn [fst snd].
  destruct oV as [V|]; [|intros w; cbn; by left]. apply wpe_bind.
  destruct (decide (V ≤ maxdim)) as [HV|HV].
  2: { intros w. unfold new_lists, bind, of_option, guardM. cbn. rewrite bool_decide_false by done. by right. }
  apply wpe_new_lists; [done|]. destruct oE as [E|]; [|intros w; cbn; by left]. apply wpe_bind.
  destruct (decide (E ≤ maxdim)) as [HE|HE].
  2: { intros w. unfold new_lists, bind, of_option, guardM. cbn. rewrite bool_decide_false by done. by right. }
  apply wpe_new_lists; [done|]. apply wpe_bind. eapply wpe_of_option_Some; [done|]. apply wpe_bind. eapply wpe_of_option_Some; [done|].
  change (((λ _ : Z, []) <$> seqZ 0 V), ((λ _ : Z, []) <$> seqZ 0 E)) with (lists_seq E V []).
  assert (∀ nzs z, Forall (in_range E V) nzs → wpe (λ e, e = UB ∨ e = Throw) (match build_vertices mode (seqZ 0 V) (column nzs <$> seqZ 0 V) with
          | None => ret None
          | Some vs => H <- remove_free_nets (mk_hg V E vs (build_nets (row nzs <$> seqZ 0 E)) z) 0 ;; ret (Some H)
          end) (λ o, ∀ H, o = Some H → mode ≠ ModeOther ∧ ∃ nzs, Forall (in_range (h_gnets H) (h_gsize H)) nzs ∧
              row_net (h_gnets H) (h_gsize H) nzs (mode_weight mode) H ∧ (NoDup nzs → consistent H))) as Hend.
  { intros nzs z Hnzs. assert (mode = ModeOther ∨ mode ≠ ModeOther) as [->|Hm] by (destruct mode; auto); [by apply wpe_ret|].
    rewrite build_vertices_eq by done. rewrite build_nets_seqZ. apply wpe_bind. intros w. unfold bind.
    rewrite remove_free_nets_none by apply rows_nonempty. apply wpe_ret. intros H [= <-]. split; [done|]. exists nzs.
    split; [done|]. split; [by apply built_row_net|]. intros Hnd.
    apply (with_nets_same_ids_consistent (mk_hg V E (columns nzs (mode_weight mode) (seqZ 0 V)) (rows nzs E) z)
        (λ n, set_ngsize (Z.of_nat (length (n_verts n))) n)); [done|].
    apply matrix_consistent; [done..|apply NoDup_seqZ| |].
    - eapply Forall_impl; [exact Hnzs|]. by intros ev [? _].
    - intros ev. split; [|tauto]. intros Hev. split; [done|]. rewrite Forall_forall in Hnzs. destruct (Hnzs _ Hev). apply elem_of_seqZ. lia. }
  apply wpe_bind. destruct (decide (sym = w_general)).
  - destruct oL as [L|]; [|intros w; cbn; by left]. apply wpe_bind. eapply wpe_of_option_Some; [done|]. apply wpe_bind.
    apply wpe_read_general_any; [done..|by left|by apply wpe_ret, wpe_ret|]. intros nzs Hnzs. apply wpe_ret. by apply Hend.
  - destruct (decide (sym = w_symmetric)); [|by apply wpe_ret, wpe_ret].
    apply wpe_read_symmetric_any; [done..|by left|by apply wpe_ret|]. intros nzs z Hnzs. by apply Hend.
Qed.
