(** C74: parallel matching prefers the greatest inner products. *)
From Verif Require Export MatchProof FinalCoarsenPar.
Local Open Scope list_scope.
Local Open Scope Z_scope.

(** C74.  One processor, after the samples of all processors have been announced to it ([box]):
    each of its vertices that is not a sample chooses an announced sample with which no other
    sample beats it in inner product, if any inner product is positive; for each sample, the
    requests that are sent are the best of the vertices that chose it, at most max_cluster_size.
    Every request carries a positive inner product. *)
Lemma C74_requests_proof : ∀ H s p S mcs samples box w, consistent H → 0 < S →
  (∀ i, i ∈ samples → 0 ≤ i < Z.of_nat (length (h_verts H))) → (∀ m, m ∈ box → 0 ≤ sample_number S m < p * S) →
  ∃ best parts w',
    (best <- best_matches H S samples box ;; rq <- requested_matches H (p * S) best ;; send_requests s S mcs rq) w = Ok (concat parts, w') ∧
    length best = length (h_verts H) ∧
    (∀ i v b, h_verts H !! i = Some v → best !! i = Some b →
       if decide (Z.of_nat i ∈ samples) then b = (d_zero, -1) else best_choice H S box v b) ∧
    length parts = Z.to_nat (p * S) ∧
    (∀ k part, parts !! k = Some part → ∃ taken, chosen mcs (suitors H s best (Z.of_nat k)) taken ∧
       part = (λ r, (Z.of_nat k / S, (Z.of_nat k `mod` S, r))) <$> taken) ∧
    ∀ m, m ∈ concat parts → d_lt d_zero (snd (snd (snd (snd m)))) = true.
Proof.
  intros H s p S mcs samples box w HC HS Hsm Hbox.
  assert (wp (best <- best_matches H S samples box ;; rq <- requested_matches H (p * S) best ;; send_requests s S mcs rq)
    (λ out, ∃ best parts, out = concat parts ∧ length best = length (h_verts H) ∧
    (∀ i v b, h_verts H !! i = Some v → best !! i = Some b →
       if decide (Z.of_nat i ∈ samples) then b = (d_zero, -1) else best_choice H S box v b) ∧
    length parts = Z.to_nat (p * S) ∧
    (∀ k part, parts !! k = Some part → ∃ taken, chosen mcs (suitors H s best (Z.of_nat k)) taken ∧
       part = (λ r, (Z.of_nat k / S, (Z.of_nat k `mod` S, r))) <$> taken) ∧
    ∀ m, m ∈ concat parts → d_lt d_zero (snd (snd (snd (snd m)))) = true)) as Hw.
  { apply wpe_bind, wpe_best_matches_exact; [done..|]. intros best Hl Hbest.
    assert (∀ i v b, h_verts H !! i = Some v → best !! i = Some b → b = (d_zero, -1) ∨ 0 ≤ snd b < p * S ∧ d_lt d_zero (fst b) = true) as Hpos.
    { intros i v b Hi Hb. specialize (Hbest i v b Hi Hb). destruct (decide (Z.of_nat i ∈ samples)); [by left|].
      destruct Hbest as [[->|(m & Hm & -> & Hp)] _]; [by left|right]. split; [by apply Hbox|done]. }
    apply wpe_bind, wpe_requested_exact; [done|done| |].
    { intros b [i Hi]%elem_of_list_lookup. destruct (lookup_lt_is_Some_2 (h_verts H) i) as [v Hv]; [rewrite <-Hl; by eapply lookup_lt_Some|].
      destruct (Hpos i v b Hv Hi) as [->|[? _]]; [by left|by right]. }
    intros reqs Hlr Hreq.
    assert (∀ k r, r ∈ suitors H s best (Z.of_nat k) → d_lt d_zero (snd (snd r)) = true) as Hsuit.
    { intros k r Hr. unfold suitors in Hr. apply elem_of_list_omap in Hr as ([v b] & Hin & Hx). cbn [fst snd] in Hx.
      destruct (decide (snd b = Z.of_nat k)) as [Hk|]; [|done]. injection Hx as <-. cbn [fst snd].
      apply elem_of_list_lookup in Hin as [i Hi]. apply lookup_zip_with_Some in Hi as (v' & b' & [= <- <-] & Hv & Hb).
      destruct (Hpos i v b Hv Hb) as [->|[_ ?]]; [cbn in Hk; lia|done]. }
    apply wpe_send_chosen; [done| |].
    { intros k l x Hk Hx. specialize (Hreq s k l Hk).
      assert ((Z.of_nat s, x) ∈ suitors H s best (Z.of_nat k)) as Hin by (rewrite <-Hreq; by apply elem_of_list_fmap_1 with (f := λ x, (Z.of_nat s, x))).
      apply Hsuit in Hin. cbn [snd] in Hin. by eapply d_lt_not_nan. }
    intros parts Hlp Hparts. exists best, parts.
    assert (∀ k part, parts !! k = Some part → ∃ taken, chosen mcs (suitors H s best (Z.of_nat k)) taken ∧
       part = (λ r, (Z.of_nat k / S, (Z.of_nat k `mod` S, r))) <$> taken) as Hp.
    { intros k part Hk. destruct (lookup_lt_is_Some_2 reqs k) as [l Hkl]; [rewrite <-Hlp; by eapply lookup_lt_Some|].
      destruct (Hparts k part l Hk Hkl) as (taken & Ht & ->). exists taken. split; [|done]. by rewrite <-(Hreq s k l Hkl). }
    split; [done|]. split; [done|]. split; [done|]. split; [by rewrite Hlp|]. split; [done|].
    intros m (part & Hm & [k Hk]%elem_of_list_lookup)%CoarsenProof.elem_of_concat.
    destruct (Hp k part Hk) as (taken & (refused & Hperm & _) & ->). apply elem_of_list_fmap in Hm as (r & -> & Hr). cbn [snd].
    apply (Hsuit k). rewrite <-Hperm. apply elem_of_app. by left. }
  apply wp_run with (w := w) in Hw as (out & w' & Heq & best & parts & -> & Hrest). exists best, parts, w'. split; [done|exact Hrest].
Qed.

(** C74.  A processor that owns [number] samples and has received the requests [box]: each of its
    samples takes the best of the requests for it, at most max_cluster_size; these become its
    matches, and for each of them a message goes to the processor that sent it. *)
Lemma C74_acceptance_proof : ∀ s S mcs number C box w,
  c_matches C = replicate number [] → (∀ m, m ∈ box → 0 ≤ fst m < Z.of_nat number) →
  (∀ m, m ∈ box → d_lt d_zero (snd (snd (snd m))) = true) →
  ∃ C' out w', accept_requests s S mcs number C box w = Ok ((C', out), w') ∧ length (c_matches C') = number ∧
    ∃ takens, length takens = number ∧
      (∀ i taken, takens !! i = Some taken → chosen mcs (snd <$> filter (λ m : request_msg, fst m = Z.of_nat i) box) taken ∧
         c_matches C' !! i = Some ((λ r, (fst (snd r), fst r)) <$> taken)) ∧
      out ≡ₚ concat (imap (λ i taken, (λ r, (fst r, (Z.of_nat i + Z.of_nat s * S, fst (snd r)))) <$> taken) takens).
Proof.
  intros s S mcs number C box w HC Hbox Hpos.
  assert (wp (accept_requests s S mcs number C box) (λ r, length (c_matches (fst r)) = number ∧
    (∀ i l, c_matches (fst r) !! i = Some l → ∃ taken, chosen mcs (requests_for box i) taken ∧ l = (λ x : Z * (Z * dbl), (fst (snd x), fst x)) <$> taken) ∧
    snd r ≡ₚ acc_msg S s <$> tagged (c_matches (fst r)))) as Hw.
  { apply wpe_accept_chosen; [done|done| |].
    - intros m Hm. by eapply d_lt_not_nan, Hpos.
    - intros ms outs H1 H2 H3. cbn [fst snd c_matches]. split_and!; done. }
  apply wp_run with (w := w) in Hw as ([C' out] & w' & Heq & Hl & Hms & Hout). cbn [fst snd] in *.
  exists C', out, w'. split; [done|]. split; [done|].
  assert (∀ n ms, (∀ i l, ms !! i = Some l → ∃ taken, chosen mcs (requests_for box (n + i)) taken ∧ l = (λ x : Z * (Z * dbl), (fst (snd x), fst x)) <$> taken) →
    ∃ takens, length takens = length ms ∧ (∀ i taken, takens !! i = Some taken → chosen mcs (requests_for box (n + i)) taken ∧ ms !! i = Some ((λ r, (fst (snd r), fst r)) <$> taken)) ∧
    acc_msg S s <$> concat (imap (λ i l, pair (Z.of_nat (n + i)) <$> l) ms) =
      concat (imap (λ i taken, (λ r, (fst r, (Z.of_nat (n + i) + Z.of_nat s * S, fst (snd r)))) <$> taken) takens)) as Hgen.
  { clear. intros n ms. revert n. induction ms as [|l ms IH]; intros n Hms; [exists []; done|].
    destruct (Hms 0%nat l eq_refl) as (taken & Ht & ->). destruct (IH (Datatypes.S n)) as (takens & H1 & H2 & H3).
    { intros i l Hi. replace (Datatypes.S n + i)%nat with (n + Datatypes.S i)%nat by lia. by apply Hms. }
    exists (taken :: takens). split; [simpl; by rewrite H1|]. split.
    - intros [|i] t Hi; [injection Hi as <-; done|]. replace (n + Datatypes.S i)%nat with (Datatypes.S n + i)%nat by lia. by apply H2.
    - rewrite !imap_cons. cbn [concat]. rewrite fmap_app. f_equal.
      + rewrite <-!list_fmap_compose. done.
      + rewrite (imap_ext (compose _ Datatypes.S) (λ i l, pair (Z.of_nat (Datatypes.S n + i)) <$> l)) by (intros i l0 _; unfold compose; do 2 f_equal; lia).
        rewrite H3. f_equal. apply imap_ext. intros i t _. unfold compose. apply list_fmap_ext. intros _ r _. do 3 f_equal. lia. }
  destruct (Hgen 0%nat (c_matches C') Hms) as (takens & H1 & H2 & H3). exists takens. split; [by rewrite H1|]. split; [exact H2|].
  rewrite Hout. unfold tagged. apply reflexive_eq. exact H3.
Qed.

(** an example: of three requests for sample 0 the two greatest are taken *)
Definition m_box : list request_msg := [(0, (0, (7, d_of_Z 1))); (0, (1, (8, d_of_Z 3))); (1, (1, (9, d_of_Z 1))); (0, (2, (6, d_of_Z 2)))].
Definition m_contraction : contraction := Contr [10; 11] [[]; []] [] 0 0.
Example C74_acceptance_example : c_matches m_contraction = replicate 2 [] ∧ (∀ m, m ∈ m_box → 0 ≤ fst m < 2) ∧
  (∀ m, m ∈ m_box → d_lt d_zero (snd (snd (snd m))) = true) ∧
  match accept_requests 0 2 2 2 m_contraction m_box w0 with
  | Ok ((C, _), _) => match c_matches C with [[a; b]; [(9, 1)]] => {[a; b]} =@{gset (Z * Z)} {[(8, 1); (6, 2)]} | _ => False end
  | Err _ => False end.
Proof.
  split; [reflexivity|]. split; [|split].
  - assert (Forall (λ m : request_msg, 0 ≤ fst m < 2) m_box) as HF by (apply (bool_decide_eq_true_1 _); vm_compute; reflexivity).
    by rewrite Forall_forall in HF.
  - assert (Forall (λ m : request_msg, d_lt d_zero (snd (snd (snd m))) = true) m_box) as HF by (apply (bool_decide_eq_true_1 _); vm_compute; reflexivity).
    by rewrite Forall_forall in HF.
  - vm_compute. reflexivity.
Qed.

(** an example: processor 1 of [ps_sized] has been told of a sample with nets 0 and 2 and of one with nets 1 and 2;
    both its vertices choose the second; with clusters of one match only vertex 4, with the greater inner product, is proposed *)
Definition m_samples : list sample_msg := [(0, (0, [0; 2])); (2, (1, [1; 2]))].
Definition m_hg : hg := sized ps p1.
Lemma m_hg_consistent : consistent m_hg.
Proof. apply (di_local _ _ ps_sized_distributed). apply elem_of_list_fmap. exists p1. split; [done|]. right. left. Qed.
Example C74_requests_example : consistent m_hg ∧ (∀ m, m ∈ m_samples → 0 ≤ sample_number 2 m < 3 * 2) ∧
  match (best <- best_matches m_hg 2 [] m_samples ;; rq <- requested_matches m_hg 6 best ;; send_requests 1 2 1 rq) w0 with
  | Ok (out, _) => ((λ m, (fst m, fst (snd m), fst (snd (snd (snd m))))) <$> out) = [(2, 1, 4)] | Err _ => False end ∧
  match h_verts m_hg !! 0%nat with Some v => d_lt (inner_product m_hg [0; 2] v) (inner_product m_hg [1; 2] v) = true | None => False end.
Proof.
  split; [exact m_hg_consistent|]. split.
  - assert (Forall (λ m : sample_msg, 0 ≤ sample_number 2 m < 3 * 2) m_samples) as HF by (apply (bool_decide_eq_true_1 _); vm_compute; reflexivity).
    by rewrite Forall_forall in HF.
  - split; [vm_compute; reflexivity|]. vm_compute. reflexivity.
Qed.
