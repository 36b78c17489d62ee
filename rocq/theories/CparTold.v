(** Proofs about parallel coarsening: what the samples learn about their matches. *)
From Verif Require Export CparLocal.

(** the vertex with this id, wherever it is *)
Definition vert_of (Hs : list hg) (id : Z) : vertex := by_id (mk_hg 0 0 (all_verts Hs) [] 0) id.
Lemma vert_of_elem gn Hs v : distributed gn Hs → v ∈ all_verts Hs → vert_of Hs (v_id v) = v.
Proof. intros HD Hv. unfold vert_of. apply by_id_elem; [|done]. apply (di_verts _ _ HD). Qed.
Lemma vert_of_vid Hs id : id ∈ v_id <$> all_verts Hs → vert_of Hs id ∈ all_verts Hs ∧ v_id (vert_of Hs id) = id.
Proof. intros Hid. unfold vert_of. by apply (by_id_vid (mk_hg 0 0 (all_verts Hs) [] 0)). Qed.
Lemma by_id_vert_of gn Hs H id : distributed gn Hs → H ∈ Hs → id ∈ vids H → by_id H id = vert_of Hs id.
Proof.
  intros HD HH Hid. destruct (by_id_vid H id Hid) as [Hb He]. rewrite <-He at 2. symmetry. apply (vert_of_elem gn); [done|]. apply all_verts_elem. eauto.
Qed.
Lemma same_processor gn Hs t t' H H' id : distributed gn Hs → Hs !! t = Some H → Hs !! t' = Some H' → id ∈ vids H → id ∈ vids H' → t = t'.
Proof.
  intros HD HH HH' Hid Hid'. pose proof (di_verts _ _ HD) as Hnd. unfold all_verts in Hnd. rewrite fmap_concat, <-list_fmap_compose in Hnd.
  eapply (NoDup_concat_index ((fmap v_id ∘ h_verts) <$> Hs)); [exact Hnd| | |exact Hid|exact Hid']; rewrite list_lookup_fmap, ?HH, ?HH'; done.
Qed.

Lemma zsum_index {A} (f : A → Z) (l : list A) k x : l !! k = Some x → (∀ i y, l !! i = Some y → i ≠ k → f y = 0) → zsum (f <$> l) = f x.
Proof.
  revert k; induction l as [|y l IH]; intros [|k] Hk H0; try done; csimpl; rewrite zsum_cons.
  - injection Hk as ->. rewrite zsum_fmap_zero; [lia|]. intros z [i Hi]%elem_of_list_lookup. by apply (H0 (S i) z).
  - rewrite (H0 0%nat y) by done. rewrite (IH k Hk); [lia|]. intros i z Hi Hne. apply (H0 (S i) z Hi). lia.
Qed.
Lemma zsum_tagged {A} (f : A → Z) (ls : list (list A)) k l : ls !! k = Some l →
  zsum ((λ x : Z * A, if decide (fst x = Z.of_nat k) then f (snd x) else 0) <$> tagged ls) = zsum (f <$> l).
Proof.
  intros Hk. unfold tagged. rewrite zsum_concat.
  rewrite (zsum_index _ _ k (pair (Z.of_nat k) <$> l)).
  - rewrite <-list_fmap_compose. apply zsum_fmap_ext. intros x _. simpl. by rewrite decide_True.
  - by rewrite list_lookup_imap, Hk.
  - intros i y Hi Hne. rewrite list_lookup_imap in Hi. destruct (ls !! i) as [l'|]; [|done]. injection Hi as <-.
    apply zsum_fmap_zero. intros x (y & -> & _)%elem_of_list_fmap. simpl. rewrite decide_False by lia. done.
Qed.

Section told.
  Context (gn : Z) (Hs : list hg) (HD : distributed gn Hs) (samples : list (list Z)) (S mcs : Z) (accs : list (contraction * list (Z * (Z * Z)))).
  Let p := length Hs.
  Context (HS : 0 ≤ S).
  Context (Hsm : ∀ t H sm, Hs !! t = Some H → samples !! t = Some sm → in_range H sm ∧ Z.of_nat (length sm) ≤ S).
  Context (Hmu : matched_up Hs samples S mcs accs).
  Definition all_matched : list Z := concat ((λ acc : contraction * list (Z * (Z * Z)), fst <$> concat (c_matches (fst acc))) <$> accs).

  Record told (iboxes : list (list info_msg)) (matcheds : list (list bool)) : Prop := {
    to_len : length iboxes = p;
    to_len2 : length matcheds = p;
    to_range : ∀ s box sm m, iboxes !! s = Some box → samples !! s = Some sm → m ∈ box → 0 ≤ fst m < Z.of_nat (length sm) ∧
      ∀ n c, (n, c) ∈ snd (snd m) → ∃ e, e ∈ all_nets Hs ∧ n_id e = n ∧ n_cost e = c;
    to_weight : ∀ s box acc k l, iboxes !! s = Some box → accs !! s = Some acc → c_matches (fst acc) !! k = Some l →
      zsum ((λ m : info_msg, if decide (fst m = Z.of_nat k) then fst (snd m) else 0) <$> box) = zsum ((λ mt, v_weight (vert_of Hs (fst mt))) <$> l);
    to_nets : ∀ s box acc k l n, iboxes !! s = Some box → accs !! s = Some acc → c_matches (fst acc) !! k = Some l →
      (∃ m, m ∈ box ∧ fst m = Z.of_nat k ∧ n ∈ fst <$> snd (snd m)) ↔ ∃ mt, mt ∈ l ∧ n ∈ v_nets (vert_of Hs (fst mt));
    to_matched : ∀ t H mt, Hs !! t = Some H → matcheds !! t = Some mt → length mt = length (h_verts H) ∧
      ∀ i v b, h_verts H !! i = Some v → mt !! i = Some b → b = true ↔ v_id v ∈ all_matched;
  }.

  (** a message of accepted_matches *)
  Lemma acc_elem x : x ∈ concat (snd <$> accs) ↔ ∃ s acc k l m t, accs !! s = Some acc ∧ c_matches (fst acc) !! k = Some l ∧ (m, t) ∈ l ∧
    x = (t, (Z.of_nat k + Z.of_nat s * S, m)).
  Proof.
    rewrite CoarsenProof.elem_of_concat. split.
    - intros (l & Hx & (acc & -> & [s Hs']%elem_of_list_lookup)%elem_of_list_fmap).
      destruct (mu_loc _ _ _ _ _ Hmu s acc Hs') as (H & sm & ids & ms & _ & _ & _ & A4 & _ & _ & A7 & _). rewrite A7 in Hx.
      apply elem_of_list_fmap in Hx as ([k' [m t]] & -> & Hk). apply elem_of_tagged in Hk as (k & l & -> & Hl & Hm).
      exists s, acc, k, l, m, t. rewrite A4. done.
    - intros (s & acc & k & l & m & t & Hs' & Hl & Hm & ->). exists (snd acc). split; [|apply elem_of_list_fmap_1; by eapply elem_of_list_lookup_2].
      destruct (mu_loc _ _ _ _ _ Hmu s acc Hs') as (H & sm & ids & ms & _ & _ & _ & A4 & _ & _ & A7 & _). rewrite A7. rewrite A4 in Hl.
      apply elem_of_list_fmap. exists (Z.of_nat k, (m, t)). split; [done|]. apply elem_of_tagged. exists k, l. done.
  Qed.
  Lemma acc_good s acc k l m t : accs !! s = Some acc → c_matches (fst acc) !! k = Some l → (m, t) ∈ l →
    ∃ t' H, t = Z.of_nat t' ∧ good Hs samples s k t' m ∧ Hs !! t' = Some H ∧ m ∈ vids H ∧ 0 ≤ Z.of_nat k < S ∧ (s < p)%nat ∧ (t' < p)%nat.
  Proof.
    intros Hs' Hl Hm. destruct (mu_loc _ _ _ _ _ Hmu s acc Hs') as (H & sm & ids & ms & A1 & A2 & _ & A4 & A5 & _ & _ & A8). rewrite A4 in Hl.
    destruct (A8 k m t) as (t' & -> & Hg); [apply elem_of_tagged; exists k, l; done|]. pose proof Hg as (H1 & sm1 & i & u & H' & sm' & j & v & n & B1 & B2 & B3 & B4 & B5 & B6 & B7 & B8 & _).
    exists t', H'. split; [done|]. split; [done|]. split; [done|]. split; [rewrite <-B8; apply elem_of_list_fmap_1; by eapply elem_of_list_lookup_2|].
    destruct (Hsm s H sm A1 A2) as [_ Hle]. cbn [c_matches] in Hl. apply lookup_lt_Some in Hl. apply lookup_lt_Some in A1. apply lookup_lt_Some in B5. fold p in A1, B5. lia.
  Qed.
  Lemma all_matched_elem m : m ∈ all_matched ↔ ∃ s acc k l t, accs !! s = Some acc ∧ c_matches (fst acc) !! k = Some l ∧ (m, t) ∈ l.
  Proof.
    unfold all_matched. rewrite CoarsenProof.elem_of_concat. split.
    - intros (x & Hm & (acc & -> & [s Hs']%elem_of_list_lookup)%elem_of_list_fmap). apply elem_of_list_fmap in Hm as ([m' t] & -> & Hin).
      apply CoarsenProof.elem_of_concat in Hin as (l & Hl & [k Hk]%elem_of_list_lookup). exists s, acc, k, l, t. done.
    - intros (s & acc & k & l & t & Hs' & Hk & Hin). eexists. split; [|apply (elem_of_list_fmap_1 (λ acc : contraction * list (Z * (Z * Z)), fst <$> concat (c_matches (fst acc)))); by eapply elem_of_list_lookup_2].
      apply elem_of_list_fmap. exists (m, t). split; [done|]. apply CoarsenProof.elem_of_concat. exists l. split; [done|by eapply elem_of_list_lookup_2].
  Qed.

  Lemma key_div k s : 0 ≤ Z.of_nat k < S → (Z.of_nat k + Z.of_nat s * S) / S = Z.of_nat s.
  Proof. intros Hk. rewrite Z.div_add by lia. rewrite Z.div_small by lia. lia. Qed.
  Lemma key_mod k s : 0 ≤ Z.of_nat k < S → (Z.of_nat k + Z.of_nat s * S) mod S = Z.of_nat k.
  Proof. intros Hk. rewrite Z.mod_add by lia. by apply Z.mod_small. Qed.

  Lemma wpe_told E {B} (K : list (list info_msg) → list (list bool) → M B) (Q : B → Prop) :
    (∀ iboxes matcheds, told iboxes matcheds → wpe E (K iboxes matcheds) Q) →
    wpe E (aboxes <- exchange (snd <$> accs) ;;
           infos <- mapP (λ t, H <- nidx Hs t ;; box <- nidx aboxes t ;; send_info H S box) (seq 0 p) ;;
           iboxes <- exchange (fst <$> infos) ;;
           K iboxes (snd <$> infos)) Q.
  Proof.
    intros HQ. pose proof (mu_len _ _ _ _ _ Hmu) as Hla. fold p in Hla.
    assert (∀ m, m ∈ concat (snd <$> accs) → 0 ≤ fst m < Z.of_nat p) as Hdest.
    { intros x (s & acc & k & l & m & t & Hs' & Hl & Hm & ->)%acc_elem. destruct (acc_good _ _ _ _ _ _ Hs' Hl Hm) as (t' & H & -> & _ & _ & _ & _ & _ & ?). simpl. lia. }
    apply wpe_bind, wpe_exchange; [rewrite fmap_length, Hla; exact Hdest|]. rewrite fmap_length, Hla. intros aboxes Lab Hab.
    assert (∀ t box x, aboxes !! t = Some box → x ∈ box ↔ ∃ s acc k l, accs !! s = Some acc ∧ c_matches (fst acc) !! k = Some l ∧
      (snd x, Z.of_nat t) ∈ l ∧ fst x = Z.of_nat k + Z.of_nat s * S) as Hbox.
    { intros t box x Hb. rewrite (Hab t box Hb). rewrite elem_of_list_fmap. split.
      - intros (y & -> & [Ht Hy]%elem_of_list_filter). apply acc_elem in Hy as (s & acc & k & l & m & t' & A1 & A2 & A3 & ->). simpl in *. subst t'. exists s, acc, k, l. done.
      - intros (s & acc & k & l & A1 & A2 & A3 & A4). exists (Z.of_nat t, x). split; [done|]. apply elem_of_list_filter. split; [done|]. apply acc_elem.
        exists s, acc, k, l, (snd x), (Z.of_nat t). split_and!; try done. destruct x as [a b]. simpl in *. by subst a. }
    assert (∀ t box H x, aboxes !! t = Some box → Hs !! t = Some H → x ∈ box → snd x ∈ vids H) as Hloc.
    { intros t box H x Hb HH (s & acc & k & l & A1 & A2 & A3 & A4)%(Hbox t box x Hb).
      destruct (acc_good _ _ _ _ _ _ A1 A2 A3) as (t' & H' & Ht & _ & HH' & Hin & _). assert (t' = t) as -> by lia. congruence. }
    apply wpe_bind.
    eapply (wpe_ranks E _ p (λ t r, ∃ H box gs, Hs !! t = Some H ∧ aboxes !! t = Some box ∧ pairs gs ≡ₚ box ∧ (∀ g, g ∈ gs → snd g ≠ []) ∧ Forall2 (tells H S) gs (fst r) ∧ is_matched_by H box (snd r))).
    { intros t Ht. destruct (lookup_lt_is_Some_2 Hs t Ht) as [H HH]. destruct (lookup_lt_is_Some_2 aboxes t) as [box Hb]; [lia|].
      assert (consistent H) as HC by (apply (di_local _ _ HD); by eapply elem_of_list_lookup_2).
      apply wpe_bind. eapply wpe_nidx; [exact HH|]. apply wpe_bind. eapply wpe_nidx; [exact Hb|]. apply (wpe_send_info E H HC).
      - intros x Hx. pose proof (Hloc t box H x Hb HH Hx) as Hv. apply (Hbox t box x Hb) in Hx as (s & acc & k & l & A1 & A2 & A3 & A4).
        destruct (acc_good _ _ _ _ _ _ A1 A2 A3) as (t' & H' & _ & _ & _ & _ & Hk & Hsp & _). split_and!; [rewrite A4; nia|lia|done].
      - intros gs out matched G1 G0 G2 G3. exists H, box, gs. done. }
    intros infos Li Hi.
    (* where a message goes *)
    assert (∀ o, o ∈ concat (fst <$> infos) → ∃ t H box gs g r, infos !! t = Some r ∧ Hs !! t = Some H ∧ aboxes !! t = Some box ∧ pairs gs ≡ₚ box ∧ g ∈ gs ∧ snd g ≠ [] ∧ tells H S g o) as Ho.
    { intros o (out & Hin & (r & -> & [t Hr]%elem_of_list_lookup)%elem_of_list_fmap)%CoarsenProof.elem_of_concat.
      destruct (Hi t r Hr) as (H & box & gs & A1 & A2 & A3 & A0 & A4 & _). apply elem_of_list_lookup in Hin as [j Hj].
      destruct (Forall2_lookup_r _ _ _ _ _ A4 Hj) as (g & Hg & Ht). assert (g ∈ gs) by (by eapply elem_of_list_lookup_2). exists t, H, box, gs, g, r. split_and!; try done. by apply A0. }
    assert (∀ (gs : list (Z * list Z)) k m, (k, m) ∈ pairs gs ↔ ∃ g, g ∈ gs ∧ k = fst g ∧ m ∈ snd g) as Hpairs.
    { intros gs k m. unfold pairs. rewrite CoarsenProof.elem_of_concat. split.
      - intros (l & Hin & (g & -> & Hg)%elem_of_list_fmap). apply elem_of_list_fmap in Hin as (x & [= -> ->] & Hx). eauto.
      - intros (g & Hg & -> & Hm). eexists. split; [|apply (elem_of_list_fmap_1 (λ g : Z * list Z, pair (fst g) <$> snd g)); exact Hg]. by apply elem_of_list_fmap_1. }
    (* the sample a group belongs to *)
    assert (∀ t H box gs g, Hs !! t = Some H → aboxes !! t = Some box → pairs gs ≡ₚ box → g ∈ gs → snd g ≠ [] →
      ∃ s acc k l, accs !! s = Some acc ∧ c_matches (fst acc) !! k = Some l ∧ fst g = Z.of_nat k + Z.of_nat s * S ∧ 0 ≤ Z.of_nat k < S ∧ (s < p)%nat ∧
        ∀ m, m ∈ snd g → (m, Z.of_nat t) ∈ l ∧ m ∈ vids H) as Hgrp.
    { intros t H box gs g HH Hb Hp Hg Hne. destruct (snd g) as [|m0 ms] eqn:Hsg; [done|].
      assert (∀ m, m ∈ m0 :: ms → (fst g, m) ∈ box) as Hin by (intros m Hm; rewrite <-Hp; apply Hpairs; exists g; rewrite Hsg; done).
      pose proof (Hin m0 ltac:(left)) as H0. apply (Hbox t box _ Hb) in H0 as (s & acc & k & l & A1 & A2 & A3 & A4).
      destruct (acc_good _ _ _ _ _ _ A1 A2 A3) as (t' & H' & _ & _ & _ & _ & Hk & Hsp & _). cbn [fst snd] in *.
      exists s, acc, k, l. split_and!; try done; [lia..|]. intros m Hm. split; [|by apply (Hloc t box H (fst g, m) Hb HH), Hin].
      specialize (Hin m Hm). apply (Hbox t box _ Hb) in Hin as (s2 & acc2 & k2 & l2 & B1 & B2 & B3 & B4). cbn [fst snd] in *.
      destruct (acc_good _ _ _ _ _ _ B1 B2 B3) as (t2 & H2 & _ & _ & _ & _ & Hk2 & _ & _).
      assert (s2 = s ∧ k2 = k) as [-> ->].
      { pose proof (key_div k s Hk) as D1. pose proof (key_div k2 s2 Hk2) as D2. rewrite <-A4 in D1. rewrite <-B4 in D2. assert (s2 = s) as -> by lia. split; [done|]. lia. }
      rewrite A1 in B1. injection B1 as <-. rewrite A2 in B2. by injection B2 as <-. }
    apply wpe_bind, wpe_exchange.
    { rewrite fmap_length, Li. intros o (t & H & box & gs & g & r & A1 & A2 & A3 & A4 & A5 & A6 & A7)%Ho.
      destruct (Hgrp t H box gs g A2 A3 A4 A5 A6) as (s & acc & k & l & _ & _ & Hk & Hr & Hsp & _). rewrite (te_dest _ _ _ _ A7), Hk, key_div by done. lia. }
    rewrite fmap_length, Li. intros iboxes Lib Hib. apply HQ. split.
    - done.
    - by rewrite fmap_length.
    - intros s box sm m Hb Hss Hm. rewrite (Hib s box Hb) in Hm. apply elem_of_list_fmap in Hm as (o & -> & [Hos Hin]%elem_of_list_filter).
      apply Ho in Hin as (t & H & abox & gs & g & r & A1 & A2 & A3 & A4 & A5 & A6 & A7).
      destruct (Hgrp t H abox gs g A2 A3 A4 A5 A6) as (s' & acc & k & l & B1 & B2 & Hk & Hr & Hsp & _).
      pose proof (te_dest _ _ _ _ A7) as Hd. rewrite Hk, key_div in Hd by done. assert (s' = s) as -> by lia. split.
      + rewrite (te_num _ _ _ _ A7), Hk, key_mod by done. apply lookup_lt_Some in B2.
        destruct (mu_loc _ _ _ _ _ Hmu s acc B1) as (H1 & sm1 & ids & ms & _ & C2 & _ & C4 & C5 & _). rewrite C4 in B2. cbn [c_matches] in B2.
        rewrite Hss in C2. injection C2 as <-. lia.
      + intros n c Hnc. destruct (te_cost _ _ _ _ A7 n c Hnc) as (e & He & ? & ?). exists e. split; [|done]. apply all_nets_elem. exists H. split; [by eapply elem_of_list_lookup_2|done].
    - intros s box acc k l Hb Hacc Hl.
      assert (Z.of_nat k < S ∧ (s < p)%nat) as [Hk Hsp].
      { destruct (mu_loc _ _ _ _ _ Hmu s acc Hacc) as (H & sm & ids & ms & A1 & A2 & _ & A4 & A5 & _). rewrite A4 in Hl. destruct (Hsm s H sm A1 A2) as [_ Hle].
        cbn [c_matches] in Hl. apply lookup_lt_Some in Hl. apply lookup_lt_Some in A1. fold p in A1. lia. }
      set (ψ := λ x : Z * Z, if decide (fst x = Z.of_nat k + Z.of_nat s * S) then v_weight (vert_of Hs (snd x)) else 0).
      rewrite (zsum_perm _ ((λ m : info_msg, if decide (fst m = Z.of_nat k) then fst (snd m) else 0) <$> (snd <$> filter (λ m : Z * info_msg, fst m = Z.of_nat s) (concat (fst <$> infos)))))
        by (by rewrite (Hib s box Hb)).
      rewrite <-list_fmap_compose, zsum_filter_if, zsum_concat, <-list_fmap_compose.
      transitivity (zsum ((λ box : list (Z * Z), zsum (ψ <$> box)) <$> aboxes)).
      { apply (zsum_Forall2 (λ r box, zsum ((λ x : Z * info_msg, if decide (fst x = Z.of_nat s) then if decide (fst (snd x) = Z.of_nat k) then fst (snd (snd x)) else 0 else 0) <$> fst r) = zsum (ψ <$> box))); [|done].
        apply Forall2_same_length_lookup. split; [lia|]. intros t r abox Hr Ha. destruct (Hi t r Hr) as (H & box' & gs & A1 & A2 & A3 & A0 & A4 & _).
        rewrite Ha in A2. injection A2 as <-. rewrite (zsum_perm (ψ <$> abox) (ψ <$> pairs gs)) by (by rewrite A3). unfold pairs. rewrite zsum_concat, <-list_fmap_compose.
        symmetry. apply (zsum_Forall2 (λ g o, g ∈ gs ∧ tells H S g o)).
        - apply Forall2_same_length_lookup. split; [by eapply Forall2_length|]. intros j g o Hg Hoj. split; [by eapply elem_of_list_lookup_2|]. by eapply Forall2_lookup_lr.
        - intros g o _ [Hg Ht]. simpl. rewrite <-list_fmap_compose.
          destruct (Hgrp t H abox gs g A1 Ha A3 Hg (A0 g Hg)) as (s' & acc' & k' & l' & _ & _ & Hkey & Hr' & _ & Hms).
          rewrite (te_dest _ _ _ _ Ht), (te_num _ _ _ _ Ht), (te_weight _ _ _ _ Ht), Hkey, key_div, key_mod by done.
          destruct (decide (Z.of_nat s' = Z.of_nat s)) as [Hss|Hss]; [destruct (decide (Z.of_nat k' = Z.of_nat k)) as [Hkk|Hkk]|].
          + apply zsum_fmap_ext. intros m Hm. unfold ψ. simpl. rewrite decide_True by lia. f_equal. symmetry. apply (by_id_vert_of gn); [done|by eapply elem_of_list_lookup_2|by apply Hms].
          + apply zsum_fmap_zero. intros m Hm. unfold ψ. simpl. rewrite decide_False; [done|]. nia.
          + apply zsum_fmap_zero. intros m Hm. unfold ψ. simpl. rewrite decide_False; [done|]. nia. }
      rewrite <-zsum_concat.
      assert (concat aboxes ≡ₚ snd <$> concat (snd <$> accs)) as Hcp.
      { rewrite <-(concat_split_by fst (concat (snd <$> accs)) p Hdest). rewrite fmap_concat, <-list_fmap_compose. apply concat_Forall2_perm.
        apply Forall2_same_length_lookup. rewrite fmap_length, seq_length. split; [done|]. intros t x y Hx Hy. rewrite list_lookup_fmap in Hy.
        destruct (seq 0 p !! t) as [t'|] eqn:Ht; [|done]. apply lookup_seq in Ht as [-> _]. injection Hy as <-. simpl. apply (Hab t x Hx). }
      rewrite (zsum_perm _ (ψ <$> (snd <$> concat (snd <$> accs)))) by (by rewrite Hcp). rewrite <-list_fmap_compose, zsum_concat, <-list_fmap_compose.
      assert (∀ s' acc', accs !! s' = Some acc' → ∀ x, x ∈ tagged (c_matches (fst acc')) → 0 ≤ fst x < S) as Htr.
      { intros s' acc' Ha' [k' y] (i & l' & -> & Hl' & Hy)%elem_of_tagged. destruct y as [m t]. destruct (acc_good _ _ _ _ _ _ Ha' Hl' Hy) as (? & ? & _ & _ & _ & _ & ? & _). done. }
      assert (∀ s' acc', accs !! s' = Some acc' → zsum ((ψ ∘ snd) <$> snd acc') =
        zsum ((λ x : Z * (Z * Z), if decide (s' = s ∧ fst x = Z.of_nat k) then v_weight (vert_of Hs (fst (snd x))) else 0) <$> tagged (c_matches (fst acc')))) as Hone.
      { intros s' acc' Ha'. destruct (mu_loc _ _ _ _ _ Hmu s' acc' Ha') as (H & sm & ids & ms & _ & _ & _ & A4 & _ & _ & A7 & _).
        rewrite (zsum_perm _ ((ψ ∘ snd) <$> (acc_msg S s' <$> tagged ms))) by (by rewrite A7). rewrite <-list_fmap_compose. rewrite A4. cbn [c_matches].
        apply zsum_fmap_ext. intros x Hx. specialize (Htr s' acc' Ha' x). rewrite A4 in Htr. specialize (Htr Hx). unfold ψ. simpl.
        destruct (decide (s' = s ∧ fst x = Z.of_nat k)) as [[-> Hxk]|Hn]; [by rewrite decide_True by lia|]. rewrite decide_False; [done|]. intros He. apply Hn.
        assert (Z.of_nat s' = Z.of_nat s) by nia. split; [lia|]. nia. }
      rewrite (zsum_index _ accs s acc).
      + simpl. rewrite (Hone s acc Hacc). rewrite <-(zsum_tagged (λ mt : Z * Z, v_weight (vert_of Hs (fst mt))) _ k l Hl).
        apply zsum_fmap_ext. intros x _. destruct (decide (fst x = Z.of_nat k)); [by rewrite decide_True|rewrite decide_False; [done|tauto]].
      + done.
      + intros s' acc' Ha' Hne. simpl. rewrite (Hone s' acc' Ha'). apply zsum_fmap_zero. intros x _. rewrite decide_False; [done|tauto].
    - intros s box acc k l n Hb Hacc Hl.
      assert (0 ≤ Z.of_nat k < S) as Hk.
      { destruct (mu_loc _ _ _ _ _ Hmu s acc Hacc) as (H & sm & ids & ms & A1 & A2 & _ & A4 & A5 & _). rewrite A4 in Hl. destruct (Hsm s H sm A1 A2) as [_ Hle].
        cbn [c_matches] in Hl. apply lookup_lt_Some in Hl. lia. }
      split.
      + intros (m & Hm & Hmk & Hn). rewrite (Hib s box Hb) in Hm. apply elem_of_list_fmap in Hm as (o & -> & [Hos Hin]%elem_of_list_filter).
        apply Ho in Hin as (t & H & abox & gs & g & r & A1 & A2 & A3 & A4 & A5 & A6 & A7).
        destruct (Hgrp t H abox gs g A2 A3 A4 A5 A6) as (s' & acc' & k' & l' & B1 & B2 & Hkey & Hr & Hsp & Hms).
        rewrite (te_dest _ _ _ _ A7), Hkey, key_div in Hos by done. rewrite (te_num _ _ _ _ A7), Hkey, key_mod in Hmk by done.
        assert (s' = s) as -> by lia. assert (k' = k) as -> by lia. rewrite Hacc in B1. injection B1 as <-. rewrite Hl in B2. injection B2 as <-.
        destruct (proj1 (te_nets _ _ _ _ A7 n) Hn) as (m & Hm & Hn'). destruct (Hms m Hm) as [Hml Hmv]. exists (m, Z.of_nat t). split; [done|]. simpl.
        rewrite <-(by_id_vert_of gn Hs H m); [done|done|by eapply elem_of_list_lookup_2|done].
      + intros ([m tz] & Hml & Hn). simpl in Hn. destruct (acc_good _ _ _ _ _ _ Hacc Hl Hml) as (t & H & -> & _ & HH & Hmv & _ & Hsp & Htp).
        destruct (lookup_lt_is_Some_2 aboxes t) as [abox Ha]; [lia|]. destruct (lookup_lt_is_Some_2 infos t) as [r Hr]; [lia|].
        destruct (Hi t r Hr) as (H' & box' & gs & A1 & A2 & A3 & A0 & A4 & _). rewrite HH in A1. injection A1 as <-. rewrite Ha in A2. injection A2 as <-.
        assert ((Z.of_nat k + Z.of_nat s * S, m) ∈ pairs gs) as Hin.
        { rewrite A3. apply (Hbox t abox _ Ha). exists s, acc, k, l. done. }
        apply Hpairs in Hin as (g & Hg & Hkey & Hmg). apply elem_of_list_lookup in Hg as [j Hj]. destruct (Forall2_lookup_l _ _ _ _ _ A4 Hj) as (o & Hoj & Ht).
        exists (snd o). split.
        { rewrite (Hib s box Hb). apply elem_of_list_fmap_1, elem_of_list_filter. rewrite (te_dest _ _ _ _ Ht), <-Hkey, key_div by done. split; [done|].
          apply CoarsenProof.elem_of_concat. exists (fst r). split; [by eapply elem_of_list_lookup_2|]. apply elem_of_list_fmap_1. by eapply elem_of_list_lookup_2. }
        split; [by rewrite (te_num _ _ _ _ Ht), <-Hkey, key_mod by done|]. apply (te_nets _ _ _ _ Ht). exists m. split; [done|].
        rewrite (by_id_vert_of gn Hs H m); [done|done|by eapply elem_of_list_lookup_2|done].
    - intros t H mt HH Hm. rewrite list_lookup_fmap in Hm. destruct (infos !! t) as [r|] eqn:Hr; [|done]. injection Hm as <-.
      destruct (Hi t r Hr) as (H' & box' & gs & A1 & A2 & A3 & A0 & A4 & [B1 B2]). rewrite HH in A1. injection A1 as <-. split; [done|].
      intros i v b Hv Hb. rewrite (B2 i v b Hv Hb). rewrite all_matched_elem, elem_of_list_fmap. split.
      + intros (x & Hx & (s & acc & k & l & C1 & C2 & C3 & _)%(Hbox t box' x A2)). exists s, acc, k, l, (Z.of_nat t). rewrite Hx. done.
      + intros (s & acc & k & l & tz & C1 & C2 & C3). destruct (acc_good _ _ _ _ _ _ C1 C2 C3) as (t' & H' & -> & _ & HH' & Hmv & _).
        assert (t = t') as <-. { eapply (same_processor gn Hs); [done|exact HH|exact HH'| |exact Hmv]. apply elem_of_list_fmap_1. by eapply elem_of_list_lookup_2. }
        exists (Z.of_nat k + Z.of_nat s * S, v_id v). split; [done|]. apply (Hbox t box' _ A2). exists s, acc, k, l. done.
  Qed.
End told.
