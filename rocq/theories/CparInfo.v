(** Proofs about parallel coarsening: weights and nets of the matches, sent to the samples. *)
From Verif Require Export CparPhase.

Section info.
  Context (E : err → Prop) (H : hg) (HC : consistent H) (S : Z).
  (** message [o] tells the weight and the nets of the matches [g] has, to the sample [g] names *)
  Record tells (g : Z * list Z) (o : Z * info_msg) : Prop := {
    te_dest : fst o = fst g / S;
    te_num : fst (snd o) = fst g mod S;
    te_weight : fst (snd (snd o)) = zsum ((λ m, v_weight (by_id H m)) <$> snd g);
    te_nets : ∀ n, n ∈ fst <$> snd (snd (snd o)) ↔ ∃ m, m ∈ snd g ∧ n ∈ v_nets (by_id H m);
    te_cost : ∀ n c, (n, c) ∈ snd (snd (snd o)) → ∃ e, e ∈ h_nets H ∧ n_id e = n ∧ n_cost e = c;
  }.
  Definition pairs (gs : list (Z * list Z)) : list (Z * Z) := concat ((λ g : Z * list Z, pair (fst g) <$> snd g) <$> gs).
  Lemma pairs_app g1 g2 : pairs (g1 ++ g2) = pairs g1 ++ pairs g2.
  Proof. unfold pairs. by rewrite fmap_app, concat_app. Qed.
  Lemma pairs_one k l : pairs [(k, l)] = pair k <$> l.
  Proof. unfold pairs. simpl. by rewrite app_nil_r. Qed.

  Lemma wpe_info_of prev (ms : list Z) wt nets (Q : Z * info_msg → Prop) : 0 < S →
    wt = zsum ((λ m, v_weight (by_id H m)) <$> ms) → (∀ n, n ∈ nets ↔ ∃ m, m ∈ ms ∧ n ∈ v_nets (by_id H m)) →
    (∀ m, m ∈ ms → m ∈ vids H) →
    (∀ o, tells (prev, ms) o → Q o) → wpe E (info_of H S prev wt nets) Q.
  Proof.
    intros HS Hw Hn Hms HQ. unfold info_of. apply wpe_bind, wpe_guard; [by apply bool_decide_eq_true; lia|].
    apply wpe_bind, wpe_shuffle. intros order Ho. apply wpe_bind.
    eapply (wpe_mapP E _ (λ _ n nc, fst nc = n ∧ ∃ e, e ∈ h_nets H ∧ n_id e = n ∧ n_cost e = snd nc)).
    - intros i n Hi. apply elem_of_list_lookup_2 in Hi. rewrite Ho in Hi. apply elem_of_elements, Hn in Hi as (m & Hm & Hx).
      destruct (by_id_vid H m (Hms m Hm)) as [Hb _]. destruct (co_inc1 _ HC _ _ Hb Hx) as (e & He & <- & _).
      apply wpe_bind. eapply wpe_get_net; [by apply co_nmap_ok|done|]. apply wpe_ret. split; [done|]. eauto.
    - intros ncs Hl HR. apply wpe_ret, HQ. split; cbn [fst snd].
      + done.
      + rewrite Z.mod_eq by lia. lia.
      + done.
      + intros n. rewrite <-Hn, <-elem_of_elements, <-Ho. split.
        * intros (nc & -> & [i Hi]%elem_of_list_lookup)%elem_of_list_fmap.
          destruct (lookup_lt_is_Some_2 order i) as [x Hx]; [rewrite <-Hl; by eapply lookup_lt_Some|].
          destruct (HR i x nc Hx Hi) as [-> _]. by eapply elem_of_list_lookup_2.
        * intros [i Hi]%elem_of_list_lookup. destruct (lookup_lt_is_Some_2 ncs i) as [nc Hnc]; [rewrite Hl; by eapply lookup_lt_Some|].
          destruct (HR i n nc Hi Hnc) as [<- _]. apply elem_of_list_fmap_1. by eapply elem_of_list_lookup_2.
      + intros n c [i Hi]%elem_of_list_lookup. destruct (lookup_lt_is_Some_2 order i) as [x Hx]; [rewrite <-Hl; by eapply lookup_lt_Some|].
        destruct (HR i x _ Hx Hi) as [<- He]. done.
  Qed.

  Definition is_matched_by (box : list (Z * Z)) (matched : list bool) : Prop :=
    length matched = length (h_verts H) ∧ ∀ i v b, h_verts H !! i = Some v → matched !! i = Some b → b = true ↔ v_id v ∈ snd <$> box.

  Lemma wpe_send_info box (Q : list (Z * info_msg) * list bool → Prop) :
    (∀ x, x ∈ box → 0 ≤ fst x ∧ 0 < S ∧ snd x ∈ vids H) →
    (∀ gs out matched, pairs gs ≡ₚ box → (∀ g, g ∈ gs → snd g ≠ []) → Forall2 tells gs out → is_matched_by box matched → Q (out, matched)) →
    wpe E (send_info H S box) Q.
  Proof.
    intros Hbox HQ. unfold send_info. apply wpe_bind.
    pose proof (merge_sort_Permutation pair_le box) as Hp. set (l := merge_sort pair_le box) in *. clearbody l.
    apply (wpe_foldM E _ (λ ds s, ∃ gs cur, pairs gs ++ (pair (is_prev s) <$> cur) = ds ∧ (∀ g, g ∈ gs → snd g ≠ []) ∧ Forall2 tells gs (is_out s) ∧
      is_weight s = zsum ((λ m, v_weight (by_id H m)) <$> cur) ∧ (∀ n, n ∈ is_nets s ↔ ∃ m, m ∈ cur ∧ n ∈ v_nets (by_id H m)) ∧
      (∀ m, m ∈ cur → m ∈ vids H) ∧ is_matched_by ds (is_matched s) ∧
      (cur = [] ∧ is_prev s = -1 ∨ cur ≠ [] ∧ 0 ≤ is_prev s ∧ 0 < S))).
    - exists [], []. cbn [is_prev is_weight is_nets is_matched is_out]. split_and!; try done.
      + by intros g []%elem_of_nil.
      + intros n. split; [set_solver|]. intros (m & []%elem_of_nil & _).
      + by intros m []%elem_of_nil.
      + split; [apply replicate_length|]. intros i v b Hv [-> _]%lookup_replicate. split; [done|]. by intros []%elem_of_nil.
      + left. done.
    - intros ds [key m] ts s Heq (gs & cur & I1 & I0 & I2 & I3 & I4 & I5 & [I6 I7] & I8).
      assert ((key, m) ∈ box) as Hin by (rewrite <-Hp; rewrite Heq; set_solver).
      destruct (Hbox _ Hin) as (Hk & HS & Hm). cbn [fst snd] in *.
      unfold info_step. cbn [fst snd]. apply wpe_bind.
      destruct (by_id_vid H m Hm) as [Hb Hbid]. apply elem_of_list_lookup in Hb as [i Hi].
      (* after the possible message: the open group [cur'] has key [key] or is empty *)
      assert (∀ s1 gs' cur', pairs gs' ++ (pair key <$> cur') = ds → (∀ g, g ∈ gs' → snd g ≠ []) → Forall2 tells gs' (is_out s1) →
        is_weight s1 = zsum ((λ m, v_weight (by_id H m)) <$> cur') → (∀ n, n ∈ is_nets s1 ↔ ∃ m, m ∈ cur' ∧ n ∈ v_nets (by_id H m)) →
        (∀ m, m ∈ cur' → m ∈ vids H) → is_matched s1 = is_matched s →
        wpe E (i <- local_id H m ;; _ <- nidx (is_matched s1) i ;; v <- vert_at H i ;;
          ret (IS key (is_weight s1 + v_weight v) (list_to_set (v_nets v) ∪ is_nets s1) (<[i := true]> (is_matched s1)) (is_out s1)))
          (λ s, ∃ gs cur, pairs gs ++ (pair (is_prev s) <$> cur) = ds ++ [(key, m)] ∧ (∀ g, g ∈ gs → snd g ≠ []) ∧ Forall2 tells gs (is_out s) ∧
      is_weight s = zsum ((λ m, v_weight (by_id H m)) <$> cur) ∧ (∀ n, n ∈ is_nets s ↔ ∃ m, m ∈ cur ∧ n ∈ v_nets (by_id H m)) ∧
      (∀ m, m ∈ cur → m ∈ vids H) ∧ is_matched_by (ds ++ [(key, m)]) (is_matched s) ∧
      (cur = [] ∧ is_prev s = -1 ∨ cur ≠ [] ∧ 0 ≤ is_prev s ∧ 0 < S))) as Hrest.
      { intros s1 gs' cur' J1 J0 J2 J3 J4 J5 J6. apply wpe_bind. rewrite <-Hbid at 1. eapply wpe_local_id; [by apply co_vmap_ok|exact Hi|].
        destruct (lookup_lt_is_Some_2 (is_matched s1) i) as [b0 Hb0]; [rewrite J6, I6; by eapply lookup_lt_Some|].
        apply wpe_bind. eapply wpe_nidx; [done|]. apply wpe_bind. eapply wpe_vert_at; [exact Hi|]. apply wpe_ret.
        exists gs', (cur' ++ [m]). cbn [is_prev is_weight is_nets is_matched is_out]. split_and!.
        - rewrite fmap_app, app_assoc, J1. done.
        - done.
        - done.
        - rewrite J3, fmap_app, zsum_app. unfold zsum. simpl. lia.
        - intros n. rewrite elem_of_union, elem_of_list_to_set, J4. split.
          + intros [Hn|(x & Hx & Hn)]; [exists m|exists x]; set_solver.
          + intros (x & [Hx| ->%elem_of_list_singleton]%elem_of_app & Hn); [right; eauto|by left].
        - intros x [Hx| ->%elem_of_list_singleton]%elem_of_app; [by apply J5|done].
        - rewrite J6. split; [by rewrite insert_length|]. intros j v b Hv Hb. rewrite fmap_app. csimpl. rewrite elem_of_app, elem_of_list_singleton.
          apply list_lookup_insert_Some in Hb as [(-> & <- & _)|[Hne Hb]].
          + split; [|done]. intros _. right. rewrite Hi in Hv. injection Hv as <-. done.
          + rewrite (I7 j v b Hv Hb). split; [by left|]. intros [?|Hvm]; [done|]. exfalso. apply Hne.
            assert (i = j); [|done]. eapply NoDup_lookup; [exact (co_vid _ HC)|by rewrite list_lookup_fmap, Hi|]. rewrite list_lookup_fmap, Hv. simpl. congruence.
        - right. split; [by destruct cur'|done]. }
      case_decide as Hd.
      + destruct I8 as [[_ ?]|(Hne & Hp0 & _)]; [lia|]. apply wpe_bind.
        eapply (wpe_info_of (is_prev s) cur); [done..|]. intros o Ho. apply wpe_ret.
        apply (Hrest _ (gs ++ [(is_prev s, cur)]) []); cbn [is_prev is_weight is_nets is_matched is_out]; try done.
        * rewrite app_nil_r, pairs_app, pairs_one. done.
        * intros g [Hg| ->%elem_of_list_singleton]%elem_of_app; [by apply I0|done].
        * apply Forall2_app; [done|]. by apply Forall2_cons.
        * intros n. split; [set_solver|]. by intros (x & []%elem_of_nil & _).
        * by intros x []%elem_of_nil.
      + apply wpe_ret. destruct I8 as [[-> Hp1]|(Hne & Hp0 & _)].
        * apply (Hrest s gs []); done.
        * assert (is_prev s = key) as <- by (destruct (decide (is_prev s = key)); [done|destruct Hd; split; [congruence|done]]). by apply (Hrest s gs cur).
    - intros s (gs & cur & I1 & I0 & I2 & I3 & I4 & I5 & I6 & I8).
      assert (is_matched_by box (is_matched s)) as Hmt.
      { destruct I6 as [A B]. split; [done|]. intros i v b Hv Hb. rewrite (B i v b Hv Hb). by rewrite Hp. }
      case_decide as Hd.
      + destruct I8 as [[_ ?]|(Hne & Hp0 & HS)]; [done|]. apply wpe_bind. eapply (wpe_info_of (is_prev s) cur); [done..|].
        intros o Ho. apply wpe_ret. apply (HQ (gs ++ [(is_prev s, cur)])); [| | |done].
        * rewrite pairs_app, pairs_one, I1. exact Hp.
        * intros g [Hg| ->%elem_of_list_singleton]%elem_of_app; [by apply I0|done].
        * apply Forall2_app; [done|]. by apply Forall2_cons.
      + apply wpe_ret. apply (HQ gs); [|done..]. destruct I8 as [[-> _]|(_ & ? & _)]; [|lia]. rewrite app_nil_r in I1. rewrite I1. exact Hp.
  Qed.
End info.
