(** Parallel matching takes the greatest inner products. *)
From Verif Require Export SpecMatch CparAccept.
Local Open Scope list_scope.
Local Open Scope Z_scope.

(** ** the order on doubles *)
Definition d_key (x : dbl) : Z * Z * Z :=
  match x with
  | S754_zero _ | S754_nan => (0, 0, 0)
  | S754_infinity s => (if s then -2 else 2, 0, 0)
  | S754_finite s m e => if s then (-1, - e, - Zpos m) else (1, e, Zpos m)
  end.
Definition key_lt (a b : Z * Z * Z) : Prop :=
  fst (fst a) < fst (fst b) ∨ fst (fst a) = fst (fst b) ∧ (snd (fst a) < snd (fst b) ∨ snd (fst a) = snd (fst b) ∧ snd a < snd b).
Lemma d_lt_key x y : d_lt x y = true ↔ x ≠ S754_nan ∧ y ≠ S754_nan ∧ key_lt (d_key x) (d_key y).
Proof.
  unfold d_lt, SFltb, key_lt. destruct x as [s|s| |s m e], y as [s'|s'| |s' m' e']; simpl;
    try (split; [by intros|by intros (?&?&?)]);
    try (destruct s); try (destruct s'); simpl; try (split; [intros; split_and!; try done; lia|intros (?&?&?); (done || lia)]).
  all: destruct (Z.compare_spec e e') as [->|Hl|Hl]; try (split; [intros; split_and!; try done; lia|intros (?&?&?); (done || lia)]).
  all: change (Pos.compare_cont Eq m m') with (Pos.compare m m'); destruct (Pos.compare_spec m m') as [->|Hm|Hm]; simpl;
    (split; [intros; split_and!; try done; lia|intros (?&?&?); (done || lia)]).
Qed.
Lemma d_lt_false x y : x ≠ S754_nan → y ≠ S754_nan → d_lt x y = false ↔ ¬ key_lt (d_key x) (d_key y).
Proof. intros Hx Hy. rewrite <-not_true_iff_false, d_lt_key. tauto. Qed.
Lemma d_lt_asym x y : d_lt x y = true → d_lt y x = false.
Proof. rewrite <-not_true_iff_false, !d_lt_key. unfold key_lt. intros (?&?&?) (?&?&?). lia. Qed.
Lemma d_lt_irrefl x : d_lt x x = false.
Proof. rewrite <-not_true_iff_false, !d_lt_key. unfold key_lt. intros (?&?&?). lia. Qed.
Lemma d_lt_trans x y z : d_lt x y = true → d_lt y z = true → d_lt x z = true.
Proof. rewrite !d_lt_key. unfold key_lt. intros (?&?&?) (?&?&?). split_and!; [done..|lia]. Qed.
Lemma d_lt_better x y z : d_lt x y = true → d_lt x z = false → d_lt y z = false.
Proof. rewrite <-!not_true_iff_false, !d_lt_key. unfold key_lt. intros (?&?&?) Hn (?&?&?). apply Hn. split_and!; [done..|lia]. Qed.
Lemma d_lt_not_nan x y : d_lt x y = true → y ≠ S754_nan.
Proof. rewrite d_lt_key. tauto. Qed.
Lemma d_lt_zero_mul y : d_lt d_zero (d_mul d_zero y) = false.
Proof. by destruct y. Qed.
Lemma d_not_lt_trans x y z : x ≠ S754_nan → y ≠ S754_nan → z ≠ S754_nan → d_lt x y = false → d_lt y z = false → d_lt x z = false.
Proof. intros Hx Hy Hz. rewrite !d_lt_false by done. unfold key_lt. lia. Qed.

(** ** the best requests *)
Global Instance ip_le_total : Total ip_le.
Proof. intros a b. unfold ip_le. destruct (d_lt (snd (snd a)) (snd (snd b))) eqn:Hd; [right; by apply d_lt_asym|by left]. Qed.
Lemma ip_sorted_strongly l : (∀ x, x ∈ l → snd (snd x) ≠ S754_nan) → Sorted ip_le l → StronglySorted ip_le l.
Proof.
  intros Hn Hs. induction Hs as [|x l Hs IH Hd]; [constructor|].
  assert (StronglySorted ip_le l) as HS by (apply IH; intros; apply Hn; by right). constructor; [done|].
  destruct Hd as [|y l Hxy]; [constructor|]. constructor; [done|].
  apply StronglySorted_inv in HS as [_ HF]. rewrite Forall_forall in HF |- *. intros z Hz. specialize (HF z Hz). unfold ip_le in *.
  eapply (d_not_lt_trans _ (snd (snd y))); [apply Hn; left|apply Hn; right; left|apply Hn; right; by right|done|done].
Qed.
Lemma StronglySorted_app_le {A} (R : A → A → Prop) l1 l2 a b : StronglySorted R (l1 ++ l2) → a ∈ l1 → b ∈ l2 → R a b.
Proof.
  induction l1 as [|x l1 IH]; [by intros _ ?%elem_of_nil|]. simpl. intros [Hs HF]%StronglySorted_inv [->|Ha]%elem_of_cons Hb; [|by apply IH].
  rewrite Forall_forall in HF. apply HF, elem_of_app. by right.
Qed.

Lemma wpe_best_reqs_chosen E mcs l (Q : list (Z * (Z * dbl)) → Prop) : (∀ x, x ∈ l → snd (snd x) ≠ S754_nan) →
  (∀ l', chosen mcs l l' → Q l') → wpe E (best_reqs mcs l) Q.
Proof.
  intros Hn HQ. unfold best_reqs. case_decide as Hd.
  2: { apply wpe_ret, HQ. exists []. split; [by rewrite app_nil_r|]. split; [lia|]. by intros a b _ ?%elem_of_nil. }
  apply wpe_bind. unfold nth_element. apply wpe_bind, wpe_shuffle. intros l0 H0.
  set (s := merge_sort ip_le l0). assert (s ≡ₚ l) as Hs by (unfold s; by rewrite merge_sort_Permutation).
  assert (StronglySorted ip_le s) as Hss.
  { apply ip_sorted_strongly; [intros x Hx; apply Hn; by rewrite <-Hs|]. apply Sorted_merge_sort, _. }
  apply wpe_bind, wpe_shuffle. intros a Ha. apply wpe_bind, wpe_shuffle. intros b Hb. apply wpe_ret, wpe_ret, HQ.
  assert (length s = length l) as Hl by (by rewrite Hs).
  assert (length a = Z.to_nat mcs) as Hla by (rewrite Ha, take_length; lia).
  rewrite take_app_alt by done. exists (drop (Z.to_nat mcs) s). split_and!.
  - rewrite Ha, take_drop. done.
  - lia.
  - intros x y Hx Hy. rewrite Ha in Hx. rewrite <-(take_drop (Z.to_nat mcs) s) in Hss. exact (StronglySorted_app_le _ _ _ _ _ Hss Hx Hy).
Qed.

(** ** acceptance *)
(** the requests for sample number [i] of this processor *)
Definition requests_for (box : list request_msg) (i : nat) : list (Z * (Z * dbl)) := snd <$> filter (λ m : request_msg, fst m = Z.of_nat i) box.
Lemma requests_for_snoc box m i : requests_for (box ++ [m]) i = requests_for box i ++ (if decide (fst m = Z.of_nat i) then [snd m] else []).
Proof.
  unfold requests_for. rewrite filter_app, fmap_app. f_equal. destruct (decide (fst m = Z.of_nat i)).
  - rewrite filter_cons_True by done. by rewrite filter_nil.
  - rewrite filter_cons_False by done. by rewrite filter_nil.
Qed.

Lemma wpe_accept_chosen E s S mcs number C box (Q : contraction * list (Z * (Z * Z)) → Prop) :
  c_matches C = replicate number [] → (∀ m, m ∈ box → 0 ≤ fst m < Z.of_nat number) → (∀ m, m ∈ box → snd (snd (snd m)) ≠ S754_nan) →
  (∀ ms outs, length ms = number →
     (∀ i l, ms !! i = Some l → ∃ taken, chosen mcs (requests_for box i) taken ∧ l = (λ x : Z * (Z * dbl), (fst (snd x), fst x)) <$> taken) →
     outs ≡ₚ acc_msg S s <$> tagged ms →
     Q (Contr (c_samples C) ms (c_free C) (c_local_free C) (c_global_free C), outs)) →
  wpe E (accept_requests s S mcs number C box) Q.
Proof.
  intros HCm Hbox Hbn HQ. unfold accept_requests. apply wpe_bind.
  apply (wpe_foldM E _ (λ ds a, length a = number ∧ ∀ i l, a !! i = Some l → l = requests_for ds i)).
  { rewrite replicate_length. split; [done|]. intros i l [-> _]%lookup_replicate. done. }
  { intros ds m ts a Heq [Hl Ht]. pose proof (Hbox m ltac:(rewrite Heq; set_solver)) as Hm.
    destruct (lookup_lt_is_Some_2 a (Z.to_nat (fst m))) as [l Hla]; [lia|].
    assert (zlookup a (fst m) = Some l) as Hz by (apply zlookup_Some; split; [lia|done]).
    unfold aadd. apply wpe_bind. eapply wpe_idx; [exact Hz|]. apply wpe_ret.
    pose proof (zinsert_alter a (fst m) (λ l, l ++ [snd m]) l Hz) as Hza. cbv beta in Hza. rewrite Hza. split; [by rewrite alter_length|].
    intros i l1 Hi. rewrite requests_for_snoc. destruct (decide (i = Z.to_nat (fst m))) as [->|Hne].
    - rewrite list_lookup_alter, Hla in Hi. injection Hi as <-. rewrite decide_True by lia. by rewrite (Ht _ _ Hla).
    - rewrite list_lookup_alter_ne in Hi by done. rewrite decide_False by lia. rewrite app_nil_r. by apply Ht. }
  intros a [Hl Ht].
  assert (∀ i x, x ∈ requests_for box i → snd (snd x) ≠ S754_nan) as Hnan.
  { intros i x (m & -> & [_ Hm]%elem_of_list_filter)%elem_of_list_fmap. by apply Hbn. }
  set (conv := λ x : Z * (Z * dbl), (fst (snd x), fst x)).
  apply (wpe_foldM_seq E _ (λ k (x : contraction * list (Z * (Z * Z))), ∃ ms, length ms = k ∧
     fst x = Contr (c_samples C) (ms ++ replicate (number - k) []) (c_free C) (c_local_free C) (c_global_free C) ∧
     (∀ i l, ms !! i = Some l → ∃ taken, chosen mcs (requests_for box i) taken ∧ l = conv <$> taken) ∧
     snd x ≡ₚ acc_msg S s <$> tagged ms)).
  - exists []. simpl. rewrite Nat.sub_0_r, <-HCm. split_and!; [done|by destruct C|done|done].
  - intros k [C1 outs] Hk (ms & Hlm & HC1 & Hf & Ho). cbn [fst snd] in *.
    destruct (lookup_lt_is_Some_2 a k) as [r Hr]; [lia|]. apply wpe_bind. eapply wpe_nidx; [exact Hr|].
    rewrite (Ht _ _ Hr). apply wpe_bind, wpe_best_reqs_chosen; [apply Hnan|].
    intros l' Hl'.
    apply (wpe_foldM E _ (λ ds (x : contraction * list (Z * (Z * Z))),
       fst x = Contr (c_samples C) ((ms ++ [conv <$> ds]) ++ replicate (number - Datatypes.S k) []) (c_free C) (c_local_free C) (c_global_free C) ∧
       snd x ≡ₚ acc_msg S s <$> tagged (ms ++ [conv <$> ds]))).
    + cbn [fst snd]. rewrite HC1. split.
      * f_equal. replace (number - k)%nat with (Datatypes.S (number - Datatypes.S k)) by lia. rewrite <-app_assoc. done.
      * rewrite Ho. rewrite tagged_app. simpl. by rewrite !app_nil_r.
    + intros ds m ts [C2 o2] Heq [HC2 Ho2]. cbn [fst snd] in *. apply wpe_bind. subst C2. apply add_match_alter.
      { cbn [c_matches]. rewrite !app_length, Hlm. simpl. lia. }
      cbn [c_samples c_matches c_free c_local_free c_global_free]. apply wpe_ret. cbn [fst snd].
      assert (alter (λ ms0 : list (Z * Z), ms0 ++ [(fst (snd m), fst m)]) k ((ms ++ [conv <$> ds]) ++ replicate (number - Datatypes.S k) []) =
        (ms ++ [conv <$> ds ++ [m]]) ++ replicate (number - Datatypes.S k) []) as Ha.
      { rewrite <-!app_assoc. rewrite <-Hlm. rewrite alter_app_r_alt by lia. rewrite Nat.sub_diag. simpl. by rewrite fmap_app. }
      rewrite Ha. split; [done|]. rewrite Ho2. rewrite !tagged_app. simpl. rewrite !app_nil_r, !fmap_app. simpl. rewrite <-app_assoc.
      f_equiv. f_equiv. unfold acc_msg, conv. simpl. rewrite Nat.add_0_r, Hlm. done.
    + intros [C2 o2] [HC2 Ho2]. cbn [fst snd] in *. exists (ms ++ [conv <$> l']). split_and!.
      * rewrite app_length. simpl. lia.
      * done.
      * intros i l [Hi|[Hlen Hi]]%lookup_app_Some; [by apply Hf|]. apply list_lookup_singleton_Some in Hi as [Hi <-].
        replace i with k by lia. by exists l'.
      * done.
  - intros [C1 outs] (ms & Hlm & HC1 & Hf & Ho). cbn [fst snd] in *. rewrite Nat.sub_diag, app_nil_r in HC1. subst C1.
    by apply HQ.
Qed.

(** ** proposals *)
Lemma wpe_requested_exact E H total best (Q : list (list (Z * dbl)) → Prop) : consistent H → length best = length (h_verts H) →
  (∀ b, b ∈ best → snd b = -1 ∨ 0 ≤ snd b < total) →
  (∀ reqs, length reqs = Z.to_nat total →
     (∀ s k l, reqs !! k = Some l → (λ x, (Z.of_nat s, x)) <$> l = suitors H s best (Z.of_nat k)) → Q reqs) →
  wpe E (requested_matches H total best) Q.
Proof.
  intros HC Hl Hb HQ. unfold requested_matches.
  set (F := λ (k : nat) (x : vertex * (dbl * Z)), if decide (snd (snd x) = Z.of_nat k) then Some (v_id (fst x), fst (snd x)) else None).
  apply (wpe_foldM E _ (λ ds r, length r = Z.to_nat total ∧ ∀ k l, r !! k = Some l → l = omap (F k) (zip ds best))).
  - rewrite replicate_length. split; [done|]. intros k l [-> _]%lookup_replicate. done.
  - intros ds v ts r Heq [G1 G2].
    assert (h_verts H !! length ds = Some v) as Hv by (rewrite Heq, lookup_app_r, Nat.sub_diag by lia; done).
    apply wpe_bind. eapply wpe_local_id; [by apply co_vmap_ok|done|].
    destruct (lookup_lt_is_Some_2 best (length ds)) as [b Hbb]; [rewrite Hl; by eapply lookup_lt_Some|].
    apply wpe_bind. eapply wpe_nidx; [done|].
    assert (∀ k, omap (F k) (zip (ds ++ [v]) best) = omap (F k) (zip ds best) ++ (if decide (snd b = Z.of_nat k) then [(v_id v, fst b)] else [])) as Hsn.
    { intros k. rewrite zip_with_app_l, omap_app. f_equal; [by rewrite zip_with_take_r|].
      rewrite (drop_S _ _ _ Hbb). csimpl. unfold F at 1. cbn [fst snd]. destruct (decide (snd b = Z.of_nat k)); done. }
    gdec as Hm.
    + destruct (Hb b ltac:(by eapply elem_of_list_lookup_2)) as [|Hbr]; [done|].
      destruct (lookup_lt_is_Some_2 r (Z.to_nat (snd b))) as [l0 Hl0]; [lia|].
      assert (zlookup r (snd b) = Some l0) as Hz by (apply zlookup_Some; split; [lia|done]).
      unfold aadd. apply wpe_bind. eapply wpe_idx; [exact Hz|]. apply wpe_ret.
      pose proof (zinsert_alter r (snd b) (λ l, l ++ [(v_id v, fst b)]) l0 Hz) as Hza. cbv beta in Hza. rewrite Hza. split; [by rewrite alter_length|].
      intros k l Hk. rewrite Hsn. destruct (decide (k = Z.to_nat (snd b))) as [->|Hne].
      * rewrite list_lookup_alter, Hl0 in Hk. injection Hk as <-. rewrite decide_True by lia. by rewrite (G2 _ _ Hl0).
      * rewrite list_lookup_alter_ne in Hk by done. rewrite decide_False by lia. rewrite app_nil_r. by apply G2.
    + apply wpe_ret. split; [done|]. intros k l Hk. rewrite Hsn. rewrite decide_False by lia. rewrite app_nil_r. by apply G2.
  - intros r [G1 G2]. apply HQ; [done|]. intros s k l Hk. rewrite (G2 _ _ Hk). unfold suitors.
    clear. induction (zip (h_verts H) best) as [|x xs IH]; [done|]. csimpl. unfold F at 1. destruct (decide (snd (snd x) = Z.of_nat k)); csimpl; by rewrite IH.
Qed.

Lemma wpe_send_chosen E s S mcs reqs (Q : list (Z * request_msg) → Prop) : 0 < S → (∀ k l x, reqs !! k = Some l → x ∈ l → snd x ≠ S754_nan) →
  (∀ parts, length parts = length reqs →
     (∀ k part l, parts !! k = Some part → reqs !! k = Some l → ∃ taken, chosen mcs ((λ x, (Z.of_nat s, x)) <$> l) taken ∧
        part = (λ x, (Z.of_nat k / S, (Z.of_nat k `mod` S, x))) <$> taken) → Q (concat parts)) →
  wpe E (send_requests s S mcs reqs) Q.
Proof.
  intros HS Hn HQ. unfold send_requests. apply wpe_bind.
  eapply (wpe_ranks E _ _ (λ k out, ∀ l, reqs !! k = Some l → ∃ taken, chosen mcs ((λ x, (Z.of_nat s, x)) <$> l) taken ∧
        out = (λ x, (Z.of_nat k / S, (Z.of_nat k `mod` S, x))) <$> taken)).
  - intros k Hk. destruct (lookup_lt_is_Some_2 reqs k Hk) as [l Hkl].
    apply wpe_bind. eapply wpe_nidx; [done|]. apply wpe_bind, wpe_guard; [by apply bool_decide_eq_true; lia|].
    apply wpe_bind, wpe_best_reqs_chosen; [intros x (y & -> & Hy)%elem_of_list_fmap; by eapply Hn|].
    intros l' Hl'. apply wpe_ret. intros l1 Hl1. rewrite Hkl in Hl1. injection Hl1 as <-. exists l'. split; [done|].
    apply list_fmap_ext. intros _ x _. do 2 f_equal. pose proof (Z.div_mod (Z.of_nat k) S ltac:(lia)). lia.
  - intros ls Hlen HR. apply wpe_ret, HQ; [done|]. intros k part l Hp Hl. by apply (HR k part).
Qed.

(** ** inner products *)
Lemma find_net H e : consistent H → e ∈ h_nets H → ∃ j, list_find (λ x, n_id x = n_id e) (h_nets H) = Some (j, e).
Proof.
  intros HC [j Hj]%elem_of_list_lookup. exists j. apply list_find_Some. split_and!; [done..|].
  intros i y Hi Hlt Hid. assert (i = j); [|lia]. eapply NoDup_fmap_inj; [apply (co_nid _ HC)|done|done|done].
Qed.
Lemma find_net_none H nid : consistent H → is_local_net H nid = false → list_find (λ x, n_id x = nid) (h_nets H) = None.
Proof.
  intros HC Hl. apply list_find_None. apply Forall_forall. intros e He <-. apply elem_of_list_lookup in He as [j Hj].
  apply bool_decide_eq_false in Hl. apply Hl. exists j. apply (co_nmap _ HC). eauto.
Qed.
Lemma shared_costs_snoc H nets nid v : shared_costs H (nets ++ [nid]) v = shared_costs H nets v ++
  match list_find (λ e, n_id e = nid) (h_nets H) with
  | Some (_, e) => if decide (v_id v ∈ n_verts e) then [scaled_cost e] else []
  | None => [] end.
Proof.
  unfold shared_costs. rewrite omap_app. f_equal. csimpl. destruct (list_find _ _) as [[j e]|]; [|done].
  destruct (decide (v_id v ∈ n_verts e)); done.
Qed.

Lemma wpe_ip_add_exact E H nets (Q : list dbl * gset Z → Prop) : consistent H →
  (∀ cur X, length cur = length (h_verts H) → (∀ i, i ∈ X → ∃ v, zlookup (h_verts H) i = Some v) →
     (∀ i v x, h_verts H !! i = Some v → cur !! i = Some x → x = foldl d_add d_zero (shared_costs H nets v) ∧ (Z.of_nat i ∉ X → shared_costs H nets v = [])) →
     Q (cur, X)) →
  wpe E (ip_add H nets (replicate (length (h_verts H)) d_zero)) Q.
Proof.
  intros HC HQ. unfold ip_add.
  set (G := λ (sc : vertex → list dbl) (s : list dbl * gset Z), length (fst s) = length (h_verts H) ∧ (∀ i, i ∈ snd s → ∃ v, zlookup (h_verts H) i = Some v) ∧
    ∀ i v x, h_verts H !! i = Some v → fst s !! i = Some x → x = foldl d_add d_zero (sc v) ∧ (Z.of_nat i ∉ snd s → sc v = [])).
  apply (wpe_foldM E _ (λ ds s, G (shared_costs H ds) s)).
  - split; [apply replicate_length|]. split; [cbn [snd]; set_solver|]. intros i v x _ [-> _]%lookup_replicate. done.
  - intros ds nid ts s Heq HG. destruct (is_local_net H nid) eqn:Hloc.
    2: { apply wpe_ret. destruct HG as (G1 & G2 & G3). split_and!; [done..|]. intros i v x Hi Hx. rewrite shared_costs_snoc, find_net_none, app_nil_r by done. by apply G3. }
    apply bool_decide_eq_true in Hloc as [j Hj]. apply (co_nmap _ HC) in Hj as (n & Hn & <-).
    apply elem_of_list_lookup_2 in Hn. apply wpe_bind. eapply wpe_get_net; [by apply co_nmap_ok|done|].
    destruct (find_net H n HC Hn) as [j' Hfind].
    apply (wpe_foldM E _ (λ us s, G (λ v, shared_costs H ds v ++ if decide (v_id v ∈ us) then [scaled_cost n] else []) s)).
    + destruct HG as (G1 & G2 & G3). split_and!; [done..|]. intros i v x Hi Hx. rewrite decide_False by (by intros ?%elem_of_nil). rewrite app_nil_r. by apply G3.
    + intros us u ts' s' Heq' (G1 & G2 & G3).
      assert (u ∉ us) as Huus. { pose proof (co_nverts _ HC _ Hn) as Hnd. rewrite Heq' in Hnd. apply NoDup_app in Hnd as (_ & Hnd & _). intros Hu. apply (Hnd u Hu). left. }
      destruct (co_inc2 _ HC n u Hn) as (v & Hv & <- & Hnv); [rewrite Heq'; set_solver|]. apply elem_of_list_lookup in Hv as [i Hi].
      apply wpe_bind. eapply wpe_local_id; [by apply co_vmap_ok|exact Hi|]. apply wpe_bind.
      destruct (lookup_lt_is_Some_2 (fst s') i) as [x Hx]; [rewrite G1; by eapply lookup_lt_Some|]. eapply wpe_nidx; [exact Hx|].
      apply wpe_ret. split_and!; cbn [fst snd].
      * by rewrite insert_length.
      * intros k [->%elem_of_singleton|Hk]%elem_of_union; [|by apply G2]. exists v. apply zlookup_Some. split; [lia|]. by rewrite Nat2Z.id.
      * intros k v' y Hk Hy. destruct (decide (k = i)) as [->|Hne].
        -- rewrite Hi in Hk. injection Hk as <-. rewrite list_lookup_insert in Hy by (by eapply lookup_lt_Some). injection Hy as <-.
           rewrite (decide_True (P := v_id v ∈ us ++ [v_id v])) by set_solver.
           destruct (G3 i v x Hi Hx) as [-> _]. rewrite (decide_False (P := v_id v ∈ us)) by done. rewrite app_nil_r, foldl_snoc. split; [done|].
           intros Hni. exfalso. apply Hni. set_solver.
        -- rewrite list_lookup_insert_ne in Hy by done. destruct (G3 k v' y Hk Hy) as [-> Hempty].
           assert (v_id v' ≠ v_id v) as Hid. { intros Hid. apply Hne. eapply NoDup_fmap_inj; [apply (co_vid _ HC)|exact Hk|exact Hi|done]. }
           destruct (decide (v_id v' ∈ us)) as [Hin|Hin].
           ++ rewrite (decide_True (P := v_id v' ∈ us ++ [v_id v])) by set_solver. split; [done|]. intros Hni. apply Hempty. set_solver.
           ++ rewrite (decide_False (P := v_id v' ∈ us ++ [v_id v])) by set_solver. split; [done|]. intros Hni. apply Hempty. set_solver.
    + intros s' (G1 & G2 & G3). split_and!; [done..|]. intros i v x Hi Hx. rewrite shared_costs_snoc, Hfind. by apply G3.
  - intros [cur X] (G1 & G2 & G3). by apply HQ.
Qed.

Lemma best_choice_none H S v : best_choice H S [] v (d_zero, -1).
Proof. split; [by left|]. by intros m ?%elem_of_nil. Qed.
Lemma best_choice_nonneg H S ds v b : best_choice H S ds v b → b = (d_zero, -1) ∨ d_lt d_zero (fst b) = true.
Proof. intros [[->|(m & Hm & -> & Hp)] _]; [by left|by right]. Qed.
Lemma best_choice_keep H S ds m v b : best_choice H S ds v b → d_lt (fst b) (inner_product H (snd (snd m)) v) = false → best_choice H S (ds ++ [m]) v b.
Proof.
  intros [Hb Hmax] Hlt. split.
  - destruct Hb as [->|(m' & Hm' & -> & Hp)]; [by left|right]. exists m'. split; [set_solver|done].
  - intros m' [Hm'|Hm'%elem_of_list_singleton]%elem_of_app; [by apply Hmax|by subst].
Qed.
Lemma best_choice_new H S ds m v b : best_choice H S ds v b → d_lt (fst b) (inner_product H (snd (snd m)) v) = true →
  best_choice H S (ds ++ [m]) v (inner_product H (snd (snd m)) v, fst m * S + fst (snd m)).
Proof.
  intros Hb Hlt. split.
  - right. exists m. split; [set_solver|]. split; [done|]. destruct (best_choice_nonneg _ _ _ _ _ Hb) as [->|Hp]; [done|]. by eapply d_lt_trans.
  - destruct Hb as [_ Hmax]. intros m' [Hm'|Hm'%elem_of_list_singleton]%elem_of_app; cbn [fst].
    + eapply d_lt_better; [exact Hlt|by apply Hmax].
    + subst. apply d_lt_irrefl.
Qed.

Lemma wpe_best_matches_exact E H S sm box (Q : list (dbl * Z) → Prop) : consistent H → in_range H sm →
  (∀ best, length best = length (h_verts H) →
     (∀ i v b, h_verts H !! i = Some v → best !! i = Some b → if decide (Z.of_nat i ∈ sm) then b = (d_zero, -1) else best_choice H S box v b) → Q best) →
  wpe E (best_matches H S sm box) Q.
Proof.
  intros HC Hr HQ. unfold best_matches. apply wpe_bind.
  apply (wpe_foldM E _ (λ ds s, length (fst s) = length (h_verts H) ∧ snd s = replicate (length (h_verts H)) d_zero ∧
    ∀ i v b, h_verts H !! i = Some v → fst s !! i = Some b → best_choice H S ds v b)).
  - split_and!; [apply replicate_length|done|]. intros i v b _ [-> _]%lookup_replicate. apply best_choice_none.
  - intros ds m ts s Heq (H1 & H2 & H3). apply wpe_bind. rewrite H2. apply wpe_ip_add_exact; [done|]. intros cur X Hcur HX Hval. cbn [fst snd].
    apply wpe_bind, wpe_shuffle. intros order Ho.
    assert (NoDup order) as Hnd by (rewrite Ho; apply NoDup_elements).
    apply (wpe_foldM E _ (λ D s', length (fst s') = length (h_verts H) ∧ length (snd s') = length (h_verts H) ∧
      ∀ i v b x, h_verts H !! i = Some v → fst s' !! i = Some b → snd s' !! i = Some x →
        if decide (Z.of_nat i ∈ D) then x = d_zero ∧ best_choice H S (ds ++ [m]) v b
        else x = foldl d_add d_zero (shared_costs H (snd (snd m)) v) ∧ best_choice H S ds v b)).
    + cbn [fst snd]. split_and!; [done..|]. intros i v b x Hi Hb Hx. rewrite decide_False by (by intros ?%elem_of_nil).
      split; [by apply (Hval i)|by eapply H3].
    + intros D i ts' s' Heq' (G1 & G2 & G3).
      assert (i ∈ X) as Hi. { apply elem_of_elements. rewrite <-Ho, Heq'. set_solver. }
      assert (i ∉ D) as HiD. { rewrite Heq' in Hnd. apply NoDup_app in Hnd as (_ & Hnd & _). intros Hin. apply (Hnd i Hin). left. }
      destruct (HX i Hi) as [v Hv]. pose proof Hv as [Hi0 Hv']%zlookup_Some. pose proof (lookup_lt_Some _ _ _ Hv') as Hlt.
      unfold ip_judge. apply wpe_bind. eapply wpe_vert_zl; [done|].
      destruct (lookup_lt_is_Some_2 (snd s') (Z.to_nat i)) as [x Hx]; [lia|].
      destruct (lookup_lt_is_Some_2 (fst s') (Z.to_nat i)) as [b Hb]; [lia|].
      apply wpe_bind. eapply wpe_idx; [by apply zlookup_Some|]. apply wpe_bind. eapply wpe_idx; [by apply zlookup_Some|].
      pose proof (G3 _ _ _ _ Hv' Hb Hx) as Hg. rewrite Z2Nat.id in Hg by lia. rewrite decide_False in Hg by done. destruct Hg as [-> Hbc].
      apply wpe_ret. cbv zeta. fold (inner_product H (snd (snd m)) v).
      split_and!; cbn [fst snd].
      * destruct (d_lt _ _); unfold zinsert; rewrite ?insert_length; done.
      * unfold zinsert. by rewrite insert_length.
      * intros k v' b' x' Hk Hb' Hx'. destruct (decide (k = Z.to_nat i)) as [->|Hne].
        -- rewrite decide_True by (rewrite Z2Nat.id by lia; set_solver). rewrite Hv' in Hk. injection Hk as <-.
           unfold zinsert in Hx'. rewrite list_lookup_insert in Hx' by lia. injection Hx' as <-. split; [done|].
           destruct (d_lt (fst b) (inner_product H (snd (snd m)) v)) eqn:Hd.
           ++ unfold zinsert in Hb'. rewrite list_lookup_insert in Hb' by lia. injection Hb' as <-. by eapply best_choice_new.
           ++ rewrite Hb in Hb'. injection Hb' as <-. by apply best_choice_keep.
        -- assert (fst s' !! k = Some b') as Hb2.
           { destruct (d_lt _ _); [|done]. unfold zinsert in Hb'. by rewrite list_lookup_insert_ne in Hb' by done. }
           unfold zinsert in Hx'. rewrite list_lookup_insert_ne in Hx' by done. specialize (G3 _ _ _ _ Hk Hb2 Hx').
           destruct (decide (Z.of_nat k ∈ D)) as [Hin|Hin].
           ++ by rewrite decide_True by set_solver.
           ++ rewrite decide_False; [done|]. intros [?|?%elem_of_list_singleton]%elem_of_app; [done|lia].
    + intros s' (G1 & G2 & G3).
      assert (∀ i v b x, h_verts H !! i = Some v → fst s' !! i = Some b → snd s' !! i = Some x → x = d_zero ∧ best_choice H S (ds ++ [m]) v b) as Hfin.
      { intros i v b x Hi Hb Hx. specialize (G3 i v b x Hi Hb Hx). destruct (decide (Z.of_nat i ∈ order)) as [Hin|Hin]; [done|].
        destruct (lookup_lt_is_Some_2 cur i) as [y Hy]; [rewrite Hcur; by eapply lookup_lt_Some|].
        destruct (Hval i v y Hi Hy) as [_ Hemp].
        assert (shared_costs H (snd (snd m)) v = []) as Hsc. { apply Hemp. intros HinX. apply Hin. rewrite Ho. by apply elem_of_elements. }
        rewrite Hsc in G3. destruct G3 as [-> Hbc]. split; [done|]. apply best_choice_keep; [done|].
        unfold inner_product. rewrite Hsc. cbn [foldl]. set (y' := d_div _ _).
        destruct (best_choice_nonneg _ _ _ _ _ Hbc) as [->|Hp]; [apply d_lt_zero_mul|]. eapply d_lt_better; [exact Hp|]. apply d_lt_zero_mul. }
      split_and!; [done| |].
      * apply list_eq. intros i. destruct (h_verts H !! i) as [v|] eqn:Hi.
        -- pose proof (lookup_lt_Some _ _ _ Hi). destruct (lookup_lt_is_Some_2 (snd s') i) as [x Hx]; [lia|].
           destruct (lookup_lt_is_Some_2 (fst s') i) as [b Hb]; [lia|]. destruct (Hfin _ _ _ _ Hi Hb Hx) as [-> _].
           rewrite Hx. by rewrite lookup_replicate_2.
        -- apply lookup_ge_None in Hi. rewrite !lookup_ge_None_2; [done|rewrite replicate_length; lia|lia].
      * intros i v b Hi Hb. destruct (lookup_lt_is_Some_2 (snd s') i) as [x Hx]; [rewrite G2; by eapply lookup_lt_Some|]. by eapply Hfin.
  - intros s (H1 & H2 & H3). cbn [fst].
    apply (wpe_foldM E _ (λ ds b, length b = length (h_verts H) ∧
      ∀ i v x, h_verts H !! i = Some v → b !! i = Some x → if decide (Z.of_nat i ∈ ds) then x = (d_zero, -1) else best_choice H S box v x)).
    + split_and!; [done|]. intros i v x Hi Hx. rewrite decide_False by (by intros ?%elem_of_nil). by eapply H3.
    + intros ds i ts b Heq (G1 & G2). assert (i ∈ sm) as Hi by (rewrite Heq; set_solver). specialize (Hr i Hi).
      destruct (lookup_lt_is_Some_2 b (Z.to_nat i)) as [x Hx]; [lia|]. apply wpe_bind. eapply wpe_idx; [apply zlookup_Some; split; [lia|done]|].
      apply wpe_ret. unfold zinsert. split; [by rewrite insert_length|].
      intros j v y Hj Hy. apply list_lookup_insert_Some in Hy as [(<- & <- & _)|[Hne Hy]].
      * by rewrite decide_True by (rewrite Z2Nat.id by lia; set_solver).
      * specialize (G2 j v y Hj Hy). destruct (decide (Z.of_nat j ∈ ds)) as [Hin|Hin]; [by rewrite decide_True by set_solver|].
        rewrite decide_False; [done|]. intros [?|?%elem_of_list_singleton]%elem_of_app; [done|lia].
    + intros b (G1 & G2). by apply HQ.
Qed.
