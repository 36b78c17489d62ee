(** Sequential matching joins a vertex of greatest inner product. *)
From Verif Require Export SpecSeqMatch MatchProof CoarsenLoop FloatShare.
Local Open Scope list_scope.
Local Open Scope Z_scope.

Lemma degree_le H v : consistent H → v ∈ h_verts H → (length (v_nets v) ≤ length (h_nets H))%nat.
Proof.
  intros HC Hv. rewrite <-(fmap_length n_id (h_nets H)). apply submseteq_length, NoDup_submseteq; [by apply (co_vnets _ HC)|].
  intros x Hx. destruct (co_inc1 _ HC v x Hv Hx) as (n & Hn & <- & _). by apply elem_of_list_fmap_1.
Qed.
Lemma shared_canon H ds u : Forall canon (shared_costs H ds u).
Proof.
  apply Forall_forall. intros c (nid & _ & Hc)%elem_of_list_omap. destruct (list_find _ _) as [[? n]|]; [|done].
  destruct (decide _); [|done]. injection Hc as <-. apply canon_div; [apply canon_of_Z|]. apply canon_sub; apply canon_of_Z.
Qed.
Lemma shared_degree H v u : consistent H → Z.of_nat (length (h_nets H)) ≤ 2 ^ 53 → v ∈ h_verts H → u ∈ h_verts H → shared_costs H (v_nets v) u ≠ [] →
  1 ≤ Z.min (Z.of_nat (length (v_nets u))) (Z.of_nat (length (v_nets v))) ≤ 2 ^ 53.
Proof.
  intros HC Hnn Hv Hu Hne. pose proof (degree_le H v HC Hv).
  destruct (shared_costs H (v_nets v) u) as [|c l] eqn:Hsc; [done|]. assert (c ∈ shared_costs H (v_nets v) u) as Hc by (rewrite Hsc; left).
  apply elem_of_list_omap in Hc as (nid & Hnid & Hc). destruct (list_find _ _) as [[k n]|] eqn:Hf; [|done].
  destruct (decide (v_id u ∈ n_verts n)) as [Hun|]; [|done]. apply list_find_Some in Hf as (Hk & _ & _). apply elem_of_list_lookup_2 in Hk.
  destruct (co_inc2 _ HC n _ Hk Hun) as (u' & Hu' & Hid & Hnu).
  assert (u' = u) as -> by (by apply (vmap_ok_elem_eq H u' u (co_vmap_ok _ HC))).
  destruct (v_nets v); [by apply elem_of_nil in Hnid|]. destruct (v_nets u); [by apply elem_of_nil in Hnu|]. simpl length in *. lia.
Qed.

Definition open_at (matched : list bool) (i u : nat) : Prop := matched !! u = Some false ∧ u ≠ i.
Global Instance open_at_dec matched i u : Decision (open_at matched i u).
Proof. unfold open_at. apply _. Defined.

(** after the nets with shared costs [sc], the list of inner products and the vertices visited are exact *)
Definition visited_ok (H : hg) (matched : list bool) (i : nat) (sc : vertex → list dbl) (s : list nat * list dbl) : Prop :=
  length (snd s) = length (h_verts H) ∧
  (∀ u, u ∈ fst s → (u < length (h_verts H))%nat) ∧
  ∀ u vu x, h_verts H !! u = Some vu → snd s !! u = Some x →
    (u ∈ fst s ↔ open_at matched i u ∧ sc vu ≠ []) ∧ x = (if decide (open_at matched i u) then foldl d_add d_zero (sc vu) else d_zero).

Lemma wpe_cs_visit_exact E H matched i v (Q : list nat * list dbl → Prop) :
  consistent H → h_verts H !! i = Some v → length matched = length (h_verts H) →
  (∀ s, visited_ok H matched i (shared_costs H (v_nets v)) s → Q s) →
  wpe E (cs_visit H matched i v (replicate (length (h_verts H)) d_zero)) Q.
Proof.
  intros HC Hi Hlm HQ. unfold cs_visit. pose proof (elem_of_list_lookup_2 _ _ _ Hi) as Hv.
  apply (wpe_foldM E _ (λ ds s, visited_ok H matched i (shared_costs H ds) s)); [| |exact HQ].
  { split_and!; cbn [fst snd]; [apply replicate_length|by intros u ?%elem_of_nil|].
    intros u vu x _ [-> _]%lookup_replicate. split; [split; [by intros ?%elem_of_nil|by intros [_ ?]]|]. by destruct (decide _). }
  intros ds nid ts s Heq HI.
  assert (nid ∈ v_nets v) as Hnid by (rewrite Heq; set_solver).
  destruct (co_inc1 _ HC v nid Hv Hnid) as (n & Hn & <- & Hvn). destruct (find_net H n HC Hn) as [k0 Hfind].
  apply wpe_bind. apply wpe_get_net; [by apply co_nmap_ok|done|].
  apply (wpe_foldM E _ (λ us s, visited_ok H matched i (λ vu, shared_costs H ds vu ++ if decide (v_id vu ∈ us) then [scaled_cost n] else []) s)).
  - destruct HI as (I1 & I3 & I4). split_and!; [done..|]. intros u vu x Hu Hx. rewrite decide_False by (by intros ?%elem_of_nil). rewrite app_nil_r. by apply I4.
  - intros us uid ts' s' Heq' (I1 & I3 & I4).
    assert (uid ∉ us) as Huus. { pose proof (co_nverts _ HC _ Hn) as Hnd. rewrite Heq' in Hnd. apply NoDup_app in Hnd as (_ & Hnd & _). intros Hu. apply (Hnd uid Hu). left. }
    assert (uid ∈ n_verts n) as Huid by (rewrite Heq'; set_solver).
    destruct (co_inc2 _ HC n uid Hn Huid) as (u & Hu & <- & Hnu). apply elem_of_list_lookup in Hu as [j Hj].
    apply wpe_bind. eapply wpe_local_id; [by apply co_vmap_ok|done|].
    pose proof (lookup_lt_Some _ _ _ Hj) as Hjl.
    destruct (lookup_lt_is_Some_2 matched j) as [m Hm]; [lia|]. apply wpe_bind. eapply wpe_nidx; [done|].
    assert (∀ k vk, h_verts H !! k = Some vk → k ≠ j → (v_id vk ∈ us ++ [v_id u] ↔ v_id vk ∈ us)) as Hother.
    { intros k vk Hk Hne. rewrite elem_of_app, elem_of_list_singleton. split; [|tauto]. intros [?|Hid]; [done|]. exfalso. apply Hne.
      eapply NoDup_fmap_inj; [apply (co_vid _ HC)|exact Hk|exact Hj|done]. }
    assert (∀ k vk, h_verts H !! k = Some vk → k ≠ j →
      (if decide (v_id vk ∈ us ++ [v_id u]) then [scaled_cost n] else []) = (if decide (v_id vk ∈ us) then [scaled_cost n] else [])) as Hsame.
    { intros k vk Hk Hne. specialize (Hother k vk Hk Hne). destruct (decide (v_id vk ∈ us)); [rewrite decide_True by tauto|rewrite decide_False by tauto]; done. }
    destruct (negb m && bool_decide (j ≠ i)) eqn:Hopen; cycle 1.
    { (* not open: nothing happens *)
      assert (¬ open_at matched i j) as Hno. { intros [Ho Hji]. rewrite Hm in Ho. injection Ho as ->. by rewrite bool_decide_true in Hopen. }
      apply wpe_ret. split_and!; [done..|]. intros k vk x Hk Hx. destruct (decide (k = j)) as [->|Hne]; [|rewrite (Hsame k vk) by done; by apply I4].
      destruct (I4 j vk x Hk Hx) as [Hin ->]. rewrite !(decide_False (P := open_at matched i j)) by done. split; [|done]. tauto. }
    assert (open_at matched i j) as Hoj. { apply andb_prop in Hopen as [Hm' Hji]. apply bool_decide_eq_true in Hji. split; [|done]. rewrite Hm. by destruct m. }
    destruct (lookup_lt_is_Some_2 (snd s') j) as [x Hx]; [lia|]. apply wpe_bind. eapply wpe_nidx; [done|]. apply wpe_ret.
    destruct (I4 j u x Hj Hx) as [Hvis Hxv]. rewrite decide_True in Hxv by done. rewrite decide_False, app_nil_r in Hvis, Hxv by done.
    assert (d_eq x d_zero = false → j ∈ fst s') as Hde.
    { intros Hx0. apply Hvis. split; [done|]. intros He. subst x. rewrite He in Hx0. done. }
    clear Hopen. split_and!; cbn [fst snd].
    + by rewrite insert_length.
    + intros k Hk. destruct (d_eq x d_zero); [|by apply I3]. apply elem_of_app in Hk as [Hk| ->%elem_of_list_singleton]; [by apply I3|done].
    + intros k vk y Hk Hy. destruct (decide (k = j)) as [->|Hne].
      * rewrite Hj in Hk. injection Hk as <-. rewrite list_lookup_insert in Hy by lia. injection Hy as <-.
        rewrite (decide_True (P := open_at matched i j)) by done. rewrite (decide_True (P := v_id u ∈ us ++ [v_id u])) by set_solver. rewrite foldl_snoc, <-Hxv. split; [|done].
        split; [intros _; split; [done|by intros [_ ?]%app_eq_nil]|]. intros _. destruct (d_eq x d_zero); [set_solver|]. by apply Hde.
      * rewrite list_lookup_insert_ne in Hy by done. rewrite (Hsame k vk) by done. destruct (I4 k vk y Hk Hy) as [Hin ->]. split; [|done].
        rewrite <-Hin. destruct (d_eq x d_zero); [|done]. rewrite elem_of_app, elem_of_list_singleton. tauto.
  - intros s' (I1 & I3 & I4). split_and!; [done..|]. intros u vu x Hu Hx. rewrite shared_costs_snoc, Hfind. by apply I4.
Qed.

Definition better_than_all (mcs : Z) (matches : list (list Z)) (IP : nat → dbl) (D : list nat) (d : dbl) (o : option nat) : Prop :=
  match o with
  | None => d = d_zero
  | Some u => u ∈ D ∧ d = IP u ∧ d_lt d_zero d = true ∧ ∃ mu, matches !! u = Some mu ∧ Z.of_nat (length mu) < mcs
  end ∧ ∀ u mu, u ∈ D → matches !! u = Some mu → Z.of_nat (length mu) < mcs → d_lt d (IP u) = false.

Lemma share_keeps d z deg : d = d_zero ∨ d_lt d_zero d = true → canon z → 1 ≤ deg ≤ 2 ^ 53 → d_lt d z = false →
  d_lt d (d_mul z (d_div d_one (d_of_Z deg))) = false.
Proof.
  intros Hd Hz Hdeg Hdz. destruct (d_lt d_zero (d_mul z (d_div d_one (d_of_Z deg)))) eqn:Hp.
  - destruct (share_le z deg Hz Hdeg Hp) as [Hnan Hle]. apply (d_not_lt_trans d z); [|done|by eapply d_lt_not_nan|done|done].
    destruct Hd as [->|Hd]; [done|by eapply d_lt_not_nan].
  - destruct Hd as [->|Hd]; [done|]. by eapply d_lt_better.
Qed.
Lemma wpe_cs_best_exact E H mcs matches v vis ip (Q : list dbl * dbl * option nat → Prop) :
  length matches = length (h_verts H) → length ip = length (h_verts H) → (∀ u, u ∈ vis → (u < length (h_verts H))%nat) →
  (∀ u vu, u ∈ vis → h_verts H !! u = Some vu → 1 ≤ Z.min (Z.of_nat (length (v_nets vu))) (Z.of_nat (length (v_nets v))) ≤ 2 ^ 53) →
  (∀ u vu, u ∈ vis → h_verts H !! u = Some vu → ip !! u = Some (foldl d_add d_zero (shared_costs H (v_nets v) vu))) →
  (∀ ip' d o, length ip' = length (h_verts H) → (∀ u, u ∉ vis → ip' !! u = ip !! u) →
     better_than_all mcs matches (λ u, inner_product H (v_nets v) (vat H u)) vis d o → Q (ip', d, o)) →
  wpe E (cs_best H mcs matches v vis ip) Q.
Proof.
  intros Hlm Hli Hvis Hdeg Hip HQ. unfold cs_best.
  apply (wpe_foldM E _ (λ D s, length (fst (fst s)) = length (h_verts H) ∧ (∀ u, u ∉ D → fst (fst s) !! u = ip !! u) ∧
     (∀ u x mu, u ∈ D → fst (fst s) !! u = Some x → matches !! u = Some mu → canon x ∧ (Z.of_nat (length mu) < mcs → d_lt (snd (fst s)) x = false)) ∧
     better_than_all mcs matches (λ u, inner_product H (v_nets v) (vat H u)) D (snd (fst s)) (snd s))).
  - split_and!; [done|done|by intros u x mu ?%elem_of_nil|]. split; [done|]. by intros u mu ?%elem_of_nil.
  - intros D u ts [[ip1 d] o] Heq (I1 & I2 & I4 & Ho & Hall). cbn [fst snd] in *.
    assert (u ∈ vis) as Hu by (rewrite Heq; set_solver). pose proof (Hvis u Hu) as Hul.
    destruct (lookup_lt_is_Some_2 (h_verts H) u) as [vu Hvu]; [lia|]. destruct (lookup_lt_is_Some_2 ip1 u) as [x Hx]; [lia|].
    apply wpe_bind. eapply wpe_nidx; [exact Hx|]. apply wpe_bind. eapply wpe_vert_at; [done|].
    destruct (lookup_lt_is_Some_2 matches u) as [mu Hmu]; [lia|]. apply wpe_bind. eapply wpe_nidx; [done|]. apply wpe_ret. cbv zeta.
    rewrite (Z.min_comm (Z.of_nat (length (v_nets v)))). specialize (Hdeg u vu Hu Hvu).
    set (deg := Z.min (Z.of_nat (length (v_nets vu))) (Z.of_nat (length (v_nets v)))) in *. set (y := d_mul x (d_div d_one (d_of_Z deg))).
    assert (d = d_zero ∨ d_lt d_zero d = true) as Hd by (destruct o as [u'|]; [right; apply Ho|by left]).
    assert (canon x) as Hcx.
    { destruct (decide (u ∈ D)) as [HuD|HuD]; [by apply (I4 u x mu)|]. rewrite I2, (Hip u vu) in Hx by done. injection Hx as <-. apply canon_sum; [apply canon_zero|apply shared_canon]. }
    assert (canon y) as Hcy. { apply canon_mul; [done|]. apply canon_div; apply canon_of_Z. }
    assert (u ∉ D → y = inner_product H (v_nets v) vu) as Hfirst. { intros HuD. rewrite I2, (Hip u vu) in Hx by done. injection Hx as <-. done. }
    assert (u ∈ D → Z.of_nat (length mu) < mcs → d_lt d y = false) as Hagain.
    { intros HuD Hr. apply share_keeps; [done|done|done|]. by apply (I4 u x mu). }
    assert (∀ k z mk d', (k = u → Z.of_nat (length mu) < mcs → d_lt d' y = false) → (∀ z, d_lt d z = false → d_lt d' z = false) →
       k ∈ D ++ [u] → <[u:=y]> ip1 !! k = Some z → matches !! k = Some mk → canon z ∧ (Z.of_nat (length mk) < mcs → d_lt d' z = false)) as Hkeep.
    { intros k z mk d' Hku Hd' Hk Hz Hmk. destruct (decide (k = u)) as [->|Hne].
      - rewrite list_lookup_insert in Hz by lia. injection Hz as <-. rewrite Hmu in Hmk. injection Hmk as <-. split; [done|]. intros Hr. by apply Hku.
      - rewrite list_lookup_insert_ne in Hz by done. assert (k ∈ D) as HkD by set_solver. destruct (I4 k z mk HkD Hz Hmk) as [Hc Hlt]. split; [done|]. intros Hr. apply Hd', Hlt, Hr. }
    assert (∀ k, k ∉ D ++ [u] → <[u:=y]> ip1 !! k = ip !! k) as Hrest.
    { intros k Hk. rewrite list_lookup_insert_ne by (intros ->; set_solver). apply I2. set_solver. }
    destruct (d_lt d y && bool_decide (Z.of_nat (length mu) < mcs)) eqn:Hb.
    + apply andb_prop in Hb as [Hlt Hroom]. apply bool_decide_eq_true in Hroom.
      assert (u ∉ D) as HuD. { intros HuD. rewrite (Hagain HuD Hroom) in Hlt. done. }
      specialize (Hfirst HuD). cbn [fst snd]. split; [by rewrite insert_length|]. split; [exact Hrest|]. split.
      { intros k z mk Hk Hz Hmk. apply (Hkeep k z mk y); [intros _ _; apply d_lt_irrefl|intros z' Hz'; by eapply d_lt_better|done..]. }
      split.
      * split; [set_solver|]. split; [by rewrite (vat_lookup H u vu)|]. split; [|by exists mu].
        destruct Hd as [->|Hd]; [done|]. by eapply d_lt_trans.
      * intros k mk [Hk| ->%elem_of_list_singleton]%elem_of_app Hmk Hr; [eapply d_lt_better; [exact Hlt|by eapply Hall]|].
        rewrite (vat_lookup H u vu), <-Hfirst by done. apply d_lt_irrefl.
    + assert (Z.of_nat (length mu) < mcs → d_lt d y = false) as Hno. { intros Hr. by rewrite (bool_decide_true _ Hr), andb_true_r in Hb. }
      cbn [fst snd]. split; [by rewrite insert_length|]. split; [exact Hrest|]. split.
      { intros k z mk Hk Hz Hmk. by apply (Hkeep k z mk d). }
      split.
      * destruct o as [u'|]; [|done]. destruct Ho as (? & ? & ? & ?). split; [set_solver|]. done.
      * intros k mk [Hk| ->%elem_of_list_singleton]%elem_of_app Hmk Hr; [by eapply Hall|]. rewrite Hmu in Hmk. injection Hmk as <-.
        destruct (decide (u ∈ D)) as [HuD|HuD]; [by eapply Hall|]. rewrite (vat_lookup H u vu), <-(Hfirst HuD) by done. by apply Hno.
  - intros [[ip1 d] o] (I1 & I2 & _ & I3). by apply HQ.
Qed.

Lemma foldl_reset (ip : list dbl) vis k : foldl (λ ip u, <[u := d_zero]> ip) ip vis !! k = if decide (k ∈ vis ∧ (k < length ip)%nat) then Some d_zero else ip !! k.
Proof.
  revert ip. induction vis as [|u vis IH]; intros ip; cbn [foldl].
  - rewrite decide_False; [done|]. by intros [?%elem_of_nil _].
  - rewrite IH, insert_length. destruct (decide (k ∈ vis ∧ (k < length ip)%nat)) as [[? ?]|Hno].
    + rewrite decide_True; [done|]. split; [by right|done].
    + destruct (decide (k = u)) as [->|Hne].
      * destruct (decide (u < length ip)%nat).
        -- rewrite list_lookup_insert by done. rewrite decide_True; [done|]. split; [left|done].
        -- rewrite list_insert_ge by lia. rewrite decide_False by tauto. done.
      * rewrite list_lookup_insert_ne by done. rewrite decide_False; [done|]. intros [[?|?]%elem_of_cons ?]; tauto.
Qed.

Definition matching_of (s : cs_state) : matching := Matching (cs_matches s) (cs_matched s).
Definition cs_ready (H : hg) (s : cs_state) : Prop :=
  length (cs_matches s) = length (h_verts H) ∧ length (cs_matched s) = length (h_verts H) ∧ cs_ip s = replicate (length (h_verts H)) d_zero.

Lemma wpe_cs_turn E H mcs s i : consistent H → Z.of_nat (length (h_nets H)) ≤ 2 ^ 53 → (i < length (h_verts H))%nat → cs_ready H s →
  wpe E (cs_vertex H mcs s i) (λ s', cs_ready H s' ∧ turn H mcs (matching_of s) i (matching_of s')).
Proof.
  intros HC Hpos Hi (L1 & L2 & L3). destruct (lookup_lt_is_Some_2 (h_verts H) i Hi) as [v Hv].
  destruct (lookup_lt_is_Some_2 (cs_matches s) i) as [mi Hmi]; [lia|].
  unfold cs_vertex. apply wpe_bind. eapply wpe_vert_at; [done|]. apply wpe_bind. eapply wpe_nidx; [done|].
  destruct (decide (mi = [])) as [Hempty|Hne]; cycle 1.
  { apply wpe_ret. split; [done|]. exists v, mi. split; [done|]. split; [done|]. rewrite decide_False by done. done. }
  apply wpe_bind. rewrite L3. apply wpe_cs_visit_exact; [done..|]. intros [vis ip1] (I1 & I3 & I4). cbn [fst snd] in *.
  assert (∀ u vu, u ∈ vis → h_verts H !! u = Some vu → ip1 !! u = Some (foldl d_add d_zero (shared_costs H (v_nets v) vu))) as Hval.
  { intros u vu Hu Hvu. destruct (lookup_lt_is_Some_2 ip1 u) as [x Hx]; [rewrite I1; by apply I3|]. destruct (I4 u vu x Hvu Hx) as [Hin ->].
    apply Hin in Hu as [Ho _]. by rewrite decide_True in Hx. }
  assert (∀ u vu, u ∈ vis → h_verts H !! u = Some vu → 1 ≤ Z.min (Z.of_nat (length (v_nets vu))) (Z.of_nat (length (v_nets v))) ≤ 2 ^ 53) as Hdeg.
  { intros u vu Hu Hvu. destruct (lookup_lt_is_Some_2 ip1 u) as [x Hx]; [rewrite I1; by apply I3|]. destruct (I4 u vu x Hvu Hx) as [Hin _].
    apply Hin in Hu as [_ Hne]. apply (shared_degree H); [done|done|by eapply elem_of_list_lookup_2..|done]. }
  apply wpe_bind. apply wpe_cs_best_exact; [done..|]. intros ip2 d o L4 Hother [Ho Hall]. cbn [fst snd].
  assert (foldl (λ ip u, <[u := d_zero]> ip) ip2 vis = replicate (length (h_verts H)) d_zero) as Hreset.
  { apply list_eq. intros k. rewrite foldl_reset. destruct (decide (k < length (h_verts H))%nat) as [Hk|Hk].
    - rewrite lookup_replicate_2 by done. destruct (decide (k ∈ vis ∧ (k < length ip2)%nat)) as [|Hno]; [done|].
      assert (k ∉ vis) as Hkv by (intros ?; apply Hno; split; [done|lia]). rewrite Hother by done.
      destruct (lookup_lt_is_Some_2 ip1 k) as [x Hx]; [lia|]. destruct (lookup_lt_is_Some_2 (h_verts H) k Hk) as [vk Hvk].
      destruct (I4 k vk x Hvk Hx) as [Hin ->]. rewrite Hx. destruct (decide (open_at (cs_matched s) i k)) as [Hop|]; [|done].
      destruct (shared_costs H (v_nets v) vk) eqn:Hsc; [done|]. exfalso. apply Hkv, Hin. done.
    - rewrite decide_False by (intros [? ?]; lia). rewrite !lookup_ge_None_2; [done|rewrite replicate_length; lia|lia]. }
  rewrite Hreset.
  assert (∀ u vu, may_join H mcs (matching_of s) i u vu → u ∈ vis ∨ inner_product H (v_nets v) vu = d_mul d_zero (d_div d_one (d_of_Z (Z.min (Z.of_nat (length (v_nets vu))) (Z.of_nat (length (v_nets v))))))) as Hjoin.
  { intros u vu (Hvu & Hne & Hop & _). destruct (lookup_lt_is_Some_2 ip1 u) as [x Hx]; [rewrite I1; by eapply lookup_lt_Some|].
    destruct (I4 u vu x Hvu Hx) as [Hin _]. destruct (decide (shared_costs H (v_nets v) vu = [])) as [Hsc|Hsc].
    - right. unfold inner_product. by rewrite Hsc.
    - left. apply Hin. done. }
  destruct o as [u|].
  - destruct Ho as (Hu & Hd & Hp & mu & Hmu & Hroom). apply wpe_ret. split.
    { split_and!; cbn; [by rewrite alter_length|by rewrite insert_length|done]. }
    destruct (lookup_lt_is_Some_2 (h_verts H) u (I3 u Hu)) as [vu Hvu]. rewrite (vat_lookup H u vu) in Hd by done. subst d.
    exists v, mi. split; [done|]. split; [done|]. rewrite decide_True by done. right. exists u, vu. split_and!; [|done| |done].
    + destruct (lookup_lt_is_Some_2 ip1 u) as [x Hx]; [rewrite I1; by apply I3|]. destruct (I4 u vu x Hvu Hx) as [Hin _].
      pose proof (proj1 Hin Hu) as [[Ho1 Ho2] _]. split_and!; [done|done|done|]. by exists mu.
    + intros u' vu' Hj. destruct (Hjoin u' vu' Hj) as [Hin| ->].
      * destruct Hj as (Hvu' & _ & _ & mu' & Hmu' & Hr'). specialize (Hall u' mu' Hin Hmu' Hr'). by rewrite (vat_lookup H u' vu') in Hall.
      * eapply d_lt_better; [exact Hp|]. apply d_lt_zero_mul.
  - subst d. apply wpe_ret. split; [split_and!; done|].
    exists v, mi. split; [done|]. split; [done|]. rewrite decide_True by done. left. split; [done|].
    intros u' vu' Hj. destruct (Hjoin u' vu' Hj) as [Hin| ->]; [|apply d_lt_zero_mul].
    destruct Hj as (Hvu' & _ & _ & mu' & Hmu' & Hr'). specialize (Hall u' mu' Hin Hmu' Hr'). by rewrite (vat_lookup H u' vu') in Hall.
Qed.

Lemma found_clusters_of H mcs order s : (∀ i, i ∈ order → (i < length (h_verts H))%nat) → cs_inv H mcs order s → found H order s = clusters_of H order (matching_of s).
Proof.
  intros Hlt [L1 L2 _ _ _ _ _ _ _]. unfold found, clusters_of. clear -Hlt L1 L2. induction order as [|i order IH]; [done|]. csimpl.
  assert ((i < length (h_verts H))%nat) as Hi by (apply Hlt; left).
  destruct (lookup_lt_is_Some_2 (h_verts H) i Hi) as [v Hv]. destruct (lookup_lt_is_Some_2 (cs_matches s) i) as [ms Hms]; [lia|].
  destruct (lookup_lt_is_Some_2 (cs_matched s) i) as [b Hb]; [lia|].
  rewrite Hv, Hms, Hb. rewrite filter_cons. assert (mat s i = b) as Hmb by (unfold mat; by rewrite Hb). destruct b.
  - rewrite decide_False by (by rewrite Hmb). apply IH. intros j Hj. apply Hlt. by right.
  - rewrite decide_True by done. rewrite fmap_cons. rewrite (vat_lookup H i v) by done. unfold mlist at 1. rewrite Hms. simpl. f_equal. apply IH. intros j Hj. apply Hlt. by right.
Qed.

Lemma wpe_both {A} E (m : M A) (P Q : A → Prop) : wpe E m P → wpe E m Q → wpe E m (λ a, P a ∧ Q a).
Proof. intros H1 H2 w. specialize (H1 w). specialize (H2 w). destruct (m w) as [[? ?]|]; done. Qed.

Lemma wpe_coarsen_seq_turns E H opts (Q : hg * contraction → Prop) :
  consistent H → Z.of_nat (length (h_nets H)) ≤ 2 ^ 53 →
  (∀ HC order m free t, order ≡ₚ seq 0 (length (h_verts H)) → turns H (o_max_clustersize opts) order (all_apart H) m →
     Q (HC, contraction_of (clusters_of H order m) free t t)) →
  wpe E (coarsen_seq H new_contraction opts) Q.
Proof.
  intros HC Hpos HQ. unfold coarsen_seq. apply wpe_bind, wpe_shuffle. intros order Ho. apply wpe_bind.
  set (n := length (h_verts H)) in *.
  assert (NoDup order) as Hnd by (rewrite Ho; apply NoDup_seq).
  assert (∀ j, j ∈ order → (j < n)%nat) as Hlt by (intros j Hj; rewrite Ho in Hj; apply elem_of_seq in Hj; lia).
  apply (wpe_foldM _ _ (λ ds s, cs_inv H (o_max_clustersize opts) ds s ∧ cs_ready H s ∧ turns H (o_max_clustersize opts) ds (all_apart H) (matching_of s))).
  - split; [|split; [split_and!; cbn; [apply replicate_length..|done]|constructor]]. split; simpl; try (by rewrite replicate_length); try done.
    + intros i. unfold mat. simpl. destruct (replicate n false !! i) eqn:Hr; [apply lookup_replicate in Hr as [-> _]|]; done.
    + clear. induction n as [|k IH]; simpl; done.
    + intros i. unfold mlist. simpl. destruct (replicate n [] !! i) eqn:Hr; [apply lookup_replicate in Hr as [-> _]|]; done.
    + intros i. unfold mlist. simpl. destruct (replicate n [] !! i) eqn:Hr; [apply lookup_replicate in Hr as [-> _]|]; simpl; lia.
    + intros i x. unfold mlist. simpl. destruct (replicate n [] !! i) eqn:Hr; [apply lookup_replicate in Hr as [-> _]|]; simpl; set_solver.
  - intros ds i ts s Heq (Is & Hr & Ht). apply wpe_both; [by eapply wpe_cs_vertex|].
    eapply wpe_mono; [apply wpe_cs_turn; [done|done|apply Hlt; rewrite Heq; set_solver|done]|].
    intros s' [Hr' Ht']. split; [done|]. by econstructor.
  - intros s (Is & _ & Ht). pose proof (found_clustering H _ order s Ho Is) as Hcl. pose proof (found_clusters_of H _ order s Hlt Is) as Hfc.
    destruct Is as [L1 L2 L3 Hnew Hin Hcat Hun Hsz Hnb].
    assert (cs_new s = new_verts H (found H order s)) as ->.
    { rewrite Hnew. unfold new_verts, found. rewrite <-list_fmap_compose. apply list_fmap_ext. intros k i Hk. simpl. f_equal.
      apply elem_of_list_lookup_2, elem_of_list_filter in Hk as [_ Hk]. specialize (Hlt i Hk).
      destruct (lookup_lt_is_Some_2 (h_verts H) i Hlt) as [v Hv]. rewrite (vat_lookup H i v Hv). symmetry. apply by_id_elem; [apply (co_vid _ HC)|by eapply elem_of_list_lookup_2]. }
    apply wpe_contract_seq; [done|done| |].
    + intros c i (j & -> & [_ Hj]%elem_of_list_filter)%elem_of_list_fmap. simpl. specialize (Hlt j Hj).
      destruct (lookup_lt_is_Some_2 (h_verts H) j Hlt) as [v Hv]. rewrite (vat_lookup H j v Hv). rewrite (vmap_ok_lookup H j v) by (done || by apply co_vmap_ok).
      intros [= <-]. unfold mlist. destruct (lookup_lt_is_Some_2 (cs_matches s) j) as [ms ->]; [lia|]. done.
    + intros HC' free t Hcd _. rewrite Hfc. by apply HQ.
Qed.
