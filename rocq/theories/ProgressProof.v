(** Sequential matching leaves no two neighbours alone. *)
From Verif Require Export SeqMatchProof FloatBig.
Local Open Scope list_scope.
Local Open Scope Z_scope.

Lemma shared_big H v u i j : consistent H → positive_costs H → h_verts H !! i = Some v → h_verts H !! j = Some u → i ≠ j → Forall bigd (shared_costs H (v_nets v) u).
Proof.
  intros HC Hp Hi Hj Hne. apply Forall_forall. intros c (nid & Hnid & Hc)%elem_of_list_omap.
  destruct (co_inc1 _ HC v nid ltac:(by eapply elem_of_list_lookup_2) Hnid) as (n & Hn & <- & Hvn).
  destruct (find_net H n HC Hn) as [k Hk]. rewrite Hk in Hc. destruct (decide (v_id u ∈ n_verts n)) as [Hu|]; [|done]. injection Hc as <-.
  apply bigd_scaled; apply (Hp n Hn).
  all: assert (v_id v ≠ v_id u) as Hid by (intros Hid; apply Hne; eapply NoDup_fmap_inj; [apply (co_vid _ HC)|exact Hi|exact Hj|done]).
  all: destruct (n_verts n) as [|a [|b l]]; [by apply elem_of_nil in Hu| |simpl; lia].
  all: apply elem_of_list_singleton in Hu; apply elem_of_list_singleton in Hvn; congruence.
Qed.
Lemma neighbours_positive H v u i j x : consistent H → positive_costs H → Z.of_nat (length (h_nets H)) ≤ 2 ^ 53 →
  h_verts H !! i = Some v → h_verts H !! j = Some u → i ≠ j → x ∈ v_nets v → x ∈ v_nets u → d_lt d_zero (inner_product H (v_nets v) u) = true.
Proof.
  intros HC Hp Hnn Hi Hj Hne Hxv Hxu. pose proof (elem_of_list_lookup_2 _ _ _ Hi) as Hv. pose proof (elem_of_list_lookup_2 _ _ _ Hj) as Hu.
  apply big_share.
  - apply bigd_sum_0; [|by eapply shared_big].
    destruct (co_inc1 _ HC u x Hu Hxu) as (n & Hn & Hnx & Hun). destruct (find_net H n HC Hn) as [k Hk]. rewrite Hnx in Hk.
    assert (scaled_cost n ∈ shared_costs H (v_nets v) u) as Hin.
    { apply elem_of_list_omap. exists x. split; [done|]. rewrite Hk, decide_True by done. done. }
    intros He. rewrite He in Hin. by apply elem_of_nil in Hin.
  - pose proof (degree_le H v HC Hv). destruct (v_nets v) as [|a l] eqn:Ev; [by apply elem_of_nil in Hxv|]. destruct (v_nets u) as [|b l'] eqn:Eu; [by apply elem_of_nil in Hxu|].
    simpl length in *. lia.
Qed.

(** vertex number [i] has joined none, and none has joined it *)
Definition alone (s : matching) (i : nat) : Prop := has_joined s !! i = Some false ∧ joined_by s !! i = Some [].
Lemma alone_turn H mcs s j s' i : turn H mcs s j s' → length (has_joined s) = length (h_verts H) → alone s' i →
  alone s i ∧ (i = j → s' = s ∧ ∃ v, h_verts H !! j = Some v ∧ ∀ u vu, may_join H mcs s j u vu → d_lt d_zero (inner_product H (v_nets v) vu) = false).
Proof.
  intros (v & mi & Hv & Hmi & Ht) Hlen [A1 A2]. destruct (decide (mi = [])) as [He|He].
  - destruct Ht as [[-> Hno]|(u & vu & Hj & Hp & Hm & ->)].
    + split; [done|]. intros ->. split; [done|]. exists v. done.
    + cbn in A1, A2. assert (i ≠ j) as Hne.
      { intros ->. rewrite list_lookup_insert in A1 by (rewrite Hlen; by eapply lookup_lt_Some). done. }
      split; [|by intros ->]. split; [by rewrite list_lookup_insert_ne in A1|].
      destruct (decide (i = u)) as [->|Hiu].
      * rewrite list_lookup_alter in A2. destruct (joined_by s !! u) as [ms|]; [|done]. injection A2 as A2. by apply app_eq_nil in A2 as [_ ?].
      * by rewrite list_lookup_alter_ne in A2.
  - subst s'. split; [done|]. intros ->. rewrite Hmi in A2. by injection A2.
Qed.
Lemma turn_length H mcs s j s' : turn H mcs s j s' → length (has_joined s') = length (has_joined s).
Proof.
  intros (v & mi & Hv & Hmi & Ht). destruct (decide (mi = [])); [|by subst]. destruct Ht as [[-> _]|(u & vu & _ & _ & _ & ->)]; [done|]. cbn. by rewrite insert_length.
Qed.
Lemma turns_alone H mcs order s0 s : consistent H → positive_costs H → Z.of_nat (length (h_nets H)) ≤ 2 ^ 53 → 1 ≤ mcs →
  turns H mcs order s0 s → length (has_joined s0) = length (h_verts H) →
  length (has_joined s) = length (h_verts H) ∧
  ∀ i j v u x, i ∈ order → i ≠ j → alone s i → alone s j → h_verts H !! i = Some v → h_verts H !! j = Some u → x ∈ v_nets v → x ∈ v_nets u → False.
Proof.
  intros HC Hp Hnn Hmcs Ht Hl0. induction Ht as [s|order k s s1 s2 Ht IH Hturn].
  - split; [done|]. by intros i j v u x ?%elem_of_nil.
  - destruct (IH Hl0) as [Hl1 Hno]. split; [by rewrite (turn_length _ _ _ _ _ Hturn)|].
    intros i j v u x Hin Hne Ai Aj Hi Hj Hxv Hxu.
    destruct (alone_turn H mcs s1 k s2 i Hturn Hl1 Ai) as [Bi Hik]. destruct (alone_turn H mcs s1 k s2 j Hturn Hl1 Aj) as [Bj _].
    apply elem_of_app in Hin as [Hin| ->%elem_of_list_singleton]; [by eapply Hno|].
    destruct (Hik eq_refl) as (-> & v' & Hv' & Hnone). rewrite Hi in Hv'. injection Hv' as <-.
    assert (may_join H mcs s1 k j u) as Hjoin. { split_and!; [done|done|apply Bj|]. exists []. split; [apply Bj|]. simpl. lia. }
    specialize (Hnone j u Hjoin). rewrite (neighbours_positive H v u k j x) in Hnone; done.
Qed.
