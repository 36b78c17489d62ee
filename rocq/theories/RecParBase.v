(** Recursive bisection on several processors: rearrangements of a distributed hypergraph, and the parts
    that recursive bisection uses. *)
From Verif Require Export SpecRpar RecParFloat RedProof MparProof RecProof.

(** ** Rearrangements *)
Lemma all_verts_app A B : all_verts (A ++ B) = all_verts A ++ all_verts B.
Proof. unfold all_verts. by rewrite fmap_app, concat_app. Qed.
Lemma all_nets_app A B : all_nets (A ++ B) = all_nets A ++ all_nets B.
Proof. unfold all_nets. by rewrite fmap_app, concat_app. Qed.
Lemma gpart_weight_app A B q : gpart_weight (A ++ B) q = gpart_weight A q + gpart_weight B q.
Proof. unfold gpart_weight. by rewrite all_verts_app, filter_app, fmap_app, zsum_app. Qed.

Lemma rearranged_refl gn Hs : distributed gn Hs → rearranged gn Hs Hs.
Proof. intros HD. split; try done. eauto. Qed.
Lemma rearranged_trans gn Hs Hs1 Hs2 : rearranged gn Hs Hs1 → rearranged gn Hs1 Hs2 → rearranged gn Hs Hs2.
Proof.
  intros [D1 L1 V1 N1 S1 Z1] [D2 L2 V2 N2 S2 Z2]. split; [done|congruence|by rewrite V2| |congruence|congruence].
  intros e2 (e1 & He1 & <- & <-)%N2. by apply N1.
Qed.
Lemma vkey_ids (vs vs' : list vertex) : vkey <$> vs ≡ₚ vkey <$> vs' → v_id <$> vs ≡ₚ v_id <$> vs'.
Proof. intros Hp. change v_id with ((λ x : Z * list Z * Z, fst (fst x)) ∘ vkey). by rewrite !list_fmap_compose, Hp. Qed.
Lemma vkey_weights (vs vs' : list vertex) : vkey <$> vs ≡ₚ vkey <$> vs' → v_weight <$> vs ≡ₚ v_weight <$> vs'.
Proof. intros Hp. change v_weight with ((λ x : Z * list Z * Z, snd x) ∘ vkey). by rewrite !list_fmap_compose, Hp. Qed.
Lemma vkey_elem (vs vs' : list vertex) v : vkey <$> vs' ≡ₚ vkey <$> vs → v ∈ vs' → ∃ u, u ∈ vs ∧ vkey u = vkey v.
Proof. intros Hp Hv. apply (elem_of_list_fmap_1 vkey) in Hv. rewrite Hp in Hv. apply elem_of_list_fmap in Hv as (u & Heq & Hu). eauto. Qed.

Lemma distributed_app gn A B : distributed gn (A ++ B) → distributed gn A ∧ distributed gn B.
Proof.
  intros [H1 H2 H3 H4 H5]. rewrite all_verts_app, fmap_app in H3. apply NoDup_app in H3 as (H3 & _ & H3').
  split; split; try done; intros; (apply H1 || apply H2 || apply H4 || apply H5); rewrite ?all_nets_app; set_solver.
Qed.
Lemma spread_app gn A B : spread_pre gn (A ++ B) → spread_pre gn A ∧ spread_pre gn B.
Proof.
  intros [D G I W T]. destruct (distributed_app _ _ _ D) as [DA DB].
  assert (0 ≤ gweight A ∧ 0 ≤ gweight B) as [TA TB].
  { split; apply zsum_nonneg; intros x (v & -> & Hv)%elem_of_list_fmap; apply Z.lt_le_incl, W; rewrite all_verts_app; set_solver. }
  unfold gweight in *. rewrite all_verts_app, fmap_app, zsum_app in T. rewrite all_verts_app in I, W.
  split; split; try done; try (intros; (apply I || apply W); set_solver); unfold gweight; lia.
Qed.
Lemma rearranged_app gn A A' B B' : distributed gn (A ++ B) → rearranged gn A A' → rearranged gn B B' → rearranged gn (A ++ B) (A' ++ B').
Proof.
  intros HD [D1 L1 V1 N1 S1 Z1] [D2 L2 V2 N2 S2 Z2].
  assert (∀ e', e' ∈ all_nets (A' ++ B') → ∃ e, e ∈ all_nets (A ++ B) ∧ n_id e = n_id e' ∧ n_cost e = n_cost e') as HN.
  { intros e'. rewrite all_nets_app. intros [(e & He & Hid)%N1|(e & He & Hid)%N2]%elem_of_app; exists e; (split; [|done]); rewrite all_nets_app; set_solver. }
  assert (vkey <$> all_verts (A' ++ B') ≡ₚ vkey <$> all_verts (A ++ B)) as HV by (by rewrite !all_verts_app, !fmap_app, V1, V2).
  split; [|by rewrite !app_length, L1, L2|done|done|by rewrite !fmap_app, S1, S2|by rewrite !fmap_app, Z1, Z2].
  split.
  - intros H [HH|HH]%elem_of_app; [by apply (di_local _ _ D1)|by apply (di_local _ _ D2)].
  - intros H [HH|HH]%elem_of_app; [by apply (di_gnets _ _ D1)|by apply (di_gnets _ _ D2)].
  - rewrite (vkey_ids _ _ HV). apply HD.
  - intros n (e & He & <- & _)%HN. by apply (di_range _ _ HD).
  - intros n n' (e & He & Hi & <-)%HN (e' & He' & Hi' & <-)%HN Hid. apply (di_cost _ _ HD); [done..|congruence].
Qed.
Lemma spread_rearranged gn Hs Hs' : spread_pre gn Hs → rearranged gn Hs Hs' → spread_pre gn Hs'.
Proof.
  intros [D G I W T] [D' _ V _ _ _]. split; [done|done| | |].
  - intros v (u & Hu & [= <- _ _])%(vkey_elem _ _ _ V). by apply I.
  - intros v (u & Hu & [= _ _ <-])%(vkey_elem _ _ _ V). by apply W.
  - unfold gweight. by rewrite (vkey_weights _ _ V).
Qed.
Lemma spread_member gn Hs H : spread_pre gn Hs → H ∈ Hs → rb_pre H.
Proof.
  intros [D G I W T] HH. split; [by apply D| | | | |].
  - unfold nets_in_range. rewrite (di_gnets _ _ D H HH). split; [lia|]. intros n Hn. apply (di_range _ _ D). apply all_nets_elem. eauto.
  - intros v Hv. apply I, all_verts_elem. eauto.
  - intros v Hv. apply W, all_verts_elem. eauto.
  - eapply Z.le_lt_trans; [|apply (proj2 G)]. rewrite <-(fmap_length n_id). rewrite <-(Z2Nat.id gn) by lia. apply Nat2Z.inj_le.
    rewrite <-(seqZ_length 0 gn). apply submseteq_length, NoDup_submseteq; [apply (co_nid _ (di_local _ _ D H HH))|].
    intros id (n & -> & Hn)%elem_of_list_fmap. apply elem_of_seqZ. assert (0 ≤ n_id n < gn); [|lia]. apply (di_range _ _ D), all_nets_elem. eauto.
  - apply elem_of_list_split in HH as (A & B & ->). rewrite <-gweight_sum, fmap_app, fmap_cons, zsum_app, zsum_cons in T.
    assert (∀ L, (∀ H', H' ∈ L → H' ∈ A ++ H :: B) → 0 ≤ zsum (tot_weight <$> L)) as Hp.
    { intros L HL. apply zsum_nonneg. intros x (H' & -> & HH')%elem_of_list_fmap. apply zsum_nonneg. intros y (v & -> & Hv)%elem_of_list_fmap.
      apply Z.lt_le_incl, W, all_verts_elem. eauto. }
    pose proof (Hp A ltac:(set_solver)). pose proof (Hp B ltac:(set_solver)). lia.
Qed.
Lemma spread_length gn Hs : spread_pre gn Hs → Z.of_nat (length (all_verts Hs)) ≤ 2 ^ 50.
Proof.
  intros [_ _ _ W T]. etrans; [|exact T]. unfold gweight. clear T. revert W. induction (all_verts Hs) as [|v l IH]; intros W; [done|]. csimpl. rewrite zsum_cons.
  specialize (IH ltac:(intros; apply W; by right)). pose proof (W v ltac:(by left)). lia.
Qed.

(** ** The bisection of a group of processors *)
Notation work := (hg * Z)%type.
Definition aside (g : work) : list vertex := drop (Z.to_nat (snd g)) (h_verts (fst g)).
Definition asides (G : list work) : list vertex := concat (aside <$> G).
Definition job_ranged (low high : Z) (g : work) (r : hg * (Z * Z)) : Prop :=
  ∃ R', bisected_range (fst g) 0 (snd g) low high (fst r) R' ∧ snd r = (lpw (wpair <$> R') low, lpw (wpair <$> R') high).
(** the vertices that are set aside have a part below the labels of the group *)
Definition set_aside (low : Z) (g : work) : Prop :=
  0 ≤ snd g ≤ Z.of_nat (length (h_verts (fst g))) ∧ ∀ v, v ∈ aside g → 0 ≤ v_part v < low.

Lemma ranged_weights low high g r : low < high → set_aside low g → job_ranged low high g r →
  fst (snd r) = part_weight (fst r) low ∧ snd (snd r) = part_weight (fst r) high ∧
  (∀ q, q ≠ low → q ≠ high → part_weight (fst r) q = lpw (wpair <$> aside g) q) ∧
  ∀ v, v ∈ h_verts (fst r) → v_part v = low ∨ v_part v = high ∨ 0 ≤ v_part v < low.
Proof.
  intros Hlh [_ Ha] (R' & (_ & _ & HF & Hv) & Heq). change (drop _ _) with (aside g) in Hv. simpl in Hv.
  apply part_relabelled in HF. rewrite Forall_forall in HF.
  assert (∀ q, part_weight (fst r) q = lpw (wpair <$> R') q + lpw (wpair <$> aside g) q) as Hq.
  { intros q. by rewrite <-lpw_part_weight, Hv, fmap_app, lpw_app. }
  rewrite Heq. cbn [fst snd]. rewrite !Hq. rewrite !(lpw_zero (wpair <$> aside g)).
  - split; [lia|]. split; [lia|]. split.
    + intros q H1 H2. rewrite Hq, (lpw_zero (wpair <$> R')); [lia|]. intros x (v & -> & Hx)%elem_of_list_fmap. simpl. destruct (HF v Hx); congruence.
    + intros v. rewrite Hv. intros [Hx|Hx]%elem_of_app; [destruct (HF v Hx); auto|auto].
  - intros x (v & -> & Hx)%elem_of_list_fmap. simpl. specialize (Ha v Hx). lia.
  - intros x (v & -> & Hx)%elem_of_list_fmap. simpl. specialize (Ha v Hx). lia.
Qed.
Lemma group_weights low high G rs : low < high → (∀ g, g ∈ G → set_aside low g) → Forall2 (job_ranged low high) G rs →
  zsum ((λ r : hg * (Z * Z), fst (snd r)) <$> rs) = gpart_weight (fst <$> rs) low ∧
  zsum ((λ r : hg * (Z * Z), snd (snd r)) <$> rs) = gpart_weight (fst <$> rs) high ∧
  (∀ q, q ≠ low → q ≠ high → gpart_weight (fst <$> rs) q = lpw (wpair <$> asides G) q) ∧
  ∀ v, v ∈ all_verts (fst <$> rs) → v_part v = low ∨ v_part v = high ∨ 0 ≤ v_part v < low.
Proof.
  intros Hlh Ha HF. induction HF as [|g r G rs Hgr HF IH]; [split_and!; try done; set_solver|].
  destruct (ranged_weights low high g r Hlh (Ha g ltac:(by left)) Hgr) as (E1 & E2 & E3 & E4).
  destruct (IH ltac:(intros; apply Ha; by right)) as (I1 & I2 & I3 & I4). csimpl. rewrite !zsum_cons, I1, I2, E1, E2.
  rewrite <-!gpart_weight_sum. csimpl. rewrite !zsum_cons. split_and!; [done|done| |].
  - intros q H1 H2. rewrite <-gpart_weight_sum. csimpl. rewrite zsum_cons, E3, gpart_weight_sum, I3 by done. unfold asides. csimpl. by rewrite fmap_app, lpw_app.
  - intros v. unfold all_verts. csimpl. intros [Hv|Hv]%elem_of_app; [by apply E4|by apply I4].
Qed.
(** the weight of the vertices a group works on *)
Definition range_weight (G : list work) : Z := zsum ((λ g : work, zsum (v_weight <$> take (Z.to_nat (snd g)) (h_verts (fst g)))) <$> G).
Lemma group_range low high G rs : low ≠ high → Forall2 (job_ranged low high) G rs →
  zsum ((λ r : hg * (Z * Z), fst (snd r)) <$> rs) + zsum ((λ r : hg * (Z * Z), snd (snd r)) <$> rs) = range_weight G.
Proof.
  intros Hlh HF. unfold range_weight. induction HF as [|g r G rs Hgr HF IH]; [done|]. csimpl. rewrite !zsum_cons, <-IH.
  destruct Hgr as (R' & (_ & _ & HR & _) & ->). cbn [fst snd].
  assert (lpw (wpair <$> R') low + lpw (wpair <$> R') high = zsum (v_weight <$> take (Z.to_nat (snd g)) (h_verts (fst g)))); [|lia].
  rewrite lpw_two; [|done|].
  - unfold range in HR. change (Z.to_nat 0) with 0%nat in HR. rewrite drop_0, Z.sub_0_r in HR. clear -HR.
    induction HR as [|v v' l l' Hv _ IH]; [done|]. csimpl. rewrite !zsum_cons, IH. by destruct Hv as [-> | ->].
  - intros x (v & -> & Hx)%elem_of_list_fmap. apply part_relabelled in HR. rewrite Forall_forall in HR. by apply HR.
Qed.
Lemma range_weight_ge (G : list work) q : (∀ v, v ∈ all_verts (fst <$> G) → 0 ≤ v_weight v) → (∀ g, g ∈ G → ∀ v, v ∈ aside g → v_part v ≠ q) →
  gpart_weight (fst <$> G) q ≤ range_weight G.
Proof.
  intros Hw Ha. rewrite <-gpart_weight_sum. unfold range_weight. induction G as [|g G IH]; [done|]. csimpl. rewrite !zsum_cons.
  assert (part_weight (fst g) q ≤ zsum (v_weight <$> take (Z.to_nat (snd g)) (h_verts (fst g)))) as Hg.
  { rewrite <-lpw_part_weight, <-(take_drop (Z.to_nat (snd g)) (h_verts (fst g))) at 1. rewrite fmap_app, lpw_app, (lpw_zero (wpair <$> drop _ _)).
    - assert (∀ v, v ∈ take (Z.to_nat (snd g)) (h_verts (fst g)) → 0 ≤ v_weight v) as Hp.
      { intros v Hv. apply Hw. unfold all_verts. csimpl. apply elem_of_app. left. apply (elem_of_take _ _) in Hv as (i & Hv & _). by eapply elem_of_list_lookup_2. }
      clear -Hp. induction (take (Z.to_nat (snd g)) (h_verts (fst g))) as [|v l IH]; [done|]. specialize (IH ltac:(intros; apply Hp; by right)).
      specialize (Hp v ltac:(by left)). unfold lpw in *. rewrite fmap_cons, filter_cons. case_decide; csimpl; rewrite ?zsum_cons; simpl; lia.
    - intros x (v & -> & Hx)%elem_of_list_fmap. apply (Ha g); [by left|done]. }
  specialize (IH ltac:(intros v Hv; apply Hw; unfold all_verts in *; csimpl; apply elem_of_app; by right) ltac:(intros g' Hg'; apply Ha; by right)). lia.
Qed.
Lemma ranged_shape low high g r : set_aside low g → job_ranged low high g r → same_shape (fst g) (fst r).
Proof.
  intros [Hen _] (R' & ((Hgs & Hgn & Hn & Hnz & Hvm & Hnm & Hd) & _ & HF & Hv) & _). split; try done.
  - rewrite Hv. rewrite (range_split (fst g) 0 (snd g)) at 1. change (Z.to_nat 0) with 0%nat. rewrite take_0, drop_0. simpl. rewrite Z.sub_0_r. apply Forall2_app.
    + eapply Forall2_impl; [exact HF|]. by intros v v' [-> | ->].
    + by apply HgOps.Forall2_refl.
  - rewrite Hn. by apply HgOps.Forall2_refl.
Qed.
Lemma group_rearranged gn low high G rs : (∀ g, g ∈ G → set_aside low g) → distributed gn (fst <$> G) → Forall2 (job_ranged low high) G rs →
  rearranged gn (fst <$> G) (fst <$> rs).
Proof.
  intros Ha HD HF.
  assert (same_shapes (fst <$> G) (fst <$> rs)) as Hss.
  { clear HD. induction HF as [|g r G rs Hgr HF IH]; csimpl; constructor; [eapply ranged_shape; [|done]; apply Ha; by left|]. apply IH. intros. apply Ha. by right. }
  split; [by eapply same_shapes_distributed|symmetry; by eapply Forall2_length| | | |].
  - clear -Hss. unfold all_verts. induction Hss as [|H H' l l' Hs _ IH]; [done|]. csimpl. rewrite !fmap_app, IH. f_equiv.
    assert (vkey <$> h_verts H' = vkey <$> h_verts H) as ->; [|done].
    pose proof (ss_verts _ _ Hs) as HF. clear -HF. induction HF as [|v v' vs vs' (H1 & H2 & H3) _ IHv]; [done|]. csimpl. rewrite IHv. f_equal. unfold vertex_data. congruence.
  - intros e' (H' & [i HH']%elem_of_list_lookup & He')%all_nets_elem. destruct (Forall2_lookup_r _ _ _ _ _ Hss HH') as (H & HH & Hs).
    apply elem_of_list_lookup in He' as [j He']. destruct (Forall2_lookup_r _ _ _ _ _ (ss_nets _ _ Hs) He') as (e & He & (Hid & _ & Hc & _)).
    exists e. split; [|done]. apply all_nets_elem. exists H. split; by eapply elem_of_list_lookup_2.
  - clear -Hss. induction Hss as [|H H' l l' Hs _ IH]; [done|]. csimpl. by rewrite IH, (ss_gsize _ _ Hs).
  - clear -Hss. induction Hss as [|H H' l l' Hs _ IH]; [done|]. csimpl. by rewrite IH, (ss_nz _ _ Hs).
Qed.
