(** Groups of processors of which nets are set aside, from one state of a run to a later one. *)
From Verif Require Export CutAdd RecParProof.

Lemma gverts_vertex gn Hs i u : distributed gn Hs → u ∈ gverts Hs i ↔ ∃ v, v ∈ all_verts Hs ∧ v_id v = u ∧ i ∈ v_nets v.
Proof.
  intros HD. rewrite gverts_elem. split.
  - intros (n & (H & HH & Hn)%all_nets_elem & <- & Hu). destruct (co_inc2 _ (di_local _ _ HD H HH) n u Hn Hu) as (v & Hv & Hid & Hin).
    exists v. split; [apply all_verts_elem; eauto|done].
  - intros (v & (H & HH & Hv)%all_verts_elem & <- & Hin). destruct (co_inc1 _ (di_local _ _ HD H HH) v i Hv Hin) as (n & Hn & Hid & Hu).
    exists n. split; [apply all_nets_elem; eauto|done].
Qed.
Lemma rearranged_gverts gn Hs Hs' i : distributed gn Hs → rearranged gn Hs Hs' → gverts Hs' i ≡ₚ gverts Hs i.
Proof.
  intros HD HR. apply NoDup_Permutation; [eapply gverts_NoDup, HR|by eapply gverts_NoDup|]. intros u.
  rewrite (gverts_vertex gn) by apply HR. rewrite (gverts_vertex gn) by done. split; intros (v & Hv & Hid & Hin).
  - destruct (vkey_elem _ _ v (ra_verts _ _ _ HR) Hv) as (v0 & Hv0 & Hk). injection Hk as H1 H2 H3. exists v0. split; [done|]. rewrite H1, H2. done.
  - symmetry in Hid. destruct (vkey_elem _ _ v (symmetry (ra_verts _ _ _ HR)) Hv) as (v0 & Hv0 & Hk). injection Hk as H1 H2 H3. exists v0. split; [done|]. rewrite H1, H2. done.
Qed.

(** from [G0] to [G] the nets [R] were taken out and set aside; vertices may have moved *)
Record shed (gn : Z) (R : list Z) (G0 G : list keeper) : Prop := {
  sh_dist : distributed gn (fst <$> G);
  sh_idw : idw <$> all_verts (fst <$> G) ≡ₚ idw <$> all_verts (fst <$> G0);
  sh_gverts : ∀ i, gverts (fst <$> G) i ≡ₚ if decide (i ∈ R) then [] else gverts (fst <$> G0) i;
  sh_nets : ∀ e', e' ∈ all_nets (fst <$> G) → n_id e' ∉ R ∧ ∃ e, e ∈ all_nets (fst <$> G0) ∧ n_id e = n_id e' ∧ n_cost e = n_cost e';
  sh_size : h_gsize <$> (fst <$> G) = h_gsize <$> (fst <$> G0);
  sh_nz : h_nz <$> (fst <$> G) = h_nz <$> (fst <$> G0);
  sh_kept : Forall2 (λ P0 P : keeper, ∃ add, snd P = snd P0 ++ add ∧ NoDup (n_id <$> add) ∧
    ∀ n, n ∈ add → n_id n ∈ R ∧ ∃ e, e ∈ all_nets (fst <$> G0) ∧ n_id e = n_id n ∧ n_cost e = n_cost n) G0 G;
  sh_verts : ∀ i, kept_verts G i ≡ₚ kept_verts G0 i ++ if decide (i ∈ R) then gverts (fst <$> G0) i else [];
}.
Lemma shed_length gn R G0 G : shed gn R G0 G → length G = length G0.
Proof. intros HS. symmetry. apply (Forall2_length _ _ _ (sh_kept _ _ _ _ HS)). Qed.
Lemma kept_verts_snd (G G' : list keeper) i : snd <$> G = snd <$> G' → kept_verts G i = kept_verts G' i.
Proof. intros Hs. unfold kept_verts, all_kept. by rewrite Hs. Qed.
Lemma kept_verts_app (A B : list keeper) i : kept_verts (A ++ B) i = kept_verts A i ++ kept_verts B i.
Proof. unfold kept_verts, all_kept. by rewrite fmap_app, concat_app, filter_app, fmap_app, concat_app. Qed.
Lemma gverts_app A B i : gverts (A ++ B) i = gverts A i ++ gverts B i.
Proof. unfold gverts, pieces. by rewrite all_nets_app, filter_app, fmap_app, concat_app. Qed.

(** vertices move *)
Lemma shed_rearranged gn (G0 G : list keeper) : distributed gn (fst <$> G0) → rearranged gn (fst <$> G0) (fst <$> G) → snd <$> G = snd <$> G0 → shed gn [] G0 G.
Proof.
  intros HD HR Hs. split.
  - apply HR.
  - apply vkey_idw. apply HR.
  - intros i. rewrite decide_False by set_solver. by eapply rearranged_gverts.
  - intros e' He'. split; [set_solver|]. by apply (ra_nets _ _ _ HR).
  - apply HR.
  - apply HR.
  - assert (Forall2 (λ P0 P : keeper, snd P = snd P0) G0 G) as HF.
    { clear -Hs. revert G Hs. induction G0 as [|P0 G0 IH]; intros [|P G] Hs; try done. csimpl in Hs. injection Hs as H1 H2. constructor; [done|by apply IH]. }
    eapply Forall2_impl; [exact HF|]. intros P0 P HP. exists []. rewrite HP, app_nil_r. split; [done|]. split; [constructor|set_solver].
  - intros i. rewrite decide_False by set_solver. by rewrite app_nil_r, (kept_verts_snd G G0).
Qed.
Lemma shed_refl gn G : distributed gn (fst <$> G) → shed gn [] G G.
Proof. intros HD. apply shed_rearranged; [done|by apply rearranged_refl|done]. Qed.
Lemma shed_nil gn R : shed gn R [] [].
Proof.
  assert (∀ n, n ∈ all_nets [] → False) as Hn by (by intros n ?%elem_of_nil).
  assert (distributed gn []) as HD. { split; [by intros ? ?%elem_of_nil|by intros ? ?%elem_of_nil|apply NoDup_nil; done|by intros n ?%Hn|by intros n n' ?%Hn]. }
  split; [exact HD|done|intros i; by case_decide|by intros n ?%Hn|done|done|constructor|intros i; by case_decide].
Qed.
Lemma shed_trans gn R1 R2 G0 G1 G2 : shed gn R1 G0 G1 → shed gn R2 G1 G2 → shed gn (R1 ++ R2) G0 G2.
Proof.
  intros S1 S2. split.
  - apply S2.
  - by rewrite (sh_idw _ _ _ _ S2), (sh_idw _ _ _ _ S1).
  - intros i. rewrite (sh_gverts _ _ _ _ S2). destruct (decide (i ∈ R2)) as [H2|H2]; [rewrite decide_True by set_solver; done|]. rewrite (sh_gverts _ _ _ _ S1).
    destruct (decide (i ∈ R1)) as [H1|H1]; [rewrite decide_True by set_solver; done|]. rewrite decide_False by set_solver. done.
  - intros e2 (Hn2 & e1 & (Hn1 & e & He & Hid & Hc)%(sh_nets _ _ _ _ S1) & Hid1 & Hc1)%(sh_nets _ _ _ _ S2). split; [rewrite elem_of_app; intros [?|?]; congruence|].
    exists e. split; [done|]. split; congruence.
  - by rewrite (sh_size _ _ _ _ S2), (sh_size _ _ _ _ S1).
  - by rewrite (sh_nz _ _ _ _ S2), (sh_nz _ _ _ _ S1).
  - pose proof (sh_kept _ _ _ _ S1) as K1. pose proof (sh_kept _ _ _ _ S2) as K2. pose proof (sh_nets _ _ _ _ S1) as N1.
    apply Forall2_same_length_lookup. split; [by rewrite (Forall2_length _ _ _ K1), (Forall2_length _ _ _ K2)|]. intros t P0 P2 HP0 HP2.
    destruct (Forall2_lookup_l _ _ _ _ _ K1 HP0) as (P1 & HP1 & a1 & Ha1 & Hnd1 & Hin1). destruct (Forall2_lookup_lr _ _ _ _ _ _ K2 HP1 HP2) as (a2 & Ha2 & Hnd2 & Hin2).
    exists (a1 ++ a2). split; [by rewrite Ha2, Ha1, app_assoc|].
    assert (∀ n, n ∈ a2 → n_id n ∉ R1 ∧ ∃ e, e ∈ all_nets (fst <$> G0) ∧ n_id e = n_id n ∧ n_cost e = n_cost n) as Hin2'.
    { intros n Hn. destruct (Hin2 n Hn) as (_ & e1 & (Hno & e & He & Hid & Hc)%N1 & Hid1 & Hc1). split; [congruence|]. exists e. split; [done|]. split; congruence. }
    split.
    + rewrite fmap_app. apply NoDup_app. split; [done|]. split; [|done]. intros i (n & -> & Hn)%elem_of_list_fmap (m & Hid & Hm)%elem_of_list_fmap.
      destruct (Hin1 n Hn) as [HR1 _]. destruct (Hin2' m Hm) as [HR2 _]. congruence.
    + intros n [Hn|Hn]%elem_of_app.
      * destruct (Hin1 n Hn) as [HR1 ?]. split; [set_solver|done].
      * destruct (Hin2 n Hn) as [HR2 _]. split; [set_solver|]. by apply Hin2'.
  - intros i. rewrite (sh_verts _ _ _ _ S2), (sh_verts _ _ _ _ S1), <-app_assoc. f_equiv. pose proof (sh_gverts _ _ _ _ S1 i) as Hg.
    destruct (decide (i ∈ R1)) as [H1|H1].
    + rewrite (decide_True _ _ (P := i ∈ R1 ++ R2)) by set_solver. destruct (decide (i ∈ R2)); [rewrite Hg|]; by rewrite app_nil_r.
    + destruct (decide (i ∈ R2)) as [H2|H2]; [rewrite decide_True by set_solver; done|rewrite decide_False by set_solver; done].
Qed.
Lemma shed_app gn R A0 B0 A B : distributed gn (fst <$> A0 ++ B0) → shed gn R A0 A → shed gn R B0 B → shed gn R (A0 ++ B0) (A ++ B).
Proof.
  intros HD SA SB. rewrite fmap_app in HD.
  assert (∀ e', e' ∈ all_nets ((fst <$> A) ++ (fst <$> B)) → n_id e' ∉ R ∧ ∃ e, e ∈ all_nets ((fst <$> A0) ++ (fst <$> B0)) ∧ n_id e = n_id e' ∧ n_cost e = n_cost e') as HN.
  { intros e'. rewrite all_nets_app. intros [(Hno & e & He & ?)%(sh_nets _ _ _ _ SA)|(Hno & e & He & ?)%(sh_nets _ _ _ _ SB)]%elem_of_app;
      (split; [done|]); exists e; (split; [rewrite all_nets_app; apply elem_of_app; auto|done]). }
  assert (idw <$> all_verts ((fst <$> A) ++ (fst <$> B)) ≡ₚ idw <$> all_verts ((fst <$> A0) ++ (fst <$> B0))) as HV.
  { by rewrite !all_verts_app, !fmap_app, (sh_idw _ _ _ _ SA), (sh_idw _ _ _ _ SB). }
  split.
  - rewrite fmap_app. split.
    + intros H [HH|HH]%elem_of_app; [by apply (sh_dist _ _ _ _ SA)|by apply (sh_dist _ _ _ _ SB)].
    + intros H [HH|HH]%elem_of_app; [by apply (sh_dist _ _ _ _ SA)|by apply (sh_dist _ _ _ _ SB)].
    + change v_id with (fst ∘ idw). rewrite list_fmap_compose, HV, <-list_fmap_compose. apply HD.
    + intros n (_ & e & He & <- & _)%HN. by apply HD.
    + intros n n' (_ & e & He & Hi & <-)%HN (_ & e' & He' & Hi' & <-)%HN Heq. apply (di_cost _ _ HD); [done..|congruence].
  - by rewrite !fmap_app.
  - intros i. rewrite !fmap_app, !gverts_app, (sh_gverts _ _ _ _ SA), (sh_gverts _ _ _ _ SB). by case_decide.
  - by rewrite !fmap_app.
  - by rewrite !fmap_app, (sh_size _ _ _ _ SA), (sh_size _ _ _ _ SB).
  - by rewrite !fmap_app, (sh_nz _ _ _ _ SA), (sh_nz _ _ _ _ SB).
  - apply Forall2_app; [eapply Forall2_impl; [apply (sh_kept _ _ _ _ SA)|]|eapply Forall2_impl; [apply (sh_kept _ _ _ _ SB)|]];
      intros P0 P (add & Ha & Hnd & Hin); exists add; (split; [done|]); (split; [done|]); intros n Hn; destruct (Hin n Hn) as (HR & e & He & ?); (split; [done|]); exists e;
      (split; [rewrite fmap_app, all_nets_app; apply elem_of_app; auto|done]).
  - intros i. rewrite !kept_verts_app, fmap_app, gverts_app, (sh_verts _ _ _ _ SA), (sh_verts _ _ _ _ SB). case_decide; [|by rewrite !app_nil_r].
    rewrite <-!app_assoc. f_equiv. rewrite !app_assoc. f_equiv. apply Permutation_app_comm.
Qed.
Lemma filter_sublist {A} (P : A → Prop) {HPd : ∀ x, Decision (P x)} (l : list A) : sublist (filter P l) l.
Proof. induction l as [|x l IH]; [done|]. rewrite filter_cons. case_decide; [by apply sublist_skip|by apply sublist_cons]. Qed.
(** nets are taken out *)
Lemma taken_core (R : list Z) (l : list net) i : (λ n, n_verts n) <$> filter (λ n, n_id n = i) (core <$> filter (λ n, n_id n ∈ R) l) =
  if decide (i ∈ R) then n_verts <$> filter (λ n, n_id n = i) l else [].
Proof.
  induction l as [|n l IH]; [by case_decide|]. rewrite !filter_cons. destruct (decide (n_id n ∈ R)) as [Hr|Hr].
  - csimpl. rewrite filter_cons. change (n_id (core n)) with (n_id n). destruct (decide (n_id n = i)) as [Hi|Hi].
    + csimpl. change (n_verts (core n)) with (n_verts n). rewrite IH. rewrite !decide_True by (by rewrite <-Hi). done.
    + rewrite IH. done.
  - rewrite IH. destruct (decide (i ∈ R)) as [HiR|HiR]; [|done]. rewrite decide_False by congruence. done.
Qed.
Lemma shed_taken gn R (G0 G : list keeper) : distributed gn (fst <$> G0) → Forall2 (taken R) G0 G → shed gn R G0 G.
Proof.
  intros HD HF.
  assert (Forall2 (λ P0 P : keeper, (λ v, (v_id v, v_weight v)) <$> h_verts (fst P) = (λ v, (v_id v, v_weight v)) <$> h_verts (fst P0) ∧ consistent (fst P) ∧ h_gnets (fst P) = h_gnets (fst P0) ∧ h_gsize (fst P) = h_gsize (fst P0) ∧
    h_nz (fst P) = h_nz (fst P0)) G0 G) as HF1.
  { eapply Forall2_impl; [exact HF|]. intros P0 P ([N1 N2 N3 N4 N5] & HC & _). split_and!; try done. clear -N2. induction N2 as [|v v' l l' (H1 & H2 & _) _ IH]; [done|]. csimpl. by rewrite IH, H1, H2. }
  assert (∀ n, n ∈ all_nets (fst <$> G) → n_id n ∉ R ∧ n ∈ all_nets (fst <$> G0)) as HN.
  { intros n (H & (P & -> & HP)%elem_of_list_fmap & Hn)%all_nets_elem. apply elem_of_list_lookup in HP as [t HP]. destruct (Forall2_lookup_r _ _ _ _ _ HF HP) as (P0 & HP0 & [N1 N2 N3 N4 N5] & _).
    rewrite N1 in Hn. apply elem_of_list_filter in Hn as [Hno Hn]. split; [done|]. apply all_nets_elem. exists (fst P0). split; [|done]. apply elem_of_list_fmap_1. by eapply elem_of_list_lookup_2. }
  assert (idw <$> all_verts (fst <$> G) = idw <$> all_verts (fst <$> G0)) as HV.
  { unfold all_verts. rewrite !fmap_concat_fmap. f_equal. clear -HF1. induction HF1 as [|P0 P l l' (H1 & _) _ IH]; [done|]. csimpl. rewrite IH. f_equal. exact H1. }
  split.
  - split.
    + intros H (P & -> & [t HP]%elem_of_list_lookup)%elem_of_list_fmap. by destruct (Forall2_lookup_r _ _ _ _ _ HF1 HP) as (P0 & _ & _ & ? & _).
    + intros H (P & -> & [t HP]%elem_of_list_lookup)%elem_of_list_fmap. destruct (Forall2_lookup_r _ _ _ _ _ HF1 HP) as (P0 & HP0 & _ & _ & -> & _). apply (di_gnets _ _ HD), elem_of_list_fmap_1. by eapply elem_of_list_lookup_2.
    + change v_id with (fst ∘ idw). rewrite list_fmap_compose, HV, <-list_fmap_compose. apply HD.
    + intros n [_ Hn]%HN. by apply HD.
    + intros n n' [_ Hn]%HN [_ Hn']%HN. by apply HD.
  - by rewrite HV.
  - intros i. rewrite !gverts_concat. rewrite <-!list_fmap_compose. transitivity (concat ((λ P : keeper, if decide (i ∈ R) then [] else concat (n_verts <$> filter (λ n, n_id n = i) (h_nets (fst P)))) <$> G0)).
    + clear -HF. induction HF as [|P0 P l l' ([N1 _ _ _ _] & _) _ IH]; [done|]. csimpl. rewrite IH. f_equiv. rewrite N1, HgMore.filter_filter. destruct (decide (i ∈ R)) as [Hi|Hi].
      * rewrite filter_none; [done|]. intros n _ [-> Hn]. done.
      * f_equiv. f_equiv. erewrite HgMore.filter_ext; [done|]. intros n _. simpl. split; [by intros [? _]|intros <-; done].
    + case_decide; [|done]. clear. by induction G0.
  - intros e' [Hno Hn]%HN. split; [done|]. eauto.
  - clear -HF1. induction HF1 as [|P0 P l l' (_ & _ & _ & H1 & _) _ IH]; [done|]. csimpl. f_equal; [done|exact IH].
  - clear -HF1. induction HF1 as [|P0 P l l' (_ & _ & _ & _ & H1) _ IH]; [done|]. csimpl. f_equal; [done|exact IH].
  - apply Forall2_same_length_lookup. split; [by eapply Forall2_length|]. intros t P0 P HP0 HP. destruct (Forall2_lookup_lr _ _ _ _ _ _ HF HP0 HP) as (_ & _ & add & Ha & Hadd).
    assert (P0 ∈ G0) as Hin0 by (by eapply elem_of_list_lookup_2). exists add. split; [done|]. split.
    + rewrite Hadd, <-list_fmap_compose. change (n_id ∘ core) with n_id. eapply fmap_NoDup_sublist; [apply fmap_sublist, filter_sublist|]. apply (co_nid (fst P0)), HD. by apply elem_of_list_fmap_1.
    + intros n. rewrite Hadd. intros (e & -> & [HR He]%elem_of_list_filter)%elem_of_list_fmap. split; [done|]. exists e. split; [|done]. apply all_nets_elem. exists (fst P0). split; [|done]. by apply elem_of_list_fmap_1.
  - intros i. rewrite !kept_concat. rewrite gverts_concat, <-list_fmap_compose. clear -HF. induction HF as [|P0 P l l' (_ & _ & add & Ha & Hadd) _ IH]; [by case_decide|].
    csimpl. rewrite IH, Ha, filter_app, fmap_app, concat_app.
    assert (concat (n_verts <$> filter (λ n, n_id n = i) add) ≡ₚ if decide (i ∈ R) then concat (n_verts <$> filter (λ n, n_id n = i) (h_nets (fst P0))) else []) as ->.
    { transitivity (concat (n_verts <$> filter (λ n, n_id n = i) (core <$> filter (λ n, n_id n ∈ R) (h_nets (fst P0))))); [by rewrite Hadd|].
      change (n_verts <$> filter (λ n, n_id n = i) (core <$> filter (λ n, n_id n ∈ R) (h_nets (fst P0)))) with ((λ n, n_verts n) <$> filter (λ n, n_id n = i) (core <$> filter (λ n, n_id n ∈ R) (h_nets (fst P0)))).
      rewrite taken_core. by case_decide. }
    case_decide; [|by rewrite !app_nil_r]. rewrite <-!app_assoc. f_equiv. rewrite !app_assoc. f_equiv. apply Permutation_app_comm.
Qed.
Lemma spread_shed gn R G0 G : spread_pre gn (fst <$> G0) → shed gn R G0 G → spread_pre gn (fst <$> G).
Proof.
  intros [D Gn I W T] HS. pose proof (sh_idw _ _ _ _ HS) as HV.
  assert (∀ v, v ∈ all_verts (fst <$> G) → ∃ u, u ∈ all_verts (fst <$> G0) ∧ v_id u = v_id v ∧ v_weight u = v_weight v) as Hsub.
  { intros v Hv. apply (elem_of_list_fmap_1 idw) in Hv. rewrite HV in Hv. apply elem_of_list_fmap in Hv as (u & [= -> ->] & Hu). eauto. }
  split; [apply HS|done| | |].
  - intros v (u & Hu & <- & _)%Hsub. by apply I.
  - intros v (u & Hu & _ & <-)%Hsub. by apply W.
  - etrans; [|exact T]. unfold gweight. change v_weight with (snd ∘ idw). rewrite !list_fmap_compose. by rewrite HV.
Qed.
(** the state after a whole run *)
Lemma shed_keepers gn R Hs G : distributed gn Hs → shed gn R ((λ H, (H, [])) <$> Hs) G → keepers_ok gn G.
Proof.
  intros HD HS. assert (fst <$> ((λ H : hg, (H, [] : list net)) <$> Hs) = Hs) as Hf by (rewrite <-list_fmap_compose; by apply list_fmap_id).
  assert (∀ i, kept_verts G i ≡ₚ if decide (i ∈ R) then gverts Hs i else []) as Hk.
  { intros i. rewrite (sh_verts _ _ _ _ HS), Hf. assert (kept_verts ((λ H : hg, (H, [])) <$> Hs) i = []) as ->; [|done]. unfold kept_verts, all_kept. rewrite <-list_fmap_compose. clear. by induction Hs. }
  assert (∀ P, P ∈ G → NoDup (n_id <$> snd P) ∧ ∀ n, n ∈ snd P → n_id n ∈ R ∧ ∃ e, e ∈ all_nets Hs ∧ n_id e = n_id n ∧ n_cost e = n_cost n) as HP.
  { intros P [t Ht]%elem_of_list_lookup. destruct (Forall2_lookup_r _ _ _ _ _ (sh_kept _ _ _ _ HS) Ht) as (P0 & HP0 & add & Ha & Hnd & Hin). apply list_lookup_fmap_Some in HP0 as (H & _ & ->).
    cbn [fst snd] in Ha. simpl in Ha. rewrite Ha. rewrite Hf in Hin. done. }
  split.
  - apply HS.
  - intros P HPin. by apply HP.
  - intros n n' [Hno _]%(sh_nets _ _ _ _ HS) (P & HPin & Hn')%all_kept_elem. destruct (HP P HPin) as [_ Hx]. destruct (Hx n' Hn') as [Hr _]. congruence.
  - intros n (P & HPin & Hn)%all_kept_elem. destruct (HP P HPin) as [_ Hx]. destruct (Hx n Hn) as (_ & e & He & <- & _). by apply HD.
  - intros n n' (P & HPin & Hn)%all_kept_elem (P' & HPin' & Hn')%all_kept_elem. destruct (HP P HPin) as [_ Hx]. destruct (HP P' HPin') as [_ Hx'].
    destruct (Hx n Hn) as (_ & e & He & H1 & H2). destruct (Hx' n' Hn') as (_ & e' & He' & H1' & H2'). intros Hid. rewrite <-H2, <-H2'. apply (di_cost _ _ HD); [done..|congruence].
  - intros i. rewrite Hk. case_decide; [by eapply gverts_NoDup|constructor].
  - intros i u. rewrite Hk. case_decide; [|by intros ?%elem_of_nil]. intros Hu. change v_id with (fst ∘ idw). rewrite list_fmap_compose, (sh_idw _ _ _ _ HS), Hf, <-list_fmap_compose. by eapply gverts_ids.
Qed.
Lemma shed_back gn R Hs G i : distributed gn Hs → shed gn R ((λ H, (H, [])) <$> Hs) G → gverts (fst <$> G) i ++ kept_verts G i ≡ₚ gverts Hs i.
Proof.
  intros HD HS. assert (fst <$> ((λ H : hg, (H, [] : list net)) <$> Hs) = Hs) as Hf by (rewrite <-list_fmap_compose; by apply list_fmap_id).
  rewrite (sh_gverts _ _ _ _ HS), (sh_verts _ _ _ _ HS), Hf. assert (kept_verts ((λ H : hg, (H, [])) <$> Hs) i = []) as ->.
  { unfold kept_verts, all_kept. rewrite <-list_fmap_compose. clear. by induction Hs. }
  case_decide; simpl; by rewrite ?app_nil_r.
Qed.
Lemma back_costs gn R Hs G Hs' : shed gn R ((λ H, (H, [])) <$> Hs) G → nets_back G Hs' →
  ∀ n', n' ∈ all_nets Hs' → ∃ n, n ∈ all_nets Hs ∧ n_id n = n_id n' ∧ n_cost n = n_cost n'.
Proof.
  intros Hsh Hb n' Hn'. assert (fst <$> ((λ H, (H, [])) <$> Hs : list keeper) = Hs) as HG. { rewrite <-list_fmap_compose. by apply list_fmap_id. }
  destruct (nb_nets _ _ Hb n' Hn') as (n & [Hn|Hn]%elem_of_app & E1 & E2).
  - destruct (sh_nets _ _ _ _ Hsh n Hn) as (_ & e & He & E3 & E4). rewrite HG in He. exists e. split; [done|]. split; congruence.
  - unfold all_kept in Hn. apply CoarsenProof.elem_of_concat in Hn as (l & Hnl & (P & -> & HP)%elem_of_list_fmap). apply elem_of_list_lookup in HP as [t Ht].
    destruct (Forall2_lookup_r _ _ _ _ _ (sh_kept _ _ _ _ Hsh) Ht) as (P0 & HP0 & add & Hadd & _ & Hin).
    apply list_lookup_fmap_Some in HP0 as (H0 & _ & ->). simpl in Hadd. rewrite Hadd in Hnl. destruct (Hin n Hnl) as (_ & e & He & E3 & E4).
    rewrite HG in He. exists e. split; [done|]. split; congruence.
Qed.
Lemma shed_same gn R Hs G Hs' : distributed gn Hs → shed gn R ((λ H, (H, [])) <$> Hs) G → nets_back G Hs' → same_whole Hs Hs'.
Proof.
  intros HD Hsh Hb. assert (fst <$> ((λ H, (H, [])) <$> Hs : list keeper) = Hs) as HG. { rewrite <-list_fmap_compose. by apply list_fmap_id. }
  pose proof (shed_length _ _ _ _ Hsh) as Hl. rewrite fmap_length in Hl.
  assert (∀ {B} (f : hg → B), (∀ t P H', G !! t = Some P → Hs' !! t = Some H' → f H' = f (fst P)) → f <$> Hs' = f <$> (fst <$> G)) as Hf.
  { intros B f Hx. apply list_eq_same_length with (length G).
    - by rewrite !fmap_length.
    - rewrite fmap_length. apply Hb.
    - intros t x y _ Hx1 Hy. apply list_lookup_fmap_Some in Hx1 as (H' & HH' & ->). apply list_lookup_fmap_Some in Hy as (H & HH & ->).
      apply list_lookup_fmap_Some in HH as (P & HP & ->). by apply (Hx t). }
  split.
  - rewrite (nb_len _ _ Hb). exact Hl.
  - assert ((λ v, (v_id v, v_weight v)) <$> all_verts Hs' = idw <$> all_verts (fst <$> G)) as ->.
    { change idw with (λ v : vertex, (v_id v, v_weight v)). unfold all_verts. rewrite !fmap_concat_fmap. f_equal. apply Hf. intros t P H' HP HH'. destruct (nb_same _ _ Hb t P H' HP HH') as [Hx _].
      change (λ v : vertex, (v_id v, v_weight v)) with ((λ x : Z * Z * Z, fst x) ∘ vertex_but_nets). by rewrite !list_fmap_compose, Hx. }
    etrans; [exact (sh_idw _ _ _ _ Hsh)|]. by rewrite HG.
  - intros i. rewrite (nb_verts _ _ Hb i). by eapply shed_back.
  - by eapply back_costs.
  - rewrite (Hf _ h_gsize), (sh_size _ _ _ _ Hsh), HG; [done|]. intros t P H' HP HH'. by destruct (nb_same _ _ Hb t P H' HP HH') as (_ & ? & _).
  - rewrite (Hf _ h_nz), (sh_nz _ _ _ _ Hsh), HG; [done|]. intros t P H' HP HH'. by destruct (nb_same _ _ Hb t P H' HP HH') as (_ & _ & _ & ?).
Qed.
Lemma back_parts G Hs' (p : Z → Prop) : nets_back G Hs' → (∀ v, v ∈ all_verts (fst <$> G) → p (v_part v)) → ∀ v, v ∈ all_verts Hs' → p (v_part v).
Proof.
  intros Hb Hp v (H' & [t Ht]%elem_of_list_lookup & Hv)%all_verts_elem. destruct (lookup_lt_is_Some_2 G t) as [P HP]; [rewrite <-(nb_len _ _ Hb); by eapply lookup_lt_Some|].
  destruct (nb_same _ _ Hb t P H' HP Ht) as [Hx _]. apply (elem_of_list_fmap_1 vertex_but_nets) in Hv. rewrite Hx in Hv. apply elem_of_list_fmap in Hv as (u & Hu & Hin).
  unfold vertex_but_nets in Hu. injection Hu as _ _ ->. apply Hp, all_verts_elem. exists (fst P). split; [|done]. apply elem_of_list_fmap_1. by eapply elem_of_list_lookup_2.
Qed.
