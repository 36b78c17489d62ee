(** Proofs about parallel coarsening: the coarse hypergraph as a whole. *)
From Verif Require Export CparProof.

Lemma rep_nodup cl c u : NoDup ((fst <$> cl) ++ concat (snd <$> cl)) → c ∈ cl → u = fst c ∨ u ∈ snd c → rep cl u = fst c.
Proof.
  intros Hnd Hc Hu. unfold rep. revert Hc. induction cl as [|c0 cl IH]; intros Hc; [set_solver|].
  csimpl in Hnd. cbn [list_find]. apply NoDup_cons in Hnd as [Hn0 Hnd].
  apply NoDup_app in Hnd as (Hnd1 & Hnd2 & Hnd3). rewrite elem_of_app in Hn0. csimpl in Hnd2. csimpl in Hnd3.
  apply NoDup_app in Hnd3 as (Hnd4 & Hnd5 & Hnd6).
  apply elem_of_cons in Hc as [->|Hc].
  - rewrite decide_True by done. done.
  - rewrite decide_False.
    + specialize (IH ltac:(apply NoDup_app; split_and!; [done|intros x Hx; specialize (Hnd2 x Hx); set_solver|done]) Hc).
      destruct (list_find _ cl) as [[i c1]|]; simpl in *; done.
    + intros Hu0. destruct Hu as [->|Hu].
      * assert (c.1 ∈ cl.*1) as Hin by (by apply elem_of_list_fmap_1).
        destruct Hu0 as [He|Hin2]; [apply Hn0; left; by rewrite <-He|]. specialize (Hnd2 _ Hin). set_solver.
      * assert (u ∈ concat (snd <$> cl)) as Hin.
        { apply CoarsenProof.elem_of_concat. exists (snd c). split; [done|]. by apply elem_of_list_fmap_1. }
        destruct Hu0 as [->|Hin2]; [apply Hn0; right; set_solver|]. by destruct (Hnd5 u).
Qed.
Lemma rep_unmatched cl u : u ∉ concat (snd <$> cl) → rep cl u = u.
Proof.
  intros Hu. unfold rep. destruct (list_find _ cl) as [[i c]|] eqn:Hf; [|done].
  apply list_find_Some in Hf as (Hi & [->|Hin] & _); [done|]. destruct Hu. apply CoarsenProof.elem_of_concat. exists (snd c). split; [done|].
  apply elem_of_list_fmap_1. by eapply elem_of_list_lookup_2.
Qed.

(** the coarse hypergraphs [HCs] come from [Hs] by clusters [cl] *)
Record merged (gn : Z) (Hs : list hg) (cl : list (Z * list Z)) (HCs : list hg) : Prop := {
  me_len : length HCs = length Hs;
  me_local : ∀ HC, HC ∈ HCs → consistent HC ∧ h_gnets HC = gn;
  me_ids : ∀ t H HC, Hs !! t = Some H → HCs !! t = Some HC → v_id <$> h_verts HC = v_id <$> filter (λ v, v_id v ∉ concat (snd <$> cl)) (h_verts H);
  me_part : ∀ c, c ∈ all_verts HCs → v_part c = -1;
  me_weight : ∀ c, c ∈ all_verts HCs → v_weight c = zsum ((λ v, if decide (rep cl (v_id v) = v_id c) then v_weight v else 0) <$> all_verts Hs);
  me_nets : ∀ c n, c ∈ all_verts HCs → n ∈ v_nets c ↔ ∃ v, v ∈ all_verts Hs ∧ rep cl (v_id v) = v_id c ∧ n ∈ v_nets v;
  me_src : ∀ n, n ∈ all_nets HCs → ∃ e, e ∈ all_nets Hs ∧ n_id e = n_id n ∧ n_cost e = n_cost n;
}.

Section whole.
  Context (gn : Z) (Hs : list hg) (HD : distributed gn Hs) (samples : list (list Z)) (S mcs : Z) (accs : list acc_t).
  Context (HS : 0 ≤ S) (Hlen : length samples = length Hs).
  Context (Hsm : ∀ t H sm, Hs !! t = Some H → samples !! t = Some sm → in_range H sm ∧ Z.of_nat (length sm) ≤ S).
  Context (Hsnd : ∀ sm, sm ∈ samples → NoDup sm).
  Context (Hmu : matched_up Hs samples S mcs accs).
  Let cl := concat (acc_clusters <$> accs).
  Let M := all_matched accs.

  Lemma acc_len acc : acc ∈ accs → length (c_matches (fst acc)) = length (c_samples (fst acc)).
  Proof.
    intros [s Hs']%elem_of_list_lookup. destruct (mu_loc _ _ _ _ _ Hmu s acc Hs') as (H & sm & ids & ms & A1 & A2 & A3 & A4 & A5 & _).
    rewrite A4. simpl. apply Forall2_length in A3. lia.
  Qed.
  Lemma cl_fst : fst <$> cl = concat ((λ acc : acc_t, c_samples (fst acc)) <$> accs).
  Proof.
    unfold cl. rewrite fmap_concat, <-list_fmap_compose. f_equal. apply list_fmap_ext. intros i acc Hi. unfold compose, acc_clusters, clusters.
    apply fst_zip. rewrite fmap_length, acc_len; [done|by eapply elem_of_list_lookup_2].
  Qed.
  Lemma cl_snd : concat (snd <$> cl) = M.
  Proof.
    unfold cl, M, all_matched. rewrite fmap_concat, <-list_fmap_compose.
    assert (∀ l : list acc_t, (∀ acc, acc ∈ l → acc ∈ accs) → concat (concat ((fmap snd ∘ acc_clusters) <$> l)) =
      concat ((λ acc : acc_t, fst <$> concat (c_matches (fst acc))) <$> l)) as Hg; [|by apply Hg].
    induction l as [|acc l IH]; intros Hl; [done|]. csimpl. rewrite concat_app, IH by (intros a Ha; apply Hl; set_solver). f_equal.
    unfold compose, acc_clusters, clusters. rewrite snd_zip; [|rewrite fmap_length, acc_len; [done|apply Hl; set_solver]]. by rewrite fmap_concat.
  Qed.
  Lemma sample_ids_vids s H acc : Hs !! s = Some H → accs !! s = Some acc → NoDup (c_samples (fst acc)) ∧ ∀ id, id ∈ c_samples (fst acc) → id ∈ vids H.
  Proof.
    intros HH Hacc. destruct (mu_loc _ _ _ _ _ Hmu s acc Hacc) as (H1 & sm & ids & ms & A1 & A2 & A3 & A4 & A5 & _).
    rewrite HH in A1. injection A1 as <-. rewrite A4. cbn [c_samples]. split.
    - apply NoDup_alt. intros i j id Hi Hj. destruct (Forall2_lookup_r _ _ _ _ _ A3 Hi) as (a & Ha & v & Hv & Hvid).
      destruct (Forall2_lookup_r _ _ _ _ _ A3 Hj) as (b & Hb & u & Hu & Huid). apply zlookup_Some in Hv as [Ha0 Hv], Hu as [Hb0 Hu].
      assert (consistent H) as HC by (apply (di_local _ _ HD); by eapply elem_of_list_lookup_2).
      assert (Z.to_nat a = Z.to_nat b) as Hab.
      { eapply NoDup_lookup; [exact (co_vid _ HC)|by rewrite list_lookup_fmap, Hv|]. rewrite list_lookup_fmap, Hu. simpl. congruence. }
      assert (a = b) as <- by lia. eapply NoDup_lookup; [apply Hsnd; by eapply elem_of_list_lookup_2|exact Ha|exact Hb].
    - intros id [k Hk]%elem_of_list_lookup. destruct (Forall2_lookup_r _ _ _ _ _ A3 Hk) as (i & Hi & v & Hv & <-). apply zlookup_Some in Hv as [_ Hv].
      apply elem_of_list_fmap_1. by eapply elem_of_list_lookup_2.
  Qed.
  Lemma cl_nodup : NoDup ((fst <$> cl) ++ concat (snd <$> cl)).
  Proof.
    rewrite cl_fst, cl_snd. apply NoDup_app. split_and!.
    - eapply submseteq_NoDup; [|exact (di_verts _ _ HD)]. unfold all_verts. rewrite fmap_concat, <-list_fmap_compose. apply submseteq_concat, Forall2_fmap.
      apply Forall2_same_length_lookup. split; [apply (mu_len _ _ _ _ _ Hmu)|]. intros s acc H Hacc HH. destruct (sample_ids_vids s H acc HH Hacc) as [Hnd Hsub].
      by apply NoDup_submseteq.
    - intros id (ids & Hid & (acc & -> & [s Hs']%elem_of_list_lookup)%elem_of_list_fmap)%CoarsenProof.elem_of_concat.
      destruct (mu_loc _ _ _ _ _ Hmu s acc Hs') as (H & sm & ids & ms & A1 & A2 & _).
      by apply (sample_unmatched gn Hs HD samples S mcs accs Hlen Hsm Hmu s H sm acc id A1 A2 Hs').
    - apply (mu_nodup _ _ _ _ _ Hmu).
  Qed.
  Lemma M_vids m : m ∈ M → m ∈ v_id <$> all_verts Hs.
  Proof.
    intros (s & acc & k & l & t & A1 & A2 & A3)%all_matched_elem.
    destruct (acc_good Hs samples S mcs accs Hsm Hmu s acc k l m t A1 A2 A3) as (t' & H & _ & _ & HH & Hin & _).
    apply elem_of_list_fmap in Hin as (v & -> & Hv). apply elem_of_list_fmap_1, all_verts_elem. exists H. split; [by eapply elem_of_list_lookup_2|done].
  Qed.
  Lemma verts_split : all_verts Hs ≡ₚ filter (λ v, v_id v ∉ M) (all_verts Hs) ++ (vert_of Hs <$> M).
  Proof.
    pose proof (di_verts _ _ HD) as Hnd.
    assert (NoDup (all_verts Hs)) as Hndv by (by eapply NoDup_fmap_1).
    assert (NoDup (vert_of Hs <$> M)) as HndM.
    { apply (NoDup_fmap_1 v_id). rewrite <-list_fmap_compose. rewrite (list_fmap_ext _ id M); [rewrite list_fmap_id; apply (mu_nodup _ _ _ _ _ Hmu)|].
      intros i m Hm. simpl. apply vert_of_vid, M_vids. by eapply elem_of_list_lookup_2. }
    apply NoDup_Permutation; [done| |].
    - apply NoDup_app. split_and!; [by apply NoDup_filter| |done]. intros v [Hv _]%elem_of_list_filter (m & -> & Hm)%elem_of_list_fmap.
      apply Hv. destruct (vert_of_vid Hs m (M_vids m Hm)) as [_ ->]. done.
    - intros v. rewrite elem_of_app, elem_of_list_filter, elem_of_list_fmap. split.
      + intros Hv. destruct (decide (v_id v ∈ M)) as [Hm|Hm]; [right|by left]. exists (v_id v). split; [symmetry; by apply (vert_of_elem gn)|done].
      + intros [[_ Hv]|(m & -> & Hm)]; [done|]. by apply vert_of_vid, M_vids.
  Qed.
  (** clusters of a sample that is on processor [t] *)
  Lemma cluster_local t H acc c : Hs !! t = Some H → accs !! t = Some acc → c ∈ cl → fst c ∈ vids H → c ∈ acc_clusters acc.
  Proof.
    intros HH Hacc (l & Hc & (acc2 & -> & [s Hs']%elem_of_list_lookup)%elem_of_list_fmap)%CoarsenProof.elem_of_concat Hin.
    destruct (mu_loc _ _ _ _ _ Hmu s acc2 Hs') as (H2 & sm & ids & ms & A1 & A2 & _).
    destruct (sample_ids_vids s H2 acc2 A1 Hs') as [_ Hsub].
    assert (fst c ∈ c_samples (fst acc2)) as Hfc.
    { unfold acc_clusters, clusters in Hc. destruct c as [a b]. by apply elem_of_zip_l in Hc. }
    assert (t = s) as <-; [|rewrite Hacc in Hs'; by injection Hs' as ->].
    eapply (same_processor gn Hs); [done|exact HH|exact A1|exact Hin|by apply Hsub].
  Qed.
  Lemma acc_in_cl acc c : acc ∈ accs → c ∈ acc_clusters acc → c ∈ cl.
  Proof. intros Ha Hc. apply CoarsenProof.elem_of_concat. exists (acc_clusters acc). split; [done|]. by apply elem_of_list_fmap_1. Qed.

  Lemma merged_intro HCs size : length HCs = length Hs →
    (∀ t H acc HC, Hs !! t = Some H → accs !! t = Some acc → HCs !! t = Some HC → coarse_at gn Hs M acc size H HC) →
    merged gn Hs cl HCs.
  Proof.
    intros HlC Hca. pose proof cl_nodup as Hnd. pose proof (mu_len _ _ _ _ _ Hmu) as La.
    assert (∀ HC, HC ∈ HCs → ∃ t H acc, Hs !! t = Some H ∧ accs !! t = Some acc ∧ HCs !! t = Some HC ∧ coarse_at gn Hs M acc size H HC) as Hat.
    { intros HC [t Ht]%elem_of_list_lookup. pose proof (lookup_lt_Some _ _ _ Ht) as Hlt. destruct (lookup_lt_is_Some_2 Hs t) as [H HH]; [lia|].
      destruct (lookup_lt_is_Some_2 accs t) as [acc Hacc]; [lia|]. exists t, H, acc. split_and!; try done. by eapply Hca. }
    assert (∀ v, v ∈ all_verts Hs → v_id v ∉ M → rep cl (v_id v) = v_id v) as Hrep.
    { intros v _ Hv. apply rep_unmatched. by rewrite cl_snd. }
    assert (∀ c, c ∈ all_verts HCs → ∃ t H acc v, Hs !! t = Some H ∧ accs !! t = Some acc ∧ v ∈ h_verts H ∧ v ∈ all_verts Hs ∧ v_id v ∉ M ∧ v_id c = v_id v ∧ v_part c = -1 ∧
      v_weight c = v_weight v + zsum ((λ cl : Z * list Z, if decide (fst cl = v_id v) then zsum ((λ m, v_weight (vert_of Hs m)) <$> snd cl) else 0) <$> acc_clusters acc) ∧
      ∀ n, n ∈ v_nets c ↔ n ∈ v_nets v ∨ ∃ cl m, cl ∈ acc_clusters acc ∧ fst cl = v_id v ∧ m ∈ snd cl ∧ n ∈ v_nets (vert_of Hs m)) as Hcv.
    { intros c (HC & HHC & Hc)%all_verts_elem. destruct (Hat HC HHC) as (t & H & acc & HH & Hacc & _ & Hx). destruct (ca_verts _ _ _ _ _ _ _ Hx c Hc) as (v & Hv & B).
      exists t, H, acc, v. split_and!; try done; try apply B. apply all_verts_elem. exists H. split; [by eapply elem_of_list_lookup_2|done]. }
    split.
    - done.
    - intros HC HHC. destruct (Hat HC HHC) as (t & H & acc & HH & Hacc & _ & Hx). split; [apply (ca_cons _ _ _ _ _ _ _ Hx)|apply (ca_gnets _ _ _ _ _ _ _ Hx)].
    - intros t H HC HH HHC. rewrite cl_snd. destruct (lookup_lt_is_Some_2 accs t) as [acc Hacc]; [rewrite La; by eapply lookup_lt_Some|].
      apply (ca_ids _ _ _ _ _ _ _ (Hca t H acc HC HH Hacc HHC)).
    - intros c Hc. destruct (Hcv c Hc) as (t & H & acc & v & _ & _ & _ & _ & _ & _ & ? & _). done.
    - intros c Hc. destruct (Hcv c Hc) as (t & H & acc & v & HH & Hacc & HvH & Hv & HvM & Hid & _ & Hw & _). rewrite Hid, Hw.
      rewrite (zsum_perm ((λ v0, if decide (rep cl (v_id v0) = v_id v) then v_weight v0 else 0) <$> all_verts Hs) ((λ v0, if decide (rep cl (v_id v0) = v_id v) then v_weight v0 else 0) <$> (filter (λ v, v_id v ∉ M) (all_verts Hs) ++ (vert_of Hs <$> M)))) by (apply fmap_Permutation; exact verts_split).
      rewrite fmap_app, zsum_app. f_equal.
      + rewrite (zsum_single _ _ v).
        * rewrite decide_True by (by apply Hrep). done.
        * apply NoDup_filter. eapply NoDup_fmap_1, (di_verts _ _ HD).
        * by apply elem_of_list_filter.
        * intros u [HuM Hu]%elem_of_list_filter Hne. rewrite Hrep by done. rewrite decide_False; [done|]. intros He. apply Hne.
          rewrite <-(vert_of_elem gn Hs u HD Hu), He. by apply (vert_of_elem gn).
      + rewrite <-cl_snd, fmap_concat, zsum_concat, <-!list_fmap_compose. unfold cl. rewrite zsum_concat, <-list_fmap_compose. symmetry.
        assert (∀ c, c ∈ cl → zsum ((λ v0, if decide (rep cl (v_id v0) = v_id v) then v_weight v0 else 0) <$> (vert_of Hs <$> snd c)) =
          if decide (fst c = v_id v) then zsum ((λ m, v_weight (vert_of Hs m)) <$> snd c) else 0) as Hc1.
        { intros c0 Hc0. rewrite <-list_fmap_compose. 
          assert (∀ m, m ∈ snd c0 → rep cl (v_id (vert_of Hs m)) = fst c0) as Hm.
          { intros m Hm. assert (m ∈ M) as HmM by (rewrite <-cl_snd; apply CoarsenProof.elem_of_concat; exists (snd c0); split; [done|by apply elem_of_list_fmap_1]).
            destruct (vert_of_vid Hs m (M_vids m HmM)) as [_ ->]. apply rep_nodup; [done|done|by right]. }
          case_decide as Hd.
          - apply zsum_fmap_ext. intros m Hmm. simpl. rewrite Hm by done. by rewrite decide_True.
          - apply zsum_fmap_zero. intros m Hmm. simpl. rewrite Hm by done. by rewrite decide_False. }
        rewrite (zsum_index _ accs t acc Hacc).
        * simpl. apply zsum_fmap_ext. intros c0 Hc0. apply Hc1. eapply acc_in_cl; [|done]. by eapply elem_of_list_lookup_2.
        * intros s acc2 Hs' Hne. simpl. apply zsum_fmap_zero. intros c0 Hc0. simpl.
          assert (acc2 ∈ accs) as Ha2 by (by eapply elem_of_list_lookup_2). pose proof (Hc1 c0 (acc_in_cl acc2 c0 Ha2 Hc0)) as Hx. refine (eq_trans Hx _).
          rewrite decide_False; [done|]. intros He. apply Hne.
          destruct (mu_loc _ _ _ _ _ Hmu s acc2 Hs') as (H2 & sm & ids & ms & A1 & A2 & _). destruct (sample_ids_vids s H2 acc2 A1 Hs') as [_ Hsub].
          eapply (same_processor gn Hs); [done|exact A1|exact HH| |apply elem_of_list_fmap_1; exact HvH]. rewrite <-He. apply Hsub.
          unfold acc_clusters, clusters in Hc0. destruct c0 as [a b]. by apply elem_of_zip_l in Hc0.
    - intros c n Hc. destruct (Hcv c Hc) as (t & H & acc & v & HH & Hacc & HvH & Hv & HvM & Hid & _ & _ & Hn). rewrite Hn, Hid. split.
      + intros [Hnv|(c0 & m & Hc0 & Hf & Hm & Hnm)]; [exists v; split_and!; [done|by apply Hrep|done]|].
        assert (c0 ∈ cl) as Hcl by (eapply acc_in_cl; [|done]; by eapply elem_of_list_lookup_2).
        assert (m ∈ M) as HmM by (rewrite <-cl_snd; apply CoarsenProof.elem_of_concat; exists (snd c0); split; [done|by apply elem_of_list_fmap_1]).
        destruct (vert_of_vid Hs m (M_vids m HmM)) as [Hin He]. exists (vert_of Hs m). split_and!; try done. rewrite He, <-Hf. apply rep_nodup; [done|done|by right].
      + intros (u & Hu & Hr & Hnu). destruct (decide (v_id u ∈ M)) as [HuM|HuM].
        * right. rewrite <-cl_snd in HuM. apply CoarsenProof.elem_of_concat in HuM as (l & Hul & (c0 & -> & Hc0)%elem_of_list_fmap).
          rewrite (rep_nodup cl c0) in Hr; [|done|done|by right]. exists c0, (v_id u). split_and!; [|done|done|by rewrite (vert_of_elem gn)].
          eapply cluster_local; [exact HH|exact Hacc|done|]. rewrite Hr. by apply elem_of_list_fmap_1.
        * left. rewrite Hrep in Hr by done. assert (u = v) as ->; [|done]. rewrite <-(vert_of_elem gn Hs u HD Hu), Hr. by apply (vert_of_elem gn).
    - intros n (HC & HHC & Hn)%all_nets_elem. destruct (Hat HC HHC) as (t & H & acc & HH & Hacc & _ & Hx). by apply (ca_nets _ _ _ _ _ _ _ Hx).
  Qed.
End whole.
