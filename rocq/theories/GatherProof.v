(** The coarsest hypergraph is copied to all processors, and the best labels are shared. *)
From Verif Require Export UparProof SpecBpar.

(** ** messages to everyone else *)
Definition to_others {X Y} (f : X → Y) (p s : nat) (xs : list X) : list (Z * Y) :=
  concat ((λ x, (λ t, (Z.of_nat t, f x)) <$> seq 0 s ++ seq (S s) (p - S s)) <$> xs).
Definition others {X} (t : nat) (xss : list (list X)) : list X := concat (imap (λ s xs, if decide (s = t) then [] else xs) xss).

Lemma filter_is (t : nat) l : NoDup l → filter (λ x, x = t) l = if decide (t ∈ l) then [t] else [].
Proof.
  induction l as [|y l IH]; intros Hnd; [done|]. apply NoDup_cons in Hnd as [Hy Hnd]. rewrite filter_cons, IH by done.
  destruct (decide (y = t)) as [->|Hne].
  - rewrite (decide_False (P := t ∈ l)) by done. by rewrite decide_True by set_solver.
  - destruct (decide (t ∈ l)); [rewrite decide_True by set_solver|rewrite decide_False by set_solver]; done.
Qed.
Lemma to_others_box {X Y} (f : X → Y) p s t xs : (t < p)%nat → (s < p)%nat →
  snd <$> filter (λ m : Z * Y, fst m = Z.of_nat t) (to_others f p s xs) = if decide (s = t) then [] else f <$> xs.
Proof.
  intros Ht Hs. unfold to_others. induction xs as [|x xs IH]; [by case_decide|]. csimpl. rewrite filter_app, fmap_app, IH. clear IH.
  set (l := seq 0 s ++ seq (S s) (p - S s)).
  assert (NoDup l) as Hnd.
  { apply NoDup_app. split; [apply NoDup_seq|]. split; [|apply NoDup_seq]. intros y Hy%elem_of_seq Hy'%elem_of_seq. lia. }
  assert (snd <$> filter (λ m : Z * Y, fst m = Z.of_nat t) ((λ t, (Z.of_nat t, f x)) <$> l) = (λ _, f x) <$> filter (λ y, y = t) l) as ->.
  { clear. induction l as [|y l IH]; [done|]. rewrite fmap_cons, !filter_cons. cbn [fst]. destruct (decide (y = t)) as [->|Hne].
    - rewrite decide_True by done. csimpl. by rewrite IH.
    - rewrite decide_False by lia. done. }
  rewrite filter_is by done. destruct (decide (s = t)) as [->|Hne].
  - rewrite decide_False; [done|]. unfold l. rewrite elem_of_app, !elem_of_seq. lia.
  - rewrite decide_True; [done|]. unfold l. rewrite elem_of_app, !elem_of_seq. lia.
Qed.
Lemma to_others_dest {X Y} (f : X → Y) p s xs m : (s < p)%nat → m ∈ to_others f p s xs → 0 ≤ fst m < Z.of_nat p.
Proof.
  intros Hs (l & Hm & (x & -> & _)%elem_of_list_fmap)%elem_of_concat. apply elem_of_list_fmap in Hm as (t & -> & Ht). simpl.
  rewrite elem_of_app, !elem_of_seq in Ht. lia.
Qed.
Lemma others_boxes {X Y} (f : X → Y) p t xss : (t < p)%nat → length xss = p →
  snd <$> filter (λ m : Z * Y, fst m = Z.of_nat t) (concat (imap (λ s xs, to_others f p s xs) xss)) = f <$> others t xss.
Proof.
  intros Ht Hl. unfold others.
  assert (∀ k, (k + length xss ≤ p)%nat → snd <$> filter (λ m : Z * Y, fst m = Z.of_nat t) (concat (imap (λ s xs, to_others f p (k + s) xs) xss)) =
    f <$> concat (imap (λ s xs, if decide ((k + s)%nat = t) then [] else xs) xss)) as Hgen.
  { clear Hl. induction xss as [|xs xss IH]; intros k Hk; [done|]. simpl in Hk. rewrite !imap_cons. simpl. rewrite filter_app, !fmap_app. f_equal.
    - rewrite to_others_box by lia. by case_decide.
    - rewrite (imap_ext _ (λ s, to_others f p (S k + s))) by (intros; simpl; f_equal; lia).
      rewrite (imap_ext (_ ∘ S) (λ s xs, if decide ((S k + s)%nat = t) then [] else xs)); [apply IH; lia|].
      intros i x _. simpl. replace (k + S i)%nat with (S (k + i)) by lia. done. }
  apply (Hgen 0%nat). simpl. lia.
Qed.
Lemma others_perm {X} t (xss : list (list X)) xs : xss !! t = Some xs → xs ++ others t xss ≡ₚ concat xss.
Proof.
  revert t; induction xss as [|ys xss IH]; intros [|t] Ht; [done..| |].
  - injection Ht as ->. unfold others. rewrite imap_cons. cbn [concat]. rewrite decide_True by done. simpl. f_equiv. f_equiv.
    rewrite (imap_ext _ (λ _ (xs : list X), xs)) by done. clear. induction xss as [|x l IH]; [done|]. rewrite imap_cons. simpl. apply Permutation_skip. apply IH.
  - simpl in Ht. unfold others. rewrite imap_cons. cbn [concat]. rewrite decide_False by done.
    rewrite (imap_ext _ (λ s (xs : list X), if decide (s = t) then [] else xs)).
    + fold (others t xss). simpl. rewrite <-(IH t Ht). solve_Permutation.
    + intros i x _. simpl. destruct (decide (i = t)) as [->|]; [by rewrite decide_True|by rewrite decide_False by lia].
Qed.

(** ** gathering *)
Record gathered_from (H : hg) (nb : list (Z * Z)) (vb : list (Z * (Z * list Z))) (G : hg) : Prop := {
  gf_cons : consistent G;
  gf_verts : h_verts G = h_verts H ++ ((λ m, Vertex (fst m) (snd (snd m)) (fst (snd m)) (-1)) <$> vb);
  gf_nids : ∀ id, id ∈ nids G ↔ id ∈ nids H ∨ id ∈ fst <$> nb;
  gf_cost : ∀ n, n ∈ h_nets G → n_cost n = 1 ∨ (n_id n, n_cost n) ∈ nb;
  gf_gsize : h_gsize G = h_gsize H;
  gf_gnets : h_gnets G = h_gnets H;
  gf_dups : h_dups G = [];
  gf_size : ∀ n, n ∈ h_nets G → (∃ n0, n0 ∈ h_nets H ∧ n_id n0 = n_id n ∧ n_gsize n0 = n_gsize n) ∨ n_id n ∉ nids H ∧ n_gsize n = 0;
}.
Lemma add_empty_net_consistent K id c : consistent K → consistent (add_net K id [] c).
Proof.
  intros HC. unfold add_net. destruct (h_nmap K !! id) as [i|] eqn:Hid; [done|].
  assert (id ∉ nids K) as Hnew.
  { intros (n & Hn & Heq)%nids_elem. apply elem_of_list_lookup in Hn as [j Hj]. pose proof (proj2 (co_nmap _ HC id j)) as Hl. rewrite Hid in Hl. by discriminate Hl; eauto. }
  apply consistent_intro.
  - apply (co_vmap_ok _ HC).
  - unfold nmap_ok, nids. simpl. rewrite fmap_app. simpl. rewrite <-(fmap_length n_id). apply ids_ok_snoc; [by apply co_nmap_ok|done].
  - apply (co_vnets _ HC).
  - simpl. intros n [Hn| ->%elem_of_list_singleton]%elem_of_app; [by apply (co_nverts _ HC)|by apply NoDup_nil].
  - simpl. intros v nid Hv Hnid. destruct (co_inc1 _ HC v nid Hv Hnid) as (n & Hn & ? & ?). exists n. set_solver.
  - simpl. intros n vid [Hn| ->%elem_of_list_singleton]%elem_of_app Hvid; [by apply (co_inc2 _ HC)|]. simpl in Hvid. set_solver.
Qed.
Lemma wpe_gather_add E H nb vb (Q : hg → Prop) : consistent H → NoDup (vids H ++ (fst <$> vb)) →
  (∀ m, m ∈ vb → NoDup (snd (snd m)) ∧ ∀ nid, nid ∈ snd (snd m) → nid ∈ nids H ∨ nid ∈ fst <$> nb) →
  (∀ G, gathered_from H nb vb G → Q G) → wpe E (gather_add H nb vb) Q.
Proof.
  intros HC Hnd Hvb HQ. unfold gather_add. apply wpe_bind, wpe_copy_hg; [done|]. fold (copied H).
  assert (∀ ns, gathered_from H ns [] (foldl (λ K m, add_net K (fst m) [] (snd m)) (copied H) ns)) as HK.
  { clear -HC. induction ns as [|m ns IH] using rev_ind.
    - simpl. split; try done.
      + by apply copied_consistent.
      + simpl. by rewrite app_nil_r.
      + intros id. unfold nids. simpl. rewrite <-list_fmap_compose. split; [by left|]. intros [?|?]; [done|set_solver].
      + simpl. intros n (n0 & -> & _)%elem_of_list_fmap. by left.
      + simpl. intros n (n0 & -> & ?)%elem_of_list_fmap. left. by exists n0.
    - rewrite foldl_app. cbn [foldl]. set (K := foldl _ _ ns) in *. destruct IH as [I1 I2 I3 I4 I5 I6 I7 I8].
      assert (consistent (add_net K (fst m) [] (snd m))) as HCa by (by apply add_empty_net_consistent).
      unfold add_net in *. destruct (h_nmap K !! fst m) as [i|] eqn:Hm.
      + split; try done.
        * intros id. rewrite I3, fmap_app. csimpl. split; [set_solver|]. intros [?|[?|Hid%elem_of_list_singleton]%elem_of_app]; [auto..|]. subst id.
          apply I3. apply (co_nmap _ I1) in Hm as (n & Hn & <-). apply nids_elem. exists n. split; [by eapply elem_of_list_lookup_2|done].
        * intros n Hn. destruct (I4 n Hn); [by left|right; set_solver].
      + split; try done.
        * intros id. unfold nids. simpl. rewrite !fmap_app, !elem_of_app. csimpl. rewrite !elem_of_list_singleton. unfold nids in I3. rewrite I3. tauto.
        * simpl. intros n [Hn| ->%elem_of_list_singleton]%elem_of_app; [destruct (I4 n Hn); [by left|right; set_solver]|right; simpl; destruct m; set_solver].
        * simpl. intros n [Hn| ->%elem_of_list_singleton]%elem_of_app; [by apply I8|]. right. split; [|done]. cbn [n_id]. intros Hin.
          assert (fst m ∈ nids K) as (n & Hn & Hid)%nids_elem by (apply I3; by left). apply elem_of_list_lookup in Hn as [j Hj].
          pose proof (proj2 (co_nmap _ I1 (fst m) j)) as Hl. rewrite Hm in Hl. discriminate Hl. by exists n. }
  set (K1 := foldl _ _ nb). specialize (HK nb). fold K1 in HK. clearbody K1.
  apply (wpe_foldM _ _ (λ ds K, gathered_from H nb ds K)); [done| |done].
  intros ds m ts K Heq HG. destruct (Hvb m) as [Hn1 Hn2]; [rewrite Heq; set_solver|].
  assert (fst m ∉ vids K) as Hnew.
  { unfold vids. rewrite (gf_verts _ _ _ _ HG), fmap_app, <-list_fmap_compose. rewrite Heq, fmap_app, app_assoc in Hnd. apply NoDup_app in Hnd as (_ & Hd & _).
    intros Hin. apply (Hd (fst m)); [exact Hin|]. csimpl. by left. }
  assert (∀ nid, nid ∈ snd (snd m) → nid ∈ nids K) as Hns by (intros nid Hnid; apply (gf_nids _ _ _ _ HG); by apply Hn2).
  apply wpe_add_to_nets.
  - exact (co_nmap_ok _ (gf_cons _ _ _ _ HG)).
  - done.
  - exact Hns.
  - cbn [v_nets v_id]. split.
    + exact (add_vertex_consistent K (fst m) (snd (snd m)) (fst (snd m)) (gf_cons _ _ _ _ HG) Hnew Hn1 Hns).
    + simpl. rewrite (gf_verts _ _ _ _ HG), fmap_app, app_assoc. done.
    + intros id. rewrite <-(gf_nids _ _ _ _ HG). unfold nids. simpl. rewrite <-list_fmap_compose.
      erewrite list_fmap_ext; [done|]. intros i n _. simpl. by case_decide.
    + simpl. intros n (n0 & -> & Hn0)%elem_of_list_fmap. pose proof (gf_cost _ _ _ _ HG n0 Hn0) as Hc. case_decide; exact Hc.
    + apply HG.
    + apply HG.
    + apply HG.
    + simpl. intros n (n0 & -> & Hn0)%elem_of_list_fmap. pose proof (gf_size _ _ _ _ HG n0 Hn0) as Hc. case_decide; exact Hc.
Qed.

Lemma wpe_gather E gn Hs (Q : list hg → Prop) : distributed gn Hs →
  (∀ Gs, length Gs = length Hs → (∀ t G, Gs !! t = Some G → whole_copy Hs G ∧ ∃ H, Hs !! t = Some H ∧ h_gsize G = h_gsize H ∧ h_gnets G = h_gnets H ∧
     ∀ n, n ∈ h_nets G → (∃ n0, n0 ∈ h_nets H ∧ n_id n0 = n_id n ∧ n_gsize n0 = n_gsize n) ∨ n_id n ∉ nids H ∧ n_gsize n = 0) → Q Gs) →
  wpe E (gather Hs) Q.
Proof.
  intros HD HQ. unfold gather. set (p := length Hs).
  set (fv := λ v : vertex, (v_id v, (v_weight v, v_nets v))). set (fn := λ n : net, (n_id n, n_cost n)).
  assert (imap (λ s H, gather_send_verts p s H) Hs = imap (λ s xs, to_others fv p s xs) (h_verts <$> Hs)) as -> by (rewrite imap_fmap; done).
  assert (imap (λ s H, gather_send_nets p s H) Hs = imap (λ s xs, to_others fn p s xs) (h_nets <$> Hs)) as -> by (rewrite imap_fmap; done).
  assert (∀ {X Y} (f : X → Y) (xss : list (list X)) m, length xss = p → m ∈ concat (imap (λ s xs, to_others f p s xs) xss) → 0 ≤ fst m < Z.of_nat p) as Hdest.
  { intros X Y f xss m Hl (l & Hm & Hl')%elem_of_concat. apply elem_of_lookup_imap in Hl' as (s & xs & -> & Hs'). eapply to_others_dest; [|exact Hm].
    rewrite <-Hl. by eapply lookup_lt_Some. }
  apply wpe_bind, wpe_exchange.
  { intros m Hm. rewrite imap_length, fmap_length. apply (Hdest _ _ fv (h_verts <$> Hs)); [by rewrite fmap_length|done]. }
  rewrite imap_length, fmap_length. intros vbs Hlv Hvb.
  apply wpe_bind, wpe_exchange.
  { intros m Hm. rewrite imap_length, fmap_length. apply (Hdest _ _ fn (h_nets <$> Hs)); [by rewrite fmap_length|done]. }
  rewrite imap_length, fmap_length. intros nbs Hln Hnb. fold p in Hlv, Hln.
  eapply (wpe_ranks _ _ _ (λ t G, whole_copy Hs G ∧ ∃ H, Hs !! t = Some H ∧ h_gsize G = h_gsize H ∧ h_gnets G = h_gnets H ∧
     ∀ n, n ∈ h_nets G → (∃ n0, n0 ∈ h_nets H ∧ n_id n0 = n_id n ∧ n_gsize n0 = n_gsize n) ∨ n_id n ∉ nids H ∧ n_gsize n = 0)); [|by apply HQ].
  intros t Ht. destruct (lookup_lt_is_Some_2 Hs t Ht) as [H HH]. destruct (lookup_lt_is_Some_2 vbs t ltac:(lia)) as [vb Hvt]. destruct (lookup_lt_is_Some_2 nbs t ltac:(lia)) as [nb Hnt].
  apply wpe_bind. eapply wpe_nidx; [exact HH|]. apply wpe_bind. eapply wpe_nidx; [exact Hnt|]. apply wpe_bind. eapply wpe_nidx; [exact Hvt|].
  specialize (Hvb t vb Hvt). rewrite others_boxes in Hvb by (done || by rewrite fmap_length).
  specialize (Hnb t nb Hnt). rewrite others_boxes in Hnb by (done || by rewrite fmap_length).
  assert (h_verts H ++ others t (h_verts <$> Hs) ≡ₚ all_verts Hs) as Hov by (apply others_perm; by rewrite list_lookup_fmap, HH).
  assert (h_nets H ++ others t (h_nets <$> Hs) ≡ₚ all_nets Hs) as Hon by (apply others_perm; by rewrite list_lookup_fmap, HH).
  set (ov := others t (h_verts <$> Hs)) in *. set (on := others t (h_nets <$> Hs)) in *.
  assert (consistent H) as HCH by (apply (di_local _ _ HD); by eapply elem_of_list_lookup_2).
  assert (∀ id, id ∈ nids H ∨ id ∈ fst <$> nb ↔ id ∈ n_id <$> all_nets Hs) as Hids.
  { intros id. rewrite Hnb, <-list_fmap_compose. change (fst ∘ fn) with n_id. rewrite <-Hon, fmap_app, elem_of_app. done. }
  assert (∀ v nid, v ∈ all_verts Hs → nid ∈ v_nets v → nid ∈ n_id <$> all_nets Hs) as Hvn.
  { intros v nid (H' & HH' & Hv)%all_verts_elem Hnid. destruct (co_inc1 _ (di_local _ _ HD H' HH') v nid Hv Hnid) as (n & Hn & <- & _).
    apply elem_of_list_fmap_1, all_nets_elem. eauto. }
  assert (∀ m, m ∈ vb → ∃ v, v ∈ all_verts Hs ∧ m = fv v) as Hvm.
  { intros m Hm. rewrite Hvb in Hm. apply elem_of_list_fmap in Hm as (v & -> & Hv). exists v. split; [|done]. rewrite <-Hov. set_solver. }
  apply wpe_gather_add.
  - done.
  - rewrite Hvb, <-list_fmap_compose. change (fst ∘ fv) with v_id. unfold vids. rewrite <-fmap_app, Hov. apply (di_verts _ _ HD).
  - intros m (v & Hv & ->)%Hvm. cbn [fv fst snd]. split.
    + apply all_verts_elem in Hv as (H' & HH' & Hv). by apply (co_vnets _ (di_local _ _ HD H' HH')).
    + intros nid Hnid. apply Hids. by eapply Hvn.
  - intros G [G1 G2 G3 G4 G5 G6 G7 G8]. split; [|by exists H].
    assert ((λ v, (v_id v, v_weight v, v_nets v)) <$> h_verts G ≡ₚ (λ v, (v_id v, v_weight v, v_nets v)) <$> all_verts Hs) as Hvs.
    { rewrite G2, <-Hov, !fmap_app. f_equiv. rewrite <-list_fmap_compose, Hvb, <-list_fmap_compose. done. }
    split; [done|done| | | |done].
    + intros id. rewrite <-Hids. apply G3.
    + intros n Hn. apply NoDup_Permutation; [by apply (co_nverts _ G1)|by apply (gverts_NoDup gn)|]. intros u. rewrite (gverts_vert gn) by done. split.
      * intros Hu. destruct (co_inc2 _ G1 n u Hn Hu) as (v & Hv & <- & Hnv).
        assert ((v_id v, v_weight v, v_nets v) ∈ (λ v, (v_id v, v_weight v, v_nets v)) <$> all_verts Hs) as Hin by (rewrite <-Hvs; by apply (elem_of_list_fmap_1 (λ v, (v_id v, v_weight v, v_nets v)))).
        apply elem_of_list_fmap in Hin as (x & [= E1 E2 E3] & Hx). exists x. rewrite <-E1, <-E3. done.
      * intros (v & Hv & <- & Hnv).
        assert ((v_id v, v_weight v, v_nets v) ∈ (λ v, (v_id v, v_weight v, v_nets v)) <$> h_verts G) as Hin by (rewrite Hvs; by apply (elem_of_list_fmap_1 (λ v, (v_id v, v_weight v, v_nets v)))).
        apply elem_of_list_fmap in Hin as (x & [= E1 E2 E3] & Hx). rewrite E1. rewrite E3 in Hnv.
        destruct (co_inc1 _ G1 x (n_id n) Hx Hnv) as (n' & Hn' & Heq & Hin). assert (n' = n) as ->; [|done].
        by eapply (NoDup_fmap_elem n_id (h_nets G)); [apply (co_nid _ G1)|..].
    + intros n Hn. destruct (G4 n Hn) as [?|Hc]; [by left|right]. rewrite Hnb in Hc. apply elem_of_list_fmap in Hc as (x & [= E1 E2] & Hx). rewrite E1, E2.
      symmetry. apply (gcost_elem gn); [done|]. rewrite <-Hon. set_solver.
Qed.

Lemma zsum_sub {A} `{EqDecision A} (F : A → Z) l k : NoDup l → NoDup k → k ⊆ l → (∀ x, x ∈ l → x ∉ k → F x = 0) → zsum (F <$> l) = zsum (F <$> k).
Proof.
  intros Hl Hk Hsub H0. assert (filter (λ x, x ∈ k) l ≡ₚ k) as Hp.
  { apply NoDup_Permutation; [by apply NoDup_filter|done|]. intros x. rewrite elem_of_list_filter. naive_solver. }
  rewrite <-Hp, zsum_filter_if. apply zsum_fmap_ext. intros x Hx. case_decide as Hd; [done|]. by apply H0.
Qed.
Lemma whole_copy_cut gn Hs G m σ : distributed gn Hs → whole_copy Hs G → (∀ n, n ∈ all_nets Hs → n_cost n = 1) →
  cut_by m (net_list G) σ = cut_by m (whole_nets Hs gn) σ.
Proof.
  intros HD HW Hone.
  assert (∀ n, n ∈ h_nets G → n_cost n = gcost Hs (n_id n)) as Hcost.
  { intros n Hn. destruct (wc_cost _ _ HW n Hn) as [Hc|Hc]; [|done]. assert (n_id n ∈ n_id <$> all_nets Hs) as Hin by (apply (wc_nets _ _ HW); by apply elem_of_list_fmap_1).
    apply elem_of_list_fmap in Hin as (x & Hx & Hxin). rewrite Hx, (gcost_elem gn) by done. rewrite Hc. symmetry. by apply Hone. }
  set (F := λ c vs, match m with CutNet => if decide (1 < lambda σ vs) then c else 0 | LambdaMinusOne => if decide (vs = []) then 0 else c * (lambda σ vs - 1) end).
  assert (∀ ns, cut_by m ns σ = zsum ((λ x, F (fst x) (snd x)) <$> ns)) as Hcb.
  { intros ns. destruct m; simpl; [unfold cut_net_size|unfold lambda_size]; apply zsum_fmap_ext; by intros [c vs] _. }
  rewrite !Hcb. unfold net_list, whole_nets. rewrite <-!list_fmap_compose.
  transitivity (zsum ((λ nid, F (gcost Hs nid) (gverts Hs nid)) <$> nids G)).
  - unfold nids. rewrite <-list_fmap_compose. apply zsum_fmap_ext. intros n Hn. simpl. rewrite Hcost by done. unfold F.
    pose proof (wc_pins _ _ HW n Hn) as Hp. rewrite (lambda_ext σ σ _ _ Hp) by done. destruct m; [done|].
    destruct (decide (n_verts n = [])) as [He|He]; destruct (decide (gverts Hs (n_id n) = [])) as [He'|He']; try done.
    + rewrite He in Hp. symmetry in Hp. apply Permutation_nil_r in Hp. done.
    + rewrite He' in Hp. apply Permutation_nil_r in Hp. done.
  - symmetry. apply zsum_sub.
    + apply NoDup_seqZ.
    + apply (co_nid _ (wc_cons _ _ HW)).
    + intros nid Hnid. apply (wc_nets _ _ HW) in Hnid. apply elem_of_list_fmap in Hnid as (n & -> & Hn). apply elem_of_seqZ. pose proof (di_range _ _ HD n Hn). lia.
    + intros nid _ Hnid. assert (pieces Hs nid = []) as Hp.
      { destruct (pieces Hs nid) as [|n l] eqn:He; [done|]. exfalso. assert (n ∈ pieces Hs nid) as Hin by (rewrite He; by left).
        apply elem_of_list_filter in Hin as [<- Hin]. apply Hnid, (wc_nets _ _ HW). by apply elem_of_list_fmap_1. }
      assert (gcost Hs nid = 0) as -> by (unfold gcost; by rewrite Hp). assert (gverts Hs nid = []) as -> by (unfold gverts; by rewrite Hp).
      unfold F. destruct m; [by destruct (decide (1 < lambda σ []))|]. by rewrite decide_True.
Qed.

(** ** the best labels are given to everyone *)
(** what the processors compare: the cut, or the largest number when a part is too heavy *)

Lemma wpe_share_best E gn Hs rs mx (Q : list hg * Z → Prop) : distributed gn Hs → Hs ≠ [] → length rs = length Hs →
  (∀ r, r ∈ rs → consistent (fst r) ∧ vids (fst r) ≡ₚ v_id <$> all_verts Hs) →
  (∀ r, r ∈ rs → (∀ r', r' ∈ rs → score mx r ≤ score mx r') → Q ((λ H, lab H (part_of (fst r))) <$> Hs, snd r)) →
  wpe E (share_best Hs rs mx) Q.
Proof.
  intros HD Hne Hlen Hrs HQ. unfold share_best. set (p := length Hs) in *.
  assert (0 < p)%nat as Hp by (unfold p; destruct Hs; [done|simpl; lia]).
  erewrite (list_fmap_ext _ (score mx) rs).
  2:{ intros i r _. unfold score, within, pws. cbn [fst snd]. rewrite !weight_part_spec. case_decide; case_decide; try done; lia. }
  apply wpe_bind, wpe_owner_min; [destruct rs; [simpl in Hlen; lia|done]|]. intros best x Hbest Hmin. rewrite fmap_length, Hlen. fold p.
  apply list_lookup_fmap_Some in Hbest as ([B c] & Hr & ->).
  assert ((B, c) ∈ rs) as Hin by (by eapply elem_of_list_lookup_2). destruct (Hrs _ Hin) as [HB HBids]. cbn [fst snd] in HB, HBids.
  assert (best < p)%nat as Hbp by (rewrite <-Hlen; by eapply lookup_lt_Some).
  apply wpe_bind. apply wpe_agreed with (c := Z.of_nat best); [destruct p; [lia|done]| |]. { intros y Hy. by apply elem_of_replicate_inv in Hy. }
  apply wpe_bind.
  apply (wpe_ranks _ _ _ (λ t y, ∀ m, m ∈ y ↔ t = best ∧ ∃ (t' : nat) v, (t' < p)%nat ∧ v ∈ h_verts B ∧ m = (Z.of_nat t', (v_id v, v_part v)))).
  { intros t Ht. apply wpe_bind. eapply wpe_nidx; [by apply lookup_replicate_2|]. destruct (lookup_lt_is_Some_2 rs t ltac:(lia)) as [r Hrt].
    apply wpe_bind. eapply wpe_nidx; [exact Hrt|]. apply wpe_ret. intros m. destruct (decide (Z.of_nat best = Z.of_nat t)) as [Heq|Hneq].
    - assert (t = best) as -> by lia. assert (r = (B, c)) as -> by congruence. cbn [fst]. rewrite elem_of_concat. split.
      + intros (l & Hm & (v & -> & Hv)%elem_of_list_fmap). apply elem_of_list_fmap in Hm as (t' & -> & Ht'%elem_of_seq). split; [done|]. exists t', v. split; [lia|done].
      + intros (_ & t' & v & Ht' & Hv & ->). eexists. split; [|by apply (elem_of_list_fmap_1 (λ v, (λ t', (Z.of_nat t', (v_id v, v_part v))) <$> seq 0 p)), Hv].
        apply (elem_of_list_fmap_1 (λ t', (Z.of_nat t', (v_id v, v_part v)))). apply elem_of_seq. lia.
    - rewrite elem_of_nil. naive_solver. }
  intros outs Hlo Ho.
  assert (∀ m, m ∈ concat outs ↔ ∃ (t' : nat) v, (t' < p)%nat ∧ v ∈ h_verts B ∧ m = (Z.of_nat t', (v_id v, v_part v))) as Hc.
  { intros m. rewrite elem_of_concat. split.
    - intros (l & Hm & Hl). destruct (proj1 (elem_of_list_lookup _ _) Hl) as [t Ht]. by apply (proj1 (Ho t l Ht m)) in Hm as [_ ?].
    - intros Hm. destruct (lookup_lt_is_Some_2 outs best ltac:(lia)) as [l Hl]. exists l. split; [|by eapply elem_of_list_lookup_2]. by apply (Ho best l Hl). }
  apply wpe_bind, wpe_exchange.
  { intros m (t' & v & Ht' & _ & ->)%Hc. simpl. lia. }
  rewrite Hlo. intros boxes Hlb Hb. apply wpe_bind.
  apply (wpe_ranks _ _ _ (λ t y, ∃ H, Hs !! t = Some H ∧ y = lab H (part_of B))).
  { intros t Ht. destruct (lookup_lt_is_Some_2 Hs t Ht) as [H HH]. destruct (lookup_lt_is_Some_2 boxes t ltac:(lia)) as [box Hbox].
    apply wpe_bind. eapply wpe_nidx; [exact HH|]. apply wpe_bind. eapply wpe_nidx; [exact Hbox|].
    assert (∀ m, m ∈ box ↔ ∃ v, v ∈ h_verts B ∧ m = (v_id v, v_part v)) as Hm.
    { intros m. rewrite (Hb t box Hbox). rewrite elem_of_list_fmap. split.
      - intros ([? m'] & -> & [_ Hm]%elem_of_list_filter). apply Hc in Hm as (t' & v & _ & Hv & [= _ ->]). eauto.
      - intros (v & Hv & ->). exists (Z.of_nat t, (v_id v, v_part v)). split; [done|]. apply elem_of_list_filter. split; [done|]. apply Hc. eauto. }
    assert (consistent H) as HC by (apply (di_local _ _ HD); by eapply elem_of_list_lookup_2).
    apply (wpe_foldM _ _ (λ ds s, s = lab H (λ u, if decide (u ∈ fst <$> ds) then part_of B u else part_of H u))).
    - rewrite (lab_ext H _ (part_of H)); [symmetry; apply lab_self, (co_vid _ HC)|]. intros y _. rewrite decide_False by set_solver. done.
    - intros ds m ts s Heq ->. assert (m ∈ box) as Hmb by (rewrite Heq; set_solver). apply Hm in Hmb as (v & Hv & ->). cbn [fst snd].
      assert (∀ y, y ∈ vids H → (if decide (y = v_id v) then v_part v else if decide (y ∈ fst <$> ds) then part_of B y else part_of H y) =
        if decide (y ∈ fst <$> ds ++ [(v_id v, v_part v)]) then part_of B y else part_of H y) as Hext.
      { intros y _. rewrite fmap_app. csimpl. destruct (decide (y = v_id v)) as [->|Hney].
        - rewrite (decide_True (P := v_id v ∈ (fst <$> ds) ++ [v_id v])) by set_solver. by rewrite part_of_elem by (done || apply (co_vid _ HB)).
        - destruct (decide (y ∈ fst <$> ds)); [rewrite decide_True by set_solver|rewrite decide_False by set_solver]; done. }
      change (h_vmap (lab H _)) with (h_vmap H). destruct (h_vmap H !! v_id v) as [i|] eqn:Hvm.
      + apply (co_vmap _ HC) in Hvm as (u & Hu & Huv). apply wpe_lab_set; [done|rewrite <-Huv; apply elem_of_list_fmap_1; by eapply elem_of_list_lookup_2|].
        by apply lab_ext.
      + apply wpe_ret. apply lab_ext. intros y Hy. rewrite <-(Hext y Hy). destruct (decide (y = v_id v)) as [->|]; [|done]. exfalso.
        apply vids_elem in Hy as (u & (i & Hi)%elem_of_list_lookup & Huv). assert (h_vmap H !! v_id v = Some i) by (apply (co_vmap _ HC); eauto). congruence.
    - intros s ->. exists H. split; [done|]. apply lab_ext. intros y Hy. rewrite decide_True; [done|].
      assert (y ∈ vids B) as (v & Hv & <-)%vids_elem.
      { rewrite HBids. apply vids_elem in Hy as (u & Hu & <-). apply elem_of_list_fmap_1, all_verts_elem. exists H. split; [by eapply elem_of_list_lookup_2|done]. }
      apply elem_of_list_fmap. exists (v_id v, v_part v). split; [done|]. apply Hm. eauto. }
  intros Hs' Hl' Hs1. apply wpe_bind. eapply wpe_idx; [unfold zlookup; rewrite bool_decide_true by lia; rewrite Nat2Z.id; exact Hr|]. apply wpe_ret. cbn [snd].
  assert (Hs' = (λ H, lab H (part_of B)) <$> Hs) as ->.
  { apply list_eq_same_length with p; [by rewrite fmap_length|done|]. intros t y y' Ht Hy Hy'. destruct (Hs1 t y Hy) as (H & HH & ->).
    rewrite list_lookup_fmap, HH in Hy'. simpl in Hy'. congruence. }
  apply (HQ (B, c) Hin). intros r' [t Ht]%elem_of_list_lookup. destruct (Hmin t (score mx r')) as [? _]; [by rewrite list_lookup_fmap, Ht|done].
Qed.
