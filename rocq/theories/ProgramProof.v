(** The whole program: from the matrix in the input file to the output file. *)
From Verif Require Export Program SpecProgram FinalReader FinalWriter FinalCutPar.
Local Open Scope list_scope.

(** ** What the reader gives, without a hypergraph *)
(** [Hs] is the matrix spread over the processors; the vertices may be anywhere and in any part *)
Record holds_matrix (E V : Z) (nzs : list (Z * Z)) (weight : list Z → Z) (Hs : list hg) : Prop := {
  hm_dist : distributed E Hs;
  hm_ids : v_id <$> all_verts Hs ≡ₚ seqZ 0 V;
  hm_vert : ∀ v, v ∈ all_verts Hs → v_weight v = weight (column nzs (v_id v)) ∧ v_nets v ≡ₚ column nzs (v_id v);
  hm_cost : ∀ n, n ∈ all_nets Hs → n_cost n = 1;
  hm_info : ∀ H, H ∈ Hs → h_gsize H = V ∧ h_nz H = Z.of_nat (length nzs);
}.
Definition weight_ok (mode : wmode) (weight : list Z → Z) : Prop :=
  (mode = ModeOne ∧ weight = weight_one) ∨ (mode = ModeDegree ∧ weight = weight_degree).

Lemma read_holds bp p t sy E V L entries mode weight w :
  lawful_family bp → (0 < p)%nat → listing t sy E V L entries → valid_listing sy E V L entries →
  weight_ok mode weight → L < 4294967296 → NoDup (nonzeros sy entries) →
  ∃ Hs w', read_hypergraph_par bp t mode p w = Ok (Some Hs, w') ∧ length Hs = p ∧ holds_matrix E V (nonzeros sy entries) weight Hs ∧
    ∀ v, v ∈ all_verts Hs → v_part v = -1.
Proof.
  intros Hbp Hp Hl Hvl Hm HL Hnd.
  destruct (C33_reading_proof t sy E V L entries mode weight w0 Hl Hvl Hm) as (H & w1 & Hr & Hrn & Hnz & _).
  assert (mode = ModeOne ∨ mode = ModeDegree) as Hmode by (destruct Hm as [[? _]|[? _]]; auto).
  destruct (C35_distributed_reading_partial_proof bp p t sy E V L entries mode w w0 Hbp Hp Hl Hvl Hmode HL Hnd)
    as (H' & w1' & Hs & w' & Hr' & Hrun & Hlen & HD & Hinfo & Hids & Hvs & _ & Hns).
  assert (H' = H) as -> by congruence. exists Hs, w'. split; [done|]. split; [done|].
  assert (∀ v, v ∈ all_verts Hs → ∃ v0, v0 ∈ h_verts H ∧ v_id v = v_id v0 ∧ v_weight v = v_weight v0 ∧ v_part v = v_part v0 ∧ v_nets v ≡ₚ v_nets v0) as Hv.
  { intros v (Hl' & HHl & Hv)%all_verts_elem. apply elem_of_list_lookup in HHl as [s Hs']. by destruct (Hvs s Hl' v Hs' Hv) as [_ ?]. }
  split; [split|].
  - done.
  - rewrite Hids, (rn_verts _ _ _ _ _ Hrn), <-list_fmap_compose. unfold compose. cbn [v_id]. by rewrite list_fmap_id.
  - intros v (v0 & Hv0 & Hid & Hw & _ & Hn)%Hv. rewrite (rn_verts _ _ _ _ _ Hrn) in Hv0. apply elem_of_list_fmap in Hv0 as (j & -> & Hj).
    cbn [v_id v_weight v_nets] in *. rewrite Hid. done.
  - intros n (n0 & Hn0 & _ & -> & _)%Hns. rewrite (rn_nets _ _ _ _ _ Hrn) in Hn0. by apply elem_of_list_fmap in Hn0 as (i & -> & _).
  - intros X HX. destruct (Hinfo X HX) as (-> & _ & ->). split; [apply Hrn|done].
  - intros v (v0 & Hv0 & _ & _ & -> & _)%Hv. rewrite (rn_verts _ _ _ _ _ Hrn) in Hv0. by apply elem_of_list_fmap in Hv0 as (j & -> & Hj).
Qed.

Lemma copied_holds E V nzs weight Hs : holds_matrix E V nzs weight Hs → holds_matrix E V nzs weight (copied <$> Hs) ∧
  all_verts (copied <$> Hs) = all_verts Hs.
Proof.
  intros [[D1 D2 D3 D4 D5] Hid Hv Hc Hi].
  assert (all_verts (copied <$> Hs) = all_verts Hs) as Hav by (unfold all_verts; by rewrite <-list_fmap_compose).
  assert (∀ n, n ∈ all_nets (copied <$> Hs) → n_cost n = 1 ∧ ∃ n0, n0 ∈ all_nets Hs ∧ n_id n0 = n_id n) as Hn.
  { intros n (H' & (H & -> & HH)%elem_of_list_fmap & Hn)%all_nets_elem. apply elem_of_list_lookup in Hn as [i Hn].
    destruct (Forall2_lookup_r _ _ _ _ _ (copied_nets H (D1 H HH)) Hn) as (n0 & Hn0 & Hid0 & _ & _ & Hcost). split; [done|].
    exists n0. split; [|done]. apply all_nets_elem. exists H. split; [done|]. by eapply elem_of_list_lookup_2. }
  split; [|done]. split; [split|..]; rewrite ?Hav; try done.
  - intros H' (H & -> & HH)%elem_of_list_fmap. by apply copied_consistent, D1.
  - intros H' (H & -> & HH)%elem_of_list_fmap. exact (D2 H HH).
  - intros n (_ & n0 & Hn0 & <-)%Hn. by apply D4.
  - intros n n' [-> _]%Hn [-> _]%Hn. done.
  - intros n [-> _]%Hn. done.
  - intros H' (H & -> & HH)%elem_of_list_fmap. exact (Hi H HH).
Qed.
Lemma fmap_eq_elem {A B} (f : A → B) (l l' : list A) x' : f <$> l' = f <$> l → x' ∈ l' → ∃ x, x ∈ l ∧ f x' = f x.
Proof.
  intros Heq Hx'. apply (elem_of_list_fmap_1 f) in Hx'. rewrite Heq in Hx'. apply elem_of_list_fmap in Hx' as (x & ? & ?). eauto.
Qed.
Lemma rearranged_holds E V nzs weight Hs Hs' : rearranged E Hs Hs' → holds_matrix E V nzs weight Hs → holds_matrix E V nzs weight Hs'.
Proof.
  intros [D' Hlen Hvk Hnets Hsz Hnz] [D Hid Hv Hc Hi]. split.
  - done.
  - by rewrite (vkey_ids _ _ Hvk).
  - intros v (u & Hu & [= <- <- <-])%(vkey_elem _ _ _ Hvk). by apply Hv.
  - intros n (n0 & Hn0 & _ & <-)%Hnets. by apply Hc.
  - intros H' HH'. destruct (fmap_eq_elem _ _ _ _ Hsz HH') as (H1 & HH1 & ->). destruct (fmap_eq_elem _ _ _ _ Hnz HH') as (H2 & HH2 & ->).
    split; [apply (Hi H1 HH1)|apply (Hi H2 HH2)].
Qed.

(** ** What is reported about a matrix that is spread over processors *)
Section held.
  Context (E V : Z) (nzs : list (Z * Z)) (weight : list Z → Z) (Hs : list hg) (HM : holds_matrix E V nzs weight Hs).
  Context (Hr : ∀ e, e ∈ nzs → 1 ≤ fst e ≤ E ∧ 1 ≤ snd e ≤ V) (HV : 0 ≤ V).
  Local Notation HD := (hm_dist _ _ _ _ _ HM).

  Lemma held_vert j : 0 ≤ j < V → ∃ v, v ∈ all_verts Hs ∧ v_id v = j.
  Proof.
    intros Hj. assert (j ∈ v_id <$> all_verts Hs) as (v & -> & Hv)%elem_of_list_fmap; [|eauto].
    rewrite (hm_ids _ _ _ _ _ HM). apply elem_of_seqZ. lia.
  Qed.
  Lemma held_id v : v ∈ all_verts Hs → 0 ≤ v_id v < V.
  Proof. intros Hv. apply (elem_of_list_fmap_1 v_id) in Hv. rewrite (hm_ids _ _ _ _ _ HM) in Hv. apply elem_of_seqZ in Hv. lia. Qed.
  Lemma held_part v : v ∈ all_verts Hs → gpart Hs (v_id v) = v_part v.
  Proof. apply gpart_elem, HD. Qed.
  Lemma column_elem j n : n ∈ column nzs j ↔ (n + 1, j + 1) ∈ nzs.
  Proof.
    unfold column. rewrite elem_of_list_fmap. split.
    - intros ([a b] & -> & [Hb Hin]%elem_of_list_filter). simpl in *. replace (a - 1 + 1) with a by lia. replace (j + 1) with b by lia. done.
    - intros Hin. exists (n + 1, j + 1). split; [simpl; lia|]. apply elem_of_list_filter. split; [simpl; lia|done].
  Qed.
  Lemma row_elem i j : j ∈ row nzs i ↔ (i + 1, j + 1) ∈ nzs.
  Proof.
    unfold row. rewrite elem_of_list_fmap. split.
    - intros ([a b] & -> & [Hb Hin]%elem_of_list_filter). simpl in *. replace (b - 1 + 1) with b by lia. replace (i + 1) with a by lia. done.
    - intros Hin. exists (i + 1, j + 1). split; [simpl; lia|]. apply elem_of_list_filter. split; [simpl; lia|done].
  Qed.
  Lemma held_net i j : j ∈ gverts Hs i ↔ j ∈ row nzs i.
  Proof.
    rewrite (gverts_vert E), row_elem by apply HD. split.
    - intros (v & Hv & <- & Hn). destruct (hm_vert _ _ _ _ _ HM v Hv) as [_ Hp]. rewrite Hp in Hn. by apply column_elem.
    - intros Hin. destruct (held_vert j) as (v & Hv & <-); [destruct (Hr _ Hin) as [_ ?]; simpl in *; lia|].
      exists v. split; [done|]. split; [done|]. destruct (hm_vert _ _ _ _ _ HM v Hv) as [_ ->]. by apply column_elem.
  Qed.
  Lemma held_cost i : gverts Hs i ≠ [] → gcost Hs i = 1.
  Proof.
    intros Hne. destruct (gverts Hs i) as [|u l] eqn:Hg; [done|]. assert (u ∈ gverts Hs i) as Hu by (rewrite Hg; left).
    apply gverts_elem in Hu as (n & Hn & <- & _). rewrite (gcost_elem E); [by apply (hm_cost _ _ _ _ _ HM)|apply HD|done].
  Qed.
  Lemma held_cut m : cut_by m (whole_nets Hs E) (gpart Hs) = cut_by m (matrix_rows E nzs) (gpart Hs).
  Proof.
    assert (∀ i, lambda (gpart Hs) (gverts Hs i) = lambda (gpart Hs) (row nzs i)) as Hlam.
    { intros i. unfold lambda, parts_touched. do 2 f_equal. apply leibniz_equiv. intros q. rewrite !elem_of_list_to_set, !elem_of_list_fmap.
      split; intros (j & -> & Hj); exists j; (split; [done|]); by apply held_net. }
    assert (∀ i, gverts Hs i = [] ↔ row nzs i = []) as Hnil.
    { intros i. split; intros Hn; apply elem_of_nil_inv; intros j Hj; apply held_net in Hj; rewrite Hn in Hj; by apply elem_of_nil in Hj. }
    unfold cut_by, whole_nets, matrix_rows. destruct m; unfold cut_net_size, lambda_size; rewrite <-!list_fmap_compose; f_equal; apply list_fmap_ext;
      intros _ i _; unfold compose; cbn beta iota; rewrite <-Hlam.
    - destruct (decide (1 < lambda (gpart Hs) (gverts Hs i))) as [Hl|]; [|done]. apply held_cost. intros Hn. rewrite Hn in Hl.
      unfold lambda, parts_touched in Hl. vm_compute in Hl. done.
    - destruct (decide (gverts Hs i = [])) as [Hn|Hn], (decide (row nzs i = [])) as [Hn'|Hn']; try done; rewrite ?Hnil in Hn; [done..|].
      rewrite held_cost by (by rewrite Hnil). lia.
  Qed.
  Lemma held_gpart_weight q : gpart_weight Hs q = columns_weight V nzs weight (gpart Hs) q.
  Proof.
    unfold gpart_weight, columns_weight. rewrite <-(hm_ids _ _ _ _ _ HM).
    assert (∀ vs : list vertex, (∀ v, v ∈ vs → v ∈ all_verts Hs) → v_weight <$> filter (λ v, v_part v = q) vs =
      (λ j, weight (column nzs j)) <$> filter (λ j, gpart Hs j = q) (v_id <$> vs)) as Hall.
    { induction vs as [|v vs IH]; [done|]. intros Hsub. csimpl. rewrite !filter_cons. specialize (IH ltac:(intros; apply Hsub; by right)).
      specialize (Hsub v ltac:(left)). rewrite (held_part v Hsub). destruct (decide (v_part v = q)); [|done]. csimpl. rewrite IH. f_equal.
      apply (hm_vert _ _ _ _ _ HM v Hsub). }
    by rewrite Hall.
  Qed.
  Lemma held_weight : gweight Hs = matrix_weight V nzs weight.
  Proof.
    unfold gweight, matrix_weight. rewrite <-(hm_ids _ _ _ _ _ HM), <-list_fmap_compose. f_equal. apply list_fmap_ext. intros i v Hv.
    apply (hm_vert _ _ _ _ _ HM). by eapply elem_of_list_lookup_2.
  Qed.
  Lemma held_nonzeros : all_nonzeros Hs ≡ₚ nzs.
  Proof.
    unfold all_nonzeros, vertex_nonzeros.
    transitivity (concat ((λ j, filter (λ e : Z * Z, snd e - 1 = j) nzs) <$> (v_id <$> all_verts Hs))).
    - assert (∀ vs : list vertex, (∀ v, v ∈ vs → v ∈ all_verts Hs) → concat ((λ v, (λ n, (n + 1, v_id v + 1)) <$> v_nets v) <$> vs) ≡ₚ
        concat ((λ j, filter (λ e : Z * Z, snd e - 1 = j) nzs) <$> (v_id <$> vs))) as Hall; [|by apply Hall].
      induction vs as [|v vs IH]; [done|]. intros Hsub. csimpl. rewrite IH by (intros; apply Hsub; by right). f_equiv.
      destruct (hm_vert _ _ _ _ _ HM v (Hsub v ltac:(left))) as [_ ->]. unfold column. rewrite <-list_fmap_compose. unfold compose.
      set (l := filter _ nzs). assert (∀ e, e ∈ l → snd e - 1 = v_id v) as Hl by (by intros e [? _]%elem_of_list_filter). clearbody l.
      induction l as [|[a b] l IHl]; [done|]. csimpl. f_equiv; [|apply IHl; intros; apply Hl; by right]. specialize (Hl (a, b) ltac:(left)). simpl in *. f_equal; lia.
    - rewrite (hm_ids _ _ _ _ _ HM). transitivity (concat ((λ s : nat, filter (λ e : Z * Z, snd e - 1 = Z.of_nat s) nzs) <$> seq 0 (Z.to_nat V))).
      + unfold seqZ. rewrite <-list_fmap_compose. unfold compose. erewrite list_fmap_ext; [done|]. intros i s _. simpl. by rewrite Z.add_0_r.
      + apply (concat_split_by (λ e : Z * Z, snd e - 1)). intros e He. destruct (Hr e He). lia.
  Qed.
End held.

(** the slices of the output file *)
Section slices.
  Context (Hs : list hg) (Hnd : NoDup (v_id <$> all_verts Hs)).
  Lemma slice_part q e : e ∈ part_nonzeros Hs q → gpart Hs (snd e - 1) = q.
  Proof.
    unfold part_nonzeros, vertex_nonzeros. rewrite CoarsenProof.elem_of_concat. intros (l & He & (v & -> & [<- Hv]%elem_of_list_filter)%elem_of_list_fmap).
    apply elem_of_list_fmap in He as (n & -> & _). simpl. replace (v_id v + 1 - 1) with (v_id v) by lia. by apply gpart_elem.
  Qed.
  Lemma slices_by_parts (k : nat) starts entries : kstart k Hs starts → entries ≡ₚ all_nonzeros Hs →
    (∀ i, (i < k)%nat → ∃ before after, entries = before ++ part_nonzeros Hs (Z.of_nat i) ++ after ∧
      starts !! i = Some (Z.of_nat (length before)) ∧ starts !! S i = Some (Z.of_nat (length before) + Z.of_nat (length (part_nonzeros Hs (Z.of_nat i))))) →
    by_parts k (all_nonzeros Hs) (gpart Hs) starts entries.
  Proof.
    intros [K1 K2 K3 K4] Hp Hsl.
    assert (∀ (q i : nat) a b e, starts !! q = Some a → starts !! S q = Some b → entries !! i = Some e → a ≤ Z.of_nat i < b → gpart Hs (snd e - 1) = Z.of_nat q) as Hin.
    { intros q i a b e Ha Hb He Hi. destruct (Hsl q) as (B & A & Heq & Ha' & Hb'); [apply lookup_lt_Some in Hb; lia|].
      assert (a = Z.of_nat (length B)) as -> by congruence. assert (b = Z.of_nat (length B) + Z.of_nat (length (part_nonzeros Hs (Z.of_nat q)))) as -> by congruence.
      apply slice_part. rewrite Heq, lookup_app_r in He by lia. rewrite lookup_app_l in He by lia. by eapply elem_of_list_lookup_2. }
    assert (∀ (m i : nat) a, starts !! m = Some a → Z.of_nat i < a → ∃ q a b, starts !! q = Some a ∧ starts !! S q = Some b ∧ a ≤ Z.of_nat i < b) as Hfind.
    { induction m as [|m IH]; intros i a Ha Hi.
      - assert (a = 0) as -> by congruence. lia.
      - destruct (lookup_lt_is_Some_2 starts m) as [c Hc]; [apply lookup_lt_Some in Ha; lia|].
        destruct (decide (Z.of_nat i < c)) as [Hlt|]; [by eapply IH|]. exists m, c, a. split; [done|]. split; [done|]. lia. }
    split; [done|done|done|done|].
    intros q i a b e Ha Hb He. split; [|by eapply Hin]. intros Hq.
    destruct (Hfind k i _ K4) as (q' & a' & b' & Ha' & Hb' & Hi); [apply lookup_lt_Some in He; apply Permutation_length in Hp; lia|].
    pose proof (Hin q' i a' b' e Ha' Hb' He Hi) as Hq'. assert (q' = q) as -> by lia. assert (a' = a) as -> by congruence. assert (b' = b) as -> by congruence. done.
  Qed.
End slices.
Lemma by_parts_perm k nzs nzs' part starts entries : nzs ≡ₚ nzs' → by_parts k nzs part starts entries → by_parts k nzs' part starts entries.
Proof. intros Hp [B1 B2 B3 B4 B5]. split; [by rewrite B1|done|done|by rewrite B4, Hp|done]. Qed.

(** ** Lists of nets that are not complete *)
(** [H'] is [H], but vertices may lack nets in their lists *)
Record fewer (H H' : hg) : Prop := {
  fw_gsize : h_gsize H' = h_gsize H; fw_gnets : h_gnets H' = h_gnets H; fw_nz : h_nz H' = h_nz H;
  fw_nets : h_nets H' = h_nets H; fw_vmap : h_vmap H' = h_vmap H;
  fw_verts : Forall2 (λ v v', vertex_but_nets v' = vertex_but_nets v ∧ v_nets v' ⊆+ v_nets v) (h_verts H) (h_verts H');
}.
Lemma fewer_refl H : fewer H H.
Proof. split; [done..|]. apply Forall_Forall2_diag, Forall_forall. intros v _. done. Qed.
Lemma fewer_all Hs Hs' : Forall2 fewer Hs Hs' → Forall2 (λ v v', vertex_but_nets v' = vertex_but_nets v ∧ v_nets v' ⊆+ v_nets v) (all_verts Hs) (all_verts Hs').
Proof. intros HF. unfold all_verts. induction HF as [|H H' l l' HH _ IH]; [constructor|]. csimpl. apply Forall2_app; [apply HH|exact IH]. Qed.
Lemma fewer_but Hs Hs' : Forall2 fewer Hs Hs' → vertex_but_nets <$> all_verts Hs' = vertex_but_nets <$> all_verts Hs.
Proof. intros HF%fewer_all. induction HF as [|v v' l l' [Hv _] _ IH]; [done|]. csimpl. by rewrite IH, Hv. Qed.
Lemma but_ids (l l' : list vertex) : vertex_but_nets <$> l' = vertex_but_nets <$> l → v_id <$> l' = v_id <$> l.
Proof. intros Hx. change v_id with ((λ x : Z * Z * Z, fst (fst x)) ∘ vertex_but_nets). by rewrite !list_fmap_compose, Hx. Qed.
Lemma but_gpart_weight Hs Hs' q : vertex_but_nets <$> all_verts Hs' = vertex_but_nets <$> all_verts Hs → gpart_weight Hs' q = gpart_weight Hs q.
Proof.
  unfold gpart_weight. generalize (all_verts Hs'), (all_verts Hs). intros l. induction l as [|v l IH]; intros [|u l'] Hx; [done|done|done|].
  csimpl in Hx. injection Hx as Hi Hw Hp Hx. rewrite !filter_cons, Hp. case_decide; csimpl; rewrite ?zsum_cons; rewrite (IH l' Hx); lia.
Qed.
Lemma but_gweight Hs Hs' : vertex_but_nets <$> all_verts Hs' = vertex_but_nets <$> all_verts Hs → gweight Hs' = gweight Hs.
Proof. intros Hx. unfold gweight. f_equal. change v_weight with ((λ x : Z * Z * Z, snd (fst x)) ∘ vertex_but_nets). by rewrite !list_fmap_compose, Hx. Qed.
Lemma but_gpart Hs Hs' u : vertex_but_nets <$> all_verts Hs' = vertex_but_nets <$> all_verts Hs → gpart Hs' u = gpart Hs u.
Proof.
  unfold gpart. generalize (all_verts Hs'), (all_verts Hs). intros l. induction l as [|v l IH]; intros [|x l'] Hx; [done|done|done|].
  csimpl in Hx. injection Hx as Hi Hw Hp Hx. cbn [list_find]. rewrite Hi. destruct (decide (v_id x = u)); [done|]. specialize (IH l' Hx).
  destruct (list_find (λ v, v_id v = u) l) as [[? ?]|], (list_find (λ v, v_id v = u) l') as [[? ?]|]; simpl in *; done.
Qed.
Lemma fewer_nonzeros Hs Hs' : Forall2 fewer Hs Hs' → all_nonzeros Hs' ⊆+ all_nonzeros Hs.
Proof.
  intros HF%fewer_all. unfold all_nonzeros, vertex_nonzeros. induction HF as [|v v' l l' [Hv Hn] _ IH]; [done|]. csimpl. apply submseteq_app; [|exact IH].
  unfold vertex_but_nets in Hv. injection Hv as -> _ _. by apply fmap_submseteq.
Qed.
(** the cut does not depend on the lists of the vertices *)
Lemma run_mapP {A A' B} (f : A → M B) (f' : A' → M B) l l' : Forall2 (λ x x', run_of (f x) (f' x')) l l' → run_of (mapP f l) (mapP f' l').
Proof. intros HF. induction HF as [|x x' l l' Hx _ IH]; [apply run_refl|]. cbn [mapP]. apply run_bind; [done|]. intros y. apply run_bind; [done|]. intros r. apply run_refl. Qed.
Lemma run_foldM {A St} (f f' : St → A → M St) l : (∀ s x, run_of (f s x) (f' s x)) → ∀ s, run_of (foldM f l s) (foldM f' l s).
Proof. intros Hf. induction l as [|x l IH]; intros s; [apply run_refl|]. cbn [foldM]. apply run_bind; [apply Hf|]. intros s'. apply IH. Qed.
Lemma run_cutsize_par bp Hs Hs' m : Forall2 fewer Hs Hs' → run_of (cutsize_par bp Hs m) (cutsize_par bp Hs' m).
Proof.
  intros HF. pose proof (Forall2_length _ _ _ HF) as Hl. unfold cutsize_par. rewrite <-Hl.
  assert (∀ H H', fewer H H' → net_partition bp (length Hs) H' = net_partition bp (length Hs) H) as Hnp by (intros H H' HH; unfold net_partition; by rewrite (fw_gnets _ _ HH)).
  apply run_bind.
  - apply run_mapP. eapply Forall2_impl; [exact HF|]. intros H H' HH. rewrite (fw_nets _ _ HH), (Hnp _ _ HH). apply run_mapP, Forall_Forall2_diag, Forall_forall. intros n _.
    apply run_bind; [|intros; apply run_refl]. unfold net_labels. apply run_foldM. intros X u. unfold vert, local_id, vert_at. rewrite (fw_vmap _ _ HH).
    intros w a w'. unfold bind. destruct (of_option _ (h_vmap H !! u) w) as [[i w1]|e]; [|done].
    rewrite <-(Forall2_length _ _ _ (fw_verts _ _ HH)). destruct (assertM _ w1) as [[[] w2]|e]; [|done]. cbn [ret].
    destruct (h_verts H !! i) as [v|] eqn:Hv; [|done]. destruct (Forall2_lookup_l _ _ _ _ _ (fw_verts _ _ HH) Hv) as (v' & -> & Hb & _).
    unfold vertex_but_nets in Hb. injection Hb as _ _ Hb. cbn [of_option ret]. by rewrite Hb.
  - intros outs. apply run_bind; [apply run_refl|]. intros ins. apply run_bind; [|intros; apply run_refl]. apply run_mapP, Forall_Forall2_diag, Forall_forall. intros t _.
    intros w a w'. unfold bind at 1, nidx at 1. destruct (Hs !! t) as [H|] eqn:Hh; [|done]. destruct (Forall2_lookup_l _ _ _ _ _ HF Hh) as (H' & HH' & HH).
    unfold bind at 3, nidx at 2. rewrite HH'. cbn [of_option ret]. rewrite (Hnp _ _ HH). done.
Qed.

(** ** The program around a partitioner *)
Lemma listing_sizes t sy E V L entries : listing t sy E V L entries → 0 ≤ E ∧ 0 ≤ V.
Proof. intros (b & c & s & l & body & _ & _ & _ & Hs & _). by eapply size_line_nonneg. Qed.

Section whole.
  Context (bp : Z → Z → partitioning) (Hbp : lawful_family bp) (opens : nat → bool) (Hopens : ∀ n, opens n = true).
  Context (t : ctext) (sy : matrix_symmetry) (E V L : Z) (entries : list (Z * Z)) (mode : wmode) (weight : list Z → Z).
  Context (Hmode : weight_ok mode weight) (HI : matrix_input t sy E V L entries weight) (p : nat) (Hp : (0 < p)%nat).
  Local Notation nzs := (nonzeros sy entries).

  Lemma held_spread Hs : holds_matrix E V nzs weight Hs → spread_pre E Hs.
  Proof.
    intros HM. destruct (listing_sizes _ _ _ _ _ _ (mi_listing _ _ _ _ _ _ _ HI)) as [HE HV]. split.
    - apply HM.
    - split; [done|]. apply HI.
    - intros v Hv. pose proof (held_id _ _ _ _ _ HM v Hv). lia.
    - intros v Hv. destruct (hm_vert _ _ _ _ _ HM v Hv) as [-> _]. apply (mi_weight _ _ _ _ _ _ _ HI). by eapply held_id.
    - rewrite (held_weight _ _ _ _ _ HM). apply HI.
  Qed.
  Lemma input_range e : e ∈ nzs → 1 ≤ fst e ≤ E ∧ 1 ≤ snd e ≤ V.
  Proof. pose proof (nonzeros_range _ _ _ _ _ (mi_valid _ _ _ _ _ _ _ HI)) as HF. rewrite Forall_forall in HF. apply HF. Qed.

  Lemma wpe_program (E' : err → Prop) part k eps eta opts (P : list hg → list hg → Prop) (Q : ending → Prop) : 0 < k →
    (∀ Hs, length Hs = p → holds_matrix E V nzs weight Hs → wpe E' (part Hs k eps eta opts) (λ o, match o with
       | None => Q Blocked
       | Some Hs' => ∃ Hs1, length Hs' = p ∧ holds_matrix E V nzs weight Hs1 ∧ Forall2 fewer Hs1 Hs' ∧ (∀ v, v ∈ all_verts Hs' → 0 ≤ v_part v < k) ∧ P Hs1 Hs'
       end)) →
    (∀ Hs1 Hs' r, P Hs1 Hs' → holds_matrix E V nzs weight Hs1 → Forall2 fewer Hs1 Hs' →
       delivered_listing E V k nzs (all_nonzeros Hs') weight (o_metric opts) (gpart Hs1) (re_file r) (re_cut r) (re_weights r) (re_balance r) → Q (Result r)) →
    wpe E' (program_with bp part opens t mode p k eps eta opts) Q.
  Proof.
    intros Hk Hpart HQ. destruct (listing_sizes _ _ _ _ _ _ (mi_listing _ _ _ _ _ _ _ HI)) as [HE HV].
    unfold program_with. apply wpe_bind. intros w.
    destruct (read_holds bp p t sy E V L entries mode weight w Hbp Hp (mi_listing _ _ _ _ _ _ _ HI) (mi_valid _ _ _ _ _ _ _ HI) Hmode
      (mi_entries _ _ _ _ _ _ _ HI) (mi_once _ _ _ _ _ _ _ HI)) as (Hs0 & w1 & -> & Hlen & HM0 & _).
    apply wpe_bind, (wpe_mapP_eq _ _ copied).
    { intros i H HH. apply wpe_copy_hg; [|done]. apply (di_local _ _ (hm_dist _ _ _ _ _ HM0)). by eapply elem_of_list_lookup_2. }
    destruct (copied_holds _ _ _ _ _ HM0) as [HM _]. apply wpe_bind. eapply wpe_mono; [apply Hpart; [by rewrite fmap_length|done]|].
    intros [Hs|]; [|intros HN; by apply wpe_ret]. intros (Hs1 & Hl & HMs & Hfw & Hps & HP). pose proof (fewer_but _ _ Hfw) as Hbut. pose proof (Forall2_length _ _ _ Hfw) as Hl1.
    apply wpe_bind, wpe_load_balance_par; [done..|]. intros q Hq Hmax.
    assert (Hs1 ≠ []) as Hne by (intros ->; simpl in *; lia).
    apply wpe_bind. intros wc.
    assert (wp (cutsize_par bp Hs1 (o_metric opts)) (λ o, o = replicate (length Hs1) (cut_by (o_metric opts) (whole_nets Hs1 E) (gpart Hs1)))) as Hwc
      by (by apply (wpe_cutsize_par bp Hbp E Hs1 (hm_dist _ _ _ _ _ HMs) HE Hne)).
    apply wp_run with (w := wc) in Hwc as (oc & wc' & Hc & ->). rewrite (run_cutsize_par bp Hs1 Hs _ Hfw wc _ _ Hc). clear Hc wc.
    apply wpe_bind. intros w2.
    destruct Hs as [|H0 Hs]; [by inversion Hfw; subst|]. remember (H0 :: Hs) as Hs' eqn:HHs. assert (H0 ∈ Hs') as HH0 by (subst; left).
    assert (h_gsize H0 = V ∧ h_nz H0 = Z.of_nat (length nzs) ∧ h_gnets H0 = E) as (Hgs & Hnz & Hgn).
    { apply elem_of_list_lookup in HH0 as [t0 Ht0]. destruct (Forall2_lookup_r _ _ _ _ _ Hfw Ht0) as (H1 & HH1%elem_of_list_lookup_2 & HF1).
      rewrite (fw_gsize _ _ HF1), (fw_nz _ _ HF1), (fw_gnets _ _ HF1). destruct (hm_info _ _ _ _ _ HMs H1 HH1). split; [done|]. split; [done|]. by apply (di_gnets _ _ (hm_dist _ _ _ _ _ HMs)). }
    assert (∀ v, v ∈ all_verts Hs' → 0 ≤ v_id v ∧ ∀ n, n ∈ v_nets v → n ∈ column nzs (v_id v)) as Hvn.
    { intros v [i Hi]%elem_of_list_lookup. destruct (Forall2_lookup_r _ _ _ _ _ (fewer_all _ _ Hfw) Hi) as (v1 & Hv1%elem_of_list_lookup_2 & Hb & Hsub).
      unfold vertex_but_nets in Hb. injection Hb as -> _ _. split; [pose proof (held_id _ _ _ _ _ HMs v1 Hv1); lia|]. intros n Hn.
      apply (elem_of_submseteq _ _ _ Hn) in Hsub. destruct (hm_vert _ _ _ _ _ HMs v1 Hv1) as [_ Hp1]. by rewrite Hp1 in Hsub. }
    destruct (C44_output_file_proof opens Hs' H0 (Z.to_nat k) w2 Hopens) as (file & w3 & starts & es & Hrun & Hfile & Hks & Hperm & _ & Hsl); [by subst Hs'| |lia|lia|lia|].
    { intros v Hv. destruct (Hvn v Hv) as [Hv1 Hv2]. rewrite Z2Nat.id by lia. split; [by apply Hps|]. split; [done|].
      intros n Hn%Hv2. apply column_elem, input_range in Hn. simpl in Hn. lia. }
    rewrite Z2Nat.id in Hrun, Hfile by lia. rewrite Hrun. rewrite Hgs, Hnz, Hgn in Hfile.
    apply wpe_bind, wpe_global_weight_parts; [done|]. rewrite !Hl, Hl1, Hl. destruct p as [|p']; [lia|]. cbn [replicate].
    apply wpe_bind. eapply wpe_nidx; [done|]. apply wpe_bind. eapply wpe_nidx; [done|]. apply wpe_bind. eapply wpe_nidx; [done|].
    assert (NoDup (v_id <$> all_verts Hs')) as Hnd by (rewrite (but_ids _ _ Hbut); apply (hm_dist _ _ _ _ _ HMs)).
    apply wpe_ret. eapply (HQ Hs1 Hs'); [done|done|done|]. split; cbn [re_file re_balance re_cut re_weights].
    - intros j Hj. destruct (held_vert _ _ _ _ _ HMs j Hj) as (v & Hv & <-). rewrite <-(but_gpart _ _ _ Hbut).
      assert (v_id v ∈ v_id <$> all_verts Hs') as (v' & -> & Hv')%elem_of_list_fmap by (rewrite (but_ids _ _ Hbut); by apply elem_of_list_fmap_1).
      rewrite gpart_elem by done. by apply Hps.
    - exists starts, es. split; [done|]. destruct (slices_by_parts Hs' Hnd (Z.to_nat k) starts es Hks Hperm Hsl) as [B1 B2 B3 B4 B5].
      split; [done..|]. intros q' i a b e Ha Hb He. rewrite <-(but_gpart _ _ _ Hbut). by apply B5.
    - rewrite (held_cut _ _ _ _ _ HMs input_range). by destruct (o_metric opts).
    - apply list_fmap_ext. intros _ x _. rewrite (but_gpart_weight _ _ _ Hbut). apply (held_gpart_weight _ _ _ _ _ HMs).
    - exists q. split; [done|]. rewrite <-(held_weight _ _ _ _ _ HMs), <-(held_gpart_weight _ _ _ _ _ HMs), <-(but_gpart_weight _ _ _ Hbut), <-(but_gweight _ _ Hbut). split; [|done].
      intros q' Hq'. rewrite <-(held_gpart_weight _ _ _ _ _ HMs), <-(but_gpart_weight _ _ _ Hbut). by apply Hmax.
  Qed.
End whole.

Lemma run_program bp part part' opens t mode p k eps eta opts : (∀ Hs, run_of (part Hs k eps eta opts) (part' Hs k eps eta opts)) →
  run_of (program_with bp part opens t mode p k eps eta opts) (program_with bp part' opens t mode p k eps eta opts).
Proof.
  intros Hrun. unfold program_with. apply run_bind; [apply run_refl|]. intros [Hs0|]; [|apply run_refl].
  apply run_bind; [apply run_refl|]. intros Hs. apply run_bind; [apply Hrun|]. intros [Hs'|]; apply run_refl.
Qed.

(** ** The same nets, all of them listed *)
Definition relist_vertex (H : hg) (v : vertex) : vertex :=
  Vertex (v_id v) (n_id <$> filter (λ n, v_id v ∈ n_verts n) (h_nets H)) (v_weight v) (v_part v).
Definition relist (H : hg) : hg :=
  Hg (h_gsize H) (h_gnets H) (relist_vertex H <$> h_verts H) (h_nets H) (h_nz H) (h_vmap H) (h_nmap H) (h_dups H).
Lemma sound_ids H : nets_sound H → NoDup (v_id <$> h_verts H).
Proof.
  intros [_ Hm _ _]. apply NoDup_alt. intros i j x (v & Hv & ->)%list_lookup_fmap_Some (u & Hu & Hid)%list_lookup_fmap_Some.
  assert (h_vmap H !! v_id v = Some i) as H1 by (apply Hm; eauto). assert (h_vmap H !! v_id v = Some j) as H2 by (apply Hm; eauto). congruence.
Qed.
Lemma relist_consistent H : nets_sound H → consistent (relist H).
Proof.
  intros HS. pose proof (sound_ids H HS) as Hnd. destruct HS as [S1 S2 S3 S4].
  assert (v_id <$> h_verts (relist H) = v_id <$> h_verts H) as Hid by (simpl; by rewrite <-list_fmap_compose).
  split; [by rewrite Hid|done| |done| |intros n Hn; by apply S4| |].
  - intros id i. simpl. rewrite S2. split.
    + intros (v & Hv & <-). exists (relist_vertex H v). split; [by apply lookup_fmap_1|done].
    + intros (v' & Hv' & <-). apply list_lookup_fmap_Some in Hv' as (v & Hv & ->). eauto.
  - intros v (u & -> & Hu)%elem_of_list_fmap. simpl. clear -S1. induction (h_nets H) as [|n l IH]; [constructor|]. csimpl in S1. apply NoDup_cons in S1 as [N1 N2].
    rewrite filter_cons. case_decide; [|by apply IH]. csimpl. apply NoDup_cons. split; [|by apply IH]. intros (m & Hm & [_ Hin]%elem_of_list_filter)%elem_of_list_fmap.
    apply N1. rewrite Hm. by apply elem_of_list_fmap_1.
  - intros v nid (u & -> & Hu)%elem_of_list_fmap. simpl. intros (n & -> & [Hin Hn]%elem_of_list_filter)%elem_of_list_fmap. eauto.
  - intros n vid Hn Hvid. simpl in Hn. destruct (S4 n Hn) as [_ Hx]. apply Hx in Hvid as Hv. apply elem_of_list_fmap in Hv as (v & -> & Hv).
    exists (relist_vertex H v). split; [by apply elem_of_list_fmap_1|]. split; [done|]. simpl. apply elem_of_list_fmap. exists n. split; [done|]. by apply elem_of_list_filter.
Qed.
Lemma relist_but Hs : vertex_but_nets <$> all_verts (relist <$> Hs) = vertex_but_nets <$> all_verts Hs.
Proof. unfold all_verts. induction Hs as [|H Hs IH]; [done|]. csimpl. rewrite !fmap_app, IH. f_equal. by rewrite <-list_fmap_compose. Qed.
Lemma relist_nets Hs : all_nets (relist <$> Hs) = all_nets Hs.
Proof. unfold all_nets. by rewrite <-list_fmap_compose. Qed.
Lemma id_inj (l : list vertex) v u : NoDup (v_id <$> l) → v ∈ l → u ∈ l → v_id v = v_id u → v = u.
Proof.
  intros Hnd [i Hi]%elem_of_list_lookup [j Hj]%elem_of_list_lookup Hid. assert (i = j) as -> by (eapply (NoDup_fmap_inj v_id l); done). congruence.
Qed.
Lemma one_place Hs : NoDup (v_id <$> all_verts Hs) → ∀ s t H H' v v', Hs !! s = Some H → Hs !! t = Some H' → v ∈ h_verts H → v' ∈ h_verts H' → v_id v = v_id v' → s = t.
Proof.
  induction Hs as [|X Hs IH]; [done|]. unfold all_verts. csimpl. rewrite fmap_app. intros (N1 & N2 & N3)%NoDup_app s t H H' v v' Hs1 Ht1 Hv Hv' Hid.
  assert (∀ r Y u, Hs !! r = Some Y → u ∈ h_verts Y → v_id u ∈ v_id <$> all_verts Hs) as Hin.
  { intros r Y u HY Hu. apply elem_of_list_fmap_1, all_verts_elem. exists Y. split; [by eapply elem_of_list_lookup_2|done]. }
  destruct s as [|s], t as [|t]; simpl in *; [done| | |f_equal; by eapply (IH N3)].
  - injection Hs1 as ->. exfalso. apply (N2 (v_id v)); [by apply elem_of_list_fmap_1|]. rewrite Hid. by eapply Hin.
  - injection Ht1 as ->. exfalso. apply (N2 (v_id v')); [by apply elem_of_list_fmap_1|]. rewrite <-Hid. by eapply Hin.
Qed.
(** the matrix is still there after partitioning with the cut-net metric, but for the lists of the vertices *)
Lemma whole_holds E V nzs weight Hs Hs' : same_whole Hs Hs' → distributed E Hs' → holds_matrix E V nzs weight Hs → holds_matrix E V nzs weight Hs'.
Proof.
  intros [Hlen Hvw Hg Hcost Hsz Hnz] D' [D Hid Hv Hc Hi].
  assert (∀ v, v ∈ all_verts Hs' → ∃ u, u ∈ all_verts Hs ∧ v_id v = v_id u ∧ v_weight v = v_weight u) as Hu.
  { intros v Hv'. apply (elem_of_list_fmap_1 (λ v, (v_id v, v_weight v))) in Hv'. rewrite Hvw in Hv'. apply elem_of_list_fmap in Hv' as (u & [= H1 H2] & Hu). eauto. }
  split.
  - done.
  - rewrite <-Hid. change v_id with (fst ∘ (λ v, (v_id v, v_weight v))). by rewrite !list_fmap_compose, Hvw.
  - intros v Hv'. destruct (Hu v Hv') as (u & Huin & Hid' & Hw). destruct (Hv u Huin) as [Hw' Hn']. rewrite Hid'. split; [congruence|]. rewrite <-Hn'.
    apply NoDup_Permutation.
    + apply all_verts_elem in Hv' as (H' & HH' & Hv'). by apply (co_vnets _ (di_local _ _ D' H' HH')).
    + apply all_verts_elem in Huin as (H & HH & Huin). by apply (co_vnets _ (di_local _ _ D H HH)).
    + intros i. split; intros Hin.
      * assert (v_id v ∈ gverts Hs' i) as Hx by (apply (gverts_vertex E); eauto). rewrite Hg in Hx. apply (gverts_vertex E) in Hx as (u' & Hu' & Hi' & Hin'); [|done].
        assert (u' = u) as ->; [|done]. apply (id_inj (all_verts Hs)); [apply (di_verts _ _ D)|done|done|congruence].
      * assert (v_id v ∈ gverts Hs i) as Hx by (apply (gverts_vertex E); [done|]; exists u; split; [done|split; [done|done]]). rewrite <-Hg in Hx. apply (gverts_vertex E) in Hx as (u' & Hu' & Hi' & Hin'); [|done].
        assert (u' = v) as ->; [|done]. apply (id_inj (all_verts Hs')); [apply (di_verts _ _ D')|done|done|congruence].
  - intros n (n0 & Hn0 & _ & <-)%Hcost. by apply Hc.
  - intros H' HH'. destruct (fmap_eq_elem _ _ _ _ Hsz HH') as (H1 & HH1 & ->). destruct (fmap_eq_elem _ _ _ _ Hnz HH') as (H2 & HH2 & ->).
    split; [apply (Hi H1 HH1)|apply (Hi H2 HH2)].
Qed.
Lemma relist_fewer G E Hs' : distributed E (fst <$> G) → nets_back G Hs' → Forall2 fewer (relist <$> Hs') Hs'.
Proof.
  intros HD HB.
  assert (NoDup (v_id <$> all_verts Hs')) as Hnd.
  { assert (vertex_but_nets <$> all_verts Hs' = vertex_but_nets <$> all_verts (fst <$> G)) as Hx%but_ids; [|rewrite Hx; apply HD].
    pose proof (nb_len _ _ HB) as Hlen. pose proof (λ t P H' HP HH', proj1 (nb_same _ _ HB t P H' HP HH')) as Hs. clear HB HD. revert Hs' Hlen Hs.
    induction G as [|P G IH]; intros [|H' Hs'] Hlen Hs; [done|done|done|]. unfold all_verts. csimpl. rewrite !fmap_app. f_equal; [by apply (Hs 0%nat P H')|].
    apply IH; [simpl in Hlen; lia|]. intros t. apply (Hs (S t)). }
  apply Forall2_same_length_lookup. split; [by rewrite fmap_length|]. intros t H1 H' (H2 & HH2 & ->)%list_lookup_fmap_Some HH'. assert (H2 = H') as -> by congruence. clear HH2.
  assert (H' ∈ Hs') as Hin' by (by eapply elem_of_list_lookup_2). pose proof (nb_sound _ _ HB H' Hin') as HS.
  split; [done..|]. simpl. apply Forall2_same_length_lookup. split; [by rewrite fmap_length|]. intros j v1 v' (v2 & Hv2 & ->)%list_lookup_fmap_Some Hv'. assert (v2 = v') as -> by congruence. clear Hv2.
  split; [done|]. simpl. destruct (lookup_lt_is_Some_2 G t) as [P HP]; [pose proof (nb_len _ _ HB) as HL; apply lookup_lt_Some in HH'; unfold keeper in *; lia|].
  destruct (nb_same _ _ HB t P H' HP HH') as [Hbn _]. pose proof (lookup_fmap_1 vertex_but_nets (h_verts H') j v' Hv') as Hb. rewrite Hbn in Hb.
  apply list_lookup_fmap_Some in Hb as (v & Hv & Hb). unfold vertex_but_nets in Hb. injection Hb as Hid _ _.
  destruct (nb_lists _ _ HB t P H' j v v' HP HH' Hv Hv') as [Hnv Hlist]. apply NoDup_submseteq; [done|]. intros i Hi%Hlist.
  assert (v_id v' ∈ gverts Hs' i) as Hgv.
  { rewrite (nb_verts _ _ HB i). apply elem_of_app. rewrite Hid. destruct Hi as [Hi|(s & P2 & n & _ & HP2 & Hn & Hni & Hnv')].
    - left. apply (gverts_vertex E); [done|]. exists v. split; [|done]. apply all_verts_elem. exists (fst P). split; [|by eapply elem_of_list_lookup_2].
      apply elem_of_list_fmap_1. by eapply elem_of_list_lookup_2.
    - right. unfold kept_verts. apply CoarsenProof.elem_of_concat. exists (n_verts n). split; [done|]. apply elem_of_list_fmap_1, elem_of_list_filter. split; [done|].
      unfold all_kept. apply CoarsenProof.elem_of_concat. exists (snd P2). split; [done|]. apply elem_of_list_fmap_1. by eapply elem_of_list_lookup_2. }
  apply gverts_elem in Hgv as (n & (H3 & HH3 & Hn)%all_nets_elem & <- & Hu). destruct (sn_verts _ (nb_sound _ _ HB H3 HH3) n Hn) as [_ Hx]. pose proof (Hx _ Hu) as Hx3.
  assert (H3 = H') as ->.
  { apply elem_of_list_fmap in Hx3 as (u & Hiu & Hu3). apply elem_of_list_lookup in HH3 as [t3 HH3].
    assert (t3 = t) as ->; [|congruence]. eapply (one_place Hs' Hnd); [exact HH3|exact HH'|exact Hu3|by eapply elem_of_list_lookup_2|congruence]. }
  apply elem_of_list_fmap. exists n. split; [done|]. by apply elem_of_list_filter.
Qed.
Lemma relist_distributed E Hs G R Hs' : distributed E Hs → shed E R ((λ H, (H, [])) <$> Hs) G → nets_back G Hs' → same_whole Hs Hs' → distributed E (relist <$> Hs').
Proof.
  intros D HSh HB HW. split; rewrite ?relist_nets.
  - intros H1 (H' & -> & HH')%elem_of_list_fmap. by apply relist_consistent, (nb_sound _ _ HB).
  - intros H1 (H' & -> & HH')%elem_of_list_fmap. simpl. apply elem_of_list_lookup in HH' as [t HH']. destruct (lookup_lt_is_Some_2 G t) as [P HP]; [pose proof (nb_len _ _ HB) as HL; apply lookup_lt_Some in HH'; unfold keeper in *; lia|].
    destruct (nb_same _ _ HB t P H' HP HH') as (_ & _ & -> & _). apply (di_gnets _ _ (sh_dist _ _ _ _ HSh)). apply elem_of_list_fmap_1. by eapply elem_of_list_lookup_2.
  - rewrite (but_ids _ _ (relist_but Hs')). change v_id with (fst ∘ (λ v, (v_id v, v_weight v))). rewrite list_fmap_compose, (sw_verts _ _ HW), <-list_fmap_compose. apply (di_verts _ _ D).
  - intros n (n0 & Hn0 & <- & _)%(sw_cost _ _ HW). by apply (di_range _ _ D).
  - intros n n' (n0 & Hn0 & Hi0 & <-)%(sw_cost _ _ HW) (n1 & Hn1 & Hi1 & <-)%(sw_cost _ _ HW) Hid. apply (di_cost _ _ D); [done|done|congruence].
Qed.
(** ** Partitioning, for both metrics *)
Lemma wpe_partition strict bis bisp bp (E' : err → Prop) E V nzs weight Hs k eps eta opts M : bis_ok strict bis → bisp_ok strict bisp → lawful_family bp →
  valid_binary 53 1024 eta = true → d_le d_zero eta = true → d_le eta (d_of_Z (2 ^ 50)) = true →
  spread_pre E Hs → holds_matrix E V nzs weight Hs → Hs ≠ [] → Z.of_nat (length Hs) ≤ 2 ^ 50 → 2 ≤ k ≤ 2 ^ 50 →
  (∀ M', part_limit (gweight Hs) k eps = Some M' → 0 ≤ M' ∧ M' * k ≤ 2 ^ 50 ∧ (strict → M' = M)) →
  (strict → E' Abort) → E' UB → (E' Abort ∨ (o_bisection opts = BisMultilevel → o_sampling opts ≠ SampRandom)) →
  (o_bisection opts = BisMultilevel → Z.of_nat (length Hs) ≤ o_sample_size opts) →
  wpe E' (partition_with bp bis bisp Hs k eps eta opts) (λ o, match o with
    | None => o_metric opts = CutNet ∧ k ≠ 2
    | Some Hs' => ∃ Hs1, length Hs' = length Hs ∧ holds_matrix E V nzs weight Hs1 ∧ Forall2 fewer Hs1 Hs' ∧ (∀ v, v ∈ all_verts Hs' → 0 ≤ v_part v < k) ∧
        (strict → ∀ q, 0 ≤ q < k → gpart_weight Hs1 q ≤ M) ∧ (o_metric opts = LambdaMinusOne ∨ k = 2 → Hs1 = Hs')
    end).
Proof.
  intros Hb Hbp Hfam Hv He0 He1 Hpre HH Hne Hlen Hk HM HA HU HR HS. unfold partition_with. destruct (o_metric opts) eqn:Hm.
  - eapply (wpe_recursive_bisect_cut_with strict bis bisp bp E' E Hs k eps eta opts); try assumption.
    + intros v Hv'. pose proof (held_id _ _ _ _ _ HH v Hv'). lia.
    + intros M' HM'. destruct (HM M' HM') as (? & ? & _). done.
    + done.
    + intros M' R G Hs' HM' HSh H2 HB Hp Hlim. destruct (HM M' HM') as (_ & _ & HMeq). pose proof (shed_same E R Hs G Hs' (hm_dist _ _ _ _ _ HH) HSh HB) as HW.
      assert (strict → ∀ q, 0 ≤ q < k → gpart_weight Hs' q ≤ M) as Hlim'. { intros Hst q Hq. rewrite (back_gpart G Hs' q HB), <-(HMeq Hst). by apply Hlim. }
      assert (∀ v, v ∈ all_verts Hs' → 0 ≤ v_part v < k) as Hp' by (by eapply (back_parts G Hs' (λ p, 0 ≤ p < k))).
      destruct (decide (k = 2)) as [Hk2|Hk2].
      * exists Hs'. destruct (H2 Hk2) as [_ ->]. split; [apply HW|]. split; [by eapply whole_holds; [exact HW|apply HSh|]|].
        split; [apply Forall_Forall2_diag, Forall_forall; intros; apply fewer_refl|]. done.
      * exists (relist <$> Hs'). pose proof (relist_but Hs') as Hbut. split; [apply HW|]. split.
        { eapply whole_holds; [|by eapply relist_distributed; [apply (hm_dist _ _ _ _ _ HH)|exact HSh|..]|exact HH]. destruct HW as [W1 W2 W3 W4 W5 W6]. split.
          - by rewrite fmap_length.
          - etrans; [|exact W2]. change (λ v : vertex, (v_id v, v_weight v)) with ((λ x : Z * Z * Z, fst x) ∘ vertex_but_nets). by rewrite !list_fmap_compose, Hbut.
          - intros i. unfold gverts, pieces. rewrite relist_nets. apply W3.
          - intros n. rewrite relist_nets. apply W4.
          - by rewrite <-list_fmap_compose.
          - by rewrite <-list_fmap_compose. }
        split; [by eapply relist_fewer; [apply HSh|]|]. split; [done|]. split; [|intros [?|?]; congruence].
        intros Hst q Hq. rewrite (but_gpart_weight _ _ q Hbut). by apply Hlim'.
  - apply wpe_bind. eapply (wpe_recursive_bisect_par strict bis bisp E' E); [done..| |done|done|done|done|].
    + intros M' HM'. destruct (HM M' HM') as (? & ? & _). done.
    + intros Hs' M' HM' Hre Hps Hlim. destruct (HM M' HM') as (_ & _ & HMeq). apply wpe_ret. exists Hs'. split; [apply Hre|]. split; [by eapply rearranged_holds|].
      split; [apply Forall_Forall2_diag, Forall_forall; intros; apply fewer_refl|]. split; [done|]. split; [|done]. intros Hst q Hq. rewrite <-(HMeq Hst). by apply Hlim.
Qed.
Lemma run_partition bp bis bis' bisp bisp' Hs k eps eta opts :
  (∀ H opts mx st en labels, run_of (bis H opts mx st en labels) (bis' H opts mx st en labels)) →
  (∀ jobs opts mx labels, run_of (bisp jobs opts mx labels) (bisp' jobs opts mx labels)) →
  run_of (partition_with bp bis bisp Hs k eps eta opts) (partition_with bp bis' bisp' Hs k eps eta opts).
Proof.
  intros Hb Hbp. unfold partition_with. destruct (o_metric opts); [by apply run_recursive_cut|]. apply run_bind; [by apply run_recursive_par|]. intros. apply run_refl.
Qed.
