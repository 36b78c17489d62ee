(** The property lemmas of C64 to C67: the cut-net metric on several processors. *)
From Verif Require Export CutRecProof FinalRecPar.

Lemma taken_spec R P P' : taken R P P' ↔ nets_taken R P P'.
Proof.
  split.
  - intros (HR & HC & Hk). split; [apply HR| |split_and!; apply HR|done|done].
    eapply Forall2_impl; [apply HR|]. intros v v' (E1 & E2 & E3 & E4). split; [|done]. unfold vertex_but_nets. by rewrite E1, E2, E3.
  - intros [N V (S1 & S2 & S3) HC Hk]. split; [|done]. split; [done| |done..].
    eapply Forall2_impl; [exact V|]. intros v v' [E ?]. unfold vertex_but_nets in E. by injection E as -> -> ->.
Qed.

(** ** C64: setting cut nets aside *)

(** C64, what holds.  [groups]: the processors of the world in the groups they work in, each with the nets it has already set
    aside.  If only the first group has several processors and no processor has a piece of a net without vertices, the call ends
    on all processors for every order of arrival.  Exactly the nets [taken_out] says are taken from every processor and kept there,
    with vertices and cost; nothing else changes.  Every net that has vertices in two parts inside one group is among them.
    Missing: other nets than cut nets are taken out as well (C64_uncut_refuted), and the undefined runs (C64_groups_refuted,
    C64_bare_piece_refuted). *)
Lemma C64_set_aside_partial_proof : ∀ bp gn groups w, lawful_family bp →
  (∀ g, g ∈ groups → g ≠ [] ∧ distributed gn (fst <$> g) ∧ no_bare (fst <$> g) ∧ ∀ v, v ∈ all_verts (fst <$> g) → 0 ≤ v_id v) → one_by_one groups →
  ∃ gs' w' R, remove_cut_nets_par bp groups w = Ok (gs', w') ∧ Forall2 (Forall2 (nets_taken R)) groups gs' ∧
    (∀ i, i ∈ R ↔ ∃ g, g ∈ groups ∧ taken_out (fst <$> g) i) ∧
    (∀ g i u v, g ∈ groups → u ∈ gverts (fst <$> g) i → v ∈ gverts (fst <$> g) i → gpart (fst <$> g) u ≠ gpart (fst <$> g) v → i ∈ R).
Proof.
  intros bp gn groups w Hbp Hg Hone.
  assert (wp (remove_cut_nets_par bp groups) (λ gs', ∃ R, Forall2 (Forall2 (nets_taken R)) groups gs' ∧ (∀ i, i ∈ R ↔ ∃ g, g ∈ groups ∧ taken_out (fst <$> g) i))) as Hw.
  { eapply (wpe_remove_cut_nets_par bp gn); [done| |by right|].
    - intros g Hin. destruct (Hg g Hin) as (? & ? & ? & ?). split_and!; [done..|by right].
    - intros gs' R HR _ HF. exists R. split; [|done]. eapply Forall2_impl; [exact HF|]. intros g g' Hx. eapply Forall2_impl; [exact Hx|]. intros P P'. apply taken_spec. }
  apply wp_run with (w := w) in Hw as (gs' & w' & Heq & R & HF & HR). exists gs', w', R. split; [done|]. split; [done|]. split; [done|].
  intros g i u v Hin Hu Hv Hp. apply HR. exists g. split; [done|].
  assert (2 ≤ length (gverts (fst <$> g) i))%nat as Hl. { destruct (gverts (fst <$> g) i) as [|a [|b l]]; [set_solver|set_solver|simpl; lia]. }
  split.
  - unfold gverts, pieces in Hu. apply CoarsenProof.elem_of_concat in Hu as (l & Hul & (n & -> & [Hid Hn]%elem_of_list_filter)%elem_of_list_fmap). eauto.
  - case_decide; [done|]. intros (x & Hx & _). rewrite Hx in Hl. simpl in Hl. lia.
Qed.
(** C64, refuted: the parts are not compared.  Whatever they are, in every run that ends, every net with two or more vertices
    inside a group is taken from all processors. *)
Lemma C64_uncut_refuted_proof : ∀ bp gn groups w gs' w' i, lawful_family bp →
  (∀ g, g ∈ groups → g ≠ [] ∧ distributed gn (fst <$> g) ∧ ∀ v, v ∈ all_verts (fst <$> g) → 0 ≤ v_id v) →
  remove_cut_nets_par bp groups w = Ok (gs', w') → (∃ g, g ∈ groups ∧ (2 ≤ length (gverts (fst <$> g) i))%nat) →
  ∀ P, P ∈ concat gs' → i ∉ n_id <$> h_nets (fst P).
Proof.
  intros bp gn groups w gs' w' i Hbp Hg Hrun (g & Hin & Hl).
  assert (wpe (λ e, e = UB) (remove_cut_nets_par bp groups) (λ gs', ∀ P, P ∈ concat gs' → i ∉ n_id <$> h_nets (fst P))) as Hw.
  { eapply (wpe_remove_cut_nets_par bp gn); [done| |by left|].
    - intros g' Hin'. destruct (Hg g' Hin') as (? & ? & ?). split_and!; [done..|by left].
    - intros gs1 R HR _ HF P HP. assert (i ∈ R) as Hi.
      { apply HR. exists g. split; [done|]. split.
        - destruct (gverts (fst <$> g) i) as [|u l] eqn:Hgv; [simpl in Hl; lia|]. assert (u ∈ gverts (fst <$> g) i) as Hu by (rewrite Hgv; by left).
          unfold gverts, pieces in Hu. apply CoarsenProof.elem_of_concat in Hu as (l' & Hul & (n & -> & [Hid Hn]%elem_of_list_filter)%elem_of_list_fmap). eauto.
        - case_decide; [done|]. intros (x & Hx & _). rewrite Hx in Hl. simpl in Hl. lia. }
      apply CoarsenProof.elem_of_concat in HP as (g' & HPg & Hg'). apply elem_of_list_lookup in Hg' as [t Ht]. destruct (Forall2_lookup_r _ _ _ _ _ HF Ht) as (g0 & _ & HF2).
      apply elem_of_list_lookup in HPg as [s Hs]. destruct (Forall2_lookup_r _ _ _ _ _ HF2 Hs) as (P0 & _ & HT). apply taken_spec in HT.
      rewrite (nt_nets _ _ _ HT). intros (n & -> & [Hn _]%elem_of_list_filter)%elem_of_list_fmap. done. }
  specialize (Hw w). rewrite Hrun in Hw. exact Hw.
Qed.
(** C64, refuted: if any processor has a piece of a net without vertices, the behaviour is undefined, for every order of arrival. *)
Lemma C64_bare_piece_refuted_proof : ∀ bp gn groups w g n, lawful_family bp →
  (∀ g, g ∈ groups → g ≠ [] ∧ distributed gn (fst <$> g) ∧ ∀ v, v ∈ all_verts (fst <$> g) → 0 ≤ v_id v) →
  g ∈ groups → n ∈ all_nets (fst <$> g) → n_verts n = [] → remove_cut_nets_par bp groups w = Err UB.
Proof.
  intros bp gn groups w g n Hbp Hg Hin Hn Hnil.
  assert (wpe (λ e, e = UB) (remove_cut_nets_par bp groups) (λ _, False)) as Hw.
  { eapply (wpe_remove_cut_nets_par bp gn); [done| |by left|].
    - intros g' Hin'. destruct (Hg g' Hin') as (? & ? & ?). split_and!; [done..|by left].
    - intros gs1 R _ Hne _. by apply (Hne g Hin n Hn). }
  specialize (Hw w). destruct (remove_cut_nets_par bp groups w) as [[? ?]|e]; [done|]. by rewrite Hw.
Qed.
(** four processors with one vertex each; the second pair of processors shares net 3 *)
Definition cp4 : list hg := [
  mk_hg 4 4 [Vertex 0 [0] 1 0] [Net 0 [0] 1 2] 1; mk_hg 4 4 [Vertex 1 [0] 1 1] [Net 0 [1] 1 2] 1;
  mk_hg 4 4 [Vertex 2 [1; 2; 3] 1 2] [Net 1 [2] 1 1; Net 2 [2] 1 1; Net 3 [2] 1 2] 3; mk_hg 4 4 [Vertex 3 [3] 1 3] [Net 3 [3] 1 2] 1].
Definition with_none (Hs : list hg) : list (hg * list net) := (λ H, (H, [])) <$> Hs.
(** C64, refuted: with two groups of two processors, consistent hypergraphs and no piece without vertices, the behaviour is undefined:
    the second group looks up its numbers of nets with the ranks in the world. *)
Lemma C64_groups_refuted_proof : ∃ groups, (∀ g, g ∈ groups → length g = 2%nat ∧ distributed 4 (fst <$> g) ∧ no_bare (fst <$> g) ∧ ∀ v, v ∈ all_verts (fst <$> g) → 0 ≤ v_id v) ∧
  distributed 4 (fst <$> concat groups) ∧ remove_cut_nets_par blocks groups w0 = Err UB.
Proof.
  exists [with_none (take 2 cp4); with_none (drop 2 cp4)]. split; [|split; [|vm_compute; reflexivity]].
  - intros g [->|[->|[]%elem_of_nil]%elem_of_cons]%elem_of_cons; (split; [done|]; split; [dec_distributed|]; split;
      [intros n; revert n|intros v; revert v]; apply Forall_forall, (bool_decide_eq_true_1 _); vm_compute; reflexivity).
  - change (distributed 4 cp4). dec_distributed.
Qed.
(** two processors in a group, and one on its own: net 0 is over both processors of the group and not cut, net 1 is cut in the
    group, net 2 has a single vertex whose id is its part and net 4 has two vertices in a part *)
Definition cp3 : list hg := [
  mk_hg 5 5 [Vertex 0 [0; 2] 1 0; Vertex 1 [1] 2 0] [Net 0 [0] 3 2; Net 2 [0] 1 1; Net 1 [1] 2 2] 3; mk_hg 5 5 [Vertex 2 [0; 1] 1 1] [Net 0 [2] 3 2; Net 1 [2] 2 2] 2;
  mk_hg 5 5 [Vertex 3 [3; 4] 1 2; Vertex 4 [4] 1 2] [Net 3 [3] 1 1; Net 4 [3; 4] 7 2] 3].
Definition cp3_groups : list (list (hg * list net)) := [with_none (take 2 cp3); with_none (drop 2 cp3)].
Example C64_example : lawful_family blocks ∧
  (∀ g, g ∈ cp3_groups → g ≠ [] ∧ distributed 5 (fst <$> g) ∧ no_bare (fst <$> g) ∧ ∀ v, v ∈ all_verts (fst <$> g) → 0 ≤ v_id v) ∧ one_by_one cp3_groups ∧
  match remove_cut_nets_par blocks cp3_groups w0 with
  | Ok (gs', _) => bool_decide (((λ P : hg * list net, (n_id <$> h_nets (fst P), (v_nets <$> h_verts (fst P), snd P))) <$> concat gs') =
      [([2], ([[2]; []], [Net 1 [1] 2 0; Net 0 [0] 3 0])); ([], ([[]], [Net 1 [2] 2 0; Net 0 [2] 3 0])); ([3], ([[3]; []], [Net 4 [3; 4] 7 0]))])
  | Err _ => false end = true.
Proof.
  split; [apply blocks_lawful|]. split; [|split].
  - intros g [->|[->|[]%elem_of_nil]%elem_of_cons]%elem_of_cons; (split; [done|]; split; [dec_distributed|]; split;
      [intros n; revert n|intros v; revert v]; apply Forall_forall, (bool_decide_eq_true_1 _); vm_compute; reflexivity).
  - intros [|t] g Hg; [by injection Hg as <-|done].
  - vm_compute. reflexivity.
Qed.
(** net 4 of the last processor has both vertices in the same part and is taken out *)
Example C64_uncut_example : gpart (drop 2 cp3) 3 = gpart (drop 2 cp3) 4 ∧ gverts (drop 2 cp3) 4 = [3; 4].
Proof. split; vm_compute; reflexivity. Qed.

(** ** C65: putting the nets back *)

(** the state in which nets are put back: [Hs] is distributed, the nets [R] have been set aside ([ps]), and then vertices have
    been moved between processors and given other parts ([ps2]) *)
Lemma shed_moved gn Hs R ps ps2 : distributed gn Hs → Forall2 (nets_taken R) (with_none Hs) ps → rearranged gn (fst <$> ps) (fst <$> ps2) → snd <$> ps2 = snd <$> ps →
  shed gn R (with_none Hs) ps2.
Proof.
  intros HD HF Hre Hsn. assert (fst <$> with_none Hs = Hs) as HG. { unfold with_none. rewrite <-list_fmap_compose. by apply list_fmap_id. }
  assert (shed gn R (with_none Hs) ps) as H1.
  { apply shed_taken; [exact (eq_ind_r (distributed gn) HD HG)|]. eapply Forall2_impl; [exact HF|]. intros P P'. apply taken_spec. }
  assert (shed gn (R ++ []) (with_none Hs) ps2) as H2.
  { eapply shed_trans; [exact H1|]. apply shed_rearranged; [apply (sh_dist _ _ _ _ H1)|exact Hre|exact Hsn]. }
  by rewrite app_nil_r in H2.
Qed.
(** C65, what holds.  After nets have been set aside and vertices have been moved between processors, putting the nets back ends
    on all processors for every order of arrival.  Every net has exactly the vertices it had and its cost, over all processors; every processor's
    pieces are of vertices it has; vertices keep id, weight and part and stay where they are; a vertex lists the nets it did, and those that another processor
    set aside for it.  Missing: the nets that the vertex's own processor set aside (C65_unlisted_refuted). *)
Lemma C65_put_back_partial_proof : ∀ gn Hs R ps ps2 w, distributed gn Hs → Forall2 (nets_taken R) (with_none Hs) ps →
  rearranged gn (fst <$> ps) (fst <$> ps2) → snd <$> ps2 = snd <$> ps →
  ∃ Hs' w', add_cut_nets_par ps2 w = Ok (Hs', w') ∧ nets_back ps2 Hs' ∧ (∀ i, gverts Hs' i ≡ₚ gverts Hs i) ∧
    (∀ n', n' ∈ all_nets Hs' → ∃ n, n ∈ all_nets Hs ∧ n_id n = n_id n' ∧ n_cost n = n_cost n').
Proof.
  intros gn Hs R ps ps2 w HD HF Hre Hsnd. pose proof (shed_moved gn Hs R ps ps2 HD HF Hre Hsnd) as Hsh.
  assert (fst <$> with_none Hs = Hs) as HG. { unfold with_none. rewrite <-list_fmap_compose. by apply list_fmap_id. }
  assert (wp (add_cut_nets_par ps2) (λ Hs', nets_back ps2 Hs' ∧ (∀ i, gverts Hs' i ≡ₚ gverts Hs i) ∧
    (∀ n', n' ∈ all_nets Hs' → ∃ n, n ∈ all_nets Hs ∧ n_id n = n_id n' ∧ n_cost n = n_cost n'))) as Hw.
  { eapply (wpe_add_cut_nets_par gn); [by eapply shed_keepers|]. intros Hs' Hb. split; [done|]. split.
    - intros i. rewrite (nb_verts _ _ Hb i). by eapply shed_back.
    - by eapply back_costs. }
  apply wp_run with (w := w) in Hw as (Hs' & w' & Heq & ?). eauto.
Qed.
(** C65, refuted for the nets the vertices list: if no vertex has been moved, afterwards no vertex lists any of the nets
    that had been set aside, although these nets have their vertices again. *)
Lemma C65_unlisted_refuted_proof : ∀ gn Hs R ps w Hs' w', distributed gn Hs → Forall2 (nets_taken R) (with_none Hs) ps →
  add_cut_nets_par ps w = Ok (Hs', w') → ∀ i v, i ∈ R → v ∈ all_verts Hs' → i ∉ v_nets v.
Proof.
  intros gn Hs R ps w Hs' w' HD HF Hrun i v' Hi Hv'.
  assert (fst <$> with_none Hs = Hs) as HG. { unfold with_none. rewrite <-list_fmap_compose. by apply list_fmap_id. }
  assert (shed gn R (with_none Hs) ps) as Hsh.
  { apply shed_taken; [exact (eq_ind_r (distributed gn) HD HG)|]. eapply Forall2_impl; [exact HF|]. intros P P'. apply taken_spec. }
  assert (wp (add_cut_nets_par ps) (nets_back ps)) as Hw by (eapply (wpe_add_cut_nets_par gn); [by eapply shed_keepers|done]).
  specialize (Hw w). rewrite Hrun in Hw. clear Hrun.
  unfold all_verts in Hv'. apply CoarsenProof.elem_of_concat in Hv' as (l & Hvl & (H' & -> & HH')%elem_of_list_fmap).
  apply elem_of_list_lookup in HH' as [t Ht]. apply elem_of_list_lookup in Hvl as [j Hj].
  destruct (lookup_lt_is_Some_2 ps t) as [P HP]. { rewrite <-(nb_len _ _ Hw). by eapply lookup_lt_Some. }
  destruct (nb_same _ _ Hw t P H' HP Ht) as [Hvs _].
  destruct (lookup_lt_is_Some_2 (h_verts (fst P)) j) as [v Hv].
  { rewrite <-(fmap_length vertex_but_nets), <-Hvs, fmap_length. by eapply lookup_lt_Some. }
  destruct (nb_lists _ _ Hw t P H' j v v' HP Ht Hv Hj) as [_ Hl]. rewrite Hl. intros [Hx|(s & P2 & n & Hst & HP2 & Hn & Hid & Hvn)].
  - destruct (Forall2_lookup_r _ _ _ _ _ HF HP) as (P0 & _ & HT). destruct (Forall2_lookup_r _ _ _ _ _ (nt_verts _ _ _ HT) Hv) as (v0 & _ & _ & Hp).
    rewrite Hp in Hx. by apply elem_of_list_filter in Hx as [? _].
  - apply Hst. destruct (Forall2_lookup_r _ _ _ _ _ HF HP) as (P0 & HP0 & HT). destruct (Forall2_lookup_r _ _ _ _ _ HF HP2) as (P20 & HP20 & HT2).
    apply list_lookup_fmap_Some in HP0 as (H0 & HH0 & ->). apply list_lookup_fmap_Some in HP20 as (H2 & HH2 & ->).
    destruct (nt_kept _ _ _ HT2) as (add & Hadd & Hperm). simpl in Hadd. rewrite Hadd, Hperm in Hn. apply elem_of_list_fmap in Hn as (m & -> & [_ Hm]%elem_of_list_filter). simpl in *.
    assert (v_id v ∈ v_id <$> h_verts H2) as Hin2. { eapply net_in_vids; [|exact Hm|exact Hvn]. apply (di_local _ _ HD). by eapply elem_of_list_lookup_2. }
    destruct (Forall2_lookup_r _ _ _ _ _ (nt_verts _ _ _ HT) Hv) as (v0 & Hv0 & Hvb & _). unfold vertex_but_nets in Hvb. injection Hvb as Hvid _ _. simpl in Hv0.
    assert (v_id v ∈ v_id <$> h_verts H0) as Hin0. { rewrite Hvid. apply elem_of_list_fmap_1. by eapply elem_of_list_lookup_2. }
    eapply NoDup_concat_inj with (ls := (λ H, v_id <$> h_verts H) <$> Hs).
    + pose proof (di_verts _ _ HD) as Hnd. unfold all_verts in Hnd. rewrite fmap_concat_fmap in Hnd. exact Hnd.
    + rewrite list_lookup_fmap, HH2. reflexivity.
    + rewrite list_lookup_fmap, HH0. reflexivity.
    + exact Hin2.
    + exact Hin0.
Qed.
(** the processors of [cp3] after C64_example, and after two vertices have been moved *)
Definition cp3_ps : list (hg * list net) := [
  (mk_hg 5 5 [Vertex 0 [2] 1 0; Vertex 1 [] 2 0] [Net 2 [0] 1 1] 3, [Net 1 [1] 2 0; Net 0 [0] 3 0]);
  (mk_hg 5 5 [Vertex 2 [] 1 1] [] 2, [Net 1 [2] 2 0; Net 0 [2] 3 0]);
  (mk_hg 5 5 [Vertex 3 [3] 1 2; Vertex 4 [] 1 2] [Net 3 [3] 1 1] 3, [Net 4 [3; 4] 7 0])].
Definition cp3_moved : list (hg * list net) := [
  (mk_hg 5 5 [Vertex 0 [2] 1 5; Vertex 4 [] 1 3] [Net 2 [0] 1 1] 3, [Net 1 [1] 2 0; Net 0 [0] 3 0]);
  (mk_hg 5 5 [Vertex 2 [] 1 4; Vertex 1 [] 2 4] [] 2, [Net 1 [2] 2 0; Net 0 [2] 3 0]);
  (mk_hg 5 5 [Vertex 3 [3] 1 2] [Net 3 [3] 1 1] 3, [Net 4 [3; 4] 7 0])].
Lemma dec_taken R P P' : bool_decide (h_nets (fst P') = filter (λ n, n_id n ∉ R) (h_nets (fst P)) ∧
    (λ v, (vertex_but_nets v, v_nets v)) <$> h_verts (fst P') = (λ v, (vertex_but_nets v, filter (λ i, i ∉ R) (v_nets v))) <$> h_verts (fst P) ∧
    h_gsize (fst P') = h_gsize (fst P) ∧ h_gnets (fst P') = h_gnets (fst P) ∧ h_nz (fst P') = h_nz (fst P) ∧
    snd P = [] ∧ snd P' ≡ₚ (λ n, Net (n_id n) (n_verts n) (n_cost n) 0) <$> filter (λ n, n_id n ∈ R) (h_nets (fst P))) = true → consistent (fst P') → nets_taken R P P'.
Proof.
  intros (H1 & H2 & H3 & H4 & H5 & H6 & H7)%bool_decide_eq_true HC. split; [by rewrite H1| |done|done|exists (snd P'); rewrite H6; split; [done|exact H7]].
  apply Forall2_same_length_lookup. pose proof (f_equal length H2) as Hl. rewrite !fmap_length in Hl. split; [done|]. intros j v v' Hv Hv'.
  pose proof (lookup_fmap_1 (λ v, (vertex_but_nets v, v_nets v)) _ j v' Hv') as Hx. rewrite H2, (lookup_fmap_1 _ _ j v Hv) in Hx. injection Hx as Ha Hb Hc Hd.
  unfold vertex_but_nets. rewrite Ha, Hb, Hc, Hd. done.
Qed.
Example C65_example : distributed 5 cp3 ∧ Forall2 (nets_taken [0; 1; 4]) (with_none cp3) cp3_ps ∧ rearranged 5 (fst <$> cp3_ps) (fst <$> cp3_moved) ∧ snd <$> cp3_moved = snd <$> cp3_ps ∧
  match add_cut_nets_par cp3_moved w0 with
  | Ok (Hs', _) => bool_decide (((λ H, ((λ v, (v_id v, v_nets v)) <$> h_verts H, net_data <$> h_nets H)) <$> Hs') =
      [([(0, [2]); (4, [4])], [(2, [0], 1); (1, [], 2); (0, [0], 3); (4, [4], 7)]); ([(2, []); (1, [1])], [(1, [2; 1], 2); (0, [2], 3)]); ([(3, [3])], [(3, [3], 1); (4, [3], 7)])])
  | Err _ => false end = true.
Proof.
  split; [dec_distributed|]. split; [|split; [|split; [reflexivity|vm_compute; reflexivity]]].
  - unfold with_none, cp3, cp3_ps. csimpl. repeat (constructor; [apply dec_taken; [vm_compute; reflexivity|apply mk_hg_consistent_dec; vm_compute; reflexivity]|]). constructor.
  - assert (all_nets (fst <$> cp3_moved) = all_nets (fst <$> cp3_ps)) as Hsame by (vm_compute; reflexivity).
    split; [dec_distributed|reflexivity| |intros e He; exists e; rewrite <-Hsame; split; [exact He|split; reflexivity]|reflexivity|reflexivity].
    apply (bool_decide_eq_true_1 _). vm_compute. reflexivity.
Qed.

(** ** C66: recursive bisection with the cut-net metric *)

(** C66, what holds.  For every number of processors, k of at least two, imbalance, options, random sequence and order of arrival, recursive bisection
    with the cut-net metric on several processors either ends with every vertex in a part in [0,k), the same vertices with their weights, and
    every net with the vertices and the cost it had, over all processors; or blocks, processors waiting for each other (C66_deadlock_refuted), but not
    with two parts; or executes an undefined operation; or, with random samples only, fails an assertion.  With two parts every processor's
    hypergraph is consistent.  Missing: the vertices do not list their nets (C66_unlisted_refuted); the runs that block or are undefined. *)
Lemma C66_recursive_cut_par_partial_proof : ∀ bp gn Hs k eps eta opts w, lawful_family bp → spread_pre gn Hs → (∀ v, v ∈ all_verts Hs → 0 ≤ v_id v) → Hs ≠ [] →
  Z.of_nat (length Hs) ≤ 2 ^ 50 → 2 ≤ k ≤ 2 ^ 50 → (∀ M, part_limit (gweight Hs) k eps = Some M → 0 ≤ M ∧ M * k ≤ 2 ^ 50) →
  valid_binary 53 1024 eta = true → d_le d_zero eta = true → d_le eta (d_of_Z (2 ^ 50)) = true →
  (o_bisection opts = BisMultilevel → Z.of_nat (length Hs) ≤ o_sample_size opts) →
  match recursive_bisect_cut bp Hs k eps eta opts w with
  | Ok (Some Hs', _) => same_whole Hs Hs' ∧ (∀ H', H' ∈ Hs' → nets_sound H') ∧ (∀ v, v ∈ all_verts Hs' → 0 ≤ v_part v < k) ∧ (k = 2 → distributed gn Hs')
  | Ok (None, _) => k ≠ 2
  | Err e => e = UB ∨ e = Abort ∧ o_bisection opts = BisMultilevel ∧ o_sampling opts = SampRandom
  end.
Proof.
  intros bp gn Hs k eps eta opts w Hbp Hpre Hids Hne Hlen Hk HM Hv He0 He1 HS.
  assert (wpe (λ e, e = UB ∨ e = Abort ∧ o_bisection opts = BisMultilevel ∧ o_sampling opts = SampRandom) (recursive_bisect_cut bp Hs k eps eta opts)
    (λ o, match o with Some Hs' => same_whole Hs Hs' ∧ (∀ H', H' ∈ Hs' → nets_sound H') ∧ (∀ v, v ∈ all_verts Hs' → 0 ≤ v_part v < k) ∧ (k = 2 → distributed gn Hs') | None => k ≠ 2 end)) as Hw.
  { eapply (wpe_recursive_bisect_cut bp _ gn); [done..|by left| |done|done|].
    - destruct (o_bisection opts) eqn:Hb; [by right|]. destruct (o_sampling opts) eqn:Hsm; [left; by right|by right].
    - intros R G Hs' Hsh Htwo HB Hp. split; [by eapply shed_same; [apply Hpre|..]|]. split; [apply HB|]. split; [by eapply (back_parts G Hs' (λ p, 0 ≤ p < k))|].
      intros Hk2. destruct (Htwo Hk2) as [_ ->]. apply Hsh. }
  specialize (Hw w). destruct (recursive_bisect_cut _ _ _ _ _ _ w) as [[[Hs'|] w']|e]; done.
Qed.
(** nine vertices without nets on three processors *)
Definition l3 : list hg := [lone 9 0 [1; 1; 1]; lone 9 3 [1; 1; 1]; lone 9 6 [1; 1; 1]].
Lemma l3_spread : spread_pre 0 l3.
Proof. dec_spread. Qed.
(** C66, refuted: a run of three processors that never ends.  A third of the weight goes to the low half and one processor; it does another number of splits
    than the two others, and calls remove_cut_nets another number of times. *)
Lemma C66_deadlock_refuted_proof : ∃ Hs k eps M opts w w', spread_pre 0 Hs ∧ length Hs = 3%nat ∧ length (all_verts Hs) = 9%nat ∧ k = 9 ∧
  part_limit (gweight Hs) k eps = Some M ∧ 0 ≤ M ∧ o_metric opts = CutNet ∧ recursive_bisect_cut blocks Hs k eps c29_eps opts w = Ok (None, w').
Proof.
  set (w := tape_of ([0; 0; 0; 1; 1; 1; 1; 1; 1] ++ bits 100)).
  assert (match recursive_bisect_cut blocks l3 9 r_eps c29_eps (c29_opts CutNet BisRandom) w with Ok (None, _) => true | _ => false end = true) as Hb by (vm_compute; reflexivity).
  destruct (recursive_bisect_cut blocks l3 9 r_eps c29_eps (c29_opts CutNet BisRandom) w) as [[[Hs'|] w']|e] eqn:Heq; [done| |done].
  exists l3, 9, r_eps, 3, (c29_opts CutNet BisRandom), w, w'. split; [exact l3_spread|]. split; [done|]. split; [done|]. split; [done|].
  split; [vm_compute; reflexivity|]. split; [lia|]. split; done.
Qed.
(** C66, refuted: after a run of two processors with four parts vertex 0, which stayed on its processor, does not list net 0, though the net has it. *)
Lemma C66_unlisted_refuted_proof : ∃ Hs k eps M opts w Hs' w', spread_pre 5 Hs ∧ length Hs = 2%nat ∧ k = 4 ∧ part_limit (gweight Hs) k eps = Some M ∧ o_metric opts = CutNet ∧
  recursive_bisect_cut blocks Hs k eps c29_eps opts w = Ok (Some Hs', w') ∧ 0 ∈ gverts Hs' 0 ∧ ∃ v, v ∈ all_verts Hs' ∧ v_id v = 0 ∧ v_nets v = [].
Proof.
  set (o := c29_opts CutNet BisMultilevel).
  assert (match recursive_bisect_cut blocks qs 4 c29_eps c29_eps o w0 with
    | Ok (Some Hs', _) => bool_decide (0 ∈ gverts Hs' 0 ∧ (λ v, (v_id v, v_nets v)) <$> take 1 (all_verts Hs') = [(0, [])]) | _ => false end = true) as Hb by (vm_compute; reflexivity).
  destruct (recursive_bisect_cut blocks qs 4 c29_eps c29_eps o w0) as [[[Hs'|] w']|e] eqn:Heq; [|done|done]. apply bool_decide_eq_true in Hb as [Hb1 Hb2].
  exists qs, 4, c29_eps, 2, o, w0, Hs', w'. split; [exact qs_spread|]. split; [done|]. split; [done|]. split; [vm_compute; reflexivity|]. split; [done|]. split; [done|]. split; [done|].
  destruct (all_verts Hs') as [|v l]; [done|]. injection Hb2 as Hid Hn. exists v. split; [left|split; [exact Hid|exact Hn]].
Qed.

Example C66_example : lawful_family blocks ∧ spread_pre 5 qs ∧ (∀ v, v ∈ all_verts qs → 0 ≤ v_id v) ∧ part_limit (gweight qs) 4 c29_eps = Some 2 ∧
  valid_binary 53 1024 c29_eps = true ∧ d_le d_zero c29_eps = true ∧ d_le c29_eps (d_of_Z (2 ^ 50)) = true ∧
  match recursive_bisect_cut blocks qs 4 c29_eps c29_eps (c29_opts CutNet BisMultilevel) w0 with
  | Ok (Some Hs', _) => bool_decide ((λ H, (λ v, (v_id v, v_part v, v_nets v)) <$> h_verts H) <$> Hs' =
      [[(0, 0, []); (1, 0, []); (4, 0, [0; 3]); (6, 1, [3; 4])]; [(5, 2, []); (7, 3, []); (2, 2, [1; 2]); (3, 3, [2])]])
  | _ => false end = true.
Proof.
  split; [apply blocks_lawful|]. split; [exact qs_spread|]. split; [intros v; revert v; apply Forall_forall, (bool_decide_eq_true_1 _); vm_compute; reflexivity|].
  split; [vm_compute; reflexivity|]. split; [vm_compute; reflexivity|]. split; [vm_compute; reflexivity|]. split; vm_compute; reflexivity.
Qed.

Lemma back_gpart G Hs' q : nets_back G Hs' → gpart_weight Hs' q = gpart_weight (fst <$> G) q.
Proof.
  intros Hb. assert (vertex_but_nets <$> all_verts Hs' = vertex_but_nets <$> all_verts (fst <$> G)) as Hx.
  { pose proof (nb_len _ _ Hb) as Hlen. pose proof (λ t P H' HP HH', proj1 (nb_same _ _ Hb t P H' HP HH')) as Hs. clear Hb. revert Hs' Hlen Hs.
    induction G as [|P G IH]; intros [|H' Hs'] Hlen Hs; [done|done|done|]. unfold all_verts. csimpl. rewrite !fmap_app. f_equal; [by apply (Hs 0%nat P H')|].
    apply IH; [simpl in Hlen; lia|]. intros t. apply (Hs (S t)). }
  unfold gpart_weight. revert Hx. generalize (all_verts Hs'), (all_verts (fst <$> G)). intros l. induction l as [|v l IH]; intros [|u l'] Hx; [done|done|done|].
  csimpl in Hx. injection Hx as Hi Hw Hp Hx. rewrite !filter_cons, Hp. case_decide; csimpl; rewrite ?zsum_cons; rewrite (IH l' Hx); lia.
Qed.
(** C67.  Whenever every bisection of a run with the cut-net metric on any number of processors returns sides within the limits it was given (the
    program with bisections replaced by [checked] ones, which give up otherwise, ends normally), the run of the program is
    that run, and every part weighs at most M, which is (1+eps)*W/k evaluated in double precision and rounded down. *)
Lemma C67_imbalance_cut_par_proof : ∀ bp gn Hs k eps eta opts M w Hs' w', lawful_family bp → spread_pre gn Hs → (∀ v, v ∈ all_verts Hs → 0 ≤ v_id v) → Hs ≠ [] →
  Z.of_nat (length Hs) ≤ 2 ^ 50 → 2 ≤ k ≤ 2 ^ 50 → part_limit (gweight Hs) k eps = Some M → 0 ≤ M → M * k ≤ 2 ^ 50 →
  valid_binary 53 1024 eta = true → d_le d_zero eta = true → d_le eta (d_of_Z (2 ^ 50)) = true →
  (o_bisection opts = BisMultilevel → Z.of_nat (length Hs) ≤ o_sample_size opts) →
  recursive_bisect_cut_with (checked (bisect1 bp)) (checked_par (bisect_par bp)) bp Hs k eps eta opts w = Ok (Some Hs', w') →
  recursive_bisect_cut bp Hs k eps eta opts w = Ok (Some Hs', w') ∧ ∀ q, 0 ≤ q < k → gpart_weight Hs' q ≤ M.
Proof.
  intros bp gn Hs k eps eta opts M w Hs' w' Hbp Hpre Hids Hne Hlen Hk HM HM0 HMk Hv He0 He1 HS Hrun. split.
  - eapply run_recursive_cut; [..|exact Hrun]; intros; [apply run_checked|apply run_checked_par].
  - assert (wpe (λ _, True) (recursive_bisect_cut_with (checked (bisect1 bp)) (checked_par (bisect_par bp)) bp Hs k eps eta opts)
      (λ o, match o with Some Hs' => ∀ q, 0 ≤ q < k → gpart_weight Hs' q ≤ M | None => True end)) as Hw.
    { eapply (wpe_recursive_bisect_cut_with True _ _ bp _ gn); [by apply checked_ok, bisect1_ok|by apply checked_par_ok, bisect_par_ok|done..| |done|done|by left|done|done|].
      - intros M' HM'. unfold part_limit in HM. assert (M' = M) as -> by congruence. done.
      - intros M' R G H1 HM' _ _ HB _ Hlim q Hq. unfold part_limit in HM. assert (M' = M) as -> by congruence. rewrite (back_gpart G H1 q HB). by apply Hlim. }
    specialize (Hw w). rewrite Hrun in Hw. exact Hw.
Qed.
Example C67_example : lawful_family blocks ∧ spread_pre 5 qs ∧ (∀ v, v ∈ all_verts qs → 0 ≤ v_id v) ∧ part_limit (gweight qs) 4 c61_eps = Some 3 ∧
  match recursive_bisect_cut_with (checked (bisect1 blocks)) (checked_par (bisect_par blocks)) blocks qs 4 c61_eps c29_eps (c29_opts CutNet BisMultilevel) w0 with
  | Ok (Some Hs', _) => bool_decide (gpart_weight Hs' <$> [0; 1; 2; 3] = [3; 2; 3; 2]) | _ => false end = true.
Proof.
  split; [apply blocks_lawful|]. split; [exact qs_spread|]. split; [intros v; revert v; apply Forall_forall, (bool_decide_eq_true_1 _); vm_compute; reflexivity|].
  split; vm_compute; reflexivity.
Qed.
