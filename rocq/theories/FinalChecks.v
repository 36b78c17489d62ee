(** The property lemmas of C71: the self-checks. *)
From Verif Require Export Checks SpecChecks FinalKlfm ParCut.
Local Open Scope list_scope.

(** [m] prints nothing exactly if [P]; if it fails, then [P] is false *)
Definition tells {B} (m : M (list B)) (P : Prop) : Prop :=
  ∀ w, match m w with Ok (ms, w') => w' = w ∧ (ms = [] ↔ P) | Err e => (e = Abort ∨ e = UB) ∧ ¬ P end.
Lemma tells_iff {B} (m : M (list B)) P Q : (P ↔ Q) → tells m P → tells m Q.
Proof. intros HPQ Hm w. specialize (Hm w). destruct (m w) as [[ms w']|e]; by rewrite <-HPQ. Qed.
Lemma tells_app {B} (m m' : M (list B)) P P' : tells m P → tells m' P' → tells (a <- m ;; b <- m' ;; ret (a ++ b)) (P ∧ P').
Proof.
  intros Hm Hm' w. unfold bind. specialize (Hm w). destruct (m w) as [[a w1]|e]; [|naive_solver]. destruct Hm as [-> Ha].
  specialize (Hm' w). destruct (m' w) as [[b w2]|e]; [|naive_solver]. destruct Hm' as [-> Hb]. unfold ret. split; [done|].
  rewrite <-Ha, <-Hb. split; [by intros [? ?]%app_nil|by intros [-> ->]].
Qed.
Lemma tells_printed {A B} (f : A → M (list B)) l (P : A → Prop) : (∀ x, x ∈ l → tells (f x) (P x)) → tells (printed f l) (∀ x, x ∈ l → P x).
Proof.
  unfold printed. induction l as [|x l IH]; intros Hf w; unfold bind; simpl.
  - unfold ret. split; [done|]. split; [set_solver|done].
  - unfold bind. pose proof (Hf x ltac:(left) w) as Hx. destruct (f x w) as [[a w1]|e]; [|split; [tauto|]; intros Hp; apply Hx, Hp; left]. destruct Hx as [-> Ha].
    specialize (IH ltac:(intros y Hy; apply Hf; by right) w). unfold bind in IH. destruct (mapP f l w) as [[xs w2]|e]; unfold ret in *.
    + destruct IH as [-> Hb]. split; [done|]. simpl. split.
      * intros [Hx Hxs]%app_nil y [->|Hy]%elem_of_cons; [by apply Ha|]. by apply Hb.
      * intros Hp. rewrite (proj2 Ha) by (apply Hp; left). simpl. apply Hb. intros y Hy. apply Hp. by right.
    + destruct IH as [He Hn]. split; [done|]. intros Hp. apply Hn. intros y Hy. apply Hp. by right.
Qed.

Lemma tells_vertex H id : tells (check_vertex_id H id) (vertex_found H id).
Proof.
  intros w. unfold check_vertex_id, vertex_found. destruct (h_vmap H !! id) as [i|] eqn:Hi; [|unfold ret; naive_solver].
  unfold bind, local_id, of_option, bind, assertM. rewrite Hi. unfold ret, fail, nidx, of_option.
  destruct (h_verts H !! i) as [v|] eqn:Hv.
  - rewrite bool_decide_true by (by eapply lookup_lt_Some). unfold ret. rewrite Hv. unfold ret. split; [done|]. destruct (decide (v_id v ≠ id)) as [Hne|He].
    + split; [done|]. intros (i' & v' & ? & ? & ?). simplify_eq.
    + split; [|done]. intros _. exists i, v. split; [done|]. split; [done|]. by apply dec_stable.
  - rewrite bool_decide_false by (apply lookup_ge_None in Hv; lia). split; [by left|]. intros (i' & v' & ? & ? & ?). simplify_eq.
Qed.
Lemma tells_net H id : tells (check_net_id H id) (net_found H id).
Proof.
  intros w. unfold check_net_id, net_found. destruct (h_nmap H !! id) as [i|] eqn:Hi; [|unfold ret; naive_solver].
  unfold bind, local_id_net, of_option. rewrite Hi. unfold ret, fail, nidx, of_option.
  destruct (h_nets H !! i) as [v|] eqn:Hv.
  - unfold ret. split; [done|]. destruct (decide (n_id v ≠ id)) as [Hne|He].
    + split; [done|]. intros (i' & v' & ? & ? & ?). simplify_eq.
    + split; [|done]. intros _. exists i, v. split; [done|]. split; [done|]. by apply dec_stable.
  - split; [by right|]. intros (i' & v' & ? & ? & ?). simplify_eq.
Qed.

(** C71.  check_maps prints nothing exactly if every id that occurs in the hypergraph leads to the vertex or net with that id; if it stops with an
    assertion, or reads out of range, then some id does not.  Its lookups change nothing. *)
Lemma C71_check_maps_proof : ∀ H w, match check_maps H w with
  | Ok (lines, w') => w' = w ∧ (lines = [] ↔ ids_lead H)
  | Err e => (e = Abort ∨ e = UB) ∧ ¬ ids_lead H
  end.
Proof.
  intros H. change (tells (check_maps H) (ids_lead H)). unfold check_maps, ids_lead. apply tells_app; apply tells_printed; intros x _; apply tells_app;
    try apply tells_vertex; try apply tells_net; apply tells_printed; intros y _; [apply tells_net|apply tells_vertex].
Qed.
(** C71, on consistent hypergraphs, which are what the operations of the program produce (C01): check_maps is silent. *)
Lemma C71_check_maps_silent_proof : ∀ H w, consistent H → check_maps H w = Ok ([], w).
Proof.
  intros H w HC. pose proof (C71_check_maps_proof H w) as Hm.
  assert (∀ v, v ∈ h_verts H → vertex_found H (v_id v)) as Hv.
  { intros v [i Hi]%elem_of_list_lookup. exists i, v. split; [|done]. apply (co_vmap _ HC). eauto. }
  assert (∀ n, n ∈ h_nets H → net_found H (n_id n)) as Hn.
  { intros n [i Hi]%elem_of_list_lookup. exists i, n. split; [|done]. apply (co_nmap _ HC). eauto. }
  assert (ids_lead H) as Hl.
  { split.
    - intros v Hin. split; [by apply Hv|]. intros id Hid. destruct (co_inc1 _ HC v id Hin Hid) as (n & Hnn & <- & _). by apply Hn.
    - intros n Hin. split; [|by apply Hn]. intros id Hid. destruct (co_inc2 _ HC n id Hin Hid) as (v & Hvv & <- & _). by apply Hv. }
  destruct (check_maps H w) as [[ls w']|e]; [|tauto]. destruct Hm as [-> Hm]. by rewrite (proj2 Hm Hl).
Qed.

Lemma wpe_check_gains E G (Q : list (Z * Z * Z) → Prop) : consistent (g_H G) → bisected (g_H G) → part_sorted (g_H G) → exact_counts (g_H G) (g_C G) →
  length (g_gains G) = length (h_verts (g_H G)) →
  (∀ l, (∀ x, x ∈ l ↔ ∃ i v g, h_verts (g_H G) !! i = Some v ∧ g_gains G !! i = Some g ∧ g ≠ long_min ∧ g ≠ cut_decrease (g_H G) v ∧ x = (v_id v, g, cut_decrease (g_H G) v)) → Q l) →
  wpe E (check_gains G) Q.
Proof.
  intros HC HB HS HCt Hl HQ. unfold check_gains, printed. apply wpe_bind.
  apply (wpe_mapP E _ (λ _ i y, ∃ v g, h_verts (g_H G) !! i = Some v ∧ g_gains G !! i = Some g ∧
     y = if decide (g ≠ long_min ∧ g ≠ cut_decrease (g_H G) v) then [(v_id v, g, cut_decrease (g_H G) v)] else [])).
  - intros j i [-> Hi]%lookup_seq. simpl. destruct (lookup_lt_is_Some_2 (h_verts (g_H G)) j ltac:(lia)) as [v Hv].
    destruct (lookup_lt_is_Some_2 (g_gains G) j ltac:(lia)) as [g Hg]. apply wpe_bind. eapply wpe_nidx; [exact Hg|].
    destruct (decide (g ≠ long_min)) as [Hne|Heq].
    + apply wpe_bind. unfold vert_at. eapply wpe_of_option_Some; [exact Hv|]. apply wpe_bind. apply elem_of_list_lookup_2 in Hv as Hin.
      apply wpe_compute_gain; [done|rewrite HCt; by rewrite fmap_length|done|by apply HB|].
      rewrite gain_fun_flip by (done || by apply part_sorted_iff). apply wpe_ret. exists v, g. split; [done|]. split; [done|].
      fold (cut_decrease (g_H G) v). destruct (decide (cut_decrease (g_H G) v ≠ g)); [rewrite decide_True by naive_solver|rewrite decide_False by naive_solver]; done.
    + apply wpe_ret. exists v, g. split; [done|]. split; [done|]. rewrite decide_False by tauto. done.
  - intros l' Hlen Hl'. apply wpe_ret, HQ. intros x. rewrite seq_length in Hlen. split.
    + intros Hx%elem_of_list_In. apply in_concat in Hx as (y & Hy%elem_of_list_In & Hx%elem_of_list_In). apply elem_of_list_lookup in Hy as [i Hy]. assert (i < length (h_verts (g_H G)))%nat as Hi by (rewrite <-Hlen; by eapply lookup_lt_Some).
      destruct (Hl' i i y (lookup_seq_lt 0 _ i Hi) Hy) as (v & g & Hv & Hg & ->). exists i, v, g. destruct (decide _) as [[? ?]|]; [|by apply elem_of_nil in Hx].
      apply elem_of_list_singleton in Hx. done.
    + intros (i & v & g & Hv & Hg & Hne & Hnc & ->). assert (i < length (h_verts (g_H G)))%nat as Hi by (by eapply lookup_lt_Some).
      destruct (lookup_lt_is_Some_2 l' i ltac:(lia)) as [y Hy]. destruct (Hl' i i y (lookup_seq_lt 0 _ i Hi) Hy) as (v' & g' & Hv' & Hg' & ->). simplify_eq.
      apply elem_of_list_In, in_concat. eexists. split; [apply elem_of_list_In; by eapply elem_of_list_lookup_2|]. rewrite decide_True by done. by left.
Qed.
(** C71.  check_gains reports exactly the vertices that are not locked and whose recorded gain is not the decrease of the cut if they move, with the right gain. *)
Lemma C71_check_gains_proof : ∀ G w, consistent (g_H G) → bisected (g_H G) → part_sorted (g_H G) → exact_counts (g_H G) (g_C G) →
  length (g_gains G) = length (h_verts (g_H G)) →
  ∃ lines w', check_gains G w = Ok (lines, w') ∧ ∀ x, x ∈ lines ↔
    ∃ i v g, h_verts (g_H G) !! i = Some v ∧ g_gains G !! i = Some g ∧ g ≠ long_min ∧ g ≠ cut_decrease (g_H G) v ∧ x = (v_id v, g, cut_decrease (g_H G) v).
Proof.
  intros G w HC HB HS HCt Hl.
  assert (wp (check_gains G) (λ l, ∀ x, x ∈ l ↔ ∃ i v g, h_verts (g_H G) !! i = Some v ∧ g_gains G !! i = Some g ∧ g ≠ long_min ∧ g ≠ cut_decrease (g_H G) v ∧ x = (v_id v, g, cut_decrease (g_H G) v))) as Hw
    by (by apply wpe_check_gains).
  apply wp_run with (w := w) in Hw as (l & w' & Heq & Hq). eauto.
Qed.
(** C71, in a run of the sequential refinement: after any history of moves, removals and queries check_gains is silent. *)
Lemma C71_check_gains_silent_proof : ∀ H C ops w, klfm_pre H → bisected H → part_sorted H → exact_counts H C → gops_ok H ops →
  ∃ w', bind (gs_run H C ops) check_gains w = Ok ([], w').
Proof.
  intros H C ops w Hpre HB HS HCt Hok.
  assert (wp (bind (gs_run H C ops) check_gains) (λ l, l = [])) as Hw.
  { apply wpe_bind. eapply wpe_gs_run; [done..|]. intros S G [HK Hcs HI Hp]. pose proof HK as [Hs HC HB' HS' HCt' _].
    apply wpe_check_gains; [done|done|by apply part_sorted_iff|done|apply (gi_len _ _ _ _ HI)|]. intros l Hl.
    destruct l as [|x l]; [done|exfalso]. destruct (proj1 (Hl x) ltac:(left)) as (i & v & g & Hv & Hg & Hne & Hnc & _).
    rewrite (gi_gains _ _ _ _ HI i v Hv) in Hg. injection Hg as <-. destruct (decide _); [done|]. apply Hnc. apply gain_fun_flip; try done. by eapply elem_of_list_lookup_2. }
  apply wp_run with (w := w) in Hw as (l & w' & Heq & ->). eauto.
Qed.

(** a history of moves on a bisected hypergraph: silent; with a wrong gain: reported; with a wrong index: reported *)
Example C71_example : klfm_pre klH ∧ bisected klH ∧ part_sorted klH ∧ exact_counts klH klC ∧ gops_ok klH kl_ops ∧ consistent klH ∧
  match gs_run klH klC kl_ops w0 with
  | Ok (G, _) => check_gains (with_gains (<[0%nat := 3]> (g_gains G)) G) w0 = Ok ([(v_id (default (Vertex 0 [] 0 0) (h_verts klH !! 0%nat)), 3, 4)], w0)
  | Err _ => False end ∧
  check_maps (with_vmap (<[v_id (default (Vertex 0 [] 0 0) (h_verts klH !! 0%nat)) := 1%nat]> (h_vmap klH)) klH) w0 ≠ Ok ([], w0).
Proof.
  destruct C13_example as (? & ? & ? & ? & ? & _). split; [done|]. split; [done|]. split; [done|]. split; [done|]. split; [done|]. split; [by apply klH_pre|].
  split; [vm_compute; reflexivity|]. vm_compute. discriminate.
Qed.
