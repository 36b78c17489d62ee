(** Property theorems (generated by tools/gen_theorems.py from FinalKlfmPar.v: same
    statements, each closed by the lemma proved there). *)
From Verif Require Import FinalKlfmPar.

(** C50, what holds in all cases: the refinement ends, with no outcome but a result or an access out of
    range.  If it gives a result, it is the same value on all processors, the true cut of the resulting
    bisection and not larger than the cut before; the counts over all processors are exact, so are the
    local counts; nothing but parts and orders inside nets has changed.  For every order of messages,
    random choices and options; the given cut is the true one or "not given".  The running weights [ws]
    may be anything.  Missing: accesses out of range do occur, see the refutation. *)
Theorem C50_klfm_par_partial (bp : Z → Z → partitioning) gn Hs Cs ws mx opts cut w :
  lawful_family bp → 0 ≤ gn → distributed gn Hs → Hs ≠ [] → (∀ H, H ∈ Hs → klfm_pre H) →
  (∀ v, v ∈ all_verts Hs → v_part v = 0 ∨ v_part v = 1) →
  (∀ n, n ∈ all_nets Hs → n_gsize n = gsize Hs (n_id n)) →
  Cs = (λ H, (λ n, (gcount Hs (n_id n) 0, gcount Hs (n_id n) 1)) <$> h_nets H) <$> Hs →
  cut = cut_by (o_metric opts) (whole_nets Hs gn) (gpart Hs) ∨ cut = long_max →
  match klfm_par bp Hs Cs ws mx opts cut w with
  | Ok (rs, _) => length rs = length Hs ∧ refined gn (o_metric opts) Hs rs
  | Err e => e = UB
  end.
Proof. apply C50_klfm_par_partial_proof. Qed.
Print Assumptions C50_klfm_par_partial.

(** C50 without any error: no local piece of a net is empty, the given weights are the true ones and
    within the limits, and either there is one processor or the limits cannot be exceeded at all (then
    no move is ever rejected).  The weights returned are then the true ones and within the limits. *)
Theorem C50_klfm_par_safe_partial (bp : Z → Z → partitioning) gn Hs Cs ws mx opts cut w :
  lawful_family bp → 0 ≤ gn → distributed gn Hs → Hs ≠ [] → (∀ H, H ∈ Hs → klfm_pre H) →
  (∀ v, v ∈ all_verts Hs → v_part v = 0 ∨ v_part v = 1) →
  (∀ n, n ∈ all_nets Hs → n_gsize n = gsize Hs (n_id n) ∧ n_verts n ≠ []) →
  Cs = (λ H, (λ n, (gcount Hs (n_id n) 0, gcount Hs (n_id n) 1)) <$> h_nets H) <$> Hs →
  cut = cut_by (o_metric opts) (whole_nets Hs gn) (gpart Hs) ∨ cut = long_max →
  ws = (gpart_weight Hs 0, gpart_weight Hs 1) → within ws mx →
  length Hs = 1%nat ∨ gweight Hs ≤ fst mx ∧ gweight Hs ≤ snd mx →
  ∃ rs w', klfm_par bp Hs Cs ws mx opts cut w = Ok (rs, w') ∧ length rs = length Hs ∧ refined gn (o_metric opts) Hs rs ∧
    let Hs' := (λ r : kin * Z, kn_H (fst r)) <$> rs in
    (∀ r, r ∈ rs → kn_ws (fst r) = (gpart_weight Hs' 0, gpart_weight Hs' 1)) ∧ within (gpart_weight Hs' 0, gpart_weight Hs' 1) mx.
Proof. apply C50_klfm_par_safe_partial_proof. Qed.
Print Assumptions C50_klfm_par_safe_partial.

(** with roomy limits the cut goes from 22 to 0 *)
Example C50_example : lawful_family blocks ∧ distributed 5 [ub0; ub1] ∧
  (30, 8) = (gpart_weight [ub0; ub1] 0, gpart_weight [ub0; ub1] 1) ∧ within (30, 8) (38, 38) ∧ gweight [ub0; ub1] = 38 ∧
  lambda_size (whole_nets [ub0; ub1] 5) (gpart [ub0; ub1]) = 22 ∧
  match klfm_par blocks [ub0; ub1] ub_counts (30, 8) (38, 38) three_passes long_max w0 with
  | Ok (rs, _) => (λ r : kin * Z, (v_part <$> h_verts (kn_H (fst r)), kn_ws (fst r), snd r)) <$> rs =
      [([0; 0; 0; 0], (38, 0), 0); ([0; 0; 0; 0], (38, 0), 0)]
  | Err _ => False
  end.
Proof.
  split; [apply blocks_lawful|]. split; [apply ub_ready|]. split; [vm_compute; reflexivity|]. split; [split; simpl; lia|].
  split; [vm_compute; reflexivity|]. split; vm_compute; reflexivity.
Qed.

(** C50 does not hold in general: taking back a rejected move restores counts and parts but not the
    gains of the neighbours.  With limits 33 and 20 processor 0 makes three moves next to vertex 0 that
    are all rejected; each lowers the gain of vertex 0 by 10, from 10 to -20, although no net of its
    processor changes, and the bucket for -20 does not exist. *)
Theorem C50_out_of_range_refuted :
  ∃ Hs Cs (ws mx : Z * Z) opts w, distributed 5 Hs ∧ (∀ H, H ∈ Hs → klfm_pre H) ∧
    (∀ v, v ∈ all_verts Hs → v_part v = 0 ∨ v_part v = 1) ∧
    (∀ n, n ∈ all_nets Hs → n_gsize n = gsize Hs (n_id n) ∧ n_verts n ≠ []) ∧
    Cs = (λ H, (λ n, (gcount Hs (n_id n) 0, gcount Hs (n_id n) 1)) <$> h_nets H) <$> Hs ∧
    ws = (gpart_weight Hs 0, gpart_weight Hs 1) ∧ within ws mx ∧
    klfm_par blocks Hs Cs ws mx opts long_max w = Err UB.
Proof. exact C50_out_of_range_refuted_proof. Qed.
Print Assumptions C50_out_of_range_refuted.
