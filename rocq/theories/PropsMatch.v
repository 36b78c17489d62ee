(** Property theorems (generated by tools/gen_theorems.py from FinalMatch.v: same
    statements, each closed by the lemma proved there). *)
From Verif Require Import FinalMatch.

(** C74.  One processor, after the samples of all processors have been announced to it ([box]):
    each of its vertices that is not a sample chooses an announced sample with which no other
    sample beats it in inner product, if any inner product is positive; for each sample, the
    requests that are sent are the best of the vertices that chose it, at most max_cluster_size.
    Every request carries a positive inner product. *)
Theorem C74_requests : ∀ H s p S mcs samples box w, consistent H → 0 < S →
  (∀ i, i ∈ samples → 0 ≤ i < Z.of_nat (length (h_verts H))) → (∀ m, m ∈ box → 0 ≤ sample_number S m < p * S) →
  ∃ best parts w',
    (best <- best_matches H S samples box ;; rq <- requested_matches H (p * S) best ;; send_requests s S mcs rq) w = Ok (concat parts, w') ∧
    length best = length (h_verts H) ∧
    (∀ i v b, h_verts H !! i = Some v → best !! i = Some b →
       if decide (Z.of_nat i ∈ samples) then b = (d_zero, -1) else best_choice H S box v b) ∧
    length parts = Z.to_nat (p * S) ∧
    (∀ k part, parts !! k = Some part → ∃ taken, chosen mcs (suitors H s best (Z.of_nat k)) taken ∧
       part = (λ r, (Z.of_nat k / S, (Z.of_nat k `mod` S, r))) <$> taken) ∧
    ∀ m, m ∈ concat parts → d_lt d_zero (snd (snd (snd (snd m)))) = true.
Proof. exact C74_requests_proof. Qed.
Print Assumptions C74_requests.

(** C74.  A processor that owns [number] samples and has received the requests [box]: each of its
    samples takes the best of the requests for it, at most max_cluster_size; these become its
    matches, and for each of them a message goes to the processor that sent it. *)
Theorem C74_acceptance : ∀ s S mcs number C box w,
  c_matches C = replicate number [] → (∀ m, m ∈ box → 0 ≤ fst m < Z.of_nat number) →
  (∀ m, m ∈ box → d_lt d_zero (snd (snd (snd m))) = true) →
  ∃ C' out w', accept_requests s S mcs number C box w = Ok ((C', out), w') ∧ length (c_matches C') = number ∧
    ∃ takens, length takens = number ∧
      (∀ i taken, takens !! i = Some taken → chosen mcs (snd <$> filter (λ m : request_msg, fst m = Z.of_nat i) box) taken ∧
         c_matches C' !! i = Some ((λ r, (fst (snd r), fst r)) <$> taken)) ∧
      out ≡ₚ concat (imap (λ i taken, (λ r, (fst r, (Z.of_nat i + Z.of_nat s * S, fst (snd r)))) <$> taken) takens).
Proof. exact C74_acceptance_proof. Qed.
Print Assumptions C74_acceptance.

Example C74_acceptance_example : c_matches m_contraction = replicate 2 [] ∧ (∀ m, m ∈ m_box → 0 ≤ fst m < 2) ∧
  (∀ m, m ∈ m_box → d_lt d_zero (snd (snd (snd m))) = true) ∧
  match accept_requests 0 2 2 2 m_contraction m_box w0 with
  | Ok ((C, _), _) => match c_matches C with [[a; b]; [(9, 1)]] => {[a; b]} =@{gset (Z * Z)} {[(8, 1); (6, 2)]} | _ => False end
  | Err _ => False end.
Proof.
  split; [reflexivity|]. split; [|split].
  - assert (Forall (λ m : request_msg, 0 ≤ fst m < 2) m_box) as HF by (apply (bool_decide_eq_true_1 _); vm_compute; reflexivity).
    by rewrite Forall_forall in HF.
  - assert (Forall (λ m : request_msg, d_lt d_zero (snd (snd (snd m))) = true) m_box) as HF by (apply (bool_decide_eq_true_1 _); vm_compute; reflexivity).
    by rewrite Forall_forall in HF.
  - vm_compute. reflexivity.
Qed.

Example C74_requests_example : consistent m_hg ∧ (∀ m, m ∈ m_samples → 0 ≤ sample_number 2 m < 3 * 2) ∧
  match (best <- best_matches m_hg 2 [] m_samples ;; rq <- requested_matches m_hg 6 best ;; send_requests 1 2 1 rq) w0 with
  | Ok (out, _) => ((λ m, (fst m, fst (snd m), fst (snd (snd (snd m))))) <$> out) = [(2, 1, 4)] | Err _ => False end ∧
  match h_verts m_hg !! 0%nat with Some v => d_lt (inner_product m_hg [0; 2] v) (inner_product m_hg [1; 2] v) = true | None => False end.
Proof.
  split; [exact m_hg_consistent|]. split.
  - assert (Forall (λ m : sample_msg, 0 ≤ sample_number 2 m < 3 * 2) m_samples) as HF by (apply (bool_decide_eq_true_1 _); vm_compute; reflexivity).
    by rewrite Forall_forall in HF.
  - split; [vm_compute; reflexivity|]. vm_compute. reflexivity.
Qed.
