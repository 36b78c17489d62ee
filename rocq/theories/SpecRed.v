(** Specification of the redistribution of a hypergraph over two groups of processors.
    Only the record of the arguments ([share]) is taken from the model. *)
From Verif Require Export SpecPar Redistribute.

(** the arguments with which the processors call: every one is in group 0 or 1, has a limit, and
    passes the weights of its own vertices with the low and the high label *)
Record proper_shares (Hs : list hg) (sh : list share) (low high : Z) : Prop := {
  ps_len : length sh = length Hs;
  ps_part : ∀ a, a ∈ sh → sh_part a = 0 ∨ sh_part a = 1;
  ps_max : ∀ a, a ∈ sh → 0 ≤ sh_max a;
  ps_w0 : ∀ s H a, Hs !! s = Some H → sh !! s = Some a → sh_w0 a = part_weight H low;
  ps_w1 : ∀ s H a, Hs !! s = Some H → sh !! s = Some a → sh_w1 a = part_weight H high;
}.
(** what a processor may keep of the label that belongs to group [g] *)
Definition limit_for (g : Z) (a : share) : Z := if decide (sh_part a = g) then sh_max a else 0.
(** the limits of a group together are enough for all vertices with the label *)
Definition room_for (g label : Z) (Hs : list hg) (sh : list share) : Prop :=
  gpart_weight Hs label ≤ zsum (limit_for g <$> sh).
(** weight of the vertices with a label that were on a processor and still are *)
Definition kept_weight (label : Z) (H H' : hg) : Z :=
  zsum (v_weight <$> filter (λ v, v_part v = label ∧ v ∈ h_verts H) (h_verts H')).
