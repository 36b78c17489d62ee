(** Specification of the self-checks *)
From Verif Require Export Spec.
Local Open Scope list_scope.

(** the lookup of an id leads to the vertex, or net, with this id *)
Definition vertex_found (H : hg) (id : Z) : Prop := ∃ i v, h_vmap H !! id = Some i ∧ h_verts H !! i = Some v ∧ v_id v = id.
Definition net_found (H : hg) (id : Z) : Prop := ∃ i n, h_nmap H !! id = Some i ∧ h_nets H !! i = Some n ∧ n_id n = id.
(** every id that occurs in the hypergraph leads to its vertex or net *)
Definition ids_lead (H : hg) : Prop :=
  (∀ v, v ∈ h_verts H → vertex_found H (v_id v) ∧ ∀ id, id ∈ v_nets v → net_found H id) ∧
  (∀ n, n ∈ h_nets H → (∀ id, id ∈ n_verts n → vertex_found H id) ∧ net_found H (n_id n)).
