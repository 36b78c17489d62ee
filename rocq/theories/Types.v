(** The data held by the program: vertices, nets, hypergraphs, options. *)
From Verif Require Export Base.

(** include/hypergraph/hypergraph.hpp:24-47 (class vertex): the fields. *)
Record vertex := Vertex {
  v_id : Z;
  v_nets : list Z;
  v_weight : Z;
  v_part : Z;
}.

(** include/hypergraph/hypergraph.hpp:52-79 (class net): the fields. *)
Record net := Net {
  n_id : Z;
  n_verts : list Z;
  n_cost : Z;
  n_gsize : Z;
}.

(** include/hypergraph/hypergraph.hpp:228-236 (class hypergraph): the fields.
    The unordered_map<long,long> values are positions; they are only ever assigned
    non-negative values, so they are [nat] here. *)
Record hg := Hg {
  h_gsize : Z;                  (* global_size_ *)
  h_gnets : Z;                  (* global_number_nets_ *)
  h_verts : list vertex;        (* vertices_ *)
  h_nets : list net;            (* nets_ *)
  h_nz : Z;                     (* nr_nz_ *)
  h_vmap : gmap Z nat;          (* global_to_local *)
  h_nmap : gmap Z nat;          (* net_global_to_local *)
  h_dups : list (net * Z);      (* duplicate_nets_ *)
}.

Global Instance vertex_eq_dec : EqDecision vertex.
Proof. solve_decision. Defined.
Global Instance net_eq_dec : EqDecision net.
Proof. solve_decision. Defined.
Global Instance net_inhabited : Inhabited net := populate (Net 0 [] 0 0).
Global Instance vertex_inhabited : Inhabited vertex := populate (Vertex 0 [] 0 0).

(** include/options.hpp:8 (enum class m). *)
Inductive metric := CutNet | LambdaMinusOne.
