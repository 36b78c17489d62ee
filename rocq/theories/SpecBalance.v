(** What room the balance of a bisection needs. *)
From Verif Require Export SpecMulti Klfm.
Local Open Scope Z_scope.

(** The heaviest vertex that [rounds] rounds of coarsening can make of vertices of weight at most [b]: nothing
    is coarsened if there are at most [o_nrvertices] vertices, and every round puts at most
    1 + [o_max_clustersize] vertices together. *)
Definition heaviest (opts : options) (rounds : nat) (n b : Z) : Z :=
  if decide (n ≤ o_nrvertices opts) then b else b * (Z.max 0 (o_max_clustersize opts) + 1) ^ Z.of_nat rounds.
(** the room that one bisection of [n] vertices of weight at most [b] needs, with the bisection that is chosen in the options *)
Definition room_needed (opts : options) (n b : Z) : Z :=
  match o_bisection opts with BisRandom => b | BisMultilevel => heaviest opts (Z.to_nat (o_maxrounds opts)) n b end.
(** [k] parts of weight at most [M] have room for total weight [W]: the room k*M - W that is left over is at least so large *)
Definition enough_room (B k M W : Z) : Prop := (B + 8) * k * (4 * Z.log2_up k - 3) ≤ M * k - W.
(** and it is only a small part of the whole, so that no part can stay empty *)
Definition moderate_room (k M W : Z) : Prop :=
  let m := Z.log2_up k in 2 * m * (m + 1) * (M * k - W) ≤ M * k.
