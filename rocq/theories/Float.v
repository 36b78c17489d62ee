(** double arithmetic: IEEE 754 binary64, round to nearest even, as specified by the
    standard library ([Coq.Floats.SpecFloat], plain definitions over [Z]). *)
From Coq Require Export Floats.SpecFloat.
From Verif Require Export Base.

Definition dbl := spec_float.
(** conversion of an integer, (double) z *)
Definition d_of_Z (z : Z) : dbl := binary_normalize 53 1024 z 0 false.
Definition d_add : dbl → dbl → dbl := SFadd 53 1024.
Definition d_sub : dbl → dbl → dbl := SFsub 53 1024.
Definition d_mul : dbl → dbl → dbl := SFmul 53 1024.
Definition d_div : dbl → dbl → dbl := SFdiv 53 1024.
Definition d_zero : dbl := S754_zero false.
Definition d_one : dbl := d_of_Z 1.
(** comparisons are false on NaN *)
Definition d_lt (x y : dbl) : bool := SFltb x y.
Definition d_le (x y : dbl) : bool := SFleb x y.
Definition d_eq (x y : dbl) : bool := SFeqb x y.
(** conversion to long: truncation; out of range (and NaN, infinity) is undefined behaviour *)
Definition d_trunc (x : dbl) : option Z :=
  match x with
  | S754_zero _ => Some 0
  | S754_finite s m e =>
      let a := if decide (0 ≤ e) then Zpos m * 2 ^ e else Zpos m / 2 ^ (- e) in
      let z := if s then - a else a in
      if decide (- 2 ^ 63 ≤ z < 2 ^ 63) then Some z else None
  | _ => None
  end.
Definition d_to_Z (x : dbl) : M Z := of_option UB (d_trunc x).
