(** The integers float64 has. *)

From Coq Require Import ZArith.
Local Open Scope Z_scope.

(** An integer that is a float64, but for the largest exponent: no exponent is too large here. *)
Definition float_int (f : Z) : Prop := exists m e, Z.abs m <= 2 ^ 53 /\ 0 <= e /\ f = m * 2 ^ e.

(** A float64 with 53 significant bits of which the last is 0. *)
Definition even_float (f : Z) : Prop := exists m e, 2 ^ 52 <= Z.abs m < 2 ^ 53 /\ 0 <= e /\ f = m * 2 ^ e /\ Z.even m = true.
