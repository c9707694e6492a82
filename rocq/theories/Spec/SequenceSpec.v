(** Clocks and the numbers a sequence should return, independent of the code. *)

From Coq Require Import List NArith ZArith Bool Arith.
Import ListNotations.

(** A clock that never goes back, at positive seconds below 2^40. *)
Fixpoint steady_clock (from : Z) (secs : list Z) : Prop :=
  match secs with
  | [] => True
  | s :: secs' => (from <= s < 2 ^ 40)%Z /\ steady_clock s secs'
  end.

(** How often second [s] occurs. *)
Fixpoint in_second (s : Z) (secs : list Z) : N :=
  match secs with
  | [] => 0
  | s' :: secs' => (if (s =? s')%Z then 1 else 0) + in_second s secs'
  end.
