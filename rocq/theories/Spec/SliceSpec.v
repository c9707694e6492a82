(** Builders and queries as values. *)

From Coq Require Import List NArith.
From Verif.Model Require Import Bytes Keys Slices.
Import ListNotations.

(** A slice that lies in its array. *)
Definition sl_ok {A} (h : heap A) (s : slc) : Prop :=
  sl_len s <= sl_cap s /\ (sl_cap s = 0 \/ sl_arr s < length h /\ sl_off s + sl_cap s <= length (nth (sl_arr s) h [])).

(** [t] shows no cell of the free room behind [s]. *)
Definition apart (s t : slc) : Prop :=
  sl_arr t <> sl_arr s \/ forall i, sl_off s + sl_len s <= i -> i < sl_off s + sl_cap s -> ~ (sl_off t <= i /\ i < sl_off t + sl_len t).

(** What a call adds, read off the memory before the chain of calls. *)
Definition step_value (h : heap byte) (x : bstep) : field :=
  match x with
  | SVal f => f
  | SBytes s => FBytes (sl_read h s)
  | SOrderBytes s desc => FBytes (if desc then map byte_not (sl_read h s) else sl_read h s)
  end.

(** The slices a call is given. *)
Definition step_slices (x : bstep) : list slc :=
  match x with SVal _ => [] | SBytes s | SOrderBytes s _ => [s] end.

(** OrderBytes with DESC. *)
Definition in_place (x : bstep) : Prop := match x with SOrderBytes _ true => True | _ => False end.

(** A query as a value: the kept values and the intersects. *)
Fixpoint q_chain {Q} (v : Q) (l : list (hquery Q)) (xs : list (qstep Q)) : Q * list (hquery Q) :=
  match xs with
  | [] => (v, l)
  | QIntersects qs :: xs' => q_chain v (l ++ qs) xs'
  | QOther f :: xs' => q_chain (f v) l xs'
  end.
