(** When a value given to the inspector as a filter matches the value of a field, whatever their types. *)

From Coq Require Import List NArith ZArith Bool Strings.Byte.
From Verif.Model Require Import Bytes Go Inspect.
From Verif.Spec Require Import KeySpec InspectSpec.
Import ListNotations.
Local Open Scope Z_scope.

(** The code points of Unicode, and their text in UTF-8. *)
Definition scalar (z : Z) : Prop := 0 <= z < 1114112 /\ ~ 55296 <= z < 57344.
Definition cont (b : byte) (x : Z) : Prop := Z.of_N (b2n b) = 128 + x /\ 0 <= x < 64.
Inductive utf8 : Z -> bytes -> Prop :=
| u_one z a : 0 <= z < 128 -> Z.of_N (b2n a) = z -> utf8 z [a]
| u_two z a b x y : 128 <= z < 2048 -> z = 64 * x + y -> Z.of_N (b2n a) = 192 + x -> cont b y -> utf8 z [a; b]
| u_three z a b c x y w : 2048 <= z < 65536 -> z = 4096 * x + 64 * y + w -> Z.of_N (b2n a) = 224 + x -> cont b y -> cont c w -> utf8 z [a; b; c]
| u_four z a b c d x y w v : 65536 <= z < 1114112 -> z = 262144 * x + 4096 * y + 64 * w + v -> Z.of_N (b2n a) = 240 + x -> cont b y -> cont c w -> cont d v ->
    utf8 z [a; b; c; d].

(** [t] is the number m * 2^e without its fraction. *)
Definition truncated (m e t : Z) : Prop :=
  (0 <= e -> t = m * 2 ^ e) /\ (e < 0 -> Z.abs t * 2 ^ (- e) <= Z.abs m < (Z.abs t + 1) * 2 ^ (- e) /\ 0 <= t * m).

(** [a] and [b] are the same in integers of so many bytes. *)
Definition wraps (w : nat) (a b : Z) : Prop := exists k, a = b + k * 256 ^ Z.of_nat w.

(** A float64 that int64 or uint64 can hold without its fraction. *)
Definition holds_float (k : kind) (m e : Z) : Prop :=
  exists t, truncated m e t /\ match k with KUint _ => 0 <= t < 2 ^ 64 | _ => - 2 ^ 63 <= t < 2 ^ 63 end.

(** The filter value [v] is taken for the value [w] of a field: the same truth value, bytes or number; an integer that wraps around to it, a fraction that is cut
    off and wraps around to it, an integer that rounds to it (see C68_integers_rounded), or the number of the only character of a text. *)
Definition taken_for (v w : gval) : Prop :=
  match gv_data v, gv_data w, gt_kind (gv_type w) with
  | DBool a, DBool b, _ => a = b
  | DBytes a, DBytes b, _ => a = b
  | DInt a, DInt b, (KInt n | KUint n) => wraps (width n) a b
  | DInt a, DFlt (FNum m e), _ => same_num (round53 a, 0) (m, e)
  | DInt a, DBytes s, KString => (scalar a /\ utf8 a s) \/ (~ scalar a /\ utf8 65533 s)
  | DFlt (FNum m e), DInt b, (KInt n | KUint n) => exists t, truncated m e t /\ wraps (width n) t b
  | DFlt (FNum m e), DFlt (FNum m' e'), _ => same_num (m, e) (m', e')
  | DFlt (FInf s), DFlt (FInf s'), _ => s = s'
  | _, _, _ => False
  end.

(** Where the result does not depend on the machine: a float64 is compared with an integer only if it fits. *)
Definition decided (v w : gval) : Prop :=
  match gv_data v, gt_kind (gv_type w) with
  | DFlt f, (KInt _ | KUint _) => exists m e, f = FNum m e /\ holds_float (gt_kind (gv_type w)) m e
  | _, _ => True
  end.

(** A record, as its list of fields, matches a filter; a value of the same kind as the field must be of the same type. *)
Definition passes (r : row) (fs : list (bytes * gval)) : Prop :=
  forall n v, In (n, v) fs -> exists w, In (n, w) r /\ (gt_kind (gv_type v) = gt_kind (gv_type w) -> gv_type v = gv_type w) /\ taken_for v w.

(** [f] tells the records that match. *)
Definition tells {T} (rf : refl T) (ok : T -> Prop) (fs : option (list (bytes * gval))) (f : T -> bool) : Prop :=
  forall r, ok r -> (f r = true <-> match fs with Some fs => passes (rf_map rf r) fs | None => True end).

(** No match depends on the machine; [zero] is any record. *)
Definition portable {T} (rf : refl T) (zero : T) (fs : option (list (bytes * gval))) : Prop :=
  match fs with Some fs => forall n v w, In (n, v) fs -> In (n, w) (rf_map rf zero) -> well_typed v /\ decided v w | None => True end.
