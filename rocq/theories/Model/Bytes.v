(** Bytes, byte strings, big-endian numbers and the lexicographic order.

    Go's [byte] is Coq's [Byte.byte]; a Go [[]byte] is a [list byte].
    /repo uses Go's bytes and encoding/binary packages for these operations. *)

From Coq Require Import List NArith ZArith Lia Bool.
From Coq Require Export Init.Byte.
From Coq Require Import Strings.Byte.
Import ListNotations.

(** Go [[]byte] / [string]; used everywhere, e.g. /repo/keys.go:11-14. *)
Definition bytes := list byte.

(** Go [uint64(b)] for a byte [b]; /repo/keys.go:137-140 (arithmetic on fid). *)
Definition b2n (b : byte) : N := Byte.to_N b.

(** Go [byte(n)]: truncation modulo 256; /repo/keys.go:114, 204-205. *)
Definition n2b (n : N) : byte :=
  match Byte.of_N (n mod 256) with
  | Some b => b
  | None => x00
  end.

(** [binary.BigEndian.PutUintXX] of the low [8*w] bits of [n]; used at
    /repo/keys.go:33, 50, 67, 74, 81, 88, 208, 213, 238, 248. *)
Fixpoint be_bytes (w : nat) (n : N) : bytes :=
  match w with
  | O => []
  | S w' => n2b (n / 256 ^ N.of_nat w') :: be_bytes w' n
  end.

(** [binary.BigEndian.UintXX]: value of a big-endian byte string;
    /repo/keys.go:265, 272, 306, 307, 323, 346. *)
Fixpoint be_val_acc (acc : N) (l : bytes) : N :=
  match l with
  | [] => acc
  | b :: l' => be_val_acc (acc * 256 + b2n b) l'
  end.

(** See [be_val_acc]; /repo/keys.go:265. *)
Definition be_val (l : bytes) : N := be_val_acc 0 l.

(** [bytes.Compare] on two byte strings, the order of
    pebble.DefaultComparer; /repo/keys.go:339-343. *)
Fixpoint bcmp (a b : bytes) : comparison :=
  match a, b with
  | [], [] => Eq
  | [], _ :: _ => Lt
  | _ :: _, [] => Gt
  | x :: a', y :: b' =>
      match N.compare (b2n x) (b2n y) with
      | Eq => bcmp a' b'
      | c => c
      end
  end.

(** [bytes.Compare(a, b) < 0]; /repo/table.go:1196-1209 (utils.SortShim less). *)
Definition bltb (a b : bytes) : bool :=
  match bcmp a b with Lt => true | _ => false end.

(** [bytes.Compare(a, b) <= 0]; /repo/query.go:430-473. *)
Definition bleb (a b : bytes) : bool :=
  match bcmp a b with Gt => false | _ => true end.

(** [bytes.Equal(a, b)]; /repo/table.go:818-834. *)
Definition beqb (a b : bytes) : bool :=
  match bcmp a b with Eq => true | _ => false end.

(** The order as a proposition (same order as [bcmp]); /repo/keys.go:339-343. *)
Definition blt (a b : bytes) : Prop := bcmp a b = Lt.
(** Reflexive closure of [blt]; /repo/keys.go:339-343. *)
Definition ble (a b : bytes) : Prop := bcmp a b <> Gt.

(** Length of a Go slice as a number ([len]); /repo/keys.go:208. *)
Definition blen (l : bytes) : N := N.of_nat (length l).

(** [bytes.HasPrefix(l, p)]; used implicitly by pebble prefix ranges, /repo/table.go:1262-1276. *)
Fixpoint has_prefix (p l : bytes) : bool :=
  match p, l with
  | [], _ => true
  | _ :: _, [] => false
  | x :: p', y :: l' => N.eqb (b2n x) (b2n y) && has_prefix p' l'
  end.
