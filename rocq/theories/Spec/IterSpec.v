(** What the calls of an iterator over some keys should do. *)

From Coq Require Import List NArith Bool Arith.
From Verif.Model Require Import Bytes Index Scan Iter.
Import ListNotations.

Section Cursor.
  Variable ks : list bytes.
  Notation n := (length ks).

  (** A cursor is at 0 (in front of the keys), at 1..n, or at n+1 (behind them). Is it on a key? *)
  Definition on_key (c : nat) : bool := (Nat.leb 1 c && Nat.leb c n)%bool.

  (** [c] is the place of the first key that is not below [k], or behind all keys. *)
  Definition first_not_below (k : bytes) (c : nat) : Prop :=
    1 <= c <= S n /\ forall i x, nth_error ks i = Some x -> (S i < c -> bcmp x k = Lt) /\ (c <= S i -> bcmp x k <> Lt).

  (** One call moves the cursor from [c] to [c']. *)
  Definition moved (c : nat) (x : icall) (c' : nat) : Prop :=
    match x with
    | IFirst => c' = 1
    | ILast => c' = n
    | INext => c' = if Nat.leb c n then S c else c
    | IPrev => c' = pred c
    | ISeekGE k => first_not_below k c'
    | ISeekLT k => first_not_below k (S c')
    end.

  (** Calls move it from [c] to [c']; each says whether it is on a key now. *)
  Inductive walked : nat -> list icall -> list bool -> nat -> Prop :=
  | w_end c : walked c [] [] c
  | w_call c x c1 xs rs c2 : moved c x c1 -> walked c1 xs rs c2 -> walked c (x :: xs) (on_key c1 :: rs) c2.
End Cursor.

(** Calls that do not depend on where the iterator was. *)
Definition positions (x : icall) : bool := match x with INext | IPrev => false | _ => true end.
Definition is_seek (x : icall) : bool := match x with ISeekGE _ | ISeekLT _ => true | _ => false end.

(** Selectors of one interval of keys. *)
Definition single {T} (sel : selector T) : bool := match sel with SPoint _ | SRange _ _ => true | _ => false end.
