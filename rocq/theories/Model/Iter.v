(** The Iterator interface of /repo/iter.go:13-29 as the caller of Index.Iter, Table.Iter and DB.Iter sees it: every positioning call with its
    result, seeks included. *)

From Coq Require Import List NArith Bool Arith.
From Verif.Model Require Import Bytes Go Keys Pebble Index Table Scan.
Import ListNotations.

(** How many items in front of the first one that is not below [k]; pebble SeekLT, /repo/iter.go:23. *)
Fixpoint count_lt (l : kv) (k : bytes) : nat :=
  match l with
  | [] => 0
  | (k', _) :: l' => if bltb k' k then S (count_lt l' k) else 0
  end.

(** Iterator.SeekLT; pebble: the last item below [k], exhausted at the start if there is none. /repo/iter.go:23. *)
Definition it_seek_lt (i : piter) (k : bytes) : piter :=
  PIter (pi_items i) (match count_lt (pi_items i) k with O => PStart | S n => PAt n end) (pi_err i).

(** The positioning calls; /repo/iter.go:14-17, 21-23. SeekPrefixGE is in Model/SeekPrefix. *)
Inductive icall := IFirst | ILast | INext | IPrev | ISeekGE (k : bytes) | ISeekLT (k : bytes).

Section Calls.
  Variable open : bytes -> bytes -> piter.

  (** A call with what it returns. /repo/iter.go:89-113 First and Last return whether an iterator was found, 115-147 Next and Prev; the seeks of
      several iterators panic, 157-170; those of one are pebble's (51-59) or the errIterator's (206-240). *)
  Definition bi_call (c : icall) (b : biter) : res (biter * bool) :=
    match c with
    | IFirst => let b' := bi_first open b in Ok (b', bi_valid b')
    | ILast => let b' := bi_last open b in Ok (b', bi_valid b')
    | INext => Ok (bi_next_ok open b)
    | IPrev => Ok (bi_prev_ok open b)
    | ISeekGE k => match b with BOne p => let p' := it_seek_ge p k in Ok (BOne p', it_valid p') | BMulti _ _ _ => Panic end
    | ISeekLT k => match b with BOne p => let p' := it_seek_lt p k in Ok (BOne p', it_valid p') | BMulti _ _ _ => Panic end
    end.

  (** Calls one after another with their results; /repo/iter.go:13-29. *)
  Fixpoint run_calls (cs : list icall) (b : biter) : res (biter * list bool) :=
    match cs with
    | [] => Ok (b, [])
    | c :: cs' =>
        match bi_call c b with
        | Ok (b1, r) =>
            match run_calls cs' b1 with
            | Ok (b2, rs) => Ok (b2, r :: rs)
            | Err e => Err e
            | Panic => Panic
            | Diverge => Diverge
            end
        | Err e => Err e
        | Panic => Panic
        | Diverge => Diverge
        end
    end.
End Calls.

(** Iterator.Error; /repo/iter.go:153-155, 226-228. *)
Definition bi_error (b : biter) : option error := pi_err (bi_cur b).
