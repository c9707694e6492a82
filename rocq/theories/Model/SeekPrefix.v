(** Iterator.SeekPrefixGE of /repo/iter.go:22 on one pebble iterator, beside the other positioning calls. What pebble does behind it follows
    its documentation: the iterator is in prefix mode until the next absolute positioning call, it shows no keys with another prefix, Prev is
    an error in this mode, and a key outside of the bounds is moved to the bound if the bound has its prefix, and is an error otherwise. *)

From Coq Require Import List NArith Bool Arith.
From Verif.Model Require Import Bytes Go Keys Pebble Index Table Scan Iter.
Import ListNotations.

(** An iterator, its prefix in prefix mode, and the error of the last positioning call; /repo/iter.go:13-29, 51-59. *)
Record xiter := XIter { x_it : piter; x_pre : option bytes; x_bad : option error }.

(** DB.Iter or Batch.Iter: /repo/bond.go:276-281, /repo/batch.go:121-123. *)
Definition x_new (p : piter) : xiter := XIter p None None.

(** pebble splits the key it found (/repo/keys.go:345-347) and is exhausted if its prefix is another one; /repo/iter.go:17, 22. *)
Definition x_check (p : bytes) (i : piter) : res piter :=
  match it_item i with
  | None => Ok i
  | Some (k, _) =>
      match key_prefix_of k with
      | Ok q => Ok (if beqb q p then i else PIter (pi_items i) PEnd (pi_err i))
      | _ => Panic
      end
  end.

(** Exhausted with an error; /repo/iter.go:15, 22. *)
Definition x_fail (i : piter) (p : bytes) : xiter := XIter (PIter (pi_items i) PEnd (pi_err i)) (Some p) (Some EOther).

(** Seek in prefix mode to [k], whose prefix is [p]; /repo/iter.go:22. *)
Definition x_to (p k : bytes) (i : piter) : res xiter :=
  match x_check p (it_seek_ge i k) with Ok i' => Ok (XIter i' (Some p) None) | _ => Panic end.

(** SeekPrefixGE of an iterator with the given bounds; /repo/iter.go:22, of an errIterator 234-236. *)
Definition x_seek (lo hi k : bytes) (i : piter) : res xiter :=
  match pi_err i with
  | Some _ => Ok (XIter i None None)
  | None =>
      match key_prefix_of k with
      | Ok p =>
          if bltb k lo then match key_prefix_of lo with Ok q => if beqb p q then x_to p lo i else Ok (x_fail i p) | _ => Panic end
          else if bltb hi k then match key_prefix_of hi with Ok q => if beqb p q then x_to p hi i else Ok (x_fail i p) | _ => Panic end
          else x_to p k i
      | _ => Panic
      end
  end.

(** The positioning calls, SeekPrefixGE included; /repo/iter.go:14-17, 21-23. *)
Inductive xcall := XCall (c : icall) | XPrefix (k : bytes).

(** One of the other calls outside of prefix mode; /repo/iter.go:14-17, 21, 23. *)
Definition x_plain (c : icall) (i : piter) : piter :=
  match c with
  | IFirst => it_first i
  | ILast => it_last i
  | INext => it_next i
  | IPrev => it_prev i
  | ISeekGE k => it_seek_ge i k
  | ISeekLT k => it_seek_lt i k
  end.

(** A call; /repo/iter.go:14-17, 21-23. First, Last, SeekGE and SeekLT end the prefix mode and clear the error. *)
Definition x_call (lo hi : bytes) (c : xcall) (x : xiter) : res xiter :=
  match c with
  | XPrefix k => x_seek lo hi k (x_it x)
  | XCall INext =>
      match x_bad x, x_pre x with
      | Some _, _ => Ok x
      | None, None => Ok (XIter (it_next (x_it x)) None None)
      | None, Some p => match x_check p (it_next (x_it x)) with Ok i => Ok (XIter i (Some p) None) | _ => Panic end
      end
  | XCall IPrev =>
      match x_bad x, x_pre x with
      | Some _, _ => Ok x
      | None, None => Ok (XIter (it_prev (x_it x)) None None)
      | None, Some p => Ok (x_fail (x_it x) p)
      end
  | XCall c => Ok (XIter (x_plain c (x_it x)) None None)
  end.

(** Calls one after another, each with what it returns: whether the iterator is valid now; /repo/iter.go:13-29. *)
Fixpoint x_run (lo hi : bytes) (cs : list xcall) (x : xiter) : res (xiter * list bool) :=
  match cs with
  | [] => Ok (x, [])
  | c :: cs' =>
      match x_call lo hi c x with
      | Ok x1 => match x_run lo hi cs' x1 with Ok (x2, rs) => Ok (x2, it_valid (x_it x1) :: rs) | _ => Panic end
      | _ => Panic
      end
  end.

(** Iterator.Error; /repo/iter.go:19. *)
Definition x_error (x : xiter) : option error := match pi_err (x_it x) with Some e => Some e | None => x_bad x end.
