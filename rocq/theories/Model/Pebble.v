(** The part of pebble (github.com/cockroachdb/pebble) that bond relies on.

    Pebble itself is outside /repo; this file is the assumed semantics of the
    pebble calls made by /repo/bond.go, /repo/batch.go, /repo/iter.go and /repo/table.go:
    an ordered map with atomic batches, snapshot iterators and indexed batches. *)

From Coq Require Import List NArith Bool.
From Verif.Model Require Import Bytes Go.
Import ListNotations.

(** One stored pair; pebble calls at /repo/bond.go:242-281. *)
Definition entry := (bytes * bytes)%type.

(** The committed contents of the database: pairs in strictly increasing key
    order (pebble.DB opened at /repo/bond.go:138-232). *)
Definition kv := list entry.

(** pebble.DB.Get, used at /repo/bond.go:242-250; [None] is pebble.ErrNotFound. *)
Fixpoint kv_get (s : kv) (k : bytes) : option bytes :=
  match s with
  | [] => None
  | (k', v) :: s' => if beqb k k' then Some v else kv_get s' k
  end.

(** pebble Set, used at /repo/bond.go:252-258 and /repo/batch.go:98-100. *)
Fixpoint kv_set (s : kv) (k v : bytes) : kv :=
  match s with
  | [] => [(k, v)]
  | (k', v') :: s' =>
      match bcmp k k' with
      | Lt => (k, v) :: (k', v') :: s'
      | Eq => (k, v) :: s'
      | Gt => (k', v') :: kv_set s' k v
      end
  end.

(** pebble Delete, used at /repo/bond.go:260-266 and /repo/batch.go:102-104. *)
Definition kv_del (s : kv) (k : bytes) : kv :=
  filter (fun e => negb (beqb k (fst e))) s.

(** Is [k] in the half-open interval [lo, hi); pebble range semantics, used at
    /repo/table.go:269-271 and in every IterOptions. *)
Definition in_range (lo hi k : bytes) : bool := bleb lo k && bltb k hi.

(** pebble DeleteRange [lo, hi), used at /repo/bond.go:268-274 and /repo/batch.go:106-108. *)
Definition kv_del_range (s : kv) (lo hi : bytes) : kv :=
  filter (fun e => negb (in_range lo hi (fst e))) s.

(** The pairs an iterator with bounds [lo, hi) can see, in key order;
    /repo/bond.go:276-281. *)
Definition kv_range (s : kv) (lo hi : bytes) : kv :=
  filter (fun e => in_range lo hi (fst e)) s.

(** One operation recorded in a pebble batch; /repo/batch.go:98-108. *)
Inductive bop :=
| BSet (k v : bytes)
| BDel (k : bytes)
| BDelRange (lo hi : bytes).

(** Effect of one batch operation; /repo/batch.go:98-108. *)
Definition apply_op (s : kv) (o : bop) : kv :=
  match o with
  | BSet k v => kv_set s k v
  | BDel k => kv_del s k
  | BDelRange lo hi => kv_del_range s lo hi
  end.

(** Committing a batch applies its operations in order, atomically;
    pebble Batch.Commit / DB.Apply, used at /repo/batch.go:134-152 and /repo/bond.go:294-297.
    The same fold gives what a reader of an indexed batch sees. *)
Definition apply_ops (s : kv) (os : list bop) : kv := fold_left apply_op os s.

(** A bond batch: read-write (pebble indexed batch) or write-only, and its
    operations so far; /repo/batch.go:58-81. *)
Record batch := Batch { b_rw : bool; b_ops : list bop }.

(** What a reader sees: the batch contents over the database for a read-write
    batch, else the database. /repo/bond.go:242-250, 276-281 use the batch when it is not nil. *)
Definition view (db : kv) (ob : option batch) : kv :=
  match ob with
  | Some b => apply_ops db (b_ops b)
  | None => db
  end.

(** Position of a pebble iterator: not positioned, on an item, exhausted at the
    end, or exhausted at the start; the iterators wrapped at /repo/iter.go:13-29. *)
Inductive ipos := PNone | PAt (n : nat) | PEnd | PStart.

(** A pebble iterator is a snapshot (the visible items, fixed at creation) and a
    position; /repo/iter.go:13-29, 43-59. [pi_err] models a failed constructor:
    /repo/iter.go:43-48 turns it into an errIterator (lines 202-252) that has no items. *)
Record piter := PIter { pi_items : kv; pi_pos : ipos; pi_err : option error }.

(** pebble NewIter with bounds; /repo/iter.go:43-59. *)
Definition new_iter (v : kv) (lo hi : bytes) : piter := PIter (kv_range v lo hi) PNone None.

(** errIterator; /repo/iter.go:202-252. *)
Definition err_iter (e : error) : piter := PIter [] PNone (Some e).

(** Iterator.First; pebble, used at /repo/iter.go:89-100, /repo/table.go:1034. *)
Definition it_first (i : piter) : piter :=
  PIter (pi_items i) (match pi_items i with [] => PEnd | _ => PAt 0 end) (pi_err i).

(** Iterator.Last; pebble, used at /repo/iter.go:102-113, /repo/table.go:1032. *)
Definition it_last (i : piter) : piter :=
  PIter (pi_items i) (match pi_items i with [] => PStart | l => PAt (length l - 1) end) (pi_err i).

(** Iterator.Next; pebble: stays exhausted at the end, moves to the first item
    when exhausted at the start or not positioned. /repo/iter.go:132-147, /repo/table.go:1042. *)
Definition it_next (i : piter) : piter :=
  match pi_pos i with
  | PAt n => PIter (pi_items i) (if Nat.ltb (S n) (length (pi_items i)) then PAt (S n) else PEnd) (pi_err i)
  | PEnd => i
  | PStart | PNone => it_first i
  end.

(** Iterator.Prev; mirror image of Next. /repo/iter.go:115-130, /repo/table.go:1040. *)
Definition it_prev (i : piter) : piter :=
  match pi_pos i with
  | PAt n => PIter (pi_items i) (match n with O => PStart | S m => PAt m end) (pi_err i)
  | PStart => i
  | PEnd | PNone => it_last i
  end.

(** Index of the first item with key >= k (SeekGE, /repo/table.go:529, 833, 967). *)
Fixpoint find_ge (l : kv) (k : bytes) (n : nat) : option nat :=
  match l with
  | [] => None
  | (k', _) :: l' => if bleb k k' then Some n else find_ge l' k (S n)
  end.

(** Iterator.SeekGE; pebble, used at /repo/table.go:297, 529, 833, 967 and /repo/bond.go:501-522. *)
Definition it_seek_ge (i : piter) (k : bytes) : piter :=
  PIter (pi_items i) (match find_ge (pi_items i) k 0 with Some n => PAt n | None => PEnd end) (pi_err i).

(** Iterator.Valid; /repo/table.go:1055. *)
Definition it_valid (i : piter) : bool :=
  match pi_pos i with PAt _ => true | _ => false end.

(** Current item; [None] when not valid (Key and Value, /repo/table.go:1048, 1063). *)
Definition it_item (i : piter) : option entry :=
  match pi_pos i with
  | PAt n => nth_error (pi_items i) n
  | _ => None
  end.

(** Iterator.Key; nil when not valid. /repo/table.go:529, 833, 967, 1063. *)
Definition it_key (i : piter) : bytes := match it_item i with Some e => fst e | None => [] end.

(** Iterator.Value; nil when not valid. /repo/table.go:533, 718, 976, 1048. *)
Definition it_value (i : piter) : bytes := match it_item i with Some e => snd e | None => [] end.
