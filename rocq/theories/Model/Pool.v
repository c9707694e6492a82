(** Buffer pools and the buffers of index iterators: /repo/utils/sync.go,
    /repo/index.go:182-275, /repo/iter.go:61-70, 180-191. *)

From Coq Require Import List Bool Arith.
From Verif.Model Require Import Go.
Import ListNotations.

(** /repo/utils/sync.go:22-29 PreAllocatedPool; buffers are named by numbers. [p_sync] is what the embedded
    sync.Pool holds, [p_next] the next buffer newFunc makes (line 31): it never makes one twice. *)
Record pool := Pool { p_items : list nat; p_size : nat; p_sync : list nat; p_next : nat }.

(** [l] without its i-th element; a slot of sync.Pool, /repo/utils/sync.go:11. *)
Definition remove_nth (i : nat) (l : list nat) : list nat := firstn i l ++ skipn (S i) l.

(** sync.Pool.Get (/repo/utils/sync.go:14-16): any of the pooled buffers, or a new one; [pick] chooses. *)
Definition sync_get (pick : nat) (p : pool) : nat * pool :=
  match nth_error (p_sync p) pick with
  | Some x => (x, Pool (p_items p) (p_size p) (remove_nth pick (p_sync p)) (p_next p))
  | None => (p_next p, Pool (p_items p) (p_size p) (p_sync p) (S (p_next p)))
  end.

(** The loop of NewPreAllocatedPool, /repo/utils/sync.go:39-41. *)
Fixpoint pool_fill (n : nat) (p : pool) : pool :=
  match n with
  | O => p
  | S n' =>
      let '(x, p') := sync_get 0 p in
      pool_fill n' (Pool (p_items p' ++ [x]) (p_size p') (p_sync p') (p_next p'))
  end.

(** /repo/utils/sync.go:31-48 NewPreAllocatedPool. *)
Definition new_pool (size : nat) : pool := pool_fill size (Pool [] size [] 0).

(** /repo/utils/sync.go:50-61 Get: the last of preAllocItems, else sync.Pool.Get. The mutex makes it atomic. *)
Definition pool_get (pick : nat) (p : pool) : nat * pool :=
  match rev (p_items p) with
  | x :: _ => (x, Pool (firstn (length (p_items p) - 1) (p_items p)) (p_size p) (p_sync p) (p_next p))
  | [] => sync_get pick p
  end.

(** /repo/utils/sync.go:63-72 Put. *)
Definition pool_put (x : nat) (p : pool) : pool :=
  if Nat.ltb (length (p_items p)) (p_size p)
  then Pool (p_items p ++ [x]) (p_size p) (p_sync p) (p_next p)
  else Pool (p_items p) (p_size p) (x :: p_sync p) (p_next p).

(** Several Get calls in a row, as Index.Iter makes for its bounds; /repo/index.go:188-189, 208-209, 233-234, 256-257. *)
Fixpoint pool_gets (n : nat) (picks : list nat) (p : pool) : list nat * pool :=
  match n with
  | O => ([], p)
  | S n' =>
      let '(x, p1) := pool_get (hd 0 picks) p in
      let '(l, p2) := pool_gets n' (tl picks) p1 in
      (x :: l, p2)
  end.

(** Several Put calls, as releaseBuffers makes; /repo/index.go:191-194, 214-217, 237-240, 260-263. *)
Definition pool_puts (l : list nat) (p : pool) : pool := fold_left (fun p x => pool_put x p) l p.

(** The pool, the buffers that single callers hold, and for every iterator the buffers its
    releaseBufferOnClose will put back (none once released; /repo/iter.go:61-70, 180-191). *)
Record pst := PSt { ps_pool : pool; ps_out : list nat; ps_iters : list (list nat) }.

(** What happens to a pool. [OPut i] puts back the i-th held buffer; [OIter n] opens an index iterator with
    [n] ranges; [OClose h] closes the h-th iterator, possibly again; [ODrop i] is the garbage collector emptying a
    slot of the sync.Pool. /repo/utils/sync.go:50-72, /repo/index.go:176-278, /repo/iter.go:61-70, 180-191. *)
Inductive pop :=
| OGet (pick : nat)
| OPut (i : nat)
| OIter (n : nat) (picks : list nat)
| OClose (h : nat)
| ODrop (i : nat).

(** One of them; /repo/utils/sync.go:50-72, /repo/index.go:176-278, /repo/iter.go:61-70, 180-191. *)
Definition pool_step (s : pst) (o : pop) : pst :=
  match o with
  | OGet pick =>
      let '(x, p) := pool_get pick (ps_pool s) in
      PSt p (x :: ps_out s) (ps_iters s)
  | OPut i =>
      match nth_error (ps_out s) i with
      | Some x => PSt (pool_put x (ps_pool s)) (remove_nth i (ps_out s)) (ps_iters s)
      | None => s
      end
  | OIter n picks =>
      let '(l, p) := pool_gets (2 * n) picks (ps_pool s) in
      PSt p (ps_out s) (ps_iters s ++ [l])
  | OClose h =>
      match nth_error (ps_iters s) h with
      | Some l => PSt (pool_puts l (ps_pool s)) (ps_out s) (firstn h (ps_iters s) ++ [] :: skipn (S h) (ps_iters s))
      | None => s
      end
  | ODrop i =>
      let p := ps_pool s in
      PSt (Pool (p_items p) (p_size p) (remove_nth i (p_sync p)) (p_next p)) (ps_out s) (ps_iters s)
  end.

(** A history; steps as in [pool_step], /repo/utils/sync.go:50-72. *)
Definition pool_run (s : pst) (os : list pop) : pst := fold_left pool_step os s.
