(** What queries should return, stated on lists of rows. *)

From Coq Require Import List NArith Bool Sorting.Sorted Sorting.Permutation.
From Verif.Model Require Import Bytes Go Keys Pebble Index Table Scan Query.
From Verif.Spec Require Import KeySpec StoreSpec TableSpec ScanSpec.
Import ListNotations.

(** Skip [off] elements and keep at most [lim] (0 = all). *)
Definition window {A} (off lim : N) (l : list A) : list A :=
  let l' := skipn (N.to_nat off) l in
  if (lim =? 0)%N then l' else firstn (N.to_nat lim) l'.

Definition keep {A} (f : option (A -> bool)) (l : list A) : list A :=
  match f with Some f => filter f l | None => l end.

(** [k] rows of [l] are enough: all of them, or as many as offset and limit need. *)
Definition enough {T} (q : query T) (l : list T) (k : nat) : Prop :=
  length l <= k \/
  (0 < q_limit q)%N /\ (q_offset q + q_limit q <= N.of_nat (length (keep (q_filter q) (firstn k l))))%N.

(** A less function as sorting needs it. *)
Definition strict_weak {A} (less : A -> A -> bool) : Prop :=
  (forall a, less a a = false) /\
  (forall a b c, less a b = true -> less b c = true -> less a c = true) /\
  (forall a b c, less a b = false -> less b c = false -> less a c = false).

(** What is assumed of sort.Slice: it permutes the slice and, for a strict weak
    order, leaves no element before a smaller one. *)
Definition sorts {A} (srt : (A -> A -> bool) -> list A -> list A) : Prop :=
  forall less l, Permutation (srt less l) l /\
    (strict_weak less -> StronglySorted (fun a b => less b a = false) (srt less l)).

(** [s] is [l], sorted if a less function is given. *)
Definition ordered {A} (less : option (A -> A -> bool)) (l s : list A) : Prop :=
  match less with
  | None => s = l
  | Some f => Permutation s l /\ (strict_weak f -> StronglySorted (fun a b => f b a = false) s)
  end.

Section After.
  Context {T : Type}.
  Variable sc : schema T.

  (** What follows the row with the primary key of [a]; everything if there is none. *)
  Inductive behind (a : T) : list T -> list T -> Prop :=
  | bh_absent l : (forall r, In r l -> s_pk sc r <> s_pk sc a) -> behind a l l
  | bh_at l1 r l2 : s_pk sc r = s_pk sc a -> (forall x, In x l1 -> s_pk sc x <> s_pk sc a) -> behind a (l1 ++ r :: l2) l2.
  Definition behind_opt (a : option T) (l l' : list T) : Prop :=
    match a with Some a => behind a l l' | None => l' = l end.

  (** The rows of [l] positioned strictly after [a]. *)
  Definition rows_after (ix : sindex T) (a : T) (l : list T) : list T :=
    filter (fun r => match pos_cmp sc ix a r with Lt => true | _ => false end) l.

  (** [a] is a row that can follow the selection: at or behind its start, and not
      behind the end of the last element of a multi selector. *)
  Definition after_fits (ix : sindex T) (prim : bool) (a : T) (sel : selector T) : Prop :=
    parts_fit ix a /\
    match sel with
    | SPoint p => si_key ix a = si_key ix p /\ pos_le sc ix p a
    | SPoints ps => prim = false /\ exists p, In p ps /\ (pos_lt sc ix a p \/ si_key ix a = si_key ix p)
    | SRange lo _ => pos_le sc ix lo a
    | SRanges rs => exists lo hi, In [lo; hi] rs /\ pos_le sc ix a hi
    | SOther => False
    end.

  (** [b] has, by primary key, exactly the rows all the lists have. *)
  Definition intersection (lists : list (list T)) (b : list T) : Prop :=
    StronglySorted (fun x y => blt (s_pk sc x) (s_pk sc y)) b /\
    forall r, In r b <-> Forall (In r) lists.

  (** A query that may be part of an intersection. *)
  Definition plain_part (q : query T) : Prop :=
    q_filter q = None /\ q_less q = None /\ q_after q = None /\ q_offset q = 0%N /\ q_limit q = 0%N.

  (** Running a query page by page, each page after the last row of the one before,
      until a page is empty; the rows of all pages. *)
  Fixpoint pages (run : option T -> res (list T)) (fuel : nat) (after : option T) : res (list T) :=
    match fuel with
    | O => Diverge
    | S fuel' =>
        match run after with
        | Ok [] => Ok []
        | Ok (r :: l) => match pages run fuel' (Some (last l r)) with Ok rest => Ok (r :: l ++ rest) | e => e end
        | e => e
        end
    end.
  Definition page (q : query T) (a : option T) : query T :=
    match a with Some a => q_with_after q a | None => q end.
End After.

(** The calls that build a query (/repo/query.go:74-153). *)
Inductive qcall (T : Type) :=
| QWith (idx : index T) (sel : selector T) | QFilter (f : T -> bool) | QOrder (less : T -> T -> bool)
| QReverse | QOffset (n : N) | QLimit (n : N) | QAfter (a : T) | QInter (qs : list (query T)).
Arguments QWith {T}. Arguments QFilter {T}. Arguments QOrder {T}. Arguments QReverse {T}.
Arguments QOffset {T}. Arguments QLimit {T}. Arguments QAfter {T}. Arguments QInter {T}.

Definition build {T} (q : query T) (c : qcall T) : query T :=
  match c with
  | QWith idx sel => q_with q idx sel
  | QFilter f => q_with_filter q f
  | QOrder less => q_order q less
  | QReverse => q_reverse q
  | QOffset n => q_with_offset q n
  | QLimit n => q_with_limit q n
  | QAfter a => q_with_after q a
  | QInter qs => q_intersects q qs
  end.

(** [x] is what the last call that [pick] knows gives, [d] if there is none. *)
Definition settled {T A} (pick : qcall T -> option A) (d : A) (l : list (qcall T)) (x : A) : Prop :=
  (exists l1 c l2, l = l1 ++ c :: l2 /\ pick c = Some x /\ Forall (fun c' => pick c' = None) l2) \/
  Forall (fun c => pick c = None) l /\ x = d.

Definition pick_with {T} (c : qcall T) : option (index T * selector T) := match c with QWith i s => Some (i, s) | _ => None end.
Definition pick_filter {T} (c : qcall T) : option (option (T -> bool)) := match c with QFilter f => Some (Some f) | _ => None end.
Definition pick_order {T} (c : qcall T) : option (option (T -> T -> bool)) := match c with QOrder f => Some (Some f) | _ => None end.
Definition pick_offset {T} (c : qcall T) : option N := match c with QOffset n => Some n | _ => None end.
Definition pick_limit {T} (c : qcall T) : option N := match c with QLimit n => Some n | _ => None end.
Definition pick_after {T} (c : qcall T) : option (option T) := match c with QAfter a => Some (Some a) | _ => None end.

(** How often Reverse is called, and everything given to Intersects. *)
Definition reverses {T} (l : list (qcall T)) : nat := length (filter (fun c => match c with QReverse => true | _ => false end) l).
Definition intersected {T} (l : list (qcall T)) : list (query T) := concat (map (fun c => match c with QInter qs => qs | _ => [] end) l).
