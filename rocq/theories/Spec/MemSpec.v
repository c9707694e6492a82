(** What it means for buffers not to overlap, and for code to use only its own. *)

From Coq Require Import List NArith.
From Verif.Model Require Import Bytes Keys Index Table Slices Mem.
From Verif.Spec Require Import SliceSpec.
Import ListNotations.

(** The cells that the two slices may ever use, up to their capacities, are different cells. *)
Definition disjoint (s t : slc) : Prop :=
  sl_cap s = 0 \/ sl_cap t = 0 \/ sl_arr s <> sl_arr t \/ sl_off s + sl_cap s <= sl_off t \/ sl_off t + sl_cap t <= sl_off s.

(** Buffers that lie in memory and overlap nowhere. *)
Definition buffers (h : heap byte) (l : list slc) : Prop := Forall (sl_ok h) l /\ ForallOrdPairs disjoint l.

(** Memory only grows: arrays keep their sizes. *)
Definition grows (h h' : heap byte) : Prop :=
  length h <= length h' /\ forall a, a < length h -> length (nth a h' []) = length (nth a h []).

(** Nothing is changed outside the free room behind [s]. *)
Definition only_behind (s : slc) (h h' : heap byte) : Prop :=
  grows h h' /\ forall a i, a < length h -> (a = sl_arr s -> ~ (sl_off s + sl_len s <= i /\ i < sl_off s + sl_cap s)) ->
    nth_error (nth a h' []) i = nth_error (nth a h []) i.

(** A function that appends: it writes behind the slice or in new memory, and returns what [f] says. *)
Definition appends (hf : hfun) (f : bytes -> bytes) : Prop := forall h s, sl_ok h s ->
  let '(h', s') := hf h s in
  only_behind s h h' /\ sl_ok h' s' /\
  (length h <= sl_arr s' \/ sl_arr s' = sl_arr s /\ sl_off s' = sl_off s /\ sl_cap s' = sl_cap s) /\
  (exists v, f (sl_read h s) = sl_read h s ++ v) /\ sl_read h' s' = f (sl_read h s).

(** The user's functions on memory do what the functions of the table do on values. *)
Record implements {T F} (mt : mtable T F) : Prop := {
  im_pk : forall r, appends (mt_pk mt r) (fun b => t_pk (mt_val mt) (new_kb b) r);
  im_key : forall ix r, In ix (t_indexes (mt_val mt)) -> appends (mt_key mt ix r) (fun b => ix_key ix (new_kb b) r);
  im_ord : forall ix r, In ix (t_indexes (mt_val mt)) -> appends (mt_ord mt ix r) (fun b => kb_buff (ix_order ix (new_kb b) r))
}.

(** Two slices of the same cells, with any room behind them. *)
Definition same_cells (s t : slc) : Prop := sl_arr s = sl_arr t /\ sl_off s = sl_off t /\ sl_len s = sl_len t.

(** What the slices of [l] show is the same in both memories. *)
Definition unchanged (l : list slc) (h h' : heap byte) : Prop :=
  forall s t, In t l -> same_cells s t -> sl_ok h s -> sl_read h' s = sl_read h s.

(** Other goroutines do not touch what this call holds, nor the slices [foreign]. *)
Definition leaves (noise : list (heap byte) -> list slc -> heap byte -> heap byte) (foreign : list slc) : Prop :=
  forall n own h, grows h (noise n own h) /\ unchanged (own ++ foreign) h (noise n own h).

(** Afterwards the slices [back] go to the pools: with [foreign] they still overlap nowhere. Now, and at every moment when another goroutine
    could look, the slices [foreign] showed what they show in [m]. *)
Definition returned (foreign : list slc) (m m' : mem) (back : list slc) : Prop :=
  grows (m_heap m) (m_heap m') /\ buffers (m_heap m') (back ++ foreign) /\
  exists moments, m_past m' = moments ++ m_past m /\ Forall (unchanged foreign (m_heap m)) (m_heap m' :: moments).
