(** What filters and their stores should do. *)

From Coq Require Import List NArith Bool.
From Verif.Model Require Import Bytes Go Table Bloom.
Import ListNotations.

(** The bucket of a key is one of the filter's. *)
Definition hashes_ok (h : hashes) : Prop := forall k n, 0 < n -> h_bucket h k n < n.

(** Reading back a written filter; a cut off one cannot be read. *)
Definition codec_ok (cd : codec) : Prop :=
  (forall x, unpack cd (pack cd x) = Some x) /\ (forall x j, j < length (pack cd x) -> unpack cd (firstn j (pack cd x)) = None).

(** The keys under which a filter stores itself. *)
Definition own_key (c : config) (k : bytes) : Prop := k = count_key c \/ exists i, i < c_n c /\ k = bucket_key c i.

(** A store that keeps a filter's keys apart. An interrupted Set leaves the old value or a part of the new one; DeleteRange of
    anything removes an entry or leaves it. *)
Record storer_ok {S} (st : storer S) (c : config) : Prop := {
  so_same : forall s k v, own_key c k -> st_get st (st_set st s k v) k = Some v;
  so_other : forall s k v k', own_key c k -> own_key c k' -> k <> k' -> st_get st (st_set st s k v) k' = st_get st s k';
  so_torn : forall s k v j, own_key c k -> st_get st (st_torn st s k v j) k = st_get st s k \/ exists i, st_get st (st_torn st s k v j) k = Some (firstn i v);
  so_torn_other : forall s k v j k', own_key c k -> own_key c k' -> k <> k' -> st_get st (st_torn st s k v j) k' = st_get st s k';
  so_del : forall s lo hi k, own_key c k -> st_get st (fst (st_del_range st s lo hi)) k = st_get st s k \/ st_get st (fst (st_del_range st s lo hi)) k = None
}.

(** What a history promises: the keys the filter must report, and the keys a successful Load must
    bring. Every Add promises its key for the life of the process; a completed Save promises for the store what the filter
    promises; a stopped Save keeps for the store what both promised; Load adds the store's promises to the filter's. *)
Definition promise (p : (bytes -> Prop) * (bytes -> Prop)) (o : bop_f) (r : res unit) : (bytes -> Prop) * (bytes -> Prop) :=
  let '(mem, disk) := p in
  match o, r with
  | FAdd k, _ => ((fun x => mem x \/ x = k), disk)
  | FSave _, Ok _ => (mem, mem)
  | FSave _, _ => (mem, (fun x => mem x /\ disk x))
  | FLoad, Ok _ => ((fun x => mem x \/ disk x), disk)
  | FLoad, _ => (mem, disk)
  | FClear, _ => (mem, disk)
  | FNew, _ => ((fun _ => False), disk)
  end.

Fixpoint promises (p : (bytes -> Prop) * (bytes -> Prop)) (os : list bop_f) (rs : list (res unit)) : (bytes -> Prop) * (bytes -> Prop) :=
  match os, rs with
  | o :: os', r :: rs' => promises (promise p o r) os' rs'
  | _, _ => p
  end.

(** Nothing promised yet; in the store nothing is ever promised for want of a Save. *)
Definition no_promise : (bytes -> Prop) * (bytes -> Prop) := ((fun _ => False), (fun _ => False)).

(** The key was added, and the filter is still the same object. *)
Definition added (os : list bop_f) (k : bytes) : Prop := exists a b, os = a ++ FAdd k :: b /\ ~ In FNew b.

(** Something other than a Save. *)
Definition not_save (o : bop_f) : Prop := match o with FSave _ => False | _ => True end.

(** Neither a Clear nor a Save that is stopped. *)
Definition undisturbed (o : bop_f) : Prop := match o with FClear | FSave (Some _) => False | _ => True end.

(** The same set of bits and the same flags, bucket by bucket. *)
Definition same_bits (a b : list N) : Prop := forall x, In x a <-> In x b.
Definition same_bucket (a b : bucket) : Prop :=
  bk_changes a = bk_changes b /\ bk_written a = bk_written b /\ same_bits (bk_bits a) (bk_bits b).
Definition same_filter (a b : list bucket) : Prop := Forall2 same_bucket a b.

(** Two filters used with one store: [true] marks what the first one does. *)
Fixpoint two_run {S} (st : storer S) (cd : codec) (h : hashes) (c1 c2 : config) (s : S) (b1 b2 : list bucket) (os : list (bool * bop_f))
    : S * (list bucket * list (res unit)) * (list bucket * list (res unit)) :=
  match os with
  | [] => (s, (b1, []), (b2, []))
  | (true, o) :: os' =>
      let '(s1, b1', r) := bloom_step st cd h c1 s b1 o in
      let '(s2, (x1, r1), x2) := two_run st cd h c1 c2 s1 b1' b2 os' in (s2, (x1, r :: r1), x2)
  | (false, o) :: os' =>
      let '(s1, b2', r) := bloom_step st cd h c2 s b2 o in
      let '(s2, x1, (x2, r2)) := two_run st cd h c1 c2 s1 b1 b2' os' in (s2, x1, (x2, r :: r2))
  end.

(** What one of them does. *)
Definition of_one (side : bool) (os : list (bool * bop_f)) : list bop_f := map snd (filter (fun x => Bool.eqb (fst x) side) os).

(** Neither prefix starts with the other. *)
Definition prefixes_apart (p q : bytes) : Prop := (forall x, p <> q ++ x) /\ (forall x, q <> p ++ x).
