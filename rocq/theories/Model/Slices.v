(** Slices that share memory: the key builder of /repo/keys.go and the intersect list of /repo/query.go with Go's append. *)

From Coq Require Import List NArith ZArith Bool Arith.
From Verif.Model Require Import Bytes Go Keys.
Import ListNotations.

Section Heap.
  Context {A : Type}.

  (** Go arrays by number; an array is never reused. The memory behind the slices of /repo/keys.go:11-14 and /repo/query.go:41. *)
  Definition heap := list (list A).

  (** A Go slice header (nil: all zero); /repo/keys.go:12 buff, /repo/query.go:41 intersects. *)
  Record slc := Slc { sl_arr : nat; sl_off : nat; sl_len : nat; sl_cap : nat }.

  (** The cells of an array; /repo/keys.go:12. *)
  Definition cells (h : heap) (a : nat) : list A := nth a h [].

  (** What a slice shows; /repo/keys.go:143-145 Bytes. *)
  Definition sl_read (h : heap) (s : slc) : list A := firstn (sl_len s) (skipn (sl_off s) (cells h (sl_arr s))).

  (** Cells from [pos] on replaced; /repo/keys.go:33, 124, 129. *)
  Definition overwrite (l : list A) (pos : nat) (xs : list A) : list A := firstn pos l ++ xs ++ skipn (pos + length xs) l.

  (** An array replaced; /repo/keys.go:33. *)
  Definition set_cells (h : heap) (a : nat) (l : list A) : heap := firstn a h ++ l :: skipn (S a) h.

  (** Assignment to elements [pos..] of a slice; /repo/keys.go:33, 124, 129 and /repo/index.go:95. *)
  Definition sl_write (h : heap) (s : slc) (pos : nat) (xs : list A) : heap :=
    match xs with
    | [] => h
    | _ => set_cells h (sl_arr s) (overwrite (cells h (sl_arr s)) (sl_off s + pos) xs)
    end.

  (** The built-in append, /repo/keys.go:24, 138 and /repo/query.go:151: within the capacity it writes behind the slice in place, otherwise it
      copies to a new array. The runtime chooses the new capacity: [grow old needed] cells more than needed, filled with [z]. *)
  Definition sl_append (grow : nat -> nat -> nat) (z : A) (h : heap) (s : slc) (xs : list A) : heap * slc :=
    match xs with
    | [] => (h, s)
    | _ =>
        let n := sl_len s + length xs in
        if Nat.leb n (sl_cap s) then (sl_write h s (sl_len s) xs, Slc (sl_arr s) (sl_off s) n (sl_cap s))
        else (h ++ [sl_read h s ++ xs ++ repeat z (grow (sl_cap s) n)], Slc (length h) 0 n (n + grow (sl_cap s) n))
    end.
End Heap.
Arguments heap : clear implicits.

Section Builder.
  Variable grow : nat -> nat -> nat.
  Let app h s xs := sl_append grow x00 h s xs.

  (** /repo/keys.go:11-14 type KeyBuilder. *)
  Record hkb := HKB { hb_buff : slc; hb_fid : byte }.

  (** /repo/keys.go:136-141 putFieldID. *)
  Definition h_put_field_id (h : heap byte) (b : hkb) : heap byte * hkb :=
    let f := n2b (b2n (hb_fid b) + 1) in
    let '(h', s) := app h (hb_buff b) [f] in (h', HKB s f).

  (** bt.buff = append(bt.buff, ...), /repo/keys.go:24, 73, 94, 100, 106. *)
  Definition h_append (h : heap byte) (b : hkb) (xs : bytes) : heap byte * hkb :=
    let '(h', s) := app h (hb_buff b) xs in (h', HKB s (hb_fid b)).

  (** Write over the last bytes, e.g. PutUint64(bt.buff[len(bt.buff)-8:], i), /repo/keys.go:33, 50, 67, 74, 81, 88, 124. *)
  Definition h_put_last (h : heap byte) (b : hkb) (xs : bytes) : heap byte :=
    sl_write h (hb_buff b) (sl_len (hb_buff b) - length xs) xs.

  (** /repo/keys.go:20-35, 37-52, 54-69 AddInt64Field, AddInt32Field, AddInt16Field. *)
  Definition h_add_int (w : nat) (h : heap byte) (b : hkb) (i : Z) : heap byte * hkb :=
    let '(h, b) := h_put_field_id h b in
    let '(h, b) := h_append h b [if (0 <? i)%Z then x02 else if (i =? 0)%Z then x01 else x00] in
    let i' := if (i <? 0)%Z then z_not (to_signed w (- i)) else i in
    let '(h, b) := h_append h b (repeat x00 w) in
    (h_put_last h b (be_bytes w (to_unsigned w i')), b).

  (** /repo/keys.go:71-76, 78-83, 85-90 AddUint64Field, AddUint32Field, AddUint16Field. *)
  Definition h_add_uint (w : nat) (h : heap byte) (b : hkb) (i : N) : heap byte * hkb :=
    let '(h, b) := h_put_field_id h b in
    let '(h, b) := h_append h b (repeat x00 w) in
    (h_put_last h b (be_bytes w i), b).

  (** The loop of /repo/keys.go:121-123. *)
  Fixpoint h_zeros (w : nat) (h : heap byte) (b : hkb) : heap byte * hkb :=
    match w with
    | O => (h, b)
    | S w' => let '(h, b) := h_append h b [x00] in h_zeros w' h b
    end.

  (** /repo/keys.go:110-134 AddBigIntField; FillBytes panics if the number is too long. The complement loop of lines 126-131 rewrites the
      same bytes. *)
  Definition h_add_big_int (h : heap byte) (b : hkb) (bi : Z) (bits : N) : res (heap byte * hkb) :=
    let '(h, b) := h_put_field_id h b in
    let '(h, b) := h_append h b [if (0 <? bi)%Z then x02 else if (bi =? 0)%Z then x01 else x00] in
    let w := N.to_nat (bits / 8) in
    let '(h, b) := h_zeros w h b in
    let mag := Z.to_N (Z.abs bi) in
    if (mag <? 256 ^ N.of_nat w)%N then
      let h := h_put_last h b (be_bytes w mag) in
      Ok (if (bi <? 0)%Z then (h_put_last h b (map byte_not (be_bytes w mag)), b) else (h, b))
    else Panic.

  (** /repo/keys.go:98-102 AddStringField: []byte(s) is a copy. *)
  Definition h_add_string (h : heap byte) (b : hkb) (l : bytes) : heap byte * hkb :=
    let '(h, b) := h_put_field_id h b in h_append h b l.

  (** /repo/keys.go:104-108 AddBytesField: the argument is read after the field id has been written. *)
  Definition h_add_bytes (h : heap byte) (b : hkb) (s : slc) : heap byte * hkb :=
    let '(h, b) := h_put_field_id h b in h_append h b (sl_read h s).

  (** /repo/index.go:92-101 OrderBytes: the loop complements the caller's bytes in place. *)
  Definition h_order_bytes (h : heap byte) (b : hkb) (s : slc) (desc : bool) : heap byte * hkb :=
    let h := if desc then sl_write h s 0 (map byte_not (sl_read h s)) else h in
    h_add_bytes h b s.

  (** One call on a builder. [SVal] is any AddXxxField or OrderXxx whose argument is a value (for OrderXxx already negated,
      /repo/index.go:29-90, 103-110), the others take a slice; /repo/keys.go:20-134, /repo/index.go:29-110. *)
  Inductive bstep :=
  | SVal (f : field)
  | SBytes (s : slc)
  | SOrderBytes (s : slc) (desc : bool).

  (** /repo/keys.go:20-134, /repo/index.go:29-110. *)
  Definition h_step (h : heap byte) (b : hkb) (x : bstep) : res (heap byte * hkb) :=
    match x with
    | SVal (FInt64 i) => Ok (h_add_int 8 h b i)
    | SVal (FInt32 i) => Ok (h_add_int 4 h b i)
    | SVal (FInt16 i) => Ok (h_add_int 2 h b i)
    | SVal (FUint64 i) => Ok (h_add_uint 8 h b i)
    | SVal (FUint32 i) => Ok (h_add_uint 4 h b i)
    | SVal (FUint16 i) => Ok (h_add_uint 2 h b i)
    | SVal (FByte x) => Ok (h_add_string h b [x])
    | SVal (FBytes l) => Ok (h_add_string h b l)
    | SVal (FBigInt i bits) => h_add_big_int h b i bits
    | SBytes s => Ok (h_add_bytes h b s)
    | SOrderBytes s desc => Ok (h_order_bytes h b s desc)
    end.

  (** A chain of calls, /repo/keys.go:20-134. *)
  Fixpoint h_run (h : heap byte) (b : hkb) (xs : list bstep) : res (heap byte * hkb) :=
    match xs with
    | [] => Ok (h, b)
    | x :: xs' => match h_step h b x with Ok (h', b') => h_run h' b' xs' | Err e => Err e | Panic => Panic | Diverge => Diverge end
    end.
End Builder.

(** ** Queries *)

(** A query: what is kept by value, and the list of intersects; /repo/query.go:27-42. *)
Record hquery (Q : Type) := HQ { hq_val : Q; hq_inter : slc }.
Arguments HQ {Q}.
Arguments hq_val {Q}.
Arguments hq_inter {Q}.

(** A call on a query: Intersects, or any other builder method, which changes the copy's values; /repo/query.go:76-153. *)
Inductive qstep (Q : Type) :=
| QIntersects (qs : list (hquery Q))
| QOther (f : Q -> Q).
Arguments QIntersects {Q}.
Arguments QOther {Q}.

(** /repo/query.go:76-153 With, Filter, Order, Reverse, Offset, Limit, After, Intersects. *)
Definition hq_step {Q} (grow : nat -> nat -> nat) (z : hquery Q) (h : heap (hquery Q)) (q : hquery Q) (x : qstep Q) : heap (hquery Q) * hquery Q :=
  match x with
  | QIntersects qs => let '(h', s) := sl_append grow z h (hq_inter q) qs in (h', HQ (hq_val q) s)
  | QOther f => (h, HQ (f (hq_val q)) (hq_inter q))
  end.

(** A chain of calls; /repo/query.go:76-153. *)
Fixpoint hq_run {Q} grow z (h : heap (hquery Q)) (q : hquery Q) (xs : list (qstep Q)) : heap (hquery Q) * hquery Q :=
  match xs with
  | [] => (h, q)
  | x :: xs' => let '(h', q') := hq_step grow z h q x in hq_run grow z h' q' xs'
  end.
