(** What scans should do, stated on abstract tables. *)

From Coq Require Import List NArith Bool Sorting.Sorted.
From Verif.Model Require Import Bytes Go Keys Pebble Index Table Scan.
From Verif.Spec Require Import KeySpec StoreSpec TableSpec.
Import ListNotations.

(** The rows themselves, seen as an index. *)
Definition sprimary {T} : sindex T := SIndex x00 (fun _ => []) (fun _ => []) (fun _ => true).

Section Listing.
  Context {T : Type}.
  Variable sc : schema T.
  Variable ix : sindex T.
  Variable m : tmap T.

  (** Position of a row in an index: by index key, then order part, then primary
      key; index key and order part compare shorter-first. *)
  Definition pos_cmp (a b : T) : comparison :=
    first_diff [shortlex (si_key ix a) (si_key ix b); shortlex (si_ord ix a) (si_ord ix b);
                bcmp (s_pk sc a) (s_pk sc b)].
  Definition pos_lt (a b : T) : Prop := pos_cmp a b = Lt.
  Definition pos_le (a b : T) : Prop := pos_cmp a b <> Gt.

  (** [l] lists, in index order and each once, exactly the stored rows that the
      index accepts and that satisfy [P]. *)
  Definition listing (P : T -> Prop) (l : list T) : Prop :=
    StronglySorted pos_lt l /\
    forall r, In r l <-> m (s_pk sc r) = Some r /\ si_filter ix r = true /\ P r.

  (** Lists one after another. *)
  Inductive listings : list (T -> Prop) -> list T -> Prop :=
  | ls_nil : listings [] []
  | ls_cons P Ps l ls : listing P l -> listings Ps ls -> listings (P :: Ps) (l ++ ls).

  (** The rows a point, the points of a multi-point selector on the primary index,
      and a range select. *)
  Definition from_point (p r : T) : Prop := si_key ix r = si_key ix p /\ pos_le p r.
  Definition at_point (p r : T) : Prop := s_pk sc r = s_pk sc p.
  Definition in_between (lo hi r : T) : Prop := pos_le lo r /\ pos_le r hi.
End Listing.

(** ** Callbacks *)

(** What a callback does when every Get returns [v]. *)
Fixpoint answer {T W} (v : res T) (p : prog (T:=T) W) : W * bool * option error :=
  match p with
  | PRet s c e => (s, c, e)
  | PGet k => answer v (k v)
  end.

(** Calling a callback once per (key, row) until it stops: [inl] the final state
    and result, [inr] the state after the last row. *)
Fixpoint visit_go {T W} (f : W -> bytes -> prog (T:=T) W) (l : list (bytes * T)) (s : W) : (W * res unit) + W :=
  match l with
  | [] => inr s
  | (k, r) :: l' =>
      match answer (Ok r) (f s k) with
      | (s', true, None) => visit_go f l' s'
      | (s', _, Some e) => inl (s', Err e)
      | (s', false, None) => inl (s', Ok tt)
      end
  end.

Definition visit {T W} (f : W -> bytes -> prog (T:=T) W) (l : list (bytes * T)) (s : W) : W * res unit :=
  match visit_go f l s with inl out => out | inr s' => (s', Ok tt) end.

(** The callback does not load the row / loads it exactly once. *)
Definition no_get {T W} (p : prog (T:=T) W) : Prop := exists s c e, p = PRet s c e.
Definition one_get {T W} (p : prog (T:=T) W) (Q : W -> Prop) : Prop :=
  exists k, p = PGet k /\ forall r, exists s c e, k (Ok r) = PRet s c e /\ (c = true -> e = None -> Q s).

(** The callback may skip rows, but once it has loaded one it loads every
    following row, each exactly once. *)
Definition loads_steadily {T W} (f : W -> bytes -> prog (T:=T) W) : Prop :=
  exists L : W -> Prop,
    (forall s k, L s -> one_get (f s k) L) /\ (forall s k, no_get (f s k) \/ one_get (f s k) L).

(** A scan of [l] with the callback [f] ended in [out]: as visiting [l] or, only if
    the context was cancelled, with the cancellation error after some rows. *)
Definition visited {T W} (ev : env T) (f : W -> bytes -> prog (T:=T) W) (l : list (bytes * T)) (s : W) (out : W * res unit) : Prop :=
  ((forall n, e_ctx ev n = false) -> out = visit f l s) /\
  (out = visit f l s \/ exists k s', k < length l /\ visit_go f (firstn k l) s = inr s' /\ out = (s', Err ECtx)).

(** [k] iterations are enough to visit [l]: the callback has ended by then. *)
Definition within {T W} (f : W -> bytes -> prog (T:=T) W) (l : list (bytes * T)) (s : W) (k : nat) : Prop :=
  length l <= k \/ exists out, visit_go f (firstn k l) s = inl out.

(** ** Iterators *)

(** The moves of an iterator; the first one of a sequence should be First or Last. *)
Inductive move := MFirst | MLast | MNext | MPrev.

(** Making a move with an iterator of a selection. *)
Definition bstep (open : bytes -> bytes -> piter) (mv : move) (b : biter) : biter :=
  match mv with MFirst => bi_first open b | MLast => bi_last open b | MNext => bi_next open b | MPrev => bi_prev open b end.

(** A cursor on a list of [n] elements is at 0 (before them), at 1..n, or at n+1 (behind). *)
Definition cursor_step (n : nat) (c : nat) (mv : move) : nat :=
  match mv with MFirst => 1 | MLast => n | MNext => Nat.min (S c) (S n) | MPrev => pred c end.
Definition cursor_at {A} (l : list A) (c : nat) : option A :=
  match c with O => None | S i => nth_error l i end.

(** ** Selections *)

Section Select.
  Context {T : Type}.
  Variable sc : schema T.
  Variable ix : sindex T.
  Variable m : tmap T.

  (** The index parts of [r] fit the 4-byte length fields. *)
  Definition parts_fit (r : T) : Prop :=
    (N.of_nat (length (si_key ix r)) < 2 ^ 32)%N /\ (N.of_nat (length (si_ord ix r)) < 2 ^ 32)%N.

  (** [p] can start an exact point scan: its index key does not end in 0xFF. *)
  Definition exact_point (p : T) : Prop := parts_fit p /\ last (si_key ix p) x00 <> xff.

  (** [hi] can end an exact range: its entry does not end in 0xFF, and no stored
      row has the same index key and order part and a longer primary key starting
      with that of [hi] (so that always for primary keys of fixed length). *)
  Definition exact_end (hi : T) : Prop :=
    parts_fit hi /\ last (entry_key sc ix hi) x00 <> xff /\
    forall r x, m (s_pk sc r) = Some r -> si_key ix r = si_key ix hi -> si_ord ix r = si_ord ix hi ->
      s_pk sc r = s_pk sc hi ++ x -> x = [].

  (** The same with one length excluded: all a scan needs in order not to miss rows. *)
  Definition parts_short (r : T) : Prop :=
    (N.of_nat (length (si_key ix r)) < 2 ^ 32 - 1)%N /\ (N.of_nat (length (si_ord ix r)) < 2 ^ 32)%N.

  Definition short_sel (sel : selector T) : Prop :=
    match sel with
    | SPoint p => parts_short p
    | SPoints ps => ps <> [] /\ forall p, In p ps -> parts_short p
    | SRange lo hi => parts_short lo /\ parts_short hi
    | SRanges rs => rs <> [] /\ forall r, In r rs -> exists lo hi, r = [lo; hi] /\ parts_short lo /\ parts_short hi
    | SOther => False
    end.

  (** The conditions and the selections of a selector; [prim] for the primary index. *)
  Definition exact_sel (prim : bool) (sel : selector T) : Prop :=
    match sel with
    | SPoint p => exact_point p
    | SPoints ps => ps <> [] /\ forall p, In p ps -> if prim then exact_end p else exact_point p
    | SRange lo hi => parts_fit lo /\ exact_end hi
    | SRanges rs => rs <> [] /\ forall r, In r rs -> exists lo hi, r = [lo; hi] /\ parts_fit lo /\ exact_end hi
    | SOther => False
    end.

  Definition selections (prim : bool) (sel : selector T) : list (T -> Prop) :=
    match sel with
    | SPoint p => [from_point sc ix p]
    | SPoints ps => map (if prim then at_point sc else from_point sc ix) ps
    | SRange lo hi => [in_between sc ix lo hi]
    | SRanges rs => map (fun r => match r with [lo; hi] => in_between sc ix lo hi | _ => fun _ => False end) rs
    | SOther => []
    end.
End Select.

(** ** What a scan really visits *)

(** The last byte that is not 0xFF becomes one higher; bytes 0xFF behind it stay. *)
Definition bumped (k k' : bytes) : Prop :=
  exists a b b' n, k = a ++ b :: repeat xff n /\ k' = a ++ b' :: repeat xff n /\ Byte.to_N b' = (Byte.to_N b + 1)%N.

Section Really.
  Context {T : Type}.
  Variable sc : schema T.
  Variable ix : sindex T.

  (** From the position of [lo] on, below the bumped [top]. *)
  Definition up_to (lo : T) (top : bytes) (r : T) : Prop :=
    pos_le sc ix lo r /\ exists top', bumped top top' /\ bcmp (entry_key sc ix r) top' = Lt.

  (** The part of an entry that the rows with one index key share. *)
  Definition entry_start (p : T) : bytes := [s_id sc; si_id ix] ++ be_bytes 4 (N.of_nat (length (si_key ix p))) ++ si_key ix p.

  Definition really (prim : bool) (sel : selector T) : list (T -> Prop) :=
    match sel with
    | SPoint p => [up_to p (entry_start p)]
    | SPoints ps => map (fun p => up_to p (if prim then entry_key sc ix p else entry_start p)) ps
    | SRange lo hi => [up_to lo (entry_key sc ix hi)]
    | SRanges rs => map (fun r => match r with [lo; hi] => up_to lo (entry_key sc ix hi) | _ => fun _ => False end) rs
    | SOther => []
    end.
End Really.

(** Rows with their entry keys, and in scan direction. *)
Definition keyed {T} (sc : schema T) (ix : sindex T) (l : list T) : list (bytes * T) :=
  map (fun r => (entry_key sc ix r, r)) l.
Definition dir {A} (rv : bool) (l : list A) : list A := if rv then rev l else l.

(** [rows] are the rows that scanning with the selector should visit, in order. *)
Definition selected {T F} (tb : table T F) (idx : index T) (m : tmap T) (sel : selector T) (rows : list T) : Prop :=
  listings (schema_of tb) (sindex_of idx) m
    (selections (schema_of tb) (sindex_of idx) (Byte.eqb (ix_id idx) x00) sel) rows.
Definition exact_selector {T F} (tb : table T F) (idx : index T) (m : tmap T) (sel : selector T) : Prop :=
  exact_sel (schema_of tb) (sindex_of idx) m (Byte.eqb (ix_id idx) x00) sel.

(** The rows that it visits. *)
Definition visits {T F} (tb : table T F) (idx : index T) (m : tmap T) (sel : selector T) (rows : list T) : Prop :=
  listings (schema_of tb) (sindex_of idx) m (really (schema_of tb) (sindex_of idx) (Byte.eqb (ix_id idx) x00) sel) rows.

(** The table [m] is read, directly or through a batch that can be read. *)
Record reads {T F} (tb : table T F) (db : kv) (fl : F) (ob : optb) (m : tmap T) : Prop := {
  reads_ok : kv_ok db;
  reads_batch : ob <> NilBatch;
  reads_rw : readable (batch_of ob);
  reads_cons : consistent tb (view db (batch_of ob)) fl m
}.

(** ** Callbacks that load at most one row per call *)

Definition loads_at_most_once {T W} (f : W -> bytes -> prog (T:=T) W) : Prop :=
  forall s k, no_get (f s k) \/ one_get (f s k) (fun _ => True).

(** The calls that scanning the (key, row) pairs of a secondary index makes, [size] rows being read at a time. [b] is how many of the next
    rows have been read ahead, [n] how often the context has been looked at. A row that has been read ahead is offered again and again until
    the callback loads it; any other row is offered once. Loading a row that has not been read reads the following rows too. *)
Inductive offered {T W} (ev : env T) (f : W -> bytes -> prog (T:=T) W) (size : nat) : nat -> nat -> list (bytes * T) -> W -> W * res unit -> Prop :=
| of_end n b s : offered ev f size n b [] s (s, Ok tt)
| of_cancel n k r l s : e_ctx ev n = true -> offered ev f size n 0 ((k, r) :: l) s (s, Err ECtx)
| of_stop n b k r l s s' c : (b = 0 -> e_ctx ev n = false) -> answer (Ok r) (f s k) = (s', false, c) ->
    offered ev f size n b ((k, r) :: l) s (s', match c with Some e => Err e | None => Ok tt end)
| of_fail n b k r l s s' c e : (b = 0 -> e_ctx ev n = false) -> answer (Ok r) (f s k) = (s', c, Some e) ->
    offered ev f size n b ((k, r) :: l) s (s', Err e)
| of_pass n k r l s s' out : e_ctx ev n = false -> f s k = PRet s' true None ->
    offered ev f size (S n) 0 l s' out -> offered ev f size n 0 ((k, r) :: l) s out
| of_again n b k r l s s' out : f s k = PRet s' true None ->
    offered ev f size n (S b) ((k, r) :: l) s' out -> offered ev f size n (S b) ((k, r) :: l) s out
| of_first n k r l s s' g out : e_ctx ev n = false -> f s k = PGet g -> g (Ok r) = PRet s' true None ->
    offered ev f size (S n) (size - 1) l s' out -> offered ev f size n 0 ((k, r) :: l) s out
| of_next n b k r l s s' g out : f s k = PGet g -> g (Ok r) = PRet s' true None ->
    offered ev f size n b l s' out -> offered ev f size n (S b) ((k, r) :: l) s out.
