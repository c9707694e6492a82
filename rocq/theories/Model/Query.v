(** Queries: /repo/query.go and Index.Intersect of /repo/index.go. *)

From Coq Require Import List NArith ZArith Bool.
From Verif.Model Require Import Bytes Go Keys Pebble Index Table Scan.
Import ListNotations.

(** /repo/query.go:27-41 Query; [q_after] is afterSelector when isAfter is set. The table is an argument
    of the functions below. *)
Inductive query (T : Type) := MkQuery {
  q_index : index T;
  q_sel : selector T;
  q_rev : bool;
  q_filter : option (T -> bool);
  q_less : option (T -> T -> bool);
  q_offset : N;
  q_limit : N;
  q_after : option T;
  q_inter : list (query T)
}.
Arguments MkQuery {T}.
Arguments q_index {T}.
Arguments q_sel {T}.
Arguments q_rev {T}.
Arguments q_filter {T}.
Arguments q_less {T}.
Arguments q_offset {T}.
Arguments q_limit {T}.
Arguments q_after {T}.
Arguments q_inter {T}.

(** /repo/query.go:43-55 newQuery, with the primary index as /repo/table.go:996-998 passes it. *)
Definition new_query {T F} (tb : table T F) : query T :=
  MkQuery primary_index (SPoint (t_empty tb)) false None None 0 0 None [].

(** /repo/query.go:74-78 With. *)
Definition q_with {T} (q : query T) (idx : index T) (sel : selector T) : query T :=
  MkQuery idx sel (q_rev q) (q_filter q) (q_less q) (q_offset q) (q_limit q) (q_after q) (q_inter q).

(** /repo/query.go:82-85 Filter. *)
Definition q_with_filter {T} (q : query T) (f : T -> bool) : query T :=
  MkQuery (q_index q) (q_sel q) (q_rev q) (Some f) (q_less q) (q_offset q) (q_limit q) (q_after q) (q_inter q).

(** /repo/query.go:88-91 Order. *)
Definition q_order {T} (q : query T) (less : T -> T -> bool) : query T :=
  MkQuery (q_index q) (q_sel q) (q_rev q) (q_filter q) (Some less) (q_offset q) (q_limit q) (q_after q) (q_inter q).

(** /repo/query.go:97-100 Reverse. *)
Definition q_reverse {T} (q : query T) : query T :=
  MkQuery (q_index q) (q_sel q) (negb (q_rev q)) (q_filter q) (q_less q) (q_offset q) (q_limit q) (q_after q) (q_inter q).

(** /repo/query.go:109-112 Offset. *)
Definition q_with_offset {T} (q : query T) (n : N) : query T :=
  MkQuery (q_index q) (q_sel q) (q_rev q) (q_filter q) (q_less q) n (q_limit q) (q_after q) (q_inter q).

(** /repo/query.go:118-121 Limit. *)
Definition q_with_limit {T} (q : query T) (n : N) : query T :=
  MkQuery (q_index q) (q_sel q) (q_rev q) (q_filter q) (q_less q) (q_offset q) n (q_after q) (q_inter q).

(** /repo/query.go:124-128 After. *)
Definition q_with_after {T} (q : query T) (a : T) : query T :=
  MkQuery (q_index q) (q_sel q) (q_rev q) (q_filter q) (q_less q) (q_offset q) (q_limit q) (Some a) (q_inter q).

(** /repo/query.go:150-153 Intersects, by value (sharing of the appended slice between copies of a
    query is not modelled here). *)
Definition q_intersects {T} (q : query T) (qs : list (query T)) : query T :=
  MkQuery (q_index q) (q_sel q) (q_rev q) (q_filter q) (q_less q) (q_offset q) (q_limit q) (q_after q) (q_inter q ++ qs).

(** records[n:] for a uint64 [n]; /repo/query.go:266, 376. *)
Definition slice_from {A} (n : N) (l : list A) : res (list A) :=
  if (n <=? N.of_nat (length l))%N then Ok (skipn (N.to_nat n) l) else Panic.

(** The offset step, /repo/query.go:262-268, 372-378 and 309-313: int(offset) is the two's-complement conversion. *)
Definition apply_offset {A} (n : N) (l : list A) : res (list A) :=
  if (Z.of_nat (length l) <=? to_signed 8 (Z.of_N n))%Z then Ok [] else slice_from n l.

(** The limit step, /repo/query.go:271-277, 381-387 and 316-323: slicing beyond the length panics (the
    capacity is far below 2^63, where alone it is reached). *)
Definition apply_limit {A} (n : N) (l : list A) : res (list A) :=
  if (Z.of_nat (length l) <=? to_signed 8 (Z.of_N n))%Z then Ok l
  else if (n <=? N.of_nat (length l))%N then Ok (firstn (N.to_nat n) l) else Panic.

Section Query.
  Context {T F : Type}.
  Variable tb : table T F.
  Variable ev : env T.

  (** The result of sort.Slice with a less function, /repo/query.go:240-242, 348-350. *)
  Variable srt : (T -> T -> bool) -> list T -> list T.

  (** encodeIndexKey(q.table, r, q.index, []byte{}); /repo/query.go:192, 435, 440, 460, 461. *)
  Definition idx_key (idx : index T) (r : T) : bytes := encode_index_key (t_id tb) (t_pk tb) idx r [].

  (** /repo/query.go:437-448: the points of SelectorPoints with after. *)
  Fixpoint points_after (idx : index T) (a : T) (ps : list T) : res (list T) :=
    match ps with
    | [] => Ok []
    | p :: ps' =>
        let ak := idx_key idx a in
        let pk := idx_key idx p in
        let kept := if bltb ak pk then Ok [p]
                    else match key_prefix_of ak, key_prefix_of pk with
                         | Ok x, Ok y => Ok (if beqb x y then [a] else [])
                         | _, _ => Panic
                         end in
        match kept with
        | Ok l => match points_after idx a ps' with Ok l' => Ok (l ++ l') | e => e end
        | e => e
        end
    end.

  (** /repo/query.go:457-469: the ranges of SelectorRanges with after; rng[0], rng[1] panic on shorter slices. *)
  Fixpoint ranges_after (idx : index T) (a : T) (rs : list (list T)) : res (list (list T)) :=
    match rs with
    | [] => Ok []
    | ((lo :: hi :: _) as rng) :: rs' =>
        let ak := idx_key idx a in
        let kept := if bltb ak (idx_key idx lo) then [rng]
                    else if bleb ak (idx_key idx hi) then [[a; hi]] else [] in
        match ranges_after idx a rs' with Ok l' => Ok (kept ++ l') | e => e end
    | _ => Panic
    end.

  (** /repo/query.go:430-473 selectorWithAfter. *)
  Definition selector_with_after (idx : index T) (a : T) (sel : selector T) : res (selector T) :=
    match sel with
    | SPoint _ => Ok (SPoint a)
    | SPoints ps => match points_after idx a ps with Ok l => Ok (SPoints l) | Err e => Err e | Panic => Panic | Diverge => Diverge end
    | SRange _ hi => Ok (SRange a hi)
    | SRanges rs => match ranges_after idx a rs with Ok l => Ok (SRanges l) | Err e => Err e | Panic => Panic | Diverge => Diverge end
    | SOther => Err ESelector
    end.

  (** The variables shared by the calls of the callback, /repo/query.go:163-182. [qs_count] is a uint64, but as it
      counts rows its overflow is not modelled. *)
  Record qst := Qst {
    qs_records : list T;
    qs_count : N;
    qs_skipped : bool;
    qs_after_applied : bool;
    qs_offset_applied : bool;
    qs_limit_applied : bool
  }.

  (** The start of the callback, /repo/query.go:184-198: the new state, and is the row the after row. Keys that
      KeyDecode rejects would panic; the index iterators do not produce any. *)
  Definition cb_after (q : query T) (s : qst) (k : bytes) : qst * bool :=
    match q_after q, q_less q with
    | Some a, None =>
        if qs_skipped s then (s, false)
        else (Qst (qs_records s) (qs_count s) true true (qs_offset_applied s) (qs_limit_applied s),
              match key_decode k, key_decode (idx_key (q_index q) a) with
              | Ok row, Ok sel => beqb (k_index sel) (k_index row) && beqb (k_order sel) (k_order row) && beqb (k_pk sel) (k_pk row)
              | _, _ => false
              end)
    | _, _ => (s, false)
    end.

  (** The rest of the callback once the record is loaded, /repo/query.go:213-232: filter, append and the
      decision to go on; offset+limit wraps. *)
  Definition cb_record (q : query T) (s : qst) (r : T) : qst * bool :=
    let keep := match q_filter q with Some f => f r | None => true end in
    let records := if keep then qs_records s ++ [r] else qs_records s in
    let count := if keep then (qs_count s + 1)%N else qs_count s in
    match q_less q with
    | None => if (0 <? q_limit q)%N
              then (Qst records count (qs_skipped s) (qs_after_applied s) (qs_offset_applied s) true,
                    (count <? (q_offset q + q_limit q) mod 2 ^ 64)%N)
              else (Qst records count (qs_skipped s) (qs_after_applied s) (qs_offset_applied s) (qs_limit_applied s), true)
    | Some _ => (Qst records count (qs_skipped s) (qs_after_applied s) (qs_offset_applied s) (qs_limit_applied s), true)
    end.

  (** The callback of executeQuery, /repo/query.go:183-233. *)
  Definition query_cb (q : query T) (s : qst) (k : bytes) : prog (T:=T) qst :=
    let '(s, is_after) := cb_after q s k in
    if is_after then PRet s true None
    else if match q_filter q, q_less q with None, None => (qs_count s <? q_offset q)%N | _, _ => false end
    then PRet (Qst (qs_records s) (qs_count s + 1)%N (qs_skipped s) (qs_after_applied s) true (qs_limit_applied s)) true None
    else PGet (fun v =>
      match v with
      | Ok r => let '(s', next) := cb_record q s r in PRet s' next None
      | Err e => PRet s false (Some e)
      | _ => PRet s false (Some EOther)
      end).

  (** Dropping up to and including the after row, /repo/query.go:245-259 and 354-368: by primary key; nothing
      is dropped if it does not occur. *)
  Fixpoint after_rec (a : T) (l : list T) : option (list T) :=
    match l with
    | [] => None
    | r :: l' => if beqb (t_pk tb (new_kb []) a) (t_pk tb (new_kb []) r) then Some l' else after_rec a l'
    end.
  (** As [after_rec]; /repo/query.go:248-258: without such a row the records stay. *)
  Definition drop_after (a : T) (l : list T) : list T :=
    match after_rec a l with Some l' => l' | None => l end.

  (** The steps behind the scan, /repo/query.go:238-279. *)
  Definition finish_query (q : query T) (s : qst) : res (list T) :=
    let records := match q_less q with Some less => srt less (qs_records s) | None => qs_records s end in
    let records := match q_after q with
                   | Some a => if qs_after_applied s then records else drop_after a records
                   | None => records
                   end in
    let off := if (0 <? q_offset q)%N && negb (qs_offset_applied s) then apply_offset (q_offset q) records else Ok records in
    match off with
    | Ok records => if (0 <? q_limit q)%N && negb (qs_limit_applied s) then apply_limit (q_limit q) records else Ok records
    | e => e
    end.

  (** /repo/query.go:155-280 executeQuery. *)
  Definition execute_query (fuel : nat) (db : kv) (fl : F) (q : query T) (ob : optb) : res (list T) :=
    let sel := match q_after q, q_less q with
               | Some a, None => selector_with_after (q_index q) a (q_sel q)
               | _, _ => Ok (q_sel q)
               end in
    match sel with
    | Ok sel =>
        match scan_index_for_each tb ev fuel db fl (q_index q) sel (query_cb q) (q_rev q) ob (Qst [] 0 false false false false) with
        | (s, Ok _) => finish_query q s
        | (_, Err e) => Err e
        | (_, Panic) => Panic
        | (_, Diverge) => Diverge
        end
    | Err e => Err e
    | Panic => Panic
    | Diverge => Diverge
    end.

  (** Adding a key to a map used as a set; kept sorted, as only membership and the final sort (/repo/index.go:398-400)
      depend on it. *)
  Fixpoint set_add (k : bytes) (l : list bytes) : list bytes :=
    match l with
    | [] => [k]
    | x :: l' => match bcmp k x with Lt => k :: l | Eq => l | Gt => x :: set_add k l' end
    end.

  (** One loop of Intersect, /repo/index.go:360-369 and 374-386: [within] is intersectKeysMap for the second;
      [n] counts the ctx checks. *)
  Fixpoint collect_keys (open : bytes -> bytes -> piter) (within : option (list bytes)) (fuel n : nat) (it : biter) (acc : list bytes)
      : res (nat * list bytes) :=
    if bi_valid it then
      match fuel with
      | O => Diverge
      | S fuel' =>
          if e_ctx ev n then Err ECtx
          else match to_data_key_bytes (bi_key it) [] with
               | Ok k =>
                   let hit := match within with None => true | Some w => existsb (beqb k) w end in
                   collect_keys open within fuel' (S n) (bi_next open it) (if hit then set_add k acc else acc)
               | Err e => Err e
               | Panic => Panic
               | Diverge => Diverge
               end
      end
    else Ok (n, acc).

  (** The loop over the other indexes, /repo/index.go:372-391. *)
  Fixpoint intersect_rest (fuel : nat) (db : kv) (ob : optb) (n : nat) (qs : list (query T)) (keys : list bytes) : res (list bytes) :=
    match qs with
    | [] => Ok keys
    | q :: qs' =>
        match index_iter tb db ob (q_index q) (q_sel q) with
        | Ok it =>
            let open := db_iter db (batch_of ob) in
            match collect_keys open (Some keys) fuel n (bi_first open it) [] with
            | Ok (n', keys') => intersect_rest fuel db ob n' qs' keys'
            | Err e => Err e
            | Panic => Panic
            | Diverge => Diverge
            end
        | Err e => Err e
        | Panic => Panic
        | Diverge => Diverge
        end
    end.

  (** /repo/index.go:355-403 Index.Intersect, called with the indexes and selectors of q.intersects
      (/repo/query.go:300, 414-428). An errIterator has no rows and its error is dropped. *)
  Definition intersect (fuel : nat) (db : kv) (q : query T) (ob : optb) : res (list bytes) :=
    match index_iter tb db ob (q_index q) (q_sel q) with
    | Ok it =>
        let open := db_iter db (batch_of ob) in
        match collect_keys open None fuel 0 (bi_first open it) [] with
        | Ok (n, keys) => intersect_rest fuel db ob n (q_inter q) keys
        | Err e => Err e
        | Panic => Panic
        | Diverge => Diverge
        end
    | Err e => Err e
    | Panic => Panic
    | Diverge => Diverge
    end.

  (** /repo/query.go:393-412 checkIntersectQueries, for one query; nested intersects are not looked at. *)
  Definition plain_query (q : query T) : bool :=
    match q_filter q, q_less q, q_after q with
    | None, None, None => (q_offset q =? 0)%N && (q_limit q =? 0)%N
    | _, _, _ => false
    end.

  (** /repo/query.go:332-344: decoding and filtering the values. *)
  Fixpoint decode_records (filt : option (T -> bool)) (vs : list bytes) : res (list T) :=
    match vs with
    | [] => Ok []
    | v :: vs' =>
        match t_deser tb v (t_nil tb) with
        | None => Err EDeserialize
        | Some r =>
            match decode_records filt vs' with
            | Ok l => Ok (if match filt with Some f => f r | None => true end then r :: l else l)
            | e => e
            end
        end
    end.

  (** /repo/query.go:282-391 executeIntersect. The rows are read from the database, not from the batch (line 327). *)
  Definition execute_intersect (fuel : nat) (db : kv) (fl : F) (q : query T) (ob : optb) : res (list T) :=
    let has_off := (0 <? q_offset q)%N in
    let has_lim := (0 <? q_limit q)%N in
    if forallb plain_query (q_inter q) then
      match intersect fuel db q ob with
      | Ok keys =>
          let early := match q_filter q, q_less q, q_after q with None, None, None => true | _, _, _ => false end in
          let keys1 := if early && has_off then apply_offset (q_offset q) keys else Ok keys in
          let keys2 := match keys1 with
                       | Ok ks => if early && has_lim then apply_limit (q_limit q) ks else Ok ks
                       | e => e
                       end in
          match keys2 with
          | Ok keys =>
              match get_keys tb ev db fl None keys true with
              | Ok values =>
                  match decode_records (q_filter q) values with
                  | Ok records =>
                      let records := match q_less q with Some less => srt less records | None => records end in
                      let records := match q_after q with Some a => drop_after a records | None => records end in
                      match q_filter q, q_less q with
                      | None, None => Ok records
                      | _, _ =>
                          match (if has_off then apply_offset (q_offset q) records else Ok records) with
                          | Ok records => if has_lim then apply_limit (q_limit q) records else Ok records
                          | e => e
                          end
                      end
                  | e => e
                  end
              | Err e => Err e
              | Panic => Panic
              | Diverge => Diverge
              end
          | Err e => Err e
          | Panic => Panic
          | Diverge => Diverge
          end
      | Err e => Err e
      | Panic => Panic
      | Diverge => Diverge
      end
    else Err EQuery.

  (** /repo/query.go:131-148 Execute. *)
  Definition execute (fuel : nat) (db : kv) (fl : F) (q : query T) (ob : optb) : res (list T) :=
    match q_inter q with
    | [] => execute_query fuel db fl q ob
    | _ => execute_intersect fuel db fl q ob
    end.
End Query.
