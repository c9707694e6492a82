(** Queries when reads fail: Execute with the scans and gets of [Faults]. *)

From Coq Require Import String List NArith Bool Arith.
From Verif.Model Require Import Bytes Go Keys Pebble Index Table Scan Query LiveScan Faults.
Import ListNotations.

Section FQuery.
  Variable io : faults.
  Context {T F : Type}.
  Variable tb : table T F.
  Variable ev : env T.
  Variable srt : (T -> T -> bool) -> list T -> list T.

  (** /repo/query.go:155-280 executeQuery, as [execute_query]. A batch argument that is nil is left out. *)
  Definition fexecute_query (fuel : nat) (db : kv) (fl : F) (q : query T) (ob : option batch) : res (list T) :=
    let sel := match q_after q, q_less q with
               | Some a, None => selector_with_after tb (q_index q) a (q_sel q)
               | _, _ => Ok (q_sel q)
               end in
    match sel with
    | Ok sel =>
        match fscan_index_for_each io tb ev fuel db fl (q_index q) sel (query_cb tb q) (q_rev q) ob (Qst [] 0 false false false false) with
        | (s, Ok _) => finish_query tb srt q s
        | (_, Err e) => Err e
        | (_, Panic) => Panic
        | (_, Diverge) => Diverge
        end
    | Err e => Err e
    | Panic => Panic
    | Diverge => Diverge
    end.

  (** One loop of Intersect, /repo/index.go:360-369 and 374-386, as [collect_keys]: [c] counts the ctx checks, [n] the reads. The loop ends
      when the iterator is not valid, for whatever reason; what Close returns is dropped (/repo/index.go:370, 387). *)
  Fixpoint fcollect_keys (open : bytes -> bytes -> piter) (within : option (list bytes)) (fuel c : nat) (it : fbiter) (n : nat) (acc : list bytes)
      : res (nat * nat * list bytes) :=
    if fb_valid it then
      match fuel with
      | O => Diverge
      | S fuel' =>
          if e_ctx ev c then Err ECtx
          else match to_data_key_bytes (fb_key it) [] with
               | Ok k =>
                   let hit := match within with None => true | Some w => existsb (beqb k) w end in
                   let '(it', n') := fscan_next io open false it n in
                   fcollect_keys open within fuel' (S c) it' n' (if hit then set_add k acc else acc)
               | Err e => Err e
               | Panic => Panic
               | Diverge => Diverge
               end
      end
    else Ok (c, n, acc).

  (** Iter and First of one index of an Intersect, and its loop; /repo/index.go:359-370 and 373-387. *)
  Definition fcollect_index (fuel c n : nat) (db : kv) (ob : option batch) (idx : index T) (sel : selector T) (within : option (list bytes))
      : res (nat * nat * list bytes) :=
    let open := db_iter db ob in
    match iter_by tb (fun lo hi => fp_it (fst (fp_open io open lo hi n))) idx sel with
    | Ok b => let '(it, n') := fscan_first io open false (fb_of b) (S n) in fcollect_keys open within fuel c it n' []
    | Err e => Err e
    | Panic => Panic
    | Diverge => Diverge
    end.

  (** The loop over the other indexes, /repo/index.go:372-391, as [intersect_rest]; the number of reads is returned too. *)
  Fixpoint fintersect_rest (fuel c n : nat) (db : kv) (ob : option batch) (qs : list (query T)) (keys : list bytes) : res (nat * list bytes) :=
    match qs with
    | [] => Ok (n, keys)
    | q :: qs' =>
        match fcollect_index fuel c n db ob (q_index q) (q_sel q) (Some keys) with
        | Ok (c', n', keys') => fintersect_rest fuel c' n' db ob qs' keys'
        | Err e => Err e
        | Panic => Panic
        | Diverge => Diverge
        end
    end.

  (** /repo/index.go:355-403 Index.Intersect, as [intersect]. *)
  Definition fintersect (fuel : nat) (db : kv) (q : query T) (ob : option batch) : res (nat * list bytes) :=
    match fcollect_index fuel 0 0 db ob (q_index q) (q_sel q) None with
    | Ok (c, n, keys) => fintersect_rest fuel c n db ob (q_inter q) keys
    | Err e => Err e
    | Panic => Panic
    | Diverge => Diverge
    end.

  (** /repo/query.go:282-391 executeIntersect, as [execute_intersect]. *)
  Definition fexecute_intersect (fuel : nat) (db : kv) (fl : F) (q : query T) (ob : option batch) : res (list T) :=
    let has_off := (0 <? q_offset q)%N in
    let has_lim := (0 <? q_limit q)%N in
    if forallb plain_query (q_inter q) then
      match fintersect fuel db q ob with
      | Ok (n, keys) =>
          let early := match q_filter q, q_less q, q_after q with None, None, None => true | _, _, _ => false end in
          let keys1 := if early && has_off then apply_offset (q_offset q) keys else Ok keys in
          let keys2 := match keys1 with
                       | Ok ks => if early && has_lim then apply_limit (q_limit q) ks else Ok ks
                       | e => e
                       end in
          match keys2 with
          | Ok keys =>
              match fst (fget_keys io tb ev db fl None keys true n) with
              | Ok values =>
                  match decode_records tb (q_filter q) values with
                  | Ok records =>
                      let records := match q_less q with Some less => srt less records | None => records end in
                      let records := match q_after q with Some a => drop_after tb a records | None => records end in
                      match q_filter q, q_less q with
                      | None, None => Ok records
                      | _, _ =>
                          match (if has_off then apply_offset (q_offset q) records else Ok records) with
                          | Ok records => if has_lim then apply_limit (q_limit q) records else Ok records
                          | e => e
                          end
                      end
                  | e => e
                  end
              | Err e => Err e
              | Panic => Panic
              | Diverge => Diverge
              end
          | Err e => Err e
          | Panic => Panic
          | Diverge => Diverge
          end
      | Err e => Err e
      | Panic => Panic
      | Diverge => Diverge
      end
    else Err EQuery.

  (** /repo/query.go:131-148 Execute, as [execute]. *)
  Definition fexecute (fuel : nat) (db : kv) (fl : F) (q : query T) (ob : option batch) : res (list T) :=
    match q_inter q with
    | [] => fexecute_query fuel db fl q ob
    | _ => fexecute_intersect fuel db fl q ob
    end.
End FQuery.
