(** Properties C19, C20: the rows after any calls, with nothing asked of what they are given. *)

From Coq Require Import List NArith Lia Bool Arith.
From Verif.Model Require Import Bytes Go Keys Pebble Index Table.
From Verif.Spec Require Import KeySpec StoreSpec TableSpec HistSpec RowsSpec.
From Verif.Proofs Require Import Witness TableBugs AnyHist.
Import ListNotations.

(** C19. The rows in the store after any history: any rows, repeated keys, any records
    given to Delete, any onConflict, calls that fail or are cancelled. A call that
    failed changed no row; one that succeeded did what [call_rows] says. Missing
    against C19: the index entries (refuted for such calls, see C14, C15, C17, C18). *)
Theorem C19_rows_any_history_partial : forall (T F : Type) (tb : table T F), good_table tb ->
  forall h db fl m db' fl' oks, Forall (fun ec => env_ok (fst ec)) h ->
  kv_ok db -> covers tb fl db -> RowsAre (schema_of tb) db m -> run_hist tb db fl h = (db', fl', oks) ->
  exists m', hist_rows (schema_of tb) (map (fun ec => e_chunk (fst ec)) h) oks m m' /\
    kv_ok db' /\ covers tb fl' db' /\ RowsAre (schema_of tb) db' m'.
Proof. exact @hist_any_rows. Qed.
Print Assumptions C19_rows_any_history_partial.

(** C20. Reads after any history from an empty table. *)
Theorem C20_reads_any_history : forall (T F : Type) (tb : table T F), good_table tb ->
  forall h fl0 db' fl' oks, Forall (fun ec => env_ok (fst ec)) h -> run_hist tb [] fl0 h = (db', fl', oks) ->
  exists m', hist_rows (schema_of tb) (map (fun ec => e_chunk (fst ec)) h) oks empty_map m' /\
    forall r, get_point tb db' fl' None r = match m' (s_pk (schema_of tb) r) with Some x => Ok x | None => Err ENotFound end /\
              exist tb db' fl' None r = match m' (s_pk (schema_of tb) r) with Some _ => true | None => false end.
Proof. exact @any_history_reads. Qed.
Print Assumptions C20_reads_any_history.

(** repeated keys across chunks, a stale Delete, an Upsert whose onConflict gives the
    row another key, and an Insert that fails *)
Example C20_any_case :
  let h := [(demo_env 1, CInsert [Acct 1 10 6 true; Acct 1 11 0 true; Acct 2 5 5 true]); (demo_env 2, CUpdate [Acct 2 6 0 true; Acct 1 7 7 true; Acct 2 8 8 true]);
            (demo_env 2, CDelete [Acct 2 99 99 false]); (demo_env 2, CInsert [Acct 3 0 0 true; Acct 1 0 0 true]);
            (demo_env 2, CUpsert (fun old new => Acct 9 (a_kind old) (a_score new) true) [Acct 1 0 4 true])] in
  exists db oks, run_hist accts [] tt h = (db, tt, oks) /\ map snd oks = [true; true; true; false; true] /\
    map (get_point accts db tt None) [Acct 1 0 0 true; Acct 2 0 0 true; Acct 3 0 0 true] =
      [Ok (Acct 9 7 4 true); Err ENotFound; Err ENotFound] /\ length db = 9.
Proof. cbn zeta. eexists _, _. split; [vm_compute; reflexivity|]. repeat split; vm_compute; reflexivity. Qed.

(** what [hist_rows] says is not just anything: with one chunk size and these calls the
    row under key 1 can only be this one *)
Example C19_rows_case : forall m',
  hist_rows (schema_of accts) [1; 2] [(CInsert [Acct 1 10 6 true; Acct 1 11 0 true], true); (CDelete [Acct 2 0 0 true], true)] empty_map m' ->
  m' (s_pk (schema_of accts) (Acct 1 0 0 true)) = Some (Acct 1 11 0 true).
Proof.
  intros m' (m1 & (cs & C & _ & _ & W) & m2 & D & E). rewrite E, D.
  assert (cs = [[Acct 1 10 6 true]; [Acct 1 11 0 true]]) as ->.
  { inversion C as [|? L|c l cs' L1 L2 L3 L4]; subst; [cbn in L; lia|]. destruct c as [|c [|]]; try discriminate. cbn in L4.
    injection L4 as -> ->. inversion L3 as [|? L5|c l cs'' L5 L6 L7 L8]; subst; [reflexivity|].
    destruct c as [|c [|]]; try discriminate. injection L8 as _ L8. subst. contradiction. }
  destruct W as (w1 & W1 & w2 & W2 & W3). change (removes (schema_of accts) m1 [Acct 2 0 0 true] (s_pk (schema_of accts) (Acct 1 0 0 true)))
    with (m1 (s_pk (schema_of accts) (Acct 1 0 0 true))). rewrite W3.
  destruct (W2 (s_pk (schema_of accts) (Acct 1 0 0 true))) as [(r & [<-|[]] & _ & ->)|[N _]]; [reflexivity|]. exfalso. apply N. left. reflexivity.
Qed.
