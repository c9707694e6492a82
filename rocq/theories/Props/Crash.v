(** Property C63: crashes. *)

From Coq Require Import List NArith Bool Arith Lia.
From Verif.Model Require Import Bytes Go Keys Pebble Index Table Crash.
From Verif.Spec Require Import KeySpec StoreSpec TableSpec HistSpec CrashSpec.
From Verif.Proofs Require Import TableFacts Witness TableBugs ConcurBugs CrashFacts CrashCase.
Import ListNotations.

(** C63. Any history of calls, batches and crashes: rows and index entries afterwards are exactly those of the deeds (calls and
    batches) that are left, where a crash leaves a prefix of the deeds of its process that ends not before the last safe one.
    A successful call without batch and a batch committed with Sync are safe. *)
Theorem C63_crashes : forall (T F : Type) (tb : table T F), good_table tb -> forall db fl (m : tmap T) es d fl' rs,
  consistent tb db fl m -> run_life tb (Disk db []) fl es = (d, fl', rs) -> orderly tb m (Disk db []) fl [] es ->
  exists ks, left_over [] [] rs ks /\ consistent tb (disk_db d) fl' (after tb m ks).
Proof. exact @crashes. Qed.
Print Assumptions C63_crashes.

(** C63. What is left are some of the deeds, in their order, and all the safe ones. *)
Theorem C63_left : forall (T : Type) (rs : list (option (deed (T:=T)))) ks, left_over [] [] rs ks ->
  subseq ks (deeds rs) /\ filter snd ks = filter snd (deeds rs).
Proof. exact @left_between. Qed.
Print Assumptions C63_left.

(** C63. What is safe: the calls without batch that succeeded and had rows, and the batches committed with Sync in which a call had rows
    (an empty batch is not written; see C63_empty_call). *)
Theorem C63_safe : forall (T F : Type) (tb : table T F) d fl e d' fl' oks s, happen tb d fl e = (d', fl', Some (oks, s)) ->
  match e with
  | HCall ev c => exists r, oks = [(c, ok_of r)] /\ snd (run_call tb ev (disk_db d) fl None c) = r /\
      (s = true <-> ok_of r = true /\ rows_of c <> [])
  | HBatch h sync => map fst oks = map snd h /\ (sync = true -> disk_db d' <> disk_db d -> s = true) /\
      (s = true -> sync = true /\ exists c, In c (map snd h) /\ rows_of c <> [])
  | HCrash _ _ => False
  end.
Proof. exact @safe_deeds. Qed.
Print Assumptions C63_safe.

(** An insert, a batch without Sync that a crash takes away, and an insert of a row the batch held. *)
Example C63_case : consistent accts [] tt empty_map /\ orderly accts empty_map (Disk [] []) tt [] crash_es /\
  let '(d, _, rs) := run_life accts (Disk [] []) tt crash_es in
  map (fun r => match r with Some (oks, s) => Some (map snd oks, s) | None => None end) rs =
    [Some ([true], true); Some ([true; true], false); None; Some ([true], true)] /\
  map (fun k => get_point accts (disk_db d) tt None (Acct k 0 0 false)) [1%N; 2%N; 3%N] =
    [Ok (Acct 1 10 0 true); Ok (Acct 2 21 0 true); Err ENotFound].
Proof. exact crash_case. Qed.

(** C63. Calls without rows are not among the safe ones: an Insert of no rows succeeds and syncs nothing. A batch was committed without Sync before it;
    after a crash its row is gone. *)
Theorem C63_empty_call : exists es : list (happening acct unit), consistent accts [] tt empty_map /\ orderly accts empty_map (Disk [] []) tt [] es /\
  exists ev1 c1 ev2 c2 n i, es = [HBatch [(ev1, c1)] false; HCall ev2 c2; HCrash n i] /\ rows_of c1 = [Acct 1 10 0 true] /\ e_commit ev2 = true /\
  let '(d, _, rs) := run_life accts (Disk [] []) tt es in
  map (fun r => match r with Some (oks, s) => Some (map snd oks, s) | None => None end) rs = [Some ([true], false); Some ([true], false); None] /\
  get_point accts (disk_db d) tt None (Acct 1 0 0 false) = Err ENotFound.
Proof. exact empty_case. Qed.
Print Assumptions C63_empty_call.
