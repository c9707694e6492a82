(** What is safe, and a concrete history with a crash. *)

From Coq Require Import List NArith Lia Bool Arith.
From Verif.Model Require Import Bytes Go Keys Pebble Index Table Crash.
From Verif.Spec Require Import KeySpec StoreSpec TableSpec HistSpec CrashSpec.
From Verif.Proofs Require Import BytesFacts PebbleFacts TableFacts WriteFacts CallFacts HistFacts Witness TableBugs ConcurBugs CrashFacts.
Import ListNotations.

Lemma batch_hist_calls {T F} (tb : table T F) h : forall db fl b b' fl' oks,
  run_batch_hist tb db fl b h = (b', fl', oks) -> map fst oks = map snd h.
Proof.
  induction h as [|[ev c] h IH]; intros db fl b b' fl' oks H; cbn [run_batch_hist] in H.
  - injection H as <- <- <-. reflexivity.
  - destruct (run_call tb ev db fl (Some b) c) as [w r].
    destruct (run_batch_hist tb db (r_flt w) (match r_batch w with Some b1 => b1 | None => b end) h) as [[b2 f2] o2] eqn:E.
    injection H as <- <- <-. cbn. f_equal. eauto.
Qed.

Lemma disk_db_write d db s : disk_db (disk_write d db s) = db.
Proof. unfold disk_db, disk_write. cbn. rewrite map_app. cbn. apply last_last. Qed.

Lemma no_rows_no_ops {T F} (tb : table T F) h : forall db fl b b' fl' oks,
  ~ Exists (fun ec : env T * call T => rows_of (snd ec) <> []) h -> run_batch_hist tb db fl b h = (b', fl', oks) -> b_ops b' = b_ops b.
Proof.
  induction h as [|[ev c] h IH]; intros db fl b b' fl' oks N H; cbn [run_batch_hist] in H.
  - injection H as <- <- <-. reflexivity.
  - assert (Z : rows_of c = []) by (destruct (rows_of c) eqn:R; auto; exfalso; apply N, Exists_cons_hd; cbn; rewrite R; easy).
    assert (N' : ~ Exists (fun ec : env T * call T => rows_of (snd ec) <> []) h) by (intro; apply N, Exists_cons_tl; auto).
    assert (W : exists f r, run_call tb ev db fl (Some b) c = (WRes db f (Some (Batch (b_rw b) (b_ops b))), r)).
    { destruct c; cbn [rows_of] in Z; subst; cbn; eauto. }
    destruct W as (f & r & W). rewrite W in H. cbn [r_batch r_flt] in H.
    destruct (run_batch_hist tb db f (Batch (b_rw b) (b_ops b)) h) as [[b2 f2] o2] eqn:E. injection H as <- <- <-.
    apply IH in E; auto.
Qed.

Lemma safe_deeds (T F : Type) (tb : table T F) d fl e d' fl' oks s : happen tb d fl e = (d', fl', Some (oks, s)) ->
  match e with
  | HCall ev c => exists r, oks = [(c, ok_of r)] /\ snd (run_call tb ev (disk_db d) fl None c) = r /\
      (s = true <-> ok_of r = true /\ rows_of c <> [])
  | HBatch h sync => map fst oks = map snd h /\ (sync = true -> disk_db d' <> disk_db d -> s = true) /\
      (s = true -> sync = true /\ exists c, In c (map snd h) /\ rows_of c <> [])
  | HCrash _ _ => False
  end.
Proof.
  destruct e as [ev c|h sync|n init]; cbn [happen].
  - destruct (run_call tb ev (disk_db d) fl None c) as [w r]. intro H. injection H as <- <- <- <-. exists r. split; auto. split; auto.
    rewrite andb_true_iff. destruct (rows_of c); cbn; intuition congruence.
  - destruct (run_batch_hist tb (disk_db d) fl (Batch true []) h) as [[b f] o] eqn:E. intro H. injection H as <- <- <- <-.
    split; [eapply batch_hist_calls; eauto|]. split.
    + intros -> N. rewrite disk_db_write in N. destruct (b_ops b); [easy|reflexivity].
    + rewrite andb_true_iff. intros [-> N]. split; auto. destruct (Exists_dec (fun ec : env T * call T => rows_of (snd ec) <> []) h) as [X|X].
      * intros [ev c]. cbn. destruct (rows_of c); [right|left]; easy.
      * apply Exists_exists in X as (ec & I & R). exists (snd ec). split; auto. apply in_map, I.
      * exfalso. apply no_rows_no_ops in E; auto. rewrite E in N. discriminate N.
  - easy.
Qed.

Definition crash_es : list (happening acct unit) :=
  [HCall (demo_env 10) (CInsert [Acct 1 10 0 true]);
   HBatch [(demo_env 10, CUpdate [Acct 1 11 0 true]); (demo_env 10, CInsert [Acct 2 20 0 true])] false;
   HCrash 0 (fun _ => tt);
   HCall (demo_env 10) (CInsert [Acct 2 21 0 true])].

Lemma crash_case : consistent accts [] tt empty_map /\ orderly accts empty_map (Disk [] []) tt [] crash_es /\
  let '(d, _, rs) := run_life accts (Disk [] []) tt crash_es in
  map (fun r => match r with Some (oks, s) => Some (map snd oks, s) | None => None end) rs =
    [Some ([true], true); Some ([true; true], false); None; Some ([true], true)] /\
  map (fun k => get_point accts (disk_db d) tt None (Acct k 0 0 false)) [1%N; 2%N; 3%N] =
    [Ok (Acct 1 10 0 true); Ok (Acct 2 21 0 true); Err ENotFound].
Proof.
  split; [apply accts_empty|]. split; [|vm_compute; split; reflexivity].
  unfold crash_es. cbn [orderly].
  destruct (happen accts (Disk [] []) tt _) as [[d1 []] r1] eqn:E1. vm_compute in E1. injection E1 as E1 E1'. symmetry in E1, E1'. subst r1.
  split; [apply demo_env_ok; lia|]. split; [split; [apply acct_rows_ok|apply acct_nodup; vm_compute; reflexivity]|].
  destruct (happen accts d1 tt _) as [[d2 []] r2] eqn:E2. subst d1. vm_compute in E2. injection E2 as E2 E2'. symmetry in E2, E2'. subst r2.
  split; [repeat constructor; try (apply demo_env_ok; lia)|]. split.
  { cbn [map snd all_succeed]. repeat split; try apply acct_rows_ok; try (apply acct_nodup; vm_compute; reflexivity).
    all: try (destruct H as [<-|[]]; vm_compute; (reflexivity || discriminate)). }
  destruct (happen accts d2 tt _) as [[d3 []] r3] eqn:E3. subst d2. vm_compute in E3. injection E3 as E3 E3'. symmetry in E3, E3'. subst r3.
  split; [intros; apply covers_none; reflexivity|].
  destruct (happen accts d3 tt _) as [[d4 []] r4] eqn:E4. subst d3. vm_compute in E4. injection E4 as E4 E4'. symmetry in E4, E4'. subst r4.
  split; [apply demo_env_ok; lia|]. split; [split; [apply acct_rows_ok|apply acct_nodup; vm_compute; reflexivity]|exact I].
Qed.

(** A batch without Sync, then an Insert of no rows, which succeeds, then a crash. *)
Definition empty_es : list (happening acct unit) :=
  [HBatch [(demo_env 10, CInsert [Acct 1 10 0 true])] false; HCall (demo_env 10) (CInsert []); HCrash 0 (fun _ => tt)].

Lemma empty_case : exists es : list (happening acct unit), consistent accts [] tt empty_map /\ orderly accts empty_map (Disk [] []) tt [] es /\
  exists ev1 c1 ev2 c2 n i, es = [HBatch [(ev1, c1)] false; HCall ev2 c2; HCrash n i] /\ rows_of c1 = [Acct 1 10 0 true] /\ e_commit ev2 = true /\
  let '(d, _, rs) := run_life accts (Disk [] []) tt es in
  map (fun r => match r with Some (oks, s) => Some (map snd oks, s) | None => None end) rs = [Some ([true], false); Some ([true], false); None] /\
  get_point accts (disk_db d) tt None (Acct 1 0 0 false) = Err ENotFound.
Proof.
  exists empty_es. split; [apply accts_empty|]. split; [|do 6 eexists; split; [reflexivity|vm_compute; repeat split; reflexivity]].
  unfold empty_es. cbn [orderly].
  destruct (happen accts (Disk [] []) tt _) as [[d1 []] r1] eqn:E1. vm_compute in E1. injection E1 as E1 E1'. symmetry in E1, E1'. subst r1.
  split; [repeat constructor; try (apply demo_env_ok; lia)|].
  split.
  { cbn [map snd all_succeed]. repeat split; try apply acct_rows_ok; try (apply acct_nodup; vm_compute; reflexivity).
    all: try (destruct H as [<-|[]]; vm_compute; (reflexivity || discriminate)). }
  destruct (happen accts d1 tt _) as [[d2 []] r2] eqn:E2. subst d1. vm_compute in E2. injection E2 as E2 E2'. symmetry in E2, E2'. subst r2.
  split; [apply demo_env_ok; lia|]. split; [split; [apply acct_rows_ok|apply acct_nodup; vm_compute; reflexivity]|].
  destruct (happen accts d2 tt _) as [[d3 []] r3] eqn:E3. split; [intros; apply covers_none; reflexivity|exact I].
Qed.
