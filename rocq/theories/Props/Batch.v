(** Properties C34, C35: batches and number sequences. *)

From Coq Require Import List NArith ZArith Lia Bool Arith.
From Verif.Model Require Import Bytes Go Pebble Sequence Batch.
From Verif.Spec Require Import BatchSpec SequenceSpec.
From Verif.Proofs Require Import BatchFacts BatchBugs SequenceFacts BatchIds BatchAll.
Import ListNotations.

(** C34. One Commit (or DB.Apply) of a non-empty batch, after any program: the registered OnCommit
    callbacks run in order up to the first error. An error stops the commit: nothing is
    written and nothing else is called. If pebble fails, nothing is written and all OnError
    callbacks run in order. Otherwise the batch, with what the callbacks added, is written at
    once and all OnCommitted callbacks run in order. Other batches do not change.
    Missing: the refusal of a callback does not run OnError (refuted below). *)
Theorem C34_commit_partial : forall db cs s t rs, batch_run (BSt db [] 0) cs = (s, t, rs) ->
  forall h b, get_bat s h = Some b -> bt_life b = LOpen -> bt_ops b <> [] ->
  forall ns ops e, hooks (registered on_commits h 0 [] cs) (bt_ops b) ns ops e ->
  forall c fail, c = CCommit h fail \/ c = CDbApply h fail ->
  exists s' t' r, batch_call s c = (s', t', r) /\
    (forall h', h' <> h -> get_bat s' h' = get_bat s h') /\
    match e, fail with
    | Some e, _ => r = Err e /\ bs_db s' = bs_db s /\ t' = map (EvCommit h) ns
    | None, Some e => r = Err e /\ bs_db s' = bs_db s /\
        t' = map (EvCommit h) ns ++ map (fun n => EvError h n e) (registered on_errors h 0 [] cs)
    | None, None => r = Ok tt /\ bs_db s' = apply_ops (bs_db s) ops /\
        t' = map (EvCommit h) ns ++ EvWrite h ops :: map (EvCommitted h) (registered on_committeds h 0 [] cs)
    end.
Proof. exact commit_outcome. Qed.
Print Assumptions C34_commit_partial.

Example C34_commit_case :
  registered on_committeds 0 0 [] (dressed cb_quiet) = [10; 11] /\
  hooks (registered on_commits 0 0 [] (dressed cb_quiet)) [a_put] [1; 2] [a_put; BSet [x09] [x01]] None /\
  hooks (registered on_commits 0 0 [] (dressed cb_veto)) [a_put] [1; 3] [a_put; BSet [x09] [x01]] (Some (EUser 7)) /\
  events (dressed cb_quiet ++ [CCommit 0 None]) =
    [EvCommit 0 1; EvCommit 0 2; EvWrite 0 [a_put; BSet [x09] [x01]]; EvCommitted 0 10; EvCommitted 0 11] /\
  contents (dressed cb_quiet ++ [CCommit 0 None]) = [([x01], [x02]); ([x09], [x01])] /\
  contents (dressed cb_veto ++ [CCommit 0 None]) = [].
Proof.
  assert (R1 : registered on_commits 0 0 [] (dressed cb_quiet) = [cb_write; cb_quiet]) by reflexivity.
  assert (R2 : registered on_commits 0 0 [] (dressed cb_veto) = [cb_write; cb_veto]) by reflexivity.
  rewrite R1, R2. split; [reflexivity|]. split; [|split; [|repeat split; vm_compute; reflexivity]].
  - repeat (eapply hooks_next; [reflexivity|]). constructor.
  - eapply hooks_next; [reflexivity|]. constructor. reflexivity.
Qed.

(** C34. Committing an empty batch does nothing, whatever callbacks it has. *)
Theorem C34_empty_commit : forall s h b fail, get_bat s h = Some b -> bt_ops b = [] ->
  batch_call s (CCommit h fail) = (s, [], Ok tt).
Proof. exact empty_commit. Qed.
Print Assumptions C34_empty_commit.

Example C34_empty_case : get_bat (BSt [] [add_on_commit (new_batch true 1) cb_veto] 1) 0 = Some (add_on_commit (new_batch true 1) cb_veto).
Proof. reflexivity. Qed.

(** C34. Applying an open batch's contents to another, after any program: the OnCommit callbacks of the applied
    batch run as for a commit. If none refuses and pebble does not fail, the receiver holds what it held and
    behind it the contents of the applied batch with what the callbacks added; otherwise it is unchanged. The
    database, the other batches, and the IDs and states of both are unchanged. A failure of pebble runs the
    OnError callbacks; OnCommitted callbacks run unless an OnCommit callback refused.
    Missing: OnCommitted only after a write (C34_apply_runs_committed_refuted). *)
Theorem C34_apply_partial : forall db cs s t rs, batch_run (BSt db [] 0) cs = (s, t, rs) ->
  forall o i ob ib, get_bat s o = Some ob -> get_bat s i = Some ib -> o <> i -> bt_life ob = LOpen ->
  forall ns ops e, hooks (registered on_commits i 0 [] cs) (bt_ops ib) ns ops e ->
  forall fail, exists s' t' r ob' ib', batch_call s (CApply o i fail) = (s', t', r) /\
    bs_db s' = bs_db s /\ (forall h, h <> o -> h <> i -> get_bat s' h = get_bat s h) /\
    get_bat s' o = Some ob' /\ get_bat s' i = Some ib' /\ bt_ops ib' = ops /\ bt_life ib' = bt_life ib /\
    bt_life ob' = LOpen /\ bt_id ob' = bt_id ob /\ bt_id ib' = bt_id ib /\
    match e, fail with
    | Some e, _ => r = Err e /\ bt_ops ob' = bt_ops ob /\ t' = map (EvCommit i) ns
    | None, Some e => r = Err e /\ bt_ops ob' = bt_ops ob /\
        t' = map (EvCommit i) ns ++ map (fun n => EvError i n e) (registered on_errors i 0 [] cs) ++
             map (EvCommitted i) (registered on_committeds i 0 [] cs)
    | None, None => r = Ok tt /\ bt_ops ob' = bt_ops ob ++ ops /\
        t' = map (EvCommit i) ns ++ EvMerge o i ops :: map (EvCommitted i) (registered on_committeds i 0 [] cs)
    end.
Proof. exact apply_outcome. Qed.
Print Assumptions C34_apply_partial.

Example C34_apply_case : let cs := dressed cb_quiet ++ [CNew false 6; CPut 1 [BDel [x01]; BSet [x05] [x05]]] in
  hooks (registered on_commits 0 0 [] cs) [a_put] [1; 2] [a_put; BSet [x09] [x01]] None /\
  contents (cs ++ [CApply 1 0 None]) = [] /\
  contents (cs ++ [CApply 1 0 None; CCommit 1 None]) = [([x01], [x02]); ([x05], [x05]); ([x09], [x01])].
Proof.
  cbv zeta. split; [|split; vm_compute; reflexivity].
  change (hooks [cb_write; cb_quiet] [a_put] [1; 2] [a_put; BSet [x09] [x01]] None). repeat (eapply hooks_next; [reflexivity|]). constructor.
Qed.

(** C34. Reset empties an open or committed batch, which can be used again, and forgets its callbacks; nothing is
    called, and the database and the other batches are unchanged. *)
Theorem C34_reset : forall db cs s t rs, batch_run (BSt db [] 0) cs = (s, t, rs) ->
  forall h b sec, get_bat s h = Some b -> bt_life b <> LClosed -> exists s' b', batch_call s (CReset h sec) = (s', [], Ok tt) /\
    bs_db s' = bs_db s /\ (forall h', h' <> h -> get_bat s' h' = get_bat s h') /\ get_bat s' h = Some b' /\
    bt_ops b' = [] /\ bt_life b' = LOpen /\ bt_rw b' = bt_rw b /\
    bt_commit b' = [] /\ bt_committed b' = [] /\ bt_error b' = [].
Proof. exact reset_any. Qed.
Print Assumptions C34_reset.

Example C34_reset_case : let cs := dressed cb_veto ++ [CReset 0 9; CPut 0 [BSet [x07] [x08]]; CCommit 0 None] in
  contents cs = [([x07], [x08])] /\ events cs = [EvWrite 0 [BSet [x07] [x08]]].
Proof. split; vm_compute; reflexivity. Qed.

(** C34. A batch holds what was written to it, in the order of the calls, whatever is done to other batches; all
    these writes succeed. *)
Theorem C34_contents : forall cs s s' t rs h b0, Forall (leaves h) cs -> get_bat s h = Some b0 -> bt_life b0 = LOpen -> batch_run s cs = (s', t, rs) ->
  exists b, get_bat s' h = Some b /\ bt_life b = LOpen /\ bt_id b = bt_id b0 /\ bt_ops b = bt_ops b0 ++ puts h cs /\
    (forall i ops, nth_error cs i = Some (CPut h ops) -> nth_error rs i = Some (Ok tt)).
Proof. exact run_contents. Qed.
Print Assumptions C34_contents.

Example C34_contents_case :
  let cs := [CPut 0 [a_put]; CNew true 5; CPut 1 [BDel [x01]]; COnCommit 0 cb_veto; CCommit 1 None; CPut 0 [BDel [x01]]; CReset 1 6; CPut 0 [BSet [x02] [x03]]] in
  Forall (leaves 0) cs /\ puts 0 cs = [a_put; BDel [x01]; BSet [x02] [x03]] /\
  contents ([CNew false 5] ++ cs) = [] /\
  contents ([CNew false 5; CPut 0 [a_put]; CNew true 5; CPut 1 [BDel [x01]]; CCommit 1 None; CPut 0 [BDel [x01]; BSet [x02] [x03]]; CCommit 0 None]) = [([x02], [x03])].
Proof. cbv zeta. split; [repeat constructor; cbn; lia|]. repeat split. Qed.

(** C34. After any program the database holds what was written by commits, in their order,
    and nothing else: what is put into batches, applied to other batches, reset, closed or refused
    never reaches it. *)
Theorem C34_database_is_commits : forall cs s s' t rs, batch_run s cs = (s', t, rs) ->
  bs_db s' = fold_left apply_ops (written t) (bs_db s).
Proof. exact run_written. Qed.
Print Assumptions C34_database_is_commits.

Example C34_database_case :
  written (events (dressed cb_quiet ++ [CCommit 0 None; CNew false 6; CPut 1 [BDel [x01]]; CCommit 1 None])) =
    [[a_put; BSet [x09] [x01]]; [BDel [x01]]] /\
  contents (dressed cb_quiet ++ [CCommit 0 None; CNew false 6; CPut 1 [BDel [x01]]; CCommit 1 None]) = [([x09], [x01])].
Proof. split; vm_compute; reflexivity. Qed.

(** C34. In a program that neither closes batches nor applies them to one another, the events
    are a sequence of commit attempts, each refused, failed or done; ... *)
Theorem C34_protocol_partial : forall cs s s' t rs, commits_only cs -> batch_run s cs = (s', t, rs) -> protocol t.
Proof. exact run_protocol. Qed.
Print Assumptions C34_protocol_partial.

(** ... in particular an OnCommitted callback runs only right after its batch was written.
    Missing: programs with Close and Batch.Apply (refuted below). *)
Theorem C34_committed_after_write_partial : forall cs s s' t rs, commits_only cs -> batch_run s cs = (s', t, rs) ->
  forall t1 h n t2, t = t1 ++ EvCommitted h n :: t2 ->
  exists t0 ops ns, t1 = t0 ++ EvWrite h ops :: map (EvCommitted h) ns.
Proof. exact committed_after_write. Qed.
Print Assumptions C34_committed_after_write_partial.

Example C34_protocol_case : commits_only (dressed cb_quiet ++ [CCommit 0 (Some ECommit); CCommit 0 None; CReset 0 5; CPut 0 [a_put]; CCommit 0 None]) /\
  events (dressed cb_quiet ++ [CCommit 0 (Some ECommit); CCommit 0 None; CReset 0 5; CPut 0 [a_put]; CCommit 0 None]) =
   [EvCommit 0 1; EvCommit 0 2; EvError 0 20 ECommit;
    EvCommit 0 1; EvCommit 0 2; EvWrite 0 [a_put; BSet [x09] [x01]; BSet [x09] [x01]]; EvCommitted 0 10; EvCommitted 0 11;
    EvWrite 0 [a_put]].
Proof. split; [repeat constructor|vm_compute; reflexivity]. Qed.

(** C34. Close, after any program: it runs the OnCommitted callbacks, then the OnError callbacks if pebble fails; the database and the
    other batches do not change. Afterwards the batch is empty for Commit and refuses writes.
    Missing: that OnClose callbacks run and OnCommitted callbacks do not (refuted below). *)
Theorem C34_close_partial : forall db cs s t rs, batch_run (BSt db [] 0) cs = (s, t, rs) ->
  forall h b, get_bat s h = Some b ->
  forall fail, exists s' t' r b', batch_call s (CClose h fail) = (s', t', r) /\
    bs_db s' = bs_db s /\ (forall h', h' <> h -> get_bat s' h' = get_bat s h') /\ get_bat s' h = Some b' /\
    match fail with
    | Some e => r = Err e /\ b' = b /\
        t' = map (EvCommitted h) (registered on_committeds h 0 [] cs) ++ map (fun n => EvError h n e) (registered on_errors h 0 [] cs)
    | None => r = Ok tt /\ bt_life b' = LClosed /\ t' = map (EvCommitted h) (registered on_committeds h 0 [] cs) /\
        (forall f, batch_call s' (CCommit h f) = (s', [], Ok tt)) /\
        (forall ops, batch_call s' (CPut h ops) = (s', [], Panic))
    end.
Proof. exact close_outcome. Qed.
Print Assumptions C34_close_partial.

Example C34_close_case :
  events (dressed cb_quiet ++ [CClose 0 (Some ECommit)]) = [EvCommitted 0 10; EvCommitted 0 11; EvError 0 20 ECommit] /\
  events (dressed cb_quiet ++ [CClose 0 None; CCommit 0 None]) = [EvCommitted 0 10; EvCommitted 0 11] /\
  contents (dressed cb_quiet ++ [CClose 0 None; CCommit 0 None]) = [].
Proof. repeat split; vm_compute; reflexivity. Qed.

(** C34. Committing a batch that is committed already runs its OnCommit callbacks again and, unless one refuses, panics; nothing is
    written and the other callbacks do not run. *)
Theorem C34_commit_again : forall db cs s t rs, batch_run (BSt db [] 0) cs = (s, t, rs) ->
  forall h b, get_bat s h = Some b -> bt_life b = LApplied -> bt_ops b <> [] ->
  forall ns ops e, hooks (registered on_commits h 0 [] cs) (bt_ops b) ns ops e ->
  forall c fail, c = CCommit h fail \/ c = CDbApply h fail ->
  exists s', batch_call s c = (s', map (EvCommit h) ns, match e with Some e => Err e | None => Panic end) /\ bs_db s' = bs_db s /\
    (forall h', h' <> h -> get_bat s' h' = get_bat s h').
Proof. exact commit_again. Qed.
Print Assumptions C34_commit_again.

Example C34_commit_again_case :
  events (dressed cb_quiet ++ [CCommit 0 None; CCommit 0 None]) = events (dressed cb_quiet ++ [CCommit 0 None]) ++ [EvCommit 0 1; EvCommit 0 2] /\
  contents (dressed cb_quiet ++ [CCommit 0 None; CCommit 0 None]) = contents (dressed cb_quiet ++ [CCommit 0 None]) /\
  last (results (dressed cb_quiet ++ [CCommit 0 None; CCommit 0 None])) (Ok tt) = Panic.
Proof. repeat split; vm_compute; reflexivity. Qed.

(** C34. In every program, with Close and Batch.Apply, the events of each call are of one of these kinds: no callback of one batch runs
    within a call on another, callbacks run in this order only, and none runs between calls. *)
Theorem C34_every_event : forall cs s s' t rs, batch_run s cs = (s', t, rs) ->
  exists ts, t = concat ts /\ length ts = length cs /\ Forall segment ts.
Proof. exact run_segments. Qed.
Print Assumptions C34_every_event.

Example C34_every_event_case :
  events (dressed cb_quiet ++ [CNew true 6; CApply 1 0 None; CClose 0 None]) =
    [EvCommit 0 1; EvCommit 0 2; EvMerge 1 0 [a_put; BSet [x09] [x01]]; EvCommitted 0 10; EvCommitted 0 11; EvCommitted 0 10; EvCommitted 0 11].
Proof. vm_compute. reflexivity. Qed.

(** C34 is false as stated: OnClose callbacks never run, whatever the program. *)
Theorem C34_on_close_never_runs_refuted : exists cs h n fail, In (COnClose h n) cs /\ In (CClose h fail) cs /\ Forall (fun r => r = Ok tt) (results cs) /\
  (forall db cs s t rs, batch_run (BSt db [] 0) cs = (s, t, rs) -> forall h n, ~ In (EvClose h n) t).
Proof. exact on_close_dead. Qed.
Print Assumptions C34_on_close_never_runs_refuted.

(** C34 is false as stated: Close runs the OnCommitted callbacks, of a batch that was never
    committed, and a second time of one that was. *)
Theorem C34_close_runs_committed_refuted :
  (exists cs, events cs = [EvCommitted 0 10; EvCommitted 0 11] /\ contents cs = [] /\ Forall (fun r => r = Ok tt) (results cs)) /\
  (exists cs ops t, events cs = t ++ EvWrite 0 ops :: [EvCommitted 0 10; EvCommitted 0 11; EvCommitted 0 10; EvCommitted 0 11] /\
     Forall (fun r => r = Ok tt) (results cs)).
Proof. exact close_runs_committed. Qed.
Print Assumptions C34_close_runs_committed_refuted.

(** C34 is false as stated: Batch.Apply runs the OnCommitted callbacks of the applied batch although
    it failed, and although nothing has been written to the database. *)
Theorem C34_apply_runs_committed_refuted :
  (exists cs e, last (results cs) (Ok tt) = Err e /\ contents cs = [] /\
     events cs = [EvCommit 0 1; EvCommit 0 2; EvError 0 20 e; EvCommitted 0 10; EvCommitted 0 11]) /\
  (exists cs, contents cs = [] /\ In (EvCommitted 0 10) (events cs) /\ last (results cs) Panic = Ok tt).
Proof. exact apply_runs_committed. Qed.
Print Assumptions C34_apply_runs_committed_refuted.

(** C34 is false as stated: when an OnCommit callback refuses, the commit fails but OnError does not run. *)
Theorem C34_veto_skips_on_error_refuted : exists cs e, last (results cs) (Ok tt) = Err e /\ contents cs = [] /\
  events cs = [EvCommit 0 1; EvCommit 0 3] /\ In (COnError 0 20) cs.
Proof. exact veto_silent. Qed.
Print Assumptions C34_veto_skips_on_error_refuted.

(** C35. On a clock that never goes back, the k-th number asked for within a second is second * 2^24 + k;
    from the 2^24-th on there is an error. *)
Theorem C35_exact_partial : forall secs, steady_clock 1 secs -> forall i sec, nth_error secs i = Some sec ->
  let k := in_second sec (firstn i secs) in
  nth_error (seq_calls 0 secs) i = Some (if (k <? 2 ^ 24)%N then Some (Z.to_N sec * 2 ^ 24 + k)%N else None).
Proof. exact calls_exact. Qed.
Print Assumptions C35_exact_partial.

(** C35. ... so the numbers returned without error are strictly increasing, ... *)
Theorem C35_increasing_partial : forall secs, steady_clock 1 secs -> forall i j a b, i < j ->
  nth_error (seq_calls 0 secs) i = Some (Some a) -> nth_error (seq_calls 0 secs) j = Some (Some b) -> (a < b)%N.
Proof. exact calls_increase. Qed.
Print Assumptions C35_increasing_partial.

(** C35. ... carry the second they were made in and the count within it, ... *)
Theorem C35_parts_partial : forall secs, steady_clock 1 secs -> forall i sec n, nth_error secs i = Some sec ->
  nth_error (seq_calls 0 secs) i = Some (Some n) ->
  Z.of_N (seq_timestamp n) = sec /\ seq_number n = in_second sec (firstn i secs).
Proof. exact calls_parts. Qed.
Print Assumptions C35_parts_partial.

(** C35. ... and running out of numbers within a second is an error.
    Missing in all four: clocks that go back (refuted below). *)
Theorem C35_overflow_partial : forall secs, steady_clock 1 secs -> forall i sec, nth_error secs i = Some sec ->
  (nth_error (seq_calls 0 secs) i = Some None <-> (2 ^ 24 <= in_second sec (firstn i secs))%N).
Proof. exact calls_overflow. Qed.
Print Assumptions C35_overflow_partial.

(** 2^24 + 1 calls within second 5: the last one is an error. *)
Example C35_overflow_case : let secs := repeat 5%Z (S (N.to_nat (2 ^ 24))) in
  steady_clock 1 secs /\ nth_error secs (N.to_nat (2 ^ 24)) = Some 5%Z /\ nth_error (seq_calls 0 secs) (N.to_nat (2 ^ 24)) = Some None.
Proof.
  assert (C : forall k from, (from <= 5)%Z -> steady_clock from (repeat 5%Z k)) by (induction k as [|k IH]; intros from L; cbn [repeat steady_clock]; auto; split; [lia|apply IH; lia]).
  assert (I : forall k, in_second 5 (repeat 5%Z k) = N.of_nat k) by (induction k as [|k IH]; [reflexivity|]; cbn [repeat in_second]; rewrite IH, Z.eqb_refl; lia).
  assert (F : forall k (l : list Z), firstn k (repeat 5%Z k ++ l) = repeat 5%Z k) by (intros k l; rewrite firstn_app, repeat_length, Nat.sub_diag, app_nil_r, <- (repeat_length 5%Z k) at 1; apply firstn_all).
  assert (R : forall k, repeat 5%Z (S k) = repeat 5%Z k ++ [5%Z]) by (induction k as [|k IH]; [reflexivity|]; cbn [repeat app] in *; now rewrite <- IH).
  cbv zeta. generalize (N2Nat.id (2 ^ 24)). generalize (N.to_nat (2 ^ 24)). intros n E.
  assert (T : nth_error (repeat 5%Z (S n)) n = Some 5%Z) by (rewrite R, nth_error_app2, repeat_length, Nat.sub_diag by (rewrite repeat_length; lia); reflexivity).
  split; [apply C; lia|]. split; [exact T|]. apply (proj2 (C35_overflow_partial _ (C _ 1%Z ltac:(lia)) _ _ T)). rewrite R, F, I, E. apply N.le_refl.
Qed.

Example C35_case : steady_clock 1 [5; 5; 7; 7; 7]%Z /\
  seq_calls 0 [5; 5; 7; 7; 7]%Z = map Some [83886080; 83886081; 117440512; 117440513; 117440514]%N.
Proof. split; [cbn; lia|vm_compute; reflexivity]. Qed.

(** C35 is false as stated: when the clock steps back a second, a number is returned again. *)
Theorem C35_clock_back_refuted : exists secs i j n, i <> j /\
  nth_error (seq_calls 0 secs) i = Some (Some n) /\ nth_error (seq_calls 0 secs) j = Some (Some n).
Proof. exact clock_back. Qed.
Print Assumptions C35_clock_back_refuted.

(** C35. Batches ignore the error: with more than 2^24 batches in a second, two have the same ID. *)
Theorem C35_batch_ids_repeat_refuted : exists secs i j, steady_clock 1 secs /\ i <> j /\
  nth_error (batch_ids 0 secs) i = Some max_uint64 /\ nth_error (batch_ids 0 secs) j = Some max_uint64.
Proof. exact ids_repeat. Qed.
Print Assumptions C35_batch_ids_repeat_refuted.

(** C35. The IDs of batches made or reset one after another: those without a number of their own are all 2^64-1. *)
Theorem C35_batch_ids_exact_partial : forall secs, steady_clock 1 secs -> forall i sec, nth_error secs i = Some sec ->
  let k := in_second sec (firstn i secs) in
  nth_error (batch_ids 0 secs) i = Some (if (k <? 2 ^ 24)%N then Z.to_N sec * 2 ^ 24 + k else 2 ^ 64 - 1)%N.
Proof. exact ids_exact. Qed.
Print Assumptions C35_batch_ids_exact_partial.

(** C35. Up to 2^24 batches made or reset in each second have increasing, hence distinct, IDs. *)
Theorem C35_batch_ids_partial : forall secs, steady_clock 1 secs ->
  (forall i sec, nth_error secs i = Some sec -> (in_second sec (firstn i secs) < 2 ^ 24)%N) ->
  forall i j a b, i < j -> nth_error (batch_ids 0 secs) i = Some a -> nth_error (batch_ids 0 secs) j = Some b -> (a < b)%N.
Proof. exact ids_increase. Qed.
Print Assumptions C35_batch_ids_partial.

Example C35_batch_ids_case : batch_ids 0 [5; 5; 7]%Z = [83886080; 83886081; 117440512]%N.
Proof. vm_compute. reflexivity. Qed.

(** C35. After any program on batches, the ID of each is the number of the last call that made or reset it: every
    call of DB.Batch and Reset takes one number of the sequence and nothing else does. *)
Theorem C35_ids_assigned : forall db cs s t rs, batch_run (BSt db [] 0) cs = (s, t, rs) -> forall h b, get_bat s h = Some b ->
  exists i, last_stamp h (stamps 0 cs) i /\ nth_error (batch_ids 0 (map snd (stamps 0 cs))) i = Some (bt_id b).
Proof. exact ids_assigned. Qed.
Print Assumptions C35_ids_assigned.

(** C35. ... so with a clock that does not go back and at most 2^24 batches made or reset in each second, the
    batches of a program have different IDs at all times, and Reset gives a larger one. *)
Theorem C35_live_ids_partial : forall db cs s t rs, batch_run (BSt db [] 0) cs = (s, t, rs) ->
  steady_clock 1 (map snd (stamps 0 cs)) ->
  (forall i sec, nth_error (map snd (stamps 0 cs)) i = Some sec -> (in_second sec (firstn i (map snd (stamps 0 cs))) < 2 ^ 24)%N) ->
  forall h1 h2 b1 b2, get_bat s h1 = Some b1 -> get_bat s h2 = Some b2 -> h1 <> h2 -> bt_id b1 <> bt_id b2.
Proof. exact live_ids. Qed.
Print Assumptions C35_live_ids_partial.

Theorem C35_reset_id_partial : forall db cs sec s t rs, batch_run (BSt db [] 0) cs = (s, t, rs) ->
  forall h b, get_bat s h = Some b ->
  steady_clock 1 (map snd (stamps 0 cs) ++ [sec]) ->
  (forall i x, nth_error (map snd (stamps 0 cs) ++ [sec]) i = Some x -> (in_second x (firstn i (map snd (stamps 0 cs) ++ [sec])) < 2 ^ 24)%N) ->
  exists s' b', batch_call s (CReset h sec) = (s', [], Ok tt) /\ get_bat s' h = Some b' /\
    forall h0 b0, get_bat s h0 = Some b0 -> (bt_id b0 < bt_id b')%N.
Proof. exact reset_id. Qed.
Print Assumptions C35_reset_id_partial.

Example C35_ids_case : let cs := [CNew true 5; CNew false 5; CReset 7 5; CReset 0 6; CPut 1 [a_put]; CNew true 6] in
  stamps 0 cs = [(0, 5%Z); (1, 5%Z); (0, 6%Z); (2, 6%Z)] /\
  map bt_id (bs_bats (fst (fst (batch_run (BSt [] [] 0) cs)))) = [100663296; 83886081; 100663297]%N /\
  steady_clock 1 (map snd (stamps 0 cs)).
Proof. repeat split; vm_compute; congruence. Qed.
