(** The IDs of the batches of a program. *)

From Coq Require Import List NArith ZArith Bool Arith Lia.
From Verif.Model Require Import Bytes Go Pebble Sequence Batch.
From Verif.Spec Require Import BatchSpec SequenceSpec.
From Verif.Proofs Require Import BatchFacts SequenceFacts.
Import ListNotations.

Lemma last_stamp_one h l i j : last_stamp h l i -> last_stamp h l j -> i = j.
Proof.
  intros [A LA] [B LB]. destruct (Nat.lt_trichotomy i j) as [H|[H|H]]; auto; exfalso.
  - exact (LA _ H B).
  - exact (LB _ H A).
Qed.

Lemma live_ids db cs s t rs : batch_run (BSt db [] 0) cs = (s, t, rs) ->
  steady_clock 1 (map snd (stamps 0 cs)) ->
  (forall i sec, nth_error (map snd (stamps 0 cs)) i = Some sec -> (in_second sec (firstn i (map snd (stamps 0 cs))) < 2 ^ 24)%N) ->
  forall h1 h2 b1 b2, get_bat s h1 = Some b1 -> get_bat s h2 = Some b2 -> h1 <> h2 -> bt_id b1 <> bt_id b2.
Proof.
  intros E S L h1 h2 b1 b2 G1 G2 N X.
  destruct (ids_assigned _ _ _ _ _ E _ _ G1) as (i & [LI _] & EI). destruct (ids_assigned _ _ _ _ _ E _ _ G2) as (j & [LJ _] & EJ).
  pose proof (ids_increase _ S L) as INC. destruct (Nat.lt_trichotomy i j) as [H|[H|H]].
  - specialize (INC _ _ _ _ H EI EJ). rewrite X in INC. exact (N.lt_irrefl _ INC).
  - congruence.
  - specialize (INC _ _ _ _ H EJ EI). rewrite X in INC. exact (N.lt_irrefl _ INC).
Qed.

Lemma run_app cs : forall cs' s s1 t1 r1 s2 t2 r2, batch_run s cs = (s1, t1, r1) -> batch_run s1 cs' = (s2, t2, r2) ->
  batch_run s (cs ++ cs') = (s2, t1 ++ t2, r1 ++ r2).
Proof.
  induction cs as [|c cs IH]; cbn [batch_run app]; intros cs' s s1 t1 r1 s2 t2 r2 E1 E2.
  - injection E1 as <- <- <-. exact E2.
  - destruct (batch_call s c) as [[s0 t0] r0]. destruct (batch_run s0 cs) as [[s3 t3] r3] eqn:E3. injection E1 as <- <- <-.
    rewrite (IH _ _ _ _ _ _ _ _ E3 E2). now rewrite app_assoc.
Qed.

Lemma stamps_app cs : forall cs' s s1 t1 r1, batch_run s cs = (s1, t1, r1) ->
  stamps (length (bs_bats s)) (cs ++ cs') = stamps (length (bs_bats s)) cs ++ stamps (length (bs_bats s1)) cs'.
Proof.
  induction cs as [|c cs IH]; cbn [batch_run app]; intros cs' s s1 t1 r1 E1.
  - injection E1 as <- <- <-. reflexivity.
  - destruct (batch_call s c) as [[s0 t0] r0] eqn:EC. destruct (batch_run s0 cs) as [[s3 t3] r3] eqn:E3. injection E1 as <- <- <-.
    destruct (call_ids _ _ _ _ _ EC) as [LEN _]. specialize (IH cs' _ _ _ _ E3). rewrite LEN in IH.
    destruct c; cbn [stamps]; rewrite ?IH; try reflexivity. destruct (_ <? _); cbn [app]; now rewrite ?IH.
Qed.

Lemma ids_app l : forall last l', exists last', batch_ids last (l ++ l') = batch_ids last l ++ batch_ids last' l'.
Proof.
  induction l as [|x l IH]; intros last l'; cbn [batch_ids app]; [now exists last|].
  destruct (seq_next last x) as [[last' id] ov]. destruct (IH last' l') as (z & ->). now exists z.
Qed.

Lemma ids_len l : forall last, length (batch_ids last l) = length l.
Proof. induction l as [|x l IH]; intros last; cbn [batch_ids]; auto. destruct (seq_next last x) as [[last' id] ov]. cbn. now rewrite IH. Qed.

Lemma reset_id db cs sec s t rs : batch_run (BSt db [] 0) cs = (s, t, rs) ->
  forall h b, get_bat s h = Some b ->
  steady_clock 1 (map snd (stamps 0 cs) ++ [sec]) ->
  (forall i x, nth_error (map snd (stamps 0 cs) ++ [sec]) i = Some x -> (in_second x (firstn i (map snd (stamps 0 cs) ++ [sec])) < 2 ^ 24)%N) ->
  exists s' b', batch_call s (CReset h sec) = (s', [], Ok tt) /\ get_bat s' h = Some b' /\
    forall h0 b0, get_bat s h0 = Some b0 -> (bt_id b0 < bt_id b')%N.
Proof.
  intros E h b G S L.
  destruct (batch_call s (CReset h sec)) as [[s' t'] r'] eqn:EC.
  assert (X : exists b', t' = [] /\ r' = Ok tt /\ get_bat s' h = Some b').
  { cbn [batch_call] in EC. destruct (seq_next (bs_last s) sec) as [[last id] ov]. rewrite G in EC. injection EC as <- <- <-. eexists. do 2 (split; [reflexivity|]).
    eapply get_set_same. exact G. }
  destruct X as (b' & -> & -> & G'). exists s', b'. do 2 (split; [auto|]). intros h0 b0 G0.
  assert (E1 : batch_run s [CReset h sec] = (s', [], [Ok tt])) by (cbn [batch_run]; rewrite EC; reflexivity).
  pose proof (run_app _ _ _ _ _ _ _ _ _ E E1) as E2. pose proof (stamps_app _ [CReset h sec] _ _ _ _ E) as ST. cbn [bs_bats length] in ST.
  cbn [stamps] in ST. replace (h <? length (bs_bats s)) with true in ST by (symmetry; apply Nat.ltb_lt; eauto using get_lt).
  destruct (ids_assigned _ _ _ _ _ E2 _ _ G') as (i & [LI LL] & EI). destruct (ids_assigned _ _ _ _ _ E _ _ G0) as (j & _ & EJ).
  rewrite ST in LI, LL, EI. rewrite map_app in EI. cbn [map snd] in EI.
  assert (J : j < length (stamps 0 cs)) by (rewrite <- (map_length snd), <- (ids_len _ 0%N); apply nth_error_Some; congruence).
  assert (IJ : j < i).
  { destruct (Nat.lt_ge_cases i (length (stamps 0 cs))) as [H|H]; [|lia]. exfalso. apply (LL (length (stamps 0 cs)) H).
    rewrite nth_error_app2, Nat.sub_diag by lia. reflexivity. }
  refine (ids_increase _ S L j i _ _ IJ _ EI). destruct (ids_app (map snd (stamps 0 cs)) 0%N [sec]) as (z & ->).
  rewrite nth_error_app1; [exact EJ|]. rewrite ids_len, map_length. exact J.
Qed.

Lemma reset_any db cs s t rs : batch_run (BSt db [] 0) cs = (s, t, rs) ->
  forall h b sec, get_bat s h = Some b -> bt_life b <> LClosed -> exists s' b', batch_call s (CReset h sec) = (s', [], Ok tt) /\
    bs_db s' = bs_db s /\ (forall h', h' <> h -> get_bat s' h' = get_bat s h') /\ get_bat s' h = Some b' /\
    bt_ops b' = [] /\ bt_life b' = LOpen /\ bt_rw b' = bt_rw b /\
    bt_commit b' = [] /\ bt_committed b' = [] /\ bt_error b' = [].
Proof.
  intros _ h b sec G L. cbn [batch_call]. destruct (seq_next (bs_last s) sec) as [[last id] ov]. rewrite G. do 2 eexists. split; [reflexivity|]. split; [reflexivity|].
  split; [intros h' N; rewrite get_set_other; eauto using get_lt|]. split; [eapply get_set_same; exact G|]. cbn. destruct (bt_life b); auto 8. congruence.
Qed.

Lemma ids_calls secs : forall last, batch_ids last secs = map (fun n => match n with Some n => n | None => (2 ^ 64 - 1)%N end) (seq_calls last secs).
Proof.
  induction secs as [|sec secs IH]; intro last; cbn [batch_ids seq_calls map]; auto.
  destruct (seq_next last sec) as [[last' n] ov] eqn:E. cbn [map]. rewrite IH. f_equal. destruct ov; auto.
  unfold seq_next in E. destruct (_ =? _)%N; [|congruence]. destruct (_ =? _)%N; [|congruence].
  assert (n = max_uint64) by congruence. subst. reflexivity.
Qed.

Lemma ids_exact secs : steady_clock 1 secs -> forall i sec, nth_error secs i = Some sec ->
  let k := in_second sec (firstn i secs) in
  nth_error (batch_ids 0 secs) i = Some (if (k <? 2 ^ 24)%N then Z.to_N sec * 2 ^ 24 + k else 2 ^ 64 - 1)%N.
Proof.
  intros S i sec H k. rewrite ids_calls, nth_error_map, (calls_exact secs S i sec H). fold k. cbn [option_map]. destruct (k <? 2 ^ 24)%N; reflexivity.
Qed.
