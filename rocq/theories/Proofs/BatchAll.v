(** Close, second commits, and the events of every program. *)

From Coq Require Import List NArith ZArith Lia Bool Arith.
From Verif.Model Require Import Bytes Go Pebble Sequence Batch.
From Verif.Spec Require Import BatchSpec.
From Verif.Proofs Require Import BatchFacts.
Import ListNotations.

Lemma close_outcome db cs s t rs : batch_run (BSt db [] 0) cs = (s, t, rs) ->
  forall h b, get_bat s h = Some b ->
  forall fail, exists s' t' r b', batch_call s (CClose h fail) = (s', t', r) /\
    bs_db s' = bs_db s /\ (forall h', h' <> h -> get_bat s' h' = get_bat s h') /\ get_bat s' h = Some b' /\
    match fail with
    | Some e => r = Err e /\ b' = b /\
        t' = map (EvCommitted h) (registered on_committeds h 0 [] cs) ++ map (fun n => EvError h n e) (registered on_errors h 0 [] cs)
    | None => r = Ok tt /\ bt_life b' = LClosed /\ t' = map (EvCommitted h) (registered on_committeds h 0 [] cs) /\
        (forall f, batch_call s' (CCommit h f) = (s', [], Ok tt)) /\
        (forall ops, batch_call s' (CPut h ops) = (s', [], Panic))
    end.
Proof.
  intros E h b G fail. destruct (run_registered _ _ _ _ _ E _ _ G) as (R1 & R2 & R3). rewrite <- R2, <- R3.
  cbn [batch_call]. rewrite G. unfold batch_close, notify_on_close, notify_on_error. destruct fail as [e|].
  - do 3 eexists. exists b. split; [reflexivity|]. repeat (split; [auto|]). auto.
  - do 3 eexists. exists (with_life (with_ops b []) LClosed). split; [reflexivity|]. split; [reflexivity|].
    assert (G' : get_bat (set_bat s h (with_life (with_ops b []) LClosed)) h = Some (with_life (with_ops b []) LClosed)) by (eapply get_set_same; eauto).
    split; [intros h' N; apply get_set_other; eauto using get_lt|]. split; [exact G'|]. repeat (split; [reflexivity|]).
    split; intro; unfold upd_bat; rewrite G'; reflexivity.
Qed.

Lemma commit_again db cs s t rs : batch_run (BSt db [] 0) cs = (s, t, rs) ->
  forall h b, get_bat s h = Some b -> bt_life b = LApplied -> bt_ops b <> [] ->
  forall ns ops e, hooks (registered on_commits h 0 [] cs) (bt_ops b) ns ops e ->
  forall c fail, c = CCommit h fail \/ c = CDbApply h fail ->
  exists s', batch_call s c = (s', map (EvCommit h) ns, match e with Some e => Err e | None => Panic end) /\ bs_db s' = bs_db s /\
    (forall h', h' <> h -> get_bat s' h' = get_bat s h').
Proof.
  intros E h b G L O ns ops e H c fail C.
  destruct (run_registered _ _ _ _ _ E _ _ G) as (R1 & R2 & R3). rewrite <- R1 in H.
  exists (fst (fst (batch_commit s h b fail))).
  assert (X : batch_commit s h b fail = (set_bat s h (with_ops b ops), map (EvCommit h) ns, match e with Some e => Err e | None => Panic end)).
  { unfold batch_commit. rewrite L. destruct (bt_ops b) as [|op0 ops0] eqn:B; [congruence|]. rewrite (notify_hooks h _ _ _ _ _ H). destruct e; reflexivity. }
  rewrite X. split; [destruct C as [-> | ->]; cbn [batch_call]; now rewrite G|]. split; [reflexivity|].
  intros h' N. cbn [fst]. apply get_set_other; eauto using get_lt.
Qed.

Lemma segment_nil : segment [].
Proof. exact (sg_refused 0 []). Qed.

Lemma call_segment s c s' t r : batch_call s c = (s', t, r) -> segment t.
Proof.
  intro E. pose proof (call_kinds _ _ _ _ _ E) as K. destruct c; cbn [kinds] in K; subst; auto using segment_nil; try (eapply sg_commit; exact K).
  - cbn [batch_call] in E. destruct (get_bat s o) as [ob|]; [|injection E as <- <- <-; apply segment_nil].
    destruct (get_bat s i) as [ib|]; [|injection E as <- <- <-; apply segment_nil].
    unfold batch_apply in E. destruct (hooks_ex (bt_commit ib) (bt_ops ib)) as (ns & ops & e & H).
    rewrite (notify_hooks i _ _ _ _ _ H) in E. destruct e as [e|]; [injection E as <- <- <-; apply sg_refused|].
    destruct (bt_life ob); try (injection E as <- <- <-; apply sg_not_open). destruct fail as [e|]; injection E as <- <- <-; constructor.
  - cbn [batch_call] in E. destruct (get_bat s h) as [b|]; [|injection E as <- <- <-; apply segment_nil].
    unfold batch_close in E. destruct fail as [e|]; injection E as <- <- <-; constructor.
Qed.

(** The segments are those of the calls, in order. *)
Lemma run_segments cs : forall s s' t rs, batch_run s cs = (s', t, rs) -> exists ts, t = concat ts /\ length ts = length cs /\ Forall segment ts.
Proof.
  induction cs as [|c cs IH]; intros s s' t rs; cbn [batch_run].
  - intros [= <- <- <-]. exists []. auto.
  - destruct (batch_call s c) as [[s1 t1] r] eqn:E1, (batch_run s1 cs) as [[s2 t2] rs2] eqn:E2. intros [= <- <- <-].
    destruct (IH _ _ _ _ E2) as (ts & -> & L & F). exists (t1 :: ts). split; [reflexivity|]. split; [cbn [length]; congruence|].
    constructor; auto. eapply call_segment; eauto.
Qed.
