(** Facts about batches and callbacks. *)

From Coq Require Import List NArith ZArith Bool Arith Lia.
From Verif.Model Require Import Bytes Go Pebble Sequence Batch.
From Verif.Spec Require Import BatchSpec.
Import ListNotations.

Lemma notify_hooks h fs ops ns ops' r : hooks fs ops ns ops' r ->
  notify_on_commit h fs ops = (ops', map (EvCommit h) ns, r).
Proof.
  induction 1 as [|f fs ops ops1 e H|f fs ops ops1 ns ops2 r H _ IH]; cbn; auto.
  - rewrite H; auto.
  - rewrite H, IH; auto.
Qed.

Lemma hooks_ex fs : forall ops, exists ns ops' r, hooks fs ops ns ops' r.
Proof.
  induction fs as [|f fs IH]; intros ops.
  - exists [], ops, None. constructor.
  - destruct (cc_run f ops) as [ops1 [e|]] eqn:E.
    + exists [cc_name f], ops1, (Some e). constructor; auto.
    + destruct (IH ops1) as (ns & ops' & r & H). exists (cc_name f :: ns), ops', r. econstructor; eauto.
Qed.

Lemma hooks_names fs ops ns ops' r : hooks fs ops ns ops' r ->
  match r with
  | None => ns = map cc_name fs
  | Some _ => exists rest, map cc_name fs = ns ++ rest
  end.
Proof.
  induction 1 as [| |f fs ops ops1 ns ops2 r H _ IH]; cbn; eauto.
  destruct r; [destruct IH as (rest & ->); exists rest; auto|congruence].
Qed.

Lemma get_set_same s h b b' : get_bat s h = Some b -> get_bat (set_bat s h b') h = Some b'.
Proof.
  unfold get_bat, set_bat; cbn [bs_bats]. generalize (bs_bats s) as l. intros l.
  revert h; induction l as [|x l IH]; intros [|h] H; cbn in *; try discriminate; auto.
Qed.

Lemma get_set_other s h b' h' : h' <> h -> h < length (bs_bats s) -> get_bat (set_bat s h b') h' = get_bat s h'.
Proof.
  unfold get_bat, set_bat; cbn [bs_bats]. generalize (bs_bats s) as l. intros l.
  revert h h'; induction l as [|x l IH]; intros [|h] [|h'] N L; cbn in *; try lia; auto. apply IH; lia.
Qed.

Lemma get_lt s h b : get_bat s h = Some b -> h < length (bs_bats s).
Proof. unfold get_bat; intros H; apply nth_error_Some; congruence. Qed.

Lemma set_bat_len s h b b' : get_bat s h = Some b -> length (bs_bats (set_bat s h b')) = length (bs_bats s).
Proof.
  intros H. apply get_lt in H. unfold set_bat; cbn [bs_bats].
  rewrite app_length; cbn [length]. rewrite firstn_length, skipn_length. lia.
Qed.

(** ** The events of one call *)

(** The three kinds of events a call can give. *)
Definition kinds (s : bst) (c : bcall) (t : list event) : Prop :=
  match c with
  | CCommit h _ | CDbApply h _ => attempt h t
  | CApply _ _ _ | CClose _ _ => True
  | _ => t = []
  end.

Lemma attempt_nil h : attempt h [].
Proof. exact (at_veto h []). Qed.

Lemma commit_attempt s h b fail s' t r : batch_commit s h b fail = (s', t, r) -> attempt h t.
Proof.
  unfold batch_commit. destruct (hooks_ex (bt_commit b) (bt_ops b)) as (ns & ops & e & H).
  pose proof (notify_hooks h _ _ _ _ _ H) as N.
  destruct (bt_life b), (bt_ops b) eqn:O; rewrite ?N; destruct e as [e|], fail as [fe|];
    intros [= <- <- <-]; try apply attempt_nil; try constructor; try (apply at_veto).
Qed.

Lemma call_kinds s c s' t r : batch_call s c = (s', t, r) -> kinds s c t.
Proof.
  destruct c; cbn [batch_call kinds]; auto; try (unfold upd_bat);
    repeat match goal with |- context [match ?x with _ => _ end] => destruct x eqn:? end;
    intros E; try (injection E as <- <- <-; auto using attempt_nil; fail);
    eapply commit_attempt; eauto.
Qed.

Lemma protocol_app t1 t2 : protocol t1 -> protocol t2 -> protocol (t1 ++ t2).
Proof. induction 1; cbn; intros; auto. rewrite <- app_assoc. econstructor; eauto. Qed.

Lemma run_protocol cs : forall s s' t rs, commits_only cs -> batch_run s cs = (s', t, rs) -> protocol t.
Proof.
  induction cs as [|c cs IH]; intros s s' t rs C; cbn.
  - intros [= <- <- <-]. constructor.
  - inversion C as [|? ? C1 C2]; subst.
    destruct (batch_call s c) as [[s1 t1] r] eqn:E1, (batch_run s1 cs) as [[s2 t2] rs2] eqn:E2.
    intros [= <- <- <-]. apply protocol_app; [|eapply IH; eauto].
    apply call_kinds in E1.
    destruct c; cbn in *; try contradiction; subst; try constructor;
      rewrite <- (app_nil_r t1); econstructor; eauto; constructor.
Qed.

(** What the protocol says about single events. *)
Lemma cut_attempt h a t1 x t2 : attempt h a -> a = t1 ++ x :: t2 ->
  match x with
  | EvCommitted h' _ => h' = h /\ exists t0 ops ns, t1 = t0 ++ EvWrite h ops :: map (EvCommitted h) ns
  | EvError h' _ _ => h' = h /\ forall ops, ~ In (EvWrite h ops) a
  | EvWrite h' _ => h' = h /\ (exists ns, t1 = map (EvCommit h) ns) /\ exists cs, t2 = map (EvCommitted h) cs
  | EvCommit h' _ => h' = h /\ exists ns, t1 = map (EvCommit h) ns
  | _ => False
  end.
Proof.
  assert (M : forall (f : nat -> event) ns u1 y u2, map f ns = u1 ++ y :: u2 ->
     exists n1 n n2, ns = n1 ++ n :: n2 /\ u1 = map f n1 /\ y = f n /\ u2 = map f n2).
  { intros f ns; induction ns as [|n ns IH]; intros [|z u1] y u2 E; cbn in *; try discriminate.
    - injection E as <- <-. exists [], n, ns; auto.
    - injection E as <- E. destruct (IH _ _ _ E) as (n1 & m & n2 & -> & -> & -> & ->).
      exists (n :: n1), m, n2; auto. }
  assert (A : forall (u v : list event) u1 y u2, u ++ v = u1 ++ y :: u2 ->
     (exists w, u = u1 ++ y :: w /\ u2 = w ++ v) \/ (exists w, u1 = u ++ w /\ v = w ++ y :: u2)).
  { intros u; induction u as [|z u IH]; intros v u1 y u2 E; cbn in *.
    - right. exists u1; auto.
    - destruct u1 as [|z' u1]; cbn in *; injection E as <- E.
      + left. exists u; subst; auto.
      + destruct (IH _ _ _ _ E) as [(w & -> & ->)|(w & -> & ->)]; [left|right]; exists w; auto. }
  intros H E. destruct H as [ns|ns es e|ns ops cs].
  - apply M in E as (n1 & n & n2 & -> & -> & -> & ->). split; eauto.
  - destruct (A _ _ _ _ _ E) as [(w & E1 & ->)|(w & -> & E1)].
    + apply M in E1 as (n1 & n & n2 & -> & -> & -> & ->). split; eauto.
    + pose proof E1 as E2. apply M in E1 as (n1 & n & n2 & -> & -> & -> & ->). split; auto.
      intros ops I. apply in_app_or in I as [I|I]; apply in_map_iff in I as (? & ? & _); discriminate.
  - destruct (A _ _ _ _ _ E) as [(w & E1 & ->)|(w & -> & E1)].
    + apply M in E1 as (n1 & n & n2 & -> & -> & -> & ->). split; eauto.
    + destruct w as [|y w]; cbn in E1; injection E1 as <- E1.
      * subst. rewrite app_nil_r. split; eauto.
      * apply M in E1 as (n1 & n & n2 & -> & -> & -> & ->). split; auto.
        exists (map (EvCommit h) ns), ops, n1; auto.
Qed.

Lemma protocol_committed t : protocol t -> forall t1 h n t2, t = t1 ++ EvCommitted h n :: t2 ->
  exists t0 ops ns, t1 = t0 ++ EvWrite h ops :: map (EvCommitted h) ns.
Proof.
  induction 1 as [|h0 a t A P IH]; intros t1 h n t2 E; [destruct t1; discriminate|].
  assert (Sp : (exists w, a = t1 ++ EvCommitted h n :: w) \/ (exists w, t1 = a ++ w /\ t = w ++ EvCommitted h n :: t2)).
  { clear - E. revert t1 E. induction a as [|z a IH]; intros t1 E; cbn in *.
    - right. exists t1; auto.
    - destruct t1 as [|z' t1]; cbn in *; injection E as -> E.
      + left. exists a; auto.
      + destruct (IH _ E) as [(w & ->)|(w & -> & ->)]; [left|right]; exists w; auto. }
  destruct Sp as [(w & ->)|(w & -> & ->)].
  - pose proof (cut_attempt _ _ _ _ _ A eq_refl) as (-> & t0 & ops & ns & ->). eauto.
  - destruct (IH w h n t2 eq_refl) as (t0 & ops & ns & ->). exists (a ++ t0), ops, ns. now rewrite <- app_assoc.
Qed.

(** ** The database holds exactly what was written *)

Lemma written_app t1 t2 : written (t1 ++ t2) = written t1 ++ written t2.
Proof. induction t1 as [|[] t1 IH]; cbn; auto; now rewrite IH. Qed.

Lemma written_map {A} (f : A -> event) l : (forall a, match f a with EvWrite _ _ => False | _ => True end) -> written (map f l) = [].
Proof. intros H. induction l as [|a l IH]; cbn; auto. specialize (H a). destruct (f a); tauto. Qed.

Lemma commit_written s h b fail s' t r : batch_commit s h b fail = (s', t, r) ->
  bs_db s' = fold_left apply_ops (written t) (bs_db s).
Proof.
  unfold batch_commit. destruct (hooks_ex (bt_commit b) (bt_ops b)) as (ns & ops & e & H).
  pose proof (notify_hooks h _ _ _ _ _ H) as N.
  destruct (bt_life b), (bt_ops b) eqn:O; rewrite ?N; destruct e as [e|], fail as [fe|];
    intros [= <- <- <-]; unfold notify_on_error, notify_on_committed;
    rewrite ?written_app; cbn [written]; rewrite ?written_map; auto.
Qed.

Lemma apply_written s o i ob ib fail s' t r : batch_apply s o i ob ib fail = (s', t, r) ->
  bs_db s' = bs_db s /\ written t = [].
Proof.
  unfold batch_apply. destruct (hooks_ex (bt_commit ib) (bt_ops ib)) as (ns & ops & e & H).
  rewrite (notify_hooks i _ _ _ _ _ H). destruct e as [e|], (bt_life ob), fail as [fe|];
    intros [= <- <- <-]; unfold notify_on_error, notify_on_committed;
    rewrite ?written_app; cbn [written]; rewrite ?written_map; auto.
Qed.

Lemma call_written s c s' t r : batch_call s c = (s', t, r) ->
  bs_db s' = fold_left apply_ops (written t) (bs_db s).
Proof.
  destruct c; cbn [batch_call]; try (unfold upd_bat);
    repeat match goal with |- context [match ?x with _ => _ end] => destruct x eqn:? end;
    intros E; try (injection E as <- <- <-; auto; fail); try (eapply commit_written; eauto; fail).
  - apply apply_written in E as (-> & ->); auto.
  - unfold batch_close in E. destruct fail; injection E as <- <- <-;
      unfold notify_on_close, notify_on_error; rewrite ?written_app, ?written_map; auto.
Qed.

Lemma run_written cs : forall s s' t rs, batch_run s cs = (s', t, rs) ->
  bs_db s' = fold_left apply_ops (written t) (bs_db s).
Proof.
  induction cs as [|c cs IH]; intros s s' t rs; cbn.
  - intros [= <- <- <-]. reflexivity.
  - destruct (batch_call s c) as [[s1 t1] r] eqn:E1, (batch_run s1 cs) as [[s2 t2] rs2] eqn:E2.
    intros [= <- <- <-]. rewrite written_app, fold_left_app.
    erewrite IH by eauto. now rewrite (call_written _ _ _ _ _ E1).
Qed.

(** ** No call runs an OnClose callback *)

Lemma call_no_close s c s' t r : batch_call s c = (s', t, r) -> forall h n, ~ In (EvClose h n) t.
Proof.
  assert (M : forall (A : Type) (f : A -> event) l h n, (forall a, match f a with EvClose _ _ => False | _ => True end) -> ~ In (EvClose h n) (map f l)).
  { intros A f l h n H I. apply in_map_iff in I as (a & E & _). specialize (H a). now rewrite E in H. }
  intros E h n I.
  assert (K : exists b, kinds s c t /\ b = c) by (exists c; split; eauto using call_kinds).
  destruct K as (_ & K & _).
  assert (At : forall h0, attempt h0 t -> False).
  { intros h0 A. apply in_split in I as (t1 & t2 & ->). now apply (cut_attempt _ _ _ _ _ A eq_refl). }
  destruct c; cbn in K; subst; try (now apply At in K); try (destruct I); cbn [batch_call] in E.
  - destruct (get_bat s o) as [ob|], (get_bat s i) as [ib|]; try (injection E as <- <- <-; auto; fail).
    unfold batch_apply in E. destruct (hooks_ex (bt_commit ib) (bt_ops ib)) as (ns & ops & e & H).
    rewrite (notify_hooks i _ _ _ _ _ H) in E.
    destruct e as [e|], (bt_life ob), fail as [fe|]; injection E as <- <- <-;
      unfold notify_on_error, notify_on_committed in I;
      repeat (apply in_app_or in I as [I|I] || destruct I as [I|I]); try discriminate; revert I; apply M; intros ?; exact Logic.I.
  - destruct (get_bat s h0) as [b|]; [|injection E as <- <- <-; auto].
    unfold batch_close, notify_on_close, notify_on_error in E. destruct fail as [fe|]; injection E as <- <- <-;
      repeat (apply in_app_or in I as [I|I]); revert I; apply M; intros ?; exact Logic.I.
Qed.

Lemma run_no_close cs : forall s s' t rs, batch_run s cs = (s', t, rs) -> forall h n, ~ In (EvClose h n) t.
Proof.
  induction cs as [|c cs IH]; intros s s' t rs; cbn.
  - intros [= <- <- <-] ? ? [].
  - destruct (batch_call s c) as [[s1 t1] r] eqn:E1, (batch_run s1 cs) as [[s2 t2] rs2] eqn:E2.
    intros [= <- <- <-] h n I. apply in_app_or in I as [I|I].
    + eapply call_no_close; eauto.
    + eapply IH; eauto.
Qed.

(** ** The registered callbacks *)

Section Regs.
  Context {A : Type}.
  Variable proj : bat -> list A.
  Variable pick : bcall -> option (nat * A).
  Hypothesis p_ops : forall b o, proj (with_ops b o) = proj b.
  Hypothesis p_life : forall b l, proj (with_life b l) = proj b.
  Hypothesis p_new : forall rw id, proj (new_batch rw id) = [].
  Hypothesis p_reset : forall b id, proj (batch_reset b id) = [].
  Let upd (c : bcall) (h : nat) (b b' : bat) : Prop :=
    proj b' = match pick c with Some (_, a) => proj b ++ [a] | None => proj b end /\
    match pick c with Some (h', _) => h' = h | None => True end.
  Hypothesis p_commit : forall h f b, upd (COnCommit h f) h b (add_on_commit b f).
  Hypothesis p_committed : forall h n b, upd (COnCommitted h n) h b (add_on_committed b n).
  Hypothesis p_error : forall h n b, upd (COnError h n) h b (add_on_error b n).
  Hypothesis p_close : forall h n b, upd (COnClose h n) h b (add_on_close b n).
  Hypothesis p_none : forall c, match c with COnCommit _ _ | COnCommitted _ _ | COnError _ _ | COnClose _ _ => True | _ => pick c = None end.

  Let regs (o : option bat) : list A := match o with Some b => proj b | None => [] end.

  Lemma set_regs s h b b' : get_bat s h = Some b -> proj b' = proj b ->
    forall h', regs (get_bat (set_bat s h b') h') = regs (get_bat s h').
  Proof.
    intros G E h'. destruct (Nat.eq_dec h' h) as [->|N].
    - erewrite get_set_same by eauto. rewrite G. exact E.
    - rewrite get_set_other; eauto using get_lt.
  Qed.

  Lemma commit_regs s h b fail s' t r : get_bat s h = Some b -> batch_commit s h b fail = (s', t, r) ->
    length (bs_bats s') = length (bs_bats s) /\ forall h', regs (get_bat s' h') = regs (get_bat s h').
  Proof.
    intros G. unfold batch_commit. destruct (hooks_ex (bt_commit b) (bt_ops b)) as (ns & ops & e & H).
    pose proof (notify_hooks h _ _ _ _ _ H) as N.
    assert (K : forall b', proj b' = proj b -> length (bs_bats (set_bat s h b')) = length (bs_bats s) /\
                (forall h', regs (get_bat (set_bat s h b') h') = regs (get_bat s h'))).
    { intros b' E. split; eauto using set_bat_len, set_regs. }
    destruct (bt_life b), (bt_ops b) eqn:O; rewrite ?N; destruct e as [e|], fail as [fe|];
      intros [= <- <- <-]; auto; try (apply K; rewrite ?p_life, ?p_ops; auto; fail).
  Qed.

  Lemma upd_regs s h w f c s' t r : (forall b, upd c h b (f b)) -> upd_bat s h w f = (s', t, r) ->
    w = false ->
    length (bs_bats s') = length (bs_bats s) /\
    forall h', regs (get_bat s' h') =
      match pick c with
      | Some (h1, a) => if Nat.eqb h1 h' && Nat.ltb h' (length (bs_bats s)) then regs (get_bat s h') ++ [a] else regs (get_bat s h')
      | None => regs (get_bat s h')
      end.
  Proof.
    intros U E ->. unfold upd_bat in E. destruct (get_bat s h) as [b|] eqn:G.
    - assert (E' : (set_bat s h (f b), @nil event, Ok tt) = (s', t, r)) by (destruct (bt_life b); exact E).
      injection E' as <- <- <-. split; [eauto using set_bat_len|].
      destruct (U b) as (U1 & U2). intros h'. destruct (pick c) as [[h1 a]|] eqn:P.
      + subst h1. destruct (Nat.eqb_spec h h') as [<-|N]; cbn [andb].
        * erewrite get_set_same by eauto. rewrite G. cbn [regs].
          replace (h <? length (bs_bats s)) with true by (symmetry; apply Nat.ltb_lt; eauto using get_lt). exact U1.
        * rewrite get_set_other; eauto using get_lt.
      + apply set_regs with (b := b); auto.
    - injection E as <- <- <-. split; auto. intros h'.
      destruct (U (new_batch true 0)) as (_ & U2). destruct (pick c) as [[h1 a]|]; auto. subst h1.
      destruct (Nat.eqb_spec h h') as [<-|N]; cbn [andb]; auto.
      replace (h <? length (bs_bats s)) with false; auto.
      symmetry. apply Nat.ltb_ge. apply nth_error_None. exact G.
  Qed.

  Lemma call_regs s c s' t r : batch_call s c = (s', t, r) ->
    length (bs_bats s') = match c with CNew _ _ => S (length (bs_bats s)) | _ => length (bs_bats s) end /\
    forall h, regs (get_bat s' h) =
      match c with
      | CReset h' _ => if Nat.eqb h' h then [] else regs (get_bat s h)
      | _ => match pick c with
             | Some (h', a) => if Nat.eqb h' h && Nat.ltb h (length (bs_bats s)) then regs (get_bat s h) ++ [a] else regs (get_bat s h)
             | None => regs (get_bat s h)
             end
      end.
  Proof.
    intros E. pose proof (p_none c) as PN. destruct c as [rw sec|h0 ops|h0 f|h0 n|h0 n|h0 n|h0 fail|h0 fail|o i fail|h0 sec|h0 fail];
      try rewrite PN; cbn [batch_call] in E.
    - destruct (seq_next (bs_last s) sec) as [[last id] ov]. injection E as <- <- <-. unfold get_bat; cbn [bs_bats]. split; [rewrite app_length; cbn; lia|].
      intros h. destruct (Nat.lt_trichotomy h (length (bs_bats s))) as [L|[->|L]].
      + rewrite nth_error_app1; auto.
      + rewrite nth_error_app2, Nat.sub_diag; auto. cbn [nth_error regs]. rewrite p_new.
        replace (nth_error (bs_bats s) (length (bs_bats s))) with (@None bat); auto. symmetry. apply nth_error_None; auto.
      + replace (nth_error (bs_bats s ++ [new_batch rw id]) h) with (@None bat).
        * replace (nth_error (bs_bats s) h) with (@None bat); auto. symmetry; apply nth_error_None; lia.
        * symmetry; apply nth_error_None; rewrite app_length; cbn; lia.
    - unfold upd_bat in E. destruct (get_bat s h0) as [b|] eqn:G; [|injection E as <- <- <-; auto].
      destruct (bt_life b); injection E as <- <- <-; auto. split; [eauto using set_bat_len|].
      apply set_regs with (b := b); auto.
    - eapply upd_regs; [intros b; apply p_commit|exact E|reflexivity].
    - eapply upd_regs; [intros b; apply p_committed|exact E|reflexivity].
    - eapply upd_regs; [intros b; apply p_error|exact E|reflexivity].
    - eapply upd_regs; [intros b; apply p_close|exact E|reflexivity].
    - destruct (get_bat s h0) as [b|] eqn:G; [|injection E as <- <- <-; auto]. eapply commit_regs; eauto.
    - destruct (get_bat s h0) as [b|] eqn:G; [|injection E as <- <- <-; auto]. eapply commit_regs; eauto.
    - destruct (get_bat s o) as [ob|] eqn:G; [|injection E as <- <- <-; auto].
      destruct (get_bat s i) as [ib|] eqn:G'; [|injection E as <- <- <-; auto].
      unfold batch_apply in E. destruct (hooks_ex (bt_commit ib) (bt_ops ib)) as (ns & ops & e & H).
      rewrite (notify_hooks i _ _ _ _ _ H) in E.
      assert (K1 : length (bs_bats (set_bat s i (with_ops ib ops))) = length (bs_bats s)) by eauto using set_bat_len.
      assert (K2 : forall h', regs (get_bat (set_bat s i (with_ops ib ops)) h') = regs (get_bat s h')) by (eapply set_regs; eauto).
      assert (K3 : exists ob', get_bat (set_bat s i (with_ops ib ops)) o = Some ob' /\ proj ob' = proj ob).
      { destruct (Nat.eq_dec o i) as [->|N].
        - exists (with_ops ib ops). split; [eauto using get_set_same|]. rewrite p_ops. congruence.
        - exists ob. rewrite get_set_other; eauto using get_lt. }
      destruct K3 as (ob' & G2 & P2).
      destruct e as [e|], (bt_life ob), fail as [fe|]; injection E as <- <- <-; auto.
      split; [erewrite set_bat_len; eauto|].
      intros h. erewrite set_regs; eauto. rewrite p_ops. congruence.
    - destruct (seq_next (bs_last s) sec) as [[last id] ov]. destruct (get_bat s h0) as [b|] eqn:G.
      + injection E as <- <- <-. set (s0 := BSt (bs_db s) (bs_bats s) last).
        assert (G0 : get_bat s0 h0 = Some b) by exact G. split; [change (length (bs_bats s)) with (length (bs_bats s0)); eauto using set_bat_len|].
        intros h. destruct (Nat.eqb_spec h0 h) as [<-|N].
        * erewrite get_set_same by eauto. apply p_reset.
        * change (get_bat s h) with (get_bat s0 h). rewrite get_set_other; eauto using get_lt.
      + injection E as <- <- <-. split; auto. intros h. destruct (Nat.eqb_spec h0 h) as [<-|N]; auto. now rewrite G.
    - destruct (get_bat s h0) as [b|] eqn:G; [|injection E as <- <- <-; auto].
      unfold batch_close in E. destruct fail; injection E as <- <- <-; auto.
      split; [eauto using set_bat_len|]. apply set_regs with (b := b); auto. rewrite p_life. auto.
  Qed.

  Lemma run_regs cs : forall s s' t rs, batch_run s cs = (s', t, rs) -> forall h,
    regs (get_bat s' h) = registered pick h (length (bs_bats s)) (regs (get_bat s h)) cs.
  Proof.
    induction cs as [|c cs IH]; intros s s' t rs; cbn [batch_run registered].
    - intros [= <- <- <-] h. reflexivity.
    - destruct (batch_call s c) as [[s1 t1] r] eqn:E1, (batch_run s1 cs) as [[s2 t2] rs2] eqn:E2.
      intros [= <- <- <-] h. rewrite (IH _ _ _ _ E2 h).
      destruct (call_regs _ _ _ _ _ E1) as (L & R). rewrite (R h), L.
      destruct c; reflexivity.
  Qed.
End Regs.

(** The callbacks of every batch are those the program registered on it. *)
Lemma run_registered db cs s t rs : batch_run (BSt db [] 0) cs = (s, t, rs) -> forall h b, get_bat s h = Some b ->
  bt_commit b = registered on_commits h 0 [] cs /\
  bt_committed b = registered on_committeds h 0 [] cs /\
  bt_error b = registered on_errors h 0 [] cs.
Proof.
  intros E h b G. repeat split.
  - assert (R := run_regs bt_commit on_commits). cbn in R.
    specialize (R ltac:(auto) ltac:(auto) ltac:(auto) ltac:(auto) ltac:(auto) ltac:(auto) ltac:(auto) ltac:(auto)
      ltac:(intros []; cbn; auto) cs _ _ _ _ E h). rewrite G in R. rewrite R. cbn. now destruct h.
  - assert (R := run_regs bt_committed on_committeds). cbn in R.
    specialize (R ltac:(auto) ltac:(auto) ltac:(auto) ltac:(auto) ltac:(auto) ltac:(auto) ltac:(auto) ltac:(auto)
      ltac:(intros []; cbn; auto) cs _ _ _ _ E h). rewrite G in R. rewrite R. cbn. now destruct h.
  - assert (R := run_regs bt_error on_errors). cbn in R.
    specialize (R ltac:(auto) ltac:(auto) ltac:(auto) ltac:(auto) ltac:(auto) ltac:(auto) ltac:(auto) ltac:(auto)
      ltac:(intros []; cbn; auto) cs _ _ _ _ E h). rewrite G in R. rewrite R. cbn. now destruct h.
Qed.

(** ** One commit after any program *)

Lemma commit_outcome db cs s t rs : batch_run (BSt db [] 0) cs = (s, t, rs) ->
  forall h b, get_bat s h = Some b -> bt_life b = LOpen -> bt_ops b <> [] ->
  forall ns ops e, hooks (registered on_commits h 0 [] cs) (bt_ops b) ns ops e ->
  forall c fail, c = CCommit h fail \/ c = CDbApply h fail ->
  exists s' t' r, batch_call s c = (s', t', r) /\
    (forall h', h' <> h -> get_bat s' h' = get_bat s h') /\
    match e, fail with
    | Some e, _ => r = Err e /\ bs_db s' = bs_db s /\ t' = map (EvCommit h) ns
    | None, Some e => r = Err e /\ bs_db s' = bs_db s /\
        t' = map (EvCommit h) ns ++ map (fun n => EvError h n e) (registered on_errors h 0 [] cs)
    | None, None => r = Ok tt /\ bs_db s' = apply_ops (bs_db s) ops /\
        t' = map (EvCommit h) ns ++ EvWrite h ops :: map (EvCommitted h) (registered on_committeds h 0 [] cs)
    end.
Proof.
  intros E h b G L O ns ops e H c fail C.
  destruct (run_registered _ _ _ _ _ E _ _ G) as (R1 & R2 & R3).
  exists (fst (fst (batch_commit s h b fail))), (snd (fst (batch_commit s h b fail))), (snd (batch_commit s h b fail)).
  split; [destruct C as [-> | ->]; cbn [batch_call]; rewrite G; now destruct (batch_commit s h b fail) as [[? ?] ?]|].
  unfold batch_commit. rewrite L. destruct (bt_ops b) as [|op0 ops0] eqn:B; [congruence|].
  rewrite R1, (notify_hooks h _ _ _ _ _ H). pose proof (get_lt _ _ _ G).
  destruct e as [e|]; [|destruct fail as [e|]]; cbn [fst snd]; (split; [intros h' N; first [apply get_set_other|exact (get_set_other s h _ h' N H0)]; auto|]).
  - auto.
  - repeat split. unfold notify_on_error, with_ops; cbn [bt_error]. now rewrite R3.
  - repeat split. unfold notify_on_committed, with_ops; cbn [bt_committed]. now rewrite R2.
Qed.

Lemma empty_commit s h b fail : get_bat s h = Some b -> bt_ops b = [] ->
  batch_call s (CCommit h fail) = (s, [], Ok tt).
Proof. intros G O. cbn [batch_call]. rewrite G. unfold batch_commit. rewrite O. now destruct (bt_life b). Qed.

Lemma committed_after_write cs s s' t rs : commits_only cs -> batch_run s cs = (s', t, rs) ->
  forall t1 h n t2, t = t1 ++ EvCommitted h n :: t2 ->
  exists t0 ops ns, t1 = t0 ++ EvWrite h ops :: map (EvCommitted h) ns.
Proof. intros C E. exact (protocol_committed t (run_protocol cs s s' t rs C E)). Qed.

(** ** Batch.Apply and Reset after any program *)
Lemma apply_outcome db cs s t rs : batch_run (BSt db [] 0) cs = (s, t, rs) ->
  forall o i ob ib, get_bat s o = Some ob -> get_bat s i = Some ib -> o <> i -> bt_life ob = LOpen ->
  forall ns ops e, hooks (registered on_commits i 0 [] cs) (bt_ops ib) ns ops e ->
  forall fail, exists s' t' r ob' ib', batch_call s (CApply o i fail) = (s', t', r) /\
    bs_db s' = bs_db s /\ (forall h, h <> o -> h <> i -> get_bat s' h = get_bat s h) /\
    get_bat s' o = Some ob' /\ get_bat s' i = Some ib' /\ bt_ops ib' = ops /\ bt_life ib' = bt_life ib /\ bt_life ob' = LOpen /\ bt_id ob' = bt_id ob /\ bt_id ib' = bt_id ib /\
    match e, fail with
    | Some e, _ => r = Err e /\ bt_ops ob' = bt_ops ob /\ t' = map (EvCommit i) ns
    | None, Some e => r = Err e /\ bt_ops ob' = bt_ops ob /\
        t' = map (EvCommit i) ns ++ map (fun n => EvError i n e) (registered on_errors i 0 [] cs) ++
             map (EvCommitted i) (registered on_committeds i 0 [] cs)
    | None, None => r = Ok tt /\ bt_ops ob' = bt_ops ob ++ ops /\
        t' = map (EvCommit i) ns ++ EvMerge o i ops :: map (EvCommitted i) (registered on_committeds i 0 [] cs)
    end.
Proof.
  intros E o i ob ib GO GI N L ns ops e H fail. destruct (run_registered _ _ _ _ _ E i ib GI) as (RC & RD & RE). rewrite <- RC in H. rewrite <- RD, <- RE.
  cbn [batch_call]. rewrite GO, GI. unfold batch_apply, notify_on_error, notify_on_committed. rewrite (notify_hooks i _ _ _ _ _ H), L.
  set (s1 := set_bat s i (with_ops ib ops)).
  assert (G1 : get_bat s1 o = Some ob) by (unfold s1; rewrite get_set_other; eauto using get_lt).
  assert (G2 : get_bat s1 i = Some (with_ops ib ops)) by (unfold s1; eauto using get_set_same).
  assert (G3 : forall h, h <> o -> h <> i -> get_bat s1 h = get_bat s h) by (intros h _ NI; unfold s1; rewrite get_set_other; eauto using get_lt).
  destruct e as [e|]; [|destruct fail as [fe|]].
  - exists s1. do 2 eexists. exists ob, (with_ops ib ops). split; [reflexivity|]. repeat (split; [auto|]). auto.
  - exists s1. do 2 eexists. exists ob, (with_ops ib ops). split; [reflexivity|]. repeat (split; [auto|]). auto.
  - eexists. do 2 eexists. exists (with_ops ob (bt_ops ob ++ ops)), (with_ops ib ops). split; [reflexivity|]. split; [reflexivity|].
    split; [intros h A B; rewrite get_set_other; eauto using get_lt|]. split; [eauto using get_set_same|]. split; [rewrite get_set_other; eauto using get_lt|].
    repeat (split; [auto|]). auto.
Qed.

Definition id_at (s : bst) (h : nat) : option N := option_map bt_id (get_bat s h).

Lemma set_id s h b b' : get_bat s h = Some b -> bt_id b' = bt_id b -> forall h', id_at (set_bat s h b') h' = id_at s h'.
Proof.
  intros G E h'. unfold id_at. destruct (Nat.eq_dec h' h) as [->|N].
  - erewrite get_set_same by eauto. rewrite G. cbn. congruence.
  - rewrite get_set_other; eauto using get_lt.
Qed.

(** One call: the new IDs are those of the sequence. *)
Lemma call_ids s c s' t r : batch_call s c = (s', t, r) ->
  length (bs_bats s') = match c with CNew _ _ => S (length (bs_bats s)) | _ => length (bs_bats s) end /\
  match stamps (length (bs_bats s)) [c] with
  | (h, sec) :: _ => let '(last, id, _) := seq_next (bs_last s) sec in
      bs_last s' = last /\ forall h', id_at s' h' = if Nat.eqb h' h then Some id else id_at s h'
  | [] => bs_last s' = bs_last s /\ forall h', id_at s' h' = id_at s h'
  end.
Proof.
  destruct c as [rw sec|h0 ops|h0 f|h0 n|h0 n|h0 n|h0 fail|h0 fail|o i fail|h0 sec|h0 fail]; cbn [batch_call stamps]; intros E.
  - destruct (seq_next (bs_last s) sec) as [[last id] ov]. injection E as <- <- <-. cbn [bs_bats bs_last]. split; [rewrite app_length; cbn; lia|]. split; [reflexivity|].
    intros h'. unfold id_at, get_bat; cbn [bs_bats]. destruct (Nat.eqb_spec h' (length (bs_bats s))) as [->|N].
    + rewrite nth_error_app2, Nat.sub_diag by lia. reflexivity.
    + destruct (Nat.lt_ge_cases h' (length (bs_bats s))); [now rewrite nth_error_app1|].
      rewrite (proj2 (nth_error_None (bs_bats s) h')) by lia. rewrite (proj2 (nth_error_None _ h')); [reflexivity|]. rewrite app_length. cbn. lia.
  - unfold upd_bat in E. destruct (get_bat s h0) as [b|] eqn:G; [|injection E as <- <- <-; auto].
    destruct (bt_life b); injection E as <- <- <-; auto. split; [eauto using set_bat_len|]. split; [reflexivity|]. eapply set_id; eauto.
  - unfold upd_bat in E. destruct (get_bat s h0) as [b|] eqn:G; [|injection E as <- <- <-; auto].
    destruct (bt_life b); injection E as <- <- <-; (split; [eauto using set_bat_len|]; split; [reflexivity|]; eapply set_id; eauto).
  - unfold upd_bat in E. destruct (get_bat s h0) as [b|] eqn:G; [|injection E as <- <- <-; auto].
    destruct (bt_life b); injection E as <- <- <-; (split; [eauto using set_bat_len|]; split; [reflexivity|]; eapply set_id; eauto).
  - unfold upd_bat in E. destruct (get_bat s h0) as [b|] eqn:G; [|injection E as <- <- <-; auto].
    destruct (bt_life b); injection E as <- <- <-; (split; [eauto using set_bat_len|]; split; [reflexivity|]; eapply set_id; eauto).
  - unfold upd_bat in E. destruct (get_bat s h0) as [b|] eqn:G; [|injection E as <- <- <-; auto].
    destruct (bt_life b); injection E as <- <- <-; (split; [eauto using set_bat_len|]; split; [reflexivity|]; eapply set_id; eauto).
  - destruct (get_bat s h0) as [b|] eqn:G; [|injection E as <- <- <-; auto]. unfold batch_commit in E. destruct (notify_on_commit _ _ _) as [[ops t0] e].
    destruct (bt_life b), (bt_ops b), e, fail; injection E as <- <- <-; auto; (split; [unfold set_db; cbn [bs_bats]; eapply set_bat_len; exact G|]; split; [reflexivity|]; eapply (set_id s h0 b _ G); reflexivity).
  - destruct (get_bat s h0) as [b|] eqn:G; [|injection E as <- <- <-; auto]. unfold batch_commit in E. destruct (notify_on_commit _ _ _) as [[ops t0] e].
    destruct (bt_life b), (bt_ops b), e, fail; injection E as <- <- <-; auto; (split; [unfold set_db; cbn [bs_bats]; eapply set_bat_len; exact G|]; split; [reflexivity|]; eapply (set_id s h0 b _ G); reflexivity).
  - destruct (get_bat s o) as [ob|] eqn:G; [|injection E as <- <- <-; auto]. destruct (get_bat s i) as [ib|] eqn:G'; [|injection E as <- <- <-; auto].
    unfold batch_apply in E. destruct (notify_on_commit _ _ _) as [[ops t0] e]. set (s1 := set_bat s i (with_ops ib ops)) in *.
    assert (K1 : length (bs_bats s1) = length (bs_bats s)) by (unfold s1; eauto using set_bat_len).
    assert (K2 : forall h', id_at s1 h' = id_at s h') by (exact (set_id s i ib (with_ops ib ops) G' eq_refl)).
    assert (K3 : exists ob', get_bat s1 o = Some ob' /\ bt_id ob' = bt_id ob).
    { specialize (K2 o). unfold id_at in K2. rewrite G in K2. destruct (get_bat s1 o) as [ob'|]; [|discriminate]. exists ob'. split; [reflexivity|]. now injection K2. }
    destruct K3 as (ob' & G1 & E1).
    destruct e as [e|], (bt_life ob), fail as [fe|]; injection E as <- <- <-; auto.
    split; [erewrite set_bat_len; eauto|]. split; [reflexivity|]. intros h'. rewrite <- K2. apply (set_id s1 o ob' _ G1). cbn. auto.
  - destruct (seq_next (bs_last s) sec) as [[last id] ov] eqn:SN. destruct (get_bat s h0) as [b|] eqn:G.
    + injection E as <- <- <-. set (s0 := BSt (bs_db s) (bs_bats s) last). assert (G0 : get_bat s0 h0 = Some b) by exact G.
      split; [change (length (bs_bats s)) with (length (bs_bats s0)); eauto using set_bat_len|].
      replace (h0 <? length (bs_bats s)) with true by (symmetry; apply Nat.ltb_lt; eauto using get_lt). rewrite SN. split; [reflexivity|].
      intros h'. unfold id_at. destruct (Nat.eqb_spec h' h0) as [->|N].
      * erewrite get_set_same by eauto. reflexivity.
      * change (get_bat s h') with (get_bat s0 h'). rewrite get_set_other; eauto using get_lt.
    + injection E as <- <- <-. replace (h0 <? length (bs_bats s)) with false by (symmetry; apply Nat.ltb_ge, nth_error_None; exact G). auto.
  - destruct (get_bat s h0) as [b|] eqn:G; [|injection E as <- <- <-; auto]. unfold batch_close in E. destruct fail; injection E as <- <- <-; auto.
    split; [eauto using set_bat_len|]. split; [reflexivity|]. eapply (set_id s h0 b _ G); reflexivity.
Qed.

Lemma run_ids cs : forall s s' t rs, batch_run s cs = (s', t, rs) -> forall h,
  id_at s' h = id_at s h /\ ~ In h (map fst (stamps (length (bs_bats s)) cs)) \/
  exists i, last_stamp h (stamps (length (bs_bats s)) cs) i /\ id_at s' h = nth_error (batch_ids (bs_last s) (map snd (stamps (length (bs_bats s)) cs))) i.
Proof.
  induction cs as [|c cs IH]; intros s s' t rs E h; cbn [batch_run] in E.
  - injection E as <- <- <-. left. split; [reflexivity|intros []].
  - destruct (batch_call s c) as [[s1 t1] r] eqn:E1, (batch_run s1 cs) as [[s2 t2] rs2] eqn:E2. injection E as <- <- <-.
    destruct (call_ids _ _ _ _ _ E1) as (L & C). specialize (IH _ _ _ _ E2 h).
    assert (ST : stamps (length (bs_bats s)) (c :: cs) = stamps (length (bs_bats s)) [c] ++ stamps (length (bs_bats s1)) cs).
    { rewrite L. destruct c; cbn [stamps]; try reflexivity. now destruct (_ <? _). }
    rewrite ST. destruct (stamps (length (bs_bats s)) [c]) as [|[h0 sec] q] eqn:SC.
    + destruct C as [LA ID]. cbn [app]. rewrite <- LA, <- ID. exact IH.
    + assert (Q : q = []) by (destruct c; cbn [stamps] in SC; try discriminate; [|destruct (_ <? _)]; try discriminate; now injection SC). subst q.
      destruct (seq_next (bs_last s) sec) as [[last id] ov] eqn:SN. destruct C as [LA ID]. cbn [app map snd batch_ids]. rewrite SN, <- LA.
      destruct IH as [[IE NI]|(i & [LS LL] & IE)].
      * rewrite ID in IE. destruct (Nat.eqb_spec h h0) as [->|N].
        -- right. exists 0. split; [|exact IE]. split; [reflexivity|]. intros [|j] J; [lia|]. cbn [nth_error]. intros X. apply NI.
           destruct (nth_error (stamps (length (bs_bats s1)) cs) j) as [p|] eqn:NE; [|discriminate]. injection X as <-. apply in_map. eapply nth_error_In; eauto.
        -- left. split; [exact IE|]. cbn [map fst]. intros [X|X]; [congruence|contradiction].
      * right. exists (S i). split; [|exact IE]. split; [exact LS|]. intros [|j] J; [lia|]. cbn [nth_error]. apply LL. lia.
Qed.

Lemma ids_assigned db cs s t rs : batch_run (BSt db [] 0) cs = (s, t, rs) -> forall h b, get_bat s h = Some b ->
  exists i, last_stamp h (stamps 0 cs) i /\ nth_error (batch_ids 0 (map snd (stamps 0 cs))) i = Some (bt_id b).
Proof.
  intros E h b G. destruct (run_ids cs _ _ _ _ E h) as [[IE _]|(i & LS & IE)].
  - unfold id_at in IE. rewrite G in IE. unfold get_bat in IE. cbn in IE. now destruct h.
  - exists i. split; [exact LS|]. etransitivity; [symmetry; exact IE|]. unfold id_at. now rewrite G.
Qed.

(** ** The contents of a batch *)
Lemma call_contents s c s' t r h b0 : leaves h c -> get_bat s h = Some b0 -> bt_life b0 = LOpen -> batch_call s c = (s', t, r) ->
  exists b, get_bat s' h = Some b /\ bt_life b = LOpen /\ bt_id b = bt_id b0 /\ bt_ops b = bt_ops b0 ++ puts h [c] /\
    (forall ops, c = CPut h ops -> r = Ok tt).
Proof.
  intros LV G L. assert (LT := get_lt _ _ _ G).
  assert (K : forall s1, get_bat s1 h = get_bat s h -> puts h [c] = [] -> (forall ops, c <> CPut h ops) -> exists b, get_bat s1 h = Some b /\ bt_life b = LOpen /\
     bt_id b = bt_id b0 /\ bt_ops b = bt_ops b0 ++ puts h [c] /\ (forall ops, c = CPut h ops -> r = Ok tt)).
  { intros s1 E P NP. exists b0. rewrite E, P, app_nil_r. repeat split; auto. intros ops X. now destruct (NP ops). }
  assert (U : forall h' w f, (forall b, bt_life (f b) = bt_life b /\ bt_id (f b) = bt_id b) -> (h' = h -> forall b, bt_ops (f b) = bt_ops b ++ puts h [c]) -> (h' <> h -> puts h [c] = [] /\ (forall ops, c <> CPut h ops)) ->
     upd_bat s h' w f = (s', t, r) -> exists b, get_bat s' h = Some b /\ bt_life b = LOpen /\
     bt_id b = bt_id b0 /\ bt_ops b = bt_ops b0 ++ puts h [c] /\ (forall ops, c = CPut h ops -> r = Ok tt)).
  { intros h' w f FL FO FN E. unfold upd_bat in E. destruct (Nat.eq_dec h' h) as [->|N].
    - rewrite G, L in E. destruct (FL b0) as [F1 F2]. destruct w; injection E as <- <- <-; (exists (f b0); split; [eauto using get_set_same|]; split; [congruence|]; split; [congruence|]; split; auto).
    - destruct (FN N) as [P NP]. destruct (get_bat s h') as [b|] eqn:G'; [|injection E as <- <- <-; auto].
      destruct w, (bt_life b); injection E as <- <- <-; auto; apply K; auto; rewrite get_set_other; eauto using get_lt. }
  assert (P1 : forall h' ops, h' <> h -> puts h [CPut h' ops] = []).
  { intros h' ops N. unfold puts. cbn. now rewrite (proj2 (Nat.eqb_neq h' h) N). }
  destruct c as [rw sec|h' ops|h' f|h' n|h' n|h' n|h' fail|h' fail|o i fail|h' sec|h' fail]; cbn [batch_call leaves] in *; intros E.
  - destruct (seq_next (bs_last s) sec) as [[last id] ov]. injection E as <- <- <-. apply K; auto; [|discriminate]. unfold get_bat; cbn [bs_bats]. now apply nth_error_app1.
  - eapply U; [| | |exact E]; [now split| |].
    + intros ->. intros b. cbn. rewrite Nat.eqb_refl. now rewrite app_nil_r.
    + intros N. split; [auto|]. intros ops' [= X]. congruence.
  - eapply U; [| | |exact E]; [now split| |split; [auto|discriminate]]. intros _ b. cbn. now rewrite app_nil_r.
  - eapply U; [| | |exact E]; [now split| |split; [auto|discriminate]]. intros _ b. cbn. now rewrite app_nil_r.
  - eapply U; [| | |exact E]; [now split| |split; [auto|discriminate]]. intros _ b. cbn. now rewrite app_nil_r.
  - eapply U; [| | |exact E]; [now split| |split; [auto|discriminate]]. intros _ b. cbn. now rewrite app_nil_r.
  - apply K; [|reflexivity|discriminate]. destruct (get_bat s h') as [b|] eqn:G'; [|now injection E as <- <- <-]. unfold batch_commit in E. destruct (notify_on_commit _ _ _) as [[ops t0] e].
    destruct (bt_life b), (bt_ops b), e, fail; injection E as <- <- <-; auto; unfold set_db, get_bat; cbn [bs_bats]; (apply get_set_other; eauto using get_lt).
  - apply K; [|reflexivity|discriminate]. destruct (get_bat s h') as [b|] eqn:G'; [|now injection E as <- <- <-]. unfold batch_commit in E. destruct (notify_on_commit _ _ _) as [[ops t0] e].
    destruct (bt_life b), (bt_ops b), e, fail; injection E as <- <- <-; auto; unfold set_db, get_bat; cbn [bs_bats]; (apply get_set_other; eauto using get_lt).
  - destruct LV as [NO NI]. apply K; [|reflexivity|discriminate]. destruct (get_bat s o) as [ob|] eqn:G1; [|now injection E as <- <- <-]. destruct (get_bat s i) as [ib|] eqn:G2; [|now injection E as <- <- <-].
    unfold batch_apply in E. destruct (notify_on_commit _ _ _) as [[ops t0] e]. set (s1 := set_bat s i (with_ops ib ops)) in *.
    assert (K1 : get_bat s1 h = get_bat s h) by (unfold s1; rewrite get_set_other; eauto using get_lt).
    assert (K2 : o < length (bs_bats s1)) by (unfold s1; erewrite set_bat_len; eauto using get_lt).
    destruct e as [e|], (bt_life ob), fail as [fe|]; injection E as <- <- <-; auto. rewrite <- K1. apply get_set_other; auto.
  - apply K; [|reflexivity|discriminate]. destruct (seq_next (bs_last s) sec) as [[last id] ov]. destruct (get_bat s h') as [b|] eqn:G'; injection E as <- <- <-; auto.
    set (s0 := BSt (bs_db s) (bs_bats s) last). change (get_bat s h) with (get_bat s0 h). apply get_set_other; auto. change (h' < length (bs_bats s)). eauto using get_lt.
  - apply K; [|reflexivity|discriminate]. destruct (get_bat s h') as [b|] eqn:G'; [|now injection E as <- <- <-]. unfold batch_close in E. destruct fail; injection E as <- <- <-; auto.
    apply get_set_other; eauto using get_lt.
Qed.

Lemma run_contents cs : forall s s' t rs h b0, Forall (leaves h) cs -> get_bat s h = Some b0 -> bt_life b0 = LOpen -> batch_run s cs = (s', t, rs) ->
  exists b, get_bat s' h = Some b /\ bt_life b = LOpen /\ bt_id b = bt_id b0 /\ bt_ops b = bt_ops b0 ++ puts h cs /\
    (forall i ops, nth_error cs i = Some (CPut h ops) -> nth_error rs i = Some (Ok tt)).
Proof.
  induction cs as [|c cs IH]; intros s s' t rs h b0 LV G L E; cbn [batch_run] in E.
  - injection E as <- <- <-. exists b0. unfold puts. cbn. rewrite app_nil_r. repeat split; auto. intros [|i] ops; discriminate.
  - destruct (batch_call s c) as [[s1 t1] r] eqn:E1, (batch_run s1 cs) as [[s2 t2] rs2] eqn:E2. injection E as <- <- <-. inversion LV as [|? ? LC LR]; subst.
    destruct (call_contents _ _ _ _ _ _ _ LC G L E1) as (b1 & G1 & L1 & I1 & O1 & R1).
    destruct (IH _ _ _ _ _ _ LR G1 L1 E2) as (b & G2 & L2 & I2 & O2 & R2).
    exists b. split; [exact G2|]. split; [exact L2|]. split; [congruence|]. split.
    + rewrite O2, O1, <- app_assoc. f_equal. unfold puts. cbn. now rewrite app_nil_r.
    + intros [|i] ops N; cbn in *; [|eauto]. injection N as ->. f_equal. eauto.
Qed.
