(** Facts about the pooled serializers. *)

From Coq Require Import List Bool Arith Lia.
From Verif.Model Require Import Bytes Go Serial.
From Verif.Spec Require Import SerialSpec.
Import ListNotations.

Section S.
  Context {V : Type}.
  Variable enc : V -> option bytes.

  Lemma empty_pool_get buffer pick s : ser_pool s = [] -> get_buffer buffer pick s = ([], s).
  Proof. unfold get_buffer. intros ->. destruct buffer; auto. now destruct pick. Qed.

  Lemma step_empty k s c : ser_pool s = [] -> (no_buffers k \/ match c with SerClose _ => False | _ => True end) ->
    ser_pool (fst (ser_step enc k s c)) = [] /\ expected enc c (snd (ser_step enc k s c)).
  Proof.
    intros E H. destruct c as [v pick|v pick|h]; cbn [ser_step expected].
    - unfold ser_plain.
      destruct k as [[] buffer|buffer]; [rewrite empty_pool_get by auto|..]; destruct (enc v); auto.
    - unfold ser_pooled. destruct k as [[] buffer|buffer]; [rewrite empty_pool_get by auto| |rewrite empty_pool_get by auto]; destruct (enc v); auto.
    - destruct H as [H|[]]. destruct (nth_error (ser_closers s) h); auto. cbn [fst snd]. split; auto.
      destruct k as [e0 b0|b0]; cbn in H; subst; exact E.
  Qed.

  Lemma run_empty k cs : (no_buffers k \/ never_released cs) -> forall s, ser_pool s = [] ->
    Forall2 (expected enc) cs (snd (ser_run enc k s cs)).
  Proof.
    induction cs as [|c cs IH]; intros H s E; cbn [ser_run]; [constructor|].
    assert (H1 : no_buffers k \/ match c with SerClose _ => False | _ => True end).
    { destruct H as [H|H]; auto. right. apply H. cbn; auto. }
    assert (H2 : no_buffers k \/ never_released cs).
    { destruct H as [H|H]; auto. right. intros x I. apply H. cbn; auto. }
    destruct (step_empty k s c E H1) as [E1 X1]. destruct (ser_step enc k s c) as [s1 r]. cbn [fst snd] in *.
    specialize (IH H2 s1 E1). destruct (ser_run enc k s1 cs) as [s2 rs]. cbn [snd] in *. constructor; auto.
  Qed.

  Lemma no_pool k cs : no_buffers k -> Forall2 (expected enc) cs (snd (ser_run enc k (SerSt [] []) cs)).
  Proof. intros H. apply run_empty; auto. Qed.

  Lemma unreleased k cs : never_released cs -> Forall2 (expected enc) cs (snd (ser_run enc k (SerSt [] []) cs)).
  Proof. intros H. apply run_empty; auto. Qed.

  (** Everything in the pools is a concatenation of encodings. *)
  Definition stale (vs : list V) (b : bytes) : Prop :=
    exists us es, incl us vs /\ Forall2 (fun v e => enc v = Some e) us es /\ b = concat es.

  Lemma stale_nil vs : stale vs [].
  Proof. exists [], []. repeat split; auto using incl_nil_l. Qed.

  Lemma stale_mono vs vs' b : incl vs vs' -> stale vs b -> stale vs' b.
  Proof. intros I (us & es & U & F & ->). exists us, es. repeat split; auto. now apply (incl_tran U). Qed.

  Lemma stale_app vs v e b : stale vs b -> enc v = Some e -> stale (vs ++ [v]) (b ++ e).
  Proof.
    intros (us & es & U & F & ->) E. exists (us ++ [v]), (es ++ [e]). repeat split.
    - apply incl_app; [now apply incl_appl|apply incl_appr, incl_refl].
    - apply Forall2_app; auto.
    - rewrite concat_app; cbn. now rewrite app_nil_r.
  Qed.

  Definition all_stale (vs : list V) (s : ser_st) : Prop :=
    (forall b, In b (ser_pool s) -> stale vs b) /\ (forall b, In b (ser_closers s) -> stale vs b).

  Lemma get_stale vs buffer pick s b s' : all_stale vs s -> get_buffer buffer pick s = (b, s') -> stale vs b /\ all_stale vs s'.
  Proof.
    intros [P C] E. unfold get_buffer in E. destruct buffer; [|injection E as <- <-; split; [apply stale_nil|split; auto]].
    destruct (nth_error (ser_pool s) pick) as [x|] eqn:N; [|injection E as <- <-; split; [apply stale_nil|split; auto]].
    injection E as <- <-. split; [apply P; now apply nth_error_In in N|]. split; auto. cbn [ser_pool].
    intros b I. apply P. apply in_app_or in I. destruct I as [I|I].
    - rewrite <- (firstn_skipn pick (ser_pool s)). apply in_or_app; auto.
    - rewrite <- (firstn_skipn (S pick) (ser_pool s)). apply in_or_app; auto.
  Qed.

  (** What a call returns: left-over encodings of earlier values, then the value's own. *)
  Definition dirty (vs : list V) (c : ser_call V) (r : res bytes) : Prop :=
    match c with
    | SerPlain v _ | SerCloseable v _ =>
        match enc v with Some e => exists b, stale vs b /\ r = Ok (b ++ e) | None => r = Err EOther end
    | SerClose _ => r = Ok []
    end.

  Lemma all_mono vs vs' s : incl vs vs' -> all_stale vs s -> all_stale vs' s.
  Proof. intros I [P C]. split; intros b J; [apply P in J|apply C in J]; now apply (stale_mono vs). Qed.

  Lemma step_stale vs k s c : all_stale vs s ->
    all_stale (vs ++ serialized [c]) (fst (ser_step enc k s c)) /\ dirty vs c (snd (ser_step enc k s c)).
  Proof.
    intros A.
    assert (M : forall v, all_stale (vs ++ [v]) s) by (intros v; now apply (all_mono vs); [apply incl_appl, incl_refl|]).
    destruct c as [v pick|v pick|h]; cbn [ser_step serialized dirty].
    - unfold ser_plain. destruct k as [[] buffer|buffer].
      + destruct (get_buffer buffer pick s) as [b s'] eqn:G. destruct (get_stale _ _ _ _ _ _ A G) as [B A'].
        destruct (enc v) as [e|]; cbn [fst snd]; (split; [apply (all_mono vs); auto; apply incl_appl, incl_refl|]); eauto.
      + destruct (enc v) as [e|]; cbn [fst snd]; split; auto. exists []. split; auto using stale_nil.
      + destruct (enc v) as [e|]; cbn [fst snd]; split; auto. exists []. split; auto using stale_nil.
    - assert (K : forall buffer, all_stale (vs ++ [v]) (fst (ser_pooled enc buffer v pick s)) /\ dirty vs (SerCloseable v pick) (snd (ser_pooled enc buffer v pick s))).
      { intros buffer. unfold ser_pooled. destruct (get_buffer buffer pick s) as [b s'] eqn:G. destruct (get_stale _ _ _ _ _ _ A G) as [B A'].
        cbn [dirty]. destruct (enc v) as [e|] eqn:E; cbn [fst snd].
        - destruct A' as [P C]. split; [|eauto]. split; cbn [ser_pool ser_closers].
          + intros x I. apply (stale_mono vs); auto. apply incl_appl, incl_refl.
          + intros x I. apply in_app_or in I. destruct I as [I|[<-|[]]].
            * apply (stale_mono vs); auto. apply incl_appl, incl_refl.
            * now apply stale_app.
        - split; auto. apply (all_mono vs); auto. apply incl_appl, incl_refl. }
      destruct k as [[] buffer|buffer]; [apply (K buffer)| |apply (K buffer)].
      destruct (enc v) as [e|]; cbn [fst snd]; split; auto. exists []. split; auto using stale_nil.
    - rewrite app_nil_r. destruct (nth_error (ser_closers s) h) as [b|] eqn:N; cbn [fst snd]; auto. split; auto.
      apply nth_error_In in N. destruct A as [P C]. unfold free_buffer. destruct k as [? []|[]]; split; auto; cbn [ser_pool];
        intros x I; apply in_app_or in I; destruct I as [I|[<-|[]]]; auto.
  Qed.

  Lemma run_stale k cs : forall vs s, all_stale vs s -> forall i c r, nth_error cs i = Some c ->
    nth_error (snd (ser_run enc k s cs)) i = Some r -> dirty (vs ++ serialized (firstn i cs)) c r.
  Proof.
    induction cs as [|c0 cs IH]; intros vs s A i c r E1 E2; [destruct i; discriminate|].
    cbn [ser_run] in E2. destruct (step_stale vs k s c0 A) as [A1 D1]. destruct (ser_step enc k s c0) as [s1 r0]. cbn [fst snd] in *.
    specialize (IH _ _ A1). destruct (ser_run enc k s1 cs) as [s2 rs]. cbn [snd] in *. destruct i as [|i]; cbn in E1, E2.
    - injection E1 as <-. injection E2 as <-. cbn. now rewrite app_nil_r.
    - specialize (IH i c r E1 E2). rewrite <- app_assoc in IH.
      replace (serialized (firstn (S i) (c0 :: cs))) with (serialized [c0] ++ serialized (firstn i cs)); auto.
      cbn [firstn]. destruct c0; reflexivity.
  Qed.

  Lemma leftovers k cs i c r : nth_error cs i = Some c -> nth_error (snd (ser_run enc k (SerSt [] []) cs)) i = Some r ->
    dirty (serialized (firstn i cs)) c r.
  Proof. apply (run_stale k cs [] (SerSt [] [])). split; intros b []. Qed.

  Lemma reuse k v w e1 e2 : k = KMsgpack true true \/ k = KMsgpackGen true -> enc v = Some e1 -> enc w = Some e2 ->
    snd (ser_run enc k (SerSt [] []) [SerCloseable v 0; SerClose 0; SerCloseable w 0]) = [Ok e1; Ok []; Ok (e1 ++ e2)].
  Proof. intros [->| ->] E1 E2; cbn; rewrite E1; cbn; rewrite E2; reflexivity. Qed.
End S.
