(** Properties C49, C52, C53, C54: pools, serializers, conditions, SyncBatch. *)

From Coq Require Import List Bool Arith NArith ZArith Lia Permutation.
From Verif.Model Require Import Bytes Go Pool Serial Cond Sync.
From Verif.Spec Require Import SerialSpec CondSpec SyncSpec.
From Verif.Proofs Require Import PoolFacts SerialFacts CondFacts SyncFacts.
Import ListNotations.

(** C49. After any history of Get, Put of held buffers, opening and closing (also repeatedly) of index iterators, and garbage
    collections: no buffer is held twice, whether by callers or iterators; the next buffer handed out is held by
    nobody; and the preallocated list stays within its size. *)
Theorem C49_one_owner : forall size os, let s := pool_run (PSt (new_pool size) [] []) os in
  NoDup (ps_out s ++ concat (ps_iters s)).
Proof. exact one_owner. Qed.
Print Assumptions C49_one_owner.

Theorem C49_get_is_free : forall size os pick, let s := pool_run (PSt (new_pool size) [] []) os in
  let x := fst (pool_get pick (ps_pool s)) in ~ In x (ps_out s) /\ ~ In x (concat (ps_iters s)).
Proof. exact get_is_free. Qed.
Print Assumptions C49_get_is_free.

Theorem C49_iterator_buffers : forall size os n picks, let s := pool_run (PSt (new_pool size) [] []) os in
  let l := fst (pool_gets (2 * n) picks (ps_pool s)) in
  NoDup l /\ length l = 2 * n /\ forall x, In x l -> ~ In x (ps_out s) /\ ~ In x (concat (ps_iters s)).
Proof. exact iter_get_is_free. Qed.
Print Assumptions C49_iterator_buffers.

Theorem C49_size : forall size os, let s := pool_run (PSt (new_pool size) [] []) os in length (p_items (ps_pool s)) <= size.
Proof. exact size_bound. Qed.
Print Assumptions C49_size.

(** C49. Closing an iterator a second time puts nothing back. *)
Theorem C49_close_again : forall s h, h < length (ps_iters s) ->
  pool_step (pool_step s (OClose h)) (OClose h) = pool_step s (OClose h).
Proof. exact close_again. Qed.
Print Assumptions C49_close_again.

Example C49_case :
  let s := pool_run (PSt (new_pool 2) [] []) [OGet 0; OIter 1 []; OClose 0; OClose 0; OGet 0; OPut 1; OGet 0; OGet 0] in
  ps_out s = [0; 1; 2] /\ ps_iters s = [[]] /\ p_items (ps_pool s) = [].
Proof. vm_compute. auto. Qed.

(** The discipline is necessary: a buffer put back twice is handed out twice. *)
Theorem C49_double_put_shares : exists p0 x, pool_get 0 (new_pool 1) = (x, p0) /\
  let p := pool_put x (pool_put x p0) in fst (pool_get 0 p) = x /\ fst (pool_get 0 (snd (pool_get 0 p))) = x.
Proof. exact double_put. Qed.
Print Assumptions C49_double_put_shares.

(** C52 is false as stated: a released buffer is reused with its old content in front. *)
Theorem C52_reused_buffer_refuted : forall (V : Type) (enc : V -> option bytes) k v w e1 e2,
  k = KMsgpack true true \/ k = KMsgpackGen true -> enc v = Some e1 -> enc w = Some e2 ->
  snd (ser_run enc k (SerSt [] []) [SerCloseable v 0; SerClose 0; SerCloseable w 0]) = [Ok e1; Ok []; Ok (e1 ++ e2)].
Proof. exact @reuse. Qed.
Print Assumptions C52_reused_buffer_refuted.

(** C52. What any call of any history returns: encodings of values serialized before it, then
    that of its own value. *)
Theorem C52_leftovers_partial : forall (V : Type) (enc : V -> option bytes) k cs i c r,
  nth_error cs i = Some c -> nth_error (snd (ser_run enc k (SerSt [] []) cs)) i = Some r ->
  match c with
  | SerPlain v _ | SerCloseable v _ =>
      match enc v with
      | Some e => exists b, (exists us es, incl us (serialized (firstn i cs)) /\ Forall2 (fun v e => enc v = Some e) us es /\ b = concat es) /\ r = Ok (b ++ e)
      | None => r = Err EOther
      end
  | SerClose _ => r = Ok []
  end.
Proof. exact @leftovers. Qed.
Print Assumptions C52_leftovers_partial.

(** C52. Exactly the value's encoding, for histories that never release a buffer, and for serializers without
    a buffer pool. *)
Theorem C52_unreleased_partial : forall (V : Type) (enc : V -> option bytes) k cs, never_released cs ->
  Forall2 (expected enc) cs (snd (ser_run enc k (SerSt [] []) cs)).
Proof. exact @unreleased. Qed.
Print Assumptions C52_unreleased_partial.

Theorem C52_no_pool_partial : forall (V : Type) (enc : V -> option bytes) k cs, no_buffers k ->
  Forall2 (expected enc) cs (snd (ser_run enc k (SerSt [] []) cs)).
Proof. exact @no_pool. Qed.
Print Assumptions C52_no_pool_partial.

Example C52_case :
  let enc := fun b : byte => if Byte.eqb b x00 then None else Some [x81; b] in
  snd (ser_run enc (KMsgpack true true) (SerSt [] []) [SerCloseable x01 0; SerPlain x02 0; SerCloseable x00 0; SerClose 0; SerPlain x03 0; SerPlain x04 0]) =
    [Ok [x81; x01]; Ok [x81; x02]; Err EOther; Ok []; Ok [x81; x01; x81; x03]; Ok [x81; x04]] /\
  snd (ser_run enc (KMsgpackGen false) (SerSt [] []) [SerCloseable x01 0; SerClose 0; SerCloseable x03 0]) = [Ok [x81; x01]; Ok []; Ok [x81; x03]].
Proof. split; vm_compute; reflexivity. Qed.

(** C53. Eval returns, for every condition without nil members and every record, whether the
    record satisfies the condition, where And means all and Or means some. *)
Theorem C53_eval : forall (R : Type) (c : cond R) r, whole c ->
  (eval c r = Ok true <-> holds c r) /\ (eval c r = Ok false <-> ~ holds c r).
Proof. exact @eval_holds. Qed.
Print Assumptions C53_eval.

Theorem C53_total : forall (R : Type) (c : cond R) r, whole c -> exists b, eval c r = Ok b /\ (b = true <-> holds c r).
Proof. exact @eval_total. Qed.
Print Assumptions C53_total.

Theorem C53_and : forall (R : Type) (l : list (option (cond R))) r,
  holds (CdAnd l) r <-> (forall o, In o l -> exists c, o = Some c /\ holds c r).
Proof. exact @holds_and. Qed.
Print Assumptions C53_and.

Theorem C53_or : forall (R : Type) (l : list (option (cond R))) r,
  holds (CdOr l) r <-> (exists c, In (Some c) l /\ holds c r).
Proof. exact @holds_or. Qed.
Print Assumptions C53_or.

Theorem C53_de_morgan : forall (R : Type) (l : list (cond R)) r, (forall c, In c l -> whole c) ->
  eval (CdNot (Some (CdAnd (map Some l)))) r = eval (CdOr (map (fun c => Some (CdNot (Some c))) l)) r.
Proof. exact @de_morgan. Qed.
Print Assumptions C53_de_morgan.

(** C53. A nil member panics if the members before it all hold; behind one that does not hold it is never reached. *)
Theorem C53_nil_reached : forall (R : Type) (l1 : list (cond R)) l2 r, (forall c, In c l1 -> eval c r = Ok true) ->
  eval (CdAnd (map Some l1 ++ None :: l2)) r = Panic.
Proof. exact @nil_reached. Qed.
Print Assumptions C53_nil_reached.

Theorem C53_nil_skipped : forall (R : Type) (l1 : list (cond R)) c l2 r, (forall c, In c l1 -> eval c r = Ok true) -> eval c r = Ok false ->
  eval (CdAnd (map Some l1 ++ Some c :: l2)) r = Ok false.
Proof. exact @nil_skipped. Qed.
Print Assumptions C53_nil_skipped.

(** C53. With nil members anywhere: every condition comes to one answer or to a panic, and Eval gives it. *)
Theorem C53_eval_any : forall (R : Type) (c : cond R) r, exists v, answers r (Some c) v /\
  (forall v', answers r (Some c) v' -> v' = v) /\ eval c r = match v with Some b => Ok b | None => Panic end.
Proof. exact @eval_answers. Qed.
Print Assumptions C53_eval_any.

Example C53_case :
  let gt n := CdGt (fun a b => Some (N.compare a b)) (fun r : N * bool => fst r) n in
  let lte n := CdLte (fun a b => Some (N.compare a b)) (fun r : N * bool => fst r) n in
  let c := CdAnd [Some (gt 2%N); Some (CdOr [Some (lte 5%N); Some (CdEq Bool.eqb snd true); Some (CdAnd [])]); Some (CdNot (Some (CdOr [])))] in
  whole c /\ eval c (3%N, false) = Ok true /\ eval c (2%N, true) = Ok false /\
  eval (CdOr [Some (gt 9%N); Some (lte 2%N)]) (2%N, true) = Ok true /\ eval (CdAnd [Some (gt 2%N); None]) (3%N, true) = Panic /\
  eval (CdAnd [Some (gt 2%N); None]) (2%N, true) = Ok false /\
  eval (CdNot None) (2%N, true) = Panic /\ eval (CdOr [Some (gt 2%N); Some (CdNot None)]) (3%N, true) = Ok true /\
  eval (CdOr [Some (gt 2%N); Some (CdNot None)]) (2%N, true) = Panic.
Proof. cbn. intuition. Qed.

(** C54. At every moment of every schedule at most one function is running ... *)
Theorem C54_mutual_exclusion : forall (A : Type) (fs : list (sfun A)) sched g h,
  let s := sync_run (sync_start fs) sched in inside s g -> inside s h -> g = h.
Proof. exact @exclusion. Qed.
Print Assumptions C54_mutual_exclusion.

(** C54. ... and what was done on the batch are the whole action lists of the functions that have returned, one after
    another, each once, then a part of those of one that has not; each WithSync returned its function's result. *)
Theorem C54_whole_blocks : forall (A : Type) (fs : list (sfun A)) sched, let s := sync_run (sync_start fs) sched in
  exists o tail, NoDup o /\ (forall g, In g o <-> returned s g) /\
    sy_log s = concat (map (block fs) o) ++ tail /\
    (tail = [] \/ exists h rest, ~ In h o /\ block fs h = tail ++ rest) /\
    (forall g r, nth_error (sy_gs s) g = Some (GRet r) -> exists f, nth_error fs g = Some f /\ sf_result f = Some r).
Proof. exact @one_at_a_time. Qed.
Print Assumptions C54_whole_blocks.

(** C54. If the functions return and do not use their SyncBatch, then under every fair schedule all calls return, and the batch
    got all blocks in some order. Missing: functions that panic or use their own SyncBatch (refuted below). *)
Theorem C54_all_return_partial : forall (A : Type) (fs : list (sfun A)) sched,
  (forall f, In f fs -> behaves f) -> fair (length fs) (work fs) sched ->
  let s := sync_run (sync_start fs) sched in
  exists o, Permutation o (seq 0 (length fs)) /\ sy_log s = concat (map (block fs) o) /\
    forall g f, nth_error fs g = Some f -> exists r, sf_result f = Some r /\ nth_error (sy_gs s) g = Some (GRet r).
Proof. exact @all_return. Qed.
Print Assumptions C54_all_return_partial.

(** C54 is false as stated: once a function has panicked, or calls WithSync itself, nobody ever moves again. *)
Theorem C54_blocked_forever_refuted : forall (A : Type) (fs : list (sfun A)) sched h, let s := sync_run (sync_start fs) sched in
  (nth_error (sy_gs s) h = Some GPanic \/ exists l r, nth_error (sy_gs s) h = Some (GIn (ASync :: l) r)) ->
  forall more, sync_run (sync_start fs) (sched ++ more) = s.
Proof. exact @panic_blocks. Qed.
Print Assumptions C54_blocked_forever_refuted.

Example C54_case :
  let fs := [SFun [ADo 1; ADo 2] (Some (Ok tt)); SFun [ADo 3] (Some (Err EOther)); SFun [ADo 4; ADo 5] (Some (Ok tt))] in
  (forall f, In f fs -> behaves f) /\ work fs = 11 /\
  fair 3 11 (concat (repeat [1; 0; 2] 11)) /\
  sy_log (sync_run (sync_start fs) (concat (repeat [1; 0; 2] 11))) = [(1, 3); (0, 1); (0, 2); (2, 4); (2, 5)] /\
  (let s := sync_run (sync_start [SFun [ADo 1] None; SFun [ADo 2] (Some (Ok tt))]) [0; 1; 0; 1; 0; 1; 1] in
   nth_error (sy_gs s) 0 = Some GPanic /\ waiting s 1).
Proof.
  cbn zeta. split; [|split; [reflexivity|split; [|split]]].
  - intros f [<-|[<-|[<-|[]]]]; (split; [cbn; intuition (subst; discriminate)|discriminate]).
  - exists (repeat [1; 0; 2] 11). split; [reflexivity|]. split; [reflexivity|]. intros seg I g Lg. apply repeat_spec in I as ->.
    destruct g as [|[|[|g]]]; [cbn; auto..|lia].
  - vm_compute. reflexivity.
  - split; [vm_compute; reflexivity|eexists; vm_compute; reflexivity].
Qed.
