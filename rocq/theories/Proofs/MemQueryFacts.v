(** The library's own callbacks look at the key in time. *)

From Coq Require Import List NArith Bool Arith Lia.
From Verif.Model Require Import Bytes Go Keys Pebble Index Table Scan Query Slices Mem MemScan MemQuery.
From Verif.Spec Require Import SliceSpec TableSpec MemSpec MemScanSpec.
From Verif.Proofs Require Import SliceFacts MemFacts MemCalls MemBounds MemScanFacts.
Import ListNotations.

Lemma first_any {T W} b s (p : prog (T:=T) W) q : looks_first b s p q -> looks_any_time b s p q.
Proof.
  induction 1 as [| |p k H]; try (constructor; auto; fail). constructor. intros v. destruct (H v) as (w & c & e & -> & ->). constructor.
Qed.

Lemma append_looks {T} (w : list T) b s : looks_first b s (append_cb w b) (m_append_cb w s).
Proof. apply lf_get. intros v. destruct v; eauto. Qed.

Lemma filter_looks {T W} (add : W -> bytes -> W) w b s : looks_first (T:=T) b s (PRet (add w b) true None) (m_filter_cb add w s).
Proof. apply lf_read. constructor. Qed.

Lemma query_looks {T F} (mt : mtable T F) (q : query T) w b s : looks_first b s (query_cb (mt_val mt) q w b) (m_query_cb mt q w s).
Proof.
  assert (REST : forall s0 : qst, looks_first b s
    (if match q_filter q, q_less q with None, None => (qs_count s0 <? q_offset q)%N | _, _ => false end
     then PRet (Qst (qs_records s0) (qs_count s0 + 1)%N (qs_skipped s0) (qs_after_applied s0) true (qs_limit_applied s0)) true None
     else PGet (fun v => match v with
        | Ok r => let '(s', next) := cb_record q s0 r in PRet s' next None
        | Err e => PRet s0 false (Some e)
        | _ => PRet s0 false (Some EOther) end))
    (if match q_filter q, q_less q with None, None => (qs_count s0 <? q_offset q)%N | _, _ => false end
     then MRet (Qst (qs_records s0) (qs_count s0 + 1)%N (qs_skipped s0) (qs_after_applied s0) true (qs_limit_applied s0)) true None
     else MGet (fun v => match v with
        | Ok r => let '(s', next) := cb_record q s0 r in MRet s' next None
        | Err e => MRet s0 false (Some e)
        | _ => MRet s0 false (Some EOther) end))).
  { intros s0. destruct (match q_filter q with Some _ => false | None => _ end); [constructor|]. apply lf_get. intros v.
    destruct v as [r|e| |]; eauto. destruct (cb_record q s0 r) as [s' n]. eauto. }
  unfold query_cb, m_query_cb, cb_after. destruct (q_after q) as [a|]; [|apply REST]. destruct (q_less q) as [l|]; [apply REST|].
  destruct w as [rs n [|] aa oa la]; cbn [qs_records qs_count qs_skipped qs_after_applied qs_offset_applied qs_limit_applied]; [apply (REST (Qst rs n true aa oa la))|]. apply lf_read.
  match goal with |- looks_first _ _ (if ?c then _ else _) _ => destruct c end; [constructor|apply (REST (Qst rs n true true oa la))].
Qed.

Section Calls.
  Variable grow : nat -> nat -> nat.
  Variable noise : list (heap byte) -> list slc -> heap byte -> heap byte.
  Variable foreign : list slc.
  Hypothesis LV : leaves noise foreign.
  Context {T F : Type}.
  Variable mt : mtable T F.
  Variable ev : env T.
  Variable srt : (T -> T -> bool) -> list T -> list T.
  Hypothesis IM : implements mt.
  Hypothesis EV : env_ok ev.
  Notation tb := (mt_val mt).

  (** Callbacks that look at the key first, on any index. *)
  Lemma scan_first_looker {W} (fm : W -> slc -> mprog T W) (fv : W -> bytes -> prog (T:=T) W) fuel m bufs kb mkb vals db fl idx sel rev ob s m' back k' out :
    (forall w b sl, looks_first b sl (fv w b) (fm w sl)) -> implements_index mt idx ->
    0 < t_prefetch tb -> length vals = t_prefetch tb -> length bufs = bounds_of sel -> scan_room foreign m bufs kb mkb vals ->
    m_scan_index_for_each grow noise mt ev fuel m bufs kb mkb vals db fl idx sel fm rev ob s = (m', (back, k'), out) ->
    scan_index_for_each tb ev fuel db fl idx sel fv rev ob s = out /\ returned foreign m m' (mkb :: k' :: back).
  Proof.
    intros LF II PF LVS LB B H. destruct (Byte.byte_eq_dec (ix_id idx) primary_index_id) as [E|N].
    - eapply scan_primary; eauto. intros w b sl. now apply first_any.
    - eapply scan_secondary; eauto.
  Qed.

  Lemma mem_execute_query fuel m bufs kb mkb vals db fl q ob m' back k' r :
    implements_index mt (q_index q) -> 0 < t_prefetch tb -> length vals = t_prefetch tb -> scan_room foreign m bufs kb mkb vals ->
    length bufs = match q_after q, q_less q with
                  | Some a, None => match selector_with_after tb (q_index q) a (q_sel q) with Ok s => bounds_of s | _ => 0 end
                  | _, _ => bounds_of (q_sel q)
                  end ->
    m_execute_query grow noise mt ev srt fuel m bufs kb mkb vals db fl q ob = (m', (back, k'), r) ->
    execute_query tb ev srt fuel db fl q ob = r /\ returned foreign m m' (mkb :: k' :: back).
  Proof.
    intros II PF LVS B LB H. unfold m_execute_query in H. unfold execute_query.
    set (sel := match q_after q, q_less q with Some a, None => selector_with_after tb (q_index q) a (q_sel q) | _, _ => Ok (q_sel q) end) in *.
    assert (LB' : length bufs = match sel with Ok s => bounds_of s | _ => 0 end).
    { unfold sel. destruct (q_after q); auto. destruct (q_less q); auto. }
    clear LB. assert (NONE : forall m' back k', (m', (back, k')) = (m, ([] : list slc, kb)) -> returned foreign m m' (mkb :: k' :: back)).
    { intros x y z [= -> -> ->]. apply safe_returned; [apply safe_refl|]. eapply buffers_part with (l2 := sides bufs ++ vals); [|exact B]. perm. }
    destruct sel as [sel'|e| |]; try (injection H as <- <- <- <-; split; [reflexivity|now apply NONE]).
    destruct (m_scan_index_for_each grow noise mt ev fuel m bufs kb mkb vals db fl (q_index q) sel' (m_query_cb mt q) (q_rev q) ob (Qst [] 0 false false false false))
      as [[m1 [b1 k1]] [s1 r1]] eqn:E.
    eapply (scan_first_looker (m_query_cb mt q) (query_cb tb q)) in E; auto using query_looks. destruct E as [-> R1].
    destruct r1; injection H as <- <- <- <-; auto.
  Qed.
End Calls.

(** The statements of Props/MemScan.v. *)

Lemma primary_scan : forall grow noise foreign T F (mt : mtable T F) (ev : env T) W (fm : W -> slc -> mprog T W) fv
    fuel m bufs kb mkb vals db fl idx sel rev ob s m' back k' out,
  leaves noise foreign -> implements mt -> env_ok ev -> (forall w b sl, looks_any_time b sl (fv w b) (fm w sl)) ->
  implements_index mt idx -> ix_id idx = primary_index_id -> length bufs = bounds_of sel -> scan_room foreign m bufs kb mkb vals ->
  m_scan_index_for_each grow noise mt ev fuel m bufs kb mkb vals db fl idx sel fm rev ob s = (m', (back, k'), out) ->
  scan_index_for_each (mt_val mt) ev fuel db fl idx sel fv rev ob s = out /\ returned foreign m m' (mkb :: k' :: back).
Proof. intros until out. intros LV IM EV LF II E LB B H. eapply scan_primary; eauto. Qed.

Lemma first_scan : forall grow noise foreign T F (mt : mtable T F) (ev : env T) W (fm : W -> slc -> mprog T W) fv
    fuel m bufs kb mkb vals db fl idx sel rev ob s m' back k' out,
  leaves noise foreign -> implements mt -> env_ok ev -> (forall w b sl, looks_first b sl (fv w b) (fm w sl)) ->
  implements_index mt idx -> 0 < t_prefetch (mt_val mt) -> length vals = t_prefetch (mt_val mt) ->
  length bufs = bounds_of sel -> scan_room foreign m bufs kb mkb vals ->
  m_scan_index_for_each grow noise mt ev fuel m bufs kb mkb vals db fl idx sel fm rev ob s = (m', (back, k'), out) ->
  scan_index_for_each (mt_val mt) ev fuel db fl idx sel fv rev ob s = out /\ returned foreign m m' (mkb :: k' :: back).
Proof. intros until out. intros LV IM EV LF II PF LVS LB B H. eapply scan_first_looker; eauto. Qed.

Lemma append_scan : forall grow noise foreign T F (mt : mtable T F) (ev : env T)
    fuel m bufs kb mkb vals db fl idx sel acc rev ob m' back k' out,
  leaves noise foreign -> implements mt -> env_ok ev -> implements_index mt idx -> 0 < t_prefetch (mt_val mt) -> length vals = t_prefetch (mt_val mt) ->
  length bufs = bounds_of sel -> scan_room foreign m bufs kb mkb vals ->
  m_scan_index grow noise mt ev fuel m bufs kb mkb vals db fl idx sel acc rev ob = (m', (back, k'), out) ->
  scan_index (mt_val mt) ev fuel db fl idx sel acc rev ob = out /\ returned foreign m m' (mkb :: k' :: back).
Proof. intros until out. intros LV IM EV II PF LVS LB B H. unfold scan_index. eapply first_scan; eauto using append_looks. Qed.

Lemma filter_scan : forall grow noise foreign T F (mt : mtable T F) (ev : env T) W (add : W -> bytes -> W)
    fuel m bufs kb mkb vals db fl idx sel rev ob s m' back k' out,
  leaves noise foreign -> implements mt -> env_ok ev -> implements_index mt idx -> 0 < t_prefetch (mt_val mt) -> length vals = t_prefetch (mt_val mt) ->
  length bufs = bounds_of sel -> scan_room foreign m bufs kb mkb vals ->
  m_scan_index_for_each grow noise mt ev fuel m bufs kb mkb vals db fl idx sel (m_filter_cb add) rev ob s = (m', (back, k'), out) ->
  scan_index_for_each (mt_val mt) ev fuel db fl idx sel (fun w b => PRet (add w b) true None) rev ob s = out /\ returned foreign m m' (mkb :: k' :: back).
Proof. intros until out. intros LV IM EV II PF LVS LB B H. eapply first_scan; eauto. intros w b sl. apply filter_looks. Qed.

Lemma query_scan : forall grow noise foreign T F (mt : mtable T F) (ev : env T) srt
    fuel m bufs kb mkb vals db fl q ob m' back k' r,
  leaves noise foreign -> implements mt -> env_ok ev -> implements_index mt (q_index q) ->
  0 < t_prefetch (mt_val mt) -> length vals = t_prefetch (mt_val mt) -> scan_room foreign m bufs kb mkb vals ->
  length bufs = match q_after q, q_less q with
                | Some a, None => match selector_with_after (mt_val mt) (q_index q) a (q_sel q) with Ok s => bounds_of s | _ => 0 end
                | _, _ => bounds_of (q_sel q)
                end ->
  m_execute_query grow noise mt ev srt fuel m bufs kb mkb vals db fl q ob = (m', (back, k'), r) ->
  execute_query (mt_val mt) ev srt fuel db fl q ob = r /\ returned foreign m m' (mkb :: k' :: back).
Proof. intros until r. intros LV IM EV II PF LVS B LB H. eapply mem_execute_query; eauto. Qed.
