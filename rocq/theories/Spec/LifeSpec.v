(** A database over its whole life: opened, used, closed or killed, migrated, and opened again. *)

From Coq Require Import List NArith ZArith Bool Arith.
From Verif.Model Require Import Bytes Go Keys Pebble Index Table Scan Query ReIndex Backup Version.
From Verif.Spec Require Import KeySpec StoreSpec TableSpec HistSpec ScanSpec QuerySpec VersionSpec SystemSpec.
Import ListNotations.

Section Life.
  Context {I : Type} (eq_dec : forall i j : I, {i = j} + {i <> j}) (Ty Fl : I -> Type).
  Notation op := (op Ty).
  Notation reply := (reply Ty).
  Notation sys := (sys Ty Fl).
  Notation world := (world Ty Fl).
  Notation content := (content Ty).

  (** ** What happens to it *)

  (** An AddIndex with reindexing that the end of the process interrupts, at the first write that fails in its environment. *)
  Record adding := Adding { ad_tab : I; ad_env : renv; ad_idxs : list (index (Ty ad_tab)) }.

  (** How a process ends: it calls Close, the callbacks given to OnClose making these calls; or it is killed (or the machine stops), the effects of the last [lost] calls not having
      reached the disk, perhaps in the middle of an AddIndex. *)
  Inductive ending := EClose (callbacks : list (list op)) | EKill (lost : nat) (busy : option adding).

  (** Open with format version [v] that is interrupted after [n] steps; Open with [v], tables as declared, calls with the flag that asks pebble to sync, and an ending;
      MigratePebbleFormatVersion to [v], complete or interrupted after [n] steps. *)
  Inductive session :=
  | SStop (v : N) (n : nat)
  | SRun (v : N) (tb : forall i, table (Ty i) (Fl i)) (init : forall i, kv -> Fl i) (ops : list (op * bool)) (e : ending)
  | SMigrate (v : N) (n : option nat).

  (** ** Running it *)

  Variable peb : option N -> N -> option N.
  Variable fuel : nat.

  Notation run_op := (run_op eq_dec Ty Fl fuel).
  Notation run_ops := (run_ops eq_dec Ty Fl fuel).

  (** The state after the calls; see [run_op] for the code they are in, /repo/table.go:248-789, /repo/bond.go:242-297, /repo/batch.go:134-163. *)
  Definition run_state (s : sys) (l : list op) : sys := fold_left (fun s o => fst (run_op s o)) l s.

  (** What the disk holds when a process was killed: see [re_index] for /repo/table.go:265-336 and [renv] for the crash. *)
  Definition killed (s : sys) (busy : option adding) : kv :=
    match busy with
    | None => y_db Ty Fl s
    | Some a => let tb := y_tb Ty Fl s (ad_tab a) in
                snd (fst (add_index_call (ad_env a) tb (IxState (t_indexes tb) false) (y_db Ty Fl s) (ad_idxs a) true))
    end.

  (** notifyOnClose, /repo/bond.go:309-322: the callbacks one after the other in the order of OnClose, before pebble is closed; a batch that is still open is gone. *)
  Definition close_ops (callbacks : list (list op)) : list op := concat callbacks.

  (** The disk afterwards, and if Open (/repo/bond.go:138-232) succeeded the calls with their answers; MigratePebbleFormatVersion, /repo/bond.go:584-608.
      Simplified: what pebble.Close does to the store cannot be seen by the next process; calls made after Close are not modelled. *)
  Definition run_session (d : disk) (se : session) : disk * option (list (op * reply)) :=
    match se with
    | SStop v n => (nth n (fst (open_db peb d v)) d, None)
    | SMigrate v n => (match n with Some n => nth n (fst (migrate peb d v)) d | None => after d (migrate peb d v) end, None)
    | SRun v tb init ops e =>
        let d1 := after d (open_db peb d v) in
        match snd (open_db peb d v) with
        | Ok _ =>
            let s := Sys Ty Fl (d_kv d1) tb (fun i => init i (d_kv d1)) None in
            match e with
            | EClose cbs => let l := map fst ops ++ close_ops cbs in (set_kv d1 (y_db Ty Fl (run_state s l)), Some (run_ops s l))
            | EKill lost busy =>
                (set_kv d1 (killed (run_state s (firstn (length ops - lost) (map fst ops))) busy), Some (run_ops s (map fst ops)))
            end
        | _ => (d1, None)
        end
    end.

  (** One process after the other on the same directory, /repo/bond.go:138-322. *)
  Fixpoint run_life (d : disk) (l : list session) : list (session * option (list (op * reply))) :=
    match l with
    | [] => []
    | se :: l' => let '(d', x) := run_session d se in (se, x) :: run_life d' l'
    end.

  (** ** What it should be *)

  (** The calls whose effect is on the disk when they return: pebble syncs what was written before, too. *)
  Definition synced (o : op) (flag : bool) : bool :=
    match o with
    | OWrite _ false _ _ _ | OAddIndex _ _ _ _ => true
    | OSet _ false _ _ | ODelete _ false _ | OCommit _ _ => flag
    | _ => false
    end.

  (** The ways to be killed: no call that was synced is lost, and AddIndex syncs. *)
  Definition can_end (ops : list (op * bool)) (e : ending) : Prop :=
    match e with
    | EClose _ => True
    | EKill lost busy => (forall o f, In (o, f) (skipn (length ops - lost) ops) -> synced o f = false) /\ (busy <> None -> lost = 0)
    end.

  (** An AddIndex that is interrupted is one the claims are about (C72), but for its failing writes; no batch is open. *)
  Definition busy_proper (w : world) (e : ending) : Prop :=
    match e with
    | EKill _ (Some a) => lawful (with_indexes (w_tb Ty Fl w (ad_tab a)) (t_indexes (w_tb Ty Fl w (ad_tab a)) ++ ad_idxs a))
    | _ => True
    end.

  (** The program declares the tables with the indexes they have, or some of them, in any order, and starts with a filter that covers the rows. *)
  Definition declared (tb0 tb : forall i, table (Ty i) (Fl i)) (init : forall i, kv -> Fl i) : Prop :=
    (forall i, exists l, tb i = with_indexes (tb0 i) l /\ incl l (t_indexes (tb0 i)) /\ NoDup (map ix_id l)) /\
    (forall i db, kv_ok db -> covers (tb i) (init i db) db).

  (** Opening touches nothing but the key of the data version. *)
  Definition marked (c : content) (x : option bytes) : content := with_raw Ty c data_version_key x.

  (** The world after these calls. *)
  Definition world_after (w : world) (l : list (op * reply)) : world := fold_left (fun w x => next eq_dec Ty Fl w (fst x) (snd x)) l w.

  (** What is left of the calls at the end. *)
  Definition kept (ops : list (op * bool)) (e : ending) (rs : list (op * reply)) : list (op * reply) :=
    match e with EClose _ => rs | EKill lost _ => firstn (length ops - lost) rs end.

  (** In every session all answers are right, for the tables and contents that the sessions before left; this includes the calls made by the callbacks of OnClose. *)
  Fixpoint life_right (tb0 : forall i, table (Ty i) (Fl i)) (c : content) (l : list (session * option (list (op * reply)))) : Prop :=
    match l with
    | [] => True
    | (SRun _ tb init ops e, Some rs) :: l' =>
        declared tb0 tb init -> exists mark, let w := World Ty Fl tb (marked c mark) (BNone Ty) in
        all_right eq_dec Ty Fl fuel w rs /\
        (all_proper eq_dec Ty Fl fuel w rs -> can_end ops e -> busy_proper (world_after w (kept ops e rs)) e ->
         life_right (w_tb Ty Fl (world_after w (kept ops e rs))) (w_now Ty Fl (world_after w (kept ops e rs))) l')
    | _ :: l' => exists mark, life_right tb0 (marked c mark) l'
    end.

  (** ** Opening it *)

  (** The calls leave the key of the data version alone. *)
  Definition not_version (o : op) : Prop :=
    match o with OSet _ _ k _ | ODelete _ _ k => k <> data_version_key | _ => True end.

  (** A version that pebble can open any directory with. *)
  Definition usable (v : N) : Prop := (v <= max_u64)%N /\ forall f, peb f v <> None.

  (** All the sessions are those the claim is about: nothing is interrupted before Open or a migration is complete, Open asks for the version that was chosen last, and the
      calls are proper. [None]: no version was chosen. *)
  Fixpoint orderly_life (tb0 : forall i, table (Ty i) (Fl i)) (c : content) (cur : option N) (l : list (session * option (list (op * reply)))) : Prop :=
    match l with
    | [] => True
    | (SStop _ _, _) :: _ => False
    | (SMigrate v n, _) :: l' => usable v /\ n = None /\ cur <> None /\ orderly_life tb0 c (Some v) l'
    | (SRun v tb init ops e, x) :: l' =>
        usable v /\ (cur = None \/ cur = Some v) /\ declared tb0 tb init /\
        Forall (fun o => not_version (fst o)) ops /\ match e with EClose cbs => Forall (Forall not_version) cbs | _ => True end /\
        match x with
        | Some rs => forall mark, let w := World Ty Fl tb (marked c mark) (BNone Ty) in
            all_proper eq_dec Ty Fl fuel w rs /\ can_end ops e /\ busy_proper (world_after w (kept ops e rs)) e /\
            orderly_life (w_tb Ty Fl (world_after w (kept ops e rs))) (w_now Ty Fl (world_after w (kept ops e rs))) (Some v) l'
        | None => True
        end
    end.

  (** Every Open succeeded. *)
  Definition all_opened (l : list (session * option (list (op * reply)))) : Prop :=
    Forall (fun x => match x with (SRun _ _ _ _ _, None) => False | _ => True end) l.
End Life.
