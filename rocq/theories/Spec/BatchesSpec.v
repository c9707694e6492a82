(** A whole database with any number of read-write batches open at once, and direct writes beside them. *)

From Coq Require Import List NArith Bool Arith.
From Verif.Model Require Import Bytes Go Keys Pebble Index Table Scan Query ReIndex.
From Verif.Spec Require Import KeySpec StoreSpec TableSpec HistSpec ScanSpec QuerySpec SystemSpec.
Import ListNotations.

Section Batches.
  Context {I : Type} (eq_dec : forall i j : I, {i = j} + {i <> j}) (Ty Fl : I -> Type).

  Definition put_at {A} (f : nat -> A) (n : nat) (x : A) : nat -> A := fun m => if Nat.eqb m n then x else f m.

  (** ** Calls *)

  (** [who]: the batch given, if any. MRaw: Set, Delete or DeleteRange of the user's own keys. MCommit has a flag: does pebble's commit succeed?
      MApply: Batch.Apply of one batch to another. *)
  Inductive mop :=
  | MWrite (who : option nat) (i : I) (ev : env (Ty i)) (c : call (Ty i))
  | MRaw (who : option nat) (o : bop)
  | MRead (who : option nat) (r : reading Ty)
  | MAddIndex (i : I) (ev : renv) (idxs : list (index (Ty i)))
  | MBegin (n : nat)
  | MCommit (n : nat) (ok : bool)
  | MApply (into from : nat)
  | MClose (n : nat).

  (** ** Running them *)

  (** The open database (/repo/bond.go:125-136), the tables (/repo/table.go:151-186) with their filters' states, and the open batches
      (/repo/batch.go:58-81), which the caller holds under numbers of their own. *)
  Record msys := MSys { z_db : kv; z_tb : forall i, table (Ty i) (Fl i); z_fl : forall i, Fl i; z_bs : nat -> option batch }.

  (** The optional batch argument of the methods, /repo/table.go:16-60. *)
  Definition given (who : option nat) (s : msys) : option batch := match who with Some n => z_bs s n | None => None end.
  Definition marg (who : option nat) (s : msys) : optb :=
    match who with Some n => match z_bs s n with Some b => ABatch b | None => NilBatch end | None => NoBatch end.

  (** Insert, Update, Upsert and Delete (/repo/table.go:338-789); DB.Set, DB.Delete and DB.DeleteRange or the batch's (/repo/bond.go:252-276,
      /repo/batch.go:96-108); the readings of Spec/SystemSpec.v; AddIndex with reindexing (/repo/table.go:248-336); DB.Batch
      (/repo/bond.go:283-292); Batch.Commit, Apply and Close (/repo/batch.go:114-163). A call on a batch that is not there panics. *)
  Definition run_mop (fuel : nat) (s : msys) (o : mop) : msys * reply Ty :=
    match o with
    | MWrite who i ev c =>
        match who, given who s with
        | Some _, None => (s, AWrite _ Panic)
        | _, b =>
            let '(w, r) := run_call (z_tb s i) ev (z_db s) (z_fl s i) b c in
            (MSys (r_db w) (z_tb s) (upd eq_dec (P:=Fl) (z_fl s) i (r_flt w)) (match who with Some n => put_at (z_bs s) n (Table.r_batch w) | None => z_bs s end), AWrite _ r)
        end
    | MRaw who o =>
        match who with
        | None => (MSys (apply_op (z_db s) o) (z_tb s) (z_fl s) (z_bs s), AWrite _ (Ok tt))
        | Some n => match z_bs s n with
                    | Some b => (MSys (z_db s) (z_tb s) (z_fl s) (put_at (z_bs s) n (Some (Batch (b_rw b) (b_ops b ++ [o])))), AWrite _ (Ok tt))
                    | None => (s, AWrite _ Panic)
                    end
        end
    | MRead who r => (s, run_read Ty Fl fuel (Sys Ty Fl (z_db s) (z_tb s) (z_fl s) None) (marg who s) r)
    | MAddIndex i ev idxs =>
        let '(st, db', r) := add_index_call ev (z_tb s i) (IxState (t_indexes (z_tb s i)) false) (z_db s) idxs true in
        (MSys db' (upd eq_dec (P:=fun i => table (Ty i) (Fl i)) (z_tb s) i (with_indexes (z_tb s i) (xs_map st))) (z_fl s) (z_bs s), AWrite _ r)
    | MBegin n => (MSys (z_db s) (z_tb s) (z_fl s) (put_at (z_bs s) n (Some (Batch true []))), AWrite _ (Ok tt))
    | MCommit n ok =>
        match z_bs s n with
        | Some b => if (ok || match b_ops b with [] => true | _ => false end)%bool
                    then (MSys (apply_ops (z_db s) (b_ops b)) (z_tb s) (z_fl s) (put_at (z_bs s) n None), AWrite _ (Ok tt))
                    else (MSys (z_db s) (z_tb s) (z_fl s) (put_at (z_bs s) n None), AWrite _ (Err ECommit))
        | None => (s, AWrite _ Panic)
        end
    | MApply into from =>
        match z_bs s into, z_bs s from with
        | Some b, Some b' => (MSys (z_db s) (z_tb s) (z_fl s) (put_at (z_bs s) into (Some (Batch (b_rw b) (b_ops b ++ b_ops b')))), AWrite _ (Ok tt))
        | _, _ => (s, AWrite _ Panic)
        end
    | MClose n => (MSys (z_db s) (z_tb s) (z_fl s) (put_at (z_bs s) n None), AWrite _ (Ok tt))
    end.

  Fixpoint run_mops (fuel : nat) (s : msys) (l : list mop) : list (mop * reply Ty) :=
    match l with
    | [] => []
    | o :: l' => let '(s', x) := run_mop fuel s o in (o, x) :: run_mops fuel s' l'
    end.

  (** ** The database as the user thinks of it *)

  (** The changes a batch holds: by table and primary key, the row that will be there or its absence; the same for the user's own keys. *)
  Record changes := Changes { ch_rows : forall i, bytes -> option (option (Ty i)); ch_raw : bytes -> option (option bytes) }.

  Definition no_changes : changes := Changes (fun _ _ => None) (fun _ => None).

  (** The content with the changes made. *)
  Definition over (c : content Ty) (ch : changes) : content Ty :=
    Content Ty (fun i p => match ch_rows ch i p with Some v => v | None => c_rows Ty c i p end)
               (fun k => match ch_raw ch k with Some v => v | None => c_raw Ty c k end).

  (** First these changes, then those. *)
  Definition then_ch (a b : changes) : changes :=
    Changes (fun i p => match ch_rows b i p with Some v => Some v | None => ch_rows a i p end)
            (fun k => match ch_raw b k with Some v => Some v | None => ch_raw a k end).

  (** A batch: none, open with its changes, or not to be used any more (after a failed call on it, or after it was applied to another). *)
  Inductive mstate := SNone | SOpen (ch : changes) | SSpent.

  Record mworld := MWorld { v_tb : forall i, table (Ty i) (Fl i); v_now : content Ty; v_bs : nat -> mstate }.

  (** What a call acts on: the changes of its batch over what is committed now. *)
  Definition mseen (who : option nat) (w : mworld) : option (content Ty) :=
    match who with
    | None => Some (v_now w)
    | Some n => match v_bs w n with SOpen ch => Some (over (v_now w) ch) | _ => None end
    end.

  (** The primary keys a call is about, and the keys an operation is about with what it leaves there. *)
  Definition about (w : mworld) (i : I) (c : call (Ty i)) (p : bytes) : bool :=
    existsb (fun r => beqb p (s_pk (schema_of (v_tb w i)) r)) (rows_of c).
  Definition hits (o : bop) (k : bytes) : bool :=
    match o with BSet k' _ | BDel k' => beqb k k' | BDelRange lo hi => bleb lo k && bltb k hi end.
  Definition left_by (o : bop) : option bytes := match o with BSet _ v => Some v | _ => None end.

  (** The changes of a call that succeeded, seen from the content [c] it acted on. *)
  Definition call_changes (w : mworld) (c : content Ty) (i : I) (cl : call (Ty i)) : changes :=
    Changes (upd eq_dec (P:=fun i => bytes -> option (option (Ty i))) (fun _ _ => None) i
               (fun p => if about w i cl p then Some (effect (schema_of (v_tb w i)) (c_rows Ty c i) cl p) else None))
            (fun _ => None).
  Definition raw_changes (o : bop) : changes := Changes (fun _ _ => None) (fun k => if hits o k then Some (left_by o) else None).

  (** Changes made directly or in a batch. *)
  Definition mleave (who : option nat) (w : mworld) (d : changes) : mworld :=
    match who with
    | None => MWorld (v_tb w) (over (v_now w) d) (v_bs w)
    | Some n => MWorld (v_tb w) (v_now w) (put_at (v_bs w) n (match v_bs w n with SOpen ch => SOpen (then_ch ch d) | st => st end))
    end.

  (** A call that failed: nothing changes, but its batch is not to be used any more. *)
  Definition mfail (who : option nat) (w : mworld) : mworld :=
    match who with None => w | Some n => MWorld (v_tb w) (v_now w) (put_at (v_bs w) n SSpent) end.

  (** No other open batch holds a change to these rows, or to these keys. *)
  Definition rows_free (who : option nat) (w : mworld) (i : I) (c : call (Ty i)) : Prop :=
    forall n ch p, who <> Some n -> v_bs w n = SOpen ch -> about w i c p = true -> ch_rows ch i p = None.
  Definition keys_free (who : option nat) (w : mworld) (o : bop) : Prop :=
    forall n ch k, who <> Some n -> v_bs w n = SOpen ch -> hits o k = true -> ch_raw ch k = None.

  Definition table_world (w : mworld) : world Ty Fl := World Ty Fl (v_tb w) (v_now w) (BNone Ty).

  (** The calls the claim is about: no row or key is written by two parties while one of them has not committed. *)
  Definition mproper (fuel : nat) (w : mworld) (o : mop) : Prop :=
    match o with
    | MWrite who i ev c => env_ok ev /\ rows_free who w i c /\
        exists ct, mseen who w = Some ct /\ admissible (schema_of (v_tb w i)) (c_rows Ty ct i) c
    | MRaw who o => mseen who w <> None /\ keys_free who w o /\ forall k, hits o k = true -> own_key Ty Fl (table_world w) k
    | MRead who r => exists ct, mseen who w = Some ct /\ proper_read Ty Fl fuel (table_world w) ct (match who with Some _ => true | None => false end) r
    | MAddIndex i ev idxs =>
        let tb' := with_indexes (v_tb w i) (t_indexes (v_tb w i) ++ idxs) in
        (forall n ch, v_bs w n <> SOpen ch) /\ lawful tb' /\ (forall n, r_write ev n = true) /\ (forall ix, In ix idxs -> ix_id ix <> xff) /\
        forall pk r, c_rows Ty (v_now w) i pk = Some r -> row_ok (schema_of tb') r
    | MBegin n => v_bs w n = SNone
    | MCommit n _ => exists ch, v_bs w n = SOpen ch
    | MApply into from => into <> from /\ (exists ch, v_bs w into = SOpen ch) /\ exists ch, v_bs w from = SOpen ch
    | MClose n => v_bs w n <> SNone
    end.

  (** What they must answer, *)
  Definition mright (w : mworld) (o : mop) (x : reply Ty) : Prop :=
    match o with
    | MWrite who i ev c => exists ct r, mseen who w = Some ct /\ x = AWrite _ r /\
        (r = Ok tt /\ succeeds (schema_of (v_tb w i)) (c_rows Ty ct i) c \/ exists e, r = Err e) /\
        (quiet ev -> succeeds (schema_of (v_tb w i)) (c_rows Ty ct i) c -> r = Ok tt)
    | MRead who r => exists ct, mseen who w = Some ct /\ right_read Ty Fl (table_world w) ct r x
    | MCommit _ ok => x = AWrite _ (Ok tt) \/ ok = false /\ x = AWrite _ (Err ECommit)
    | _ => x = AWrite _ (Ok tt)
    end.

  (** and the world they leave. *)
  Definition mnext (w : mworld) (o : mop) (x : reply Ty) : mworld :=
    match o with
    | MWrite who i _ c =>
        match mseen who w, x with
        | Some ct, AWrite _ (Ok _) => mleave who w (call_changes w ct i c)
        | _, _ => mfail who w
        end
    | MRaw who o => mleave who w (raw_changes o)
    | MRead _ _ => w
    | MAddIndex i _ idxs =>
        MWorld (upd eq_dec (P:=fun i => table (Ty i) (Fl i)) (v_tb w) i (with_indexes (v_tb w i) (t_indexes (v_tb w i) ++ idxs))) (v_now w) (v_bs w)
    | MBegin n => MWorld (v_tb w) (v_now w) (put_at (v_bs w) n (SOpen no_changes))
    | MCommit n _ =>
        MWorld (v_tb w) (match v_bs w n, x with SOpen ch, AWrite _ (Ok _) => over (v_now w) ch | _, _ => v_now w end) (put_at (v_bs w) n SNone)
    | MApply into from =>
        match v_bs w into, v_bs w from with
        | SOpen a, SOpen b => MWorld (v_tb w) (v_now w) (put_at (put_at (v_bs w) into (SOpen (then_ch a b))) from SSpent)
        | _, _ => w
        end
    | MClose n => MWorld (v_tb w) (v_now w) (put_at (v_bs w) n SNone)
    end.

  Fixpoint all_mright (fuel : nat) (w : mworld) (l : list (mop * reply Ty)) : Prop :=
    match l with
    | [] => True
    | (o, x) :: l' => mproper fuel w o -> mright w o x /\ all_mright fuel (mnext w o x) l'
    end.

  Fixpoint all_mproper (fuel : nat) (w : mworld) (l : list (mop * reply Ty)) : Prop :=
    match l with
    | [] => True
    | (o, x) :: l' => mproper fuel w o /\ all_mproper fuel (mnext w o x) l'
    end.
End Batches.
