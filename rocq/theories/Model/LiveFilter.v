(** A filter that is initialised while the table is in use: FilterInitializable,
    /repo/filter.go:24-54. One goroutine runs Initialize; others run write calls on the
    table, as in Model/Concur.v. The filter answers "may contain" to everything until
    the flag isInitialized is set, and takes every Add from the beginning. *)

From Coq Require Import List Bool.
From Verif.Model Require Import Bytes Go Keys Pebble Table Scan AnyScan Bloom Concur.
From Verif.Spec Require Import HistSpec.
Import ListNotations.

Section Live.
  Context {T FI : Type}.
  Notation F := (initializable FI).
  Variable tb : table T F.
  Variable f : filt FI.

  (** A scanner of FilterInitialize (/repo/filter.go:64-68): the keys that its callback
      gets and what ScanForEach returns, for a scan that is opened on this database. The
      iterator reads a snapshot, so what happens later does not matter. *)
  Definition scanner := kv -> F -> list bytes * res unit.

  (** Load with the store that Initialize is given, /repo/filter.go:57 (for Bloom
      filters [bloom_load] of Model/Bloom.v), and what Clear returns, /repo/filter.go:59.
      Simplified: the store is apart from the rows of the table; Load and Clear are one
      step each (both hold the filter's lock, /repo/bloom/bloom_filter.go:94, 190). *)
  Variable load : FI -> FI * res unit.
  Variable clear : res unit.

  (** Where Initialize is. *)
  Inductive phase :=
  | PLoad (scs : list scanner)
  | PClear (scs : list scanner)
  | POpen (scs : list scanner)
  | PAdd (ks : list bytes) (r : res unit) (scs : list scanner)
  | PFlag
  | PEnd (r : res unit).

  (** One step of Initialize: /repo/filter.go:57 Load, 59 Clear, 64-65 the start of a scan, 66 one Add,
      69-71 the end of a scan, 44 the flag. *)
  Definition init_step (db : kv) (z : F) (p : phase) : F * phase :=
    match p with
    | PLoad scs =>
        let '(fl, r) := load (iz_flt z) in
        (Initz fl (iz_on z), match r with Ok _ => PFlag | Err _ => PClear scs | r => PEnd r end)
    | PClear scs => (z, match clear with Ok _ => POpen scs | r => PEnd r end)
    | POpen [] => (z, PFlag)
    | POpen (sc :: scs) => let '(ks, r) := sc db z in (z, PAdd ks r scs)
    | PAdd (k :: ks) r scs => (Initz (f_add f (iz_flt z) k) (iz_on z), PAdd ks r scs)
    | PAdd [] (Ok _) scs => (z, POpen scs)
    | PAdd [] r _ => (z, PEnd r)
    | PFlag => (Initz (iz_flt z) true, PEnd (Ok tt))
    | PEnd r => (z, PEnd r)
    end.

  (** The calls of Model/Concur.v (/repo/table.go:338-789) and the goroutine in Initialize (/repo/filter.go:38-46). *)
  Record lsys := Live { lv_sys : sys (T:=T) (F:=F); lv_init : phase }.

  (** Who takes the next step: a call, or Initialize. *)
  Inductive who := Call (i : nat) | Init.

  (** A step of /repo/table.go:338-789 or of /repo/filter.go:38-75. *)
  Definition live_step (y : lsys) (w : who) : lsys :=
    match w with
    | Call i => Live (step tb (lv_sys y) i) (lv_init y)
    | Init =>
        let s := lv_sys y in
        let '(z, p) := init_step (y_db s) (y_flt s) (lv_init y) in
        Live (Sys (y_db s) z (y_threads s)) p
    end.

  (** Any interleaving. *)
  Definition run_live (sch : list who) (y : lsys) : lsys := fold_left live_step sch y.

  (** /repo/filter.go:24-28: a FilterInitializable whose flag is not set yet, the calls and
      Initialize at their beginning. *)
  Definition live_start (db : kv) (fl : FI) (h : list (env T * call T)) (scs : list scanner) : lsys :=
    Live (start tb db (Initz fl false) h) (PLoad scs).

  (** The callback of FilterInitialize adds every key (/repo/filter.go:65-68); here it lists them. *)
  Definition list_cb {A} (ks : list bytes) (k : bytes) : prog (T:=A) (list bytes) := PRet (ks ++ [k]) true None.

  (** TableAnyScanner of the table, /repo/table_utils.go:77-85. A scan makes at most one round for each entry of the database. *)
  Definition own_scanner {A} (ev : env T) (inj : T -> A) : scanner :=
    fun db z => any_scan_for_each tb ev inj (length db) db z list_cb false NoBatch [].
End Live.
Arguments PLoad {FI}.
Arguments PClear {FI}.
Arguments POpen {FI}.
Arguments PAdd {FI}.
Arguments PFlag {FI}.
Arguments PEnd {FI}.
Arguments Live {T FI}.
Arguments lv_sys {T FI}.
Arguments lv_init {T FI}.
