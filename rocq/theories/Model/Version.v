(** The format version file and the data version: Open, PebbleFormatVersion and MigratePebbleFormatVersion of /repo/bond.go, and
    /repo/version.go. *)

From Coq Require Import List NArith ZArith Bool Strings.String Strings.Byte.
From Verif.Model Require Import Bytes Go Keys Pebble Backup.
Import ListNotations.
Local Open Scope list_scope.

(** The outcome of strconv.ParseUint: a number, a syntax error, or a range error; used at /repo/bond.go:177, 577 and /repo/version.go:22. *)
Inductive parsed := PNum (n : N) | PSyntax | PRange.

(** The loop of strconv.ParseUint for base 10, used at /repo/bond.go:177, 577 and /repo/version.go:22: a range error is reported at the
    digit where the number becomes too large. *)
Fixpoint parse_loop (max n : N) (s : bytes) : parsed :=
  match s with
  | [] => PNum n
  | c :: s' =>
      if ((48 <=? b2n c) && (b2n c <=? 57))%N then
        let n := (n * 10 + (b2n c - 48))%N in
        if (max <? n)%N then PRange else parse_loop max n s'
      else PSyntax
  end.

(** strconv.ParseUint(s, 10, bits) with the largest number [max], used at /repo/bond.go:177, 577 and /repo/version.go:22. *)
Definition parse_uint (max : N) (s : bytes) : parsed := match s with [] => PSyntax | _ => parse_loop max 0 s end.

(** The largest unsigned numbers of 64 and 32 bits, /repo/bond.go:177, /repo/version.go:22. *)
Definition max_u64 : N := 18446744073709551615.
Definition max_u32 : N := 4294967295.

(** strconv.ParseInt(s, 10, 32) with its error ignored, /repo/version.go:22: 0 for a syntax error, the nearest number for a range error. *)
Definition parse_int32 (s : bytes) : Z :=
  let '(neg, digits) := match s with
                        | c :: s' => if Byte.eqb c x2b then (false, s') else if Byte.eqb c x2d then (true, s') else (false, s)
                        | [] => (false, [])
                        end in
  let signed (un : N) := if neg then Z.max (-2147483648) (- Z.of_N un) else Z.min 2147483647 (Z.of_N un) in
  match parse_uint max_u32 digits with
  | PNum un => signed un
  | PSyntax => 0%Z
  | PRange => signed max_u32
  end.

(** The directory of a database: does dirname/bond exist (/repo/bond.go:153), the content of the file PEBBLE_FORMAT_VERSION in it
    (/repo/bond.go:165), pebble's own format version if there is a pebble database, and the pairs (/repo/bond.go:192). *)
Record disk := Disk { d_bond : bool; d_file : option bytes; d_fmv : option N; d_kv : kv }.

(** The changes that Open and MigratePebbleFormatVersion make; /repo/bond.go:160, 173, 192, 597, 606. *)
Definition set_file (d : disk) (s : bytes) : disk := Disk (d_bond d) (Some s) (d_fmv d) (d_kv d).
Definition set_fmv (d : disk) (f : N) : disk := Disk (d_bond d) (d_file d) (Some f) (d_kv d).
Definition set_kv (d : disk) (s : kv) : disk := Disk (d_bond d) (d_file d) (d_fmv d) s.
Definition make_dir (d : disk) : disk := Disk true (d_file d) (d_fmv d) (d_kv d).

(** os.WriteFile, /repo/bond.go:173-175, and os.OpenFile with O_TRUNC followed by Write, /repo/bond.go:599-606: the file is created
    or emptied, then a growing prefix of [s] is in it. Simplified: what was written is not lost in a crash (there is no fsync). *)
Definition write_steps (d : disk) (s : bytes) : list disk := map (fun n => set_file d (firstn n s)) (seq 0 (S (List.length s))).

(** /repo/version.go:34-42 bondDataVersionKey. *)
Definition data_version_key : bytes := key_encode (MkKey x00 x00 [] [] (str "__bond_db_data_version__")) [].

(** /repo/version.go:15-24 Version; pebble's Get only fails if the key is absent. *)
Definition version (s : kv) : Z := match kv_get s data_version_key with Some v => parse_int32 v | None => 0%Z end.

(** /repo/version.go:26-32 initVersion; pebble's Set with Sync is atomic and succeeds. *)
Definition init_version (s : kv) : kv := if (0 <? version s)%Z then s else kv_set s data_version_key (dec data_version).

Section Pebble.
  (** pebble.Open with FormatMajorVersion [v] in a directory whose pebble format version is the first argument: [None] is a failure (also
      because another process has the database open), otherwise the format version afterwards; /repo/bond.go:192, 594. *)
  Variable peb : option N -> N -> option N.

  (** The second half of Open, /repo/bond.go:192-231. All functions return the directory after each step, and a result. *)
  Definition open_pebble (d : disk) (v : N) : list disk * res unit :=
    match peb (d_fmv d) v with
    | None => ([], Err EOther)
    | Some f =>
        let d := set_fmv d f in
        if (version (d_kv d) =? 0)%Z then ([d; set_kv d (init_version (d_kv d))], Ok tt)
        else if negb (version (d_kv d) =? Z.of_N data_version)%Z then ([d], Err EOther)
        else ([d], Ok tt)
    end.

  (** /repo/bond.go:138-232 Open with FormatMajorVersion [v]; paths are absolute, Stat and ReadFile only fail for absent files, other
      file operations succeed. *)
  Definition open_db (d : disk) (v : N) : list disk * res unit :=
    let d0 := make_dir d in
    match d_file d0 with
    | None =>
        let '(l, r) := open_pebble (set_file d0 (dec v)) v in
        (d0 :: write_steps d0 (dec v) ++ l, r)
    | Some s =>
        match parse_uint max_u64 s with
        | PNum n => if (n =? v)%N then let '(l, r) := open_pebble d0 v in (d0 :: l, r) else ([d0], Err EOther)
        | _ => ([d0], Err EOther)
        end
    end.

  (** /repo/bond.go:584-608 MigratePebbleFormatVersion. *)
  Definition migrate (d : disk) (v : N) : list disk * res unit :=
    match peb (d_fmv d) v with
    | None => ([], Err EOther)
    | Some f =>
        let d := set_fmv d f in
        if d_bond d then (d :: write_steps d (dec v), Ok tt) else ([d], Err EOther)
    end.
End Pebble.

(** /repo/bond.go:567-582 PebbleFormatVersion. *)
Definition pebble_format_version (d : disk) : res N :=
  match d_file d with
  | None => Ok 0%N
  | Some s => match parse_uint max_u64 s with PNum n => Ok n | _ => Err EOther end
  end.

(** The directory after the last step; /repo/bond.go:138, 584. *)
Definition after (d : disk) (r : list disk * res unit) : disk := last (fst r) d.
