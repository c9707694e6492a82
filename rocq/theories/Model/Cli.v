(** bond-cli: /repo/inspect/inspect_cli.go and /repo/cmd/bond-cli. The values of the flags are as urfave/cli gives them. *)

From Coq Require Import Strings.String Strings.Byte List NArith ZArith Bool Arith.
From Verif.Model Require Import Bytes Go Pebble Backup Version Inspect Remote.
From Verif.Spec Require Import RemoteSpec.
Import ListNotations.
Local Open Scope list_scope.

(** strings.Split(s, "="), /repo/inspect/inspect_cli.go:96. *)
Fixpoint split_at (c : byte) (s : bytes) : list bytes :=
  match s with
  | [] => [[]]
  | x :: s' => if Byte.eqb x c then [] :: split_at c s'
               else match split_at c s' with p :: l => (x :: p) :: l | [] => [[x]] end
  end.

(** headers[k] = v; /repo/inspect/inspect_cli.go:101. *)
Definition put_header (m : list (bytes * bytes)) (k v : bytes) : list (bytes * bytes) := filter (fun e => negb (beqb (fst e) k)) m ++ [(k, v)].

(** The loop over the headers, /repo/inspect/inspect_cli.go:94-102; [None]: invalid header. *)
Fixpoint cli_headers (l : list bytes) (m : list (bytes * bytes)) : option (list (bytes * bytes)) :=
  match l with
  | [] => Some m
  | s :: l' => match split_at x3d s with [k; v] => cli_headers l' (put_header m k v) | _ => None end
  end.

(** What the command is to do: /repo/inspect/inspect_cli.go:117-241. The texts of the flags of query are JSON trees; [None] is an empty or absent flag, [Some None] a
    text that is not JSON. The index and the limit have defaults. *)
Record query_flags := QFlags {
  qf_index : option bytes;
  qf_selector : option (option json);
  qf_filter : option (option json);
  qf_limit : option N;
  qf_after : option (option json)
}.
Inductive command := CmdTables | CmdIndexes (t : bytes) | CmdFields (t : bytes) | CmdQuery (t : bytes) (f : query_flags).

(** What the user gets: the JSON text printed, if any, whether an error is printed, and the exit status. *)
Record outcome := Outcome { oc_out : option json; oc_error : bool; oc_status : N }.

(** main, /repo/cmd/bond-cli/bond-cli.go:22-24: an error is printed, and that is all. *)
Definition main_with (r : option json * bool) : outcome := Outcome (fst r) (snd r) 0.

(** fmt.Print of the JSON of a result, or the error; /repo/inspect/inspect_cli.go:122-133, 219-238. *)
Definition printed {A} (enc : A -> option json) (r : res A) : option json * bool :=
  match r with
  | Ok a => match enc a with Some j => (Some j, false) | None => (None, true) end
  | _ => (None, true)
  end.

(** json.Unmarshal of a flag, /repo/inspect/inspect_cli.go:195-217. *)
Definition flag_map {A} (dec : json -> option (option A)) (f : option (option json)) : option (option A) :=
  match f with None => Some None | Some None => None | Some (Some j) => dec j end.

Section Cli.
  Variable clean : bytes -> bytes.
  (** NewInspectRemote, /repo/inspect/inspect_cli.go:104 (for what it does see Model/Remote.v). *)
  Variable connect : bytes -> list (bytes * bytes) -> api.
  (** The function given to NewInspectCLI, if any; /repo/inspect/inspect_cli.go:72. In bond-cli there is none, /repo/cmd/bond-cli/bond-cli.go:16. *)
  Variable init : option (bytes -> option api).

  (** Before, /repo/inspect/inspect_cli.go:89-116. *)
  Definition cli_before (url : bytes) (headers : list bytes) : option api :=
    if has_prefix (list_byte_of_string "https://") url || has_prefix (list_byte_of_string "http://") url
    then match cli_headers headers [] with Some h => Some (connect url h) | None => None end
    else match init with Some f => f url | None => None end.

  (** The request of query, /repo/inspect/inspect_cli.go:195-227; [None]: a flag is not JSON. *)
  Definition cli_request (f : query_flags) : option request :=
    match flag_map dec_opts (qf_selector f), flag_map dec_row (qf_filter f), flag_map dec_opts (qf_after f) with
    | Some sel, Some fs, Some after =>
        Some (Request (match qf_index f with Some i => i | None => primary_name end) (match sel with Some l => l | None => [] end) fs
                (match qf_limit f with Some n => n | None => 30%N end) after)
    | _, _, _ => None
    end.

  (** The actions, /repo/inspect/inspect_cli.go:121-134, 142-155, 163-176, 190-239. The deadline is not modelled. *)
  Definition cli_action (a : api) (c : command) : option json * bool :=
    match c with
    | CmdTables => printed (fun l => Some (enc_strings clean l)) (ap_tables a)
    | CmdIndexes t => printed (fun l => Some (enc_strings clean l)) (ap_indexes a t)
    | CmdFields t => printed (fun l => Some (JObj (map (fun e => (fst e, JStr (clean (snd e)))) l))) (ap_fields a t)
    | CmdQuery t f => match cli_request f with None => (None, true) | Some q => printed (enc_rows clean) (ap_query a t q) end
    end.

  (** bond-cli inspect, /repo/inspect/inspect_cli.go:72-245 and /repo/cmd/bond-cli/bond-cli.go:11-25. *)
  Definition cli_inspect (url : bytes) (headers : list bytes) (c : command) : outcome :=
    main_with (match cli_before url headers with None => (None, true) | Some a => cli_action a c end).
End Cli.

(** bond.TableID(id) of an int: the lowest byte. /repo/cmd/bond-cli/dump.go:50-52, /repo/cmd/bond-cli/restore.go:25-28. *)
Definition table_id_of (id : Z) : byte := n2b (Z.to_N (id mod 256)).

Section Backup.
  Variable peb : option N -> N -> option N.
  (** FormatMajorVersion of the default options. *)
  Variable v : N.

  (** /repo/cmd/bond-cli/dump.go:44-53: the database is opened with default options, and created if it is not there; while it is open no other process has it. The database, the
      dump and what the user gets. *)
  Definition cli_dump (full : kv -> bool) (d : disk) (exists_dir with_index : bool) (ids : list Z) : disk * tree * outcome :=
    let d' := after d (open_db peb d v) in
    match snd (open_db peb d v) with
    | Ok _ => let '(t, r) := dump full (d_kv d') (fun _ => d_kv d') exists_dir with_index (map table_id_of ids) in
              (d', t, main_with (None, match r with Ok _ => false | _ => true end))
    | _ => (d', [], main_with (None, true))
    end.

  (** /repo/cmd/bond-cli/restore.go:20-29. *)
  Definition cli_restore (d : disk) (root : bytes) (t : tree) (with_index : bool) (ids : list Z) : disk * outcome :=
    let d' := after d (open_db peb d v) in
    match snd (open_db peb d v) with
    | Ok _ => let '(s, r) := restore root t (d_kv d') (map table_id_of ids) with_index in
              (set_kv d' s, main_with (None, match r with Ok _ => false | _ => true end))
    | _ => (d', main_with (None, true))
    end.
End Backup.
