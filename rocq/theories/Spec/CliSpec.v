(** What bond-cli should do. *)

From Coq Require Import Strings.String Strings.Byte List NArith ZArith Bool.
From Verif.Model Require Import Bytes Go Inspect Remote Cli.
From Verif.Spec Require Import RemoteSpec.
Import ListNotations.
Local Open Scope list_scope.

(** ** The inspector *)

(** A URL of a server. *)
Definition web (url : bytes) : Prop := exists rest, url = list_byte_of_string "http://" ++ rest \/ url = list_byte_of_string "https://" ++ rest.

(** A header as it is given: name=value. *)
Definition header_text (s : bytes) (h : bytes * bytes) : Prop := s = fst h ++ "="%byte :: snd h /\ ~ In "="%byte (fst h) /\ ~ In "="%byte (snd h).

(** Of several headers of one name the last is sent. *)
Definition last_wins (given sent : list (bytes * bytes)) : Prop :=
  NoDup (map fst sent) /\
  forall k v, In (k, v) sent <-> exists l1 l2, given = l1 ++ (k, v) :: l2 /\ ~ In k (map fst l2).

(** What a JSON value means as a field. *)
Inductive means : json -> option gval -> Prop :=
| m_null : means JNull None
| m_bool b : means (JBool b) (Some (GVal (GType 0 KBool) (DBool b)))
| m_int z : (Z.abs z < 2 ^ 53)%Z -> means (JInt z) (Some (GVal (GType 0 KFloat) (DFlt (FNum z 0))))
| m_num m e : means (JNum m e) (Some (GVal (GType 0 KFloat) (DFlt (FNum m e))))
| m_str s : means (JStr s) (Some (GVal (GType 0 KString) (DBytes s))).

(** What the text of a flag means: nothing, if it is absent, empty or null, or fields. *)
Definition flag_fields (f : option (option json)) (r : option (list (bytes * option gval))) : Prop :=
  match r with
  | None => f = None \/ f = Some (Some JNull)
  | Some l => exists o, f = Some (Some (JObj o)) /\ Forall2 (fun e e' => fst e = fst e' /\ means (snd e) (snd e')) o l
  end.

(** The text of a flag that is not JSON, or JSON of something other than fields. *)
Definition bad_flag (f : option (option json)) : Prop :=
  f = Some None \/ exists j, f = Some (Some j) /\ j <> JNull /\ forall o, j <> JObj o.

Definition or_default {A} (o : option A) (d : A) : A := match o with Some a => a | None => d end.

(** The request that the flags ask for. *)
Definition asks (f : query_flags) (q : request) : Prop :=
  rq_index q = or_default (qf_index f) (list_byte_of_string "primary") /\
  rq_limit q = or_default (qf_limit f) 30%N /\
  (exists sel, flag_fields (qf_selector f) sel /\ rq_sel q = or_default sel []) /\
  flag_fields (qf_filter f) (option_map (map (fun e => (fst e, Some (snd e)))) (rq_filter q)) /\
  flag_fields (qf_after f) (rq_after q).

(** The JSON of an answer. *)
Definition names_json (clean : bytes -> bytes) (l : list bytes) (j : json) : Prop :=
  (l = [] /\ j = JNull) \/ (l <> [] /\ exists js, j = JArr js /\ Forall2 (fun s j => j = JStr (clean s)) l js).
Definition fields_json (clean : bytes -> bytes) (l : list (bytes * bytes)) (j : json) : Prop :=
  exists o, j = JObj o /\ Forall2 (fun e e' => fst e' = fst e /\ snd e' = JStr (clean (snd e))) l o.
Inductive value_json (clean : bytes -> bytes) : gval -> json -> Prop :=
| vj_bool t b : value_json clean (GVal t (DBool b)) (JBool b)
| vj_int t z : value_json clean (GVal t (DInt z)) (JInt z)
| vj_flt t m e : value_json clean (GVal t (DFlt (FNum m e))) (JNum m e)
| vj_str t s : gt_kind t <> KBytes -> value_json clean (GVal t (DBytes s)) (JStr (clean s))
| vj_bytes t s : gt_kind t = KBytes -> value_json clean (GVal t (DBytes s)) (JStr (b64 s)).
Definition row_json (clean : bytes -> bytes) (r : row) (j : json) : Prop :=
  exists o, j = JObj o /\ Forall2 (fun e e' => fst e' = fst e /\ value_json clean (snd e) (snd e')) r o.
Definition rows_json (clean : bytes -> bytes) (l : list row) (j : json) : Prop :=
  (l = [] /\ j = JNull) \/ (l <> [] /\ exists js, j = JArr js /\ Forall2 (row_json clean) l js).

(** The command prints an error and nothing else. *)
Definition failed (o : outcome) : Prop := oc_out o = None /\ oc_error o = true.

(** It prints an answer as JSON; an error if there is no answer, or no JSON of it. *)
Definition told {A} (as_json : A -> json -> Prop) (r : res A) (o : outcome) : Prop :=
  match r with
  | Ok a => (exists j, as_json a j /\ oc_out o = Some j /\ oc_error o = false) \/ ((forall j, ~ as_json a j) /\ failed o)
  | _ => failed o
  end.

(** The command prints what this inspector answers. *)
Definition prints (clean : bytes -> bytes) (a : api) (c : command) (o : outcome) : Prop :=
  match c with
  | CmdTables => told (names_json clean) (ap_tables a) o
  | CmdIndexes t => told (names_json clean) (ap_indexes a t) o
  | CmdFields t => told (fields_json clean) (ap_fields a t) o
  | CmdQuery t f =>
      (forall q, asks f q -> told (rows_json clean) (ap_query a t q) o) /\
      (bad_flag (qf_selector f) \/ bad_flag (qf_filter f) \/ bad_flag (qf_after f) -> failed o)
  end.

(** ** Dump and restore *)

(** The table of an id on the command line. *)
Definition ids_name (ids : list Z) (tables : list byte) : Prop := Forall2 (fun z t => z = Z.of_N (b2n t)) ids tables.
