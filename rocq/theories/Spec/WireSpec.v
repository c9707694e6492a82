(** What the handler of the inspector should answer to any request, whoever wrote it. *)

From Coq Require Import Strings.String Strings.Byte List NArith ZArith Bool.
From Verif.Model Require Import Bytes Go Inspect Remote.
From Verif.Spec Require Import RemoteSpec CliSpec.
Import ListNotations.
Local Open Scope list_scope.

(** ** Requests *)

Definition ends_with (s : string) (path : bytes) : Prop := exists pre, path = pre ++ list_byte_of_string s.

(** The second text spells the first: in small or capital letters, and the long s and the Kelvin sign count as letters too. *)
Inductive spelled : bytes -> bytes -> Prop :=
| sp_nil : spelled [] []
| sp_same c n k : spelled n k -> spelled (c :: n) (c :: k)
| sp_case a b n k : (65 <= b2n a <= 90 /\ b2n b = b2n a + 32)%N \/ (65 <= b2n b <= 90 /\ b2n a = b2n b + 32)%N -> spelled n k -> spelled (a :: n) (b :: k)
| sp_long c n k : c = "s"%byte \/ c = "S"%byte -> spelled n k -> spelled (c :: n) (xc5 :: xbf :: k)
| sp_kelvin c n k : c = "k"%byte \/ c = "K"%byte -> spelled n k -> spelled (c :: n) (xe2 :: x84 :: xaa :: k).

(** What an object gives for a name; null, if it does not mention it. *)
Definition gives (o : list (bytes * json)) (n : string) (j : json) : Prop :=
  (exists k, In (k, j) o /\ spelled (list_byte_of_string n) k) \/
  (j = JNull /\ forall k j', In (k, j') o -> ~ spelled (list_byte_of_string n) k).

(** It gives nothing twice. *)
Definition once (o : list (bytes * json)) : Prop :=
  forall n l1 e l2 e' l3, In n ["table"; "index"; "indexSelector"; "filter"; "limit"; "after"]%string -> o = l1 ++ e :: l2 ++ e' :: l3 ->
    spelled (list_byte_of_string n) (fst e) -> ~ spelled (list_byte_of_string n) (fst e').

(** The object of a body; null counts as an empty one. *)
Definition body_object (q : hreq) (o : list (bytes * json)) : Prop := hq_body q = Some (JObj o) \/ (hq_body q = Some JNull /\ o = []).

(** What JSON means as a text, as a limit, as the value of a field (for [round53] see C68_integers_rounded), as fields. *)
Definition text_of (j : json) (s : bytes) : Prop := j = JStr s \/ (j = JNull /\ s = []).
Definition limit_of (j : json) (n : N) : Prop := (j = JInt (Z.of_N n) /\ (n < 2 ^ 64)%N) \/ (j = JNull /\ n = 0%N).
Inductive value_of : json -> option gval -> Prop :=
| vo_null : value_of JNull None
| vo_bool b : value_of (JBool b) (Some (GVal (GType 0 KBool) (DBool b)))
| vo_int z : value_of (JInt z) (Some (GVal (GType 0 KFloat) (DFlt (FNum (round53 z) 0))))
| vo_num m e : value_of (JNum m e) (Some (GVal (GType 0 KFloat) (DFlt (FNum m e))))
| vo_str s : value_of (JStr s) (Some (GVal (GType 0 KString) (DBytes s))).
Definition fields_of (j : json) (r : option (list (bytes * option gval))) : Prop :=
  match r with
  | None => j = JNull
  | Some l => exists o, j = JObj o /\ Forall2 (fun e e' => fst e = fst e' /\ value_of (snd e) (snd e')) o l
  end.

(** The table that a request names. *)
Definition names_table (q : hreq) (t : bytes) : Prop := exists o j, body_object q o /\ gives o "table" j /\ text_of j t.

(** The query that a request asks for. *)
Definition asks_query (q : hreq) (t : bytes) (r : request) : Prop :=
  exists o jt ji js jf jl ja sel, body_object q o /\
    gives o "table" jt /\ text_of jt t /\
    gives o "index" ji /\ text_of ji (rq_index r) /\
    gives o "indexSelector" js /\ fields_of js sel /\ rq_sel r = or_default sel [] /\
    gives o "filter" jf /\ fields_of jf (option_map (map (fun e => (fst e, Some (snd e)))) (rq_filter r)) /\
    gives o "limit" jl /\ limit_of jl (rq_limit r) /\
    gives o "after" ja /\ fields_of ja (rq_after r).

(** ** Responses *)

Section Responses.
  Variable clean : bytes -> bytes.
  Variable err_text : error -> bytes.
  Variable tis : list tinfo.

  (** Status 500 with the text of an error. *)
  Definition failure (e : error) : hresp := HResp 500 (Some (JObj [(list_byte_of_string "error", JStr (clean (err_text e)))])).

  (** The response to an answer of the inspector: status 200 with its JSON, and 500 if it failed or has no JSON. Where the inspector panics, so does the handler. *)
  Inductive reply {A} (as_json : A -> json -> Prop) : res A -> res hresp -> Prop :=
  | rp_ok a j : as_json a j -> reply as_json (Ok a) (Ok (HResp 200 (Some j)))
  | rp_none a : (forall j, ~ as_json a j) -> reply as_json (Ok a) (Ok (failure EOther))
  | rp_err e : reply as_json (Err e) (Ok (failure e))
  | rp_panic : reply as_json Panic Panic
  | rp_diverge : reply as_json Diverge Diverge.

  (** The names of the kinds of the fields, as JSON; see [go_name]. *)
  Definition kinds_json (l : list (bytes * kind)) (j : json) : Prop :=
    exists o, j = JObj o /\ Forall2 (fun e e' => fst e' = fst e /\ snd e' = JStr (clean (kind_name (snd e)))) l o.

  Inductive responds (q : hreq) : res hresp -> Prop :=
  | rs_elsewhere : ~ ends_with "/tables" (hq_path q) -> ~ ends_with "/indexes" (hq_path q) -> ~ ends_with "/entryFields" (hq_path q) -> ~ ends_with "/query" (hq_path q) ->
      responds q (Ok (HResp 404 None))
  | rs_tables j : ends_with "/tables" (hq_path q) -> wants_json (hq_accept q) -> names_json clean (map ti_name tis) j -> responds q (Ok (HResp 200 (Some j)))
  | rs_tables_other : ends_with "/tables" (hq_path q) -> ~ wants_json (hq_accept q) -> responds q (Ok (HResp 406 None))
  | rs_unreadable : ends_with "/indexes" (hq_path q) \/ ends_with "/entryFields" (hq_path q) -> (forall t, ~ names_table q t) -> responds q (Ok (failure EOther))
  | rs_other t : ends_with "/indexes" (hq_path q) \/ ends_with "/entryFields" (hq_path q) -> names_table q t -> ~ wants_json (hq_accept q) ->
      responds q (Ok (HResp 406 None))
  | rs_indexes t r : ends_with "/indexes" (hq_path q) -> names_table q t -> wants_json (hq_accept q) ->
      reply (names_json clean) (inspect_indexes tis t) r -> responds q r
  | rs_fields t r : ends_with "/entryFields" (hq_path q) -> names_table q t -> wants_json (hq_accept q) ->
      reply kinds_json (inspect_fields tis t) r -> responds q r
  | rs_query_unreadable : ends_with "/query" (hq_path q) -> (forall t r, ~ asks_query q t r) -> responds q (Ok (failure EOther))
  | rs_query_other t r : ends_with "/query" (hq_path q) -> asks_query q t r -> ~ wants_json (hq_accept q) -> responds q (Ok (HResp 406 None))
  | rs_query t rq r : ends_with "/query" (hq_path q) -> asks_query q t rq -> wants_json (hq_accept q) ->
      reply (rows_json clean) (inspect_query tis t rq) r -> responds q r.
End Responses.
