(** C76: the inspector over HTTP. *)

From Coq Require Import Strings.String Strings.Byte List NArith ZArith.
From Verif.Model Require Import Bytes Go Inspect Remote.
From Verif.Spec Require Import InspectSpec RemoteSpec.
From Verif.Proofs Require Import TableBugs InspectBugs RemoteFacts RemoteWitness.
Import ListNotations.
Local Open Scope list_scope.

(** C76. A client whose URL has neither query nor fragment answers every call as the inspector behind the handler, names going through JSON, if the URL can be parsed and
    its headers ask for JSON or for nothing; if not, every call returns an error. Never anything else. Missing: URLs with a query or fragment, and the Accept headers that
    allow JSON in other words, see below. *)
Theorem C76_remote_partial : forall clean err_text tis base headers, keeps_ascii clean -> no_query base ->
  (escaped base -> json_accepted headers -> as_local clean tis (client clean err_text tis base headers)) /\
  (~ escaped base \/ json_refused headers -> all_fail (client clean err_text tis base headers)) /\
  (as_local clean tis (client clean err_text tis base headers) \/ all_fail (client clean err_text tis base headers)).
Proof. exact remote_ok. Qed.
Print Assumptions C76_remote_partial.

(** The three accounts, asked at /%62ond/. *)
Example C76_case : keeps_ascii id_clean /\ no_query at_bond /\ escaped at_bond /\ json_accepted json_please /\
  ap_tables afar = Ok [txt "acct"] /\
  ap_indexes afar (txt "acct") = Ok [txt "primary"; txt "by_kind"; txt "by_score"] /\
  ap_fields afar (txt "acct") = Ok [(txt "ID", txt "uint64"); (txt "Kind", txt "uint32"); (txt "Score", txt "uint64"); (txt "On", txt "bool")] /\
  ap_query afar (txt "acct") score5 = Ok [[(txt "ID", flt 3 0); (txt "Kind", flt 10 0); (txt "Score", flt 5 0); (txt "On", boolean true)]] /\
  ap_indexes afar (txt "accounts") = Err EOther /\
  ap_tables (client id_clean texts (inspector plain 5 abc_db) (txt "/bond%2") json_please) = Err EOther.
Proof. exact afar_case. Qed.

(** C76. Whatever answers the client, a proxy or another server: a call succeeds only if the response has a status below 400 and a body of the expected JSON type, with what
    that body says; everything else is an error, never a panic. *)
Theorem C76_any_response : forall (A : Type) (dec : json -> option A) (r : res hresp), r <> Panic -> r <> Diverge ->
  (forall a, receive dec r = Ok a <-> exists h j, r = Ok h /\ (hr_status h < 400)%N /\ hr_body h = Some j /\ dec j = Some a) /\
  ((forall a, receive dec r <> Ok a) -> exists e, receive dec r = Err e).
Proof. exact @any_response. Qed.
Print Assumptions C76_any_response.

Example C76_any_case : receive dec_strings (Ok (HResp 200 (Some (JArr [JStr (txt "acct")])))) = Ok [txt "acct"] /\
  receive dec_strings (Ok (HResp 403 (Some (JArr [JStr (txt "acct")])))) = Err EOther /\
  receive dec_strings (Ok (HResp 200 (Some (JObj [])))) = Err EOther /\ receive dec_strings (Ok (HResp 200 None)) = Err EOther.
Proof. repeat split. Qed.

(** C76 is false for a URL with a query: the call goes to whatever its path names, here Indexes of a table that is not there succeeds with the names of the tables. *)
Theorem C76_query_in_url_refuted : forall clean err_text tis headers t, json_accepted headers -> (forall ti, In ti tis -> ti_name ti <> clean t) ->
  inspect_indexes tis (clean t) = Err EOther /\
  ap_indexes (client clean err_text tis (list_byte_of_string "/tables?v=1") headers) t = Ok (map clean (inspect_tables tis)).
Proof. exact no_query_needed. Qed.
Print Assumptions C76_query_in_url_refuted.

(** C76 is false for a client that accepts everything: it gets nothing. *)
Theorem C76_accept_all_refuted : forall clean err_text tis base, no_query base ->
  all_fail (client clean err_text tis base [(list_byte_of_string "Accept", list_byte_of_string "*/*")]).
Proof. exact anything_refused. Qed.
Print Assumptions C76_accept_all_refuted.

(** C76 is false for a table whose name is not UTF-8: it is listed, but under neither name can it be asked for. *)
Theorem C76_odd_names_refuted : forall clean err_text q base headers, clean [xff] = [xef; xbf; xbd] -> clean [xef; xbf; xbd] = [xef; xbf; xbd] -> keeps_ascii clean ->
  no_query base -> escaped base -> json_accepted headers ->
  let tis := [TInfo [xff] [primary_name] [] q] in
  inspect_indexes tis [xff] = Ok [primary_name] /\
  ap_tables (client clean err_text tis base headers) = Ok [[xef; xbf; xbd]] /\
  ap_indexes (client clean err_text tis base headers) [xff] = Err EOther /\
  ap_indexes (client clean err_text tis base headers) [xef; xbf; xbd] = Err EOther.
Proof. exact odd_name. Qed.
Print Assumptions C76_odd_names_refuted.

Example C76_odd_case : replaced [xff] = [xef; xbf; xbd] /\ replaced [xef; xbf; xbd] = [xef; xbf; xbd] /\ keeps_ascii replaced.
Proof. split; [reflexivity|]. split; [reflexivity|]. exact replaced_ascii. Qed.
