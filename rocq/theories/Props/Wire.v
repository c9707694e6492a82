(** C82: requests to the HTTP handler of the inspector, whoever wrote them. *)

From Coq Require Import Strings.String Strings.Byte List NArith ZArith.
From Verif.Model Require Import Bytes Go Inspect Remote.
From Verif.Spec Require Import RemoteSpec CliSpec WireSpec.
From Verif.Proofs Require Import TableBugs InspectBugs RemoteWitness WireFacts WireWitness.
Import ListNotations.
Local Open Scope list_scope.

(** C82. The handler's response to any request: 404 for a path that ends in none of its four names, 406 for an Accept other than JSON, 500 for a body it cannot read and
    for an error of the inspector, and 200 with what the inspector answers for the table or query that the body asks for; where the inspector panics so does the handler.
    Missing: bodies that mention a field twice, and arrays and objects as values of fields. *)
Theorem C82_handler_partial : forall clean err_text tis q, (forall o, body_object q o -> once o) ->
  forall r, responds clean err_text tis q r <-> serve clean err_text tis q = r.
Proof. exact (fun clean err_text tis q O r => serve_responds clean err_text tis q r O). Qed.
Print Assumptions C82_handler_partial.

(** The three accounts, asked by hand. *)
Example C82_case : (forall o, body_object by_hand o -> once o) /\ ends_with "/query" (hq_path by_hand) /\ asks_query by_hand (txt "acct") asked /\
  serve_abc by_hand = Ok (HResp 200 (Some (JArr [JObj [(txt "ID", JInt 1); (txt "Kind", JInt 10); (txt "Score", JInt 6); (txt "On", JBool true)]]))) /\
  serve_abc (HReq (txt "/debug/tables") [] None) = Ok (HResp 200 (Some (JArr [JStr (txt "acct")]))) /\
  serve_abc (HReq (txt "/debug/tables/") [] None) = Ok (HResp 404 None) /\
  serve_abc (HReq (txt "/indexes") [] (Some (JObj [(txt "table", JInt 1)]))) = Ok (HResp 500 (Some (JObj [(txt "error", JStr (txt "failed"))]))) /\
  serve_abc (HReq (txt "/indexes") (txt "text/html") (Some (JObj []))) = Ok (HResp 406 None).
Proof. exact hand_case. Qed.
