(** Requests to the handler written by hand. *)

From Coq Require Import Strings.String Strings.Byte List NArith ZArith Lia Bool Arith.
From Verif.Model Require Import Bytes Go Inspect Remote.
From Verif.Spec Require Import RemoteSpec CliSpec WireSpec.
From Verif.Proofs Require Import BytesFacts TableBugs InspectBugs RemoteWitness WireFacts.
Import ListNotations.
Local Open Scope list_scope.

(** rows of kind 10, at most one; the name of the table in capital letters *)
Definition by_hand : hreq := HReq (txt "/debug/query") [] (Some (JObj
  [(txt "limit", JInt 1); (txt "TABLE", JStr (txt "acct")); (txt "unknown", JArr []); (txt "filter", JObj [(txt "Kind", JInt 10)])])).

Definition asked : request := Request [] [] (Some [(txt "Kind", flt 10 0)]) 1 None.

Definition serve_abc (q : hreq) : res hresp := serve id_clean texts (inspector plain 5 abc_db) q.

Lemma hand_once : once_body by_hand.
Proof.
  assert (X : forall o, map fst o = map fst [(txt "limit", JNull); (txt "TABLE", JNull); (txt "unknown", JNull); (txt "filter", JNull)] -> once o).
  { intros o M n l1 e l2 e' l3 I E S S'. pose proof (names_ascii n I) as A. apply (spelled_fold _ _ A) in S, S'. rewrite E in M. rewrite map_app in M. cbn [map] in M. rewrite map_app in M. cbn [map] in M.
    assert (ND : NoDup (map fold_name [txt "limit"; txt "TABLE"; txt "unknown"; txt "filter"])) by (vm_compute; repeat (constructor; [cbn; intuition discriminate|]); constructor).
    match type of M with ?x = _ => assert (Y : NoDup (map fold_name x)) by (rewrite M; exact ND) end. clear ND. rename Y into ND.
    rewrite map_app in ND. cbn [map] in ND. rewrite map_app in ND. cbn [map] in ND. apply NoDup_remove_2 in ND. apply ND. apply in_or_app. right. apply in_or_app. right. left. exact (eq_trans S' (eq_sym S)). }
  intros o [B|[B _]]; [|discriminate B]. apply X. unfold by_hand in B. cbn [hq_body] in B. assert (E : o = [(txt "limit", JInt 1); (txt "TABLE", JStr (txt "acct")); (txt "unknown", JArr []); (txt "filter", JObj [(txt "Kind", JInt 10)])]) by congruence.
  rewrite E. reflexivity.
Qed.

Lemma hand_case : once_body by_hand /\ ends_with "/query" (hq_path by_hand) /\ asks_query by_hand (txt "acct") asked /\
  serve_abc by_hand = Ok (HResp 200 (Some (JArr [JObj [(txt "ID", JInt 1); (txt "Kind", JInt 10); (txt "Score", JInt 6); (txt "On", JBool true)]]))) /\
  serve_abc (HReq (txt "/debug/tables") [] None) = Ok (HResp 200 (Some (JArr [JStr (txt "acct")]))) /\
  serve_abc (HReq (txt "/debug/tables/") [] None) = Ok (HResp 404 None) /\
  serve_abc (HReq (txt "/indexes") [] (Some (JObj [(txt "table", JInt 1)]))) = Ok (HResp 500 (Some (JObj [(txt "error", JStr (txt "failed"))]))) /\
  serve_abc (HReq (txt "/indexes") (txt "text/html") (Some (JObj []))) = Ok (HResp 406 None).
Proof.
  split; [exact hand_once|]. split; [exists (txt "/debug"); reflexivity|]. split; [|repeat split; vm_compute; reflexivity].
  apply query_dec; [exact hand_once|]. eexists. split; [reflexivity|]. vm_compute. reflexivity.
Qed.
