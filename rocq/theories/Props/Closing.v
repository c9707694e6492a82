(** Property C93: Close runs the functions given to OnClose and then closes; Compact reaches the keys. *)

From Coq Require Import List NArith Bool Arith Lia.
From Verif.Model Require Import Bytes Go Keys Pebble Closing.
From Verif.Spec Require Import ClosingSpec.
From Verif.Proofs Require Import BytesFacts PebbleFacts ClosingFacts.
Import ListNotations.

(** C93. If no registered function panics or closes the database, Close runs each of them once, in the order of OnClose, on the open database, where each sees
    what the ones before it wrote; then it closes. Functions registered meanwhile are kept and not run.
    Missing: functions that close the database or panic, false there, see below. *)
Theorem C93_close_partial : forall body n d, c_open d = true -> Forall (calm body) (c_funs d) ->
  exists s' new tr, in_turn body (c_kv d) (c_funs d) s' new tr /\ ran tr = c_funs d /\ ~ In EClosed tr /\
    close body (S n) d = Returns (CDb s' false (c_funs d ++ new) (c_trace d ++ tr ++ [EClosed])).
Proof. exact close_runs. Qed.
Print Assumptions C93_close_partial.

(** Functions 1 and 3: the second finds what the first wrote; function 2, registered by the first, does not run. *)
Example C93_close_case : c_open (fresh [1; 3]) = true /\ Forall (calm demo_body) (c_funs (fresh [1; 3])) /\
  close demo_body 1 (fresh [1; 3]) =
    Returns (CDb [([x01], [x0a]); ([x03], [x0a])] false [1; 3; 2] [ERan 1; EWrote (BSet [x01] [x0a]); ERan 3; EWrote (BSet [x03] [x0a]); EClosed]).
Proof.
  split; [reflexivity|]. split; [|vm_compute; reflexivity]. constructor; [apply demo_calm; discriminate|]. constructor; [apply demo_calm; discriminate|constructor].
Qed.

(** C93. A second Close changes nothing and panics. *)
Theorem C93_twice : forall body n d, c_open d = false -> Forall (calm body) (c_funs d) ->
  exists d', close body (S n) d = Panics d' /\ c_kv d' = c_kv d /\ c_open d' = false.
Proof. exact close_again. Qed.
Print Assumptions C93_twice.

(** It runs the functions again first: function 3 panics as it writes to the closed database, and function 6 behind it does not run. *)
Example C93_twice_case : Forall (calm demo_body) [7; 3; 6] /\
  close demo_body 1 (CDb [([x01], [x0a])] false [7; 3; 6] []) = Panics (CDb [([x01], [x0a])] false [7; 3; 6] [ERan 7; ERan 3]).
Proof.
  split; [|vm_compute; reflexivity]. constructor; [apply demo_calm; discriminate|]. constructor; [apply demo_calm; discriminate|].
  constructor; [apply demo_calm; discriminate|constructor].
Qed.

(** C93, refuted for a function that closes the database: Close does not return, at any depth of the calls. *)
Theorem C93_closing_function_refuted : forall body f, (forall s, exists l1 l2, body f s = l1 ++ AClose :: l2 /\ forall a, In a l1 -> a <> AClose /\ a <> APanic) ->
  forall n d before after, c_open d = true -> c_funs d = before ++ f :: after -> Forall (calm body) before -> close body n d = TooDeep.
Proof. exact close_loops. Qed.
Print Assumptions C93_closing_function_refuted.

Example C93_closing_function_case : (forall s, exists l1 l2, demo_body 4 s = l1 ++ AClose :: l2 /\ forall a, In a l1 -> a <> AClose /\ a <> APanic) /\
  c_funs (fresh [1; 4; 3]) = [1] ++ 4 :: [3] /\ Forall (calm demo_body) [1].
Proof.
  split; [|split; [reflexivity|constructor; [apply demo_calm; discriminate|constructor]]].
  intros s. exists [AWrite (BSet [x04] [])], []. split; [reflexivity|]. intros a [<-|[]]. split; discriminate.
Qed.

(** C93, refuted for a function that panics: the functions behind it do not run and the database stays open. *)
Theorem C93_panic_refuted : forall body n d before f after, c_open d = true -> c_funs d = before ++ f :: after -> Forall (calm body) before ->
  (forall s, exists l1 l2, body f s = l1 ++ APanic :: l2 /\ forall a, In a l1 -> a <> AClose /\ a <> APanic) ->
  exists d' tr, close body (S n) d = Panics d' /\ c_open d' = true /\ c_trace d' = c_trace d ++ tr /\ ran tr = before ++ [f] /\ ~ In EClosed tr.
Proof. exact close_panics. Qed.
Print Assumptions C93_panic_refuted.

Example C93_panic_case : close demo_body 1 (fresh [1; 5; 3]) = Panics (CDb [([x01], [x0a])] true [1; 5; 3; 2] [ERan 1; EWrote (BSet [x01] [x0a]); ERan 5]) /\
  (forall s, exists l1 l2, demo_body 5 s = l1 ++ APanic :: l2 /\ forall a, In a l1 -> a <> AClose /\ a <> APanic).
Proof. split; [vm_compute; reflexivity|]. intros s. exists [], []. split; [reflexivity|intros a []]. Qed.

(** C93. Every key of every table and index lies in the range that Compact hands to pebble, index 255 of table 255 excepted. *)
Theorem C93_compact_partial : forall t i rest, t <> xff \/ i <> xff -> ble (fst compact_range) (t :: i :: rest) /\ blt (t :: i :: rest) (snd compact_range).
Proof. exact compact_reaches. Qed.
Print Assumptions C93_compact_partial.

(** An entry of index 255 of table 254, and one of index 254 of table 255. *)
Example C93_compact_case : (xfe <> xff \/ xff <> xff) /\ (xff <> xff \/ xfe <> xff) /\
  bltb (key_encode (MkKey xfe xff [xff] [xff] [xff]) []) (snd compact_range) = true /\
  bltb (key_encode (MkKey xff xfe [xff] [xff] [xff]) []) (snd compact_range) = true /\
  bltb (key_encode (MkKey xff xff [] [] [x01]) []) (snd compact_range) = false.
Proof. split; [left; discriminate|]. split; [right; discriminate|]. repeat split; vm_compute; reflexivity. Qed.

(** C93, refuted for index 255 of table 255: none of its entries lies in the range. *)
Theorem C93_compact_refuted : forall ix ord pk, blt (key_encode (MkKey xff xff ix ord pk) []) (snd compact_range) -> False.
Proof. exact compact_misses. Qed.
Print Assumptions C93_compact_refuted.
