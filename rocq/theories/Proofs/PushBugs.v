(** Filters on the accounts. *)

From Coq Require Import List NArith Lia Bool Arith.
From Verif.Model Require Import Bytes Go Keys Pebble Index Table Scan Query.
From Verif.Spec Require Import QuerySpec PushSpec.
From Verif.Proofs Require Import Witness TableBugs ScanBugs QueryBugs.
Import ListNotations.

(** a score below 6 *)
Definition low (r : acct) : bool := (a_score r <? 6)%N.

Lemma cut_first fuel : 5 <= fuel -> run fuel (q_with_limit all_ids 2) = Ok [a1; a2] /\ filter a_on [a1; a2] = [a1] /\
  run fuel (q_with_filter (q_with_limit all_ids 2) (also (q_filter all_ids) a_on)) = Ok [a1; a3].
Proof. intro H. split; [revert fuel H; fuels 5|]. split; [reflexivity|revert fuel H; fuels 5]. Qed.

Lemma replaced fuel : 5 <= fuel -> run fuel (q_with_filter all_ids a_on) = Ok [a1; a3] /\ filter low [a1; a3] = [a3] /\
  run fuel (q_with_filter (q_with_filter all_ids a_on) low) = Ok [a2; a3].
Proof. intro H. split; [revert fuel H; fuels 5|]. split; [reflexivity|revert fuel H; fuels 5]. Qed.
