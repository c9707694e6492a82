(** Filters whose values do not fit. *)

From Coq Require Import Strings.String Strings.Byte List NArith ZArith Lia Bool Arith.
From Verif.Model Require Import Bytes Go Inspect.
From Verif.Spec Require Import KeySpec InspectSpec LooseSpec.
From Verif.Proofs Require Import Witness TableBugs QueryBugs InspectFacts InspectBugs LooseFacts.
Import ListNotations.
Local Open Scope list_scope.

(** a score of 6.5 and the kind 2^32+10 *)
Definition odd_filter : list (bytes * gval) := [(txt "Score", flt 13 (-1)); (txt "Kind", int (2 ^ 32 + 10))].

Lemma half_six : truncated 13 (-1) 6.
Proof. split; [lia|]. intros _. vm_compute. repeat split; discriminate. Qed.

Lemma odd_portable : portable plain acct_zero (Some odd_filter).
Proof.
  intros n v w I J. destruct I as [I|[I|[]]]; apply pair_equal_spec in I as [<- <-].
  - split; [exists 13%Z, (-1)%Z; split; [reflexivity|apply same_num_refl]|].
    destruct J as [J|[J|[J|[J|[]]]]]; apply pair_equal_spec in J as [E <-]; try discriminate E. exists 13%Z, (-1)%Z. split; [reflexivity|]. exists 6%Z. split; [exact half_six|]. cbn. lia.
  - split; [split; [cbn; auto|]; split; vm_compute; [discriminate|reflexivity]|]. exact Logic.I.
Qed.

Lemma odd_case : portable plain acct_zero (Some odd_filter) /\
  taken_for (flt 13 (-1)) (u64 6) /\ taken_for (int (2 ^ 32 + 10)) (u32 10) /\ taken_for (int 8364) (GVal (GType 0 KString) (DBytes [xe2; x82; xac])) /\
  ~ taken_for (flt 13 (-1)) (u64 7) /\ ~ taken_for (boolean true) (u64 1) /\
  ask plain 5 (Request [] [] (Some odd_filter) 0 None) = Ok (show plain [a1]).
Proof.
  split; [exact odd_portable|]. split; [exists 6%Z; split; [exact half_six|exists 0%Z; reflexivity]|]. split; [exists 1%Z; reflexivity|].
  split.
  { left. split; [split; lia|]. apply (u_three 8364 xe2 x82 xac 2 2 44); [lia|lia|reflexivity| |]; split; (reflexivity || lia). }
  split; [|split; [exact (fun H => H)|vm_compute; reflexivity]].
  intros (t & T & k & E). apply trunc_spec in T. vm_compute in T. subst t. change (256 ^ Z.of_nat (width 8))%Z with (2 ^ 64)%Z in E. lia.
Qed.
