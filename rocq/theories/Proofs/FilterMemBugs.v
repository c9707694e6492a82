(** Filters whose prefixes are parts of one buffer. *)

From Coq Require Import List NArith Bool Arith Lia.
From Verif.Model Require Import Bytes Go Keys Pebble Slices Bloom FilterMem.
From Verif.Spec Require Import SliceSpec BloomSpec FilterMemSpec.
From Verif.Proofs Require Import SliceFacts BloomFacts FilterBugs FilterMemFacts.
Import ListNotations.

(** "a_b_" and twelve bytes more. *)
Definition shared_buf : heap byte := [[x61; x5f; x62; x5f] ++ repeat x00 12].
(** Filters with the prefixes buf[0:2] and buf[2:4]. *)
Definition flt_a : mconfig := MConfig 64 2 2 (Slc 0 0 2 16).
Definition flt_b : mconfig := MConfig 64 2 2 (Slc 0 2 2 14).
(** The same prefixes, each with its own array. *)
Definition own_buf : heap byte := [[x61; x5f]; [x62; x5f] ++ repeat x00 12].
Definition own_a : mconfig := MConfig 64 2 2 (Slc 0 0 2 2).
Definition own_b : mconfig := MConfig 64 2 2 (Slc 1 0 2 14).

Definition two_new : list (list bucket) := [new_bloom (mc_view shared_buf flt_a); new_bloom (mc_view shared_buf flt_b)].
(** B is saved, A is saved, B gets the key 5 and is saved again. *)
Definition first_life : list (nat * bop_f) := [(1, FAdd [x02]); (1, FSave None); (0, FAdd [x01]); (0, FSave None); (1, FAdd [x05]); (1, FSave None)].
(** A new process loads both. *)
Definition second_life : list (nat * bop_f) := [(1, FLoad); (0, FLoad)].

Definition no_grow : nat -> nat -> nat := fun _ _ => 0.

(** What the second process has after both lives; each starts with the memory [h]. *)
Definition two_lives (fs : list mconfig) (h : heap byte) : list (list bucket) * list (res unit) :=
  let '(_, (s, _, _)) := m_run no_grow db_storer demo_codec demo_hashes fs h [] two_new first_life in
  let '(_, (_, bss, rs)) := m_run no_grow db_storer demo_codec demo_hashes fs h s two_new second_life in (bss, rs).

Lemma own_no_sharing : no_sharing (map mc_pre [own_a; own_b]).
Proof.
  intros s t [<-|[<-|[]]] [<-|[<-|[]]]; cbn.
  - right. cbn. intros i A B. lia.
  - left. cbn. lia.
  - left. cbn. lia.
  - right. cbn. intros i A B [C D]. lia.
Qed.

Lemma own_ok : Forall (fun c => sl_ok own_buf (mc_pre c)) [own_a; own_b].
Proof. repeat constructor; cbn; lia. Qed.

Lemma shared_ok : Forall (fun c => sl_ok shared_buf (mc_pre c)) [flt_a; flt_b].
Proof. repeat constructor; cbn; lia. Qed.

Lemma ab_apart : prefixes_apart [x61; x5f] [x62; x5f].
Proof. split; intros x; discriminate. Qed.

(** Both loads succeed, and B does not have the key 5. *)
Lemma shared_forgets : exists a b, two_lives [flt_a; flt_b] shared_buf = ([a; b], [Ok tt; Ok tt]) /\
  bloom_may demo_hashes (mc_view shared_buf flt_b) b [x05] = false.
Proof. eexists. eexists. split; vm_compute; reflexivity. Qed.

Lemma own_keeps : exists a b, two_lives [own_a; own_b] own_buf = ([a; b], [Ok tt; Ok tt]) /\
  bloom_may demo_hashes (mc_view own_buf own_b) b [x05] = true.
Proof. eexists. eexists. split; vm_compute; reflexivity. Qed.
