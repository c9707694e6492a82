(** The table of accounts on memory, and goroutines that scribble over everything nobody holds. *)

From Coq Require Import List NArith Bool Arith Lia.
From Verif.Model Require Import Bytes Go Keys Pebble Index Table Slices Mem.
From Verif.Spec Require Import SliceSpec TableSpec MemSpec.
From Verif.Proofs Require Import SliceFacts MemFacts MemCalls Witness.
Import ListNotations.

(** double the room, as the runtime does *)
Definition dbl (old needed : nat) : nat := 2 * old - needed.

Definition accts_mem : mtable acct unit :=
  MTable accts (fun r => h_fields dbl [FUint64 (a_id r)])
    (fun ix r => if N.eqb (b2n (ix_id ix)) 0 then fun h s => (h, s)
                 else if N.eqb (b2n (ix_id ix)) 1 then h_fields dbl [FUint32 (a_kind r)] else h_fields dbl [FUint64 (a_score r)])
    (fun ix r => if N.eqb (b2n (ix_id ix)) 1 then h_fields dbl [FUint64 (uint_not 8 (a_score r))] else fun h s => (h, s))
    true.

Lemma accts_implements : implements accts_mem.
Proof.
  constructor; cbn [accts_mem mt_val mt_pk mt_key mt_ord t_pk t_indexes accts acct_table].
  - intros r. apply fields_append. intros b. eexists. split; reflexivity.
  - intros ix r [<-|[<-|[]]]; cbn; apply fields_append; intros b; eexists; split; reflexivity.
  - intros ix r [<-|[<-|[]]]; cbn; [|apply nothing_appends]. apply fields_append. intros b. eexists. split; reflexivity.
Qed.

(** Other goroutines complement every byte of array [a], unless it is held or in [foreign]; and they allocate. *)
Definition scribble (a : nat) (foreign : list slc) (_ : list (heap byte)) (own : list slc) (h : heap byte) : heap byte :=
  (if existsb (fun s => Nat.eqb (sl_arr s) a) (own ++ foreign) || negb (Nat.ltb a (length h)) then h
   else set_cells h a (map byte_not (cells h a))) ++ [[xee]].

Lemma scribble_leaves a foreign : leaves (scribble a foreign) foreign.
Proof.
  intros past own h. unfold scribble. destruct (existsb _ _ || _) eqn:E.
  - split.
    + split; [rewrite app_length; lia|]. intros i L. now rewrite app_nth1.
    + intros s t _ _ [L O]. unfold sl_read, cells. destruct O as [O|[O _]]; [replace (sl_len s) with 0 by lia; reflexivity|]. now rewrite app_nth1.
  - apply orb_false_iff in E. destruct E as [E1 E2]. apply negb_false_iff, Nat.ltb_lt in E2.
    assert (SL : length (set_cells h a (map byte_not (cells h a))) = length h) by now apply set_cells_length.
    split.
    + split; [rewrite app_length; lia|]. intros i L. rewrite app_nth1 by lia.
      change (length (cells (set_cells h a (map byte_not (cells h a))) i) = length (cells h i)).
      destruct (Nat.eq_dec i a) as [->|N]; [rewrite set_cells_same by auto; apply map_length|now rewrite set_cells_other].
    + intros s t I (EA & _ & _) [L O]. unfold sl_read. destruct O as [O|[O _]]; [replace (sl_len s) with 0 by lia; reflexivity|].
      unfold cells at 1. rewrite app_nth1 by lia.
      change (nth (sl_arr s) (set_cells h a (map byte_not (cells h a))) []) with (cells (set_cells h a (map byte_not (cells h a))) (sl_arr s)).
      rewrite set_cells_other; auto. intros EQ. assert (X : existsb (fun s => Nat.eqb (sl_arr s) a) (own ++ foreign) = true); [|congruence].
      apply existsb_exists. exists t. split; auto. apply Nat.eqb_eq. congruence.
Qed.

(** Array 0 holds two index key buffers side by side, array 1 the value buffer with too little room, array 2 two key buffers side by side and a
    third one without room, array 3 somebody else's bytes, array 4 free buffers of the pool. *)
Definition room : mem := Mem [repeat xaa 120; [xbb; xbb]; repeat xcc 52; [x01; x02; x03]; [xdd; xdd; xdd; xdd]] [].
Definition kb1 : slc := Slc 0 0 0 60.
Definition kb2 : slc := Slc 0 60 0 60.
Definition valb : slc := Slc 1 0 0 2.
Definition key_bufs : list slc := [Slc 2 0 0 25; Slc 2 25 0 25; Slc 2 50 0 2].
Definition others : list slc := [Slc 3 0 3 3].

Lemma room_buffers : buffers (m_heap room) (kb1 :: kb2 :: valb :: key_bufs ++ others).
Proof.
  split.
  - unfold key_bufs, others. cbn [app]. repeat (apply Forall_cons || apply Forall_nil); (split; [cbn; lia|right; split; cbn; lia]).
  - unfold key_bufs, others, kb1, kb2, valb, disjoint.
    repeat (first [apply FOP_cons|apply FOP_nil|apply Forall_cons|apply Forall_nil]); cbn [sl_arr sl_off sl_cap]; first [right; right; left; lia|right; right; right; lia].
Qed.
