(** Facts about Compact, Close and OnClose. *)

From Coq Require Import List NArith Lia Bool Arith.
From Verif.Model Require Import Bytes Go Keys Pebble Closing.
From Verif.Spec Require Import ClosingSpec.
From Verif.Proofs Require Import BytesFacts PebbleFacts.
Import ListNotations.

(** ** Compact *)

Lemma byte_below t : t <> xff -> (b2n t < b2n xff)%N.
Proof. intros N. destruct t; try (vm_compute; reflexivity). now destruct N. Qed.

Lemma compact_reaches t i rest : t <> xff \/ i <> xff -> ble (fst compact_range) (t :: i :: rest) /\ blt (t :: i :: rest) (snd compact_range).
Proof.
  intros H. split; [apply bcmp_nil_l|]. unfold blt. change (snd compact_range) with [xff; xff; x00; x00; x00; x00]. rewrite bcmp_cons.
  destruct (N.compare_spec (b2n t) (b2n xff)) as [E|L|L]; [|reflexivity|].
  - assert (t = xff) by (destruct t; vm_compute in E; try discriminate; reflexivity). subst t. destruct H as [H|H]; [now destruct H|].
    rewrite bcmp_cons. pose proof (byte_below i H) as L. apply N.compare_lt_iff in L. now rewrite L.
  - exfalso. destruct (Byte.byte_eq_dec t xff) as [->|N]; [now apply N.lt_irrefl in L|]. pose proof (byte_below t N). lia.
Qed.

Lemma zeros_first b : length b = 4 -> forall rest, ~ blt (b ++ rest) [x00; x00; x00; x00].
Proof.
  intros L rest. destruct b as [|b0 [|b1 [|b2 [|b3 [|]]]]]; try discriminate L. unfold blt. cbn [app]. rewrite !bcmp_cons. change (b2n x00) with 0%N.
  assert (Z : forall b, (b2n b ?= 0)%N = Lt -> False) by (intros b H; apply N.compare_lt_iff in H; exact (N.nlt_0_r _ H)).
  pose proof (Z b0). pose proof (Z b1). pose proof (Z b2). pose proof (Z b3).
  destruct (b2n b0 ?= 0)%N, (b2n b1 ?= 0)%N, (b2n b2 ?= 0)%N, (b2n b3 ?= 0)%N; auto; try discriminate. destruct rest; discriminate.
Qed.

Lemma compact_misses ix ord pk : blt (key_encode (MkKey xff xff ix ord pk) []) (snd compact_range) -> False.
Proof.
  unfold key_encode. cbn [k_table k_index_id k_index k_order k_pk app]. change (snd compact_range) with [xff; xff; x00; x00; x00; x00].
  unfold blt. rewrite !bcmp_cons, !N.compare_refl. unfold len4 at 1. intros H. exact (zeros_first _ (be_bytes_length 4 _) _ H).
Qed.

(** ** Close *)

Section Close.
  Variable body : nat -> kv -> list act.

  Lemma acts_calm cl l : forall d, c_open d = true -> (forall a, In a l -> a <> AClose /\ a <> APanic) ->
    run_acts cl l d = Returns (CDb (apply_ops (c_kv d) (writes_of l)) true (c_funs d ++ registers_of l) (c_trace d ++ map EWrote (writes_of l))).
  Proof.
    induction l as [|a l IH]; intros [s o fs tr] OP C; cbn [c_open c_kv c_funs c_trace] in *; subst o.
    - cbn [run_acts writes_of registers_of flat_map map apply_ops fold_left]. now rewrite !app_nil_r.
    - assert (C' : forall a0, In a0 l -> a0 <> AClose /\ a0 <> APanic) by (intros a0 J; apply C; now right).
      destruct (C a (or_introl eq_refl)) as [N1 N2]. destruct a as [o|f| |]; try contradiction; cbn [run_acts c_write c_open andthen on_close].
      + rewrite IH by (cbn [c_open]; auto). cbn [c_kv c_funs c_trace writes_of registers_of flat_map map app apply_ops fold_left]. rewrite <- app_assoc. reflexivity.
      + rewrite IH by (cbn [c_open]; auto). cbn [on_close c_kv c_funs c_trace writes_of registers_of flat_map map app apply_ops fold_left]. rewrite <- app_assoc. reflexivity.
  Qed.

  Lemma in_turn_ex fs : forall s, exists s' new tr, in_turn body s fs s' new tr.
  Proof.
    induction fs as [|f fs IH]; intros s; [exists s, [], []; constructor|].
    destruct (IH (apply_ops s (writes_of (body f s)))) as (s' & new & tr & H). do 3 eexists. constructor. exact H.
  Qed.

  Lemma notify_calm cl fs : forall d, c_open d = true -> Forall (calm body) fs -> forall s' new tr, in_turn body (c_kv d) fs s' new tr ->
    notify body cl fs d = Returns (CDb s' true (c_funs d ++ new) (c_trace d ++ tr)).
  Proof.
    induction fs as [|f fs IH]; intros [s o gs t0] OP C s' new tr H; cbn [c_open c_kv c_funs c_trace] in *; subst o; inversion H; subst.
    - cbn [notify]. now rewrite !app_nil_r.
    - inversion C as [|? ? C1 C2]; subst. cbn [notify]. unfold saw. cbn [c_kv c_open c_funs c_trace].
      rewrite acts_calm; [|reflexivity|exact (C1 s)]. cbn [andthen c_kv c_funs c_trace].
      match goal with K : in_turn body _ fs _ _ _ |- _ => rewrite (IH (CDb _ true _ _) eq_refl C2 _ _ _ K) end. cbn [c_kv c_funs c_trace]. rewrite <- !app_assoc. reflexivity.
  Qed.

  Theorem close_calm n d s' new tr : c_open d = true -> Forall (calm body) (c_funs d) -> in_turn body (c_kv d) (c_funs d) s' new tr ->
    close body (S n) d = Returns (CDb s' false (c_funs d ++ new) (c_trace d ++ tr ++ [EClosed])).
  Proof.
    intros OP C H. cbn [close]. rewrite (notify_calm _ _ _ OP C _ _ _ H). cbn [andthen]. unfold pebble_close. cbn [c_open c_kv c_funs c_trace].
    now rewrite <- app_assoc.
  Qed.

  Lemma ran_app a b : ran (a ++ b) = ran a ++ ran b.
  Proof. apply flat_map_app. Qed.

  Lemma ran_writes l : ran (map EWrote l) = [].
  Proof. induction l; auto. Qed.

  Lemma in_turn_ran s fs s' new tr : in_turn body s fs s' new tr -> ran tr = fs /\ ~ In EClosed tr.
  Proof.
    induction 1 as [|s f fs s' new tr H [IH1 IH2]]; [split; [reflexivity|intros []]|]. split.
    - change (ran (ERan f :: map EWrote (writes_of (body f s)) ++ tr)) with (f :: ran (map EWrote (writes_of (body f s)) ++ tr)).
      now rewrite ran_app, ran_writes, IH1.
    - intros [E|I]; [discriminate|]. apply in_app_or in I as [I|I]; [|contradiction]. apply in_map_iff in I as (o & E & _). discriminate.
  Qed.

  (** Close of a closed database. *)
  Theorem close_again n d : c_open d = false -> Forall (calm body) (c_funs d) ->
    exists d', close body (S n) d = Panics d' /\ c_kv d' = c_kv d /\ c_open d' = false.
  Proof.
    intros CL C. cbn [close].
    assert (A : forall l d0, c_open d0 = false -> (forall a, In a l -> a <> AClose /\ a <> APanic) ->
      (exists d1, run_acts (close body n) l d0 = Panics d1 /\ c_kv d1 = c_kv d0 /\ c_open d1 = false) \/
      (exists d1, run_acts (close body n) l d0 = Returns d1 /\ c_kv d1 = c_kv d0 /\ c_open d1 = false)).
    { induction l as [|a l IH]; intros d0 O N; [right; exists d0; auto|]. assert (N' : forall x, In x l -> x <> AClose /\ x <> APanic) by (intros x J; apply N; now right).
      destruct (N a (or_introl eq_refl)) as [N1 N2]. destruct a as [o|f| |]; try contradiction; cbn [run_acts].
      - unfold c_write. rewrite O. left. exists d0. auto.
      - cbn [andthen]. destruct (IH (on_close d0 f) O N') as [X|X]; [left|right]; exact X. }
    assert (B : forall fs d0, c_open d0 = false -> Forall (calm body) fs ->
      (exists d1, notify body (close body n) fs d0 = Panics d1 /\ c_kv d1 = c_kv d0 /\ c_open d1 = false) \/
      (exists d1, notify body (close body n) fs d0 = Returns d1 /\ c_kv d1 = c_kv d0 /\ c_open d1 = false)).
    { induction fs as [|f fs IH]; intros d0 O FC; [right; exists d0; auto|]. inversion FC as [|? ? F1 F2]; subst. cbn [notify].
      destruct (A (body f (c_kv d0)) (saw d0 (ERan f)) O (F1 _)) as [(d1 & E & K1 & K2)|(d1 & E & K1 & K2)]; rewrite E; cbn [andthen]; [left; exists d1; auto|].
      destruct (IH d1 K2 F2) as [(d2 & E2 & K3 & K4)|(d2 & E2 & K3 & K4)]; [left|right]; exists d2; (split; [exact E2|]); (split; [rewrite K3; exact K1|exact K4]). }
    destruct (B (c_funs d) d CL C) as [(d1 & E & K1 & K2)|(d1 & E & K1 & K2)]; rewrite E; cbn [andthen]; [exists d1; auto|].
    unfold pebble_close. rewrite K2. exists d1. auto.
  Qed.

  (** A function that always closes the database. *)
  Theorem close_loops f : (forall s, exists l1 l2, body f s = l1 ++ AClose :: l2 /\ forall a, In a l1 -> a <> AClose /\ a <> APanic) ->
    forall n d before after, c_open d = true -> c_funs d = before ++ f :: after -> Forall (calm body) before -> close body n d = TooDeep.
  Proof.
    intros B n. induction n as [|n IH]; intros d before after OP FS C; [reflexivity|]. cbn [close]. rewrite FS.
    assert (X : forall fs d0, c_open d0 = true -> (exists more, c_funs d0 = before ++ f :: more) -> Forall (calm body) fs -> notify body (close body n) (fs ++ f :: after) d0 = TooDeep).
    { induction fs as [|g fs IH2]; intros d0 O (more & E) FC; cbn [app notify].
      - destruct (B (c_kv d0)) as (l1 & l2 & EB & N1). rewrite EB.
        assert (Y : forall l d1, c_open d1 = true -> (exists m, c_funs d1 = before ++ f :: m) -> (forall a, In a l -> a <> AClose /\ a <> APanic) -> run_acts (close body n) (l ++ AClose :: l2) d1 = TooDeep).
        { induction l as [|a l IH3]; intros d1 O1 (m & E1) NN.
          - cbn [app run_acts]. now rewrite (IH d1 before m O1 E1 C).
          - assert (NN' : forall x, In x l -> x <> AClose /\ x <> APanic) by (intros x J; apply NN; now right).
            destruct (NN a (or_introl eq_refl)) as [N2 N3]. destruct a as [o|h| |]; try contradiction; cbn [app run_acts].
            + unfold c_write. rewrite O1. cbn [andthen]. apply IH3; [reflexivity|exists m; exact E1|exact NN'].
            + cbn [andthen]. apply IH3; [exact O1| |exact NN']. exists (m ++ [h]). cbn [on_close c_funs]. rewrite E1, <- app_assoc. reflexivity. }
        now rewrite (Y l1 (saw d0 (ERan f)) O (ex_intro _ more E) N1).
      - inversion FC as [|? ? F1 F2]; subst. rewrite acts_calm; [|exact O|exact (F1 _)]. cbn [andthen]. apply IH2; [reflexivity| |exact F2].
        exists (more ++ registers_of (body g (c_kv d0))). cbn [saw c_funs]. rewrite E, <- app_assoc. reflexivity. }
    now rewrite (X before d OP (ex_intro _ after FS) C).
  Qed.

  (** A function that panics. *)
  Theorem close_panics n d before f after : c_open d = true -> c_funs d = before ++ f :: after -> Forall (calm body) before ->
    (forall s, exists l1 l2, body f s = l1 ++ APanic :: l2 /\ forall a, In a l1 -> a <> AClose /\ a <> APanic) ->
    exists d' tr, close body (S n) d = Panics d' /\ c_open d' = true /\ c_trace d' = c_trace d ++ tr /\ ran tr = before ++ [f] /\ ~ In EClosed tr.
  Proof.
    intros OP FS C B. cbn [close]. rewrite FS. clear FS. revert d OP. induction before as [|g before IH]; intros d OP; cbn [app notify].
    - destruct (B (c_kv d)) as (l1 & l2 & EB & N1). rewrite EB.
      assert (Y : forall l d1, c_open d1 = true -> (forall a, In a l -> a <> AClose /\ a <> APanic) ->
        exists d2, run_acts (close body n) (l ++ APanic :: l2) d1 = Panics d2 /\ c_open d2 = true /\ c_trace d2 = c_trace d1 ++ map EWrote (writes_of l)).
      { induction l as [|a l IH3]; intros d1 O1 NN.
        - exists d1. cbn. now rewrite app_nil_r.
        - assert (NN' : forall x, In x l -> x <> AClose /\ x <> APanic) by (intros x J; apply NN; now right).
          destruct (NN a (or_introl eq_refl)) as [N2 N3]. destruct a as [o|h| |]; try contradiction; cbn [app run_acts].
          + unfold c_write. rewrite O1. cbn [andthen]. edestruct IH3 as (d2 & E2 & K1 & K2); [| |exists d2; split; [exact E2|]]; [reflexivity|exact NN'|].
            split; [exact K1|]. rewrite K2. cbn [c_trace writes_of flat_map app map]. now rewrite <- app_assoc.
          + cbn [andthen]. destruct (IH3 (on_close d1 h) O1 NN') as (d2 & E2 & K1 & K2). exists d2. auto. }
      destruct (Y l1 (saw d (ERan f)) OP N1) as (d2 & E2 & K1 & K2). rewrite E2. cbn [andthen]. exists d2, (ERan f :: map EWrote (writes_of l1)).
      split; [reflexivity|]. split; [exact K1|]. split; [rewrite K2; cbn [saw c_trace]; now rewrite <- app_assoc|]. split.
      + cbn [app]. change (ran (ERan f :: map EWrote (writes_of l1))) with (f :: ran (map EWrote (writes_of l1))). now rewrite ran_writes.
      + intros [E|I]; [discriminate|]. apply in_map_iff in I as (o & E & _). discriminate.
    - inversion C as [|? ? C1 C2]; subst. rewrite acts_calm; [|exact OP|exact (C1 _)]. cbn [andthen].
      edestruct (IH C2) as (d' & tr & E & K1 & K2 & K3 & K4); [|eexists; exists (ERan g :: map EWrote (writes_of (body g (c_kv d))) ++ tr); split; [exact E|]]; [reflexivity|].
      split; [exact K1|]. split; [rewrite K2; cbn [c_trace saw]; rewrite <- !app_assoc; reflexivity|]. split.
      + change (ran (ERan g :: map EWrote (writes_of (body g (c_kv d))) ++ tr)) with (g :: ran (map EWrote (writes_of (body g (c_kv d))) ++ tr)).
        now rewrite ran_app, ran_writes, K3.
      + intros [E'|I]; [discriminate|]. apply in_app_or in I as [I|I]; [|contradiction]. apply in_map_iff in I as (o & E' & _). discriminate.
  Qed.
End Close.

Theorem close_runs body n d : c_open d = true -> Forall (calm body) (c_funs d) ->
  exists s' new tr, in_turn body (c_kv d) (c_funs d) s' new tr /\ ran tr = c_funs d /\ ~ In EClosed tr /\
    close body (S n) d = Returns (CDb s' false (c_funs d ++ new) (c_trace d ++ tr ++ [EClosed])).
Proof.
  intros OP C. destruct (in_turn_ex body (c_funs d) (c_kv d)) as (s' & new & tr & H). exists s', new, tr.
  destruct (in_turn_ran body _ _ _ _ _ H) as [R1 R2]. split; [exact H|]. split; [exact R1|]. split; [exact R2|]. now apply close_calm.
Qed.

(** Function 1 writes a key and registers function 2; function 3 copies what it finds under that key; function 4 closes; function 5 panics. *)
Definition demo_body (f : nat) (s : kv) : list act :=
  match f with
  | 1 => [AWrite (BSet [x01] [x0a]); ARegister 2]
  | 3 => match kv_get s [x01] with Some v => [AWrite (BSet [x03] v)] | None => [] end
  | 4 => [AWrite (BSet [x04] []); AClose]
  | 5 => [APanic]
  | _ => []
  end.

Lemma demo_calm f : f <> 4 -> f <> 5 -> calm demo_body f.
Proof.
  intros N4 N5 s a. destruct f as [|[|[|[|[|[|f]]]]]]; cbn [demo_body]; try contradiction; try (intros []; fail).
  - intros [<-|[<-|[]]]; split; discriminate.
  - destruct (kv_get s [x01]) as [v|]; [intros [<-|[]]; split; discriminate|intros []].
Qed.

Definition fresh (fs : list nat) : cdb := CDb [] true fs [].
