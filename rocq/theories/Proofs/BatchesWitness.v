(** Several batches on a database with two tables, and what happens when they share a row. *)

From Coq Require Import List NArith ZArith Lia Bool Sorting.Sorted Arith.
From Verif.Model Require Import Bytes Go Keys Pebble Index Table Scan Query ReIndex.
From Verif.Spec Require Import KeySpec StoreSpec TableSpec HistSpec ScanSpec QuerySpec ReIndexSpec SystemSpec BatchesSpec.
From Verif.Proofs Require Import BytesFacts TableFacts HistFacts Witness TableBugs ScanProps ScanBugs QueryBugs ReIndexBugs ConcurBugs SystemFacts SystemWitness BatchesFacts.
Import ListNotations.

Notation mop2 := (mop row2).

Definition mstart (db : kv) : msys row2 flt2 := MSys row2 flt2 db tbl2 (fun _ => tt) (fun _ => None).
Definition mworld2 : mworld row2 flt2 := MWorld row2 flt2 tbl2 (empty row2) (fun _ => SNone row2).

Definition a3' := Acct 3 12 5 true.
Definition accounts_of (who : option nat) (idx : index acct) (sel : selector acct) : mop2 := MRead row2 who (RScan row2 true env1 idx sel false).

Definition week : list mop2 :=
  [ MWrite row2 None true env1 (CInsert [a1; a3]);
    MBegin row2 0;
    MBegin row2 1;
    MWrite row2 (Some 0) true env1 (CUpdate [a1']);
    MWrite row2 (Some 1) true env1 (CInsert [a2]);
    MRaw row2 (Some 1) (BSet user_key [x2a]);
    MWrite row2 None false env1 (CInsert [7; 9]%Z);
    MWrite row2 None true env1 (CUpdate [a3']);
    accounts_of (Some 0) primary_index everyone;
    MRead row2 (Some 1) (RGet row2 true a1);
    MCommit row2 0 true;
    MRead row2 (Some 1) (RGet row2 true a1);
    MBegin row2 0;
    MWrite row2 (Some 0) false env1 (CDelete [7]%Z);
    MApply row2 0 1;
    MClose row2 1;
    MRead row2 None (RExist row2 true a2);
    MCommit row2 0 true;
    accounts_of None primary_index everyone;
    MRead row2 None (RExist row2 false 7%Z);
    MRaw row2 None (BDelRange [x64] [x65]);
    MRead row2 None (RRaw row2 user_key) ].

Definition wok : reply2 := AWrite row2 (Ok tt).
Definition found (l : list acct) : reply2 := AScan row2 true (l, Ok tt).

Definition week_answers : list reply2 :=
  [ wok; wok; wok; wok; wok; wok; wok; wok; found [a1'; a3']; ARow row2 true (Ok a1); wok; ARow row2 true (Ok a1'); wok; wok; wok; wok;
    ABool row2 false; wok; found [a1'; a2; a3']; ABool row2 false; wok; ARaw row2 (Err ENotFound) ].

Lemma week_run : map snd (run_mops bool_dec row2 flt2 9 (mstart []) week) = week_answers.
Proof. vm_compute. reflexivity. Qed.

(** ** The calls are those the claim is about *)

Definition mcall_at n : mop2 := nth n week (MClose row2 0).
Definition manswer_at n : reply2 := nth n week_answers (AWrite row2 Panic).
Fixpoint mworld_at (n : nat) : mworld row2 flt2 :=
  match n with 0 => mworld2 | S n => mnext bool_dec row2 flt2 (mworld_at n) (mcall_at n) (manswer_at n) end.

Lemma mproper_from n : forall k, k + n = length week -> (forall i, k <= i < length week -> mproper row2 flt2 9 (mworld_at i) (mcall_at i)) ->
  all_mproper bool_dec row2 flt2 9 (mworld_at k) (combine (skipn k week) (skipn k week_answers)).
Proof.
  induction n as [|n IH]; intros k E H.
  - rewrite (skipn_all2 week) by lia. exact I.
  - assert (A : skipn k week = mcall_at k :: skipn (S k) week).
    { apply (skipn_cons (MClose row2 0)). lia. }
    assert (B : skipn k week_answers = manswer_at k :: skipn (S k) week_answers).
    { apply (skipn_cons (AWrite row2 Panic)). change (length week_answers) with (length week). lia. }
    rewrite A, B. cbn [combine all_mproper]. split; [apply H; lia|]. apply (IH (S k)); [lia|]. intros i L. apply H. lia.
Qed.

Definition holds_none {A} (o : option A) : bool := match o with None => true | Some _ => false end.
Definition other (who : option nat) (n : nat) : bool := match who with Some m => negb (Nat.eqb m n) | None => true end.

(** only the batches 0 and 1 are there, and those not given hold no change to the rows *)
Lemma two_free (w : mworld row2 flt2) who i c : (forall n, v_bs _ _ w (S (S n)) = SNone _) ->
  forallb (fun n => negb (other who n) || match v_bs _ _ w n with
    | SOpen _ ch => forallb (fun r => holds_none (ch_rows _ ch i (s_pk (schema_of (v_tb _ _ w i)) r))) (rows_of c) | _ => true end) [0; 1] = true ->
  rows_free row2 flt2 who w i c.
Proof.
  intros Z H n ch p N V B. assert (L : In n [0; 1]).
  { destruct n as [|[|n]]; [now left|right; now left|]. rewrite Z in V. discriminate. }
  rewrite forallb_forall in H. specialize (H n L). rewrite V in H. assert (O : other who n = true).
  { unfold other. destruct who as [m|]; auto. destruct (Nat.eqb_spec m n); [congruence|reflexivity]. }
  rewrite O in H. cbn [negb orb] in H. rewrite forallb_forall in H. apply existsb_exists in B as (r & IN & E). apply beqb_eq in E. subst p.
  specialize (H r IN). destruct (ch_rows _ ch i _); [discriminate|reflexivity].
Qed.

Ltac mwrite := split; [exact e1|]; split; [apply two_free; [reflexivity|vm_compute; reflexivity]|]; eexists; split; [reflexivity|].
Ltac maccounts := mwrite; apply accts_writes, acct_nodup; vm_compute; reflexivity.
Ltac mdone := reflexivity || discriminate || (eexists; reflexivity).

Ltac opened n ch N V := destruct n as [|[|n]]; try discriminate V; try (exfalso; apply N; reflexivity); injection V as <-.

Lemma mowned (w : mworld row2 flt2) : (forall i, t_id (v_tb _ _ w i) = t_id (tbl2 i)) -> own_key row2 flt2 (table_world _ _ w) user_key.
Proof. intros E i rest. cbn [table_world w_tb]. rewrite E. destruct i; discriminate. Qed.

Lemma everyone_exact (m : tmap acct) : exact_selector accts primary_index m everyone.
Proof. split; [split; vm_compute; reflexivity|]. apply acct_end; [split; vm_compute; reflexivity|vm_compute; discriminate]. Qed.

Definition those : list acct := [a1; a3; a1'; a2; a3'].

(** every account in the world is one of those *)
Lemma from_effect m c : match c with CInsert l | CUpdate l => incl l those | _ => False end ->
  (forall p r, m p = Some r -> In r those) -> forall p r, effect asc m c p = Some r -> In r those.
Proof.
  assert (PUTS : forall l m, incl l those -> (forall p r, m p = Some r -> In r those) -> forall p r, puts asc m l p = Some r -> In r those).
  { clear. induction l as [|x l IH]; intros m IN H p r E; [eauto|]. apply (IH (put asc m x)) in E; auto.
    - intros y Y. apply IN. now right.
    - intros p' r'. unfold put. destruct (beqb p' (s_pk asc x)); [intros [= <-]; apply IN; now left|apply H]. }
  destruct c as [l|l|f l|l]; try easy; intros IN H p r; cbn [effect]; apply PUTS; auto.
Qed.

Definition writes_those (o : mop2) : Prop :=
  match o with
  | MWrite _ _ i _ c => match i as b return call (row2 b) -> Prop with
                        | true => fun c => match c with CInsert l | CUpdate l => incl l those | _ => False end
                        | false => fun _ => True
                        end c
  | MAddIndex _ _ _ _ => False
  | _ => True
  end.

Definition only_those (w : mworld row2 flt2) : Prop :=
  (forall i, v_tb _ _ w i = tbl2 i) /\
  (forall p r, c_rows row2 (v_now _ _ w) true p = Some r -> In r those) /\
  (forall n ch p r, v_bs _ _ w n = SOpen _ ch -> ch_rows row2 ch true p = Some (Some r) -> In r those).

Lemma over_those (c : content row2) ch : (forall p r, c_rows row2 c true p = Some r -> In r those) ->
  (forall p r, ch_rows row2 ch true p = Some (Some r) -> In r those) -> forall p r, c_rows row2 (over _ c ch) true p = Some r -> In r those.
Proof. intros A B p r. cbn [over c_rows]. destruct (ch_rows row2 ch true p) as [v|] eqn:E; [intros ->; eauto|eauto]. Qed.

Lemma leave_those w who d : only_those w -> (forall p r, ch_rows row2 d true p = Some (Some r) -> In r those) -> only_those (mleave _ _ who w d).
Proof.
  intros (T & A & B) D. destruct who as [n|]; cbn [mleave]; (split; [exact T|]); cbn [v_now v_bs]; split.
  - exact A.
  - intros m ch p r. unfold put_at. destruct (Nat.eqb_spec m n) as [->|N]; [|apply B].
    destruct (v_bs _ _ w n) as [|ch0|] eqn:E; try discriminate. intros [= <-]. cbn [then_ch ch_rows].
    destruct (ch_rows row2 d true p) as [v|] eqn:E2; [intros [= ->]; eauto|eapply B; eauto].
  - apply over_those; auto.
  - exact B.
Qed.

Lemma put_those (w : mworld row2 flt2) n st : only_those w -> (forall ch p r, st = SOpen _ ch -> ch_rows row2 ch true p = Some (Some r) -> In r those) ->
  only_those (MWorld _ _ (v_tb _ _ w) (v_now _ _ w) (put_at (v_bs _ _ w) n st)).
Proof.
  intros (T & A & B) S. split; [exact T|]. split; [exact A|]. cbn [v_bs]. intros m ch p r. unfold put_at. destruct (Nat.eqb_spec m n) as [->|N]; [eauto|apply B].
Qed.

Lemma step_those w o x : only_those w -> writes_those o -> only_those (mnext bool_dec _ _ w o x).
Proof.
  intros W O. pose proof W as (T & A & B). destruct o as [who i ev c|who o|who r|i ev idxs|n|n ok|into from|n]; cbn [mnext].
  - assert (F : only_those (mfail _ _ who w)).
    { destruct who as [n|]; cbn [mfail]; auto. apply put_those; auto. discriminate. }
    destruct (mseen _ _ who w) as [ct|] eqn:SE; auto. destruct x as [[[]| | |]| | | | |]; auto. apply leave_those; auto.
    intros p r. cbn [call_changes ch_rows]. unfold upd. destruct i; [|discriminate]. cbn [bool_dec bool_rec bool_rect eq_rect].
    destruct (about _ _ w true c p); [|discriminate]. intros [= E]. cbn [writes_those] in O. rewrite (T true) in E.
    eapply (from_effect (c_rows row2 ct true) c); eauto. clear E p r. destruct who as [n|]; cbn [mseen] in SE.
    + destruct (v_bs _ _ w n) as [|ch|] eqn:V; try discriminate. injection SE as <-. apply over_those; auto. intros p r. eapply B; eauto.
    + injection SE as <-. exact A.
  - apply leave_those; auto. cbn [raw_changes ch_rows]. discriminate.
  - exact W.
  - destruct O.
  - apply put_those; auto. intros ch p r [= <-]. discriminate.
  - assert (P : only_those (MWorld _ _ (v_tb _ _ w) (v_now _ _ w) (put_at (v_bs _ _ w) n (SNone _)))) by (apply put_those; auto; discriminate).
    destruct (v_bs _ _ w n) as [|ch|] eqn:V; auto. destruct x as [[[]| | |]| | | | |]; auto. destruct P as (P1 & P2 & P3). split; [exact P1|]. split; [|exact P3].
    cbn [v_now]. apply over_those; auto. intros p r. eapply B; eauto.
  - destruct (v_bs _ _ w into) as [|a|] eqn:VA; auto. destruct (v_bs _ _ w from) as [|b|] eqn:VB; auto.
    apply (put_those (MWorld _ _ (v_tb _ _ w) (v_now _ _ w) (put_at (v_bs _ _ w) into (SOpen _ (then_ch _ a b)))) from (SSpent _)); [|discriminate].
    apply put_those; auto. intros ch p r [= <-]. cbn [then_ch ch_rows]. destruct (ch_rows row2 b true p) eqn:E; [intros [= ->]; eapply B; eauto|eapply B; eauto].
  - apply put_those; auto. discriminate.
Qed.

Lemma week_those : forall n, only_those (mworld_at n).
Proof.
  assert (W : Forall writes_those week).
  { repeat (apply Forall_cons; [cbn [writes_those]; first [exact I|intros x; unfold those; cbn [In]; tauto]|]). apply Forall_nil. }
  induction n as [|n IH]; cbn [mworld_at].
  - split; [reflexivity|]. split; discriminate.
  - apply step_those; auto. unfold mcall_at. destruct (nth_in_or_default n week (MClose row2 0)) as [IN|E]; [|rewrite E; exact I]. rewrite Forall_forall in W. auto.
Qed.

Lemma scan_fits n who ct l : mseen _ _ who (mworld_at n) = Some ct -> selected accts primary_index (c_rows row2 ct true) everyone l -> length l <= 9.
Proof.
  intros SE SL. enough (length l <= 5) by lia. refine (one_selection accts primary_index (c_rows row2 ct true) everyone those l _ eq_refl _ SL).
  destruct (week_those n) as (T & A & B). destruct who as [k|]; cbn [mseen] in SE.
  - destruct (v_bs _ _ (mworld_at n) k) as [|ch|] eqn:V; try discriminate. injection SE as <-. apply over_those; auto. intros p r. eapply B; eauto.
  - injection SE as <-. exact A.
Qed.

Ltac mscan := eexists; split; [reflexivity|]; split; [exact e1|]; split; [exact q1|]; split; [cbn; lia|]; split; [now left|]; split; [apply everyone_exact|];
  intros l SL; match goal with |- length l <= 9 => idtac end.

Lemma mproper_8 : mproper row2 flt2 9 (mworld_at 8) (mcall_at 8).
Proof. mscan. exact (scan_fits 8 (Some 0) _ l eq_refl SL). Qed.
Lemma mproper_18 : mproper row2 flt2 9 (mworld_at 18) (mcall_at 18).
Proof. mscan. exact (scan_fits 18 None _ l eq_refl SL). Qed.

Lemma mproper_5 : mproper row2 flt2 9 (mworld_at 5) (mcall_at 5).
Proof.
  split; [discriminate|]. split.
  - intros n ch k N V _. destruct n as [|[|n]]; [injection V as <-; reflexivity|exfalso; now apply N|discriminate V].
  - intros k H. apply beqb_eq in H. subst k. now apply mowned; intros [|].
Qed.
Lemma mproper_20 : mproper row2 flt2 9 (mworld_at 20) (mcall_at 20).
Proof.
  split; [discriminate|]. split.
  - intros n ch k N V _. destruct n as [|[|n]]; discriminate V.
  - intros k H i rest ->. destruct i; vm_compute in H; discriminate.
Qed.
Lemma num_delete m : admissible (schema_of nums) m (CDelete [7]%Z).
Proof. split; [rewrite Forall_forall; intros r _ ix []|]. intros r o _ _ ix []. Qed.

Lemma week_proper : all_mproper bool_dec row2 flt2 9 mworld2 (combine week week_answers).
Proof.
  apply (mproper_from 22 0 eq_refl). intros i [_ L]. change (length week) with 22 in L.
  destruct i as [|i]; [maccounts|]. destruct i as [|i]; [mdone|]. destruct i as [|i]; [mdone|].
  destruct i as [|i]; [maccounts|]. destruct i as [|i]; [maccounts|]. destruct i as [|i]; [exact mproper_5|].
  destruct i as [|i]; [mwrite; apply num_ok; vm_compute; repeat constructor; cbn; intuition discriminate|].
  destruct i as [|i]; [maccounts|]. destruct i as [|i]; [exact mproper_8|]. destruct i as [|i]; [eexists; split; [reflexivity|exact I]|].
  destruct i as [|i]; [mdone|]. destruct i as [|i]; [eexists; split; [reflexivity|exact I]|]. destruct i as [|i]; [mdone|].
  destruct i as [|i]; [mwrite; apply num_delete|]. destruct i as [|i]; [split; [discriminate|]; split; eexists; reflexivity|].
  destruct i as [|i]; [mdone|]. destruct i as [|i]; [eexists; split; [reflexivity|exact I]|]. destruct i as [|i]; [mdone|].
  destruct i as [|i]; [exact mproper_18|]. destruct i as [|i]; [eexists; split; [reflexivity|exact I]|]. destruct i as [|i]; [exact mproper_20|].
  destruct i as [|i]; [eexists; split; [reflexivity|]; now apply mowned; intros [|]|]. lia.
Qed.

(** ** Batches that share a row *)

Definition kind (n : N) : selector acct := SPoint (Acct 0 n 9 true).
Definition a1_in (n : N) := Acct 1 n 6 true.
Definition by_flag (who : option nat) : mop2 := accounts_of who (acct_by_flag x03) (SPoint (Acct 0 0 0 true)).

(** two batches move the row to different kinds: both entries stay *)
Lemma two_batches : map snd (run_mops bool_dec row2 flt2 9 (mstart (stored accts tt [a1]))
  [ MBegin row2 0; MBegin row2 1; MWrite row2 (Some 0) true env1 (CUpdate [a1_in 11]); MWrite row2 (Some 1) true env1 (CUpdate [a1_in 12]);
    MCommit row2 0 true; MCommit row2 1 true;
    accounts_of None acct_by_kind (kind 11); accounts_of None acct_by_kind (kind 12) ])
  = [wok; wok; wok; wok; wok; wok; found [a1_in 12]; found [a1_in 12]].
Proof. vm_compute. reflexivity. Qed.

(** a direct write beside the batch *)
Lemma beside_batch : map snd (run_mops bool_dec row2 flt2 9 (mstart (stored accts tt [a1]))
  [ MBegin row2 0; MWrite row2 (Some 0) true env1 (CUpdate [a1_in 11]); MWrite row2 None true env1 (CUpdate [a1_in 12]); MCommit row2 0 true;
    MRead row2 None (RGet row2 true a1); accounts_of None acct_by_kind (kind 12) ])
  = [wok; wok; wok; wok; ARow row2 true (Ok (a1_in 11)); found [a1_in 11]].
Proof. vm_compute. reflexivity. Qed.

(** two batches insert the same new row *)
Lemma twice_inserted : map snd (run_mops bool_dec row2 flt2 9 (mstart [])
  [ MBegin row2 0; MBegin row2 1; MWrite row2 (Some 0) true env1 (CInsert [a1_in 11]); MWrite row2 (Some 1) true env1 (CInsert [a1_in 12]);
    MCommit row2 0 true; MCommit row2 1 true; MRead row2 None (RGet row2 true a1); accounts_of None acct_by_kind (kind 11) ])
  = [wok; wok; wok; wok; wok; wok; ARow row2 true (Ok (a1_in 12)); found [a1_in 12]].
Proof. vm_compute. reflexivity. Qed.

(** an index added while a batch is open *)
Lemma index_beside_batch : map snd (run_mops bool_dec row2 flt2 9 (mstart [])
  [ MBegin row2 0; MWrite row2 (Some 0) true env1 (CInsert [a1]); MAddIndex row2 true re_quiet [acct_by_flag x03]; MCommit row2 0 true;
    MRead row2 None (RGet row2 true a1); by_flag None ])
  = [wok; wok; wok; wok; ARow row2 true (Ok a1); found []].
Proof. vm_compute. reflexivity. Qed.
