(** The life of a database with two tables, and what happens to an index that a process does not declare. *)

From Coq Require Import List NArith ZArith Lia Bool Arith.
From Verif.Model Require Import Bytes Go Keys Pebble Index Table Scan Query ReIndex Backup Version.
From Verif.Spec Require Import KeySpec StoreSpec TableSpec HistSpec ScanSpec QuerySpec ReIndexSpec VersionSpec SystemSpec LifeSpec.
From Verif.Proofs Require Import BytesFacts TableFacts HistFacts Witness TableBugs ScanProps ScanBugs QueryBugs ReIndexBugs ConcurBugs VersionFacts SystemFacts SystemWitness LifeFacts.
Import ListNotations.

Notation session2 := (session row2 flt2).

Definition fresh : disk := Disk false None None [].
Definition opens_any (_ : option N) (w : N) : option N := Some w.
Definition no_init (i : bool) (_ : kv) : flt2 i := tt.

(** the tables with these indexes of the accounts *)
Definition with2 (l : list (index acct)) (b : bool) : table (row2 b) (flt2 b) := match b with true => with_indexes accts l | false => nums end.
Definition flag3 : index acct := acct_by_flag x03.
(** only the first write reaches the disk: what the index held is deleted, and no entry stored *)
Definition stops : renv := REnv (fun n => Nat.eqb n 0) 2.

Definition sessions : list session2 :=
  [ SRun row2 flt2 13 (with2 [acct_by_kind; acct_by_score]) no_init
      [(OWrite row2 false true env1 (CInsert [a1; a3]), true); (OSet row2 false user_key [x2a], false)] (EKill row2 1 None);
    SRun row2 flt2 13 (with2 [acct_by_kind; acct_by_score]) no_init
      [(ORead row2 false (RRaw row2 user_key), false); (OBegin row2, false); (OWrite row2 true false env1 (CInsert [7]%Z), false)]
      (EKill row2 0 (Some (Adding row2 true stops [flag3])));
    SMigrate row2 flt2 16 None;
    SRun row2 flt2 16 (with2 [acct_by_score]) no_init
      [(ORead row2 false (RExist row2 false 7%Z), false); (OAddIndex row2 true re_quiet [flag3], true)] (EClose row2 [[OSet row2 false user_key [x2b]]; [ODelete row2 false [x63]]]);
    SRun row2 flt2 16 (with2 [flag3; acct_by_score]) no_init
      [(ORead row2 false (RRaw row2 user_key), false); (ORead row2 false (RQuery row2 true env1 isort on_flag), false)] (EClose row2 []) ].

Definition session_answers : list (option (list (op2 * reply2))) :=
  [ Some [(OWrite row2 false true env1 (CInsert [a1; a3]), AWrite row2 (Ok tt)); (OSet row2 false user_key [x2a], AWrite row2 (Ok tt))];
    Some [(ORead row2 false (RRaw row2 user_key), ARaw row2 (Err ENotFound)); (OBegin row2, AWrite row2 (Ok tt)); (OWrite row2 true false env1 (CInsert [7]%Z), AWrite row2 (Ok tt))];
    None;
    Some [(ORead row2 false (RExist row2 false 7%Z), ABool row2 false); (OAddIndex row2 true re_quiet [flag3], AWrite row2 (Ok tt));
          (OSet row2 false user_key [x2b], AWrite row2 (Ok tt)); (ODelete row2 false [x63], AWrite row2 (Ok tt))];
    Some [(ORead row2 false (RRaw row2 user_key), ARaw row2 (Ok [x2b])); (ORead row2 false (RQuery row2 true env1 isort on_flag), ARows row2 true (Ok [a3; a1]))] ].

Lemma sessions_run : map (option_map (map snd)) (map snd (run_life bool_dec row2 flt2 opens_any 9 fresh sessions)) = map (option_map (map snd)) session_answers.
Proof. vm_compute. reflexivity. Qed.

Lemma can_open v : (v <= max_u64)%N -> usable opens_any v.
Proof. intros H. split; [exact H|discriminate]. Qed.

Lemma declares l0 l : incl l l0 -> NoDup (map ix_id l) -> declared row2 flt2 (with2 l0) (with2 l) no_init.
Proof.
  intros L N. split.
  - intros [|]; [exists l; split; [reflexivity|]; split; [exact L|exact N]|]. exists []. split; [reflexivity|]. split; [intros x []|constructor].
  - intros [|] db K f rest v F; discriminate.
Qed.

Lemma user_not_version : user_key <> data_version_key.
Proof. vm_compute. discriminate. Qed.

Lemma more_good : good_table (more_accts x03).
Proof. destruct accts_good as [_ S F]. constructor; [apply more_lawful; discriminate|exact S|exact F]. Qed.

Ltac incls := intros ? H; repeat (destruct H as [<-|H]; [cbn; auto|]); destruct H.
Ltac distinct := repeat constructor; cbn [In map ix_id acct_by_kind acct_by_score acct_by_flag flag3 new_index]; intuition discriminate.
Ltac plain := repeat constructor; cbn [fst not_version]; try exact user_not_version; try (vm_compute; discriminate).

Lemma score_flag_lawful : lawful (with_indexes accts [acct_by_score; flag3]).
Proof. refine (good_lawful _ (fewer_good (more_accts x03) [acct_by_score; flag3] _ _ more_good)); [incls|distinct]. Qed.

Lemma score_flag_row_ok r : row_ok (schema_of (with_indexes accts [acct_by_score; flag3])) r.
Proof. intros ix H. apply (more_row_ok x03 r). destruct H as [<-|[<-|[]]]; cbn; auto. Qed.

Lemma sessions_orderly : orderly_life bool_dec row2 flt2 opens_any 9 (with2 [acct_by_kind; acct_by_score]) (empty row2) None (combine sessions session_answers).
Proof.
  cbn [sessions session_answers combine orderly_life].
  split; [apply can_open; vm_compute; discriminate|]. split; [now left|]. split; [apply declares; [incls|distinct]|]. split; [plain|]. split; [exact I|]. intros m1.
  split. { split; [accounts|]. split; [|exact I]. split; [now apply own2|]. split; [discriminate|reflexivity]. }
  split. { split; [|congruence]. intros o f [[= <- <-]|[]]. reflexivity. }
  split; [exact I|].
  split; [apply can_open; vm_compute; discriminate|]. split; [now right|]. split; [apply (declares [acct_by_kind; acct_by_score]); [incls|distinct]|]. split; [plain|]. split; [exact I|]. intros m2.
  split. { split; [eexists; split; [reflexivity|]; now apply own2|]. split; [reflexivity|]. split; [|exact I]. write. apply num_ok. vm_compute. repeat constructor. intros []. }
  split. { split; [intros o f []|reflexivity]. }
  split. { apply (more_lawful x03); discriminate. }
  split; [apply can_open; vm_compute; discriminate|]. split; [reflexivity|]. split; [discriminate|].
  split; [apply can_open; vm_compute; discriminate|]. split; [now right|]. split; [apply (declares [acct_by_kind; acct_by_score]); [incls|distinct]|]. split; [plain|]. split; [plain|]. intros m3.
  split. { split; [eexists; split; [reflexivity|exact I]|]. split.
    - split; [reflexivity|]. split; [exact score_flag_lawful|]. split; [reflexivity|]. split; [intros ix [<-|[]]; discriminate|]. intros pk r _. apply score_flag_row_ok.
    - split; [split; [now apply own2|split; [discriminate|reflexivity]]|]. split; [|exact I]. split; [|split; [discriminate|reflexivity]]. intros [|] rest; discriminate. }
  split; [exact I|]. split; [exact I|].
  split; [apply can_open; vm_compute; discriminate|]. split; [now right|]. split; [|split; [plain|]; split; [plain|]]. { split.
    - intros [|]; [exists [flag3; acct_by_score]; split; [reflexivity|]; split; [incls|distinct]|].
      exists []. split; [reflexivity|]. split; [intros x []|constructor].
    - intros [|] db K f rest v F; discriminate. }
  intros m4. split. { split; [eexists; split; [reflexivity|]; now apply own2|]. split; [|exact I].
    eexists. split; [reflexivity|]. split; [exact e1|]. split; [exact q1|]. split; [cbn; lia|]. split; [exact isort_sorts|]. split; [reflexivity|]. split; [reflexivity|].
    split; [|exact I]. intros x [<-|[]]. split; [cbn; auto|]. split.
    - split; [split; vm_compute; reflexivity|vm_compute; discriminate].
    - intros l SL. enough (length l <= 2) by lia.
      refine (one_selection (with_indexes accts [flag3; acct_by_score]) flag3 _ (SPoint (Acct 0 0 0 true)) [a3; a1] l _ eq_refl _ SL).
      change (forall p r, put asc (put asc empty_map a1) a3 p = Some r -> In r [a3; a1]). repeat apply put_from. discriminate. }
  split; [exact I|]. split; [exact I|exact I].
Qed.

(** ** An index that a process does not declare *)
Definition score_query : query acct := q_with (new_query accts) acct_by_score (SRange (Acct 0 0 0 true) (Acct 9 0 9 true)).

(** Three processes that declare these tables: the first makes the first call, the second the second call, the third reads. *)
Definition three (tb1 tb2 tb3 : forall b, table (row2 b) (flt2 b)) (c1 c2 : call acct) : list session2 :=
  [ SRun row2 flt2 13 tb1 no_init [(OWrite row2 false true env1 c1, true)] (EClose row2 []);
    SRun row2 flt2 13 tb2 no_init [(OWrite row2 false true env1 c2, true)] (EClose row2 []);
    SRun row2 flt2 13 tb3 no_init [(ORead row2 false (RExist row2 true a3), false); (ORead row2 false (RQuery row2 true env1 isort score_query), false)] (EClose row2 []) ].
Definition said (l : list session2) : list (option (list reply2)) := map (option_map (map snd)) (map snd (run_life bool_dec row2 flt2 opens_any 9 fresh l)).

Lemma forgotten : exists full less, declared row2 flt2 full less no_init /\
  said (three full full full (CInsert [a1]) (CInsert [a3])) = [Some [AWrite row2 (Ok tt)]; Some [AWrite row2 (Ok tt)]; Some [ABool row2 true; ARows row2 true (Ok [a3; a1])]] /\
  said (three full less full (CInsert [a1]) (CInsert [a3])) = [Some [AWrite row2 (Ok tt)]; Some [AWrite row2 (Ok tt)]; Some [ABool row2 true; ARows row2 true (Ok [a1])]].
Proof.
  exists (with2 [acct_by_kind; acct_by_score]), (with2 [acct_by_kind]). split; [apply declares; [incls|distinct]|]. split; vm_compute; reflexivity.
Qed.

Lemma forgotten_delete : exists full less, declared row2 flt2 full less no_init /\
  said (three full full full (CInsert [a1; a3]) (CDelete [a3])) = [Some [AWrite row2 (Ok tt)]; Some [AWrite row2 (Ok tt)]; Some [ABool row2 false; ARows row2 true (Ok [a1])]] /\
  said (three full less full (CInsert [a1; a3]) (CDelete [a3])) = [Some [AWrite row2 (Ok tt)]; Some [AWrite row2 (Ok tt)]; Some [ABool row2 false; ARows row2 true (Err ENotFound)]].
Proof.
  exists (with2 [acct_by_kind; acct_by_score]), (with2 [acct_by_kind]). split; [apply declares; [incls|distinct]|]. split; vm_compute; reflexivity.
Qed.

(** A process that dies while Open records the version: no later one opens the database. *)
Lemma never_opened : exists n, forall w tb init ops e,
  map snd (run_life bool_dec row2 flt2 opens_any 9 fresh [SStop row2 flt2 13 n; SRun row2 flt2 w tb init ops e]) = [None; None].
Proof. exists 1. reflexivity. Qed.

Lemma sessions_case : map (option_map (map snd)) (map snd (run_life bool_dec row2 flt2 opens_any 9 fresh sessions)) = map (option_map (map snd)) session_answers /\
  orderly_life bool_dec row2 flt2 opens_any 9 (with2 [acct_by_kind; acct_by_score]) (empty row2) None (combine sessions session_answers) /\
  (forall i, good_table (with2 [acct_by_kind; acct_by_score] i)) /\ (forall i j, t_id (with2 [acct_by_kind; acct_by_score] i) = t_id (with2 [acct_by_kind; acct_by_score] j) -> i = j) /\
  (forall i, t_id (with2 [acct_by_kind; acct_by_score] i) <> x00).
Proof.
  split; [exact sessions_run|]. split; [exact sessions_orderly|]. split; [intros [|]; [exact accts_good|exact nums_good]|].
  split; [intros [|] [|]; cbn; congruence || discriminate|]. intros [|]; discriminate.
Qed.
