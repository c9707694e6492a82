(** Initialising a filter while the table is in use: concrete runs. *)

From Coq Require Import List NArith Lia Bool Sorting.Permutation Arith.
From Verif.Model Require Import Bytes Go Keys Pebble Index Table Scan AnyScan Bloom Concur LiveFilter.
From Verif.Spec Require Import KeySpec TableSpec HistSpec ConcurSpec BloomSpec.
From Verif.Proofs Require Import BytesFacts PebbleFacts TableFacts Witness TableBugs ScanBugs BloomFacts FilterFacts FilterBugs ConcurFacts ConcurRows ConcurBugs LiveFilterFacts.
Import ListNotations.

(** The accounts with a filter that is not initialised yet and an empty store. *)
Definition iz_accts : table acct (initializable (bloom demo_config)) := acct_table (Some (iz_filt dfilt)).
Lemma iz_accts_good : good_table iz_accts.
Proof. apply acct_good. intros f E. injection E as <-. apply iz_filt_ok, bloom_filt_ok; [exact demo_hashes_ok|cbn; lia]. Qed.

Definition load_from (s : kv) (b : bloom demo_config) : bloom demo_config * res unit :=
  (Bloom (fst (bloom_load db_storer demo_codec demo_config s (bl_bs b)))
     (eq_trans (proj1 (load_grows demo_config db_storer demo_codec s (bl_bs b) _ _ (surjective_pairing _))) (bl_len b)),
   snd (bloom_load db_storer demo_codec demo_config s (bl_bs b))).
Lemma load_from_ok s b : (bl_bs (fst (load_from s b)), snd (load_from s b)) = bloom_load db_storer demo_codec demo_config s (bl_bs b).
Proof. cbn. symmetry. apply surjective_pairing. Qed.

Definition live_run (h : list (env acct * call acct)) (sch : list who) :=
  run_live iz_accts dfilt (load_from []) (Ok tt) sch
    (live_start iz_accts one_stored new_demo h [own_scanner iz_accts env1 (fun r => r)]).

(** The calls on different rows: some rows come before the scan, some during it, some after it. *)
Definition mixed : list who := [Call 0; Init; Call 2; Init; Call 1; Init; Call 2; Init; Call 0; Init; Call 3; Init; Init; Call 0; Call 1; Init].
Definition seen (y : lsys (T:=acct) (FI:=bloom demo_config)) (id : N) : res acct :=
  get_point iz_accts (y_db (lv_sys y)) (y_flt (lv_sys y)) None (Acct id 0 0 false).

(** An Update has read its row; then the row is deleted, the filter is initialised, and the Update commits. *)
Definition changed_deleted : list (env acct * call acct) := call_pair (CUpdate [Acct 1 11 0 true]) (CDelete [Acct 1 10 0 true]).
Definition between : list who := [Call 0; Call 1; Call 1; Init; Init; Init; Init; Init; Init; Call 0].

Lemma updated_unseen : exists h sch y, h = changed_deleted /\ y = live_run h sch /\
  map snd (finished (lv_sys y)) = [Ok tt; Ok tt] /\ lv_init y = PEnd (Ok tt) /\
  get_point (no_filter iz_accts) (y_db (lv_sys y)) (y_flt (lv_sys y)) None (Acct 1 0 0 false) = Ok (Acct 1 11 0 true) /\ seen y 1 = Err ENotFound.
Proof.
  exists changed_deleted, between. eexists. split; [reflexivity|]. split; [reflexivity|]. vm_compute. auto.
Qed.

Lemma one_stored_rep : kv_ok one_stored /\ Rep (schema_of iz_accts) one_stored one_map.
Proof. destruct one_stored_consistent as [K R _]. split; [exact K|exact R]. Qed.

Lemma apart_zero : forall ec r, In ec apart -> In r (rows_of (snd ec)) -> bcmp (s_pk asc (t_empty iz_accts)) (s_pk asc r) <> Gt.
Proof.
  assert (X : forallb (fun ec => forallb (fun r => match bcmp (s_pk asc (t_empty iz_accts)) (s_pk asc r) with Gt => false | _ => true end) (rows_of (snd ec))) apart = true)
    by (vm_compute; reflexivity).
  intros ec r H1 H2 E. rewrite forallb_forall in X. specialize (X ec H1). rewrite forallb_forall in X. specialize (X r H2).
  cbn beta in X. rewrite E in X. discriminate.
Qed.

Lemma one_map_zero : forall p r, one_map p = Some r -> bcmp (s_pk asc (t_empty iz_accts)) p <> Gt.
Proof.
  intros p r H. unfold one_map, put in H. destruct (beqb p (s_pk asc (Acct 1 10 0 true))) eqn:E; [|discriminate].
  apply beqb_eq in E as ->. vm_compute. discriminate.
Qed.

Lemma live_case :
  t_filter iz_accts = Some (iz_filt dfilt) /\ good_table iz_accts /\ kv_ok one_stored /\ Rep (schema_of iz_accts) one_stored one_map /\
  Forall (fun ec => env_ok (fst ec)) apart /\ Forall (admissible asc one_map) (map snd apart) /\ ForallOrdPairs (disjoint asc) (map snd apart) /\
  bloom_run db_storer demo_codec demo_hashes demo_config [] (new_bloom demo_config) [] = ([], new_bloom demo_config, []) /\
  (forall b, (bl_bs (fst (load_from [] b)), snd (load_from [] b)) = bloom_load db_storer demo_codec demo_config [] (bl_bs b)) /\
  snd (bloom_clear db_storer demo_config []) = Ok tt /\ snd (bloom_load db_storer demo_codec demo_config [] (new_bloom demo_config)) <> Ok tt /\
  (forall p r, one_map p = Some r -> bcmp (s_pk asc (t_empty iz_accts)) p <> Gt) /\
  (forall ec r, In ec apart -> In r (rows_of (snd ec)) -> bcmp (s_pk asc (t_empty iz_accts)) (s_pk asc r) <> Gt) /\
  let y := live_run apart mixed in
  map (fun f => ok_of (snd f)) (finished (lv_sys y)) = [true; true; true; false] /\ lv_init y = PEnd (Ok tt) /\
  map (seen y) [1; 2; 3; 4; 9; 5]%N = [Ok (Acct 1 11 7 true); Ok (Acct 2 20 0 true); Ok (Acct 3 20 5 true); Ok (Acct 4 10 1 false); Ok (Acct 9 1 1 true); Err ENotFound].
Proof.
  split; [reflexivity|]. split; [exact iz_accts_good|]. destruct one_stored_rep as [K R]. split; [exact K|]. split; [exact R|].
  split; [exact apart_envs|]. split; [exact apart_admissible|]. split; [exact apart_disjoint|]. split; [reflexivity|].
  split; [exact (load_from_ok [])|]. split; [reflexivity|]. split; [discriminate|]. split; [exact one_map_zero|]. split; [exact apart_zero|].
  vm_compute. auto.
Qed.
