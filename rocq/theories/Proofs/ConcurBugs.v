(** Concurrent calls on the same row: concrete schedules no serial order explains. *)

From Coq Require Import List NArith Lia Bool Sorting.Permutation Arith.
From Verif.Model Require Import Bytes Go Keys Pebble Index Table Concur.
From Verif.Spec Require Import KeySpec TableSpec HistSpec ConcurSpec.
From Verif.Proofs Require Import BytesFacts PebbleFacts TableFacts Witness TableBugs ConcurFacts ConcurRows.
Import ListNotations.

(** Two calls that both returned: only two orders to rule out. *)
Lemma two_orders {T F} (tb : table T F) db fl y (a b : env T * call T * res unit) :
  finished y = [a; b] ->
  (forall fl', run_serial tb db fl [fst a; fst b] <> (y_db y, fl', [snd a; snd b])) ->
  (forall fl', run_serial tb db fl [fst b; fst a] <> (y_db y, fl', [snd b; snd a])) ->
  ~ serializable tb db fl y.
Proof.
  intros E H1 H2 [o [fl' [P R]]]. rewrite E in P. apply Permutation_sym, Permutation_length_2_inv in P as [-> | ->].
  - apply (H1 fl'). exact R.
  - apply (H2 fl'). exact R.
Qed.

Definition call_pair (c d : call acct) : list (env acct * call acct) := [(demo_env 10, c); (demo_env 10, d)].
(** both calls read, then both commit *)
Definition both_read : list nat := [0; 1; 0; 1].

Definition two_inserts := call_pair (CInsert [Acct 1 10 0 true]) (CInsert [Acct 1 11 0 true]).
Definition two_updates := call_pair (CUpdate [Acct 1 11 0 true]) (CUpdate [Acct 1 12 0 true]).
Definition adding (old new : acct) : acct := Acct (a_id new) (a_kind new) (a_score old + a_score new) (a_on new).
Definition two_upserts := call_pair (CUpsert adding [Acct 1 10 1 true]) (CUpsert adding [Acct 1 10 2 true]).

Lemma inserts_race : exists sch y, y = run_sched accts sch (start accts [] tt two_inserts) /\
  finished y = map (fun ec => (ec, Ok tt)) two_inserts /\ ~ serializable accts [] tt y /\ (forall m', ~ Rep asc (y_db y) m').
Proof.
  exists both_read. eexists. split; [reflexivity|]. split; [vm_compute; reflexivity|]. split.
  - eapply (two_orders _ _ _ _ (_, Ok tt) (_, Ok tt)); [vm_compute; reflexivity|..]; intros fl' H; vm_compute in H; discriminate.
  - eapply (stale_other _ (Acct 1 10 0 true) (Acct 1 11 0 true)); vm_compute; reflexivity.
Qed.

Lemma updates_race : exists sch y, y = run_sched accts sch (start accts one_stored tt two_updates) /\
  finished y = map (fun ec => (ec, Ok tt)) two_updates /\ ~ serializable accts one_stored tt y /\ (forall m', ~ Rep asc (y_db y) m').
Proof.
  exists both_read. eexists. split; [reflexivity|]. split; [vm_compute; reflexivity|]. split.
  - eapply (two_orders _ _ _ _ (_, Ok tt) (_, Ok tt)); [vm_compute; reflexivity|..]; intros fl' H; vm_compute in H; discriminate.
  - eapply (stale_other _ (Acct 1 11 0 true) (Acct 1 12 0 true)); vm_compute; reflexivity.
Qed.

Definition score_of (db : kv) : option N :=
  match get_point accts db tt None (Acct 1 0 0 false) with Ok r => Some (a_score r) | _ => None end.

Lemma upserts_race : exists sch y, y = run_sched accts sch (start accts one_stored tt two_upserts) /\
  finished y = map (fun ec => (ec, Ok tt)) two_upserts /\ ~ serializable accts one_stored tt y /\
  score_of (y_db y) = Some 2%N /\
  (forall o, Permutation o two_upserts -> score_of (fst (fst (run_serial accts one_stored tt o))) = Some 3%N).
Proof.
  exists both_read. eexists. split; [reflexivity|]. split; [vm_compute; reflexivity|]. split; [|split; [vm_compute; reflexivity|]].
  - eapply (two_orders _ _ _ _ (_, Ok tt) (_, Ok tt)); [vm_compute; reflexivity|..]; intros fl' H; vm_compute in H; discriminate.
  - intros o P. apply Permutation_sym, Permutation_length_2_inv in P as [-> | ->]; vm_compute; reflexivity.
Qed.

(** ** Calls on different rows, for the theorem about any schedule *)

Definition apart : list (env acct * call acct) :=
  [(demo_env 1, CInsert [Acct 2 20 0 true; Acct 3 20 5 true]);
   (demo_env 10, CUpsert adding [Acct 1 11 7 true; Acct 4 10 1 false]);
   (demo_env 10, CInsert [Acct 9 1 1 true]); (demo_env 10, CUpdate [Acct 8 1 1 true])].

Lemma apart_envs : Forall (fun ec => env_ok (fst ec)) apart.
Proof. repeat constructor; cbn [fst]; apply demo_env_ok; lia. Qed.

Definition one_map : tmap acct := put asc empty_map (Acct 1 10 0 true).

Lemma apart_disjoint : ForallOrdPairs (disjoint asc) (map snd apart).
Proof.
  assert (D : forall c d, forallb (fun r => forallb (fun r' => negb (beqb (s_pk asc r) (s_pk asc r'))) (rows_of d)) (rows_of c) = true -> disjoint asc c d).
  { intros c d H r r' Hr Hr'. rewrite forallb_forall in H. specialize (H r Hr). rewrite forallb_forall in H. specialize (H r' Hr').
    apply negb_true_iff, beqb_neq in H. exact H. }
  repeat constructor; apply D; vm_compute; reflexivity.
Qed.

Lemma acct_nodup (l : list acct) : forallb (fun i => forallb (fun j => Nat.eqb i j || negb (beqb (nth i (map (s_pk asc) l) []) (nth j (map (s_pk asc) l) [])))
  (seq 0 (length l))) (seq 0 (length l)) = true -> NoDup (map (s_pk asc) l).
Proof.
  intro H. apply (NoDup_nth _ []). rewrite map_length. intros i j Hi Hj E. rewrite forallb_forall in H.
  specialize (H i ltac:(apply in_seq; lia)). rewrite forallb_forall in H. specialize (H j ltac:(apply in_seq; lia)).
  apply orb_true_iff in H as [H|H]; [apply Nat.eqb_eq; exact H|]. apply negb_true_iff, beqb_neq in H. exfalso. apply H. exact E.
Qed.

Lemma apart_admissible : Forall (admissible asc one_map) (map snd apart).
Proof.
  cbn [map snd apart]. constructor; [|constructor; [|constructor; [|constructor; [|constructor]]]]; (split; [apply acct_rows_ok|]).
  - apply acct_nodup. vm_compute. reflexivity.
  - split; [apply acct_nodup; vm_compute; reflexivity|]. intros old r E _ _. split; [reflexivity|apply acct_row_ok].
  - apply acct_nodup. vm_compute. reflexivity.
  - apply acct_nodup. vm_compute. reflexivity.
Qed.

Lemma rows_case :
  let h := two_updates ++ [(demo_env 10, CDelete [Acct 5 1 1 true; Acct 5 1 1 true])] in
  kv_ok one_stored /\ rows_are asc one_stored one_map /\
  Forall (fun ec => env_ok (fst ec) /\ blind (snd ec) /\ once asc (snd ec)) h /\
  map snd (returned accts (start accts one_stored tt h) [1; 0; 2; 1; 2; 0]) = [Ok tt; Ok tt; Ok tt].
Proof.
  intro h. destruct one_stored_consistent as [K R _]. split; [exact K|]. split; [|split; [|vm_compute; reflexivity]].
  - intro p. apply (rep_get _ _ _ R).
  - repeat (constructor; [split; [apply demo_env_ok; lia|split; [exact I|]]|]); [| | |constructor]; cbn [once snd];
      try exact I; apply acct_nodup; vm_compute; reflexivity.
Qed.

Lemma rows_upsert_case :
  let h := two_upserts ++ [(demo_env 10, CDelete [Acct 1 10 0 true])] in
  let sch := [0; 1; 0; 2; 2; 1] in
  kv_ok one_stored /\ rows_are asc one_stored one_map /\ own_keys asc one_map /\ covers accts tt one_stored /\
  Forall (fun ec => env_ok (fst ec) /\ keeps_key asc (snd ec) /\ once asc (snd ec)) h /\
  map snd (returned accts (start accts one_stored tt h) sch) = [Ok tt; Ok tt; Ok tt] /\
  score_of (y_db (run_sched accts sch (start accts one_stored tt h))) = Some 2%N.
Proof.
  intros h sch. destruct one_stored_consistent as [K R C]. split; [exact K|]. split; [intro p; apply (rep_get _ _ _ R)|].
  split; [intros p r E; destruct (rep_rows _ _ _ R _ _ E) as (A & _ & B); split; auto|]. split; [exact C|].
  split; [|split; vm_compute; reflexivity].
  repeat (constructor; [split; [apply demo_env_ok; lia|split; [cbn; auto|]]|]); [| | |constructor]; cbn [once snd];
      try exact I; apply acct_nodup; vm_compute; reflexivity.
Qed.
