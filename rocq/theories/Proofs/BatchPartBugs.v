(** A batch given calls that fail half way. *)

From Coq Require Import List NArith Lia Bool Arith Sorting.Permutation.
From Verif.Model Require Import Bytes Go Keys Pebble Index Table Scan.
From Verif.Spec Require Import KeySpec StoreSpec TableSpec HistSpec ScanSpec PartSpec.
From Verif.Proofs Require Import TableFacts WriteFacts BatchPart Witness TableBugs ScanBugs.
Import ListNotations.

(** An Insert of a stored key, an Update of a missing one, a Delete, an Upsert that is cancelled. *)
Definition halves : list (env acct * call acct) :=
  [(demo_env 2, CInsert [Acct 5 1 1 true; Acct 4 2 2 true; Acct 3 0 0 true; Acct 0 3 3 true; Acct 8 0 0 true]);
   (demo_env 2, CUpdate [Acct 9 0 0 true; Acct 4 9 9 true]);
   (demo_env 1, CDelete [Acct 1 10 6 true]);
   (cancel_at 1, CUpsert newest [Acct 6 1 1 true; Acct 5 8 8 true])].

Lemma halves_env : Forall (fun ec => env_ok (fst ec)) halves.
Proof. repeat constructor; cbn; auto using sort_pos_perm, sort_pos_sorted; apply demo_env_ok; lia. Qed.

Lemma ids (rows : list acct) : forallb (fun r => (a_id r <? 256 ^ 8)%N) rows = true -> NoDup (map a_id rows) -> NoDup (map (s_pk asc) rows).
Proof.
  intros B. apply ids_nodup. rewrite forallb_forall in B. apply Forall_forall. intros x X. apply N.ltb_lt. auto.
Qed.

Lemma part_other (m : tmap acct) n c ok l1 p : part_of asc n c ok l1 -> (forall r, In r (rows_of c) -> s_pk asc r <> p) ->
  puts asc m l1 p = m p.
Proof.
  intros (L & l2 & O & E & _) H. pose proof (in_order_perm (tb:=accts) _ _ _ O) as P. apply (puts_notin (tb:=accts)).
  intros r Hr. apply H. eapply Permutation_in; [exact P|]. rewrite E. apply in_or_app. auto.
Qed.

Lemma halves_fit : fit asc (puts asc empty_map abc) (map (fun ec => (e_chunk (fst ec), snd ec)) halves).
Proof.
  cbn [halves map fst snd fit]. split; [split; [apply acct_rows_ok|apply ids; [reflexivity|repeat constructor; cbn; intuition discriminate]]|].
  intros ok1 l1 P1. split; [split; [apply acct_rows_ok|apply ids; [reflexivity|repeat constructor; cbn; intuition discriminate]]|].
  intros ok2 l2 P2. split.
  - split; [apply acct_rows_ok|]. intros r o [<-|[]] E. cbn [effect with_rows] in E.
    rewrite (part_other _ _ _ _ _ _ P2), (part_other _ _ _ _ _ _ P1) in E.
    + rewrite (abc_present (Acct 1 10 6 true)) in E by (right; left; reflexivity). injection E as <-. intros ix _ X. auto.
    + intros r H. repeat (destruct H as [<-|H]; [vm_compute; discriminate|]). destruct H.
    + intros r H. repeat (destruct H as [<-|H]; [vm_compute; discriminate|]). destruct H.
  - intros ok3 l3 P3. split; [|exact (fun _ _ _ => I)]. split; [apply acct_rows_ok|].
    split; [apply ids; [reflexivity|repeat constructor; cbn; intuition discriminate]|]. intros old r _ _ O. auto.
Qed.

(** Of the Insert 5, 4 and 0 were done, of the Update 4, of the Upsert 5. *)
Lemma halves_run : exists b oks, run_batch_hist accts abc_db tt (Batch true []) halves = (b, tt, oks) /\
  map snd oks = [false; false; true; false] /\
  forall fuel, 7 <= fuel -> scan accts env1 fuel (apply_ops abc_db (b_ops b)) tt [] false NoBatch =
    ([Acct 0 3 3 true; Acct 2 11 0 false; Acct 3 10 5 true; Acct 4 9 9 true; Acct 5 8 8 true], Ok tt).
Proof.
  eexists _, _. split; [vm_compute; reflexivity|]. split; [reflexivity|].
  intros fuel H. do 7 (destruct fuel as [|fuel]; [lia|]). vm_compute. reflexivity.
Qed.

(** One Insert that fails, then the commit. *)
Lemma row_left_behind : exists ev c b r, env_ok ev /\
  run_batch_hist accts abc_db tt (Batch true []) [(ev, c)] = (b, tt, [(c, false)]) /\ In r (rows_of c) /\
  get_point accts abc_db tt None r = Err ENotFound /\ get_point accts (apply_ops abc_db (b_ops b)) tt None r = Ok r.
Proof.
  exists (demo_env 10), (CInsert [Acct 0 1 1 true; Acct 3 0 0 true]). eexists. exists (Acct 0 1 1 true).
  split; [apply demo_env_ok; lia|]. split; [vm_compute; reflexivity|]. split; [left; reflexivity|]. split; vm_compute; reflexivity.
Qed.

(** The order of the rows of the Insert, and where it stops. *)
Lemma halves_order : exists L, in_order asc 2 (CInsert [Acct 5 1 1 true; Acct 4 2 2 true; Acct 3 0 0 true; Acct 0 3 3 true; Acct 8 0 0 true]) L /\
  L = [Acct 4 2 2 true; Acct 5 1 1 true; Acct 0 3 3 true; Acct 3 0 0 true; Acct 8 0 0 true].
Proof.
  eexists. split; [|reflexivity].
  exists [[Acct 5 1 1 true; Acct 4 2 2 true]; [Acct 3 0 0 true; Acct 0 3 3 true]; [Acct 8 0 0 true]],
         [[Acct 4 2 2 true; Acct 5 1 1 true]; [Acct 0 3 3 true; Acct 3 0 0 true]; [Acct 8 0 0 true]].
  split.
  { apply (ic_cons 2 [_; _] [_; _; _] [_; _]); [reflexivity|discriminate|]. apply (ic_cons 2 [_; _] [_] [_]); [reflexivity|discriminate|].
    constructor. cbn. lia. }
  split; [|reflexivity]. repeat (constructor; [split|]); try apply perm_swap; try reflexivity; repeat constructor.
Qed.

Lemma halves_stop : exists w, run_call accts (demo_env 2) abc_db tt None
    (CInsert [Acct 5 1 1 true; Acct 4 2 2 true; Acct 3 0 0 true; Acct 0 3 3 true; Acct 8 0 0 true]) =
  (w, Err (EExists ([x00; x00; x00; x00] ++ s_pk asc (Acct 3 0 0 true)))) /\ r_db w = abc_db.
Proof. eexists. split; vm_compute; reflexivity. Qed.

(** A sort that puts equal keys in the opposite order, and the indexes backwards. *)
Definition sort_back (keys : list bytes) : list nat := fold_right (ins_pos keys) [] (rev (seq 0 (length keys))).
Definition back_env (n : nat) : env acct := Env sort_back (fun _ => false) (fun _ l => rev l) n true.

Lemma any_order keys l : Permutation (fold_right (ins_pos keys) [] l) l /\
  Sorted.StronglySorted ble (map (fun i => nth i keys []) (fold_right (ins_pos keys) [] l)).
Proof.
  induction l as [|i l [P S]]; cbn; [split; constructor|]. split; [rewrite ins_pos_perm; constructor; exact P|].
  apply ins_pos_sorted; auto.
Qed.

Lemma back_env_ok n : 0 < n -> env_ok (back_env n).
Proof.
  intro N. constructor; cbn; [| | |exact N].
  - intro keys. eapply Permutation_trans; [apply any_order|]. symmetry. apply Permutation_rev.
  - intro keys. apply any_order.
  - intros _ l. symmetry. apply Permutation_rev.
Qed.

(** A key twice in one Update: which row is stored depends on the sort. *)
Lemma repeated_chance : exists w1 w2, env_ok (demo_env (T:=acct) 10) /\ env_ok (back_env 10) /\
  run_call accts (demo_env 10) one_stored tt None (CUpdate [Acct 1 11 0 true; Acct 1 12 0 true]) = (w1, Ok tt) /\
  run_call accts (back_env 10) one_stored tt None (CUpdate [Acct 1 11 0 true; Acct 1 12 0 true]) = (w2, Ok tt) /\
  get_point accts (r_db w1) tt None (Acct 1 0 0 true) = Ok (Acct 1 12 0 true) /\
  get_point accts (r_db w2) tt None (Acct 1 0 0 true) = Ok (Acct 1 11 0 true).
Proof.
  eexists _, _. split; [apply demo_env_ok; lia|]. split; [apply back_env_ok; lia|]. split; [vm_compute; reflexivity|].
  split; [vm_compute; reflexivity|]. split; vm_compute; reflexivity.
Qed.

Lemma halves_back : exists w1 w2, env_ok (demo_env (T:=acct) 2) /\ env_ok (back_env 2) /\
  admissible asc (puts asc empty_map abc) (CUpsert newest [Acct 5 1 1 true; Acct 3 2 2 true; Acct 0 3 3 true]) /\
  run_call accts (demo_env 2) abc_db tt None (CUpsert newest [Acct 5 1 1 true; Acct 3 2 2 true; Acct 0 3 3 true]) = (w1, Ok tt) /\
  run_call accts (back_env 2) abc_db tt None (CUpsert newest [Acct 5 1 1 true; Acct 3 2 2 true; Acct 0 3 3 true]) = (w2, Ok tt) /\
  length (r_db w1) = 14 /\ r_db w1 = r_db w2.
Proof.
  eexists _, _. split; [apply demo_env_ok; lia|]. split; [apply back_env_ok; lia|]. split.
  { split; [apply acct_rows_ok|]. split; [apply ids; [reflexivity|repeat constructor; cbn; intuition discriminate]|]. intros old r _ _ O. auto. }
  split; [vm_compute; reflexivity|]. split; [vm_compute; reflexivity|]. split; vm_compute; reflexivity.
Qed.
