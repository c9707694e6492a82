(** The stored database does not depend on how the rows came about. *)

From Coq Require Import List NArith Lia Bool Arith Sorting.Permutation.
From Verif.Model Require Import Bytes Go Keys Pebble Index Table.
From Verif.Spec Require Import KeySpec StoreSpec TableSpec HistSpec RetrySpec LawSpec.
From Verif.Proofs Require Import BytesFacts KeysFacts PebbleFacts TableFacts WriteFacts UpdateFacts UpsertFacts CallFacts LocalFacts ReadFacts HistFacts TableProps AnyHist FoldFacts RetryFacts RetryAmong LawFacts.
Import ListNotations.

Section Trace.
  Context {T F : Type} (tb : table T F) (G : good_table tb).
  Notation sc := (schema_of tb).
  Notation pk := (s_pk (schema_of tb)).

  (** Get tells the rows apart. *)
  Lemma gets_rows a b fa fb ma mb : consistent tb a fa ma -> consistent tb b fb mb ->
    (forall r, get_point tb a fa None r = get_point tb b fb None r) -> forall p, ma p = mb p.
  Proof.
    intros [KA RA CA] [KB RB CB] H.
    assert (X : forall r, ma (pk r) = mb (pk r)).
    { intros r. specialize (H r). rewrite (get_point_eq (LAW:=good_lawful _ G) a fa None ma r) in H; [|intros x v E; exact (good_ser _ G _ _ _ E)|exact RA|exact CA|exact Logic.I].
      rewrite (get_point_eq (LAW:=good_lawful _ G) b fb None mb r) in H; [|intros x v E; exact (good_ser _ G _ _ _ E)|exact RB|exact CB|exact Logic.I].
      destruct (ma (pk r)), (mb (pk r)); congruence. }
    intros p. destruct (ma p) as [x|] eqn:E.
    - destruct (rep_rows _ _ _ RA _ _ E) as (<- & _). now rewrite <- X, E.
    - destruct (mb p) as [y|] eqn:E2; [|reflexivity]. destruct (rep_rows _ _ _ RB _ _ E2) as (<- & _). rewrite <- E, X. now rewrite E2.
  Qed.

  (** Two histories after which every Get answers the same leave the same database. *)
  Theorem no_history h h' db fl m d1 f1 o1 d2 f2 o2 : Forall (fun ec => env_ok (fst ec)) h -> Forall (fun ec => env_ok (fst ec)) h' -> consistent tb db fl m ->
    run_hist tb db fl h = (d1, f1, o1) -> admissible_hist sc m o1 -> run_hist tb db fl h' = (d2, f2, o2) -> admissible_hist sc m o2 ->
    (forall r, get_point tb d1 f1 None r = get_point tb d2 f2 None r) -> d1 = d2.
  Proof.
    intros V V' C R1 A1 R2 A2 H. destruct (hist_run tb G h db fl m d1 f1 o1 V C R1 A1) as [C1 O1]. destruct (hist_run tb G h' db fl m d2 f2 o2 V' C R2 A2) as [C2 O2].
    apply (same_rows tb db _ _ _ _ _ _ O1 O2 C1 C2). exact (gets_rows _ _ _ _ _ _ C1 C2 H).
  Qed.

  (** Two calls of which the second takes back what the first did. *)
  Lemma undone ev ev' c u db fl m w w' : env_ok ev -> env_ok ev' -> consistent tb db fl m -> admissible sc m c -> admissible sc (effect sc m c) u ->
    run_call tb ev db fl None c = (w, Ok tt) -> run_call tb ev' (r_db w) (r_flt w) None u = (w', Ok tt) ->
    (succeeds sc m c -> forall p, effect sc (effect sc m c) u p = m p) -> r_db w' = db.
  Proof.
    intros EV EV' C AC AU E E' H.
    destruct (call_step tb G ev c db fl m EV C AC) as (w1 & r1 & X & [(e & Y & _)|(_ & _ & SU)] & O & C1 & _); rewrite E in X; injection X as <- <-; [discriminate|]. cbn [ok_of] in C1.
    destruct (call_step tb G ev' u (r_db w) (r_flt w) _ EV' C1 AU) as (w2 & r2 & X & _ & O2 & C2 & _). rewrite E' in X. injection X as <- <-. cbn [ok_of] in C2.
    apply (same_rows tb db _ _ _ _ _ _ (same_outside_trans _ _ _ O O2) (fun k _ => eq_refl) C2 C). exact (H SU).
  Qed.

  (** Insert, and Delete of the same rows. *)
  Theorem insert_undone ev ev' l db fl m w w' : env_ok ev -> env_ok ev' -> consistent tb db fl m -> admissible sc m (CInsert l) ->
    run_call tb ev db fl None (CInsert l) = (w, Ok tt) -> run_call tb ev' (r_db w) (r_flt w) None (CDelete l) = (w', Ok tt) -> r_db w' = db.
  Proof.
    intros EV EV' C AC E E'. apply (undone ev ev' (CInsert l) (CDelete l) db fl m w w'); auto.
    - destruct AC as [OK ND]. split; [exact OK|]. cbn [rows_of effect] in *. intros r o I EO. rewrite (puts_in (tb:=tb)) in EO by auto. injection EO as <-.
      intros ix II FI. auto.
    - intros SU p. cbn [effect succeeds] in *. destruct AC as [_ ND]. cbn [rows_of] in *. rewrite (removes_eq (tb:=tb)).
      destruct (existsb (fun x => beqb p (pk x)) l) eqn:EX.
      + apply existsb_exists in EX as (x & I & EQ). apply beqb_eq in EQ. subst p. now rewrite (proj1 (SU x I)).
      + apply (puts_notin (tb:=tb)). intros r I EQ. assert (X : existsb (fun x => beqb p (pk x)) l = true) by (apply existsb_exists; exists r; split; [exact I|subst p; apply beqb_refl]). congruence.
  Qed.

  (** Delete of stored rows, and Insert of the same rows. *)
  Theorem delete_undone ev ev' l db fl m w w' : env_ok ev -> env_ok ev' -> consistent tb db fl m -> NoDup (map pk l) -> (forall r, In r l -> m (pk r) = Some r) ->
    run_call tb ev db fl None (CDelete l) = (w, Ok tt) -> run_call tb ev' (r_db w) (r_flt w) None (CInsert l) = (w', Ok tt) -> r_db w' = db.
  Proof.
    intros EV EV' C ND ST E E'. assert (OK : Forall (row_ok sc) l).
    { apply Forall_forall. intros r I. destruct (rep_rows _ _ _ (cons_rep _ _ _ _ C) _ _ (ST r I)) as (_ & X & _). exact X. }
    apply (undone ev ev' (CDelete l) (CInsert l) db fl m w w'); auto.
    - split; [exact OK|]. cbn [rows_of]. intros r o I EO. rewrite (ST r I) in EO. injection EO as <-. intros ix II FI. auto.
    - split; [exact OK|exact ND].
    - intros _ p. cbn [effect]. destruct (has_pk tb l p) as [(r & I & <-)|N]; [rewrite (puts_in (tb:=tb)) by auto; now rewrite (ST r I)|].
      rewrite (puts_notin (tb:=tb)) by exact N. rewrite (removes_eq (tb:=tb)). destruct (existsb (fun x => beqb p (pk x)) l) eqn:EX; [|reflexivity].
      apply existsb_exists in EX as (x & I & EQ). apply beqb_eq in EQ. exfalso. exact (N x I (eq_sym EQ)).
  Qed.

  (** Update, and Update with the rows that were stored. *)
  Theorem update_undone ev ev' l olds db fl m w w' : env_ok ev -> env_ok ev' -> consistent tb db fl m -> admissible sc m (CUpdate l) ->
    map pk olds = map pk l -> (forall r, In r olds -> m (pk r) = Some r) ->
    run_call tb ev db fl None (CUpdate l) = (w, Ok tt) -> run_call tb ev' (r_db w) (r_flt w) None (CUpdate olds) = (w', Ok tt) -> r_db w' = db.
  Proof.
    intros EV EV' C AC MP ST E E'. assert (OK : Forall (row_ok sc) olds).
    { apply Forall_forall. intros r I. destruct (rep_rows _ _ _ (cons_rep _ _ _ _ C) _ _ (ST r I)) as (_ & X & _). exact X. }
    pose proof (proj2 AC) as ND. cbn [rows_of] in ND. assert (ND2 : NoDup (map pk olds)) by now rewrite MP.
    apply (undone ev ev' (CUpdate l) (CUpdate olds) db fl m w w'); auto.
    - split; [exact OK|exact ND2].
    - intros _ p. cbn [effect]. destruct (has_pk tb olds p) as [(r & I & <-)|N]; [rewrite (puts_in (tb:=tb)) by auto; now rewrite (ST r I)|].
      rewrite (puts_notin (tb:=tb)) by exact N. apply (puts_notin (tb:=tb)). intros x I EQ. assert (J : In p (map pk olds)) by (rewrite MP; subst p; now apply in_map).
      apply in_map_iff in J as (o & EO & J). exact (N o J EO).
  Qed.

  (** An Update with the rows that are stored already. *)
  Theorem nothing_new ev l db fl m w : env_ok ev -> consistent tb db fl m -> NoDup (map pk l) -> (forall r, In r l -> m (pk r) = Some r) ->
    run_call tb ev db fl None (CUpdate l) = (w, Ok tt) -> r_db w = db.
  Proof.
    intros EV C ND ST E. assert (OK : Forall (row_ok sc) l).
    { apply Forall_forall. intros r I. destruct (rep_rows _ _ _ (cons_rep _ _ _ _ C) _ _ (ST r I)) as (_ & X & _). exact X. }
    destruct (call_step tb G ev (CUpdate l) db fl m EV C (conj OK ND)) as (w1 & r1 & X & _ & O & C1 & _). rewrite E in X. injection X as <- <-. cbn [ok_of effect] in C1.
    apply (same_rows tb db _ _ _ _ _ _ O (fun k _ => eq_refl) C1 C). intros p. destruct (has_pk tb l p) as [(r & I & <-)|N].
    - rewrite (puts_in (tb:=tb)) by auto. now rewrite (ST r I).
    - now apply (puts_notin (tb:=tb)).
  Qed.
End Trace.
