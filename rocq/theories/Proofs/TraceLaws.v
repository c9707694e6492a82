(** Calls that can stand for others. *)

From Coq Require Import List NArith Lia Bool Arith.
From Verif.Model Require Import Bytes Go Keys Pebble Index Table.
From Verif.Spec Require Import KeySpec StoreSpec TableSpec HistSpec RetrySpec LawSpec.
From Verif.Proofs Require Import BytesFacts KeysFacts PebbleFacts TableFacts WriteFacts UpdateFacts UpsertFacts CallFacts LocalFacts ReadFacts HistFacts TableProps AnyHist FoldFacts RetryFacts LawFacts TraceFacts.
Import ListNotations.

Section Laws.
  Context {T F : Type} (tb : table T F) (G : good_table tb).
  Notation sc := (schema_of tb).
  Notation pk := (s_pk (schema_of tb)).

  Lemma stands_for ev ev' c c' db fl m w : env_ok ev -> env_ok ev' -> quiet ev' -> consistent tb db fl m -> admissible sc m c -> admissible sc m c' ->
    (succeeds sc m c -> succeeds sc m c') -> (forall p, effect sc m c p = effect sc m c' p) ->
    run_call tb ev db fl None c = (w, Ok tt) -> exists w', run_call tb ev' db fl None c' = (w', Ok tt) /\ r_db w' = r_db w.
  Proof.
    intros EV EV' Q C A A' SS EF E.
    destruct (call_step tb G ev c db fl m EV C A) as (w1 & r1 & X & [(e & Y & _)|(_ & _ & SU)] & O & C1 & _); rewrite E in X; injection X as <- <-; [discriminate|]. cbn [ok_of] in C1.
    destruct (call_step tb G ev' c' db fl m EV' C A') as (w2 & r2 & X & _ & O2 & C2 & S2). rewrite (S2 Q (SS SU)) in *. cbn [ok_of] in C2. exists w2. split; [exact X|].
    apply (same_rows tb db _ _ _ _ _ _ O2 O C2 C1). intros p. symmetry. apply EF.
  Qed.

  Lemma merges_plain f l m : NoDup (map pk l) -> (forall r, In r l -> match m (pk r) with Some old => f old r | None => r end = r) -> forall p, merges sc f m l p = puts sc m l p.
  Proof.
    intros ND H p. rewrite (merges_puts (tb:=tb)); [|exact ND|intros r I; unfold merged; now rewrite (H r I)].
    rewrite (map_ext_in (merged tb f m) (fun r => r)) by (intros r I; exact (H r I)). now rewrite map_id.
  Qed.

  (** Upsert of new rows is Insert, whatever onConflict does. *)
  Theorem upsert_inserts ev ev' f l db fl m w : env_ok ev -> env_ok ev' -> quiet ev' -> consistent tb db fl m -> admissible sc m (CUpsert f l) ->
    run_call tb ev db fl None (CInsert l) = (w, Ok tt) -> exists w', run_call tb ev' db fl None (CUpsert f l) = (w', Ok tt) /\ r_db w' = r_db w.
  Proof.
    intros EV EV' Q C A E. assert (A1 : admissible sc m (CInsert l)) by (destruct A as [OK [ND _]]; split; [exact OK|exact ND]).
    destruct (call_step tb G ev (CInsert l) db fl m EV C A1) as (w1 & r1 & X & [(e & Y & _)|(_ & _ & SU)] & _); rewrite E in X; injection X as <- <-; [discriminate|].
    assert (H : forall r, In r l -> match m (pk r) with Some old => f old r | None => r end = r) by (intros r I; now rewrite (proj1 (SU r I))).
    apply (stands_for ev ev' (CInsert l) (CUpsert f l) db fl m w); auto.
    - intros _ r I. cbn [stored_row]. rewrite (H r I). exact (proj2 (SU r I)).
    - intros p. symmetry. apply merges_plain; [apply A|exact H].
  Qed.

  (** Upsert that replaces is Update on rows that are there. *)
  Theorem upsert_updates ev ev' f l db fl m w : env_ok ev -> env_ok ev' -> quiet ev' -> consistent tb db fl m -> admissible sc m (CUpsert f l) -> (forall old r, f old r = r) ->
    run_call tb ev db fl None (CUpdate l) = (w, Ok tt) -> exists w', run_call tb ev' db fl None (CUpsert f l) = (w', Ok tt) /\ r_db w' = r_db w.
  Proof.
    intros EV EV' Q C A RP E. assert (A1 : admissible sc m (CUpdate l)) by (destruct A as [OK [ND _]]; split; [exact OK|exact ND]).
    assert (H : forall r, In r l -> match m (pk r) with Some old => f old r | None => r end = r) by (intros r I; destruct (m (pk r)); auto).
    apply (stands_for ev ev' (CUpdate l) (CUpsert f l) db fl m w); auto.
    - intros SU r I. cbn [stored_row]. rewrite (H r I). exact (proj2 (SU r I)).
    - intros p. symmetry. apply merges_plain; [apply A|exact H].
  Qed.

  (** Update is Delete of what is stored and Insert of the new rows, which both succeed. *)
  Theorem update_in_two ev ev' ev2 l olds db fl m w : env_ok ev -> env_ok ev' -> env_ok ev2 -> quiet ev' -> quiet ev2 -> consistent tb db fl m -> admissible sc m (CUpdate l) ->
    map pk olds = map pk l -> (forall r, In r olds -> m (pk r) = Some r) -> run_call tb ev db fl None (CUpdate l) = (w, Ok tt) ->
    exists w1 w2, run_call tb ev' db fl None (CDelete olds) = (w1, Ok tt) /\ run_call tb ev2 (r_db w1) (r_flt w1) None (CInsert l) = (w2, Ok tt) /\ r_db w2 = r_db w.
  Proof.
    intros EV EV' EV2 Q Q2 C A MP ST E. destruct A as [OKL ND]. cbn [rows_of] in OKL.
    destruct (call_step tb G ev (CUpdate l) db fl m EV C (conj OKL ND)) as (w0 & r0 & X & [(e & Y & _)|(_ & _ & SU)] & O & C0 & _); rewrite E in X; injection X as <- <-; [discriminate|]. cbn [ok_of effect] in C0.
    assert (OK : Forall (row_ok sc) olds).
    { apply Forall_forall. intros r I. destruct (rep_rows _ _ _ (cons_rep _ _ _ _ C) _ _ (ST r I)) as (_ & X & _). exact X. }
    assert (AD : admissible sc m (CDelete olds)).
    { split; [exact OK|]. cbn [rows_of]. intros r o I EO. rewrite (ST r I) in EO. injection EO as <-. intros ix II FI. auto. }
    destruct (call_step tb G ev' (CDelete olds) db fl m EV' C AD) as (w1 & r1 & X1 & _ & O1 & C1 & S1). rewrite (S1 Q Logic.I) in *. cbn [ok_of effect] in C1.
    assert (RM : forall p, removes sc m olds p = if existsb (fun x => beqb p (pk x)) l then None else m p).
    { intros p. rewrite (removes_eq (tb:=tb)). assert (Z : existsb (fun x => beqb p (pk x)) olds = existsb (fun x => beqb p (pk x)) l); [|now rewrite Z].
      clear - MP. revert l MP. induction olds as [|o olds IH]; intros [|x l] MP; cbn [map] in MP; try discriminate; [reflexivity|]. cbn [existsb].
      assert (H1 : pk o = pk x) by exact (f_equal (hd []) MP). assert (H2 : map pk olds = map pk l) by exact (f_equal (@tl _) MP). now rewrite H1, (IH l H2). }
    assert (SI : succeeds sc (removes sc m olds) (CInsert l)).
    { intros r I. split; [|exact (proj2 (SU r I))]. rewrite RM. replace (existsb _ l) with true; [reflexivity|]. symmetry. apply existsb_exists. exists r. split; [exact I|apply beqb_refl]. }
    destruct (call_step tb G ev2 (CInsert l) (r_db w1) (r_flt w1) _ EV2 C1 (conj OKL ND)) as (w2 & r2 & X2 & _ & O2 & C2 & S2). rewrite (S2 Q2 SI) in *. cbn [ok_of effect] in C2.
    exists w1, w2. split; [exact X1|]. split; [exact X2|]. apply (same_rows tb db _ _ _ _ _ _ (same_outside_trans _ _ _ O1 O2) O C2 C0). intros p.
    destruct (has_pk tb l p) as [(r & I & <-)|N]; [now rewrite !(puts_in (tb:=tb)) by auto|]. rewrite !(puts_notin (tb:=tb)) by exact N. rewrite RM.
    destruct (existsb (fun x => beqb p (pk x)) l) eqn:EX; [|reflexivity]. apply existsb_exists in EX as (x & I & EQ). apply beqb_eq in EQ. exfalso. exact (N x I (eq_sym EQ)).
  Qed.
End Laws.
