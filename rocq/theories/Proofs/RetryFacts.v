(** Repeated calls have the effect of one. *)

From Coq Require Import List NArith Lia Bool Arith.
From Verif.Model Require Import Bytes Go Keys Pebble Index Table.
From Verif.Spec Require Import KeySpec StoreSpec TableSpec HistSpec RetrySpec.
From Verif.Proofs Require Import BytesFacts KeysFacts PebbleFacts TableFacts WriteFacts UpdateFacts UpsertFacts CallFacts LocalFacts HistFacts TableProps AnyHist FoldFacts.
Import ListNotations.

Section Retry.
  Context {T F : Type} (tb : table T F) (G : good_table tb).
  Notation sc := (schema_of tb).
  Notation pk := (s_pk (schema_of tb)).

  Lemma has_pk (l : list T) p : (exists r, In r l /\ pk r = p) \/ (forall r, In r l -> pk r <> p).
  Proof.
    induction l as [|x l IH]; [right; intros r []|]. destruct (beqb (pk x) p) eqn:B; [apply beqb_eq in B as E|assert (N : pk x <> p) by (intros E; apply beqb_eq in E; congruence)].
    - left. exists x. split; [now left|exact E].
    - destruct IH as [(r & I & E)|N2]; [left; exists r; split; [now right|exact E]|]. right. intros r [<-|I]; auto.
  Qed.

  (** The rows a table holds. *)
  Definition rows_fine (m : tmap T) : Prop := forall p x, m p = Some x -> pk x = p /\ row_ok sc x.

  Lemma rep_fine db m : Rep sc db m -> rows_fine m.
  Proof. intros R p x E. destruct (rep_rows _ _ _ R _ _ E) as (A & B & _). now split. Qed.

  Lemma effect_twice m c : rows_fine m -> rows_fine (effect sc m c) -> admissible sc m c -> repeatable tb m c -> forall p, effect sc (effect sc m c) c p = effect sc m c p.
  Proof.
    intros RF RF2 [OK AD] RP p. destruct c as [l|l|f l|l]; cbn [effect rows_of] in *.
    - destruct (has_pk l p) as [(r & I & <-)|N]; [now rewrite !(puts_in (tb:=tb)) by auto|now rewrite (puts_notin (tb:=tb) l (puts sc m l) p N)].
    - destruct (has_pk l p) as [(r & I & <-)|N]; [now rewrite !(puts_in (tb:=tb)) by auto|now rewrite (puts_notin (tb:=tb) l (puts sc m l) p N)].
    - destruct AD as [ND CF]. destruct (has_pk l p) as [(r & I & <-)|N].
      + rewrite (merges_in tb f l (merges sc f m l) r) by auto. rewrite (merges_in tb f l m r) by auto. f_equal. exact (RP r I).
      + exact (merges_notin (tb:=tb) f CF l (merges sc f m l) p RF2 OK N).
    - rewrite !(removes_eq (tb:=tb)). now destruct (existsb (fun r => beqb p (pk r)) l).
  Qed.

  Lemma admissible_twice m c : admissible sc m c -> admissible sc (effect sc m c) c.
  Proof.
    intros [OK AD]. split; [exact OK|]. destruct c as [l|l|f l|l]; cbn [effect] in *; auto. intros r o I E.
    exfalso. rewrite (removes_eq (tb:=tb)) in E. assert (X : existsb (fun x => beqb (pk r) (pk x)) l = true).
    { apply existsb_exists. exists r. split; [exact I|]. now apply beqb_eq. }
    now rewrite X in E.
  Qed.

  Lemma succeeds_twice m c : rows_fine m -> admissible sc m c -> repeatable tb m c -> ~ is_insert c -> succeeds sc m c -> succeeds sc (effect sc m c) c.
  Proof.
    intros RF [OK AD] RP NI SU. destruct c as [l|l|f l|l]; cbn [effect succeeds] in *; auto.
    - now destruct NI.
    - intros r I. destruct (SU r I) as [_ V]. split; [|exact V]. now rewrite (puts_in (tb:=tb)) by auto.
    - destruct AD as [ND CF]. intros r I. cbn [stored_row]. rewrite (merges_in tb f l m r) by auto.
      pose proof (RP r I) as E. cbn [stored_row] in E. rewrite E. exact (SU r I).
  Qed.

  (** The call has been done: the rows are the new ones, the rest is as it was. *)
  Record was_done (c : call T) (db : kv) (m : tmap T) (cur : kv) : Prop := {
    wd_ok : kv_ok cur;
    wd_rep : Rep sc cur (effect sc m c);
    wd_out : same_outside sc db cur
  }.

  Lemma done_same c db m a b : was_done c db m a -> was_done c db m b -> a = b.
  Proof.
    intros [KA RA OA] [KB RB OB]. apply (Rep_unique tb a b (effect sc m c)); auto. intros k N. rewrite (OA k N). now rewrite (OB k N).
  Qed.

  Lemma first_done c db fl m ev w : env_ok ev -> consistent tb db fl m -> admissible sc m c -> run_call tb ev db fl None c = (w, Ok tt) ->
    was_done c db m (r_db w).
  Proof.
    intros EV C AD E. destruct (call_step tb G ev c db fl m EV C AD) as (w' & r' & E' & X & O & C' & _). rewrite E in E'. injection E' as <- <-.
    destruct C' as [K R _]. cbn [ok_of] in R. now constructor.
  Qed.

  Lemma again c db fl m cur ev w r : env_ok ev -> admissible sc m c -> repeatable tb m c -> rows_fine m -> was_done c db m cur -> covers tb fl cur ->
    run_call tb ev cur fl None c = (w, r) ->
    r_db w = cur /\ covers tb (r_flt w) cur /\ (quiet ev -> succeeds sc m c -> ~ is_insert c -> r = Ok tt).
  Proof.
    intros EV AD RP RF [K R O] CV E. pose proof (admissible_twice m c AD) as AD2.
    destruct (call_step tb G ev c cur fl (effect sc m c) EV (MkCons _ _ _ _ _ _ K R CV) AD2) as (w' & r' & E' & X & O' & [K' R' C'] & Q).
    rewrite E in E'. injection E' as <- <-.
    assert (D : r_db w = cur).
    { destruct X as [[e [_ X]]|[-> [RX _]]]; [exact X|]. symmetry. apply (Rep_unique tb cur (r_db w) (effect sc m c)); auto.
      - eapply TableFacts.Rep_ext; [exact RX|]. apply effect_twice; auto. exact (rep_fine _ _ R).
      - intros k N. symmetry. now apply O'. }
    split; [exact D|]. split; [now rewrite D in C'|]. intros QU SU NI. apply Q; auto. now apply succeeds_twice.
  Qed.

  Theorem tries_done c db fl m rs db' fl' : consistent tb db fl m -> admissible sc m c -> repeatable tb m c -> tries tb c db fl rs db' fl' ->
    (db' = db /\ consistent tb db' fl' m /\ ~ In (Some (Ok tt)) rs) \/ was_done c db m db' /\ covers tb fl' db'.
  Proof.
    intros C0 AD RP T0. pose proof (rep_fine _ _ (cons_rep _ _ _ _ C0)) as RF.
    assert (DONE : forall cur f rs db' fl', tries tb c cur f rs db' fl' -> was_done c db m cur -> covers tb f cur -> was_done c db m db' /\ covers tb fl' db').
    { clear T0 rs db' fl'. intros cur f rs db' fl' TR. induction TR as [cur f|cur f ev w r rs db' fl' EV E TR IH|cur f ev w r cur1 fl1 rs db' fl' EV E D CV TR IH]; intros W CF.
      - now split.
      - destruct (again c db f m cur ev w r EV AD RP RF W CF E) as (D & CW & _). apply IH; rewrite D; auto.
      - destruct (again c db f m cur ev w r EV AD RP RF W CF E) as (D2 & CW & _). assert (X : cur1 = cur) by (destruct D as [D|D]; congruence). subst cur1. now apply IH. }
    remember db as cur eqn:EC in C0, T0 at 1 |- . revert C0.
    assert (K : forall cur f rs db' fl', tries tb c cur f rs db' fl' -> cur = db -> consistent tb cur f m ->
      (db' = db /\ consistent tb db' fl' m /\ ~ In (Some (Ok tt)) rs) \/ was_done c db m db' /\ covers tb fl' db').
    { clear - G AD RP RF DONE. intros cur f rs db' fl' TR.
      induction TR as [cur f|cur f ev w r rs db' fl' EV E TR IH|cur f ev w r cur1 fl1 rs db' fl' EV E D CV TR IH]; intros EQ C; subst cur.
      - left. split; [reflexivity|]. split; [exact C|intros []].
      - destruct (call_step tb G ev c db f m EV C AD) as (w' & r' & E' & X & O & C' & _). rewrite E in E'. injection E' as <- <-.
        destruct X as [[e [-> X]]|[-> [RX _]]].
        + cbn [ok_of] in C'. destruct (IH X C') as [(A & B & N)|R]; [left|now right]. split; [exact A|]. split; [exact B|]. intros [Q|Q]; [discriminate|now apply N].
        + right. apply (DONE _ _ _ _ _ TR); [|exact (cons_covers _ _ _ _ C')]. exact (first_done c db f m ev w EV C AD E).
      - destruct (call_step tb G ev c db f m EV C AD) as (w' & r' & E' & X & O & C' & _). rewrite E in E'. injection E' as <- <-.
        destruct D as [-> | ->].
        + destruct (IH eq_refl (MkCons _ _ _ _ _ _ (cons_ok _ _ _ _ C) (cons_rep _ _ _ _ C) CV)) as [(A & B & N)|R]; [left|now right].
          split; [exact A|]. split; [exact B|]. intros [Q|Q]; [discriminate|now apply N].
        + destruct X as [[e [-> X]]|[-> [RX _]]].
          * assert (CC : consistent tb (r_db w) fl1 m) by (rewrite X in *; exact (MkCons _ _ _ _ _ _ (cons_ok _ _ _ _ C) (cons_rep _ _ _ _ C) CV)).
            destruct (IH X CC) as [(A & B & N)|R]; [left|now right]. split; [exact A|]. split; [exact B|]. intros [Q|Q]; [discriminate|now apply N].
          * right. apply (DONE _ _ _ _ _ TR); [|exact CV]. exact (first_done c db f m ev w EV C AD E). }
    intros C0. exact (K cur fl rs db' fl' T0 EC C0).
  Qed.

  (** All the tries together do what one call does, or nothing. *)
  Theorem tries_once c db fl m rs db' fl' : consistent tb db fl m -> admissible sc m c -> repeatable tb m c -> tries tb c db fl rs db' fl' ->
    (db' = db /\ ~ In (Some (Ok tt)) rs) \/
    (Rep sc db' (effect sc m c) /\ forall ev fl0 w, env_ok ev -> covers tb fl0 db -> run_call tb ev db fl0 None c = (w, Ok tt) -> db' = r_db w).
  Proof.
    intros C AD RP TR. destruct (tries_done c db fl m rs db' fl' C AD RP TR) as [(A & _ & N)|[W _]]; [left; now split|right].
    split; [exact (wd_rep _ _ _ _ W)|]. intros ev fl0 w EV CV E. apply (done_same c db m); [exact W|].
    apply (first_done c db fl0 m ev w EV); auto. exact (MkCons _ _ _ _ _ _ (cons_ok _ _ _ _ C) (cons_rep _ _ _ _ C) CV).
  Qed.

  (** The try that nobody disturbs. *)
  Theorem last_try c db fl m rs db' fl' ev w r : consistent tb db fl m -> admissible sc m c -> repeatable tb m c -> tries tb c db fl rs db' fl' ->
    succeeds sc m c -> env_ok ev -> quiet ev -> run_call tb ev db' fl' None c = (w, r) ->
    Rep sc (r_db w) (effect sc m c) /\
    (forall ev0 fl0 w0, env_ok ev0 -> covers tb fl0 db -> run_call tb ev0 db fl0 None c = (w0, Ok tt) -> r_db w = r_db w0) /\
    (r = Ok tt \/ is_insert c /\ (exists k, r = Err (EExists k)) /\ db' <> db).
  Proof.
    intros C AD RP TR SU EV QU E.
    assert (SAME : forall x, was_done c db m x -> forall ev0 fl0 w0, env_ok ev0 -> covers tb fl0 db -> run_call tb ev0 db fl0 None c = (w0, Ok tt) -> x = r_db w0).
    { intros x W ev0 fl0 w0 EV0 CV0 E0. apply (done_same c db m); [exact W|].
      apply (first_done c db fl0 m ev0 w0 EV0); auto. exact (MkCons _ _ _ _ _ _ (cons_ok _ _ _ _ C) (cons_rep _ _ _ _ C) CV0). }
    destruct (tries_done c db fl m rs db' fl' C AD RP TR) as [(A & C' & N)|[W CV]].
    - subst db'. destruct (call_step tb G ev c db fl' m EV C' AD) as (w' & r' & E' & X & O & C2 & Q). rewrite E in E'. injection E' as <- <-.
      specialize (Q QU SU). subst r. pose proof (first_done c db fl' m ev w EV C' AD E) as W.
      split; [exact (wd_rep _ _ _ _ W)|]. split; [now apply SAME|now left].
    - destruct (again c db fl' m db' ev w r EV AD RP (rep_fine _ _ (cons_rep _ _ _ _ C)) W CV E) as (D & _ & Q). rewrite D.
      split; [exact (wd_rep _ _ _ _ W)|]. split; [now apply SAME|].
      destruct c as [l|l|f l|l]; try (left; apply Q; auto; fail).
      destruct l as [|r0 l].
      + left. destruct (call_step tb G ev (CInsert []) db' fl' (effect sc m (CInsert [])) EV (MkCons _ _ _ _ _ _ (wd_ok _ _ _ _ W) (wd_rep _ _ _ _ W) CV) (admissible_twice _ _ AD))
          as (w' & r' & E' & _ & _ & _ & Q'). rewrite E in E'. injection E' as <- <-. apply Q'; [exact QU|]. intros x [].
      + right. split; [exact Logic.I|].
        assert (P : effect sc m (CInsert (r0 :: l)) (pk r0) <> None).
        { cbn [effect]. rewrite (puts_in (tb:=tb)); [discriminate|exact (proj2 AD)|now left]. }
        destruct (insert_present tb G ev EV db' fl' _ (r0 :: l) r0 QU (MkCons _ _ _ _ _ _ (wd_ok _ _ _ _ W) (wd_rep _ _ _ _ W) CV) (fun x I => proj2 (SU x I)) (or_introl eq_refl) P)
          as (w' & x & E' & _). cbn [run_call] in E. rewrite E in E'. injection E' as <- ->. split; [now eexists|].
        intros EQ. rewrite EQ in W. pose proof (rep_get _ _ _ (wd_rep _ _ _ _ W) (pk r0)) as G1. pose proof (rep_get _ _ _ (cons_rep _ _ _ _ C) (pk r0)) as G2.
        rewrite G1 in G2. destruct (SU r0 (or_introl eq_refl)) as [M0 V0]. rewrite M0 in G2. cbn [effect] in G2.
        rewrite (puts_in (tb:=tb)) in G2; [|exact (proj2 AD)|now left]. now apply V0.
  Qed.
End Retry.
