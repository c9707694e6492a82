(** Repeated calls among other calls. *)

From Coq Require Import List NArith Lia Bool Arith.
From Verif.Model Require Import Bytes Go Keys Pebble Index Table.
From Verif.Spec Require Import KeySpec StoreSpec TableSpec HistSpec RetrySpec.
From Verif.Proofs Require Import BytesFacts KeysFacts PebbleFacts TableFacts WriteFacts UpdateFacts UpsertFacts CallFacts LocalFacts HistFacts TableProps AnyHist FoldFacts RetryFacts.
Import ListNotations.

Section Among.
  Context {T F : Type} (tb : table T F) (G : good_table tb).
  Notation sc := (schema_of tb).
  Notation pk := (s_pk (schema_of tb)).

  Definition touches (c : call T) (p : bytes) : Prop := exists r, In r (rows_of c) /\ pk r = p.

  Lemma touches_dec c p : touches c p \/ ~ touches c p.
  Proof. destruct (has_pk tb (rows_of c) p) as [H|N]; [now left|right]. intros (r & I & E). exact (N r I E). Qed.

  (** A call changes its rows only, and what it makes of a row depends on that row only. *)
  Lemma effect_out m c p : rows_fine tb m -> admissible sc m c -> ~ touches c p -> effect sc m c p = m p.
  Proof.
    intros RF [OK AD] N. assert (N' : forall r, In r (rows_of c) -> pk r <> p) by (intros r I E; apply N; now exists r).
    destruct c as [l|l|f l|l]; cbn [effect rows_of] in *.
    - now apply (puts_notin (tb:=tb)).
    - now apply (puts_notin (tb:=tb)).
    - exact (merges_notin (tb:=tb) f (proj2 AD) l m p RF OK N').
    - rewrite (removes_eq (tb:=tb)). destruct (existsb (fun r => beqb p (pk r)) l) eqn:X; [|reflexivity].
      apply existsb_exists in X as (r & I & B). apply beqb_eq in B. now destruct (N' r I).
  Qed.

  Lemma effect_same m m' c p : rows_fine tb m -> rows_fine tb m' -> admissible sc m c -> admissible sc m' c -> m p = m' p ->
    effect sc m c p = effect sc m' c p.
  Proof.
    intros RF RF' AD AD' E. destruct (touches_dec c p) as [(r & I & <-)|N].
    - destruct AD as [OK AD], AD' as [_ AD']. destruct c as [l|l|f l|l]; cbn [effect rows_of] in *.
      + now rewrite !(puts_in (tb:=tb)) by auto.
      + now rewrite !(puts_in (tb:=tb)) by auto.
      + destruct AD as [ND CF]. rewrite !(merges_in tb f) by auto. now rewrite E.
      + rewrite !(removes_eq (tb:=tb)). now rewrite E.
    - rewrite !effect_out by auto. exact E.
  Qed.

  Lemma admissible_same m m' c : (forall p, touches c p -> m p = m' p) -> admissible sc m c -> admissible sc m' c.
  Proof.
    intros E [OK AD]. split; [exact OK|]. destruct c as [l|l|f l|l]; cbn [rows_of] in *; auto. intros r o I H. apply (AD r o I).
    rewrite E; [exact H|]. now exists r.
  Qed.

  Lemma repeatable_same m m' c : (forall p, touches c p -> m p = m' p) -> repeatable tb m c -> repeatable tb m' c.
  Proof.
    intros E RP. destruct c as [l|l|f l|l]; cbn [repeatable] in *; auto. intros r I. specialize (RP r I). cbn [stored_row] in *.
    rewrite <- (E (pk r)); [exact RP|]. now exists r.
  Qed.

  Lemma apart_touch c o p : no_common_key tb c o -> touches c p -> ~ touches o p.
  Proof. intros N (r & I & E) (x & J & E2). apply (N r x I J). congruence. Qed.

  (** What the table holds: [c] done or not, and the others. *)
  Definition held (c : call T) (m : tmap T) (os : list (call T * bool)) (dn : bool) (mm : tmap T) : Prop :=
    forall p, (touches c p -> mm p = (if dn then effect sc m c else m) p) /\ (~ touches c p -> mm p = outcome sc m os p).

  (** The others so far: rows of other keys. *)
  Definition fine_others (c : call T) (m : tmap T) (os : list (call T * bool)) : Prop :=
    rows_fine tb (outcome sc m os) /\ forall p, touches c p -> outcome sc m os p = m p.

  Lemma outcome_app m os o ok : outcome sc m (os ++ [(o, ok)]) = if ok then effect sc (outcome sc m os) o else outcome sc m os.
  Proof. revert m. induction os as [|[x b] os IH]; intros m; cbn [app outcome]; [now destruct ok|]. destruct b; apply IH. Qed.

  Section Fixed.
    Variable c : call T.
    Variable m : tmap T.
    Variable db0 : kv.
    Hypothesis RF : rows_fine tb m.
    Hypothesis AD : admissible sc m c.
    Hypothesis RP : repeatable tb m c.

    Lemma held_admissible os dn mm : held c m os dn mm -> admissible sc mm c.
    Proof.
      intros H. destruct dn.
      - apply (admissible_same (effect sc m c)); [|now apply admissible_twice]. intros p P. symmetry. now apply H.
      - apply (admissible_same m); [|exact AD]. intros p P. symmetry. now apply H.
    Qed.

    Lemma held_effect os dn mm : rows_fine tb mm -> rows_fine tb (effect sc mm c) -> held c m os dn mm -> held c m os true (effect sc mm c).
    Proof.
      intros RM RM2 H p. pose proof (held_admissible os dn mm H) as AM. split; intros P.
      - destruct dn.
        + assert (R1 : rows_fine tb (effect sc m c)).
          { intros q x Q. destruct (touches_dec c q) as [TQ|NQ].
            - destruct (H q) as [H1 _]. specialize (H1 TQ). cbn iota in H1. rewrite <- H1 in Q. now apply RM.
            - rewrite effect_out in Q by auto. now apply RF. }
          rewrite (effect_same mm (effect sc m c) c p); auto; [|now apply admissible_twice|now apply H]. now apply effect_twice.
        + apply effect_same; auto. now apply H.
      - rewrite effect_out by auto. now apply H.
    Qed.

    Lemma held_other os dn mm o ok : rows_fine tb mm -> fine_others c m os -> no_common_key tb c o -> admissible sc (outcome sc m os) o -> held c m os dn mm ->
      admissible sc mm o /\ held c m (os ++ [(o, ok)]) dn (if ok then effect sc mm o else mm) /\
      (forall p, touches c p -> outcome sc m (os ++ [(o, ok)]) p = m p).
    Proof.
      intros RM [RO FO] NC AO H. assert (AM : admissible sc mm o).
      { apply (admissible_same (outcome sc m os)); [|exact AO]. intros p P. symmetry. apply H. intros C. exact (apart_touch c o p NC C P). }
      split; [exact AM|]. split.
      - intros p. rewrite outcome_app. destruct (H p) as [H1 H2]. destruct ok; [|now split]. split; intros P.
        + rewrite effect_out; auto. intros Q. exact (apart_touch c o p NC P Q).
        + now apply effect_same; auto.
      - intros p P. rewrite outcome_app. destruct ok; auto. rewrite effect_out; auto. intros Q. exact (apart_touch c o p NC P Q).
    Qed.

    Theorem among os db fl rs after db' fl' : tries_among tb c m os db fl rs after db' fl' -> forall dn mm, consistent tb db fl mm -> same_outside sc db0 db ->
      fine_others c m os -> held c m os dn mm ->
      exists dn' mm', consistent tb db' fl' mm' /\ same_outside sc db0 db' /\ held c m after dn' mm' /\ (dn = true -> dn' = true) /\ (In (Some (Ok tt)) rs -> dn' = true).
    Proof.
      intros TR. induction TR as [os db fl|os db fl ev w r rs after db' fl' EV E TR IH|os db fl ev w r cur fl1 rs after db' fl' EV E D CV TR IH|os db fl ev o w r rs after db' fl' EV NC AO E TR IH];
        intros dn mm C SO FO H.
      - exists dn, mm. split; [exact C|]. split; [exact SO|]. split; [exact H|]. split; [auto|intros []].
      - destruct (call_step tb G ev c db fl mm EV C (held_admissible os dn mm H)) as (w' & r' & E' & X & O & C' & _). rewrite E in E'. injection E' as <- <-.
        pose proof (same_outside_trans _ _ _ SO O) as SO'.
        destruct X as [[e [-> X]]|[-> [RX _]]]; cbn [ok_of] in C'.
        + destruct (IH dn mm C' SO' FO H) as (dn' & mm' & A1 & A2 & A3 & A4 & A5). exists dn', mm'. split; [exact A1|]. split; [exact A2|]. split; [exact A3|].
          split; [exact A4|]. intros [Q|Q]; [discriminate|now apply A5].
        + destruct (IH true (effect sc mm c) C' SO' FO (held_effect os dn mm (rep_fine tb _ _ (cons_rep _ _ _ _ C)) (rep_fine tb _ _ (cons_rep _ _ _ _ C')) H)) as (dn' & mm' & A1 & A2 & A3 & A4 & A5).
          exists dn', mm'. split; [exact A1|]. split; [exact A2|]. split; [exact A3|]. split; intros _; now apply A4.
      - destruct (call_step tb G ev c db fl mm EV C (held_admissible os dn mm H)) as (w' & r' & E' & X & O & C' & _). rewrite E in E'. injection E' as <- <-.
        pose proof (same_outside_trans _ _ _ SO O) as SO'.
        assert (K : exists dn1 mm1, consistent tb cur fl1 mm1 /\ same_outside sc db0 cur /\ held c m os dn1 mm1 /\ (dn = true -> dn1 = true)).
        { destruct D as [-> | ->].
          - exists dn, mm. split; [exact (MkCons _ _ _ _ _ _ (cons_ok _ _ _ _ C) (cons_rep _ _ _ _ C) CV)|]. split; [exact SO|]. split; [exact H|auto].
          - destruct X as [[e [-> X]]|[-> [RX _]]]; cbn [ok_of] in C'.
            + exists dn, mm. split; [exact (MkCons _ _ _ _ _ _ (cons_ok _ _ _ _ C') (cons_rep _ _ _ _ C') CV)|]. split; [exact SO'|]. split; [exact H|auto].
            + exists true, (effect sc mm c). split; [exact (MkCons _ _ _ _ _ _ (cons_ok _ _ _ _ C') (cons_rep _ _ _ _ C') CV)|]. split; [exact SO'|].
              split; [|auto]. exact (held_effect os dn mm (rep_fine tb _ _ (cons_rep _ _ _ _ C)) (rep_fine tb _ _ (cons_rep _ _ _ _ C')) H). }
        destruct K as (dn1 & mm1 & K1 & K2 & K3 & K4). destruct (IH dn1 mm1 K1 K2 FO K3) as (dn' & mm' & A1 & A2 & A3 & A4 & A5).
        exists dn', mm'. split; [exact A1|]. split; [exact A2|]. split; [exact A3|]. split; [auto|]. intros [Q|Q]; [discriminate|now apply A5].
      - destruct (held_other os dn mm o (ok_of r) (rep_fine tb _ _ (cons_rep _ _ _ _ C)) FO NC AO H) as (AM & H' & FO').
        destruct (call_step tb G ev o db fl mm EV C AM) as (w' & r' & E' & X & O & C' & _). rewrite E in E'. injection E' as <- <-.
        pose proof (same_outside_trans _ _ _ SO O) as SO'. apply (IH dn _ C' SO'); [|exact H'].
        split; [|exact FO']. intros p x Q. destruct (touches_dec c p) as [P|P]; [rewrite FO' in Q by exact P; now apply RF|].
        destruct (H' p) as [_ H2]. rewrite <- (H2 P) in Q. exact (rep_fine tb _ _ (cons_rep _ _ _ _ C') p x Q).
    Qed.
  End Fixed.

  Theorem tries_among_done c db fl m rs after db' fl' : consistent tb db fl m -> admissible sc m c -> repeatable tb m c ->
    tries_among tb c m [] db fl rs after db' fl' ->
    exists dn mm, consistent tb db' fl' mm /\ same_outside sc db db' /\ (In (Some (Ok tt)) rs -> dn = true) /\
      (forall r, In r (rows_of c) -> mm (pk r) = (if dn then effect sc m c else m) (pk r)) /\
      (forall p, (forall r, In r (rows_of c) -> pk r <> p) -> mm p = outcome sc m after p).
  Proof.
    intros C AD RP TR. pose proof (rep_fine tb _ _ (cons_rep _ _ _ _ C)) as RF.
    destruct (among c m db RF AD RP [] db fl rs after db' fl' TR false m C (fun _ _ => eq_refl)) as (dn & mm & A1 & A2 & A3 & _ & A5).
    - split; [exact RF|auto].
    - intros p. now split.
    - exists dn, mm. split; [exact A1|]. split; [exact A2|]. split; [exact A5|]. split.
      + intros r I. apply A3. now exists r.
      + intros p N. apply A3. intros (r & I & E). exact (N r I E).
  Qed.
End Among.
