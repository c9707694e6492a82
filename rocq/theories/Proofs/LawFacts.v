(** Calls with permuted rows, calls in parts, and calls on different rows in any order. *)

From Coq Require Import List NArith Lia Bool Arith Sorting.Permutation.
From Verif.Model Require Import Bytes Go Keys Pebble Index Table.
From Verif.Spec Require Import KeySpec StoreSpec TableSpec HistSpec RetrySpec LawSpec.
From Verif.Proofs Require Import BytesFacts KeysFacts PebbleFacts TableFacts WriteFacts UpdateFacts UpsertFacts CallFacts LocalFacts HistFacts TableProps AnyHist FoldFacts RetryFacts RetryAmong.
Import ListNotations.

Lemma nodup_halves {A} (a b : list A) : NoDup (a ++ b) -> NoDup a /\ NoDup b.
Proof.
  induction a as [|x a IH]; cbn [app]; intros H; [split; [constructor|exact H]|].
  inversion H as [|? ? N1 N2]; subst. destruct (IH N2) as [HA HB]. split; [|exact HB].
  constructor; [|exact HA]. intros I. apply N1. apply in_or_app. now left.
Qed.

Section Laws.
  Context {T F : Type} (tb : table T F) (G : good_table tb).
  Notation sc := (schema_of tb).
  Notation pk := (s_pk (schema_of tb)).

  Lemma with_rows_rows (c : call T) l : rows_of (with_rows c l) = l.
  Proof. now destruct c. Qed.

  Lemma with_own_rows (c : call T) : with_rows c (rows_of c) = c.
  Proof. now destruct c. Qed.

  (** What one undisturbed call does. *)
  Lemma quiet_call ev c db fl m w r : env_ok ev -> quiet ev -> consistent tb db fl m -> admissible sc m c -> run_call tb ev db fl None c = (w, r) ->
    (r = Ok tt <-> succeeds sc m c) /\ same_outside sc db (r_db w) /\ (r <> Ok tt -> r_db w = db) /\
    consistent tb (r_db w) (r_flt w) (if ok_of r then effect sc m c else m).
  Proof.
    intros EV QU C AD E. destruct (call_step tb G ev c db fl m EV C AD) as (w' & r' & E' & X & O & C' & Q). rewrite E in E'. injection E' as <- <-.
    split; [|split; [exact O|split; [|exact C']]].
    - split; [|now apply Q]. intros ->. destruct X as [[e [X _]]|[_ [_ X]]]; [discriminate|exact X].
    - intros N. destruct X as [[e [_ X]]|[X _]]; [exact X|contradiction].
  Qed.

  (** Databases with the same rows. *)
  Lemma same_rows db a b fa fb ma mb : same_outside sc db a -> same_outside sc db b -> consistent tb a fa ma -> consistent tb b fb mb -> (forall p, ma p = mb p) -> a = b.
  Proof.
    intros OA OB [KA RA _] [KB RB _] E. apply (Rep_unique tb a b ma); auto.
    - eapply TableFacts.Rep_ext; [exact RB|]. intros p. now rewrite E.
    - intros k N. rewrite (OA k N). now rewrite (OB k N).
  Qed.

  (** ** Permuted rows *)

  Lemma admissible_perm m c l : Permutation (rows_of c) l -> admissible sc m c -> admissible sc m (with_rows c l).
  Proof.
    intros P [OK AD]. split; [rewrite with_rows_rows; now apply (Permutation_Forall P)|].
    destruct c as [l0|l0|f l0|l0]; cbn [with_rows rows_of] in *.
    - exact (Permutation_NoDup (Permutation_map pk P) AD).
    - exact (Permutation_NoDup (Permutation_map pk P) AD).
    - split; [exact (Permutation_NoDup (Permutation_map pk P) (proj1 AD))|exact (proj2 AD)].
    - intros r o I. apply AD. apply (Permutation_in r (Permutation_sym P) I).
  Qed.

  Lemma succeeds_perm m c l : Permutation (rows_of c) l -> succeeds sc m c -> succeeds sc m (with_rows c l).
  Proof.
    intros P SU. destruct c as [l0|l0|f l0|l0]; cbn [with_rows rows_of succeeds] in *; auto; intros r I; apply (SU r); exact (Permutation_in r (Permutation_sym P) I).
  Qed.

  Lemma effect_perm m c l p : rows_fine tb m -> Permutation (rows_of c) l -> admissible sc m c -> effect sc m (with_rows c l) p = effect sc m c p.
  Proof.
    intros RF P AD. pose proof (admissible_perm m c l P AD) as AD2. destruct (touches_dec tb c p) as [(r & I & <-)|N].
    - pose proof (Permutation_in r P I) as J. destruct AD as [OK AD], AD2 as [OK2 AD2]. rewrite with_rows_rows in OK2.
      destruct c as [l0|l0|f l0|l0]; cbn [with_rows rows_of effect] in *.
      + now rewrite !(puts_in (tb:=tb)) by auto.
      + now rewrite !(puts_in (tb:=tb)) by auto.
      + destruct AD as [ND CF], AD2 as [ND2 _]. now rewrite !(merges_in tb f) by auto.
      + rewrite !(removes_eq (tb:=tb)). assert (X : forall l1, In r l1 -> existsb (fun x => beqb (pk r) (pk x)) l1 = true).
        { intros l1 H. apply existsb_exists. exists r. split; [exact H|apply beqb_refl]. }
        now rewrite !X.
    - rewrite (effect_out tb m c p RF AD N). apply (effect_out tb m _ p RF AD2). intros (r & I & E). rewrite with_rows_rows in I. apply N.
      exists r. split; [exact (Permutation_in r (Permutation_sym P) I)|exact E].
  Qed.

  Theorem permuted ev ev' c l db fl m w r w' r' : env_ok ev -> quiet ev -> env_ok ev' -> quiet ev' -> consistent tb db fl m -> admissible sc m c ->
    Permutation (rows_of c) l -> run_call tb ev db fl None c = (w, r) -> run_call tb ev' db fl None (with_rows c l) = (w', r') ->
    (r = Ok tt <-> r' = Ok tt) /\ r_db w = r_db w'.
  Proof.
    intros EV QU EV' QU' C AD P E E'. pose proof (admissible_perm m c l P AD) as AD'.
    destruct (quiet_call ev c db fl m w r EV QU C AD E) as (A1 & A2 & A3 & A4).
    destruct (quiet_call ev' _ db fl m w' r' EV' QU' C AD' E') as (B1 & B2 & B3 & B4).
    assert (SU : succeeds sc m c <-> succeeds sc m (with_rows c l)).
    { split; [now apply succeeds_perm|]. intros H. assert (Q : Permutation (rows_of (with_rows c l)) (rows_of c)) by (rewrite with_rows_rows; now apply Permutation_sym).
      pose proof (succeeds_perm m (with_rows c l) (rows_of c) Q H) as H2. assert (X : with_rows (with_rows c l) (rows_of c) = c) by (now destruct c). now rewrite X in H2. }
    assert (EQ : r = Ok tt <-> r' = Ok tt) by tauto. split; [exact EQ|].
    destruct (ok_of r) eqn:OR.
    - assert (R : r = Ok tt) by (destruct r as [[]| | |]; try discriminate; reflexivity). assert (R' : r' = Ok tt) by now apply EQ. rewrite R' in B4. cbn [ok_of] in B4.
      apply (same_rows db _ _ _ _ _ _ A2 B2 A4 B4). intros p. symmetry. apply effect_perm; auto. exact (rep_fine tb _ _ (cons_rep _ _ _ _ C)).
    - assert (R : r <> Ok tt) by (intros ->; discriminate). rewrite (A3 R). symmetry. apply B3. intros X. apply R. now apply EQ.
  Qed.

  (** ** A call in two parts *)

  Lemma admissible_first m c a b : rows_of c = a ++ b -> admissible sc m c -> admissible sc m (with_rows c a).
  Proof.
    intros R [OK AD]. rewrite R in OK. apply Forall_app in OK as [OA OB]. split; [now rewrite with_rows_rows|].
    destruct c as [l|l|f l|l]; cbn [with_rows rows_of] in *; subst l.
    - rewrite map_app in AD. exact (proj1 (nodup_halves _ _ AD)).
    - rewrite map_app in AD. exact (proj1 (nodup_halves _ _ AD)).
    - rewrite map_app in AD. split; [exact (proj1 (nodup_halves _ _ (proj1 AD)))|exact (proj2 AD)].
    - intros r o I. apply AD. apply in_or_app. now left.
  Qed.

  Lemma effect_parts m c a b : rows_of c = a ++ b -> effect sc m c = effect sc (effect sc m (with_rows c a)) (with_rows c b).
  Proof.
    intros R. destruct c as [l|l|f l|l]; cbn [with_rows rows_of effect] in *; subst l.
    - apply (puts_app (tb:=tb)).
    - apply (puts_app (tb:=tb)).
    - apply (merges_app (tb:=tb)).
    - apply fold_left_app.
  Qed.

  Lemma not_later c a b r : rows_of c = a ++ b -> NoDup (map pk (rows_of c)) -> In r b -> ~ touches tb (with_rows c a) (pk r).
  Proof.
    intros R ND I (x & J & E). rewrite with_rows_rows in J. rewrite R, map_app in ND.
    clear R. revert ND E J. induction a as [|y a IH]; intros ND E J; [destruct J|]. cbn [map app] in ND. inversion ND as [|? ? N1 N2]; subst. destruct J as [->|J].
    - apply N1. apply in_or_app. right. apply in_map_iff. exists r. split; [now symmetry|exact I].
    - exact (IH N2 E J).
  Qed.

  Lemma admissible_second m c a b : rows_fine tb m -> rows_of c = a ++ b -> admissible sc m c -> admissible sc (effect sc m (with_rows c a)) (with_rows c b).
  Proof.
    intros RF R AD. pose proof (admissible_first m c a b R AD) as A1. destruct AD as [OK AD]. rewrite R in OK. apply Forall_app in OK as [OA OB].
    split; [now rewrite with_rows_rows|]. destruct c as [l|l|f l|l]; cbn [with_rows rows_of] in *; subst l.
    - rewrite map_app in AD. exact (proj2 (nodup_halves _ _ AD)).
    - rewrite map_app in AD. exact (proj2 (nodup_halves _ _ AD)).
    - rewrite map_app in AD. split; [exact (proj2 (nodup_halves _ _ (proj1 AD)))|exact (proj2 AD)].
    - intros r o I E. cbn [effect] in E. rewrite (removes_eq (tb:=tb)) in E. apply (AD r o); [apply in_or_app; now right|].
      now destruct (existsb (fun x => beqb (pk r) (pk x)) a).
  Qed.

  Lemma succeeds_parts m c a b : rows_fine tb m -> rows_of c = a ++ b -> admissible sc m c ->
    (succeeds sc m c <-> succeeds sc m (with_rows c a) /\ succeeds sc (effect sc m (with_rows c a)) (with_rows c b)).
  Proof.
    intros RF R AD. pose proof (admissible_first m c a b R AD) as A1.
    assert (K : NoDup (map pk (rows_of c)) -> forall r, In r b -> effect sc m (with_rows c a) (pk r) = m (pk r)).
    { intros ND r I. apply effect_out; auto. exact (not_later c a b r R ND I). }
    destruct AD as [OK AD]. destruct c as [l|l|f l|l]; cbn [with_rows rows_of succeeds effect] in *; subst l.
    - split.
      + intros H. split; intros r I; [apply H; apply in_or_app; now left|]. rewrite (K AD r I). apply H. apply in_or_app. now right.
      + intros [H1 H2] r I. apply in_app_or in I as [I|I]; [now apply H1|]. rewrite <- (K AD r I). now apply H2.
    - split.
      + intros H. split; intros r I; [apply H; apply in_or_app; now left|]. rewrite (K AD r I). apply H. apply in_or_app. now right.
      + intros [H1 H2] r I. apply in_app_or in I as [I|I]; [now apply H1|]. rewrite <- (K AD r I). now apply H2.
    - pose proof (K (proj1 AD)) as K1. split.
      + intros H. split; intros r I; cbn [stored_row]; [apply (H r); apply in_or_app; now left|]. rewrite (K1 r I). apply (H r). apply in_or_app. now right.
      + intros [H1 H2] r I. apply in_app_or in I as [I|I]; [now apply H1|]. pose proof (H2 r I) as H3. cbn [stored_row] in H3 |- *. now rewrite (K1 r I) in H3.
    - tauto.
  Qed.

  Theorem in_parts ev ev1 ev2 c a b db fl m w r w1 r1 w2 r2 : env_ok ev -> quiet ev -> env_ok ev1 -> quiet ev1 -> env_ok ev2 -> quiet ev2 ->
    consistent tb db fl m -> admissible sc m c -> rows_of c = a ++ b -> run_call tb ev db fl None c = (w, r) ->
    run_call tb ev1 db fl None (with_rows c a) = (w1, r1) -> run_call tb ev2 (r_db w1) (r_flt w1) None (with_rows c b) = (w2, r2) ->
    (r = Ok tt -> r1 = Ok tt /\ r2 = Ok tt /\ r_db w = r_db w2) /\ (r1 = Ok tt -> r2 = Ok tt -> r = Ok tt).
  Proof.
    intros EV QU EV1 QU1 EV2 QU2 C AD R E E1 E2. pose proof (rep_fine tb _ _ (cons_rep _ _ _ _ C)) as RF.
    pose proof (admissible_first m c a b R AD) as AD1. pose proof (admissible_second m c a b RF R AD) as AD2.
    destruct (quiet_call ev c db fl m w r EV QU C AD E) as (A1 & A2 & _ & A4).
    destruct (quiet_call ev1 _ db fl m w1 r1 EV1 QU1 C AD1 E1) as (B1 & B2 & _ & B4).
    pose proof (succeeds_parts m c a b RF R AD) as SP.
    assert (SECOND : r1 = Ok tt -> (r2 = Ok tt <-> succeeds sc (effect sc m (with_rows c a)) (with_rows c b)) /\ same_outside sc db (r_db w2) /\
      consistent tb (r_db w2) (r_flt w2) (if ok_of r2 then effect sc (effect sc m (with_rows c a)) (with_rows c b) else effect sc m (with_rows c a))).
    { intros ->. cbn [ok_of] in B4. destruct (quiet_call ev2 _ (r_db w1) (r_flt w1) _ w2 r2 EV2 QU2 B4 AD2 E2) as (D1 & D2 & _ & D4).
      split; [exact D1|]. split; [exact (same_outside_trans _ _ _ B2 D2)|exact D4]. }
    split.
    - intros ->. assert (SU : succeeds sc m c) by now apply A1. apply SP in SU as [S1 S2]. assert (R1 : r1 = Ok tt) by now apply B1.
      destruct (SECOND R1) as (D1 & D2 & D4). assert (R2 : r2 = Ok tt) by now apply D1. split; [exact R1|]. split; [exact R2|].
      rewrite R2 in D4. cbn [ok_of] in A4, D4. apply (same_rows db _ _ _ _ _ _ A2 D2 A4 D4). intros p. now rewrite (effect_parts m c a b R).
    - intros R1 R2. destruct (SECOND R1) as (D1 & _). apply A1. apply SP. split; [now apply B1|now apply D1].
  Qed.

  (** ** Calls on different rows *)

  Lemma succeeds_same m m' c : (forall p, touches tb c p -> m p = m' p) -> succeeds sc m c -> succeeds sc m' c.
  Proof.
    intros E SU. destruct c as [l|l|f l|l]; cbn [succeeds] in *; auto.
    - intros r I. rewrite <- E by (exists r; now split). now apply SU.
    - intros r I. rewrite <- E by (exists r; now split). now apply SU.
    - intros r I. cbn [stored_row]. rewrite <- E by (exists r; now split). now apply SU.
  Qed.

  Lemma no_common_sym c o : no_common_key tb c o -> no_common_key tb o c.
  Proof. intros N r x I J E. exact (N x r J I (eq_sym E)). Qed.

  (** The second call does not notice the first. *)
  Lemma unnoticed m c o (ok : bool) : rows_fine tb m -> no_common_key tb c o -> admissible sc m c -> admissible sc m o ->
    admissible sc (if ok then effect sc m c else m) o /\ (succeeds sc (if ok then effect sc m c else m) o <-> succeeds sc m o).
  Proof.
    intros RF N AC AO. destruct ok; [|split; [exact AO|reflexivity]].
    assert (K : forall p, touches tb o p -> m p = effect sc m c p).
    { intros p P. symmetry. apply effect_out; auto. exact (apart_touch tb o c p (no_common_sym _ _ N) P). }
    split; [now apply (admissible_same tb m)|]. split; apply succeeds_same; auto. intros p P. symmetry. now apply K.
  Qed.

  Theorem either_order e1 e2 e3 e4 c o db fl m w1 r1 w2 r2 w3 r3 w4 r4 : env_ok e1 -> quiet e1 -> env_ok e2 -> quiet e2 -> env_ok e3 -> quiet e3 -> env_ok e4 -> quiet e4 ->
    consistent tb db fl m -> admissible sc m c -> admissible sc m o -> no_common_key tb c o ->
    run_call tb e1 db fl None c = (w1, r1) -> run_call tb e2 (r_db w1) (r_flt w1) None o = (w2, r2) ->
    run_call tb e3 db fl None o = (w3, r3) -> run_call tb e4 (r_db w3) (r_flt w3) None c = (w4, r4) ->
    (r1 = Ok tt <-> r4 = Ok tt) /\ (r2 = Ok tt <-> r3 = Ok tt) /\ r_db w2 = r_db w4.
  Proof.
    intros V1 Q1 V2 Q2 V3 Q3 V4 Q4 C AC AO N E1 E2 E3 E4. pose proof (rep_fine tb _ _ (cons_rep _ _ _ _ C)) as RF.
    destruct (quiet_call e1 c db fl m w1 r1 V1 Q1 C AC E1) as (A1 & A2 & _ & A4).
    destruct (unnoticed m c o (ok_of r1) RF N AC AO) as [AO' SO].
    destruct (quiet_call e2 o _ _ _ w2 r2 V2 Q2 A4 AO' E2) as (B1 & B2 & _ & B4).
    destruct (quiet_call e3 o db fl m w3 r3 V3 Q3 C AO E3) as (D1 & D2 & _ & D4).
    destruct (unnoticed m o c (ok_of r3) RF (no_common_sym _ _ N) AO AC) as [AC' SC].
    destruct (quiet_call e4 c _ _ _ w4 r4 V4 Q4 D4 AC' E4) as (H1 & H2 & _ & H4).
    assert (X1 : r1 = Ok tt <-> r4 = Ok tt) by tauto. assert (X2 : r2 = Ok tt <-> r3 = Ok tt) by tauto.
    split; [exact X1|]. split; [exact X2|].
    assert (OKS : forall x y : res unit, (x = Ok tt <-> y = Ok tt) -> ok_of x = ok_of y).
    { intros x y [P Q]. destruct x as [[]| | |]; destruct y as [[]| | |]; cbn [ok_of]; auto; try (specialize (P eq_refl); discriminate); specialize (Q eq_refl); discriminate. }
    rewrite <- (OKS _ _ X1) in H4. rewrite (OKS _ _ X2) in B4.
    apply (same_rows db _ _ _ _ _ _ (same_outside_trans _ _ _ A2 B2) (same_outside_trans _ _ _ D2 H2) B4 H4).
    intros p. pose proof (rep_fine tb _ _ (cons_rep _ _ _ _ A4)) as RA. pose proof (rep_fine tb _ _ (cons_rep _ _ _ _ D4)) as RD.
    destruct (ok_of r1), (ok_of r3); auto.
    destruct (touches_dec tb c p) as [P|P].
    - assert (NP : ~ touches tb o p) by exact (apart_touch tb c o p N P). rewrite (effect_out tb (effect sc m c) o p RA AO' NP).
      apply effect_same; auto. symmetry. now apply effect_out.
    - rewrite (effect_out tb (effect sc m o) c p RD AC' P). apply effect_same; auto. now apply effect_out.
  Qed.
End Laws.
