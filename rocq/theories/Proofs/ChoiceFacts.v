(** The result of an ordered query does not depend on the index. *)

From Coq Require Import List NArith Lia Bool Arith Sorting.Permutation Sorting.Sorted.
From Verif.Model Require Import Bytes Go Keys Pebble Index Table Scan Query.
From Verif.Spec Require Import KeySpec StoreSpec TableSpec HistSpec ScanSpec QuerySpec ChoiceSpec.
From Verif.Proofs Require Import BytesFacts ScanProps QueryProps InterFacts.
Import ListNotations.

Section Sort.
  Context {T : Type} (sc : schema T) (m : tmap T) (less : T -> T -> bool) (TA : tells_apart sc m less).

  Lemma strictly l : NoDup l -> (forall r, In r l -> m (s_pk sc r) = Some r) -> StronglySorted (fun a b => less b a = false) l -> StronglySorted (fun a b => less a b = true) l.
  Proof.
    intros ND ST S. induction S as [|a l S IH FA]; [constructor|]. inversion ND; subst. constructor; [apply IH; auto; intros; apply ST; now right|].
    rewrite Forall_forall in *. intros b I. destruct (proj2 TA a b) as [X|X]; auto; [apply ST; now left|apply ST; now right|intros ->; contradiction|]. rewrite (FA b I) in X. discriminate.
  Qed.

  Lemma ordered_same l l' s s' : ordered (Some less) l s -> ordered (Some less) l' s' -> NoDup l -> NoDup l' -> (forall r, In r l -> m (s_pk sc r) = Some r) ->
    (forall r, In r l <-> In r l') -> s = s'.
  Proof.
    intros [P S] [P' S'] ND ND' ST EQ. specialize (S (proj1 TA)). specialize (S' (proj1 TA)).
    destruct TA as [(IR & TR & _) _].
    apply (sorted_unique (fun a b => less a b = true)).
    - intros a E. rewrite IR in E. discriminate.
    - intros a b _ _ X Y. pose proof (TR a b a X Y) as Z. rewrite IR in Z. discriminate.
    - apply strictly; auto; [eapply Permutation_NoDup; [apply Permutation_sym, P|exact ND]|]. intros r I. apply ST. eapply Permutation_in; eauto.
    - apply strictly; auto; [eapply Permutation_NoDup; [apply Permutation_sym, P'|exact ND']|]. intros r I. apply ST, EQ. eapply Permutation_in; eauto.
    - intros r. split; intros I; (eapply Permutation_in; [apply Permutation_sym; eassumption|]); apply EQ; (eapply Permutation_in; [|exact I]); assumption.
  Qed.

  Lemma sorted_same srt l l' : sorts srt -> NoDup l -> NoDup l' -> (forall r, In r l -> m (s_pk sc r) = Some r) -> (forall r, In r l <-> In r l') -> srt less l = srt less l'.
  Proof. intros SR. apply ordered_same; apply SR. Qed.
End Sort.

Lemma in_keep {A} (f : option (A -> bool)) l x : In x (keep f l) <-> In x l /\ match f with Some f => f x = true | None => True end.
Proof. destruct f; cbn [keep]; [apply filter_In|tauto]. Qed.

Lemma in_dir {A} rv (l : list A) x : In x (dir rv l) <-> In x l.
Proof. destruct rv; cbn [dir]; [symmetry; apply in_rev|tauto]. Qed.

Lemma nodup_keep {A} (f : option (A -> bool)) (l : list A) : NoDup l -> NoDup (keep f l).
Proof. destruct f; cbn [keep]; [apply NoDup_filter|auto]. Qed.

Lemma nodup_dir {A} rv (l : list A) : NoDup l -> NoDup (dir rv l).
Proof. destruct rv; cbn [dir]; [|auto]. intros H. eapply Permutation_NoDup; [apply Permutation_rev|exact H]. Qed.

Lemma listings_in {T} (sc : schema T) ix m Ps l : listings sc ix m Ps l -> forall r, In r l <-> m (s_pk sc r) = Some r /\ si_filter ix r = true /\ exists P, In P Ps /\ P r.
Proof.
  induction 1 as [|P Ps l ls [_ H] _ IH]; intros r; [split; [intros []|intros (_ & _ & P & [] & _)]|]. rewrite in_app_iff, H, IH. split.
  - intros [(A & B & C)|(A & B & Q & I & C)]; (split; [exact A|]; split; [exact B|]); [exists P; split; [now left|exact C]|exists Q; split; [now right|exact C]].
  - intros (A & B & Q & [<-|I] & C); [left; auto|right; split; [exact A|]; split; [exact B|]; now exists Q].
Qed.

Lemma shortlex_refl a : shortlex a a = Eq.
Proof. unfold shortlex. rewrite Nat.compare_refl. apply bcmp_refl. Qed.

Lemma pos_cmp_refl {T} (sc : schema T) ix a : pos_cmp sc ix a a = Eq.
Proof. unfold pos_cmp. cbn [first_diff]. now rewrite !shortlex_refl, bcmp_refl. Qed.

Lemma nodup_both {A} (l k : list A) : NoDup l -> NoDup k -> (forall x, In x l -> In x k -> False) -> NoDup (l ++ k).
Proof.
  induction l as [|a l IH]; intros N M D; [exact M|]. inversion N; subst. cbn [app]. constructor.
  - rewrite in_app_iff. intros [I|I]; [contradiction|]. exact (D a (or_introl eq_refl) I).
  - apply IH; auto. intros x I. apply D. now right.
Qed.

Lemma nodup_listings {T} (sc : schema T) ix m Ps l : ForallOrdPairs (fun P Q : T -> Prop => forall r, m (s_pk sc r) = Some r -> si_filter ix r = true -> P r -> Q r -> False) Ps ->
  listings sc ix m Ps l -> NoDup l.
Proof.
  intros FO L. induction L as [|P Ps l ls [S H] L IH]; [constructor|]. inversion FO as [|? ? FA FO']; subst.
  apply nodup_both.
  - clear - S. induction S as [|x l S IH FA]; [constructor|]. constructor; [|exact IH]. intros I. rewrite Forall_forall in FA. specialize (FA x I). unfold pos_lt in FA.
    rewrite pos_cmp_refl in FA. discriminate.
  - exact (IH FO').
  - intros r I J. apply H in I as (A & B & C). apply (listings_in _ _ _ _ _ L) in J as (_ & _ & Q & K & D). rewrite Forall_forall in FA. exact (FA Q K r A B C D).
Qed.

Lemma behind_same {T} (sc : schema T) a l x y : behind sc a l x -> behind sc a l y -> x = y.
Proof.
  intros [l0 N|l1 r l2 E N] H.
  - inversion H as [|k1 r' k2 E' N']; subst; [reflexivity|]. destruct (N r'); [apply in_or_app; right; now left|exact E'].
  - inversion H as [k N'|k1 r' k2 E' N' EQ]; subst.
    + destruct (N' r); [apply in_or_app; right; now left|exact E].
    + revert k1 N' EQ N. clear - E E'. induction l1 as [|b l1 IH]; intros [|c k1] N' EQ N; cbn [app] in EQ; injection EQ as EH EQ.
      * now symmetry.
      * destruct (N' c (or_introl eq_refl)). congruence.
      * destruct (N b (or_introl eq_refl)). congruence.
      * apply (IH k1); auto; intros z I; [apply N'|apply N]; now right.
Qed.

Lemma Forall2_in_left {A B} (P : A -> B -> Prop) l k : Forall2 P l k -> forall x, In x l -> exists y, In y k /\ P x y.
Proof. induction 1 as [|a b l k H _ IH]; intros x J0; [destruct J0|]. destruct J0 as [<-|I]; [exists b; split; [now left|exact H]|]. destruct (IH x I) as (y & J & K). exists y. split; [now right|exact K]. Qed.

Lemma Forall2_in_right {A B} (P : A -> B -> Prop) l k : Forall2 P l k -> forall y, In y k -> exists x, In x l /\ P x y.
Proof. induction 1 as [|a b l k H _ IH]; intros y J0; [destruct J0|]. destruct J0 as [<-|I]; [exists a; split; [now left|exact H]|]. destruct (IH y I) as (x & J & K). exists x. split; [now right|exact K]. Qed.

Section Choice.
  Context {T F : Type} (tb : table T F) (G : good_table tb) (ev : env T) (EV : env_ok ev).
  Variables (srt : (T -> T -> bool) -> list T -> list T) (db : kv) (fl : F) (ob : optb) (m : tmap T).
  Variables (R : reads tb db fl ob m) (PF : 0 < t_prefetch tb) (Q : quiet ev) (SR : sorts srt).
  Notation sc := (schema_of tb).
  Notation isin idx := (In idx (primary_index :: t_indexes tb)).
  Notation exec fuel q := (execute tb ev srt fuel db fl q ob).

  Lemma asked q l : selected tb (q_index q) m (q_sel q) l -> forall rv r, In r (keep (q_filter q) (dir rv l)) <-> m (s_pk sc r) = Some r /\ asks_for tb q r.
  Proof. intros SL rv r. rewrite in_keep, in_dir, (listings_in _ _ _ _ _ SL). unfold asks_for. tauto. Qed.

  Lemma nodup_selected q l : once tb m q -> selected tb (q_index q) m (q_sel q) l -> NoDup l.
  Proof. apply nodup_listings. Qed.

  Lemma has_selection q : isin (q_index q) -> exact_selector tb (q_index q) m (q_sel q) -> exists l, selected tb (q_index q) m (q_sel q) l.
  Proof.
    intros HI EX. destruct (query_plain tb G ev EV srt db fl ob m R PF Q (MkQuery (q_index q) (q_sel q) (q_rev q) (q_filter q) None 0 0 None [])) as (l & SL & _); auto; try reflexivity.
    now exists l.
  Qed.

  (** Two queries over one index each. *)
  Theorem any_index q1 q2 less : isin (q_index q1) -> isin (q_index q2) -> exact_selector tb (q_index q1) m (q_sel q1) -> exact_selector tb (q_index q2) m (q_sel q2) ->
    once tb m q1 -> once tb m q2 -> q_inter q1 = [] -> q_inter q2 = [] -> q_less q1 = Some less -> q_less q2 = Some less -> tells_apart sc m less ->
    q_offset q1 = q_offset q2 -> q_limit q1 = q_limit q2 -> q_after q1 = q_after q2 -> (q_offset q1 < 2 ^ 63)%N -> (q_limit q1 < 2 ^ 63)%N ->
    (forall r, m (s_pk sc r) = Some r -> asks_for tb q1 r <-> asks_for tb q2 r) ->
    exists l1 l2, selected tb (q_index q1) m (q_sel q1) l1 /\ selected tb (q_index q2) m (q_sel q2) l2 /\
    forall fuel, length l1 <= fuel -> length l2 <= fuel -> exec fuel q1 = exec fuel q2.
  Proof.
    intros H1 H2 E1 E2 S1 S2 N1 N2 L1 L2 TA EO EL EA HO HL EQ. destruct (has_selection q1 H1 E1) as (l1 & SL1). destruct (has_selection q2 H2 E2) as (l2 & SL2).
    exists l1, l2. split; [exact SL1|]. split; [exact SL2|]. intros fuel F1 F2.
    rewrite (query_order_eq tb G ev EV srt db fl ob m R PF Q q1 less H1 E1 N1 L1 HO HL l1 SL1 fuel F1).
    rewrite EO in HO. rewrite EL in HL. rewrite (query_order_eq tb G ev EV srt db fl ob m R PF Q q2 less H2 E2 N2 L2 HO HL l2 SL2 fuel F2).
    assert (X : sorted_rows srt q1 less l1 = sorted_rows srt q2 less l2).
    { unfold sorted_rows. apply (sorted_same sc m less TA); auto.
      - apply nodup_keep, nodup_dir. exact (nodup_selected q1 l1 S1 SL1).
      - apply nodup_keep, nodup_dir. exact (nodup_selected q2 l2 S2 SL2).
      - intros r I. apply (asked q1 l1 SL1) in I. apply I.
      - intros r. rewrite (asked q1 l1 SL1), (asked q2 l2 SL2). split; intros [A B]; (split; [exact A|]); now apply (EQ r A). }
    now rewrite EO, EL, EA, X.
  Qed.

  (** An intersecting query, and a query over one index that asks for the same rows. *)
  Theorem intersect_as_one m0 q q2 less : consistent tb db fl m0 ->
    (forall x, In x (q :: q_inter q) -> isin (q_index x) /\ exact_selector tb (q_index x) m (q_sel x)) -> q_inter q <> [] -> (forall x, In x (q_inter q) -> plain_part x) ->
    isin (q_index q2) -> exact_selector tb (q_index q2) m (q_sel q2) -> once tb m q2 -> q_inter q2 = [] ->
    q_less q = Some less -> q_less q2 = Some less -> tells_apart sc m less ->
    q_offset q = q_offset q2 -> q_limit q = q_limit q2 -> q_after q = q_after q2 -> (q_offset q < 2 ^ 63)%N -> (q_limit q < 2 ^ 63)%N ->
    (forall r, m (s_pk sc r) = Some r -> (forall x, In x (q :: q_inter q) -> asks_for tb x r) <-> asks_for tb q2 r) ->
    exists ls l2, Forall2 (fun x l => selected tb (q_index x) m (q_sel x) l) (q :: q_inter q) ls /\ selected tb (q_index q2) m (q_sel q2) l2 /\
    ((forall r, m (s_pk sc r) = Some r -> (forall x, In x (q_inter q) -> asks_for tb x r) -> m0 (s_pk sc r) = Some r) ->
     forall fuel, (forall l, In l ls -> length l <= fuel) -> length l2 <= fuel -> exec fuel q = exec fuel q2).
  Proof.
    intros C0 H NE PP H2 E2 S2 N2 L1 L2 TA EO EL EA HO HL EQ.
    assert (LN : q_less q <> None) by (rewrite L1; discriminate).
    destruct (query_intersect tb G ev EV srt db fl ob m R Q m0 C0 q SR H NE PP HO HL (or_intror (or_intror (or_introl LN)))) as (ls & b & s & a & F2 & [SB IB] & OR & BE & X).
    rewrite EO in HO. rewrite EL in HL.
    destruct (query_order tb G ev EV srt db fl ob m R PF Q q2 less SR H2 E2 N2 L2 HO HL) as (l2 & s2 & a2 & SL2 & OR2 & BE2 & X2).
    exists ls, l2. split; [exact F2|]. split; [exact SL2|]. intros M0 fuel F1 FU.
    rewrite L1 in OR.
    assert (INB : forall r, In r b -> m (s_pk sc r) = Some r /\ (forall x, In x (q_inter q) -> asks_for tb x r)).
    { intros r I. apply IB in I. rewrite Forall_forall in I. split.
      - inversion F2 as [|? l0 ? ? SL F2']; subst. exact (proj1 (proj1 (listings_in _ _ _ _ _ SL r) (I l0 (or_introl eq_refl)))).
      - intros x J. destruct (Forall2_in_left _ _ _ F2 x (or_intror J)) as (l & IL & SL). apply (asked x l SL false). rewrite in_keep, in_dir. split; [exact (I l IL)|].
        now rewrite (proj1 (PP x J)). }
    assert (INK : forall r, In r (keep (q_filter q) b) <-> m (s_pk sc r) = Some r /\ asks_for tb q2 r).
    { intros r. rewrite in_keep. split.
      - intros [I FI]. destruct (INB r I) as [ST AS]. split; [exact ST|]. apply (proj1 (EQ r ST)). intros x [<-|J]; [|exact (AS x J)].
        apply IB in I. rewrite Forall_forall in I. destruct (Forall2_in_left _ _ _ F2 q (or_introl eq_refl)) as (l & IL & SL).
        apply (asked q l SL false). rewrite in_keep, in_dir. split; [exact (I l IL)|exact FI].
      - intros [ST AS]. pose proof (proj2 (EQ r ST) AS) as AL. split; [|exact (proj2 (proj2 (AL q (or_introl eq_refl))))].
        apply IB, Forall_forall. intros l IL. destruct (Forall2_in_right _ _ _ F2 l IL) as (x & I & SL).
        assert (Y : In r (keep (q_filter x) (dir false l))) by (apply (asked x l SL false); split; [exact ST|exact (AL x I)]).
        apply in_keep in Y as [Y _]. apply in_dir in Y. exact Y. }
    rewrite (X (fun r I => M0 r (proj1 (INB r I)) (proj2 (INB r I))) fuel F1), (X2 fuel FU), EO, EL. f_equal. f_equal.
    assert (SS : s = s2).
    2:{ subst s2. rewrite EA in BE. destruct (q_after q2) as [f|]; cbn [behind_opt] in BE, BE2; [exact (behind_same _ _ _ _ _ BE BE2)|congruence]. }
    apply (ordered_same sc m less TA (keep (q_filter q) b) (keep (q_filter q2) (dir (q_rev q2) l2)) s s2 OR OR2).
    - apply nodup_keep. clear - SB. induction SB as [|x l S IH FA]; [constructor|]. constructor; [|exact IH]. intros I. rewrite Forall_forall in FA. exact (blt_irrefl _ (FA x I)).
    - apply nodup_keep, nodup_dir. exact (nodup_selected q2 l2 S2 SL2).
    - intros r I. apply INK in I. apply I.
    - intros r. rewrite INK, (asked q2 l2 SL2). tauto.
  Qed.
End Choice.
