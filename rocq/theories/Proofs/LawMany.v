(** Any number of calls on different rows, in any order. *)

From Coq Require Import List NArith Lia Bool Arith Sorting.Permutation.
From Verif.Model Require Import Bytes Go Keys Pebble Index Table.
From Verif.Spec Require Import KeySpec StoreSpec TableSpec HistSpec RetrySpec LawSpec.
From Verif.Proofs Require Import BytesFacts KeysFacts PebbleFacts TableFacts WriteFacts UpdateFacts UpsertFacts CallFacts LocalFacts HistFacts TableProps AnyHist FoldFacts RetryFacts RetryAmong LawFacts.
Import ListNotations.

(** A symmetric relation between all pairs of a list holds in every order. *)
Lemma Permutation_pairs {A} (R : A -> A -> Prop) : (forall x y, R x y -> R y x) -> forall l l', Permutation l l' -> ForallOrdPairs R l -> ForallOrdPairs R l'.
Proof.
  intros SY l l' P. induction P as [|x l l' P IH|x y l|l1 l2 l3 P1 IH1 P2 IH2]; intros H; auto.
  - inversion H; subst. constructor; [exact (Permutation_Forall P H2)|auto].
  - inversion H as [|? ? H1 H2]; subst. inversion H2 as [|? ? H3 H4]; subst. inversion H1 as [|? ? H5 H6]; subst.
    constructor; [constructor; [now apply SY|exact H3]|]. constructor; [exact H6|exact H4].
Qed.

Section Many.
  Context {T F : Type} (tb : table T F) (G : good_table tb).
  Notation sc := (schema_of tb).
  Notation pk := (s_pk (schema_of tb)).

  (** Each call answers and does what it would answer and do alone. *)
  Theorem as_alone cs : forall db fl m db' fl', consistent tb db fl m -> (forall c r, In (c, r) cs -> admissible sc m c) ->
    ForallOrdPairs (no_common_key tb) (map fst cs) -> quiet_runs tb db fl cs db' fl' ->
    exists mm, consistent tb db' fl' mm /\ same_outside sc db db' /\
      (forall c r, In (c, r) cs -> (r = Ok tt <-> succeeds sc m c) /\ forall x, In x (rows_of c) -> mm (pk x) = (if ok_of r then effect sc m c else m) (pk x)) /\
      (forall p, (forall c r, In (c, r) cs -> ~ touches tb c p) -> mm p = m p).
  Proof.
    induction cs as [|[c r] cs IH]; intros db fl m db' fl' C AD IND R; inversion R; subst.
    - exists m. split; [exact C|]. split; [intros k _; reflexivity|]. split; [intros c r []|auto].
    - cbn [map fst] in IND. inversion IND as [|? ? I1 I2]; subst. rewrite Forall_forall in I1.
      assert (AC : admissible sc m c) by (apply (AD c r); now left).
      pose proof (rep_fine tb _ _ (cons_rep _ _ _ _ C)) as RF.
      match goal with E : run_call tb ?ev _ _ _ _ = _ |- _ => destruct (quiet_call tb G ev c db fl m w r) as (A1 & A2 & _ & A4); auto end.
      set (m1 := if ok_of r then effect sc m c else m) in *.
      assert (APART : forall o ro, In (o, ro) cs -> no_common_key tb c o) by (intros o ro J; apply I1; apply in_map_iff; now exists (o, ro)).
      assert (U : forall o ro, In (o, ro) cs -> admissible sc m1 o /\ (succeeds sc m1 o <-> succeeds sc m o)).
      { intros o ro J. apply (unnoticed tb m c o (ok_of r)); auto; [exact (APART o ro J)|]. apply (AD o ro). now right. }
      match goal with Q : quiet_runs tb (r_db w) _ _ _ _ |- _ => destruct (IH _ _ m1 _ _ A4 (fun o ro J => proj1 (U o ro J)) I2 Q) as (mm & D1 & D2 & D3 & D4) end.
      assert (OUT : forall p, ~ touches tb c p -> m1 p = m p).
      { intros p N. unfold m1. destruct (ok_of r); [|reflexivity]. now apply effect_out. }
      exists mm. split; [exact D1|]. split; [exact (same_outside_trans _ _ _ A2 D2)|]. split.
      + intros o ro [E|J].
        * injection E as <- <-. split; [exact A1|]. intros x I. apply D4. intros o ro J. apply (apart_touch tb c o _ (APART o ro J)). exists x. now split.
        * destruct (D3 o ro J) as [E1 E2]. destruct (U o ro J) as [U1 U2]. split; [rewrite E1; exact U2|]. intros x I. rewrite (E2 x I).
          assert (NT : ~ touches tb c (pk x)) by (apply (apart_touch tb o c _ (no_common_sym tb _ _ (APART o ro J))); exists x; now split).
          destruct (ok_of ro); [|now apply OUT]. apply effect_same; auto; try exact (AD o ro (or_intror J)); exact (rep_fine tb _ _ (cons_rep _ _ _ _ A4)).
      + intros p N. rewrite D4 by (intros o ro J; apply (N o ro); now right). apply OUT. apply (N c r). now left.
  Qed.

  Theorem any_order cs cs' db fl m d1 f1 d2 f2 : consistent tb db fl m -> (forall c r, In (c, r) cs -> admissible sc m c) ->
    ForallOrdPairs (no_common_key tb) (map fst cs) -> Permutation (map fst cs) (map fst cs') ->
    quiet_runs tb db fl cs d1 f1 -> quiet_runs tb db fl cs' d2 f2 ->
    d1 = d2 /\ forall c r r', In (c, r) cs -> In (c, r') cs' -> (r = Ok tt <-> r' = Ok tt).
  Proof.
    intros C AD IND P R1 R2.
    assert (ACROSS : forall c r', In (c, r') cs' -> exists r, In (c, r) cs).
    { intros c r' J. assert (K : In c (map fst cs)) by (apply (Permutation_in _ (Permutation_sym P)); apply in_map_iff; now exists (c, r')).
      apply in_map_iff in K as ([c0 r] & E & K). cbn [fst] in E. subst c0. now exists r. }
    assert (ACROSS' : forall c r, In (c, r) cs -> exists r', In (c, r') cs').
    { intros c r' J. assert (K : In c (map fst cs')) by (apply (Permutation_in _ P); apply in_map_iff; now exists (c, r')).
      apply in_map_iff in K as ([c0 r] & E & K). cbn [fst] in E. subst c0. now exists r. }
    assert (AD' : forall c r, In (c, r) cs' -> admissible sc m c) by (intros c r' J; destruct (ACROSS c r' J) as [r K]; exact (AD c r K)).
    assert (IND' : ForallOrdPairs (no_common_key tb) (map fst cs')).
    { apply (Permutation_pairs (no_common_key tb) (no_common_sym tb) _ _ P IND). }
    destruct (as_alone cs db fl m d1 f1 C AD IND R1) as (m1 & A1 & A2 & A3 & A4).
    destruct (as_alone cs' db fl m d2 f2 C AD' IND' R2) as (m2 & B1 & B2 & B3 & B4).
    assert (ALIKE : forall c r r', In (c, r) cs -> In (c, r') cs' -> (r = Ok tt <-> r' = Ok tt)).
    { intros c r r' I J. destruct (A3 c r I) as [X _]. destruct (B3 c r' J) as [Y _]. tauto. }
    split; [|exact ALIKE]. apply (same_rows tb db _ _ _ _ _ _ A2 B2 A1 B1). intros p.
    assert (DEC : (exists c r, In (c, r) cs /\ touches tb c p) \/ forall c r, In (c, r) cs -> ~ touches tb c p).
    { clear. induction cs as [|[c r] cs [(c0 & r0 & I & H)|N]]; [right; intros c r []|left; exists c0, r0; split; [now right|exact H]|].
      destruct (touches_dec tb c p) as [H|H]; [left; exists c, r; split; [now left|exact H]|]. right. intros c0 r0 [E|J]; [injection E as <- <-; exact H|exact (N c0 r0 J)]. }
    destruct DEC as [(c & r & I & (x & X & <-))|N].
    - destruct (ACROSS' c r I) as [r' J]. rewrite (proj2 (A3 c r I) x X), (proj2 (B3 c r' J) x X).
      assert (OKS : ok_of r = ok_of r'); [|now rewrite OKS].
      destruct (ALIKE c r r' I J) as [Y Z]. destruct r as [[]| | |], r' as [[]| | |]; cbn [ok_of]; auto; try (specialize (Y eq_refl); discriminate); specialize (Z eq_refl); discriminate.
    - rewrite (A4 p N), (B4 p); [reflexivity|]. intros c r' J. destruct (ACROSS c r' J) as [r K]. exact (N c r K).
  Qed.
End Many.
