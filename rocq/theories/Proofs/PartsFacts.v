(** The order of the parts of an intersecting query does not matter. *)

From Coq Require Import List NArith Lia Bool Arith Sorting.Sorted.
From Verif.Model Require Import Bytes Go Keys Pebble Index Table Scan Query.
From Verif.Spec Require Import KeySpec StoreSpec TableSpec HistSpec ScanSpec QuerySpec PartsSpec.
From Verif.Proofs Require Import BytesFacts ScanProps QueryProps InterFacts ChoiceFacts PushFacts.
Import ListNotations.

Section Parts.
  Context {T F : Type} (tb : table T F) (G : good_table tb) (ev : env T).
  Variables (srt : (T -> T -> bool) -> list T -> list T) (db : kv) (fl : F) (ob : optb) (m : tmap T).
  Variables (R : reads tb db fl ob m) (Q : quiet ev).
  Notation sc := (schema_of tb).
  Notation exec fuel q := (execute tb ev srt fuel db fl q ob).
  Notation isin idx := (In idx (primary_index :: t_indexes tb)).

  Lemma lists_within q q' ls ls' : (forall x, In x (q :: q_inter q) -> isin (q_index x)) -> same_parts q q' ->
    Forall2 (fun x l => visits tb (q_index x) m (q_sel x) l) (q :: q_inter q) ls -> Forall2 (fun x l => visits tb (q_index x) m (q_sel x) l) (q' :: q_inter q') ls' ->
    forall l, In l ls -> In l ls'.
  Proof.
    intros H SP A B l I. destruct (Forall2_in_right _ _ _ A l I) as (x & J & SL).
    destruct (proj1 (SP (q_index x) (q_sel x))) as (y & K & E1 & E2); [now exists x|]. destruct (Forall2_in_left _ _ _ B y K) as (l' & I' & SL'). rewrite E1, E2 in SL'.
    assert (X : l = l') by (eapply (listings_unique tb G db fl ob m (reads_cons _ _ _ _ _ R)); [exact (H x J)|exact SL|exact SL']). subst l'. exact I'.
  Qed.

  Theorem any_parts q q' : (forall x, In x (q :: q_inter q) -> isin (q_index x) /\ short_sel (sindex_of (q_index x)) (q_sel x)) ->
    q_inter q <> [] -> q_inter q' <> [] -> (forall x, In x (q_inter q) \/ In x (q_inter q') -> plain_part x) -> same_parts q q' ->
    q_filter q' = q_filter q -> q_less q' = q_less q -> q_offset q' = q_offset q -> q_limit q' = q_limit q -> q_after q' = q_after q ->
    exists ls, Forall2 (fun x l => visits tb (q_index x) m (q_sel x) l) (q :: q_inter q) ls /\
    forall fuel, (forall l, In l ls -> length l <= fuel) -> exec fuel q = exec fuel q'.
  Proof.
    intros H NE NE' PP SP EF EL EO EN EA.
    assert (SP' : same_parts q' q) by (intros i s; symmetry; apply SP).
    assert (H' : forall x, In x (q' :: q_inter q') -> isin (q_index x) /\ short_sel (sindex_of (q_index x)) (q_sel x)).
    { intros x I. destruct (proj2 (SP (q_index x) (q_sel x))) as (y & J & E1 & E2); [now exists x|]. rewrite <- E1, <- E2. exact (H y J). }
    assert (OP := really_opens tb G db fl ob m (reads_ok _ _ _ _ _ R) (reads_batch _ _ _ _ _ R) (reads_rw _ _ _ _ _ R) (reads_cons _ _ _ _ _ R)).
    destruct (intersect_keys tb G ev db fl ob m R Q (fun i s => short_sel (sindex_of i) s) (fun i s l => visits tb i m s l)) with (q := q) as (ls & b & F2 & IS & _ & V); [intros idx sel; apply OP|exact H|].
    destruct (intersect_keys tb G ev db fl ob m R Q (fun i s => short_sel (sindex_of i) s) (fun i s l => visits tb i m s l)) with (q := q') as (ls' & b' & F3 & IS' & _ & V'); [intros idx sel; apply OP|exact H'|].
    exists ls. split; [exact F2|]. intros fuel LE.
    pose proof (lists_within q q' ls ls' (fun x I => proj1 (H x I)) SP F2 F3) as W. pose proof (lists_within q' q ls' ls (fun x I => proj1 (H' x I)) SP' F3 F2) as W'.
    assert (EB : b' = b).
    { apply (same_intersection tb ls); [|exact IS]. destruct IS' as [S E]. split; [exact S|]. intros r. rewrite E, !Forall_forall. split; intros A l I; apply A; auto. }
    subst b'. specialize (V fuel LE). specialize (V' fuel (fun l I => LE l (W' l I))).
    unfold execute. destruct (q_inter q) as [|x0 xs] eqn:E0; [easy|]. destruct (q_inter q') as [|y0 ys] eqn:E1; [easy|]. rewrite <- E0, <- E1 in *.
    unfold execute_intersect.
    replace (forallb plain_query (q_inter q)) with true by (symmetry; apply forallb_forall; intros x Hx; apply plain_query_ok; auto).
    replace (forallb plain_query (q_inter q')) with true by (symmetry; apply forallb_forall; intros x Hx; apply plain_query_ok; auto).
    now rewrite V, V', EF, EL, EO, EN, EA.
  Qed.
End Parts.
