(** Scans with every selector: what they really visit. *)

From Coq Require Import List NArith Lia Bool Arith Sorting.Sorted.
From Verif.Model Require Import Bytes Go Keys Pebble Index Table Scan.
From Verif.Spec Require Import KeySpec StoreSpec TableSpec ScanSpec.
From Verif.Proofs Require Import BytesFacts KeysFacts PebbleFacts TableFacts WriteFacts ReadFacts IterFacts ScanFacts ScanRows ScanProps ScanTop.
Import ListNotations.

Section P.
  Context {T F : Type}.
  Variable tb : table T F.
  Hypothesis G : good_table tb.
  Variable ev : env T.
  Hypothesis EV : env_ok ev.
  Variables (db : kv) (fl : F) (ob : optb) (m : tmap T).
  Hypothesis R : reads tb db fl ob m.
  Notation sc := (schema_of tb).
  Notation isin idx := (In idx (primary_index :: t_indexes tb)).

  Lemma a_opens idx sel : isin idx -> short_sel (sindex_of idx) sel ->
    exists l, visits tb idx m sel l /\ opens tb db ob idx sel l /\ forall r, In r l -> m (s_pk sc r) = Some r.
  Proof. destruct R as [A B C D]. exact (really_opens tb G db fl ob m A B C D idx sel). Qed.

  Lemma a_unique idx sel l l' : isin idx -> visits tb idx m sel l -> visits tb idx m sel l' -> l = l'.
  Proof. destruct R as [A B C D]. intro HI. apply (listings_unique tb G db fl ob m D); auto. Qed.

  Lemma a_scan idx sel : isin idx -> 0 < t_prefetch tb -> quiet ev -> short_sel (sindex_of idx) sel ->
    exists l, visits tb idx m sel l /\ (forall l', visits tb idx m sel l' -> l' = l) /\
      forall rv fuel acc, length l <= fuel -> scan_index tb ev fuel db fl idx sel acc rv ob = (acc ++ dir rv l, Ok tt).
  Proof.
    intros HI PRE Q SH. destruct (a_opens idx sel HI SH) as [l [V [O ST]]]. exists l. split; auto. split.
    - intros l' V'. eapply a_unique; eauto.
    - destruct R as [A B C D]. apply (scan_index_opens tb G ev EV db fl ob m A C D idx sel l HI PRE (proj1 Q) O ST).
  Qed.

  Lemma a_get sel : (exists lo hi, sel = SRange lo hi) \/ (exists rs, sel = SRanges rs) ->
    0 < t_prefetch tb -> quiet ev -> short_sel (@sprimary T) sel ->
    exists l, visits tb primary_index m sel l /\ forall fuel, length l <= fuel -> get_sel tb ev fuel db fl ob sel = Ok l.
  Proof.
    intros SH PRE Q EX. destruct (a_scan primary_index sel (or_introl eq_refl) PRE Q EX) as [l [S [_ V]]].
    exists l. split; auto. intros fuel LE. specialize (V false fuel [] LE). cbn [dir app] in V.
    destruct SH as [[lo [hi ->]]|[rs ->]]; cbn [get_sel]; rewrite V; reflexivity.
  Qed.

  Lemma a_each_primary sel : short_sel (@sprimary T) sel ->
    exists l, visits tb primary_index m sel l /\
    forall rv W (f : W -> bytes -> prog W) fuel s, within f (keyed sc sprimary (dir rv l)) s fuel ->
      visited ev f (keyed sc sprimary (dir rv l)) s (scan_index_for_each tb ev fuel db fl primary_index sel f rv ob s).
  Proof.
    intros SH. destruct (a_opens primary_index sel (or_introl eq_refl) SH) as [l [V [O ST]]]. exists l. split; auto.
    destruct R as [A B C D]. intros. apply (primary_opens tb G ev db fl ob m D sel l O ST); auto.
  Qed.

  Lemma a_each_secondary idx sel : In idx (t_indexes tb) -> 0 < t_prefetch tb -> short_sel (sindex_of idx) sel ->
    exists l, visits tb idx m sel l /\
    forall rv W (f : W -> bytes -> prog W) fuel s, loads_steadily f -> within f (keyed sc (sindex_of idx) (dir rv l)) s fuel ->
      visited ev f (keyed sc (sindex_of idx) (dir rv l)) s (scan_index_for_each tb ev fuel db fl idx sel f rv ob s).
  Proof.
    intros HI PRE SH. destruct (a_opens idx sel (or_intror HI) SH) as [l [V [O ST]]]. exists l. split; auto.
    destruct R as [A B C D]. intros. apply (secondary_opens tb G ev EV db fl ob m A C D idx sel l HI PRE O ST); auto.
  Qed.

  Lemma a_walk idx sel : isin idx -> short_sel (sindex_of idx) sel ->
    exists b l, index_iter tb db ob idx sel = Ok b /\ visits tb idx m sel l /\
    forall mv0 mvs, mv0 = MFirst \/ mv0 = MLast ->
      let b' := fold_left (fun b mv => bstep (db_iter db (batch_of ob)) mv b) (mv0 :: mvs) b in
      match cursor_at l (fold_left (cursor_step (length l)) (mv0 :: mvs) 0) with
      | Some r => bi_valid b' = true /\ bi_key b' = entry_key sc (sindex_of idx) r /\
                  (if Byte.eqb (ix_id idx) x00 then s_val sc r = Some (bi_value b') else bi_value b' = [])
      | None => bi_valid b' = false
      end.
  Proof.
    intros HI SH. destruct (a_opens idx sel HI SH) as [l [V [O ST]]]. destruct R as [A B C D].
    destruct (opens_walk tb db fl ob m D idx sel l O ST) as [b [E W]]. exists b, l. auto.
  Qed.

  (** for selectors whose ends are exact it is what they select *)
  Lemma a_exact idx sel l : isin idx -> exact_selector tb idx m sel -> short_sel (sindex_of idx) sel -> visits tb idx m sel l <-> selected tb idx m sel l.
  Proof.
    intros HI EX SH. destruct R as [A B C D].
    destruct (a_opens idx sel HI SH) as [l1 [V [[b1 [O1 [F1 C1]]] ST1]]].
    destruct (exact_opens tb G db fl ob m A B C D idx sel HI EX) as [l2 [S [[b2 [O2 [F2 C2]]] ST2]]].
    assert (b2 = b1) by congruence. subst b2. rewrite C1 in C2.
    assert (X : l1 = l2).
    { clear - C2 ST1 ST2 G HI D. revert l2 C2 ST2. induction l1 as [|x l1 IH]; intros [|y l2] E ST2; cbn [map] in E; try discriminate; auto.
      assert (E1 : entry_key sc (sindex_of idx) x = entry_key sc (sindex_of idx) y) by congruence.
      assert (E2 : map (fun r => (entry_key sc (sindex_of idx) r, val_of tb idx r)) l1 = map (fun r => (entry_key sc (sindex_of idx) r, val_of tb idx r)) l2) by congruence.
      assert (MX : m (s_pk sc x) = Some x) by (apply ST1; left; auto). assert (MY : m (s_pk sc y) = Some y) by (apply ST2; left; auto).
      apply layout_inj in E1; [|eapply (stored_fits tb (good_lawful _ G) idx HI _ m); [exact (cons_rep _ _ _ _ D)|auto]..].
      destruct E1 as [_ [_ [_ [_ E1]]]]. f_equal; [congruence|]. apply IH; auto; intros; [apply ST1|apply ST2]; right; auto. }
    subst l2. split; intro H.
    - replace l with l1; [exact S|]. exact (listings_unique tb G db fl ob m D idx _ HI l1 l V H).
    - replace l with l1; [exact V|]. exact (listings_unique tb G db fl ob m D idx _ HI l1 l S H).
  Qed.
End P.
