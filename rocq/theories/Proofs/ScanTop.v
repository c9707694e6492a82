(** The claims about scans in the form they are stated as properties. *)

From Coq Require Import List NArith ZArith Lia Bool Sorting.Sorted Arith.
From Verif.Model Require Import Bytes Go Keys Pebble Index Table Scan.
From Verif.Spec Require Import KeySpec StoreSpec TableSpec ScanSpec.
From Verif.Proofs Require Import BytesFacts KeysFacts PebbleFacts TableFacts WriteFacts IterFacts ScanFacts ScanOffer ScanRows ScanProps.
Import ListNotations.

(** the position a cursor stands for *)
Definition pos_is {A} (l : list A) (q : ipos) (c : nat) : Prop :=
  match q with PNone => False | PStart => c = 0 | PAt i => c = S i /\ i < length l | PEnd => c = S (length l) end.

Lemma step_cursor (p : piter) c mv : (pos_is (pi_items p) (pi_pos p) c \/ mv = MFirst \/ mv = MLast) ->
  pos_is (pi_items p) (pi_pos (step mv p)) (cursor_step (length (pi_items p)) c mv) /\ pi_items (step mv p) = pi_items p.
Proof.
  destruct p as [l q e]. cbn [pi_items pi_pos]. intro H.
  assert (LEN0 : forall a (l' : kv), length (a :: l') = S (length l')) by reflexivity.
  destruct mv; cbn [step cursor_step].
  - unfold it_first. cbn. split; auto. destruct l; cbn; lia.
  - unfold it_last. cbn [pi_items pi_pos]. split; auto. destruct l as [|a l]; cbn [pos_is]; rewrite ?LEN0; auto. lia.
  - destruct H as [H|[H|H]]; try discriminate. destruct q; cbn [pos_is] in H; try easy; unfold it_next, it_prev, it_first, it_last; cbn [pi_pos pi_items].
    + destruct H as [-> H]. split; auto. destruct (Nat.ltb_spec (S n) (length l)); cbn [pos_is].
      * change (@length (bytes * bytes)) with (@length entry) in *. destruct (length l); lia.
      * change (@length (bytes * bytes)) with (@length entry) in *. destruct (length l); lia.
    + subst c. split; auto. cbn [pos_is]. rewrite Nat.min_r by lia. reflexivity.
    + subst c. split; auto. destruct l; cbn; lia.
  - destruct H as [H|[H|H]]; try discriminate. destruct q; cbn [pos_is] in H; try easy; unfold it_next, it_prev, it_first, it_last; cbn [pi_pos pi_items].
    + destruct H as [-> H]. split; auto. destruct n; cbn; lia.
    + subst c. split; auto. destruct l; cbn; lia.
    + subst c. split; reflexivity.
Qed.

Lemma steps_cursor mvs : forall (p : piter) c, pos_is (pi_items p) (pi_pos p) c ->
  let p' := fold_left (fun p mv => step mv p) mvs p in
  pos_is (pi_items p) (pi_pos p') (fold_left (cursor_step (length (pi_items p))) mvs c) /\ pi_items p' = pi_items p.
Proof.
  induction mvs as [|mv mvs IH]; intros p c H; cbn [fold_left]; auto.
  destruct (step_cursor p c mv (or_introl H)) as [H1 H2].
  destruct (IH (step mv p) (cursor_step (length (pi_items p)) c mv)) as [H3 H4]; [rewrite H2; auto|].
  rewrite H2 in *. auto.
Qed.

Lemma pos_item (p : piter) c : pos_is (pi_items p) (pi_pos p) c ->
  it_item p = cursor_at (pi_items p) c /\ (it_valid p = true <-> cursor_at (pi_items p) c <> None).
Proof.
  destruct p as [l q e]. cbn [pi_items pi_pos]. unfold it_item, it_valid. cbn [pi_pos pi_items].
  destruct q; cbn [pos_is]; try easy.
  - intros [-> H]. cbn [cursor_at]. split; auto. split; auto. intros _ X. apply nth_error_None in X.
    apply (Nat.lt_irrefl n). eapply Nat.lt_le_trans; [exact H|exact X].
  - intros ->. cbn [cursor_at]. assert (X : nth_error l (length l) = None) by (apply nth_error_None; apply Nat.le_refl).
    split; [symmetry; exact X|]. rewrite X. easy.
  - intros ->. cbn. easy.
Qed.

(** the iterator of a fresh selection shows what a cursor on its contents would *)
Lemma moves_on_list open b0 mv0 mvs : fresh b0 -> mv0 = MFirst \/ mv0 = MLast ->
  let b := fold_left (fun b mv => bstep open mv b) (mv0 :: mvs) b0 in
  let c := fold_left (cursor_step (length (contents open b0))) (mv0 :: mvs) 0 in
  it_item (bi_cur b) = cursor_at (contents open b0) c /\ (bi_valid b = true <-> cursor_at (contents open b0) c <> None).
Proof.
  intros FR H. cbv zeta. destruct (moves_cursor open b0 mv0 mvs FR H) as [E1 E2]. rewrite E1, E2.
  set (p0 := PIter (contents open b0) PNone None).
  destruct (step_cursor p0 0 mv0 (or_intror H)) as [S1 S2].
  destruct (steps_cursor mvs (step mv0 p0) (cursor_step (length (pi_items p0)) 0 mv0)) as [S3 S4]; [rewrite S2; exact S1|].
  cbn [fold_left]. cbv zeta in S3, S4. rewrite S2 in S3, S4. change (pi_items p0) with (contents open b0) in *.
  set (p' := fold_left (fun p mv => step mv p) mvs (step mv0 p0)) in *.
  pose proof (pos_item p' (fold_left (cursor_step (length (contents open b0))) mvs (cursor_step (length (contents open b0)) 0 mv0))) as X.
  rewrite S4 in X. exact (X S3).
Qed.

Section P.
  Context {T F : Type}.
  Variable tb : table T F.
  Hypothesis G : good_table tb.
  Variable ev : env T.
  Hypothesis EV : env_ok ev.
  Variables (db : kv) (fl : F) (ob : optb) (m : tmap T).
  Hypothesis KV : kv_ok db.
  Hypothesis NB : ob <> NilBatch.
  Hypothesis RD : readable (batch_of ob).
  Hypothesis CO : consistent tb (view db (batch_of ob)) fl m.
  Notation sc := (schema_of tb).

  (** a scan from a point of the primary index *)
  Lemma primary_point p :  0 < t_prefetch tb -> quiet ev ->
    exists l, StronglySorted (fun a b => bcmp (s_pk sc a) (s_pk sc b) = Lt) l /\
      (forall r, In r l <-> m (s_pk sc r) = Some r /\ bcmp (s_pk sc p) (s_pk sc r) <> Gt) /\
      forall rv fuel acc, length l <= fuel ->
        scan_index tb ev fuel db fl primary_index (SPoint p) acc rv ob = (acc ++ dir rv l, Ok tt).
  Proof.
    intros PRE Q.
    destruct (scan_index_rows tb G ev EV db fl ob m KV NB RD CO primary_index (SPoint p) (or_introl eq_refl) PRE (proj1 Q)) as [l [S V]].
    { split; [split; vm_compute; reflexivity|vm_compute; discriminate]. }
    exists l. inversion S as [|P Ps l1 ls HL HN]; subst. inversion HN; subst. rewrite app_nil_r in *. clear S HN.
    destruct HL as [S I]. split; [|split; [|exact V]].
    - unfold pos_lt, pos_cmp in S. eapply sorted_weaken; [|exact S].
      intros a b _ _. cbn. destruct (bcmp _ _); auto.
    - intro r. rewrite I. unfold from_point, pos_le, pos_cmp. cbn.
      destruct (bcmp _ _); intuition congruence.
  Qed.

  Lemma full_scan : 0 < t_prefetch tb -> quiet ev ->
    exists l, StronglySorted (fun a b => bcmp (s_pk sc a) (s_pk sc b) = Lt) l /\
      (forall r, In r l <-> m (s_pk sc r) = Some r /\ bcmp (s_pk sc (t_empty tb)) (s_pk sc r) <> Gt) /\
      forall rv fuel acc, length l <= fuel -> scan tb ev fuel db fl acc rv ob = (acc ++ dir rv l, Ok tt).
  Proof. exact (primary_point (t_empty tb)). Qed.

  (** any walk of the iterator of a selection *)
  Lemma opens_walk idx sel l : opens tb db ob idx sel l -> (forall r, In r l -> m (s_pk sc r) = Some r) ->
    exists b, index_iter tb db ob idx sel = Ok b /\
    forall mv0 mvs, mv0 = MFirst \/ mv0 = MLast ->
      let b' := fold_left (fun b mv => bstep (db_iter db (batch_of ob)) mv b) (mv0 :: mvs) b in
      match cursor_at l (fold_left (cursor_step (length l)) (mv0 :: mvs) 0) with
      | Some r => bi_valid b' = true /\ bi_key b' = entry_key sc (sindex_of idx) r /\
                  (if Byte.eqb (ix_id idx) x00 then s_val sc r = Some (bi_value b') else bi_value b' = [])
      | None => bi_valid b' = false
      end.
  Proof.
    intros [b [E [FR C]]] ST. exists b. split; auto. intros mv0 mvs H. cbv zeta.
    destruct (moves_on_list (db_iter db (batch_of ob)) b mv0 mvs FR H) as [W1 W2].
    set (b' := fold_left (fun b mv => bstep (db_iter db (batch_of ob)) mv b) (mv0 :: mvs) b) in *.
    rewrite C in W1, W2. rewrite map_length in W1, W2.
    set (c := fold_left (cursor_step (length l)) (mv0 :: mvs) 0) in *.
    assert (X : forall A B (g : A -> B) (l : list A), cursor_at (map g l) c = option_map g (cursor_at l c)).
    { intros A B g l0. destruct c as [|i]; [reflexivity|]. cbn [cursor_at]. revert l0. clear. induction i; destruct l0; cbn; auto. }
    rewrite X in W1, W2. destruct (cursor_at l c) as [r|] eqn:EC; cbn [option_map] in *.
    - split; [apply W2; discriminate|]. unfold bi_key, bi_value, it_key, it_value. rewrite W1. cbn [fst snd]. split; auto.
      unfold val_of, prim. change primary_index_id with x00. destruct (Byte.eqb (ix_id idx) x00); auto.
      assert (HR : m (s_pk sc r) = Some r). { apply ST. destruct c as [|i]; [discriminate|]. eapply nth_error_In. exact EC. }
      destruct (rep_rows _ _ _ (cons_rep _ _ _ _ CO) _ _ HR) as [_ [_ SV]]. cbn [s_val schema_of] in *. destruct (t_ser tb r); congruence.
    - destruct (bi_valid b'); auto. exfalso. apply W2; auto.
  Qed.

  Lemma selection_walk idx sel : In idx (primary_index :: t_indexes tb) -> exact_selector tb idx m sel ->
    exists b l, index_iter tb db ob idx sel = Ok b /\ selected tb idx m sel l /\
    forall mv0 mvs, mv0 = MFirst \/ mv0 = MLast ->
      let b' := fold_left (fun b mv => bstep (db_iter db (batch_of ob)) mv b) (mv0 :: mvs) b in
      match cursor_at l (fold_left (cursor_step (length l)) (mv0 :: mvs) 0) with
      | Some r => bi_valid b' = true /\ bi_key b' = entry_key sc (sindex_of idx) r /\
                  (if Byte.eqb (ix_id idx) x00 then s_val sc r = Some (bi_value b') else bi_value b' = [])
      | None => bi_valid b' = false
      end.
  Proof.
    intros HI EX. destruct (exact_opens tb G db fl ob m KV NB RD CO idx sel HI EX) as [l [S [O ST]]].
    destruct (opens_walk idx sel l O ST) as [b [E W]]. exists b, l. auto.
  Qed.
End P.

(** ** With the reading conditions in one record *)
Section Q.
  Context {T F : Type}.
  Variable tb : table T F.
  Hypothesis G : good_table tb.
  Variable ev : env T.
  Hypothesis EV : env_ok ev.
  Variables (db : kv) (fl : F) (ob : optb) (m : tmap T).
  Hypothesis R : reads tb db fl ob m.
  Notation sc := (schema_of tb).

  Lemma t_primary_point p : 0 < t_prefetch tb -> quiet ev ->
    exists l, StronglySorted (fun a b => bcmp (s_pk sc a) (s_pk sc b) = Lt) l /\
      (forall r, In r l <-> m (s_pk sc r) = Some r /\ bcmp (s_pk sc p) (s_pk sc r) <> Gt) /\
      forall rv fuel acc, length l <= fuel ->
        scan_index tb ev fuel db fl primary_index (SPoint p) acc rv ob = (acc ++ dir rv l, Ok tt).
  Proof. destruct R as [A B C D]. exact (primary_point tb G ev EV db fl ob m A B C D p). Qed.

  Lemma t_full_scan : 0 < t_prefetch tb -> quiet ev ->
    exists l, StronglySorted (fun a b => bcmp (s_pk sc a) (s_pk sc b) = Lt) l /\
      (forall r, In r l <-> m (s_pk sc r) = Some r /\ bcmp (s_pk sc (t_empty tb)) (s_pk sc r) <> Gt) /\
      forall rv fuel acc, length l <= fuel -> scan tb ev fuel db fl acc rv ob = (acc ++ dir rv l, Ok tt).
  Proof. exact (t_primary_point (t_empty tb)). Qed.

  Lemma t_full_scan_all : 0 < t_prefetch tb -> quiet ev ->
    (forall r, m (s_pk sc r) = Some r -> bcmp (s_pk sc (t_empty tb)) (s_pk sc r) <> Gt) ->
    exists l, StronglySorted (fun a b => bcmp (s_pk sc a) (s_pk sc b) = Lt) l /\
      (forall r, In r l <-> m (s_pk sc r) = Some r) /\
      forall rv fuel acc, length l <= fuel -> scan tb ev fuel db fl acc rv ob = (acc ++ dir rv l, Ok tt).
  Proof.
    intros PRE Q H. destruct (t_full_scan PRE Q) as [l [A [B C]]]. exists l. split; auto. split; auto.
    intro r. rewrite B. split; [tauto|]. intro X. split; [exact X|exact (H r X)].
  Qed.

  Lemma one_listing ix P l : listings sc ix m [P] l -> listing sc ix m P l.
  Proof. intro S. inversion S as [|P1 Ps l1 ls HL HN]; subst. inversion HN; subst. rewrite app_nil_r. exact HL. Qed.

  Lemma t_point idx p : In idx (t_indexes tb) -> 0 < t_prefetch tb -> quiet ev -> exact_point (sindex_of idx) p ->
    exists l, listing sc (sindex_of idx) m (from_point sc (sindex_of idx) p) l /\
      forall rv fuel acc, length l <= fuel ->
        scan_index tb ev fuel db fl idx (SPoint p) acc rv ob = (acc ++ dir rv l, Ok tt).
  Proof.
    intros HI PRE Q EX. destruct R as [A B C D].
    destruct (scan_index_rows tb G ev EV db fl ob m A B C D idx (SPoint p) (or_intror HI) PRE (proj1 Q) EX) as [l [S V]].
    exists l. split; auto. apply one_listing. exact S.
  Qed.

  Lemma t_range idx lo hi : In idx (primary_index :: t_indexes tb) -> 0 < t_prefetch tb -> quiet ev ->
    parts_fit (sindex_of idx) lo -> exact_end sc (sindex_of idx) m hi ->
    exists l, listing sc (sindex_of idx) m (in_between sc (sindex_of idx) lo hi) l /\
      forall rv fuel acc, length l <= fuel ->
        scan_index tb ev fuel db fl idx (SRange lo hi) acc rv ob = (acc ++ dir rv l, Ok tt).
  Proof.
    intros HI PRE Q EL EH. destruct R as [A B C D].
    destruct (scan_index_rows tb G ev EV db fl ob m A B C D idx (SRange lo hi) HI PRE (proj1 Q) (conj EL EH)) as [l [S V]].
    exists l. split; auto. apply one_listing. exact S.
  Qed.

  Lemma t_get_range lo hi : 0 < t_prefetch tb -> quiet ev -> exact_end sc sprimary m hi ->
    exists l, StronglySorted (fun a b => bcmp (s_pk sc a) (s_pk sc b) = Lt) l /\
      (forall r, In r l <-> m (s_pk sc r) = Some r /\ bcmp (s_pk sc lo) (s_pk sc r) <> Gt /\ bcmp (s_pk sc r) (s_pk sc hi) <> Gt) /\
      forall fuel, length l <= fuel -> get_sel tb ev fuel db fl ob (SRange lo hi) = Ok l.
  Proof.
    intros PRE Q EH. destruct (t_range primary_index lo hi (or_introl eq_refl) PRE Q) as [l [[S I] V]].
    { split; vm_compute; reflexivity. }
    { exact EH. }
    exists l. split; [|split].
    - eapply sorted_weaken; [|exact S]. intros a b _ _. unfold pos_lt, pos_cmp. cbn. destruct (bcmp _ _); auto.
    - intro r. rewrite I. unfold in_between, pos_le, pos_cmp. cbn.
      destruct (bcmp (t_pk tb (new_kb []) lo) _); destruct (bcmp _ (t_pk tb (new_kb []) hi)); intuition congruence.
    - intros fuel LE. cbn [get_sel]. rewrite (V false fuel [] LE). reflexivity.
  Qed.

  Lemma t_get_ranges rs : 0 < t_prefetch tb -> quiet ev -> exact_selector tb primary_index m (SRanges rs) ->
    exists l, selected tb primary_index m (SRanges rs) l /\
      forall fuel, length l <= fuel -> get_sel tb ev fuel db fl ob (SRanges rs) = Ok l.
  Proof.
    intros PRE Q EX. destruct R as [A B C D].
    apply (get_range_rows tb G ev EV db fl ob m A B C D (SRanges rs)); eauto. apply (proj1 Q).
  Qed.

  Lemma t_multi idx sel : In idx (primary_index :: t_indexes tb) -> 0 < t_prefetch tb -> quiet ev -> exact_selector tb idx m sel ->
    exists l, selected tb idx m sel l /\ (forall l', selected tb idx m sel l' -> l' = l) /\
      forall rv fuel acc, length l <= fuel ->
        scan_index tb ev fuel db fl idx sel acc rv ob = (acc ++ dir rv l, Ok tt).
  Proof.
    intros HI PRE Q EX. destruct R as [A B C D].
    destruct (scan_index_rows tb G ev EV db fl ob m A B C D idx sel HI PRE (proj1 Q) EX) as [l [S V]].
    exists l. split; auto. split; auto. intros l' S'. eapply (selected_unique tb G db fl ob m D idx sel); eauto.
  Qed.

  Lemma t_walk idx sel : In idx (primary_index :: t_indexes tb) -> exact_selector tb idx m sel ->
    exists b l, index_iter tb db ob idx sel = Ok b /\ selected tb idx m sel l /\
    forall mv0 mvs, mv0 = MFirst \/ mv0 = MLast ->
      let b' := fold_left (fun b mv => bstep (db_iter db (batch_of ob)) mv b) (mv0 :: mvs) b in
      match cursor_at l (fold_left (cursor_step (length l)) (mv0 :: mvs) 0) with
      | Some r => bi_valid b' = true /\ bi_key b' = entry_key sc (sindex_of idx) r /\
                  (if Byte.eqb (ix_id idx) x00 then s_val sc r = Some (bi_value b') else bi_value b' = [])
      | None => bi_valid b' = false
      end.
  Proof. destruct R as [A B C D]. exact (selection_walk tb G db fl ob m A B C D idx sel). Qed.

  Lemma t_each_primary sel : exact_selector tb primary_index m sel ->
    exists l, selected tb primary_index m sel l /\
    forall rv W (f : W -> bytes -> prog W) fuel s, within f (keyed sc sprimary (dir rv l)) s fuel ->
      visited ev f (keyed sc sprimary (dir rv l)) s (scan_index_for_each tb ev fuel db fl primary_index sel f rv ob s).
  Proof. destruct R as [A B C D]. exact (scan_primary tb G ev db fl ob m A B C D sel). Qed.

  Lemma t_each_secondary idx sel : In idx (t_indexes tb) -> 0 < t_prefetch tb -> exact_selector tb idx m sel ->
    exists l, selected tb idx m sel l /\
    forall rv W (f : W -> bytes -> prog W) fuel s, loads_steadily f -> within f (keyed sc (sindex_of idx) (dir rv l)) s fuel ->
      visited ev f (keyed sc (sindex_of idx) (dir rv l)) s (scan_index_for_each tb ev fuel db fl idx sel f rv ob s).
  Proof. destruct R as [A B C D]. exact (scan_secondary tb G ev EV db fl ob m A B C D idx sel). Qed.

  Lemma t_each_offered idx sel : In idx (t_indexes tb) -> 0 < t_prefetch tb -> exact_selector tb idx m sel ->
    exists l, selected tb idx m sel l /\
    forall rv W (f : W -> bytes -> prog W) s, loads_at_most_once f ->
      (forall out, offered ev f (t_prefetch tb) 0 0 (keyed sc (sindex_of idx) (dir rv l)) s out ->
         exists n, forall fuel, n <= fuel -> scan_index_for_each tb ev fuel db fl idx sel f rv ob s = out) /\
      (forall fuel, snd (scan_index_for_each tb ev fuel db fl idx sel f rv ob s) <> Diverge ->
         offered ev f (t_prefetch tb) 0 0 (keyed sc (sindex_of idx) (dir rv l)) s (scan_index_for_each tb ev fuel db fl idx sel f rv ob s)).
  Proof. destruct R as [A B C D]. exact (scan_offered tb G ev EV db fl ob m A B C D idx sel). Qed.

  Lemma t_each_stuck idx sel rv r1 r2 l' : In idx (t_indexes tb) -> 2 <= t_prefetch tb -> exact_selector tb idx m sel -> quiet ev ->
    (exists l, selected tb idx m sel l /\ dir rv l = r1 :: r2 :: l') ->
    forall W (f : W -> bytes -> prog W) s g s1, loads_at_most_once f ->
      f s (entry_key sc (sindex_of idx) r1) = PGet g -> g (Ok r1) = PRet s1 true None ->
      (forall s, exists s', f s (entry_key sc (sindex_of idx) r2) = PRet s' true None) ->
      forall fuel, snd (scan_index_for_each tb ev fuel db fl idx sel f rv ob s) = Diverge.
  Proof.
    intros HI PR EX QV [l0 [S0 EL0]] W f s g s1 ONCE E1 E2 ST fuel.
    destruct (t_each_offered idx sel HI ltac:(lia) EX) as [l [S H]].
    assert (EQ : l = l0) by (eapply (selected_unique tb G db fl ob m (reads_cons _ _ _ _ _ R)); [right; exact HI| |]; eassumption). subst l0.
    destruct (H rv W f s ONCE) as [_ H2]. specialize (H2 fuel). rewrite EL0 in H2.
    destruct (snd (scan_index_for_each tb ev fuel db fl idx sel f rv ob s)) eqn:EO; auto; exfalso;
      (specialize (H2 ltac:(discriminate)); cbn [keyed map] in H2; inversion H2; subst;
       repeat match goal with
       | A : answer _ (f s _) = _ |- _ => rewrite E1 in A; cbn [answer] in A; rewrite E2 in A; cbn [answer] in A; try discriminate A
       | A : f s _ = PRet _ _ _ |- _ => rewrite E1 in A; discriminate A
       | A : e_ctx ev _ = true |- _ => rewrite ((proj1 QV) _) in A; discriminate A
       | A : f s _ = PGet ?h |- _ => rewrite E1 in A; injection A as <-
       | A : offered _ _ _ _ (?n - 1) _ _ _ |- _ => replace (n - 1) with (Datatypes.S (n - 2)) in A by lia; eapply offered_stuck in A; eauto
       end).
  Qed.

  Lemma t_never_misses idx sel : In idx (primary_index :: t_indexes tb) -> 0 < t_prefetch tb -> quiet ev ->
    short_sel (sindex_of idx) sel ->
    exists l, (forall rv fuel acc, length l <= fuel ->
      scan_index tb ev fuel db fl idx sel acc rv ob = (acc ++ dir rv l, Ok tt)) /\
      (forall r, In r l -> m (s_pk sc r) = Some r /\ si_filter (sindex_of idx) r = true) /\
      (forall P r, In P (selections sc (sindex_of idx) (Byte.eqb (ix_id idx) x00) sel) -> m (s_pk sc r) = Some r ->
         si_filter (sindex_of idx) r = true -> P r -> In r l).
  Proof. intros. destruct R as [A B C D]. apply (never_misses tb G ev EV db fl ob m A B C D idx sel); auto. apply (proj1 H1). Qed.
End Q.
