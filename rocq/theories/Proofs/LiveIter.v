(** Bond iterators whose pebble iterators are made at different moments. *)

From Coq Require Import List NArith Lia Bool Arith.
From Verif.Model Require Import Bytes Go Keys Pebble Index Table Scan.
From Verif.Spec Require Import KeySpec StoreSpec TableSpec ScanSpec.
From Verif.Proofs Require Import BytesFacts PebbleFacts IterFacts.
Import ListNotations.

(** ** Where First, Last, Next and Prev stop *)

Lemma first_find open post : forall pre cur, post <> [] ->
  let '(i, p) := multi_first open (pre ++ post) (length post) (length pre) cur in
  (exists a o b, post = a ++ o :: b /\ flat open a = [] /\ items open o <> [] /\
     i = length pre + length a /\ pi_items p = items open o /\ pi_pos p = PAt 0) \/
  flat open post = [] /\ pi_pos p = PEnd /\ S i = length (pre ++ post).
Proof.
  induction post as [|o post IH]; intros pre cur NE; [easy|]. cbn [multi_first length].
  rewrite first_valid, open_at_mid. destruct (items open o) as [|e l] eqn:EI.
  - destruct post as [|o2 post].
    + cbn [multi_first length]. right. cbn [flat flat_map]. rewrite EI. split; auto. cbn [it_first pi_pos]. rewrite open_at_mid, EI.
      split; auto. rewrite app_length. cbn. lia.
    + specialize (IH (pre ++ [o]) (length pre, it_first (open_at open (pre ++ o :: o2 :: post) (length pre))) ltac:(easy)).
      rewrite <- app_assoc in IH. cbn [app] in IH. rewrite (app_length pre [o]), Nat.add_1_r in IH.
      destruct (multi_first _ _ _ _ _) as [i p]. destruct IH as [[a [x [b [E1 [E2 [E3 [E4 E5]]]]]]]|[E1 [E2 E3]]].
      * left. exists (o :: a), x, b. rewrite E1. split; auto. split; [cbn [flat flat_map]; rewrite EI; exact E2|]. split; auto.
        split; auto. rewrite E4. cbn. lia.
      * right. split; auto. cbn [flat flat_map]. rewrite EI. exact E1.
  - left. exists [], o, post. split; auto. split; auto. rewrite EI. split; [easy|]. split; [cbn; lia|].
    cbn [it_first pi_items pi_pos]. rewrite open_at_mid, EI. auto.
Qed.

Lemma last_find open : forall pre post cur, pre <> [] ->
  let '(i, p) := multi_last open (pre ++ post) (length pre) cur in
  (exists a o b, pre = a ++ o :: b /\ flat open b = [] /\ items open o <> [] /\
     i = length a /\ pi_items p = items open o /\ pi_pos p = PAt (length (items open o) - 1)) \/
  flat open pre = [] /\ pi_pos p = PStart /\ i = 0.
Proof.
  intro pre0; induction pre0 as [|o pre IH] using rev_ind; intros post cur NE; [easy|]. rewrite app_length, Nat.add_1_r.
  cbn [multi_last]. rewrite <- app_assoc. cbn [app]. rewrite last_valid, open_at_mid. rewrite flat_app. cbn [flat flat_map].
  destruct (items open o) as [|e l] eqn:EI.
  - destruct pre as [|o2 pre2] eqn:EP.
    + cbn [multi_last length]. right. split; auto. cbn [it_last pi_pos]. pose proof (open_at_mid open [] o post) as X. cbn [app length] in X |- *.
      rewrite X, EI. auto.
    + rewrite <- EP in *. specialize (IH (o :: post) (length pre, it_last (open_at open (pre ++ o :: post) (length pre)))).
      destruct (multi_last _ _ _ _) as [i p]. destruct IH as [[a [x [b [E1 [E2 [E3 [E4 E5]]]]]]]|[E1 [E2 E3]]]; [rewrite EP; easy|..].
      * left. exists a, x, (b ++ [o]). rewrite E1, <- app_assoc. split; auto. split; auto.
        rewrite flat_app, E2. cbn [flat flat_map app]. rewrite EI. reflexivity.
      * right. rewrite E1. auto.
  - left. exists pre, o, []. split; auto. split; auto. rewrite EI. split; [easy|]. split; auto.
    cbn [it_last pi_items pi_pos]. rewrite open_at_mid, EI. auto.
Qed.

Lemma next_find open post : forall pre o todo p, pi_pos (it_next p) = PEnd -> length post <= todo ->
  let '(i, p', ok) := multi_next open (pre ++ o :: post) todo (length pre) p in
  (exists a x b, post = a ++ x :: b /\ flat open a = [] /\ items open x <> [] /\
     i = S (length pre + length a) /\ pi_items p' = items open x /\ pi_pos p' = PAt 0) \/
  flat open post = [] /\ pi_pos p' = PEnd /\ S i = length (pre ++ o :: post).
Proof.
  induction post as [|o2 post IH]; intros pre o todo p EP LE.
  - assert (EL : S (length pre) = length (pre ++ [o])) by (rewrite app_length; cbn; lia).
    destruct todo; cbn [multi_next]; unfold it_valid; rewrite EP;
      replace (S (length pre) =? length (pre ++ [o])) with true by (symmetry; apply Nat.eqb_eq; auto); right; auto.
  - destruct todo as [|todo]; [cbn in LE; lia|]. cbn [multi_next]. unfold it_valid at 1. rewrite EP.
    replace (S (length pre) =? length (pre ++ o :: o2 :: post)) with false
      by (symmetry; apply Nat.eqb_neq; rewrite app_length; cbn; lia).
    assert (OP : pi_items (open_at open (pre ++ o :: o2 :: post) (S (length pre))) = items open o2).
    { pose proof (open_at_mid open (pre ++ [o]) o2 post) as X. rewrite <- app_assoc, app_length, Nat.add_1_r in X. exact X. }
    rewrite first_valid, OP. destruct (items open o2) as [|e l] eqn:E2.
    + specialize (IH (pre ++ [o]) o2 todo (it_first (open_at open (pre ++ o :: o2 :: post) (S (length pre))))).
      rewrite <- app_assoc, (app_length pre [o]), Nat.add_1_r in IH. cbn [app] in IH.
      destruct (multi_next open (pre ++ o :: o2 :: post) todo (S (length pre)) _) as [[i p'] ok].
      destruct IH as [[a [x [b [A1 [A2 [A3 [A4 A5]]]]]]]|[A1 [A2 A3]]].
      * unfold it_next, it_first. rewrite OP. reflexivity.
      * cbn in LE. lia.
      * left. exists (o2 :: a), x, b. rewrite A1. split; auto. split; [cbn [flat flat_map]; rewrite E2; exact A2|].
        split; auto. split; auto. rewrite A4. cbn. lia.
      * right. split; auto. cbn [flat flat_map]. rewrite E2. exact A1.
    + left. exists [], o2, post. split; auto. split; auto. rewrite E2. split; [easy|]. split; [cbn; lia|].
      cbn [it_first pi_items pi_pos]. rewrite OP; auto.
Qed.

Lemma prev_find open : forall pre o post p, pi_pos (it_prev p) = PStart ->
  let '(i, p', ok) := multi_prev open (pre ++ o :: post) (length pre) p in
  (exists a x b, pre = a ++ x :: b /\ flat open b = [] /\ items open x <> [] /\
     i = length a /\ pi_items p' = items open x /\ pi_pos p' = PAt (length (items open x) - 1)) \/
  flat open pre = [] /\ pi_pos p' = PStart /\ i = 0.
Proof.
  intro pre0; induction pre0 as [|o2 pre IH] using rev_ind; intros o post p EP.
  - cbn [multi_prev length]. unfold it_valid. rewrite EP. right. auto.
  - rewrite app_length, Nat.add_1_r. cbn [multi_prev]. unfold it_valid at 1. rewrite EP.
    rewrite <- app_assoc. cbn [app]. rewrite last_valid, open_at_mid. rewrite flat_app. cbn [flat flat_map].
    destruct (items open o2) as [|e l] eqn:E2.
    + specialize (IH o2 (o :: post) (it_last (open_at open (pre ++ o2 :: o :: post) (length pre)))).
      destruct (multi_prev _ _ _ _) as [[i p'] ok]. destruct IH as [[a [x [b [A1 [A2 [A3 [A4 A5]]]]]]]|[A1 [A2 A3]]].
      * unfold it_prev, it_last. rewrite open_at_mid, E2. reflexivity.
      * left. exists a, x, (b ++ [o2]). rewrite A1, <- app_assoc. split; auto. split; auto.
        rewrite flat_app, A2. cbn [flat flat_map app]. rewrite E2. reflexivity.
      * right. rewrite A1. auto.
    + left. exists pre, o2, []. split; auto. split; auto. rewrite E2. split; [easy|]. split; auto.
      cbn [it_last pi_items pi_pos]. rewrite open_at_mid, E2. auto.
Qed.

(** ** What an iterator delivers *)

Section Flow.
  (** which way, and how the pebble iterators needed by move number [j] are made *)
  Variable rv : bool.
  Variable op : nat -> bytes -> bytes -> piter.

  Inductive flows : nat -> biter -> kv -> Prop :=
  | fl_nil j b : bi_valid b = false -> (forall open, scan_next open rv b = b) -> flows j b []
  | fl_cons j b e l : bi_valid b = true -> bi_key b = fst e -> bi_value b = snd e ->
      flows (S j) (scan_next (op j) rv b) l -> flows j b (e :: l).

  (** [c] are the items between the bounds [o], when an iterator was made *)
  Variable made : (bytes -> bytes -> piter) -> Prop.
  Hypothesis MADE : forall j, made (op j).
  Definition once (o : bytes * bytes) (c : kv) : Prop := exists open, made open /\ c = items open o.

  Lemma empties open a : made open -> flat open a = [] -> Forall2 once a (repeat [] (length a)).
  Proof.
    intro M. induction a as [|o a IH]; intro H; cbn; [constructor|]. cbn [flat flat_map] in H. apply app_eq_nil in H as [H1 H2].
    constructor; auto. exists open. auto.
  Qed.

  Lemma concat_repeat_nil {A} n : concat (repeat (@nil A) n) = [].
  Proof. induction n; cbn; auto. Qed.

  Lemma skipn_item (l : kv) : forall k e, nth_error l k = Some e -> skipn k l = e :: skipn (S k) l.
  Proof. induction l as [|y l IHl]; intros [|n] e' E'; cbn in *; try easy; [congruence|apply (IHl n e' E')]. Qed.
  Lemma firstn_item (l : kv) : forall k e, nth_error l k = Some e -> firstn (S k) l = firstn k l ++ [e].
  Proof.
    induction l as [|y l IHl]; intros [|n] e' E'; try (cbn in *; easy); [cbn in *; congruence|].
    change (firstn (S (S n)) (y :: l)) with (y :: firstn (S n) l). rewrite (IHl n e' E'). reflexivity.
  Qed.

  Lemma nth_some (l : kv) k : k < length l -> exists e, nth_error l k = Some e.
  Proof. intro H. destruct (nth_error l k) as [e|] eqn:E; eauto. apply nth_error_None in E. lia. Qed.

  Lemma at_item b k e : pi_pos (bi_cur b) = PAt k -> nth_error (pi_items (bi_cur b)) k = Some e ->
    bi_valid b = true /\ bi_key b = fst e /\ bi_value b = snd e.
  Proof.
    intros EP EE. unfold bi_valid, bi_key, bi_value, it_valid, it_key, it_value, it_item. rewrite EP, EE. auto.
  Qed.

  (** *** forward *)
  Section Forward.
    Hypothesis RV : rv = false.

    Lemma end_one p j : pi_pos p = PEnd -> flows j (BOne p) [].
    Proof. intro EP. constructor; [unfold bi_valid, bi_cur, it_valid; rewrite EP; auto|]. intro open. rewrite RV. cbn. unfold it_next. rewrite EP. reflexivity. Qed.

    Lemma end_multi opts i p j : pi_pos p = PEnd -> S i = length opts -> flows j (BMulti opts i p) [].
    Proof.
      intros EP EL. constructor; [unfold bi_valid, bi_cur, it_valid; rewrite EP; auto|]. intro open. rewrite RV. cbn [scan_next]. unfold bi_next. cbn [bi_next_ok].
      assert (N1 : it_next p = p) by (unfold it_next; rewrite EP; reflexivity).
      assert (X : multi_next open opts (length opts) i p = (i, p, false)).
      { rewrite <- EL. cbn [multi_next]. rewrite N1. unfold it_valid. rewrite EP, <- EL, Nat.eqb_refl. reflexivity. }
      rewrite X. reflexivity.
    Qed.

    Lemma flow_one : forall m k p j, length (pi_items p) - k = S m -> pi_pos p = PAt k -> flows j (BOne p) (skipn k (pi_items p)).
    Proof.
      induction m as [|m IH]; intros k p j LK EP; (destruct (nth_error (pi_items p) k) as [e|] eqn:EE; [|apply nth_error_None in EE; lia]);
        rewrite (skipn_item _ _ _ EE); destruct (at_item (BOne p) k e EP EE) as [V [K1 K2]]; apply fl_cons; auto; rewrite RV; cbn [scan_next bi_next bi_next_ok fst];
        unfold it_next; rewrite EP.
      - replace (S k <? length (pi_items p)) with false by (symmetry; apply Nat.ltb_ge; lia). rewrite skipn_all2 by lia. apply end_one. reflexivity.
      - replace (S k <? length (pi_items p)) with true by (symmetry; apply Nat.ltb_lt; lia).
        apply (IH (S k) (PIter (pi_items p) (PAt (S k)) (pi_err p)) (S j)); cbn [pi_items pi_pos]; auto; lia.
    Qed.

    Lemma flow_multi : forall d post, length post <= d -> forall m k pre o p j, length (pi_items p) - k = S m -> pi_pos p = PAt k ->
      exists cs, Forall2 once post cs /\
        flows j (BMulti (pre ++ o :: post) (length pre) p) (skipn k (pi_items p) ++ concat cs).
    Proof.
      induction d as [|d IHd]; intros post LP; (induction m as [|m IHm]; intros k pre o p j LK EP;
        (destruct (nth_error (pi_items p) k) as [e|] eqn:EE; [|apply nth_error_None in EE; lia]);
        rewrite (skipn_item _ _ _ EE); cbn [app];
        destruct (at_item (BMulti (pre ++ o :: post) (length pre) p) k e EP EE) as [V [K1 K2]]).
      1,3: (assert (NV : pi_pos (it_next p) = PEnd) by (unfold it_next; rewrite EP;
               replace (S k <? length (pi_items p)) with false by (symmetry; apply Nat.ltb_ge; lia); reflexivity);
            rewrite skipn_all2 by lia; cbn [app];
            pose proof (next_find (op j) post pre o (length (pre ++ o :: post)) p NV ltac:(rewrite app_length; cbn; lia)) as X;
            destruct (multi_next (op j) (pre ++ o :: post) (length (pre ++ o :: post)) (length pre) p) as [[i p'] ok] eqn:EN;
            assert (BN : scan_next (op j) rv (BMulti (pre ++ o :: post) (length pre) p) = BMulti (pre ++ o :: post) i p')
              by (rewrite RV; cbn [scan_next]; unfold bi_next; cbn [bi_next_ok]; rewrite EN; reflexivity);
            destruct X as [[a [x [b [A1 [A2 [A3 [A4 [A5 A6]]]]]]]]|[A1 [A2 A3]]]).
      - subst post. rewrite app_length in LP. cbn in LP. lia.
      - exists (repeat [] (length post)). split; [eapply empties; eauto|]. rewrite concat_repeat_nil. constructor; auto. rewrite BN. apply end_multi; auto.
      - (* on to the next part *)
        destruct (IHd b) with (m := length (pi_items p') - 1) (k := 0) (pre := pre ++ o :: a) (o := x) (p := p') (j := S j) as [cs [F2 FL]].
        { subst post. rewrite app_length in LP. cbn in LP. lia. }
        { rewrite A5. destruct (items (op j) x); [easy|]. cbn. lia. }
        { exact A6. }
        exists (repeat [] (length a) ++ items (op j) x :: cs). split.
        + rewrite A1. apply Forall2_app; [eapply empties; eauto|]. constructor; auto. exists (op j). auto.
        + rewrite concat_app, concat_repeat_nil. cbn [app concat]. constructor; auto. rewrite BN.
          rewrite <- app_assoc in FL. cbn [app] in FL. rewrite <- A1 in FL. rewrite app_length in FL. cbn [length] in FL.
          rewrite Nat.add_succ_r, <- A4 in FL. cbn [skipn] in FL. rewrite A5 in FL. exact FL.
      - exists (repeat [] (length post)). split; [eapply empties; eauto|]. rewrite concat_repeat_nil. constructor; auto. rewrite BN. apply end_multi; auto.
      - assert (LT : S k < length (pi_items p)) by lia. apply Nat.ltb_lt in LT.
        assert (NX : multi_next (op j) (pre ++ o :: post) (length (pre ++ o :: post)) (length pre) p = (length pre, it_next p, true)).
        { destruct (length (pre ++ o :: post)); cbn [multi_next]; unfold it_next; rewrite EP, LT; reflexivity. }
        assert (BN : scan_next (op j) rv (BMulti (pre ++ o :: post) (length pre) p) = BMulti (pre ++ o :: post) (length pre) (it_next p))
          by (rewrite RV; cbn [scan_next]; unfold bi_next; cbn [bi_next_ok]; rewrite NX; reflexivity).
        assert (PI : pi_items (it_next p) = pi_items p) by (unfold it_next; rewrite EP; reflexivity).
        destruct (IHm (S k) pre o (it_next p) (S j)) as [cs [F2 FL]].
        { rewrite PI. lia. }
        { unfold it_next. rewrite EP, LT. reflexivity. }
        rewrite PI in FL. exists cs. split; auto. constructor; auto. rewrite BN. exact FL.
      - assert (LT : S k < length (pi_items p)) by lia. apply Nat.ltb_lt in LT.
        assert (NX : multi_next (op j) (pre ++ o :: post) (length (pre ++ o :: post)) (length pre) p = (length pre, it_next p, true)).
        { destruct (length (pre ++ o :: post)); cbn [multi_next]; unfold it_next; rewrite EP, LT; reflexivity. }
        assert (BN : scan_next (op j) rv (BMulti (pre ++ o :: post) (length pre) p) = BMulti (pre ++ o :: post) (length pre) (it_next p))
          by (rewrite RV; cbn [scan_next]; unfold bi_next; cbn [bi_next_ok]; rewrite NX; reflexivity).
        assert (PI : pi_items (it_next p) = pi_items p) by (unfold it_next; rewrite EP; reflexivity).
        destruct (IHm (S k) pre o (it_next p) (S j)) as [cs [F2 FL]].
        { rewrite PI. lia. }
        { unfold it_next. rewrite EP, LT. reflexivity. }
        rewrite PI in FL. exists cs. split; auto. constructor; auto. rewrite BN. exact FL.
    Qed.

    Lemma forward_one open lo hi j : made open -> exists cs, Forall2 once [(lo, hi)] cs /\
      flows j (bi_first open (BOne (open lo hi))) (concat cs).
    Proof.
      intro M. exists [items open (lo, hi)]. split; [repeat constructor; exists open; auto|]. cbn [concat bi_first]. rewrite app_nil_r.
      unfold items. cbn [fst snd]. destruct (pi_items (open lo hi)) as [|e l] eqn:E.
      - apply end_one. cbn [it_first pi_pos]. rewrite E. reflexivity.
      - pose proof (flow_one (length l) 0 (it_first (open lo hi)) j) as X. cbn [it_first pi_items pi_pos skipn] in X. rewrite E in X. cbn [length] in X.
        apply X; auto; lia.
    Qed.

    Lemma forward_multi open opts i p j : made open -> opts <> [] -> exists cs, Forall2 once opts cs /\
      flows j (bi_first open (BMulti opts i p)) (concat cs).
    Proof.
      intros M NE. cbn [bi_first]. pose proof (first_find open opts [] (i, p) NE) as X. cbn [app length] in X.
      destruct (multi_first open opts (length opts) 0 (i, p)) as [i' p'].
      destruct X as [[a [x [b [A1 [A2 [A3 [A4 [A5 A6]]]]]]]]|[A1 [A2 A3]]].
      - destruct (flow_multi (length b) b (le_n _) (length (pi_items p') - 1) 0 a x p' j) as [cs [F2 FL]]; auto.
        { rewrite A5. destruct (items open x); [easy|]. cbn. lia. }
        exists (repeat [] (length a) ++ items open x :: cs). split.
        + rewrite A1. apply Forall2_app; [eapply empties; eauto|]. constructor; auto. exists open. auto.
        + rewrite concat_app, concat_repeat_nil. cbn [app concat]. cbn [Nat.add] in A4. subst i'. rewrite <- A1 in FL. cbn [skipn] in FL.
          rewrite A5 in FL. exact FL.
      - exists (repeat [] (length opts)). split; [eapply empties; eauto|]. rewrite concat_repeat_nil. apply end_multi; auto.
    Qed.
  End Forward.

  (** *** backward *)
  Section Backward.
    Hypothesis RV : rv = true.

    Lemma start_one p j : pi_pos p = PStart -> flows j (BOne p) [].
    Proof. intro EP. constructor; [unfold bi_valid, bi_cur, it_valid; rewrite EP; auto|]. intro open. rewrite RV. cbn. unfold it_prev. rewrite EP. reflexivity. Qed.

    Lemma start_multi opts p j : pi_pos p = PStart -> flows j (BMulti opts 0 p) [].
    Proof.
      intros EP. constructor; [unfold bi_valid, bi_cur, it_valid; rewrite EP; auto|]. intro open. rewrite RV. cbn [scan_next]. unfold bi_prev. cbn [bi_prev_ok multi_prev].
      assert (N1 : it_prev p = p) by (unfold it_prev; rewrite EP; reflexivity). rewrite N1. unfold it_valid. rewrite EP. reflexivity.
    Qed.

    Lemma back_one : forall k p j, k < length (pi_items p) -> pi_pos p = PAt k -> flows j (BOne p) (rev (firstn (S k) (pi_items p))).
    Proof.
      induction k as [|k IH]; intros p j LK EP; destruct (nth_some _ _ LK) as [e EE];
        rewrite (firstn_item _ _ _ EE), rev_app_distr; cbn [rev app]; destruct (at_item (BOne p) _ e EP EE) as [V [K1 K2]]; apply fl_cons; auto; rewrite RV;
        cbn [scan_next bi_prev bi_prev_ok fst]; unfold it_prev; rewrite EP.
      - apply start_one. reflexivity.
      - apply (IH (PIter (pi_items p) (PAt k) (pi_err p)) (S j)); cbn [pi_items pi_pos]; auto; lia.
    Qed.

    Lemma back_multi : forall d pre, length pre <= d -> forall k post o p j, k < length (pi_items p) -> pi_pos p = PAt k ->
      exists cs, Forall2 once pre cs /\
        flows j (BMulti (pre ++ o :: post) (length pre) p) (rev (firstn (S k) (pi_items p)) ++ rev (concat cs)).
    Proof.
      induction d as [|d IHd]; intros pre LP; (induction k as [|k IHk]; intros post o p j LK EP;
        destruct (nth_some _ _ LK) as [e EE];
        rewrite (firstn_item _ _ _ EE), rev_app_distr; cbn [rev app firstn];
        destruct (at_item (BMulti (pre ++ o :: post) (length pre) p) _ e EP EE) as [V [K1 K2]]).
      1,3: (assert (NV : pi_pos (it_prev p) = PStart) by (unfold it_prev; rewrite EP; reflexivity);
            pose proof (prev_find (op j) pre o post p NV) as X;
            destruct (multi_prev (op j) (pre ++ o :: post) (length pre) p) as [[i p'] ok] eqn:EN;
            assert (BN : scan_next (op j) rv (BMulti (pre ++ o :: post) (length pre) p) = BMulti (pre ++ o :: post) i p')
              by (rewrite RV; cbn [scan_next]; unfold bi_prev; cbn [bi_prev_ok]; rewrite EN; reflexivity);
            destruct X as [[a [x [b [A1 [A2 [A3 [A4 [A5 A6]]]]]]]]|[A1 [A2 A3]]]).
      - subst pre. rewrite app_length in LP. cbn in LP. lia.
      - exists (repeat [] (length pre)). split; [eapply empties; eauto|]. rewrite concat_repeat_nil. constructor; auto. rewrite BN, A3. apply start_multi; auto.
      - destruct (IHd a) with (k := length (pi_items p') - 1) (post := b ++ o :: post) (o := x) (p := p') (j := S j) as [cs [F2 FL]].
        { subst pre. rewrite app_length in LP. cbn in LP. lia. }
        { rewrite A5. destruct (items (op j) x); [easy|]. cbn. lia. }
        { rewrite A5. exact A6. }
        exists (cs ++ items (op j) x :: repeat [] (length b)). split.
        + rewrite A1. apply Forall2_app; auto. constructor; [exists (op j); auto|eapply empties; eauto].
        + rewrite concat_app. cbn [concat]. rewrite concat_repeat_nil, app_nil_r, rev_app_distr. cbn [app]. constructor; auto. rewrite BN.
          change (x :: b ++ o :: post) with ((x :: b) ++ o :: post) in FL. rewrite app_assoc, <- A1, <- A4 in FL.
          rewrite firstn_all2 in FL by lia. rewrite A5 in FL. exact FL.
      - exists (repeat [] (length pre)). split; [eapply empties; eauto|]. rewrite concat_repeat_nil. constructor; auto. rewrite BN, A3. apply start_multi; auto.
      - assert (NX : multi_prev (op j) (pre ++ o :: post) (length pre) p = (length pre, it_prev p, true)).
        { destruct (length pre); cbn [multi_prev]; unfold it_prev; rewrite EP; reflexivity. }
        assert (BN : scan_next (op j) rv (BMulti (pre ++ o :: post) (length pre) p) = BMulti (pre ++ o :: post) (length pre) (it_prev p))
          by (rewrite RV; cbn [scan_next]; unfold bi_prev; cbn [bi_prev_ok]; rewrite NX; reflexivity).
        assert (PI : pi_items (it_prev p) = pi_items p) by (unfold it_prev; rewrite EP; reflexivity).
        destruct (IHk post o (it_prev p) (S j)) as [cs [F2 FL]].
        { rewrite PI. lia. }
        { unfold it_prev. rewrite EP. reflexivity. }
        rewrite PI in FL. exists cs. split; auto. constructor; auto. rewrite BN. exact FL.
      - assert (NX : multi_prev (op j) (pre ++ o :: post) (length pre) p = (length pre, it_prev p, true)).
        { destruct (length pre); cbn [multi_prev]; unfold it_prev; rewrite EP; reflexivity. }
        assert (BN : scan_next (op j) rv (BMulti (pre ++ o :: post) (length pre) p) = BMulti (pre ++ o :: post) (length pre) (it_prev p))
          by (rewrite RV; cbn [scan_next]; unfold bi_prev; cbn [bi_prev_ok]; rewrite NX; reflexivity).
        assert (PI : pi_items (it_prev p) = pi_items p) by (unfold it_prev; rewrite EP; reflexivity).
        destruct (IHk post o (it_prev p) (S j)) as [cs [F2 FL]].
        { rewrite PI. lia. }
        { unfold it_prev. rewrite EP. reflexivity. }
        rewrite PI in FL. exists cs. split; auto. constructor; auto. rewrite BN. exact FL.
    Qed.

    Lemma backward_one open lo hi j : made open -> exists cs, Forall2 once [(lo, hi)] cs /\
      flows j (bi_last open (BOne (open lo hi))) (rev (concat cs)).
    Proof.
      intro M. exists [items open (lo, hi)]. split; [repeat constructor; exists open; auto|]. cbn [concat bi_last]. rewrite app_nil_r.
      unfold items. cbn [fst snd]. destruct (pi_items (open lo hi)) as [|e l] eqn:E.
      - apply start_one. cbn [it_last pi_pos]. rewrite E. reflexivity.
      - pose proof (back_one (length l) (it_last (open lo hi)) j) as X. cbn [it_last pi_items pi_pos] in X. rewrite E in X. cbn [length] in X.
        rewrite Nat.sub_succ, Nat.sub_0_r in X. rewrite firstn_all2 in X by (cbn; lia).
        apply X; auto; lia.
    Qed.

    Lemma backward_multi open opts i p j : made open -> opts <> [] -> exists cs, Forall2 once opts cs /\
      flows j (bi_last open (BMulti opts i p)) (rev (concat cs)).
    Proof.
      intros M NE. cbn [bi_last]. pose proof (last_find open opts [] (i, p) NE) as X. rewrite app_nil_r in X.
      destruct (multi_last open opts (length opts) (i, p)) as [i' p'].
      destruct X as [[a [x [b [A1 [A2 [A3 [A4 [A5 A6]]]]]]]]|[A1 [A2 A3]]].
      - destruct (back_multi (length a) a (le_n _) (length (pi_items p') - 1) b x p' j) as [cs [F2 FL]]; auto.
        { rewrite A5. destruct (items open x); [easy|]. cbn. lia. }
        { rewrite A5. exact A6. }
        exists (cs ++ items open x :: repeat [] (length b)). split.
        + rewrite A1. apply Forall2_app; auto. constructor; [exists open; auto|eapply empties; eauto].
        + rewrite concat_app. cbn [concat]. rewrite concat_repeat_nil, app_nil_r, rev_app_distr. subst i'. rewrite <- A1 in FL.
          rewrite firstn_all2 in FL by lia. rewrite A5 in FL. exact FL.
      - exists (repeat [] (length opts)). split; [eapply empties; eauto|]. rewrite concat_repeat_nil, A3. apply start_multi; auto.
    Qed.
  End Backward.

  (** the first move, either way *)
  Lemma start_flows open b os j : made open -> os <> [] ->
    (exists lo hi, os = [(lo, hi)] /\ b = BOne (open lo hi)) \/ (exists p, b = BMulti os 0 p) ->
    exists cs, Forall2 once os cs /\ flows j (scan_first open rv b) (if rv then rev (concat cs) else concat cs).
  Proof.
    intros M NE B. unfold scan_first. pose proof (eq_refl rv) as E0.
    case_eq rv; intro E; destruct B as [[lo [hi [-> ->]]]|[p ->]].
    - apply backward_one; auto.
    - apply backward_multi; auto.
    - apply forward_one; auto.
    - apply forward_multi; auto.
  Qed.
End Flow.
