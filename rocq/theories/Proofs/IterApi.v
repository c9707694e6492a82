(** All calls of the iterators. *)

From Coq Require Import List NArith Lia Bool Arith Sorting.Sorted Strings.Byte.
From Verif.Model Require Import Bytes Go Keys Pebble Index Table Scan Iter.
From Verif.Spec Require Import KeySpec StoreSpec TableSpec ScanSpec IterSpec.
From Verif.Proofs Require Import BytesFacts KeysFacts PebbleFacts TableFacts WriteFacts ReadFacts IterFacts ScanFacts ScanRows ScanProps ScanTop ScanAll.
Import ListNotations.

Lemma multi_next_valid open opts todo : forall i p, let '(_, p', r) := multi_next open opts todo i p in it_valid p' = r.
Proof.
  induction todo as [|todo IH]; intros i p; cbn [multi_next].
  - destruct (it_valid (it_next p)) eqn:V; auto. destruct (Nat.eqb (S i) (length opts)); auto.
  - destruct (it_valid (it_next p)) eqn:V; auto. destruct (Nat.eqb (S i) (length opts)); auto.
    destruct (it_valid (it_first (open_at open opts (S i)))) eqn:V2; auto. apply IH.
Qed.

Lemma multi_prev_valid open opts i : forall p, let '(_, p', r) := multi_prev open opts i p in it_valid p' = r.
Proof.
  induction i as [|i IH]; intros p; cbn [multi_prev]; destruct (it_valid (it_prev p)) eqn:V; auto.
  destruct (it_valid (it_last (open_at open opts i))) eqn:V2; auto. apply IH.
Qed.

Definition move_of (x : icall) : option move :=
  match x with IFirst => Some MFirst | ILast => Some MLast | INext => Some MNext | IPrev => Some MPrev | _ => None end.

Lemma call_move open x mv b : move_of x = Some mv -> bi_call open x b = Ok (bstep open mv b, bi_valid (bstep open mv b)).
Proof.
  destruct x; cbn [move_of]; intro E; try discriminate E; injection E as <-; cbn [bi_call bstep]; auto; unfold bi_next, bi_prev.
  - destruct b as [p|opts i p]; cbn [bi_next_ok fst]; auto. pose proof (multi_next_valid open opts (length opts) i p) as H.
    destruct (multi_next open opts (length opts) i p) as [[i' p'] r]. cbn [fst]. unfold bi_valid. cbn [bi_cur]. now rewrite H.
  - destruct b as [p|opts i p]; cbn [bi_prev_ok fst]; auto. pose proof (multi_prev_valid open opts i p) as H.
    destruct (multi_prev open opts i p) as [[i' p'] r]. cbn [fst]. unfold bi_valid. cbn [bi_cur]. now rewrite H.
Qed.

(** ** Seeks *)
Lemma kv_ok_tail e l : kv_ok (e :: l) -> kv_ok l.
Proof. intro H. apply kv_ok_cons in H. tauto. Qed.

Lemma kv_ok_head a v l x w : kv_ok ((a, v) :: l) -> In (x, w) l -> blt a x.
Proof. intros H I. apply kv_ok_cons in H as [_ F]. rewrite Forall_forall in F. exact (F _ I). Qed.

Lemma find_ge_first l k : kv_ok l -> forall n, match find_ge l k n with
  | Some i => n <= i /\ first_not_below (map fst l) k (S (i - n)) /\ i - n < length l
  | None => first_not_below (map fst l) k (S (length l)) end.
Proof.
  induction l as [|[a v] l IH]; intros OK n; cbn [find_ge map fst].
  - split; [cbn; lia|]. intros i x H. destruct i; discriminate.
  - assert (OKL : kv_ok l) by (apply (kv_ok_tail _ _ OK)).
    destruct (bleb k a) eqn:B.
    + apply bleb_le in B. split; [lia|]. split; [|cbn [length]; lia]. rewrite Nat.sub_diag. split; [cbn [length]; lia|].
      intros [|i] x H; cbn [nth_error] in H.
      * injection H as <-. split; [lia|]. intros _ L. apply blt_not_le in L. contradiction.
      * split; [lia|]. intros _ L. apply nth_error_In in H. apply in_map_iff in H as ([x' w] & <- & I). cbn [fst] in L.
        assert (LT : blt a x') by (eapply kv_ok_head; eauto). apply blt_not_le in L. apply L. eapply ble_trans; [exact B|]. now apply blt_le.
    + assert (LT : bcmp a k = Lt) by (apply bleb_gt; exact B).
      specialize (IH OKL (S n)). destruct (find_ge l k (S n)) as [i|].
      * destruct IH as (L & (R & W) & LL). split; [lia|]. split; [|cbn [length]; lia]. split; [cbn [length] in *; lia|].
        intros [|j] x H; cbn [nth_error] in H.
        -- injection H as <-. split; [auto|lia].
        -- destruct (W j x H) as [W1 W2]. split; intro; [apply W1|apply W2]; lia.
      * destruct IH as (R & W). split; [cbn [length] in *; lia|]. intros [|j] x H; cbn [nth_error] in H.
        -- injection H as <-. split; [auto|cbn [length]; lia].
        -- destruct (W j x H) as [W1 W2]. split; intro; [apply W1|apply W2]; cbn [length] in *; lia.
Qed.

Lemma count_lt_first l k : kv_ok l -> first_not_below (map fst l) k (S (count_lt l k)) /\ count_lt l k <= length l.
Proof.
  induction l as [|[a v] l IH]; intros OK; cbn [count_lt map fst].
  - split; [split; [cbn; lia|]|auto]. intros i x H. destruct i; discriminate.
  - assert (OKL : kv_ok l) by (apply (kv_ok_tail _ _ OK)). destruct (IH OKL) as [(R & W) L].
    destruct (bltb a k) eqn:B.
    + apply bltb_lt in B. split; [|cbn [length]; lia]. split; [cbn [length] in *; lia|]. intros [|j] x H; cbn [nth_error] in H.
      * injection H as <-. split; [auto|lia].
      * destruct (W j x H) as [W1 W2]. split; intro; [apply W1|apply W2]; lia.
    + split; [|cbn [length]; lia]. split; [cbn [length]; lia|].
      assert (KA : ble k a) by now apply bltb_ge.
      intros [|j] x H; cbn [nth_error] in H.
      * injection H as <-. split; [lia|]. intros _ LT. apply blt_not_le in LT. contradiction.
      * split; [lia|]. intros _ LT. apply nth_error_In in H. apply in_map_iff in H as ([x' w] & <- & I). cbn [fst] in LT.
        assert (AX : blt a x') by (eapply kv_ok_head; eauto). apply blt_not_le in LT. apply LT. eapply ble_trans; [exact KA|]. now apply blt_le.
Qed.

(** ** What holds of every pebble iterator opened holds of the current one *)
Section Clean.
  Variable open : bytes -> bytes -> piter.
  Variable P : piter -> Prop.
  Hypothesis OP : forall lo hi, P (open lo hi).
  Hypothesis PF : forall p, P p -> P (it_first p).
  Hypothesis PL : forall p, P p -> P (it_last p).
  Hypothesis PN : forall p, P p -> P (it_next p).
  Hypothesis PP : forall p, P p -> P (it_prev p).

  Definition clean (b : biter) : Prop :=
    match b with BOne p => P p | BMulti opts i p => P p /\ i < length opts end.

  Lemma open_at_clean opts i : i < length opts -> P (open_at open opts i).
  Proof. intro H. unfold open_at. destruct (nth_error opts i) as [[lo hi]|] eqn:E; auto. apply nth_error_None in E. lia. Qed.

  Lemma first_clean opts todo : forall i cur, i + todo <= length opts -> (todo = 0 -> P (snd cur) /\ fst cur < length opts) ->
    let '(i', p') := multi_first open opts todo i cur in P p' /\ i' < length opts.
  Proof.
    induction todo as [|todo IH]; intros i cur L C; cbn [multi_first].
    - destruct cur. apply C. auto.
    - destruct (it_valid _).
      + split; [apply PF; apply open_at_clean|]; lia.
      + apply IH; [lia|]. intros _. cbn [fst snd]. split; [apply PF; apply open_at_clean|]; lia.
  Qed.

  Lemma last_clean opts todo : forall cur, todo <= length opts -> (todo = 0 -> P (snd cur) /\ fst cur < length opts) ->
    let '(i', p') := multi_last open opts todo cur in P p' /\ i' < length opts.
  Proof.
    induction todo as [|todo IH]; intros cur L C; cbn [multi_last].
    - destruct cur. apply C. auto.
    - destruct (it_valid _).
      + split; [apply PL; apply open_at_clean|]; lia.
      + apply IH; [lia|]. intros _. cbn [fst snd]. split; [apply PL; apply open_at_clean|]; lia.
  Qed.

  Lemma next_clean opts todo : forall i p, P p -> i < length opts ->
    let '(i', p', _) := multi_next open opts todo i p in P p' /\ i' < length opts.
  Proof.
    induction todo as [|todo IH]; intros i p E L; cbn [multi_next].
    - destruct (it_valid _); [|destruct (Nat.eqb _ _)]; auto.
    - destruct (it_valid _); auto. destruct (Nat.eqb_spec (S i) (length opts)); auto.
      assert (L' : S i < length opts) by lia.
      destruct (it_valid _); [split; auto; apply PF; now apply open_at_clean|]. apply IH; auto.
      apply PF. now apply open_at_clean.
  Qed.

  Lemma prev_clean opts i : forall p, P p -> i < length opts ->
    let '(i', p', _) := multi_prev open opts i p in P p' /\ i' < length opts.
  Proof.
    induction i as [|i IH]; intros p E L; cbn [multi_prev].
    - destruct (it_valid _); auto.
    - destruct (it_valid _); auto.
      destruct (it_valid _); [split; [apply PL; apply open_at_clean|]; lia|]. apply IH; [|lia].
      apply PL. apply open_at_clean. lia.
  Qed.

  Lemma bstep_clean mv b : clean b -> clean (bstep open mv b).
  Proof.
    destruct b as [p|opts i p]; cbn [clean].
    - intro E. destruct mv; cbn [bstep]; unfold bi_next, bi_prev; cbn [bi_first bi_last bi_next_ok bi_prev_ok fst clean]; auto.
    - intros [E L]. destruct mv; cbn [bstep]; unfold bi_next, bi_prev; cbn [bi_first bi_last bi_next_ok bi_prev_ok].
      + pose proof (first_clean opts (length opts) 0 (i, p)) as X. destruct (multi_first _ _ _ _ _) as [i' p']. apply X; cbn [fst snd]; auto; lia.
      + pose proof (last_clean opts (length opts) (i, p)) as X. destruct (multi_last _ _ _ _) as [i' p']. apply X; cbn [fst snd]; auto; lia.
      + pose proof (next_clean opts (length opts) i p E L) as X. destruct (multi_next _ _ _ _ _) as [[i' p'] r]. exact X.
      + pose proof (prev_clean opts i p E L) as X. destruct (multi_prev _ _ _ _) as [[i' p'] r]. exact X.
  Qed.
End Clean.

Definition no_error (p : piter) : Prop := pi_err p = None.
Definition failed (e : error) (p : piter) : Prop := pi_items p = [] /\ it_valid p = false /\ pi_err p = Some e.

Lemma bstep_no_error open mv b : (forall lo hi, pi_err (open lo hi) = None) -> clean no_error b -> clean no_error (bstep open mv b).
Proof.
  intros OP H. apply bstep_clean; auto; unfold no_error; intros p E; auto; destruct p as [l [] e]; auto.
Qed.

Lemma bstep_failed open e mv b : (forall lo hi, open lo hi = err_iter e) -> clean (failed e) b -> clean (failed e) (bstep open mv b).
Proof.
  intros OP H. apply bstep_clean; unfold failed; [| | | | |exact H].
  - intros lo hi. rewrite OP. auto.
  - intros [l q x] (A & B & C). cbn [pi_items it_first pi_err] in *. subst l. auto.
  - intros [l q x] (A & B & C). cbn [pi_items it_last pi_err] in *. subst l. auto.
  - intros [l q x] (A & B & C). cbn [pi_items pi_err] in *. subst l. destruct q; try discriminate B; auto.
  - intros [l q x] (A & B & C). cbn [pi_items pi_err] in *. subst l. destruct q; try discriminate B; auto.
Qed.

(** ** One call after another *)
Lemma first_not_below_unique ks k c c' : first_not_below ks k c -> first_not_below ks k c' -> c = c'.
Proof.
  assert (X : forall c c', first_not_below ks k c -> first_not_below ks k c' -> ~ c < c').
  { clear. intros c c' [R W] [R' W'] L. destruct c as [|i]; [lia|].
    destruct (nth_error ks i) as [x|] eqn:E; [|apply nth_error_None in E; lia].
    destruct (W i x E) as [_ N]. destruct (W' i x E) as [N' _]. apply N; [lia|]. apply N'. lia. }
  intros H H'. pose proof (X c c' H H'). pose proof (X c' c H' H). lia.
Qed.

Lemma moved_fun ks c x a b : moved ks c x a -> moved ks c x b -> a = b.
Proof.
  destruct x; cbn [moved]; intros H H'; try congruence.
  - eapply first_not_below_unique; eauto.
  - assert (S a = S b) by (eapply first_not_below_unique; eauto). lia.
Qed.

Lemma walked_fun ks xs : forall c rs a rs' b, walked ks c xs rs a -> walked ks c xs rs' b -> rs' = rs /\ b = a.
Proof.
  induction xs as [|x xs IH]; intros c rs a rs' b H H'.
  - inversion H; inversion H'; subst; auto.
  - inversion H as [|? ? y1 ? ? ? M1 W1]; inversion H' as [|? ? y2 ? ? ? M2 W2]; subst.
    assert (y2 = y1) by (eapply moved_fun; eauto). subst y2. destruct (IH _ _ _ _ _ W1 W2) as [-> ->]. auto.
Qed.

Lemma min_step c n : c <= S n -> Nat.min (S c) (S n) = if Nat.leb c n then S c else c.
Proof. intro H. destruct (Nat.leb_spec c n); lia. Qed.

Lemma pos_le_end {A} (l : list A) q c : pos_is l q c -> c <= S (length l).
Proof. destruct q; cbn [pos_is]; try easy; try lia. Qed.

Definition one (b : biter) : Prop := match b with BOne _ => True | _ => False end.

Section Walk.
  Variable open : bytes -> bytes -> piter.
  Hypothesis OP : forall lo hi, pi_err (open lo hi) = None.

  Definition at_cursor (L : kv) (b : biter) (c : nat) : Prop :=
    contents open b = L /\ exists q, brel open b q /\ pos_is L q c.

  Lemma shown L b c : at_cursor L b c -> it_item (bi_cur b) = cursor_at L c /\ bi_valid b = on_key (map fst L) c.
  Proof.
    intros [<- [q [R P]]]. destruct (brel_item open b q R) as [I V].
    destruct (pos_item (PIter (contents open b) q None) c P) as [I2 _]. cbn [pi_items] in I2. split; [congruence|]. rewrite V.
    unfold it_valid, on_key. cbn [pi_pos]. rewrite map_length. destruct q; cbn [pos_is] in P; try easy.
    - destruct P as [-> P]. symmetry. apply andb_true_iff. split; apply Nat.leb_le; [lia|exact P].
    - subst c. symmetry. apply andb_false_iff. right. apply Nat.leb_gt. apply Nat.lt_succ_diag_r.
    - subst c. reflexivity.
  Qed.

  Lemma one_call L b c x : fresh b -> contents open b = L -> (positions x = true \/ at_cursor L b c) -> clean no_error b -> (is_seek x = true -> one b /\ kv_ok L) ->
    exists b' c', bi_call open x b = Ok (b', on_key (map fst L) c') /\ moved (map fst L) c x c' /\ at_cursor L b' c' /\ clean no_error b' /\ (one b -> one b') /\ fresh b'.
  Proof.
    intros FR CO AT CL SK. destruct (move_of x) as [mv|] eqn:MV.
    - set (b' := bstep open mv b).
      assert (X : exists c', at_cursor L b' c' /\ moved (map fst L) c x c').
      { destruct x; cbn [move_of] in MV; try discriminate MV; injection MV as <-; cbn [positions] in AT; subst b'; cbn [bstep moved].
        - destruct (first_brel open b FR) as [R C]. exists 1. split; auto. split; [congruence|]. eexists. split; [exact R|]. rewrite CO.
          exact (proj1 (step_cursor (PIter L PNone None) c MFirst (or_intror (or_introl eq_refl)))).
        - destruct (last_brel open b FR) as [R C]. exists (length (map fst L)). split; auto. split; [congruence|]. eexists. split; [exact R|]. rewrite CO, map_length.
          exact (proj1 (step_cursor (PIter L PNone None) c MLast (or_intror (or_intror eq_refl)))).
        - destruct AT as [AT|[_ [q [R P]]]]; [discriminate|]. destruct (next_brel open b q R) as [N [C _]].
          exists (cursor_step (length L) c MNext). split.
          + split; [congruence|]. eexists. split; [exact N|]. rewrite CO. exact (proj1 (step_cursor (PIter L q None) c MNext (or_introl P))).
          + cbn [cursor_step]. rewrite map_length. apply min_step. eapply pos_le_end. exact P.
        - destruct AT as [AT|[_ [q [R P]]]]; [discriminate|]. destruct (prev_brel open b q R) as [N [C _]].
          exists (cursor_step (length L) c MPrev). split; [|reflexivity].
          split; [congruence|]. eexists. split; [exact N|]. rewrite CO. exact (proj1 (step_cursor (PIter L q None) c MPrev (or_introl P))). }
      destruct X as [c' [AC MO]]. exists b', c'. rewrite (call_move open x mv b MV). fold b'.
      destruct (shown L b' c' AC) as [_ V]. rewrite V. split; auto. split; auto. split; auto. split; [apply bstep_no_error; auto|]. split.
      + destruct b; [|easy]. destruct mv; exact (fun h => h).
      + destruct AC as [_ [q [R _]]]. eapply brel_fresh; eauto.
    - destruct x as [| | | |k|k]; try discriminate MV; destruct (SK eq_refl) as [ON OK]; destruct b as [p|]; try easy; cbn [contents clean] in CO, CL; unfold no_error in CL.
      + cbn [bi_call]. set (p' := it_seek_ge p k). pose proof (find_ge_first L k OK 0) as F.
        assert (X : exists c', at_cursor L (BOne p') c' /\ first_not_below (map fst L) k c').
        { unfold at_cursor, p', it_seek_ge. cbn [contents brel pi_items pi_pos]. rewrite CO. destruct (find_ge L k 0) as [i|].
          - destruct F as [_ [F LT]]. rewrite Nat.sub_0_r in F, LT. exists (S i). split; auto. split; auto. exists (PAt i). cbn [pos_is]. auto.
          - exists (S (length L)). split; auto. split; auto. exists PEnd. cbn [pos_is]. auto. }
        destruct X as [c' [AC MO]]. exists (BOne p'), c'. destruct (shown L _ _ AC) as [_ V]. cbn [bi_valid bi_cur] in V. unfold bi_valid in V. cbn [bi_cur] in V. rewrite V. cbn [fresh one]. auto 10.
      + cbn [bi_call]. set (p' := it_seek_lt p k). destruct (count_lt_first L k OK) as [F LE].
        assert (X : exists c', at_cursor L (BOne p') c' /\ first_not_below (map fst L) k (S c')).
        { unfold at_cursor, p', it_seek_lt. cbn [contents brel pi_items pi_pos]. rewrite CO. exists (count_lt L k). split; auto. split; auto.
          destruct (count_lt L k) as [|i]; [exists PStart|exists (PAt i)]; cbn [pos_is]; auto. }
        destruct X as [c' [AC MO]]. exists (BOne p'), c'. destruct (shown L _ _ AC) as [_ V]. unfold bi_valid in V. cbn [bi_cur] in V. rewrite V. cbn [fresh one]. auto 10.
  Qed.

  Lemma calls_walk L xs : forall b c, fresh b -> contents open b = L -> at_cursor L b c \/ match xs with x :: _ => positions x = true | [] => False end -> clean no_error b ->
    (existsb is_seek xs = true -> one b /\ kv_ok L) ->
    exists b' rs c', run_calls open xs b = Ok (b', rs) /\ walked (map fst L) c xs rs c' /\ at_cursor L b' c' /\ clean no_error b'.
  Proof.
    induction xs as [|x xs IH]; intros b c FR CO AT CL SK.
    - exists b, [], c. destruct AT as [AT|[]]. split; auto. split; [constructor|auto].
    - cbn [existsb] in SK. assert (S1 : is_seek x = true -> one b /\ kv_ok L) by (intro E; apply SK; rewrite E; auto).
      assert (S2 : existsb is_seek xs = true -> one b /\ kv_ok L) by (intro E; apply SK; rewrite E; apply orb_true_r).
      destruct (one_call L b c x FR CO) as (b1 & c1 & E & MO & AC & CL1 & ON & FR1); auto; [tauto|].
      destruct (IH b1 c1 FR1 (proj1 AC) (or_introl AC) CL1) as (b2 & rs & c2 & E2 & W & A2 & CL2).
      { intro H. destruct (S2 H). auto. }
      exists b2, (on_key (map fst L) c1 :: rs), c2. cbn [run_calls]. rewrite E, E2. split; auto. split; [econstructor; eauto|auto].
  Qed.
End Walk.

(** ** The iterators of selectors *)
Section Api.
  Context {T F : Type}.
  Variable tb : table T F.
  Notation sc := (schema_of tb).

  Lemma iter_shape db ob idx sel b : index_iter tb db ob idx sel = Ok b ->
    let open := db_iter db (batch_of ob) in
    match sel with
    | SPoint _ | SRange _ _ => exists lo hi, b = BOne (open lo hi)
    | SPoints _ | SRanges _ => exists lo hi opts, b = BMulti ((lo, hi) :: opts) 0 (open lo hi)
    | SOther => b = BOne (err_iter ESelector)
    end.
  Proof.
    unfold index_iter. intro H. cbv zeta in *. destruct sel as [p|ps|lo hi|rs|].
    - destruct (point_bounds tb idx false p) as [[lo hi]| | |]; try discriminate. exists lo, hi. destruct ob; congruence.
    - match type of H with context [match ?x with Ok _ => _ | _ => _ end] => destruct x as [l| | |] end; try discriminate.
      destruct l as [|[lo hi] l]; cbn [new_multi] in H; [destruct ob; discriminate|]. exists lo, hi, l. destruct ob; congruence.
    - destruct (range_bounds tb idx lo hi) as [a z]. exists a, z. destruct ob; congruence.
    - match type of H with context [match ?x with Ok _ => _ | _ => _ end] => destruct x as [l| | |] end; try discriminate.
      destruct l as [|[lo hi] l]; cbn [new_multi] in H; [destruct ob; discriminate|]. exists lo, hi, l. destruct ob; congruence.
    - congruence.
  Qed.

  Lemma open_clean db ob lo hi : readable ob -> pi_err (db_iter db ob lo hi) = None.
  Proof. unfold db_iter, readable. destruct ob as [x|]; auto. intros ->. reflexivity. Qed.

  Lemma open_items db ob lo hi : readable ob -> pi_items (db_iter db ob lo hi) = kv_range (view db ob) lo hi.
  Proof. unfold db_iter, readable. destruct ob as [x|]; auto. intros ->. reflexivity. Qed.

  Lemma api_iterator : good_table tb -> forall db fl ob m, reads tb db fl ob m ->
    forall idx sel, In idx (primary_index :: t_indexes tb) -> short_sel (sindex_of idx) sel ->
    exists b l, index_iter tb db ob idx sel = Ok b /\ visits tb idx m sel l /\ (forall l', visits tb idx m sel l' -> l' = l) /\
    forall x xs, positions x = true -> (existsb is_seek (x :: xs) = true -> single sel = true) ->
    let ks := map (entry_key sc (sindex_of idx)) l in
    exists b' rs c, run_calls (db_iter db (batch_of ob)) (x :: xs) b = Ok (b', rs) /\ walked ks 0 (x :: xs) rs c /\
      (forall rs' c', walked ks 0 (x :: xs) rs' c' -> rs' = rs /\ c' = c) /\ bi_error b' = None /\
      match cursor_at l c with
      | Some r => bi_valid b' = true /\ bi_key b' = entry_key sc (sindex_of idx) r /\
                  (if Byte.eqb (ix_id idx) x00 then s_val sc r = Some (bi_value b') else bi_value b' = [])
      | None => bi_valid b' = false
      end.
  Proof.
    intros G db fl ob m R idx sel HI SH. destruct (a_opens tb G db fl ob m R idx sel HI SH) as [l [V [[b [E [FR C]]] ST]]].
    exists b, l. split; auto. split; auto. split; [intros l' V'; eapply a_unique; eauto|].
    intros x xs PO SK. cbv zeta. set (open := db_iter db (batch_of ob)) in *. destruct R as [KV NB RD CONS].
    assert (OP : forall lo hi, pi_err (open lo hi) = None) by (intros; apply open_clean; auto).
    set (L := map (fun r => (entry_key sc (sindex_of idx) r, val_of tb idx r)) l) in *.
    assert (KS : map fst L = map (entry_key sc (sindex_of idx)) l) by (unfold L; rewrite map_map; reflexivity).
    pose proof (iter_shape db ob idx sel b E) as SHP. cbv zeta in SHP. fold open in SHP.
    destruct (calls_walk open OP L (x :: xs) b 0 FR C (or_intror PO)) as (b' & rs & c & RUN & W & AT & CL).
    - destruct sel; try (destruct SHP as (ka & kz & ->); exact (OP ka kz)); try (destruct SHP as (ka & kz & opts & ->); split; [exact (OP ka kz)|cbn [length]; lia]).
      destruct SH.
    - intro S. specialize (SK S). destruct sel; try discriminate SK; destruct SHP as (ka & kz & ->); split; try exact Logic.I;
        rewrite <- C; cbn [contents]; unfold open; rewrite open_items by auto; apply kv_range_ok; apply view_ok; auto.
    - rewrite KS in W. exists b', rs, c. split; auto. split; auto. split; [intros rs' c' W'; eapply walked_fun; eauto|].
      split. { destruct b'; [exact CL|exact (proj1 CL)]. }
      destruct (shown open L b' c AT) as [I V']. rewrite KS in V'.
      assert (CU : cursor_at L c = option_map (fun r => (entry_key sc (sindex_of idx) r, val_of tb idx r)) (cursor_at l c)).
      { unfold L. destruct c; cbn [cursor_at]; auto. apply nth_error_map. }
      assert (I2 := eq_trans I CU). clear I. rename I2 into I.
      assert (NTH : forall r, cursor_at l c = Some r -> on_key (map (entry_key sc (sindex_of idx)) l) c = true).
      { intros r H. unfold on_key. rewrite map_length. destruct c; [discriminate|]. cbn [cursor_at] in H.
        assert (c < length l) by (apply nth_error_Some; congruence). apply andb_true_iff. split; apply Nat.leb_le; lia. }
      destruct (cursor_at l c) as [r|] eqn:CA; cbn [option_map] in I.
      + split; [rewrite V'; eapply NTH; eauto|]. unfold bi_key, bi_value, it_key, it_value. rewrite I. split; auto.
        unfold val_of, prim. assert (IN : In r l). { destruct c; [discriminate|]. eapply nth_error_In. exact CA. }
        change primary_index_id with x00. destruct (Byte.eqb (ix_id idx) x00); auto. cbn [snd].
        destruct (rep_rows _ _ _ (cons_rep _ _ _ _ CONS) _ _ (ST r IN)) as [_ [_ SV]]. cbn [s_val schema_of] in *. destruct (t_ser tb r); congruence.
      + rewrite V'. unfold on_key. rewrite map_length. destruct c; auto. cbn [cursor_at] in CA. apply nth_error_None in CA.
        apply andb_false_iff. right. apply Nat.leb_gt. lia.
  Qed.
End Api.

(** ** Seeks on several iterators, iterators that failed, and those of the database *)
Lemma bstep_multi open mv opts i p : exists i' p', bstep open mv (BMulti opts i p) = BMulti opts i' p'.
Proof.
  destruct mv; cbn [bstep]; unfold bi_next, bi_prev; cbn [bi_first bi_last bi_next_ok bi_prev_ok].
  - destruct (multi_first _ _ _ _ _); eauto.
  - destruct (multi_last _ _ _ _); eauto.
  - destruct (multi_next _ _ _ _ _) as [[]]; cbn [fst]; eauto.
  - destruct (multi_prev _ _ _ _) as [[]]; cbn [fst]; eauto.
Qed.

Lemma multi_seeks open xs : forall opts i p, existsb is_seek xs = true -> run_calls open xs (BMulti opts i p) = Panic.
Proof.
  induction xs as [|x xs IH]; intros opts i p H; [discriminate|]. cbn [existsb] in H. cbn [run_calls].
  destruct (move_of x) as [mv|] eqn:M.
  - rewrite (call_move open x mv _ M). destruct (bstep_multi open mv opts i p) as (i' & p' & ->). rewrite IH; auto.
    destruct x; cbn [is_seek orb] in H; auto; discriminate M.
  - destruct x; try discriminate M; reflexivity.
Qed.

Lemma api_multi_seek {T F} (tb : table T F) db ob idx sel b xs : index_iter tb db ob idx sel = Ok b ->
  (exists ps, sel = SPoints ps) \/ (exists rs, sel = SRanges rs) -> existsb is_seek xs = true ->
  run_calls (db_iter db (batch_of ob)) xs b = Panic.
Proof.
  intros E S H. pose proof (iter_shape tb db ob idx sel b E) as X. cbv zeta in X.
  destruct S as [[ps ->]|[rs ->]]; destruct X as (lo & hi & opts & ->); now apply multi_seeks.
Qed.

Lemma failed_call open e x b : (forall lo hi, open lo hi = err_iter e) -> one b \/ is_seek x = false -> clean (failed e) b ->
  exists b', bi_call open x b = Ok (b', false) /\ clean (failed e) b' /\ (one b -> one b').
Proof.
  intros OP ON CL. destruct (move_of x) as [mv|] eqn:M.
  - rewrite (call_move open x mv b M). pose proof (bstep_failed open e mv b OP CL) as X. exists (bstep open mv b). split; [|split; auto].
    + destruct (bstep open mv b); cbn [clean] in X; unfold failed in X; unfold bi_valid; cbn [bi_cur]; do 2 f_equal; tauto.
    + destruct b; [|easy]. destruct mv; exact (fun h => h).
  - destruct x as [| | | |k|k]; try discriminate M; (destruct ON as [ON|ON]; [|discriminate ON]); destruct b as [[l q r]|]; try easy;
      destruct CL as (A & B & C); cbn [pi_items pi_err] in *; subst l r; cbn [bi_call]; eexists; (split; [reflexivity|]); split; auto; repeat split; auto.
Qed.

Lemma failed_calls open e xs : (forall lo hi, open lo hi = err_iter e) -> forall b, one b \/ existsb is_seek xs = false -> clean (failed e) b ->
  exists b', run_calls open xs b = Ok (b', map (fun _ => false) xs) /\ bi_valid b' = false /\ bi_error b' = Some e /\ bi_key b' = [] /\ bi_value b' = [].
Proof.
  intro OP. induction xs as [|x xs IH]; intros b ON CL.
  - exists b. split; auto. assert (X : failed e (bi_cur b)) by (destruct b; cbn [clean bi_cur] in *; tauto).
    destruct X as (A & B & C). unfold bi_valid, bi_error, bi_key, bi_value, it_key, it_value, it_item. unfold it_valid in *.
    destruct (pi_pos (bi_cur b)); auto; try discriminate B.
  - cbn [existsb] in ON. destruct (failed_call open e x b OP) as (b1 & E & C1 & O1); auto.
    { destruct ON as [ON|ON]; auto. apply orb_false_iff in ON. tauto. }
    destruct (IH b1) as (b2 & E2 & H); auto. { destruct ON as [ON|ON]; auto. apply orb_false_iff in ON. tauto. }
    exists b2. cbn [run_calls map]. rewrite E, E2. auto.
Qed.

Lemma api_write_only {T F} (tb : table T F) db bt idx sel b : b_rw bt = false -> index_iter tb db (ABatch bt) idx sel = Ok b ->
  forall xs, (existsb is_seek xs = true -> single sel = true \/ sel = SOther) ->
  exists b', run_calls (db_iter db (Some bt)) xs b = Ok (b', map (fun _ => false) xs) /\ bi_valid b' = false /\
    bi_error b' = Some (match sel with SOther => ESelector | _ => ENotIndexed end) /\ bi_key b' = [] /\ bi_value b' = [].
Proof.
  intros W E xs SK. pose proof (iter_shape tb db (ABatch bt) idx sel b E) as X. cbv zeta in X. cbn [batch_of] in X.
  assert (OP : forall lo hi, db_iter db (Some bt) lo hi = err_iter ENotIndexed) by (intros; unfold db_iter; now rewrite W).
  assert (S : existsb is_seek xs = false \/ single sel = true \/ sel = SOther) by (destruct (existsb is_seek xs); auto).
  destruct sel; cbn [single] in S.
  1,3: destruct X as (ka & kz & ->); rewrite OP; apply failed_calls; auto; [left; exact Logic.I|repeat split].
  1,2: destruct X as (ka & kz & opts & ->); rewrite OP; apply failed_calls; auto;
    [right; destruct S as [S|[S|S]]; [exact S|discriminate S|discriminate S]|split; [repeat split|cbn [length]; lia]].
  subst b. clear OP. revert xs SK S. assert (G : forall xs p, failed ESelector p -> exists b', run_calls (db_iter db (Some bt)) xs (BOne p) = Ok (b', map (fun _ => false) xs) /\
    bi_valid b' = false /\ bi_error b' = Some ESelector /\ bi_key b' = [] /\ bi_value b' = []).
  { intros xs p H. assert (RE : forall ys q, run_calls (db_iter db (Some bt)) ys (BOne q) = run_calls (fun _ _ => err_iter ESelector) ys (BOne q)).
    { induction ys as [|y ys IH]; intro q; auto. cbn [run_calls]. destruct y; cbn [bi_call bi_first bi_last bi_next_ok bi_prev_ok]; rewrite IH; reflexivity. }
    rewrite RE. apply failed_calls; auto. left. exact Logic.I. }
  intros xs _ _. apply G. repeat split.
Qed.

Lemma api_other {T F} (tb : table T F) db ob idx : forall xs,
  index_iter tb db ob idx SOther = Ok (BOne (err_iter ESelector)) /\
  exists b', run_calls (db_iter db (batch_of ob)) xs (BOne (err_iter ESelector)) = Ok (b', map (fun _ => false) xs) /\ bi_valid b' = false /\
    bi_error b' = Some ESelector /\ bi_key b' = [] /\ bi_value b' = [].
Proof.
  intro xs. split; [reflexivity|].
  assert (RE : forall ys q, run_calls (db_iter db (batch_of ob)) ys (BOne q) = run_calls (fun _ _ => err_iter ESelector) ys (BOne q)).
  { induction ys as [|y ys IH]; intro q; auto. cbn [run_calls]. destruct y; cbn [bi_call bi_first bi_last bi_next_ok bi_prev_ok]; rewrite IH; reflexivity. }
  rewrite RE. apply failed_calls; auto; [left; exact Logic.I|repeat split].
Qed.

Lemma api_db db ob lo hi : kv_ok db -> readable ob ->
  exists l : kv, StronglySorted (fun a b => bcmp (fst a) (fst b) = Lt) l /\
    (forall k v, In (k, v) l <-> kv_get (view db ob) k = Some v /\ bcmp lo k <> Gt /\ bcmp k hi = Lt) /\
    forall x xs, positions x = true -> exists b' rs c, run_calls (db_iter db ob) (x :: xs) (BOne (db_iter db ob lo hi)) = Ok (b', rs) /\
      walked (map fst l) 0 (x :: xs) rs c /\ (forall rs' c', walked (map fst l) 0 (x :: xs) rs' c' -> rs' = rs /\ c' = c) /\ bi_error b' = None /\
      match cursor_at l c with Some (k, v) => bi_valid b' = true /\ bi_key b' = k /\ bi_value b' = v | None => bi_valid b' = false end.
Proof.
  intros KV RD. pose proof (view_ok db ob KV) as KW. pose proof (kv_range_ok _ lo hi KW) as KR. exists (kv_range (view db ob) lo hi). split; [exact KR|]. split.
  { intros k v. rewrite <- (kv_get_in _ _ _ KR), kv_get_range by auto. unfold in_range. destruct (bleb lo k) eqn:A, (bltb k hi) eqn:B; cbn [andb].
    - apply bleb_le in A. apply bltb_lt in B. split; [|tauto]. intro H. split; auto.
    - apply bltb_ge in B. split; [discriminate|]. intros (_ & _ & H). exfalso. apply blt_not_le in H. contradiction.
    - apply bleb_gt in A. split; [discriminate|]. intros (_ & H & _). exfalso. apply blt_not_le in A. contradiction.
    - apply bleb_gt in A. split; [discriminate|]. intros (_ & H & _). exfalso. apply blt_not_le in A. contradiction. }
  intros x xs PO. set (L := kv_range (view db ob) lo hi) in *. set (open := db_iter db ob) in *.
  assert (OP : forall a z, pi_err (open a z) = None) by (intros; apply open_clean; auto).
  assert (CO : contents open (BOne (open lo hi)) = L) by (cbn [contents]; unfold open; apply open_items; auto).
  destruct (calls_walk open OP L (x :: xs) (BOne (open lo hi)) 0 Logic.I CO (or_intror PO)) as (b' & rs & c & RUN & W & AT & CL); [exact (OP lo hi)|split; auto; exact Logic.I|].
  exists b', rs, c. split; auto. split; auto. split; [intros rs' c' W'; eapply walked_fun; eauto|]. split. { destruct b'; [exact CL|exact (proj1 CL)]. }
  destruct (shown open L b' c AT) as [IT V]. unfold bi_key, bi_value, it_key, it_value. rewrite IT. rewrite V. unfold on_key. rewrite map_length.
  destruct c as [|i]; cbn [cursor_at]; auto. destruct (nth_error L i) as [[k v]|] eqn:N.
  - assert (i < length L) by (apply nth_error_Some; congruence). split; auto. apply andb_true_iff. split; apply Nat.leb_le; auto. lia.
  - apply nth_error_None in N. apply andb_false_iff. right. apply Nat.leb_gt. apply Nat.lt_succ_r. exact N.
Qed.
