(** The multi iterator is a cursor over the concatenation of its parts. *)

From Coq Require Import List NArith Lia Bool Arith.
From Verif.Model Require Import Bytes Go Keys Pebble Index Table Scan.
From Verif.Spec Require Import KeySpec StoreSpec TableSpec ScanSpec.
From Verif.Proofs Require Import BytesFacts PebbleFacts.
Import ListNotations.

Lemma iter_succ_r {A} (f : A -> A) n x : Nat.iter (S n) f x = Nat.iter n f (f x).
Proof.
  induction n as [|n IH]; [reflexivity|]. change (f (Nat.iter (S n) f x) = f (Nat.iter n f (f x))). rewrite IH. reflexivity.
Qed.

Section Cursor.
  Variable open : bytes -> bytes -> piter.

  Definition items (o : bytes * bytes) : kv := pi_items (open (fst o) (snd o)).
  Definition flat (opts : list (bytes * bytes)) : kv := flat_map items opts.

  Lemma flat_app a b : flat (a ++ b) = flat a ++ flat b.
  Proof. apply flat_map_app. Qed.

  Lemma open_at_mid pre o post : pi_items (open_at open (pre ++ o :: post) (length pre)) = items o.
  Proof.
    unfold open_at. rewrite nth_error_app2 by auto. rewrite Nat.sub_diag. cbn. destruct o; reflexivity.
  Qed.

  (** position [q] in the concatenation corresponds to option [i] and its iterator [p] *)
  Definition rel (opts : list (bytes * bytes)) (i : nat) (p : piter) (q : ipos) : Prop :=
    exists pre o post, opts = pre ++ o :: post /\ i = length pre /\ pi_items p = items o /\
      match pi_pos p with
      | PAt n => n < length (items o) /\ q = PAt (length (flat pre) + n)
      | PEnd => post = [] /\ q = PEnd
      | PStart => pre = [] /\ q = PStart
      | PNone => False
      end.

  Lemma first_valid p : it_valid (it_first p) = match pi_items p with [] => false | _ => true end.
  Proof. unfold it_first, it_valid. destruct (pi_items p); reflexivity. Qed.
  Lemma last_valid p : it_valid (it_last p) = match pi_items p with [] => false | _ => true end.
  Proof. unfold it_last, it_valid. destruct (pi_items p); reflexivity. Qed.

  Lemma first_rel post : forall pre cur, post <> [] -> flat pre = [] ->
    let '(i, p) := multi_first open (pre ++ post) (length post) (length pre) cur in
    rel (pre ++ post) i p (match flat (pre ++ post) with [] => PEnd | _ => PAt 0 end).
  Proof.
    induction post as [|o post IH]; intros pre cur NE E; [easy|]. cbn [multi_first length].
    rewrite first_valid, open_at_mid. rewrite flat_app, E. cbn [app flat flat_map].
    destruct (items o) as [|e l] eqn:EI.
    - destruct post as [|o2 post].
      + cbn [multi_first length flat_map app]. exists pre, o, []. split; auto. split; auto. cbn [it_first pi_items pi_pos].
        rewrite open_at_mid, EI. auto.
      + specialize (IH (pre ++ [o]) (length pre, it_first (open_at open (pre ++ o :: o2 :: post) (length pre)))).
        rewrite <- app_assoc in IH. cbn [app] in IH. rewrite app_length, Nat.add_1_r in IH.
        destruct (multi_first _ _ _ _ _) as [i p]. cbn [app].
        assert (FL : flat (pre ++ [o]) = []) by (rewrite flat_app, E; cbn; rewrite EI; reflexivity).
        specialize (IH ltac:(easy) FL). rewrite flat_app, E in IH. cbn [app flat flat_map] in IH. rewrite EI in IH. exact IH.
    - exists pre, o, post. split; auto. split; auto. cbn [it_first pi_items pi_pos]. rewrite open_at_mid, EI.
      split; auto. split; [cbn; lia|]. rewrite E. reflexivity.
  Qed.

  Lemma last_rel : forall pre post cur, pre <> [] -> flat post = [] ->
    let '(i, p) := multi_last open (pre ++ post) (length pre) cur in
    rel (pre ++ post) i p (match flat (pre ++ post) with [] => PStart | l => PAt (length l - 1) end).
  Proof.
    intro pre0; induction pre0 as [|o pre IH] using rev_ind; intros post cur NE E; [easy|]. rewrite app_length, Nat.add_1_r.
    cbn [multi_last]. rewrite <- app_assoc. cbn [app]. rewrite last_valid, open_at_mid.
    rewrite flat_app. cbn [flat flat_map]. change (flat_map items post) with (flat post). rewrite E, app_nil_r.
    destruct (items o) as [|e l] eqn:EI.
    - rewrite app_nil_r. destruct pre as [|o2 pre2] eqn:EP.
      + cbn [multi_last length app flat flat_map]. exists [], o, post. cbn [app length]. split; auto. split; auto.
        cbn [it_last pi_items pi_pos]. pose proof (open_at_mid [] o post) as X. cbn [app length] in X. rewrite X, EI. auto.
      + rewrite <- EP in *. specialize (IH (o :: post) (length pre, it_last (open_at open (pre ++ o :: post) (length pre)))).
        destruct (multi_last _ _ _ _) as [i p].
        assert (FL : flat (o :: post) = []) by (cbn; rewrite EI; exact E).
        specialize (IH ltac:(rewrite EP; easy) FL). rewrite flat_app, FL, app_nil_r in IH. exact IH.
    - exists pre, o, post. split; auto. split; auto. cbn [it_last pi_items pi_pos]. rewrite open_at_mid, EI.
      split; auto. split; [cbn; lia|]. destruct (flat pre ++ e :: l) eqn:X; [destruct (flat pre); easy|].
      rewrite <- X, app_length. cbn [length]. f_equal. lia.
  Qed.

  (** the position after [n] in a list of length [len] *)
  Definition succ_pos (len n : nat) : ipos := if Nat.ltb (S n) len then PAt (S n) else PEnd.

  Lemma next_search post : forall pre o todo p, pi_items p = items o -> pi_pos p = PEnd -> length post <= todo ->
    let '(i, p', ok) := multi_next open (pre ++ o :: post) todo (length pre) p in
    let q := match flat post with [] => PEnd | _ => PAt (length (flat pre) + length (items o)) end in
    rel (pre ++ o :: post) i p' q /\ ok = it_valid p'.
  Proof.
    induction post as [|o2 post IH]; intros pre o todo p EI EP LE.
    - destruct todo; cbn [multi_next]; unfold it_next; rewrite EP; unfold it_valid; rewrite EP;
        replace (S (length pre) =? length (pre ++ [o])) with true by (symmetry; apply Nat.eqb_eq; rewrite app_length; cbn; lia);
        (split; [|rewrite EP; reflexivity]); exists pre, o, []; rewrite EP; auto.
    - destruct todo as [|todo]; [cbn in LE; lia|]. cbn [multi_next]. unfold it_next. rewrite EP. unfold it_valid at 1. rewrite EP.
      replace (S (length pre) =? length (pre ++ o :: o2 :: post)) with false
        by (symmetry; apply Nat.eqb_neq; rewrite app_length; cbn; lia).
      assert (OP : pi_items (open_at open (pre ++ o :: o2 :: post) (S (length pre))) = items o2).
      { pose proof (open_at_mid (pre ++ [o]) o2 post) as X. rewrite <- app_assoc, app_length, Nat.add_1_r in X. exact X. }
      rewrite first_valid, OP. cbn [flat flat_map]. destruct (items o2) as [|e l] eqn:E2.
      + specialize (IH (pre ++ [o]) o2 todo (it_first (open_at open (pre ++ o :: o2 :: post) (S (length pre))))).
        rewrite <- app_assoc, app_length, Nat.add_1_r in IH. cbn [app] in IH.
        destruct (multi_next open (pre ++ o :: o2 :: post) todo (S (length pre)) _) as [[i p'] ok].
        cbn [app]. destruct IH as [R OK].
        * cbn [it_first pi_items]. rewrite OP. auto.
        * cbn [it_first pi_items pi_pos]. rewrite OP. reflexivity.
        * cbn in LE. lia.
        * split; auto. rewrite flat_app, app_length in R. cbn [flat flat_map] in R. rewrite E2 in R. cbn [length] in R.
          rewrite app_nil_r, Nat.add_0_r in R. exact R.
      + split; [|rewrite first_valid, OP; reflexivity]. exists (pre ++ [o]), o2, post. rewrite <- app_assoc.
        split; auto. split; [rewrite app_length; cbn; lia|]. cbn [it_first pi_items pi_pos]. rewrite OP, E2. split; auto.
        split; [cbn; lia|]. cbn [app]. rewrite flat_app, app_length. cbn [flat flat_map]. rewrite app_nil_r. f_equal. lia.
  Qed.

  Lemma next_rel opts i p q : rel opts i p q ->
    let '(i', p', ok) := multi_next open opts (length opts) i p in
    rel opts i' p' (pi_pos (it_next (PIter (flat opts) q None))) /\ ok = it_valid p'.
  Proof.
    intros [pre [o [post [-> [-> [EI H]]]]]]. destruct (pi_pos p) as [|n| |] eqn:EP; [easy|..].
    - destruct H as [LT ->].
      assert (FN : it_next p = PIter (pi_items p) (succ_pos (length (items o)) n) (pi_err p)).
      { unfold it_next, succ_pos. rewrite EP, EI. reflexivity. }
      destruct (Nat.ltb (S n) (length (items o))) eqn:L.
      + assert (MN : multi_next open (pre ++ o :: post) (length (pre ++ o :: post)) (length pre) p = (length pre, it_next p, true)).
        { destruct (length (pre ++ o :: post)); cbn [multi_next]; rewrite FN; unfold succ_pos; rewrite L; reflexivity. }
        rewrite MN. rewrite FN. unfold succ_pos. rewrite L. split; [|reflexivity]. exists pre, o, post. cbn [pi_items pi_pos].
        apply Nat.ltb_lt in L. split; auto. split; auto. split; auto. split; auto. unfold it_next. cbn [pi_pos pi_items].
        rewrite flat_app, app_length. cbn [flat flat_map]. rewrite app_length.
        replace (S (length (flat pre) + n) <? _) with true by (symmetry; apply Nat.ltb_lt; lia). cbn. f_equal. lia.
      + apply Nat.ltb_ge in L.
        assert (N1 : n = length (items o) - 1) by lia.
        set (p1 := it_next p). assert (P1 : pi_pos p1 = PEnd).
        { unfold p1. rewrite FN. unfold succ_pos. cbn [pi_pos]. replace (S n <? length (items o)) with false by (symmetry; apply Nat.ltb_ge; lia). reflexivity. }
        assert (I1 : pi_items p1 = items o) by (unfold p1; rewrite FN; exact EI).
        assert (MN : multi_next open (pre ++ o :: post) (length (pre ++ o :: post)) (length pre) p =
                     multi_next open (pre ++ o :: post) (length (pre ++ o :: post)) (length pre) p1).
        { assert (NN : it_next p1 = p1) by (unfold it_next; rewrite P1; reflexivity).
          destruct (length (pre ++ o :: post)); cbn [multi_next]; rewrite NN; reflexivity. }
        rewrite MN. clear MN. pose proof (next_search post pre o (length (pre ++ o :: post)) p1 I1 P1 ltac:(rewrite app_length; cbn; lia)) as X.
        cbv zeta in X. destruct (multi_next _ _ _ _ _) as [[i' p'] ok]. destruct X as [R OK].
        split; auto. unfold it_next. cbn [pi_pos pi_items]. rewrite flat_app, app_length. cbn [flat flat_map]. rewrite app_length.
        change (flat_map items post) with (flat post). destruct (flat post) as [|e l] eqn:EF.
        * replace (S (length (flat pre) + n) <? _) with false by (symmetry; apply Nat.ltb_ge; cbn; lia). exact R.
        * replace (S (length (flat pre) + n) <? _) with true by (symmetry; apply Nat.ltb_lt; cbn; lia).
          cbn. replace (S (length (flat pre) + n)) with (length (flat pre) + length (items o)) by lia. exact R.
    - destruct H as [-> ->]. pose proof (next_search [] pre o (length (pre ++ [o])) p EI EP ltac:(cbn; lia)) as X.
      cbv zeta in X. destruct (multi_next _ _ _ _ _) as [[i' p'] ok]. destruct X as [R OK]. split; auto.
    - destruct H as [-> ->]. cbn [app length].
      assert (PN : it_next p = it_first p) by (unfold it_next; rewrite EP; reflexivity).
      destruct (items o) as [|e l] eqn:EO.
      + (* the first part is empty: move on as from its end *)
        set (p1 := it_first p).
        assert (P1 : pi_pos p1 = PEnd) by (unfold p1, it_first; rewrite EI; reflexivity).
        assert (I1 : pi_items p1 = items o) by (unfold p1; cbn [it_first pi_items]; congruence).
        assert (MN : multi_next open (o :: post) (S (length post)) 0 p = multi_next open (o :: post) (S (length post)) 0 p1).
        { assert (NN : it_next p1 = p1) by (unfold it_next; rewrite P1; reflexivity).
          cbn [multi_next]. rewrite NN, PN. reflexivity. }
        change (length (o :: post)) with (S (length post)). rewrite MN. clear MN.
        pose proof (next_search post [] o (S (length post)) p1 I1 P1 ltac:(lia)) as X. cbn [app length] in X.
        cbv zeta in X. destruct (multi_next _ _ _ _ _) as [[i' p'] ok]. destruct X as [R OK]. split; auto.
        unfold it_next. cbn [pi_pos it_first pi_items flat flat_map]. rewrite EO in *. cbn [app]. cbn [flat flat_map length Nat.add] in R. exact R.
      + assert (VF : it_valid (it_first p) = true) by (rewrite first_valid, EI; reflexivity).
        change (length (o :: post)) with (S (length post)). cbn [multi_next]. rewrite PN, VF.
        split; auto. exists [], o, post. split; auto. split; auto. cbn [it_first pi_items pi_pos]. rewrite EI.
        split; [auto|]. split; [rewrite EO; cbn; lia|]. unfold it_next. cbn [pi_pos it_first pi_items flat flat_map]. rewrite EO. reflexivity.
  Qed.

  Lemma prev_search : forall pre o post p, pi_items p = items o -> pi_pos p = PStart ->
    let '(i, p', ok) := multi_prev open (pre ++ o :: post) (length pre) p in
    let q := match flat pre with [] => PStart | l => PAt (length l - 1) end in
    rel (pre ++ o :: post) i p' q /\ ok = it_valid p'.
  Proof.
    intro pre0; induction pre0 as [|o2 pre IH] using rev_ind; intros o post p EI EP.
    - cbn [multi_prev length]. unfold it_prev. rewrite EP. unfold it_valid. rewrite EP. split; [|rewrite EP; reflexivity].
      exists [], o, post. rewrite EP. auto.
    - rewrite app_length, Nat.add_1_r. cbn [multi_prev]. unfold it_prev. rewrite EP. unfold it_valid at 1. rewrite EP.
      rewrite <- app_assoc. cbn [app]. rewrite last_valid, open_at_mid. rewrite flat_app. cbn [flat flat_map]. rewrite app_nil_r.
      destruct (items o2) as [|e l] eqn:E2.
      + specialize (IH o2 (o :: post) (it_last (open_at open (pre ++ o2 :: o :: post) (length pre)))).
        destruct (multi_prev _ _ _ _) as [[i p'] ok]. rewrite app_nil_r. apply IH.
        * cbn [it_last pi_items]. rewrite open_at_mid. auto.
        * cbn [it_last pi_items pi_pos]. rewrite open_at_mid, E2. reflexivity.
      + split; [|rewrite last_valid, open_at_mid, E2; reflexivity]. exists pre, o2, (o :: post). split; auto. split; auto.
        cbn [it_last pi_items pi_pos]. rewrite open_at_mid, E2. split; auto. split; [cbn; lia|].
        destruct (flat pre ++ e :: l) eqn:X; [destruct (flat pre); easy|].
        rewrite <- X, app_length. cbn [length]. f_equal. lia.
  Qed.

  Lemma prev_rel opts i p q : rel opts i p q ->
    let '(i', p', ok) := multi_prev open opts i p in
    rel opts i' p' (pi_pos (it_prev (PIter (flat opts) q None))) /\ ok = it_valid p'.
  Proof.
    intros [pre [o [post [-> [-> [EI H]]]]]]. destruct (pi_pos p) as [|n| |] eqn:EP; [easy|..].
    - destruct H as [LT ->]. destruct n as [|n].
      + set (p1 := it_prev p). assert (P1 : pi_pos p1 = PStart) by (unfold p1, it_prev; rewrite EP; reflexivity).
        assert (I1 : pi_items p1 = items o) by (unfold p1, it_prev; rewrite EP; exact EI).
        assert (MP : multi_prev open (pre ++ o :: post) (length pre) p = multi_prev open (pre ++ o :: post) (length pre) p1).
        { assert (NN : it_prev p1 = p1) by (unfold it_prev; rewrite P1; reflexivity).
          destruct (length pre); cbn [multi_prev]; rewrite NN; reflexivity. }
        rewrite MP. clear MP. pose proof (prev_search pre o post p1 I1 P1) as X. cbv zeta in X. destruct (multi_prev _ _ _ _) as [[i' p'] ok].
        destruct X as [R OK]. split; auto. unfold it_prev. cbn [pi_pos pi_items]. rewrite Nat.add_0_r.
        destruct (flat pre) as [|e l] eqn:EF; [exact R|]. cbn [length] in *. rewrite Nat.sub_succ, Nat.sub_0_r in R. exact R.
      + assert (MP : multi_prev open (pre ++ o :: post) (length pre) p = (length pre, it_prev p, true)).
        { destruct (length pre); cbn [multi_prev]; unfold it_prev; rewrite EP; reflexivity. }
        rewrite MP. unfold it_prev. rewrite EP. split; [|reflexivity]. exists pre, o, post. split; auto. split; auto.
        cbn [pi_items pi_pos]. split; auto. split; [lia|]. rewrite Nat.add_succ_r. reflexivity.
    - destruct H as [-> ->].
      assert (PN : it_prev p = it_last p) by (unfold it_prev; rewrite EP; reflexivity).
      destruct (items o) as [|e l] eqn:EO.
      + set (p1 := it_last p).
        assert (P1 : pi_pos p1 = PStart) by (unfold p1, it_last; rewrite EI; reflexivity).
        assert (I1 : pi_items p1 = items o) by (unfold p1; cbn [it_last pi_items]; congruence).
        assert (MP : multi_prev open (pre ++ [o]) (length pre) p = multi_prev open (pre ++ [o]) (length pre) p1).
        { assert (NN : it_prev p1 = p1) by (unfold it_prev; rewrite P1; reflexivity).
          destruct (length pre); cbn [multi_prev]; rewrite NN, PN; reflexivity. }
        rewrite MP. clear MP. pose proof (prev_search pre o [] p1 I1 P1) as X. cbv zeta in X. destruct (multi_prev _ _ _ _) as [[i' p'] ok].
        destruct X as [R OK]. split; auto. unfold it_prev. cbn [pi_pos it_last pi_items]. rewrite flat_app. cbn [flat flat_map].
        rewrite EO. rewrite !app_nil_r. exact R.
      + assert (VF : it_valid (it_last p) = true) by (rewrite last_valid, EI; reflexivity).
        assert (MP : multi_prev open (pre ++ [o]) (length pre) p = (length pre, it_last p, true)).
        { destruct (length pre); cbn [multi_prev]; rewrite PN, VF; reflexivity. }
        rewrite MP. split; auto. exists pre, o, []. split; auto. split; auto. cbn [it_last pi_items pi_pos]. rewrite EI.
        split; [auto|]. rewrite EO. split; [cbn; lia|]. unfold it_prev. cbn [pi_pos it_last pi_items].
        rewrite flat_app. cbn [flat flat_map]. rewrite app_nil_r, EO. destruct (flat pre ++ e :: l) eqn:X; [destruct (flat pre); easy|].
        rewrite <- X, app_length. cbn [length]. f_equal. lia.
    - destruct H as [-> ->]. pose proof (prev_search [] o post p EI EP) as X. cbn [app length] in *.
      cbv zeta in X. destruct (multi_prev _ _ _ _) as [[i' p'] ok]. destruct X as [R OK]. split; auto.
  Qed.

  Lemma rel_item opts i p q : rel opts i p q -> it_item p = it_item (PIter (flat opts) q None) /\
    it_valid p = it_valid (PIter (flat opts) q None).
  Proof.
    intros [pre [o [post [-> [-> [EI H]]]]]]. unfold it_item, it_valid. destruct (pi_pos p) as [|n| |]; [easy|..].
    - destruct H as [LT ->]. cbn [pi_pos pi_items]. split; auto. rewrite EI, flat_app. cbn [flat flat_map].
      rewrite nth_error_app2 by lia. rewrite nth_error_app1 by lia. f_equal. lia.
    - destruct H as [_ ->]. auto.
    - destruct H as [_ ->]. auto.
  Qed.

  (** ** Any bond iterator as a cursor *)

  (** the entries an iterator ranges over *)
  Definition contents (b : biter) : kv := match b with BOne p => pi_items p | BMulti opts _ _ => flat opts end.

  Definition brel (b : biter) (q : ipos) : Prop :=
    match b with
    | BOne p => pi_pos p = q /\ match q with PAt n => n < length (pi_items p) | PNone => False | _ => True end
    | BMulti opts i p => rel opts i p q
    end.

  Definition fresh (b : biter) : Prop := match b with BOne _ => True | BMulti opts _ _ => opts <> [] end.

  Definition step (mv : move) (p : piter) : piter :=
    match mv with MFirst => it_first p | MLast => it_last p | MNext => it_next p | MPrev => it_prev p end.
  Lemma step_pos mv l q e e' : pi_pos (step mv (PIter l q e)) = pi_pos (step mv (PIter l q e')).
  Proof. destruct mv, q; reflexivity. Qed.

  Lemma first_brel b : fresh b -> brel (bi_first open b) (pi_pos (it_first (PIter (contents b) PNone None))) /\
    contents (bi_first open b) = contents b.
  Proof.
    destruct b as [p|opts i p]; cbn [fresh bi_first contents brel].
    - intros _. split; auto. split; [unfold it_first; destruct (pi_items p); reflexivity|].
      unfold it_first. cbn. destruct (pi_items p); cbn; auto; lia.
    - intro NE. pose proof (first_rel opts [] (i, p) NE eq_refl) as H. cbn [app length] in H.
      destruct (multi_first _ _ _ _ _) as [i' p']. cbn [brel contents]. split; auto.
  Qed.

  Lemma last_brel b : fresh b -> brel (bi_last open b) (pi_pos (it_last (PIter (contents b) PNone None))) /\
    contents (bi_last open b) = contents b.
  Proof.
    destruct b as [p|opts i p]; cbn [fresh bi_last contents brel].
    - intros _. split; auto. split; [unfold it_last; destruct (pi_items p); reflexivity|].
      unfold it_last. cbn. destruct (pi_items p); cbn; auto; lia.
    - intro NE. pose proof (last_rel opts [] (i, p) NE eq_refl) as H. rewrite app_nil_r in H.
      destruct (multi_last _ _ _ _) as [i' p']. cbn [brel contents]. split; auto.
  Qed.

  Lemma next_brel b q : brel b q -> brel (bi_next open b) (pi_pos (it_next (PIter (contents b) q None))) /\
    contents (bi_next open b) = contents b /\ snd (bi_next_ok open b) = bi_valid (bi_next open b).
  Proof.
    destruct b as [p|opts i p]; unfold bi_next; cbn [bi_next_ok contents brel fst snd].
    - intros [<- B]. unfold it_next. destruct (pi_pos p) as [|n| |] eqn:EP; cbn [pi_items pi_pos] in *; [easy|..].
      + split; [|auto]. split; auto. destruct (Nat.ltb (S n) (length (pi_items p))) eqn:L; auto. apply Nat.ltb_lt in L. auto.
      + split; auto.
      + cbn [it_first pi_pos pi_items]. split; auto. split; auto. destruct (pi_items p); cbn; auto; lia.
    - intro H. pose proof (next_rel opts i p q H) as X. destruct (multi_next _ _ _ _ _) as [[i' p'] ok].
      cbn [fst snd brel contents bi_valid bi_cur]. destruct X; auto.
  Qed.

  Lemma prev_brel b q : brel b q -> brel (bi_prev open b) (pi_pos (it_prev (PIter (contents b) q None))) /\
    contents (bi_prev open b) = contents b /\ snd (bi_prev_ok open b) = bi_valid (bi_prev open b).
  Proof.
    destruct b as [p|opts i p]; unfold bi_prev; cbn [bi_prev_ok contents brel fst snd].
    - intros [<- B]. unfold it_prev. destruct (pi_pos p) as [|n| |] eqn:EP; cbn [pi_items pi_pos] in *; [easy|..].
      + split; [|auto]. split; auto. destruct n; cbn; auto; lia.
      + cbn [it_last pi_pos pi_items]. split; auto. split; auto. destruct (pi_items p); cbn; auto; lia.
      + split; auto.
    - intro H. pose proof (prev_rel opts i p q H) as X. cbv zeta in X. destruct (multi_prev _ _ _ _) as [[i' p'] ok].
      cbn [fst snd brel contents bi_valid bi_cur]. destruct X; auto.
  Qed.

  Lemma brel_item b q : brel b q -> it_item (bi_cur b) = it_item (PIter (contents b) q None) /\
    bi_valid b = it_valid (PIter (contents b) q None).
  Proof.
    destruct b as [p|opts i p]; cbn [brel contents bi_cur].
    - intros [<- _]. auto.
    - apply rel_item.
  Qed.

  Lemma bi_key_item b : bi_key b = match it_item (bi_cur b) with Some e => fst e | None => [] end.
  Proof. reflexivity. Qed.

  Lemma brel_fresh b q : brel b q -> fresh b.
  Proof.
    destruct b as [p|opts i p]; cbn; auto. intros [pre [o [post [-> _]]]]. destruct pre; easy.
  Qed.

  (** ** The entries an iterator will deliver *)

  Variable rv : bool.
  Notation nxt := (scan_next open rv).

  Inductive delivers : biter -> kv -> Prop :=
  | dl_nil b : (forall n, bi_valid (Nat.iter n nxt b) = false) -> delivers b []
  | dl_cons b e l : bi_valid b = true -> bi_key b = fst e -> bi_value b = snd e ->
      delivers (nxt b) l -> delivers b (e :: l).

  Lemma delivers_next_nil b : delivers b [] -> delivers (nxt b) [].
  Proof.
    intro H. inversion H as [? N|]; subst. constructor. intro n. specialize (N (S n)). rewrite iter_succ_r in N. exact N.
  Qed.

  Lemma exhausted b q : q = (if rv then PStart else PEnd) -> brel b q -> delivers b [].
  Proof.
    intros EQ H. constructor. intro n.
    assert (X : brel (Nat.iter n nxt b) q).
    { induction n as [|n IH]; auto. cbn [Nat.iter nat_rect]. set (b' := Nat.iter n nxt b) in *. unfold scan_next. subst q. destruct rv.
      - apply (prev_brel b' PStart IH).
      - apply (next_brel b' PEnd IH). }
    destruct (brel_item _ _ X) as [_ ->]. subst q. destruct rv; reflexivity.
  Qed.
End Cursor.

Lemma delivers_fwd open : forall k b n, brel open b (PAt n) -> length (contents open b) - n = S k ->
  delivers open false b (skipn n (contents open b)).
Proof.
  assert (X : forall b n, brel open b (PAt n) -> n < length (contents open b) -> exists e,
     nth_error (contents open b) n = Some e /\ bi_valid b = true /\ bi_key b = fst e /\ bi_value b = snd e).
  { intros b n H L. destruct (nth_error (contents open b) n) as [e|] eqn:E; [|apply nth_error_None in E; lia].
    destruct (brel_item open b _ H) as [I V]. exists e. split; auto. split; [exact V|].
    unfold bi_key, bi_value, it_key, it_value. rewrite I. cbn [it_item pi_pos pi_items]. rewrite E. auto. }
  assert (SK : forall (l : kv) n e, nth_error l n = Some e -> skipn n l = e :: skipn (S n) l).
  { induction l as [|y l IHl]; intros [|n] e' E'; cbn in *; try easy; [congruence|apply (IHl n e' E')]. }
  induction k as [|k IH]; intros b n H L; destruct (X b n H ltac:(lia)) as [e [E [V [K1 K2]]]];
    rewrite (SK _ _ _ E); destruct (next_brel open b _ H) as [N [C _]];
    apply dl_cons; auto; unfold scan_next; unfold it_next in N; cbn [pi_pos pi_items] in N.
  - replace (Nat.ltb (S n) (length (contents open b))) with false in N by (symmetry; apply Nat.ltb_ge; lia).
    rewrite skipn_all2 by lia. cbn in N. eapply (exhausted open false); eauto.
  - replace (Nat.ltb (S n) (length (contents open b))) with true in N by (symmetry; apply Nat.ltb_lt; lia).
    cbn in N. rewrite <- C. apply IH; auto. rewrite C. lia.
Qed.

Lemma delivers_bwd open : forall n b, brel open b (PAt n) -> n < length (contents open b) ->
  delivers open true b (rev (firstn (S n) (contents open b))).
Proof.
  induction n as [|n IH]; intros b H L.
  - destruct (nth_error (contents open b) 0) as [e|] eqn:E; [|apply nth_error_None in E; lia].
    destruct (brel_item open b _ H) as [I V]. destruct (prev_brel open b _ H) as [N [C _]]. cbn in N.
    destruct (contents open b) as [|y l] eqn:EC; [easy|]. cbn in E. injection E as ->. cbn [firstn rev app].
    apply dl_cons; auto.
    + unfold bi_key, it_key. rewrite I. reflexivity.
    + unfold bi_value, it_value. rewrite I. reflexivity.
    + eapply (exhausted open true); eauto.
  - destruct (nth_error (contents open b) (S n)) as [e|] eqn:E; [|apply nth_error_None in E; lia].
    destruct (brel_item open b _ H) as [I V]. destruct (prev_brel open b _ H) as [N [C _]]. cbn in N.
    assert (FS : firstn (S (S n)) (contents open b) = firstn (S n) (contents open b) ++ [e]).
    { clear - E. revert E. generalize (contents open b) as l. generalize (S n) as k. clear n. intro k. induction k as [|k IH]; intros [|y l] E; cbn in *; try easy; [congruence|].
      rewrite <- IH by auto. reflexivity. }
    rewrite FS, rev_app_distr. cbn [rev app]. apply dl_cons; auto.
    + unfold bi_key, it_key. rewrite I. cbn [it_item pi_pos pi_items]. rewrite E. reflexivity.
    + unfold bi_value, it_value. rewrite I. cbn [it_item pi_pos pi_items]. rewrite E. reflexivity.
    + unfold scan_next. rewrite <- C. apply IH; auto. rewrite C. lia.
Qed.

(** Starting a scan delivers everything, in order or reversed. *)
Lemma scan_delivers open rv b : fresh b ->
  delivers open rv (scan_first open rv b) (if rv then rev (contents open b) else contents open b).
Proof.
  intro NE. unfold scan_first. destruct rv.
  - destruct (last_brel open b NE) as [R C]. unfold it_last in R. cbn [pi_items pi_pos] in R.
    destruct (contents open b) as [|e l] eqn:E.
    + eapply (exhausted open true); eauto.
    + rewrite <- E in *. assert (L : length (contents open b) - 1 < length (contents open (bi_last open b))) by (rewrite C, E; cbn; lia).
      assert (R' : brel open (bi_last open b) (PAt (length (contents open b) - 1))).
      { rewrite E in *. exact R. }
      pose proof (delivers_bwd open _ _ R' L) as D. rewrite C in D.
      rewrite firstn_all2 in D by (rewrite E; cbn; lia). exact D.
  - destruct (first_brel open b NE) as [R C]. unfold it_first in R. cbn [pi_items pi_pos] in R.
    destruct (contents open b) as [|e l] eqn:E.
    + eapply (exhausted open false); eauto.
    + rewrite <- E in *. assert (R' : brel open (bi_first open b) (PAt 0)) by (rewrite E in *; exact R).
      pose proof (delivers_fwd open (length l) _ 0 R') as D. rewrite C in D. apply D. rewrite E. cbn. lia.
Qed.

(** After First or Last, any sequence of moves sees what it would see on the
    concatenation. *)
Lemma moves_cursor open b0 mv0 mvs : fresh b0 -> mv0 = MFirst \/ mv0 = MLast ->
  let b := fold_left (fun b mv => bstep open mv b) (mv0 :: mvs) b0 in
  let p := fold_left (fun p mv => step mv p) (mv0 :: mvs) (PIter (contents open b0) PNone None) in
  it_item (bi_cur b) = it_item p /\ bi_valid b = it_valid p.
Proof.
  intros NE H0. cbn [fold_left].
  assert (GEN : forall mvs b p, brel open b (pi_pos p) -> contents open b = pi_items p ->
     let b' := fold_left (fun b mv => bstep open mv b) mvs b in
     let p' := fold_left (fun p mv => step mv p) mvs p in brel open b' (pi_pos p') /\ contents open b' = pi_items p').
  { clear. induction mvs as [|mv mvs IH]; intros b p R C; cbn [fold_left]; auto. apply IH.
    - destruct p as [l q e]. cbn [pi_pos pi_items] in *. subst l. rewrite (step_pos mv _ q e None).
      pose proof (brel_fresh open b q R) as NE. destruct mv; cbn [bstep step].
      + apply (first_brel open b NE).
      + apply (last_brel open b NE).
      + apply (next_brel open b q R).
      + apply (prev_brel open b q R).
    - pose proof (brel_fresh open b _ R) as NE. destruct mv; cbn [bstep step].
      + rewrite (proj2 (first_brel open b NE)), C. reflexivity.
      + rewrite (proj2 (last_brel open b NE)), C. reflexivity.
      + destruct (next_brel open b _ R) as [_ [-> _]]. rewrite C. destruct p as [l [] e]; reflexivity.
      + destruct (prev_brel open b _ R) as [_ [-> _]]. rewrite C. destruct p as [l [] e]; reflexivity. }
  assert (B0 : brel open (bstep open mv0 b0) (pi_pos (step mv0 (PIter (contents open b0) PNone None))) /\
               contents open (bstep open mv0 b0) = contents open b0).
  { destruct H0 as [->| ->]; cbn [bstep step]; [apply first_brel|apply last_brel]; auto. }
  destruct B0 as [B1 B2]. specialize (GEN mvs _ (step mv0 (PIter (contents open b0) PNone None)) B1).
  cbn zeta in GEN |- *. destruct GEN as [G1 G2].
  { rewrite B2. destruct H0 as [->| ->]; reflexivity. }
  destruct (brel_item open _ _ G1) as [I V]. rewrite I, V.
  destruct (fold_left (fun p mv => step mv p) mvs _) as [l q e] eqn:EF. cbn [pi_pos pi_items] in *.
  rewrite G2. split; reflexivity.
Qed.
