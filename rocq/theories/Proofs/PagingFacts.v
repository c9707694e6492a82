(** Pages of a changing table: C64. *)

From Coq Require Import List NArith ZArith Lia Bool Arith Sorting.Sorted Sorting.Permutation.
From Verif.Model Require Import Bytes Go Keys Pebble Index Table Scan Query.
From Verif.Spec Require Import KeySpec StoreSpec TableSpec ScanSpec QuerySpec PagingSpec.
From Verif.Proofs Require Import BytesFacts KeysFacts PebbleFacts TableFacts WriteFacts IterFacts ScanFacts ScanRows ScanProps ScanTop QueryFacts QueryProps.
Import ListNotations.

Lemma in_firstn {A} n (l : list A) x : In x (firstn n l) -> In x l.
Proof. intro H. rewrite <- (firstn_skipn n l). apply in_or_app; auto. Qed.

Lemma sorted_firstn {A} (R : A -> A -> Prop) n (l : list A) : StronglySorted R l -> StronglySorted R (firstn n l).
Proof.
  intro S. revert n. induction S as [|a l S IH FA]; intros [|n]; cbn; try constructor; auto.
  rewrite Forall_forall in *. intros x Hx. apply FA. apply in_firstn in Hx; auto.
Qed.

(** an element is on the page or behind all of it *)
Lemma on_or_behind {A} (R : A -> A -> Prop) n (l : list A) x : StronglySorted R l -> In x l ->
  In x (firstn n l) \/ forall y, In y (firstn n l) -> R y x.
Proof.
  intro S. revert n. induction S as [|a l S IH FA]; intros n Hx; [easy|]. destruct n as [|n]; [right; easy|].
  cbn [firstn]. destruct Hx as [->|Hx]; [left; left; auto|]. destruct (IH n Hx) as [H|H]; [left; right; auto|].
  right. intros y [<-|Hy]; auto. rewrite Forall_forall in FA. auto.
Qed.

Lemma last_in {A} (r : A) l : In (last l r) (r :: l).
Proof.
  destruct (exists_last (l := r :: l) ltac:(discriminate)) as [l1 [a E]].
  assert (last l r = a). { transitivity (last (r :: l) r); [destruct l; auto|]. rewrite E. apply last_last. }
  rewrite H, E. apply in_or_app. right. left. auto.
Qed.

(** all before the last are smaller *)
Lemma last_top {A} (R : A -> A -> Prop) (r : A) l : StronglySorted R (r :: l) ->
  forall y, In y (r :: l) -> y = last l r \/ R y (last l r).
Proof.
  intros S y Hy. destruct (exists_last (l := r :: l) ltac:(discriminate)) as [l1 [a E]].
  assert (EA : last l r = a). { transitivity (last (r :: l) r); [destruct l; auto|]. rewrite E. apply last_last. }
  rewrite EA. rewrite E in Hy, S. apply in_app_iff in Hy as [Hy|[<-|[]]]; auto. right. clear - S Hy.
  induction l1 as [|z l1 IH]; [easy|]. cbn in S. inversion S as [|? ? S1 FA]; subst. rewrite Forall_forall in FA.
  destruct Hy as [->|Hy]; auto. apply FA. apply in_or_app; right; left; auto.
Qed.

Section P.
  Context {T F : Type}.
  Variable tb : table T F.
  Hypothesis G : good_table tb.
  Variable ev : env T.
  Hypothesis EV : env_ok ev.
  Variable srt : (T -> T -> bool) -> list T -> list T.
  Hypothesis PRE : 0 < t_prefetch tb.
  Hypothesis QT : quiet ev.
  Notation sc := (schema_of tb).

  Variable w : nat -> moment T F.
  Variable q : query T.
  Variable n : N.
  Variable fuel : nat -> nat.
  Notation ix := (sindex_of (q_index q)).
  Hypothesis RD : forall i, reads tb (mo_db (w i)) (mo_fl (w i)) (mo_ob (w i)) (mo_rows (w i)).
  Hypothesis HI : In (q_index q) (primary_index :: t_indexes tb).
  Hypothesis EX : forall i, exact_selector tb (q_index q) (mo_rows (w i)) (q_sel q).
  Hypothesis NI : q_inter q = [].
  Hypothesis LS : q_less q = None.
  Hypothesis NA : q_after q = None.
  Hypothesis NR : q_rev q = false.
  Hypothesis OF : q_offset q = 0%N.
  Hypothesis HN : (0 < n < 2 ^ 63)%N.
  Hypothesis NP : forall ps, q_sel q = SPoints ps -> Byte.eqb (ix_id (q_index q)) x00 = false.
  Hypothesis SO : forall i l, selected tb (q_index q) (mo_rows (w i)) (q_sel q) l ->
    StronglySorted (pos_lt sc ix) l /\ length l <= fuel i.

  Let run i a := execute tb ev srt (fuel i) (mo_db (w i)) (mo_fl (w i)) (page (q_with_limit q n) a) (mo_ob (w i)).

  Let past (a : option T) (r : T) : Prop := match a with Some a => pos_lt sc ix a r | None => True end.

  (** what is known about the after row *)
  Let fitting (a : option T) : Prop :=
    match a with Some a => after_fits sc ix (Byte.eqb (ix_id (q_index q)) x00) a (q_sel q) | None => True end.

  Let rest (a : option T) (l : list T) := match a with Some a => rows_after sc ix a l | None => l end.

  Lemma sel_at i : exists l, selected tb (q_index q) (mo_rows (w i)) (q_sel q) l.
  Proof.
    destruct (query_plain tb G ev EV srt _ _ _ _ (RD i) PRE QT (q_with_limit q 0) HI (EX i) NI LS NA) as [l [S _]]; eauto.
    - cbn. rewrite OF. reflexivity.
    - reflexivity.
  Qed.

  Lemma one_page i a : fitting a -> forall l, selected tb (q_index q) (mo_rows (w i)) (q_sel q) l ->
    run i a = Ok (firstn (N.to_nat n) (keep (q_filter q) (rest a l))).
  Proof.
    intros FT l SL. destruct (SO i l SL) as [ST LE]. destruct HN as [N1 N2].
    assert (NZ : (n =? 0)%N = false) by (apply N.eqb_neq; lia). unfold run.
    destruct a as [a|]; cbn [page rest].
    - rewrite (query_after tb G ev EV srt _ _ _ _ (RD i) PRE QT (q_with_after (q_with_limit q n) a) a HI (EX i) NI LS eq_refl NR FT) with (l := l); auto.
      + cbn. rewrite OF, window0 by auto. reflexivity.
      + cbn. rewrite OF. reflexivity.
    - destruct (query_plain tb G ev EV srt _ _ _ _ (RD i) PRE QT (q_with_limit q n) HI (EX i) NI LS NA) as [l' [S V]]; auto; [cbn; rewrite OF; reflexivity|].
      assert (l' = l) by (eapply (selected_unique tb G _ _ _ _ (reads_cons _ _ _ _ _ (RD i))); eauto). subst l'.
      rewrite (V (fuel i)) by (left; rewrite length_dir; cbn [q_with_limit q_rev]; auto). cbn. rewrite OF, NR, window0 by auto. reflexivity.
  Qed.

  Lemma stored i l r : selected tb (q_index q) (mo_rows (w i)) (q_sel q) l -> In r l -> parts_fit ix r.
  Proof. intros SL H. eapply (fits tb G _ _ _ _ (RD i) (q_index q) HI). eapply listings_stored; eauto. Qed.

  Lemma keep_sorted f l : StronglySorted (pos_lt sc ix) l -> StronglySorted (pos_lt sc ix) (keep f l).
  Proof. destruct f; cbn; auto using sorted_filter. Qed.

  Lemma in_keep f (l : list T) r : In r (keep f l) <-> In r l /\ match f with Some g => g r = true | None => True end.
  Proof. destruct f; cbn; [apply filter_In|tauto]. Qed.

  Lemma in_rest a l r : In r (rest a l) <-> In r l /\ past a r.
  Proof.
    destruct a as [a|]; cbn; [|tauto]. unfold rows_after, pos_lt. rewrite filter_In. destruct (pos_cmp sc ix a r); intuition congruence.
  Qed.

  Lemma rest_sorted a l : StronglySorted (pos_lt sc ix) l -> StronglySorted (pos_lt sc ix) (rest a l).
  Proof. destruct a; cbn; auto. apply sorted_filter. Qed.

  Lemma trans a b c : parts_fit ix a -> parts_fit ix b -> parts_fit ix c -> pos_lt sc ix a b -> pos_lt sc ix b c -> pos_lt sc ix a c.
  Proof.
    intros A B C H1 H2. apply (pos_lt_iff tb (q_index q)) in H1, H2; auto. apply (pos_lt_iff tb (q_index q)); auto.
    eapply blt_trans; eauto.
  Qed.

  Let fit_opt (a : option T) := match a with Some a => parts_fit ix a | None => True end.

  Lemma fitting_fit a : fitting a -> fit_opt a.
  Proof. destruct a; cbn; auto. intro H. apply H. Qed.

  Lemma fitting_next i l r : selected tb (q_index q) (mo_rows (w i)) (q_sel q) l -> In r l -> fitting (Some r).
  Proof.
    intros SL H. cbn [fitting]. eapply (selected_after_fits tb G _ _ _ _ (RD i)); eauto.
    intro X. specialize (EX i). rewrite X in EX. exact EX.
  Qed.

  Lemma live k : forall i a, fitting a -> 
    (exists ps, live_pages run k i a = Ok ps /\
      StronglySorted (pos_lt sc ix) (concat ps) /\
      (forall r, In r (concat ps) -> past a r /\ parts_fit ix r) /\
      (forall j p r, nth_error ps j = Some p -> In r p -> asked tb q (mo_rows (w (i + j))) r) /\
      (forall p, In p ps -> 1 <= length p <= N.to_nat n) /\
      (forall r, past a r -> (forall j, j <= length ps -> asked tb q (mo_rows (w (i + j))) r) -> In r (concat ps))) \/
    (live_pages run k i a = Diverge /\ exists rows, k <= length rows /\ StronglySorted (pos_lt sc ix) rows /\
       forall r, In r rows -> past a r /\ parts_fit ix r /\ exists j, asked tb q (mo_rows (w (i + j))) r).
  Proof.
    induction k as [|k IH]; intros i a FT.
    - right. split; [reflexivity|]. exists []. split; [cbn; lia|]. split; [constructor|easy].
    - destruct (sel_at i) as [l SL]. destruct (SO i l SL) as [ST LE]. pose proof (one_page i a FT l SL) as RUN.
      cbn [live_pages]. rewrite RUN. destruct (firstn (N.to_nat n) (keep (q_filter q) (rest a l))) as [|r p] eqn:EP.
      + left. exists []. split; [reflexivity|]. split; [constructor|]. split; [easy|]. split; [intros [|]; easy|]. split; [easy|].
        intros r PA AS. exfalso. destruct (AS 0 (Nat.le_refl _)) as [l' [SL' Hr]]. rewrite Nat.add_0_r in SL'.
        assert (l' = l) by (eapply (selected_unique tb G _ _ _ _ (reads_cons _ _ _ _ _ (RD i))); eauto). subst l'.
        assert (X : In r (keep (q_filter q) (rest a l))).
        { apply in_keep in Hr. apply in_keep. rewrite in_rest. tauto. }
        destruct (N.to_nat n) eqn:EN; [lia|]. destruct (keep (q_filter q) (rest a l)); [easy|discriminate].
      + assert (ON : forall x, In x (r :: p) -> In x (keep (q_filter q) (rest a l))) by (intro x; rewrite <- EP; apply in_firstn).
        assert (SP : StronglySorted (pos_lt sc ix) (r :: p)) by (rewrite <- EP; apply sorted_firstn, keep_sorted, rest_sorted; auto).
        assert (LP : 1 <= length (r :: p) <= N.to_nat n) by (split; [cbn; lia|rewrite <- EP; apply firstn_le_length]).
        assert (PL : forall x, In x (r :: p) -> In x l /\ past a x /\ parts_fit ix x /\ asked tb q (mo_rows (w i)) x).
        { intros x Hx. apply ON in Hx. apply in_keep in Hx as [Hx Fx]. apply in_rest in Hx as [Hx Px].
          split; auto. split; auto. split; [eapply stored; eauto|]. exists l. split; auto. apply in_keep. auto. }
        set (z := last p r) in *. assert (HZ : In z (r :: p)) by apply last_in.
        destruct (PL z HZ) as [ZL [ZP [ZF _]]].
        assert (FZ : fitting (Some z)) by (eapply fitting_next; eauto).
        assert (PZ : forall x, past (Some z) x -> parts_fit ix x -> past a x).
        { intros x Hx Fx. destruct a as [a|]; cbn in *; auto. eapply (trans a z x); auto. apply FT. }
        assert (JN : forall rows, StronglySorted (pos_lt sc ix) rows -> (forall x, In x rows -> past (Some z) x /\ parts_fit ix x) ->
          StronglySorted (pos_lt sc ix) ((r :: p) ++ rows)).
        { intros rows SR HR. assert (TOP := last_top _ _ _ SP). fold z in TOP.
          assert (PF : forall x, In x (r :: p) -> parts_fit ix x) by (intros x Hx; apply PL; auto).
          clear - SP SR HR TOP PF ZF G.
          induction SP as [|y l S IHl FA]; cbn [app]; auto. constructor.
          - apply IHl; intros; [apply TOP|apply PF]; right; auto.
          - apply Forall_app. split; auto. rewrite Forall_forall. intros x Hx. destruct (HR x Hx) as [H1 H2]. change (pos_lt sc ix z x) in H1.
            destruct (TOP y (or_introl eq_refl)) as [E|H3]; [rewrite E; auto|]. apply (trans y z x); auto. apply PF. left; auto. }
        destruct (IH (S i) (Some z) FZ) as [[ps [E1 [E2 [E3 [E4 [E5 E6]]]]]]|[E1 [rows [E2 [E3 E4]]]]].
        * left. exists ((r :: p) :: ps). rewrite E1. split; [reflexivity|]. cbn [concat]. split; [apply JN; auto|].
          split. { intros x Hx. apply in_app_iff in Hx as [Hx|Hx]; [split; apply PL; auto|]. destruct (E3 x Hx) as [H1 H2]. auto. }
          split. { intros [|j] p' x E Hx; cbn in E.
            - assert (r :: p = p') by congruence. subst p'. rewrite Nat.add_0_r. apply PL; auto.
            - replace (i + S j) with (S i + j) by lia. eapply E4; eauto. }
          split. { intros p' [<-|Hp]; auto. }
          intros x PX AS. apply in_or_app.
          destruct (AS 0 (Nat.le_0_l _)) as [l' [SL' Hr]]. rewrite Nat.add_0_r in SL'.
          assert (l' = l) by (eapply (selected_unique tb G _ _ _ _ (reads_cons _ _ _ _ _ (RD i))); eauto). subst l'.
          assert (X : In x (keep (q_filter q) (rest a l))).
          { apply in_keep in Hr. apply in_keep. rewrite in_rest. tauto. }
          destruct (on_or_behind (pos_lt sc ix) (N.to_nat n) _ x (keep_sorted (q_filter q) _ (rest_sorted a l ST)) X) as [H|H].
          { left. rewrite <- EP. auto. }
          right. apply E6; [cbn; apply H; rewrite EP; auto|]. intros j Hj. replace (S i + j) with (i + S j) by lia. apply AS. cbn. lia.
        * right. rewrite E1. split; [reflexivity|]. exists ((r :: p) ++ rows). split; [rewrite app_length; cbn [length]; lia|].
          split; [apply JN; auto; intros x Hx; destruct (E4 x Hx) as [H1 [H2 _]]; auto|].
          intros x Hx. apply in_app_iff in Hx as [Hx|Hx].
          { destruct (PL x Hx) as [H1 [H2 [H3 H4]]]. split; auto. split; auto. exists 0. rewrite Nat.add_0_r. auto. }
          destruct (E4 x Hx) as [H1 [H2 [j H3]]]. split; auto. split; auto. exists (S j). replace (i + S j) with (S i + j) by lia. auto.
  Qed.

  Lemma sorted_nodup (l : list T) : StronglySorted (pos_lt sc ix) l -> NoDup l.
  Proof.
    induction 1 as [|a l S IH FA]; constructor; auto. intro H. rewrite Forall_forall in FA. specialize (FA a H).
    unfold pos_lt, pos_cmp in FA. unfold shortlex in FA. rewrite !Nat.compare_refl, !bcmp_refl in FA. discriminate.
  Qed.

  Lemma live_paging k ps : live_pages run k 0 None = Ok ps ->
    NoDup (concat ps) /\ StronglySorted (pos_lt sc ix) (concat ps) /\
    (forall i p, nth_error ps i = Some p -> 1 <= length p <= N.to_nat n /\ forall r, In r p -> asked tb q (mo_rows (w i)) r) /\
    (forall r, (forall i, i <= length ps -> asked tb q (mo_rows (w i)) r) -> In r (concat ps)).
  Proof.
    intro E. destruct (live k 0 None I) as [[ps' [E1 [E2 [E3 [E4 [E5 E6]]]]]]|[E1 _]]; [|congruence].
    assert (ps' = ps) by congruence. subst ps'. split; [apply sorted_nodup; auto|]. split; auto. split.
    - intros i p H. split; [apply E5; eapply nth_error_In; eauto|]. intros r Hr. apply (E4 i p r H Hr).
    - intros r H. apply E6; [exact I|auto].
  Qed.

  Lemma live_ends (U : list T) k : (forall i r, asked tb q (mo_rows (w i)) r -> In r U) -> length U < k ->
    exists ps, live_pages run k 0 None = Ok ps.
  Proof.
    intros HU LU. destruct (live k 0 None I) as [[ps [E1 _]]|[E1 [rows [E2 [E3 E4]]]]]; eauto. exfalso.
    assert (length rows <= length U); [|lia]. apply NoDup_incl_length; [apply sorted_nodup; auto|].
    intros r Hr. destruct (E4 r Hr) as [_ [_ [j H]]]. eapply HU; eauto.
  Qed.
End P.
