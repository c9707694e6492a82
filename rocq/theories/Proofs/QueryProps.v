(** Queries against the table contents: C27-C29. *)

From Coq Require Import List NArith ZArith Lia Bool Arith Sorting.Sorted Sorting.Permutation.
From Verif.Model Require Import Bytes Go Keys Pebble Index Table Scan Query.
From Verif.Spec Require Import KeySpec StoreSpec TableSpec ScanSpec QuerySpec.
From Verif.Proofs Require Import BytesFacts KeysFacts PebbleFacts TableFacts WriteFacts IterFacts ScanFacts ScanRows ScanProps ScanTop QueryFacts.
Import ListNotations.

Lemma combine_map {A B} (f : A -> B) (l : list A) : combine (map f l) l = map (fun x => (f x, x)) l.
Proof. induction l; cbn; congruence. Qed.

Lemma sorted_filter {A} (R : A -> A -> Prop) f (l : list A) : StronglySorted R l -> StronglySorted R (filter f l).
Proof.
  induction 1 as [|a l S IH FA]; cbn [filter]; [constructor|]. destruct (f a); auto. constructor; auto.
  rewrite Forall_forall in *. intros x Hx. apply filter_In in Hx as [Hx _]. auto.
Qed.

Lemma filter_all {A} f (l : list A) : (forall x, In x l -> f x = true) -> filter f l = l.
Proof. induction l as [|a l IH]; intro H; cbn; auto. rewrite H by (left; auto). f_equal. apply IH. intros; apply H; right; auto. Qed.

Lemma filter_none {A} f (l : list A) : (forall x, In x l -> f x = false) -> filter f l = [].
Proof. induction l as [|a l IH]; intro H; cbn; auto. rewrite H by (left; auto). apply IH. intros; apply H; right; auto. Qed.

Lemma filter_short {A} f (l : list A) : length (filter f l) <= length l.
Proof. induction l as [|a l IH]; cbn; auto. destruct (f a); cbn; lia. Qed.

Lemma keep_incl {A} f (l : list A) x : In x (keep f l) -> In x l.
Proof. destruct f; cbn; auto. intro H. apply filter_In in H. tauto. Qed.

Lemma keep_app {A} f (l l' : list A) : keep f (l ++ l') = keep f l ++ keep f l'.
Proof. destruct f; cbn; auto. apply filter_app. Qed.

Lemma pages_list {T} (run : option T -> res (list T)) n full : 0 < n ->
  (forall l1 a l2, full = l1 ++ a :: l2 -> run (Some a) = Ok (firstn n l2)) ->
  forall rest pre after fuel, full = pre ++ rest -> run after = Ok (firstn n rest) -> length rest < fuel ->
  pages run fuel after = Ok rest.
Proof.
  intros HN H rest. assert (LK : length rest <= length rest) by lia. revert LK. generalize (length rest) at 2 as k. intro k. revert rest.
  induction k as [|k IH]; intros rest LK pre after fuel E RUN LF.
  - destruct rest; [|cbn in LK; lia]. destruct fuel; [lia|]. cbn [pages]. rewrite RUN, firstn_nil. reflexivity.
  - destruct fuel as [|fuel]; [lia|]. cbn [pages]. rewrite RUN. destruct (firstn n rest) as [|r l] eqn:EF.
    { destruct n; [lia|]. destruct rest; [auto|discriminate]. }
    destruct (exists_last (l := r :: l) ltac:(discriminate)) as [l1 [a EL]].
    assert (EA : last l r = a).
    { change (last l r) with (last l r). transitivity (last (r :: l) r); [destruct l; auto|]. rewrite EL. apply last_last. }
    assert (ER : rest = (l1 ++ [a]) ++ skipn n rest) by (rewrite <- EL, <- EF; symmetry; apply firstn_skipn).
    rewrite EA. rewrite (IH (skipn n rest)) with (pre := pre ++ l1 ++ [a]).
    + f_equal. change (r :: l ++ skipn n rest) with ((r :: l) ++ skipn n rest). rewrite EL. auto.
    + rewrite skipn_length. lia.
    + rewrite <- app_assoc. rewrite <- ER. exact E.
    + apply (H (pre ++ l1)). rewrite E. rewrite ER at 1. rewrite <- !app_assoc. reflexivity.
    + rewrite skipn_length. destruct rest; [destruct n; discriminate|]. cbn [length] in *. lia.
Qed.

Section P.
  Context {T F : Type}.
  Variable tb : table T F.
  Hypothesis G : good_table tb.
  Variable ev : env T.
  Hypothesis EV : env_ok ev.
  Variable srt : (T -> T -> bool) -> list T -> list T.
  Variables (db : kv) (fl : F) (ob : optb) (m : tmap T).
  Hypothesis R : reads tb db fl ob m.
  Hypothesis PRE : 0 < t_prefetch tb.
  Hypothesis Q : quiet ev.
  Notation sc := (schema_of tb).
  Notation isin idx := (In idx (primary_index :: t_indexes tb)).

  Let LAW : lawful tb := good_lawful _ G.

  (** a scan with a steady callback *)
  Definition steady idx sel l : Prop :=
    forall rv W (f : W -> bytes -> prog W) fuel s, loads_steadily f -> within f (keyed sc (sindex_of idx) (dir rv l)) s fuel ->
      scan_index_for_each tb ev fuel db fl idx sel f rv ob s = visit f (keyed sc (sindex_of idx) (dir rv l)) s.

  Lemma opens_steady idx sel l : isin idx -> opens tb db ob idx sel l -> (forall r, In r l -> m (s_pk sc r) = Some r) -> steady idx sel l.
  Proof.
    intros [<-|HI] O ST rv W f fuel s SF LE.
    - apply (primary_opens tb G ev db fl ob m (reads_cons _ _ _ _ _ R) sel l O ST rv W f fuel s LE). apply Q.
    - apply (secondary_opens tb G ev EV db fl ob m (reads_ok _ _ _ _ _ R) (reads_rw _ _ _ _ _ R) (reads_cons _ _ _ _ _ R) idx sel l HI PRE O ST rv W f fuel s SF LE). apply Q.
  Qed.

  Lemma scan_steady idx sel : isin idx -> exact_selector tb idx m sel ->
    exists l, selected tb idx m sel l /\ (forall r, In r l -> m (s_pk sc r) = Some r) /\ steady idx sel l.
  Proof.
    intros HI EX. destruct (exact_opens tb G db fl ob m (reads_ok _ _ _ _ _ R) (reads_batch _ _ _ _ _ R) (reads_rw _ _ _ _ _ R) (reads_cons _ _ _ _ _ R) idx sel HI EX)
      as [l [S [O ST]]].
    exists l. split; auto. split; auto. apply opens_steady; auto.
  Qed.

  Lemma really_steady idx sel : isin idx -> short_sel (sindex_of idx) sel ->
    exists l, visits tb idx m sel l /\ (forall r, In r l -> m (s_pk sc r) = Some r) /\ steady idx sel l.
  Proof.
    intros HI EX. destruct (really_opens tb G db fl ob m (reads_ok _ _ _ _ _ R) (reads_batch _ _ _ _ _ R) (reads_rw _ _ _ _ _ R) (reads_cons _ _ _ _ _ R) idx sel HI EX)
      as [l [S [O ST]]].
    exists l. split; auto. split; auto. apply opens_steady; auto.
  Qed.

  Lemma keyed_combine ix (l : list T) : keyed sc ix l = combine (map (entry_key sc ix) l) l.
  Proof. rewrite combine_map. reflexivity. Qed.

  Lemma length_dir {A} rv (l : list A) : length (dir rv l) = length l.
  Proof. destruct rv; cbn; auto. apply rev_length. Qed.

  Lemma within_all' {W} (f : W -> bytes -> prog W) ix rv l s fuel : length l <= fuel -> within f (keyed sc ix (dir rv l)) s fuel.
  Proof. intro H. left. unfold keyed. rewrite map_length, length_dir. auto. Qed.

  (** C27 *)
  Lemma plain_steady q l : steady (q_index q) (q_sel q) l ->
    q_inter q = [] -> q_less q = None -> q_after q = None -> (q_offset q < 2 ^ 63)%N -> (q_limit q < 2 ^ 63)%N ->
    forall fuel, enough q (dir (q_rev q) l) fuel ->
      execute tb ev srt fuel db fl q ob = Ok (window (q_offset q) (q_limit q) (keep (q_filter q) (dir (q_rev q) l))).
  Proof.
    intros V NI LS NA HO HL fuel LE. unfold execute. rewrite NI. unfold execute_query. rewrite NA.
    rewrite (V _ _ _ _ _ (cb_steady tb q)), keyed_combine.
    2:{ destruct LE as [LE|[L1 L2]]; [left; unfold keyed; rewrite map_length; exact LE|right].
        rewrite keyed_combine, combine_firstn. apply visit_stops; auto; cbn [qs_count]; try lia.
        - rewrite !firstn_length, map_length. reflexivity.
        - left. auto. }
    destruct (plain_query_list tb srt q (map (entry_key sc (sindex_of (q_index q))) (dir (q_rev q) l)) (dir (q_rev q) l) (Qst [] 0 false false false false))
      as [s' [E1 E2]]; auto.
    - apply map_length.
    - left. auto.
    - rewrite E1. exact E2.
  Qed.

  Lemma query_plain q : isin (q_index q) -> exact_selector tb (q_index q) m (q_sel q) ->
    q_inter q = [] -> q_less q = None -> q_after q = None -> (q_offset q < 2 ^ 63)%N -> (q_limit q < 2 ^ 63)%N ->
    exists l, selected tb (q_index q) m (q_sel q) l /\
    forall fuel, enough q (dir (q_rev q) l) fuel ->
      execute tb ev srt fuel db fl q ob = Ok (window (q_offset q) (q_limit q) (keep (q_filter q) (dir (q_rev q) l))).
  Proof.
    intros HI EX NI LS NA HO HL. destruct (scan_steady _ _ HI EX) as [l [S [ST V]]]. exists l. split; auto. apply plain_steady; auto.
  Qed.

  Lemma query_plain_all q : isin (q_index q) -> short_sel (sindex_of (q_index q)) (q_sel q) ->
    q_inter q = [] -> q_less q = None -> q_after q = None -> (q_offset q < 2 ^ 63)%N -> (q_limit q < 2 ^ 63)%N ->
    exists l, visits tb (q_index q) m (q_sel q) l /\
    forall fuel, enough q (dir (q_rev q) l) fuel ->
      execute tb ev srt fuel db fl q ob = Ok (window (q_offset q) (q_limit q) (keep (q_filter q) (dir (q_rev q) l))).
  Proof.
    intros HI EX NI LS NA HO HL. destruct (really_steady _ _ HI EX) as [l [S [ST V]]]. exists l. split; auto. apply plain_steady; auto.
  Qed.

  (** C28, with order *)
  Definition sorted_rows (q : query T) less (l : list T) : list T := srt less (keep (q_filter q) (dir (q_rev q) l)).

  Lemma order_steady q less l : steady (q_index q) (q_sel q) l ->
    q_inter q = [] -> q_less q = Some less -> (q_offset q < 2 ^ 63)%N -> (q_limit q < 2 ^ 63)%N ->
    forall fuel, length l <= fuel ->
    execute tb ev srt fuel db fl q ob = Ok (window (q_offset q) (q_limit q)
      (match q_after q with Some a => drop_after tb a (sorted_rows q less l) | None => sorted_rows q less l end)).
  Proof.
    intros V NI LS HO HL fuel LE. unfold execute. rewrite NI. unfold execute_query. rewrite LS.
    replace (match q_after q with Some _ | _ => Ok (q_sel q) end) with (Ok (q_sel q)) by (destruct (q_after q); auto).
    rewrite (V _ _ _ _ _ (cb_steady tb q) (within_all' _ _ _ _ _ _ LE)), keyed_combine.
    destruct (order_query_list tb srt q less (map (entry_key sc (sindex_of (q_index q))) (dir (q_rev q) l)) (dir (q_rev q) l))
      as [s' [E1 E2]]; auto.
    + apply map_length.
    + unfold s0 in E1. rewrite E1. exact E2.
  Qed.

  Lemma query_order_eq q less : isin (q_index q) -> exact_selector tb (q_index q) m (q_sel q) ->
    q_inter q = [] -> q_less q = Some less -> (q_offset q < 2 ^ 63)%N -> (q_limit q < 2 ^ 63)%N ->
    forall l, selected tb (q_index q) m (q_sel q) l -> forall fuel, length l <= fuel ->
    execute tb ev srt fuel db fl q ob = Ok (window (q_offset q) (q_limit q)
      (match q_after q with Some a => drop_after tb a (sorted_rows q less l) | None => sorted_rows q less l end)).
  Proof.
    intros HI EX NI LS HO HL l SL. destruct (scan_steady _ _ HI EX) as [l' [S [ST V]]].
    assert (l' = l) by (eapply (selected_unique tb G db fl ob m (reads_cons _ _ _ _ _ R)); eauto). subst l'.
    apply order_steady; auto.
  Qed.

  Lemma ordered_steady q less l : sorts srt -> steady (q_index q) (q_sel q) l ->
    q_inter q = [] -> q_less q = Some less -> (q_offset q < 2 ^ 63)%N -> (q_limit q < 2 ^ 63)%N ->
    exists s a, ordered (Some less) (keep (q_filter q) (dir (q_rev q) l)) s /\ behind_opt sc (q_after q) s a /\
    forall fuel, length l <= fuel -> execute tb ev srt fuel db fl q ob = Ok (window (q_offset q) (q_limit q) a).
  Proof.
    intros SR V NI LS HO HL.
    exists (sorted_rows q less l), (match q_after q with Some a => drop_after tb a (sorted_rows q less l) | None => sorted_rows q less l end).
    split; [apply SR|]. split.
    - destruct (q_after q); cbn [behind_opt]; auto. apply drop_after_behind.
    - apply order_steady; auto.
  Qed.

  Lemma query_order q less : sorts srt -> isin (q_index q) -> exact_selector tb (q_index q) m (q_sel q) ->
    q_inter q = [] -> q_less q = Some less -> (q_offset q < 2 ^ 63)%N -> (q_limit q < 2 ^ 63)%N ->
    exists l s a, selected tb (q_index q) m (q_sel q) l /\
      ordered (Some less) (keep (q_filter q) (dir (q_rev q) l)) s /\ behind_opt sc (q_after q) s a /\
    forall fuel, length l <= fuel -> execute tb ev srt fuel db fl q ob = Ok (window (q_offset q) (q_limit q) a).
  Proof.
    intros SR HI EX NI LS HO HL. destruct (scan_steady _ _ HI EX) as [l [S [_ V]]].
    destruct (ordered_steady q less l SR V NI LS HO HL) as [s [a [A B]]]. exists l, s, a. auto.
  Qed.

  Lemma query_order_all q less : sorts srt -> isin (q_index q) -> short_sel (sindex_of (q_index q)) (q_sel q) ->
    q_inter q = [] -> q_less q = Some less -> (q_offset q < 2 ^ 63)%N -> (q_limit q < 2 ^ 63)%N ->
    exists l s a, visits tb (q_index q) m (q_sel q) l /\
      ordered (Some less) (keep (q_filter q) (dir (q_rev q) l)) s /\ behind_opt sc (q_after q) s a /\
    forall fuel, length l <= fuel -> execute tb ev srt fuel db fl q ob = Ok (window (q_offset q) (q_limit q) a).
  Proof.
    intros SR HI EX NI LS HO HL. destruct (really_steady _ _ HI EX) as [l [S [_ V]]].
    destruct (ordered_steady q less l SR V NI LS HO HL) as [s [a [A B]]]. exists l, s, a. auto.
  Qed.

  (** ** After without order *)

  Definition from_a (ix : sindex T) (a : T) (l : list T) : list T :=
    filter (fun r => match pos_cmp sc ix a r with Gt => false | _ => true end) l.

  Definition skip_eq (ix : sindex T) (a : T) (l : list T) : list T :=
    match l with r :: l' => match pos_cmp sc ix a r with Eq => l' | _ => l end | [] => [] end.

  Section Idx.
    Variable idx : index T.
    Hypothesis HI : isin idx.
    Notation ix := (sindex_of idx).
    Notation K := (entry_key sc ix).

    Lemma fits r : m (s_pk sc r) = Some r -> parts_fit ix r.
    Proof. intro H. eapply (stored_fits tb LAW idx HI); [exact (cons_rep _ _ _ _ (reads_cons _ _ _ _ _ R))|auto]. Qed.

    Lemma same_row a r : parts_fit ix a -> parts_fit ix r ->
      match key_decode (K r), key_decode (idx_key tb idx a) with
      | Ok row, Ok sel => beqb (k_index sel) (k_index row) && beqb (k_order sel) (k_order row) && beqb (k_pk sel) (k_pk row)
      | _, _ => false
      end = match pos_cmp sc ix a r with Eq => true | _ => false end.
    Proof.
      intros FA FR. unfold idx_key. rewrite (enc_eq tb LAW idx HI). rewrite (pos_cmp_eq tb idx) by auto.
      change (K r) with (layout (t_id tb) (si_id ix) (si_key ix r) (si_ord ix r) (s_pk sc r)).
      change (K a) with (layout (t_id tb) (si_id ix) (si_key ix a) (si_ord ix a) (s_pk sc a)).
      destruct FA as [FA1 FA2], FR as [FR1 FR2].
      rewrite !key_decode_layout by auto. cbn [k_index k_order k_pk].
      destruct (bcmp _ _) eqn:E.
      - apply bcmp_eq in E. apply layout_inj in E as [_ [_ [E1 [E2 E3]]]]; auto. rewrite E1, E2, E3, !beqb_refl. reflexivity.
      - destruct (beqb (si_key ix a) (si_key ix r)) eqn:B1, (beqb (si_ord ix a) (si_ord ix r)) eqn:B2, (beqb (s_pk sc a) (s_pk sc r)) eqn:B3; auto.
        apply beqb_eq in B1, B2, B3. rewrite B1, B2, B3, bcmp_refl in E. discriminate.
      - destruct (beqb (si_key ix a) (si_key ix r)) eqn:B1, (beqb (si_ord ix a) (si_ord ix r)) eqn:B2, (beqb (s_pk sc a) (s_pk sc r)) eqn:B3; auto.
        apply beqb_eq in B1, B2, B3. rewrite B1, B2, B3, bcmp_refl in E. discriminate.
    Qed.

    (** the first call of the callback takes the after row away *)
    Lemma first_call q a l : q_index q = idx -> q_after q = Some a -> q_less q = None -> parts_fit ix a ->
      (forall r, In r l -> parts_fit ix r) -> (q_offset q < 2 ^ 63)%N -> (q_limit q < 2 ^ 63)%N ->
      exists s', visit (query_cb tb q) (keyed sc ix l) (Qst [] 0 false false false false) = (s', Ok tt) /\
        finish_query tb srt q s' = Ok (window (q_offset q) (q_limit q) (keep (q_filter q) (skip_eq ix a l))).
    Proof.
      intros EI AF LS FA FR HO HL. set (s1 := Qst (T:=T) [] 0 true true false false).
      assert (GO : forall l', (q_after q <> None -> qs_after_applied s1 = true \/ l' = []) -> exists s', visit (query_cb tb q) (keyed sc ix l') s1 = (s', Ok tt) /\
        finish_query tb srt q s' = Ok (window (q_offset q) (q_limit q) (keep (q_filter q) l'))).
      { intros l' H. rewrite keyed_combine. apply plain_query_list; auto; [apply map_length|right; right; auto]. }
      destruct l as [|r l].
      - exists (Qst [] 0 false false false false). split; [reflexivity|]. unfold finish_query. rewrite LS, AF.
        cbn [qs_records qs_after_applied qs_offset_applied qs_limit_applied skip_eq]. change (drop_after tb a []) with (@nil T).
        rewrite apply_offset_eq, skipn_nil by auto. cbn [negb]. rewrite !andb_true_r.
        replace (if (0 <? q_offset q)%N then Ok [] else Ok []) with (Ok (@nil T)) by (destruct (0 <? q_offset q)%N; auto).
        rewrite apply_limit_eq, firstn_nil by auto. unfold window.
        replace (keep (q_filter q) []) with (@nil T) by (destruct (q_filter q); auto). rewrite skipn_nil, firstn_nil.
        destruct (0 <? q_limit q)%N, (q_limit q =? 0)%N; reflexivity.
      - assert (CB : query_cb tb q (Qst [] 0 false false false false) (K r) =
          if match pos_cmp sc ix a r with Eq => true | _ => false end then PRet s1 true None else query_cb tb q s1 (K r)).
        { unfold query_cb. unfold cb_after. rewrite AF, LS. cbn [qs_skipped]. rewrite EI. rewrite same_row by (auto; apply FR; left; auto).
          destruct (match pos_cmp sc ix a r with Eq => true | _ => false end); reflexivity. }
        cbn [keyed map]. rewrite visit_cons, CB. cbn [skip_eq]. destruct (pos_cmp sc ix a r) eqn:E.
        + cbn [answer]. apply GO. auto.
        + destruct (GO (r :: l)) as [s' [E1 E2]]; auto. exists s'. split; auto.
          cbn [keyed map] in E1. rewrite visit_cons in E1. exact E1.
        + destruct (GO (r :: l)) as [s' [E1 E2]]; auto. exists s'. split; auto.
          cbn [keyed map] in E1. rewrite visit_cons in E1. exact E1.
    Qed.

    Lemma from_a_le a l r : parts_fit ix a -> (forall x, In x l -> parts_fit ix x) ->
      (In r (from_a ix a l) <-> In r l /\ ble (K a) (K r)).
    Proof.
      intros FA FL. unfold from_a. rewrite filter_In. split; intros [H1 H2]; split; auto.
      - rewrite (pos_cmp_eq tb idx) in H2 by auto. unfold ble. intro X. rewrite X in H2. discriminate.
      - rewrite (pos_cmp_eq tb idx) by auto. unfold ble in H2. destruct (bcmp (K a) (K r)); auto.
    Qed.

    (** narrowing one selection *)
    Lemma narrow P P' a l : parts_fit ix a -> listing sc ix m P l ->
      (forall r, m (s_pk sc r) = Some r -> si_filter ix r = true -> (P' r <-> P r /\ ble (K a) (K r))) ->
      listing sc ix m P' (from_a ix a l).
    Proof.
      intros FA [S I] H. split; [apply sorted_filter; auto|]. intro r.
      rewrite from_a_le; auto; [|intros x Hx; apply I in Hx; apply fits; tauto].
      rewrite I. split.
      - intros [[A [B C]] D]. split; auto. split; auto. apply H; auto.
      - intros [A [B C]]. apply H in C; auto. tauto.
    Qed.

    Lemma narrow_all P a l : parts_fit ix a -> listing sc ix m P l ->
      (forall r, m (s_pk sc r) = Some r -> P r -> ble (K a) (K r)) -> from_a ix a l = l.
    Proof.
      intros FA [S I] H. apply filter_all. intros r Hr. apply I in Hr as [A [B C]].
      rewrite (pos_cmp_eq tb idx) by (auto; apply fits; auto). specialize (H r A C). unfold ble in H. destruct (bcmp (K a) (K r)); auto.
    Qed.

    Lemma narrow_none P a l : parts_fit ix a -> listing sc ix m P l ->
      (forall r, m (s_pk sc r) = Some r -> P r -> blt (K r) (K a)) -> from_a ix a l = [].
    Proof.
      intros FA [S I] H. apply filter_none. intros r Hr. apply I in Hr as [A [B C]].
      rewrite (pos_cmp_eq tb idx) by (auto; apply fits; auto). specialize (H r A C). unfold blt in H.
      rewrite bcmp_antisym, H. reflexivity.
    Qed.

    Lemma from_a_app a l l' : from_a ix a (l ++ l') = from_a ix a l ++ from_a ix a l'.
    Proof. apply filter_app. Qed.

    Lemma key_lt a p r : parts_fit ix a -> parts_fit ix p -> parts_fit ix r -> ble (K p) (K a) ->
      si_key ix a <> si_key ix p -> si_key ix r = si_key ix p -> blt (K r) (K a).
    Proof.
      intros FA FP FR H1 H2 H3. apply (pos_le_iff tb idx) in H1; auto. apply (pos_lt_iff tb idx); auto.
      unfold pos_le, pos_lt, pos_cmp in *. cbn [first_diff fold_right] in *. rewrite H3.
      destruct (shortlex (si_key ix p) (si_key ix a)) eqn:E; auto; [|easy].
      exfalso. apply H2. unfold shortlex in E. destruct (Nat.compare _ _); try discriminate. apply bcmp_eq in E. auto.
    Qed.

    (** the selector with after selects the rows from [a] on *)
    Lemma after_selector a sel l : after_fits sc ix (Byte.eqb (ix_id idx) x00) a sel -> exact_selector tb idx m sel ->
      selected tb idx m sel l ->
      exists sel', selector_with_after tb idx a sel = Ok sel' /\ exact_selector tb idx m sel' /\ selected tb idx m sel' (from_a ix a l).
    Proof.
      intros [FA AF] EX SL. unfold exact_selector, selected in *. destruct sel as [p|ps|lo hi|rs|]; cbn [selector_with_after]; try easy.
      - destruct AF as [EK LE]. exists (SPoint a). split; auto. cbn [exact_sel selections] in *. destruct EX as [FP EX].
        split; [split; auto; rewrite EK; auto|].
        apply one_listing in SL. rewrite <- (app_nil_r (from_a ix a l)). constructor; [|constructor].
        apply (narrow (from_point sc ix p)); auto. intros r Hr _. apply fits in Hr. unfold from_point. rewrite EK.
        rewrite !(pos_le_iff tb idx) by auto. apply (pos_le_iff tb idx) in LE; auto.
        split; [intros [A B]; split; auto; split; auto; eapply ble_trans; eauto|tauto].
      - destruct AF as [PR [p0 [IN0 CASE]]]. rewrite PR in *. cbn [exact_sel selections] in *. destruct EX as [NE EX].
        assert (X : forall ps l, (forall p, In p ps -> exact_point ix p) -> listings sc ix m (map (from_point sc ix) ps) l ->
          exists ps', points_after tb idx a ps = Ok ps' /\ (forall p, In p ps' -> exact_point ix p) /\
            listings sc ix m (map (from_point sc ix) ps') (from_a ix a l) /\
            ((exists p, In p ps /\ (pos_lt sc ix a p \/ si_key ix a = si_key ix p)) -> ps' <> [])).
        { clear PR p0 IN0 CASE NE EX SL l ps. induction ps as [|p ps IH]; intros l EX SL; inversion SL as [|P Ps l1 l2 L1 L2]; subst.
          - exists []. split; auto. split; auto. split; [constructor|]. intros [p [[] _]].
          - destruct (IH l2) as [ps' [E1 [E2 [E3 E4]]]]; [intros; apply EX; right; auto|auto|].
            destruct (EX p (or_introl eq_refl)) as [FP LP].
            cbn [points_after]. rewrite E1. unfold idx_key. rewrite !(enc_eq tb LAW idx HI).
            destruct (bltb (K a) (K p)) eqn:EL.
            + exists (p :: ps'). split; auto. apply bltb_lt in EL. split; [intros x [<-|Hx]; auto; apply EX; left; auto|].
              split; [|discriminate]. cbn [map]. rewrite from_a_app. constructor; auto.
              rewrite (narrow_all _ a l1 FA L1); auto. intros r Hr [_ HP]. apply fits in Hr. apply (pos_le_iff tb idx) in HP; auto.
              eapply ble_trans; [apply blt_le; exact EL|auto].
            + apply bltb_ge in EL.
              change (K a) with (layout (t_id tb) (si_id ix) (si_key ix a) (si_ord ix a) (s_pk sc a)).
              change (K p) with (layout (t_id tb) (si_id ix) (si_key ix p) (si_ord ix p) (s_pk sc p)).
              rewrite !layout_prefix, !key_prefix_of_layout by (apply FA || apply FP).
              destruct (beqb (prefix_layout _ _ (si_key ix a)) _) eqn:EP.
              * apply beqb_eq in EP. rewrite <- (app_nil_r (prefix_layout _ _ (si_key ix a))), <- (app_nil_r (prefix_layout _ _ (si_key ix p))) in EP.
                apply prefix_layout_inj_app in EP as [_ [_ [EK _]]]; [|apply FA|apply FP].
                exists (a :: ps'). split; auto. split; [intros x [<-|Hx]; auto; split; auto; rewrite EK; auto|].
                split; [|discriminate]. cbn [map]. rewrite from_a_app. constructor; auto.
                apply (narrow (from_point sc ix p)); auto. intros r Hr _. apply fits in Hr. unfold from_point. rewrite EK.
                rewrite !(pos_le_iff tb idx) by auto.
                split; [intros [A B]; split; auto; split; auto; eapply ble_trans; eauto|tauto].
              * assert (NK : si_key ix a <> si_key ix p). { intro X. rewrite X, beqb_refl in EP. discriminate. }
                exists ps'. split; auto. split; auto. split.
                -- rewrite from_a_app, (narrow_none _ a l1 FA L1); auto. intros r Hr [HK _]. apply fits in Hr. apply (key_lt a p r); auto.
                -- intros [x [[<-|Hx] HC]]; [|apply E4; exists x; auto]. exfalso. destruct HC as [HC|HC]; auto.
                   apply (pos_lt_iff tb idx) in HC; auto. apply blt_not_le in HC. auto. }
        destruct (X ps l EX SL) as [ps' [E1 [E2 [E3 E4]]]]. exists (SPoints ps'). rewrite E1. split; auto.
        split; [split; auto; apply E4; exists p0; auto|exact E3].
      - exists (SRange a hi). split; auto. cbn [exact_sel selections] in *. destruct EX as [FL EH]. split; [split; auto|].
        apply one_listing in SL. rewrite <- (app_nil_r (from_a ix a l)). constructor; [|constructor].
        apply (narrow (in_between sc ix lo hi)); auto. intros r Hr _. apply fits in Hr. unfold in_between.
        pose proof (proj1 EH) as FH. rewrite !(pos_le_iff tb idx) in * by auto.
        split; [intros [A B]; split; auto; split; auto; eapply ble_trans; eauto|tauto].
      - destruct AF as [lo0 [hi0 [IN0 LE0]]]. cbn [exact_sel selections] in *. destruct EX as [NE EX].
        set (B := fun r : list T => match r with [lo; hi] => in_between sc ix lo hi | _ => fun _ => False end) in *.
        assert (X : forall rs l, (forall r, In r rs -> exists lo hi, r = [lo; hi] /\ parts_fit ix lo /\ exact_end sc ix m hi) -> listings sc ix m (map B rs) l ->
          exists rs', ranges_after tb idx a rs = Ok rs' /\ (forall r, In r rs' -> exists lo hi, r = [lo; hi] /\ parts_fit ix lo /\ exact_end sc ix m hi) /\
            listings sc ix m (map B rs') (from_a ix a l) /\
            ((exists lo hi, In [lo; hi] rs /\ pos_le sc ix a hi) -> rs' <> [])).
        { clear lo0 hi0 IN0 LE0 NE EX SL l rs. induction rs as [|rg rs IH]; intros l EX SL; inversion SL as [|P Ps l1 l2 L1 L2]; subst.
          - exists []. split; auto. split; auto. split; [constructor|]. intros [lo [hi [[] _]]].
          - destruct (IH l2) as [rs' [E1 [E2 [E3 E4]]]]; [intros; apply EX; right; auto|auto|].
            destruct (EX rg (or_introl eq_refl)) as [lo [hi [-> [FL EH]]]]. pose proof (proj1 EH) as FH.
            cbn [ranges_after]. rewrite E1. unfold idx_key. rewrite !(enc_eq tb LAW idx HI). cbn [B] in L1.
            destruct (bltb (K a) (K lo)) eqn:EL.
            + exists ([lo; hi] :: rs'). split; auto. apply bltb_lt in EL. split; [intros x [<-|Hx]; auto; exists lo, hi; auto|].
              split; [|discriminate]. cbn [map B]. rewrite from_a_app. constructor; auto.
              rewrite (narrow_all _ a l1 FA L1); auto. intros r Hr [HP _]. apply fits in Hr. apply (pos_le_iff tb idx) in HP; auto.
              eapply ble_trans; [apply blt_le; exact EL|auto].
            + apply bltb_ge in EL. destruct (bleb (K a) (K hi)) eqn:EH2.
              * exists ([a; hi] :: rs'). split; auto. split; [intros x [<-|Hx]; auto; exists a, hi; auto|].
                split; [|discriminate]. cbn [map B]. rewrite from_a_app. constructor; auto.
                apply (narrow (in_between sc ix lo hi)); auto. intros r Hr _. apply fits in Hr. unfold in_between.
                rewrite !(pos_le_iff tb idx) by auto.
                split; [intros [A C]; split; auto; split; auto; eapply ble_trans; eauto|tauto].
              * apply bleb_gt in EH2. exists rs'. split; auto. split; auto. split.
                -- rewrite from_a_app, (narrow_none _ a l1 FA L1); auto. intros r Hr [_ HK]. apply fits in Hr.
                   apply (pos_le_iff tb idx) in HK; auto. eapply ble_lt_trans; eauto.
                -- intros [lo' [hi' [[E|Hx] HC]]]; [|apply E4; exists lo', hi'; auto]. exfalso.
                   assert (hi' = hi) by congruence. subst hi'. apply (pos_le_iff tb idx) in HC; auto. apply blt_not_le in EH2. auto. }
        destruct (X rs l EX SL) as [rs' [E1 [E2 [E3 E4]]]]. exists (SRanges rs'). rewrite E1. split; auto.
        split; [split; auto; apply E4; exists lo0, hi0; auto|exact E3].
    Qed.

    (** of an ascending list, only the rows strictly after [a] are left *)
    Lemma skip_from_after a l : parts_fit ix a -> (forall r, In r l -> parts_fit ix r) -> StronglySorted (pos_lt sc ix) l ->
      skip_eq ix a (from_a ix a l) = rows_after sc ix a l.
    Proof.
      intros FA FL. induction l as [|r l IH]; intro S; [reflexivity|]. inversion S as [|? ? S1 F1]; subst.
      rewrite Forall_forall in F1.
      assert (IH' : skip_eq ix a (from_a ix a l) = rows_after sc ix a l) by (apply IH; auto; intros; apply FL; right; auto).
      assert (FR : parts_fit ix r) by (apply FL; left; auto).
      assert (UP : pos_cmp sc ix a r <> Gt -> from_a ix a l = rows_after sc ix a l).
      { intro H. unfold from_a, rows_after. apply filter_ext_in. intros x Hx. specialize (F1 x Hx).
        assert (FX : parts_fit ix x) by (apply FL; right; auto). apply (pos_lt_iff tb idx) in F1; auto.
        rewrite (pos_cmp_eq tb idx) in * by auto. assert (Z : blt (K a) (K x)) by (eapply ble_lt_trans; [exact H|auto]).
        unfold blt in Z. rewrite Z. reflexivity. }
      unfold from_a, rows_after in *. cbn [filter]. destruct (pos_cmp sc ix a r) eqn:E.
      - cbn [skip_eq]. rewrite E. apply UP. discriminate.
      - cbn [skip_eq]. rewrite E. f_equal. apply UP. discriminate.
      - exact IH'.
    Qed.
  End Idx.

  Lemma query_after q a : isin (q_index q) -> exact_selector tb (q_index q) m (q_sel q) ->
    q_inter q = [] -> q_less q = None -> q_after q = Some a -> q_rev q = false ->
    after_fits sc (sindex_of (q_index q)) (Byte.eqb (ix_id (q_index q)) x00) a (q_sel q) ->
    (q_offset q < 2 ^ 63)%N -> (q_limit q < 2 ^ 63)%N ->
    forall l, selected tb (q_index q) m (q_sel q) l -> StronglySorted (pos_lt sc (sindex_of (q_index q))) l ->
    forall fuel, length l <= fuel ->
      execute tb ev srt fuel db fl q ob = Ok (window (q_offset q) (q_limit q) (keep (q_filter q) (rows_after sc (sindex_of (q_index q)) a l))).
  Proof.
    intros HI EX NI LS AF NR FIT HO HL l SL SO fuel LE.
    assert (ST : forall r, In r l -> parts_fit (sindex_of (q_index q)) r).
    { intros r Hr. apply (fits _ HI). eapply listings_stored; [exact SL|auto]. }
    destruct (after_selector _ HI a (q_sel q) l FIT EX SL) as [sel' [E1 [E2 E3]]].
    destruct (scan_steady _ sel' HI E2) as [l' [S' [_ V]]].
    assert (l' = from_a (sindex_of (q_index q)) a l).
    { eapply (selected_unique tb G db fl ob m (reads_cons _ _ _ _ _ R)); eauto. }
    subst l'. unfold execute. rewrite NI. unfold execute_query. rewrite AF, LS, E1, NR.
    rewrite (V false _ _ _ _ (cb_steady tb q)); [|apply within_all'; etransitivity; [|exact LE]].
    2:{ apply filter_short. }
    cbn [dir]. destruct (first_call _ HI q a (from_a (sindex_of (q_index q)) a l) eq_refl AF LS (proj1 FIT)) as [s' [E4 E5]]; auto.
    { intros r Hr. apply ST. unfold from_a in Hr. apply filter_In in Hr. tauto. }
    rewrite E4, E5. rewrite skip_from_after; auto. apply (proj1 FIT).
  Qed.

  (** ** Paging *)

  Lemma rows_after_at idx : isin idx -> forall l1 a l2, (forall r, In r (l1 ++ a :: l2) -> m (s_pk sc r) = Some r) ->
    StronglySorted (pos_lt sc (sindex_of idx)) (l1 ++ a :: l2) -> rows_after sc (sindex_of idx) a (l1 ++ a :: l2) = l2.
  Proof.
    intros HI l1 a l2 ST S. set (ix := sindex_of idx) in *.
    assert (FT : forall r, In r (l1 ++ a :: l2) -> parts_fit ix r) by (intros; apply (fits idx HI); auto).
    assert (FA : parts_fit ix a) by (apply FT; apply in_or_app; right; left; auto).
    unfold rows_after. rewrite filter_app. cbn [filter].
    assert (AA : pos_cmp sc ix a a = Eq) by (unfold ix; rewrite (pos_cmp_eq tb idx) by auto; apply bcmp_refl). rewrite AA.
    rewrite filter_none, filter_all; auto.
    - intros x Hx. assert (P : pos_lt sc ix a x).
      { clear - S Hx. induction l1 as [|y l1 IH]; cbn in S; inversion S as [|? ? S1 F1]; subst; auto. rewrite Forall_forall in F1. auto. }
      unfold pos_lt in P. rewrite P. reflexivity.
    - intros x Hx. assert (P : pos_lt sc ix x a).
      { clear - S Hx. induction l1 as [|y l1 IH]; [easy|]; cbn in S; inversion S as [|? ? S1 F1]; subst. rewrite Forall_forall in F1.
        destruct Hx as [->|Hx]; auto. apply F1. apply in_or_app; right; left; auto. }
      assert (FX : parts_fit ix x) by (apply FT; apply in_or_app; auto).
      apply (pos_lt_iff tb idx) in P; auto. unfold ix. rewrite (pos_cmp_eq tb idx) by auto. unfold blt in P.
      rewrite bcmp_antisym, P. reflexivity.
  Qed.

  Lemma keep_split f (l : list T) k1 a k2 : keep f l = k1 ++ a :: k2 -> exists l1 l2, l = l1 ++ a :: l2 /\ keep f l2 = k2.
  Proof.
    destruct f as [f|]; cbn [keep]; [|eauto]. revert k1. induction l as [|x l IH]; intros k1 E; cbn in E; [destruct k1; discriminate|].
    destruct (f x) eqn:EX.
    - destruct k1 as [|y k1]; cbn in E.
      + exists [], l. assert (x = a) by congruence. subst. split; auto. congruence.
      + destruct (IH k1) as [l1 [l2 [-> E2]]]; [congruence|]. exists (x :: l1), l2. auto.
    - destruct (IH k1 E) as [l1 [l2 [-> E2]]]. exists (x :: l1), l2. auto.
  Qed.

  (** a selected row fits as an after row *)
  Lemma selected_after_fits idx sel l a : isin idx -> (forall ps, sel = SPoints ps -> Byte.eqb (ix_id idx) x00 = false) ->
    sel <> SOther -> selected tb idx m sel l -> In a l -> after_fits sc (sindex_of idx) (Byte.eqb (ix_id idx) x00) a sel.
  Proof.
    intros HI NP NO SL IN. split; [apply (fits idx HI); eapply listings_stored; [exact SL|auto]|].
    unfold selected in SL. assert (X : exists P, In P (selections sc (sindex_of idx) (Byte.eqb (ix_id idx) x00) sel) /\ P a).
    { clear - SL IN. induction SL as [|P Ps l ls HL H IH]; [easy|]. apply in_app_iff in IN as [IN|IN].
      - exists P. split; [left; auto|]. apply HL in IN. tauto.
      - destruct (IH IN) as [Q0 [H1 H2]]. exists Q0. split; [right; auto|auto]. }
    destruct X as [P [X1 X2]]. destruct sel as [p|ps|lo hi|rs|]; cbn [selections] in X1.
    - destruct X1 as [<-|[]]. exact X2.
    - rewrite (NP ps eq_refl) in *. split; auto. apply in_map_iff in X1 as [p [<- Hp]]. exists p. split; auto. right. apply X2.
    - destruct X1 as [<-|[]]. apply X2.
    - apply in_map_iff in X1 as [rg [<- Hp]]. destruct rg as [|lo [|hi [|]]]; try easy. exists lo, hi. split; auto. apply X2.
    - easy.
  Qed.

  Lemma window0 {A} n (l : list A) : (n =? 0)%N = false -> window 0 n l = firstn (N.to_nat n) l.
  Proof. intro H. unfold window. rewrite H. reflexivity. Qed.

  Lemma paging_plain q n : isin (q_index q) -> exact_selector tb (q_index q) m (q_sel q) ->
    q_inter q = [] -> q_less q = None -> q_after q = None -> q_rev q = false -> q_offset q = 0%N ->
    (0 < n < 2 ^ 63)%N -> (forall ps, q_sel q = SPoints ps -> Byte.eqb (ix_id (q_index q)) x00 = false) ->
    forall l, selected tb (q_index q) m (q_sel q) l -> StronglySorted (pos_lt sc (sindex_of (q_index q))) l ->
    forall fuel, length l <= fuel ->
      execute tb ev srt fuel db fl (q_with_limit q 0) ob = Ok (keep (q_filter q) l) /\
      pages (fun a => execute tb ev srt fuel db fl (page (q_with_limit q n) a) ob) (S (length l)) None = Ok (keep (q_filter q) l).
  Proof.
    intros HI EX NI LS NA NR OF [N1 N2] NP l SL SO fuel LE.
    assert (NZ : (n =? 0)%N = false) by (apply N.eqb_neq; lia).
    assert (PL : forall lim, (lim < 2 ^ 63)%N -> execute tb ev srt fuel db fl (q_with_limit q lim) ob = Ok (window 0 lim (keep (q_filter q) l))).
    { intros lim HL. destruct (query_plain (q_with_limit q lim) HI EX NI LS NA) as [l' [S V]]; auto; [cbn; rewrite OF; reflexivity|].
      cbn [q_with_limit q_index q_sel] in S. assert (l' = l) by (eapply (selected_unique tb G db fl ob m (reads_cons _ _ _ _ _ R)); eauto). subst l'.
      rewrite (V fuel) by (left; rewrite length_dir; auto). cbn. rewrite OF, NR. reflexivity. }
    split; [rewrite PL; [reflexivity|lia]|].
    assert (ST : forall r, In r l -> m (s_pk sc r) = Some r) by (eapply listings_stored; exact SL).
    eapply (pages_list _ (N.to_nat n) (keep (q_filter q) l)) with (pre := []); [lia| |reflexivity| |].
    - intros k1 a k2 E. destruct (keep_split _ _ _ _ _ E) as [l1 [l2 [E1 E2]]]. cbn [page].
      rewrite (query_after (q_with_after (q_with_limit q n) a) a HI EX NI LS eq_refl NR) with (l := l); auto; cbn.
      + rewrite OF, window0 by auto. f_equal. f_equal. rewrite <- E2. f_equal. subst l. apply rows_after_at; auto.
      + apply (selected_after_fits _ _ l); auto; [|subst l; apply in_or_app; right; left; auto].
        intro X. rewrite X in EX. exact EX.
      + rewrite OF. reflexivity.
    - cbn [page]. rewrite PL, window0 by auto. reflexivity.
    - assert (length (keep (q_filter q) l) <= length l) by (destruct (q_filter q); cbn; auto using filter_short). lia.
  Qed.

  Lemma after_rec_at a l1 r l2 : s_pk sc r = s_pk sc a -> (forall x, In x l1 -> s_pk sc x <> s_pk sc a) -> drop_after tb a (l1 ++ r :: l2) = l2.
  Proof.
    intros E H. unfold drop_after. assert (X : after_rec tb a (l1 ++ r :: l2) = Some l2); [|rewrite X; auto].
    induction l1 as [|x l1 IH]; cbn [app after_rec].
    - change (t_pk tb (new_kb []) a) with (s_pk sc a). change (t_pk tb (new_kb []) r) with (s_pk sc r). rewrite E, beqb_refl. reflexivity.
    - change (t_pk tb (new_kb []) a) with (s_pk sc a). change (t_pk tb (new_kb []) x) with (s_pk sc x).
      destruct (beqb (s_pk sc a) (s_pk sc x)) eqn:B; [|apply IH; intros; apply H; right; auto].
      apply beqb_eq in B. exfalso. apply (H x); [left; auto|auto].
  Qed.

  Lemma paging_order q less n : sorts srt -> isin (q_index q) -> exact_selector tb (q_index q) m (q_sel q) ->
    q_inter q = [] -> q_less q = Some less -> q_after q = None -> q_offset q = 0%N -> (0 < n < 2 ^ 63)%N ->
    forall l, selected tb (q_index q) m (q_sel q) l -> NoDup (map (s_pk sc) l) ->
    exists s, ordered (Some less) (keep (q_filter q) (dir (q_rev q) l)) s /\
    forall fuel, length l <= fuel ->
      execute tb ev srt fuel db fl (q_with_limit q 0) ob = Ok s /\
      pages (fun a => execute tb ev srt fuel db fl (page (q_with_limit q n) a) ob) (S (length l)) None = Ok s.
  Proof.
    intros SR HI EX NI LS NA OF [N1 N2] l SL ND. exists (sorted_rows q less l). split; [apply SR|]. intros fuel LE.
    assert (NZ : (n =? 0)%N = false) by (apply N.eqb_neq; lia).
    assert (PM : Permutation (sorted_rows q less l) (keep (q_filter q) (dir (q_rev q) l))) by apply SR.
    assert (NDS : NoDup (map (s_pk sc) (sorted_rows q less l))).
    { eapply Permutation_NoDup; [symmetry; apply Permutation_map; exact PM|].
      assert (X : NoDup (map (s_pk sc) (dir (q_rev q) l))).
      { destruct (q_rev q); cbn [dir]; auto. rewrite map_rev. eapply Permutation_NoDup; [apply Permutation_rev|auto]. }
      destruct (q_filter q) as [f|]; cbn [keep]; auto. clear - X. induction (dir (q_rev q) l) as [|x k IH]; cbn in *; auto.
      inversion X as [|? ? X1 X2]; subst. destruct (f x); auto. cbn. constructor; auto. intro H. apply X1.
      apply in_map_iff in H as [y [E Hy]]. apply filter_In in Hy as [Hy _]. rewrite <- E. apply in_map; auto. }
    split; [rewrite (query_order_eq (q_with_limit q 0) less) with (l := l); auto; cbn; [rewrite OF, NA; reflexivity|rewrite OF; reflexivity|reflexivity]|].
    eapply (pages_list _ (N.to_nat n) (sorted_rows q less l)) with (pre := []); [lia| |reflexivity| |].
    - intros k1 a k2 E. cbn [page]. rewrite (query_order_eq (q_with_after (q_with_limit q n) a) less) with (l := l); auto; cbn; [|rewrite OF; reflexivity].
      rewrite OF, window0 by auto. f_equal. f_equal.
      change (sorted_rows (q_with_after (q_with_limit q n) a) less l) with (sorted_rows q less l). rewrite E. apply after_rec_at; auto.
      rewrite E, map_app in NDS. cbn in NDS. apply NoDup_remove_2 in NDS. intros x Hx X. apply NDS. apply in_or_app. left.
      apply in_map_iff. exists x. auto.
    - cbn [page]. rewrite (query_order_eq (q_with_limit q n) less) with (l := l); auto; cbn; [|rewrite OF; reflexivity].
      rewrite OF, NA, window0 by auto. reflexivity.
    - rewrite (Permutation_length PM). assert (length (keep (q_filter q) (dir (q_rev q) l)) <= length l).
      { rewrite <- (length_dir (q_rev q) l). destruct (q_filter q); cbn; auto using filter_short. } lia.
  Qed.

  (** the rows of one selection are ascending *)
  Lemma single_ascending idx sel l : selected tb idx m sel l ->
    match sel with SPoint _ | SRange _ _ => True | _ => False end -> StronglySorted (pos_lt sc (sindex_of idx)) l.
  Proof. destruct sel; try easy; intros S _; apply one_listing in S; apply S. Qed.

  Lemma ascending_nodup idx l : isin idx -> (forall r, In r l -> m (s_pk sc r) = Some r) ->
    StronglySorted (pos_lt sc (sindex_of idx)) l -> NoDup (map (s_pk sc) l).
  Proof.
    intros HI ST S. induction S as [|a l S IH FA]; cbn; constructor; auto.
    - intro H. apply in_map_iff in H as [x [E Hx]]. rewrite Forall_forall in FA. specialize (FA x Hx).
      assert (x = a). { pose proof (ST x (or_intror Hx)) as H1. pose proof (ST a (or_introl eq_refl)) as H2. change (s_pk sc x = s_pk sc a) in E. congruence. }
      subst x. pose proof (fits idx HI a (ST a (or_introl eq_refl))) as F0.
      apply (pos_lt_iff tb idx) in FA; auto. unfold blt in FA. rewrite bcmp_refl in FA. discriminate.
    - apply IH. intros; apply ST; right; auto.
  Qed.

  Lemma single_selection idx sel l : isin idx -> selected tb idx m sel l ->
    match sel with SPoint _ | SRange _ _ => True | _ => False end ->
    StronglySorted (pos_lt sc (sindex_of idx)) l /\ NoDup (map (s_pk sc) l).
  Proof.
    intros HI SL K. pose proof (single_ascending idx sel l SL K) as S. split; auto.
    apply (ascending_nodup idx l HI); auto. eapply listings_stored. exact SL.
  Qed.
End P.

(** ** Chains of builder calls *)
Lemma settled_snoc {T A} (pick : qcall T -> option A) d l x c : settled pick d l x ->
  settled pick d (l ++ [c]) (match pick c with Some y => y | None => x end).
Proof.
  intros H. destruct (pick c) as [y|] eqn:P.
  - left. exists l, c, []. auto.
  - destruct H as [(l1 & c0 & l2 & -> & P0 & N)|[N ->]].
    + left. exists l1, c0, (l2 ++ [c]). split; [now rewrite <- app_assoc|]. split; [exact P0|]. apply Forall_app. auto.
    + right. split; [|reflexivity]. apply Forall_app. auto.
Qed.

Lemma builder_chain {T F} (tb : table T F) (l : list (qcall T)) : let q := fold_left build l (new_query tb) in
  settled pick_with (primary_index, SPoint (t_empty tb)) l (q_index q, q_sel q) /\
  settled pick_filter None l (q_filter q) /\ settled pick_order None l (q_less q) /\
  settled pick_offset 0%N l (q_offset q) /\ settled pick_limit 0%N l (q_limit q) /\ settled pick_after None l (q_after q) /\
  q_rev q = Nat.odd (reverses l) /\ q_inter q = intersected l.
Proof.
  induction l as [|c l IH] using rev_ind; cbv zeta.
  - repeat split; try (right; split; [constructor|reflexivity]).
  - cbv zeta in IH. rewrite fold_left_app. cbn [fold_left]. set (q := fold_left build l (new_query tb)) in *.
    destruct IH as (A & B & C & D & E & G & R & I).
    assert (R' : reverses (l ++ [c]) = reverses l + match c with QReverse => 1 | _ => 0 end).
    { unfold reverses. rewrite filter_app, app_length. now destruct c. }
    assert (I' : intersected (l ++ [c]) = intersected l ++ match c with QInter qs => qs | _ => [] end).
    { unfold intersected. rewrite map_app, concat_app. cbn. now rewrite app_nil_r. }
    rewrite R', I', <- I.
    pose proof (settled_snoc _ _ _ _ c A) as A1. pose proof (settled_snoc _ _ _ _ c B) as B1. pose proof (settled_snoc _ _ _ _ c C) as C1.
    pose proof (settled_snoc _ _ _ _ c D) as D1. pose proof (settled_snoc _ _ _ _ c E) as E1. pose proof (settled_snoc _ _ _ _ c G) as G1.
    destruct c; cbn in *; rewrite ?Nat.add_0_r, ?app_nil_r; repeat (split; [assumption|]); auto.
    rewrite R, Nat.add_1_r, Nat.odd_succ, <- Nat.negb_odd. auto.
Qed.
