(** Queries without Intersects while the table changes: C80. *)

From Coq Require Import List NArith ZArith Lia Bool Arith Sorting.Sorted Sorting.Permutation.
From Verif.Model Require Import Bytes Go Keys Pebble Index Table Scan LiveScan Query LiveQuery.
From Verif.Spec Require Import KeySpec StoreSpec TableSpec ScanSpec QuerySpec LiveScanSpec LiveQuerySpec.
From Verif.Proofs Require Import BytesFacts KeysFacts PebbleFacts TableFacts WriteFacts ReadFacts IterFacts ScanFacts ScanRows ScanProps ScanTop QueryFacts QueryProps PagingFacts LiveIter LiveFacts.
Import ListNotations.

(** ** The callback on lists of rows *)
Section Lists.
  Context {T F : Type}.
  Variable tb : table T F.
  Variable srt : (T -> T -> bool) -> list T -> list T.
  Notation sc := (schema_of tb).
  Notation cb := (query_cb tb).

  Lemma visit_runs q keys : forall l s, length keys = length l -> q_less q = None -> idle q s ->
    (q_offset q + q_limit q < 2 ^ 64)%N ->
    ((0 < q_limit q)%N -> (qs_count s + N.of_nat (length (keep (q_filter q) l)) < q_offset q + q_limit q)%N) ->
    exists s', visit_go (cb q) (combine keys l) s = inr s'.
  Proof.
    induction keys as [|k keys IH]; intros [|r l] s LEN LS ID NW LT; try discriminate; cbn [combine visit_go]; [eauto|].
    unfold query_cb at 1. rewrite idle_after by auto. rewrite LS. injection LEN as LEN.
    set (kp := match q_filter q with Some f => f r | None => true end).
    assert (KEEP : length (keep (q_filter q) (r :: l)) = (if kp then 1 else 0) + length (keep (q_filter q) l)).
    { unfold kp, keep. destruct (q_filter q) as [f|]; [cbn [filter]; destruct (f r)|]; reflexivity. }
    rewrite KEEP in LT.
    destruct (match q_filter q with Some _ => false | None => (qs_count s <? q_offset q)%N end) eqn:ED.
    - cbn [answer]. apply IH; auto. intro HL. specialize (LT HL). cbn [qs_count]. destruct (q_filter q); try discriminate. cbn [kp] in LT. lia.
    - cbn [answer]. unfold cb_record. rewrite LS. fold kp. destruct (N.ltb_spec 0 (q_limit q)) as [HL|HL].
      + specialize (LT HL). rewrite N.mod_small by auto. cbn [answer].
        destruct (N.ltb_spec (if kp then qs_count s + 1 else qs_count s)%N (q_offset q + q_limit q)) as [HC|HC].
        * apply IH; auto. intros _. cbn [qs_count]. destruct kp; lia.
        * destruct kp; lia.
      + cbn [answer]. apply IH; auto. lia.
  Qed.

  Lemma order_runs q less keys : forall l s, length keys = length l -> q_less q = Some less ->
    exists s', visit_go (cb q) (combine keys l) s = inr s'.
  Proof.
    induction keys as [|k keys IH]; intros [|r l] s LEN LS; try discriminate; cbn [combine visit_go]; [eauto|].
    unfold query_cb at 1. rewrite idle_after by (right; left; rewrite LS; discriminate).
    rewrite LS. replace (match q_filter q with Some _ | _ => false end) with false by (destruct (q_filter q); auto).
    cbn [answer]. unfold cb_record. rewrite LS. cbn [answer]. apply IH; auto.
  Qed.

  Definition enough_rows (q : query T) (rows : list T) : Prop :=
    (0 < q_limit q)%N /\ (q_offset q + q_limit q <= N.of_nat (length (keep (q_filter q) rows)))%N.

  Lemma combine_cut {A B} (keys : list A) : forall rows : list B, length rows <= length keys -> combine keys rows = combine (firstn (length rows) keys) rows.
  Proof. induction keys as [|k keys IH]; intros [|r rows] LE; cbn in *; try lia; auto. f_equal. apply IH. lia. Qed.

  (** the query without order, when the rows of [keys] were read up to a row that is gone *)
  Lemma plain_answer q keys rows ok s : length rows <= length keys -> q_less q = None -> idle q s ->
    qs_records s = [] -> qs_count s = 0%N -> qs_offset_applied s = false -> qs_limit_applied s = false ->
    (q_after q <> None -> qs_after_applied s = true) -> (q_offset q < half)%N -> (q_limit q < half)%N ->
    (ok = true \/ enough_rows q rows ->
      conclude tb srt q (outcome (cb q) keys rows ok s) = Ok (window (q_offset q) (q_limit q) (keep (q_filter q) rows))) /\
    (ok = false -> ~ enough_rows q rows -> conclude tb srt q (outcome (cb q) keys rows ok s) = Err ENotFound).
  Proof.
    intros LEN LS ID R0 C0 O0 L0 AF HO HL.
    assert (NW : (q_offset q + q_limit q < 2 ^ 64)%N). { unfold half in *. change (2 ^ 64)%N with (2 ^ 63 + 2 ^ 63)%N. lia. }
    unfold outcome. rewrite (combine_cut keys rows LEN). set (ks := firstn (length rows) keys).
    assert (LK : length ks = length rows) by (unfold ks; rewrite firstn_length; lia).
    destruct (plain_query_list tb srt q ks rows s LK LS ID R0 C0 O0 L0) as [s' [E1 E2]]; auto.
    unfold visit in E1.
    assert (DEC : enough_rows q rows \/ ~ enough_rows q rows).
    { unfold enough_rows. destruct (N.ltb_spec 0 (q_limit q)), (N.leb_spec (q_offset q + q_limit q) (N.of_nat (length (keep (q_filter q) rows)))); tauto || (right; lia). }
    split.
    - intros CASE. destruct (visit_go (cb q) (combine ks rows) s) as [o|s1] eqn:EV.
      + subst o. exact E2.
      + injection E1 as ->. destruct CASE as [->|[H1 H2]]; [exact E2|].
        destruct (visit_stops tb q ks rows s LK LS ID H1 NW) as [o EO]; rewrite ?C0; try lia. rewrite EO in EV. discriminate.
    - intros -> NE. destruct (visit_runs q ks rows s LK LS ID NW) as [s1 EV].
      { intro H1. rewrite C0. unfold enough_rows in NE. lia. }
      rewrite EV. reflexivity.
  Qed.

  Lemma order_answer q less keys rows ok : sorts srt -> length rows <= length keys -> q_less q = Some less ->
    (q_offset q < half)%N -> (q_limit q < half)%N ->
    answered sc q rows ok (conclude tb srt q (outcome (cb q) keys rows ok (Qst [] 0 false false false false))).
  Proof.
    intros SR LEN LS HO HL. unfold outcome. rewrite (combine_cut keys rows LEN). set (ks := firstn (length rows) keys).
    assert (LK : length ks = length rows) by (unfold ks; rewrite firstn_length; lia).
    destruct (order_query_list tb srt q less ks rows LK LS HO HL) as [s' [E1 E2]].
    destruct (order_runs q less ks rows (Qst [] 0 false false false false) LK LS) as [s1 EV].
    unfold visit in E1. change s0 with (Qst (T:=T) [] 0 false false false false) in E1. rewrite EV in E1. injection E1 as ->. rewrite EV. destruct ok.
    - cbn [conclude]. rewrite E2. replace (q_offset q) with (left_over q) by (unfold left_over; rewrite LS; destruct (q_filter q); auto).
      destruct (q_after q) as [a|] eqn:EA.
      + apply aw_done with (s := srt less (keep (q_filter q) rows)); auto; rewrite LS; [apply SR|]. rewrite EA. cbn [behind_opt]. apply drop_after_behind.
      + apply aw_done with (s := srt less (keep (q_filter q) rows)); auto; rewrite LS; [apply SR|]. rewrite EA. reflexivity.
    - cbn [conclude]. apply aw_lost; auto. intros [X _]. rewrite LS in X. discriminate.
  Qed.

  (** the rows passed over are behind the window *)
  Lemma window_ahead q d out : (length d < ahead q -> out = []) -> q_less q = None ->
    window (q_offset q) (q_limit q) (keep (q_filter q) (firstn (ahead q) d ++ out)) = window (left_over q) (q_limit q) (keep (q_filter q) out) /\
    (enough_rows q (firstn (ahead q) d ++ out) <-> served q out).
  Proof.
    intros SH LS. unfold enough_rows, served, ahead, left_over in *. rewrite LS in *. destruct (q_filter q) as [f|].
    - cbn [firstn app]. tauto.
    - cbn [keep]. destruct (Nat.le_gt_cases (N.to_nat (q_offset q)) (length d)) as [LE|GT].
      + unfold window. rewrite app_length, firstn_length, Nat.min_l by lia. split; [|split; [intros [X Y]; repeat split; auto; lia|intros [_ [X Y]]; split; auto; lia]].
        rewrite skipn_app, firstn_length, Nat.min_l, Nat.sub_diag by lia. rewrite (skipn_all2 (firstn _ d)) by (rewrite firstn_length; lia). reflexivity.
      + rewrite (SH GT), app_nil_r, firstn_all2 by lia. unfold window. rewrite skipn_all2 by lia. cbn [length N.of_nat N.to_nat skipn]. split; [reflexivity|].
        split; [intros [X Y]; lia|intros [_ [X Y]]; lia].
  Qed.

  (** from an idle start, with the rows before the offset passed over *)
  Lemma plain_answered q keys d out ok s : length d = length keys -> length out <= length d - ahead q -> q_less q = None -> idle q s ->
    qs_records s = [] -> qs_count s = 0%N -> qs_offset_applied s = false -> qs_limit_applied s = false ->
    (q_after q <> None -> qs_after_applied s = true) -> (q_offset q < half)%N -> (q_limit q < half)%N ->
    answered sc q out ok (conclude tb srt q (outcome (cb q) keys (firstn (ahead q) d ++ out) ok s)).
  Proof.
    intros LEN LO LS ID R0 C0 O0 L0 AF HO HL.
    destruct (window_ahead q d out) as [EW EN]; auto.
    { intro H. destruct out; auto. cbn in LO. lia. }
    destruct (plain_answer q keys (firstn (ahead q) d ++ out) ok s) as [A B]; auto.
    { rewrite app_length, firstn_length. lia. }
    assert (DEC : enough_rows q (firstn (ahead q) d ++ out) \/ ~ enough_rows q (firstn (ahead q) d ++ out)).
    { unfold enough_rows. generalize (length (keep (q_filter q) (firstn (ahead q) d ++ out))). intro x.
      destruct (N.ltb_spec 0 (q_limit q)), (N.leb_spec (q_offset q + q_limit q) (N.of_nat x)); tauto || (right; lia). }
    assert (GO : ok = true \/ enough_rows q (firstn (ahead q) d ++ out) -> answered sc q out ok (conclude tb srt q (outcome (cb q) keys (firstn (ahead q) d ++ out) ok s))).
    { intro CASE. rewrite (A CASE), EW. apply aw_done with (s := keep (q_filter q) out); rewrite ?LS; [tauto|reflexivity|reflexivity]. }
    destruct DEC as [DEC|DEC]; [apply GO; auto|]. destruct ok; [apply GO; auto|].
    rewrite B by auto. apply aw_lost; auto. rewrite <- EN. auto.
  Qed.
End Lists.

(** ** The loops *)
Section P.
  Context {T F : Type}.
  Variable tb : table T F.
  Hypothesis G : good_table tb.
  Variable ev : env T.
  Hypothesis EV : env_ok ev.
  Hypothesis QT : quiet ev.
  Variable srt : (T -> T -> bool) -> list T -> list T.
  Variable w : nat -> look F.
  Variable ms : nat -> tmap T.
  Hypothesis CO : forall k, consistent tb (lk_db (w k)) (lk_fl (w k)) (ms k).
  Variable sees : nat -> bytes -> bytes -> nat.
  Variable gets : nat -> nat.
  Notation sc := (schema_of tb).
  Let LAW := good_lawful _ G.
  Notation cb := (query_cb tb).
  Notation op := (made_at w sees).
  Notation isin idx := (In idx (primary_index :: t_indexes tb)).
  Notation en idx r := (entry_key sc (sindex_of idx) r, val_of tb idx r).
  Notation FE := (fetched sc (t_prefetch tb) (fun n => ms (gets n))).
  Notation known l := (forall r, In r l -> exists k, ms k (s_pk sc r) = Some r).
  Notation START := (Qst (T:=T) [] 0 false false false false).

  (** past the offset every call loads its row *)
  Definition past (q : query T) (s : qst (T:=T)) : Prop :=
    idle q s /\ ((q_filter q = None /\ q_less q = None) -> (q_offset q <= qs_count s)%N).

  Lemma past_cb q s k : past q s -> query_cb tb q s k = PGet (fun v =>
      match v with
      | Ok r => let '(s', next) := cb_record q s r in PRet s' next None
      | Err e => PRet s false (Some e)
      | _ => PRet s false (Some EOther)
      end).
  Proof.
    intros [ID PA]. unfold query_cb. rewrite idle_after by auto.
    replace (match q_filter q, q_less q with None, None => (qs_count s <? q_offset q)%N | _, _ => false end) with false; auto.
    destruct (q_filter q) eqn:E1; auto. destruct (q_less q) eqn:E2; auto. symmetry. apply N.ltb_ge. auto.
  Qed.

  Lemma past_load q s k : past q s -> one_get (cb q s k) (past q).
  Proof.
    intro P. rewrite past_cb by auto. destruct P as [ID PA]. eexists. split; [reflexivity|]. intro r.
    assert (REC : idle q (fst (cb_record q s r)) /\ (qs_count s <= qs_count (fst (cb_record q s r)))%N).
    { unfold cb_record, idle in *. destruct (q_less q) eqn:EL; [|destruct (0 <? q_limit q)%N]; cbn; split;
        try (destruct (match q_filter q with Some f => f r | None => true end); lia);
        destruct ID as [I|[I|I]]; auto; try easy; right; left; discriminate. }
    destruct (cb_record q s r) as [s' nx] eqn:ER. cbn [fst] in REC. exists s', nx, None. split; [cbv beta iota; rewrite ER; reflexivity|].
    intros _ _. split; [tauto|]. intro X. specialize (PA X). lia.
  Qed.

  Lemma past_gives q s k e : past q s -> exists g c, cb q s k = PGet g /\ g (Err e) = PRet s c (Some e).
  Proof. intro P. rewrite past_cb by auto. eexists _, false. split; reflexivity. Qed.

  (** one round without loading *)
  Lemma idle_round rv q idx r L fuel n j it s s' : flows rv op j it (en idx r :: L) -> cb q s (entry_key sc (sindex_of idx) r) = PRet s' true None ->
    live_loop tb ev (cb q) rv w sees gets (S fuel) n j it s = live_loop tb ev (cb q) rv w sees gets fuel (S n) (S j) (scan_next (op j) rv it) s' /\
    flows rv op (S j) (scan_next (op j) rv it) L.
  Proof.
    intros D E. inversion D as [|? ? ? ? V EK _ D']; subst. split; auto. cbn [live_loop]. rewrite V, (proj1 QT), EK. cbn [fst]. rewrite E. cbn [run_prog].
    destruct fuel; reflexivity.
  Qed.

  Lemma skip_load rv q idx : In idx (t_indexes tb) -> 0 < t_prefetch tb -> q_filter q = None -> q_less q = None ->
    forall n d it fuel rnd j s, idle q s -> N.to_nat (q_offset q - qs_count s) = n -> (qs_count s <= q_offset q)%N -> known d ->
      flows rv op j it (map (fun r => en idx r) d) -> length d <= fuel ->
      forall out ok, FE (n + rnd) (skipn n d) (out, ok) ->
      live_loop tb ev (cb q) rv w sees gets fuel rnd j it s = outcome (cb q) (map (entry_key sc (sindex_of idx)) d) (firstn n d ++ out) ok s.
  Proof.
    intros HI PRE HF LS. induction n as [|n IH]; intros d it fuel rnd j s ID EN LE KN D LF out ok FT.
    - cbn [firstn app skipn Nat.add] in *. apply (load_flows tb G ev EV QT w ms CO sees gets rv (cb q) (past q) (past_load q) (past_gives q) idx HI PRE (length d) d it fuel rnd j s); auto.
      split; auto. intros _. lia.
    - destruct d as [|r d].
      + cbn [skipn] in FT. inversion FT; subst; try easy. inversion D as [? ? N _|]; subst. destruct fuel; cbn [live_loop]; rewrite N; reflexivity.
      + destruct fuel as [|fuel]; [cbn in LF; lia|]. cbn [skipn] in FT.
        set (s1 := Qst (qs_records s) (qs_count s + 1)%N (qs_skipped s) (qs_after_applied s) true (qs_limit_applied s)).
        assert (CB : cb q s (entry_key sc (sindex_of idx) r) = PRet s1 true None).
        { unfold query_cb. rewrite idle_after by auto. rewrite HF, LS, (proj2 (N.ltb_lt _ _)) by lia. reflexivity. }
        cbn [map] in D. destruct (idle_round rv q idx r _ fuel rnd j it s s1 D CB) as [E D2]. rewrite E.
        rewrite (IH d _ fuel (S rnd) (S j) s1) with (out := out) (ok := ok); auto.
        * unfold outcome. cbn [map firstn app combine visit_go]. rewrite CB. reflexivity.
        * cbn [s1 qs_count]. lia.
        * cbn [s1 qs_count]. lia.
        * intros x Hx. apply KN. right; auto.
        * cbn in LF. lia.
        * replace (n + S rnd) with (S n + rnd) by lia. exact FT.
  Qed.

  (** from an idle state that has counted nothing *)
  Lemma idle_load rv q idx : In idx (t_indexes tb) -> 0 < t_prefetch tb ->
    forall d it fuel rnd j s, idle q s -> qs_count s = 0%N -> known d ->
      flows rv op j it (map (fun r => en idx r) d) -> length d <= fuel ->
      forall out ok, FE (ahead q + rnd) (skipn (ahead q) d) (out, ok) ->
      live_loop tb ev (cb q) rv w sees gets fuel rnd j it s = outcome (cb q) (map (entry_key sc (sindex_of idx)) d) (firstn (ahead q) d ++ out) ok s.
  Proof.
    intros HI PRE d it fuel rnd j s ID C0 KN D LF out ok FT.
    assert (CASE : (q_filter q = None /\ q_less q = None) \/ ahead q = 0 /\ ~ (q_filter q = None /\ q_less q = None)).
    { unfold ahead. destruct (q_filter q), (q_less q); auto; right; split; auto; intros [? ?]; discriminate. }
    destruct CASE as [[HF LS]|[E0 NE]].
    - apply (skip_load rv q idx HI PRE HF LS (ahead q) d it fuel rnd j s); auto; [|rewrite C0; lia].
      unfold ahead. rewrite HF, LS, C0. f_equal. lia.
    - rewrite E0 in *. cbn [firstn app skipn Nat.add] in *.
      apply (load_flows tb G ev EV QT w ms CO sees gets rv (cb q) (past q) (past_load q) (past_gives q) idx HI PRE (length d) d it fuel rnd j s); auto.
      split; auto. intro X. destruct (NE X).
  Qed.

  Lemma in_listed ix ks Ps l : listed tb ms ix ks Ps l -> known l.
  Proof.
    intro L. induction L as [|k ks P Ps l ls [_ HL] L IH]; [easy|]. intros r Hr. apply in_app_iff in Hr as [Hr|Hr]; auto. apply HL in Hr. exists k. tauto.
  Qed.

  Lemma live_plain q : sorts srt -> isin (q_index q) -> (forall k, exact_selector tb (q_index q) (ms k) (q_sel q)) -> 0 < t_prefetch tb ->
    (q_after q = None \/ q_less q <> None) -> (q_offset q < 2 ^ 63)%N -> (q_limit q < 2 ^ 63)%N ->
    exists ks l, Forall (fun k => exists j lo hi, k = sees j lo hi) ks /\ (single (q_sel q) -> exists lo hi, ks = [sees 0 lo hi]) /\
    listed tb ms (sindex_of (q_index q)) ks (selections sc (sindex_of (q_index q)) (Byte.eqb (ix_id (q_index q)) x00) (q_sel q)) l /\
    exists rows ok, gathered_from tb ms gets (q_index q) (ahead q) (skipn (ahead q) (dir (q_rev q) l)) rows ok /\
    forall fuel, length l <= fuel -> answered sc q rows ok (live_query tb ev srt w sees gets fuel q).
  Proof.
    intros SR HI EX PRE AF HO HL. set (rv := q_rev q). set (idx := q_index q) in *.
    destruct (start_seen tb G w ms CO sees rv idx (q_sel q) HI EX) as [b [E [ks [l [A1 [A2 [A3 [ST FL]]]]]]]].
    exists ks, l. split; [exact A1|]. split; auto. split; auto.
    set (d := dir rv l) in *.
    assert (KN : known d) by (intros r Hr; apply ST; exact (proj1 (in_dir rv r l) Hr)).
    assert (LD : length d = length l) by (unfold d; apply length_dir).
    assert (ID : idle q START) by (destruct AF as [AF|AF]; [left|right; left]; auto).
    assert (SE : match q_after q, q_less q with Some a, None => selector_with_after tb idx a (q_sel q) | _, _ => Ok (q_sel q) end = Ok (q_sel q)).
    { destruct AF as [->|AF]; auto. destruct (q_after q); auto. destruct (q_less q); auto. easy. }
    assert (FIN : forall rows ok, length rows <= length d - ahead q ->
      answered sc q rows ok (conclude tb srt q (outcome (cb q) (map (entry_key sc (sindex_of idx)) d) (firstn (ahead q) d ++ rows) ok START))).
    { intros rows ok LR. destruct (q_less q) as [less|] eqn:LS.
      - assert (A0 : ahead q = 0) by (unfold ahead; rewrite LS; destruct (q_filter q); auto). rewrite A0 in *. cbn [firstn app].
        apply (order_answer tb srt q less); auto. rewrite map_length. lia.
      - apply plain_answered; auto; [rewrite map_length; auto|]. destruct AF as [AF|AF]; [|easy]. intro X. easy. }
    destruct HI as [HP|HI].
    - exists (skipn (ahead q) d), true. unfold gathered_from. rewrite <- HP at 1. split; [cbn; auto|]. intros fuel LE.
      unfold live_query. fold idx. rewrite SE. unfold live_scan_for_each. fold rv. rewrite E.
      assert (EI : Byte.eqb (ix_id idx) primary_index_id = true) by (rewrite <- HP; reflexivity). rewrite EI. cbv zeta.
      rewrite (primary_flows tb G ev QT w ms CO sees rv (cb q) idx EI d _ fuel 0 START KN FL) by lia.
      specialize (FIN (skipn (ahead q) d) true). rewrite firstn_skipn in FIN. apply FIN. rewrite skipn_length. lia.
    - assert (EI : Byte.eqb (ix_id idx) primary_index_id = false) by (apply (not_primary tb G); auto).
      destruct (fetched_total tb ms gets (t_prefetch tb) PRE (length (skipn (ahead q) d)) (ahead q + 0) (skipn (ahead q) d) (le_n _)) as [rows [ok FT]].
      exists rows, ok. unfold gathered_from. change x00 with primary_index_id. rewrite EI. split; [rewrite Nat.add_0_r in FT; exact FT|].
      intros fuel LE. unfold live_query. fold idx. rewrite SE. unfold live_scan_for_each. fold rv. rewrite E, EI. cbv zeta.
      rewrite (idle_load rv q idx HI PRE d _ fuel 0 1 START ID eq_refl KN FL ltac:(lia) rows ok FT).
      apply FIN. apply fetched_length in FT. rewrite skipn_length in FT. lia.
  Qed.
  Lemma reads_at k : reads tb (lk_db (w k)) (lk_fl (w k)) NoBatch (ms k).
  Proof. constructor; [apply (cons_ok _ _ _ _ (CO k))|discriminate|exact I|exact (CO k)]. Qed.

  Lemma after_call q a idx r : isin idx -> q_index q = idx -> q_after q = Some a -> q_less q = None -> parts_fit (sindex_of idx) a -> parts_fit (sindex_of idx) r ->
    cb q START (entry_key sc (sindex_of idx) r) =
      if match pos_cmp sc (sindex_of idx) a r with Eq => true | _ => false end then PRet (Qst [] 0 true true false false) true None
      else cb q (Qst [] 0 true true false false) (entry_key sc (sindex_of idx) r).
  Proof.
    intros HI EI AF LS FA FR. unfold query_cb. unfold cb_after. rewrite AF, LS. cbn [qs_skipped]. rewrite EI.
    pose proof (same_row tb G idx HI a r FA FR) as SR. rewrite SR.
    destruct (match pos_cmp sc (sindex_of idx) a r with Eq => true | _ => false end); reflexivity.
  Qed.

  (** once the after row is gone or not there *)
  Lemma after_load q a idx : In idx (t_indexes tb) -> 0 < t_prefetch tb -> q_index q = idx -> q_after q = Some a -> q_less q = None ->
    parts_fit (sindex_of idx) a ->
    forall d it fuel, (forall r, In r d -> parts_fit (sindex_of idx) r) -> known d -> flows false op 1 it (map (fun r => en idx r) d) -> length d <= fuel ->
      let d' := skip_eq tb (sindex_of idx) a d in
      let e := length d - length d' in
      forall rows ok, FE (e + ahead q) (skipn (ahead q) d') (rows, ok) ->
      exists s, conclude tb srt q (live_loop tb ev (cb q) false w sees gets fuel 0 1 it START) =
          conclude tb srt q (outcome (cb q) (map (entry_key sc (sindex_of idx)) d') (firstn (ahead q) d' ++ rows) ok s) /\
        (s = Qst [] 0 true true false false \/ s = START /\ d = []).
  Proof.
    intros HI PRE EI AF LS FA d it fuel FR KN D LF. set (s1 := Qst (T:=T) [] 0 true true false false).
    assert (ID1 : idle q s1) by (right; right; reflexivity).
    destruct d as [|r d].
    - cbn [skip_eq length Nat.sub Nat.add]. intros rows ok FT. exists START. split; auto. rewrite skipn_nil in FT. inversion FT; subst; try easy.
      inversion D as [? ? N _|]; subst. rewrite firstn_nil. destruct fuel; cbn [live_loop]; rewrite N; reflexivity.
    - pose proof (after_call q a idx r (or_intror HI) EI AF LS FA (FR r (or_introl eq_refl))) as CB. cbn [skip_eq].
      assert (STAY : pos_cmp sc (sindex_of idx) a r <> Eq -> forall rows ok, FE (ahead q) (skipn (ahead q) (r :: d)) (rows, ok) ->
        conclude tb srt q (live_loop tb ev (cb q) false w sees gets fuel 0 1 it START) =
          conclude tb srt q (outcome (cb q) (map (entry_key sc (sindex_of idx)) (r :: d)) (firstn (ahead q) (r :: d) ++ rows) ok s1)).
      { intros NE rows ok FT. rewrite <- (idle_load false q idx HI PRE (r :: d) it fuel 0 1 s1 ID1 eq_refl KN D LF rows ok) by (rewrite Nat.add_0_r; exact FT).
        cbn [map] in D. inversion D as [|? ? ? ? V EK _ _]; subst. destruct fuel as [|fuel]; [cbn in LF; lia|]. cbn [live_loop]. rewrite V, (proj1 QT), EK. cbn [fst].
        assert (CB' : cb q START (entry_key sc (sindex_of (q_index q)) r) = cb q s1 (entry_key sc (sindex_of (q_index q)) r)).
        { rewrite CB. destruct (pos_cmp sc (sindex_of (q_index q)) a r); auto. easy. }
        rewrite CB'. destruct (run_prog _ _ _) as [[st1 j1] [[[s2 c] oe]|x| |]]; reflexivity. }
      destruct (pos_cmp sc (sindex_of idx) a r) eqn:EP.
      + cbn [length]. replace (S (length d) - length d) with 1 by lia. cbn [Nat.add]. intros rows ok FT. exists s1. split; auto.
        destruct fuel as [|fuel]; [cbn in LF; lia|]. cbn [map] in D. destruct (idle_round false q idx r _ fuel 0 1 it START s1 D CB) as [E D2]. rewrite E.
        f_equal. apply (idle_load false q idx HI PRE d _ fuel 1 2 s1); auto; [intros; apply KN; right; auto|cbn in LF; lia|].
        replace (ahead q + 1) with (S (ahead q)) by lia. exact FT.
      + rewrite Nat.sub_diag. intros rows ok FT. exists s1. split; auto. apply STAY; auto. discriminate.
      + rewrite Nat.sub_diag. intros rows ok FT. exists s1. split; auto. apply STAY; auto. discriminate.
  Qed.

  Lemma skip_short ix a l : length (skip_eq tb ix a l) <= length l.
  Proof. destruct l as [|r l]; cbn [skip_eq]; auto. destruct (pos_cmp sc ix a r); cbn; lia. Qed.

  Lemma window_read (q : query T) (d : list T) : window (q_offset q) (q_limit q) (keep (q_filter q) d) = window (left_over q) (q_limit q) (keep (q_filter q) (skipn (ahead q) d)) \/ q_less q <> None.
  Proof.
    destruct (q_less q) eqn:LS; [right; discriminate|left].
    destruct (window_ahead q d (skipn (ahead q) d)) as [E _]; auto; [intro H; apply skipn_all2; lia|]. rewrite firstn_skipn in E. exact E.
  Qed.

  Lemma sorted_meets idx a l : isin idx -> parts_fit (sindex_of idx) a -> (forall r, In r l -> parts_fit (sindex_of idx) r) -> StronglySorted (pos_lt sc (sindex_of idx)) l ->
    meets sc (sindex_of idx) a l (length (from_a tb (sindex_of idx) a l) - length (rows_after sc (sindex_of idx) a l)).
  Proof.
    intros HI FA FR S. rewrite <- (skip_from_after tb idx a l FA FR S).
    destruct (from_a tb (sindex_of idx) a l) as [|r f] eqn:EF.
    - right. split; auto. intros x Hx E.
      assert (X : In x (from_a tb (sindex_of idx) a l)) by (unfold from_a; apply filter_In; rewrite E; auto). rewrite EF in X. destruct X.
    - assert (INr : In r l). { assert (X : In r (from_a tb (sindex_of idx) a l)) by (rewrite EF; left; auto). unfold from_a in X. apply filter_In in X. tauto. }
      cbn [skip_eq]. destruct (pos_cmp sc (sindex_of idx) a r) eqn:E.
      + left. cbn [length]. split; [lia|]. eauto.
      + right. split; [lia|]. intros x Hx EX.
        assert (X : In x (r :: f)) by (rewrite <- EF; unfold from_a; apply filter_In; rewrite EX; auto).
        assert (SF : StronglySorted (pos_lt sc (sindex_of idx)) (r :: f)) by (rewrite <- EF; apply sorted_filter; auto).
        inversion SF as [|? ? _ FF]; subst. rewrite Forall_forall in FF. destruct X as [->|X]; [congruence|].
        specialize (FF x X). rewrite (pos_cmp_eq tb idx) in EX, E by auto. apply (pos_lt_iff tb idx) in FF; auto.
        apply bcmp_eq in EX. rewrite EX in E. unfold blt in FF. rewrite bcmp_antisym, FF in E. discriminate.
      + exfalso. assert (X : In r (from_a tb (sindex_of idx) a l)) by (rewrite EF; left; auto). unfold from_a in X. apply filter_In in X. rewrite E in X. easy.
  Qed.

  Lemma live_after q a : isin (q_index q) -> (forall k, exact_selector tb (q_index q) (ms k) (q_sel q)) -> 0 < t_prefetch tb ->
    single (q_sel q) -> q_less q = None -> q_after q = Some a -> q_rev q = false ->
    after_fits sc (sindex_of (q_index q)) (Byte.eqb (ix_id (q_index q)) x00) a (q_sel q) ->
    (q_offset q < 2 ^ 63)%N -> (q_limit q < 2 ^ 63)%N ->
    exists lo hi l e, selected tb (q_index q) (ms (sees 0 lo hi)) (q_sel q) l /\ meets sc (sindex_of (q_index q)) a l e /\
    exists rows ok, gathered_from tb ms gets (q_index q) (e + ahead q) (skipn (ahead q) (rows_after sc (sindex_of (q_index q)) a l)) rows ok /\
    forall fuel, length l <= fuel -> answered sc q rows ok (live_query tb ev srt w sees gets fuel q).
  Proof.
    intros HI EX PRE SG LS AF NR FIT HO HL. set (idx := q_index q) in *. pose proof (proj1 FIT) as FA.
    assert (SEL : forall k, exists l, selected tb idx (ms k) (q_sel q) l).
    { intro k. destruct (scan_steady tb G ev EV _ _ _ _ (reads_at k) PRE QT idx (q_sel q) HI (EX k)) as [l [S _]]. eauto. }
    assert (SA : exists sel', selector_with_after tb idx a (q_sel q) = Ok sel' /\ forall k, exact_selector tb idx (ms k) sel' /\
       forall l, selected tb idx (ms k) (q_sel q) l -> selected tb idx (ms k) sel' (from_a tb (sindex_of idx) a l)).
    { destruct (SEL 0) as [l0 S0]. destruct (after_selector tb G _ _ _ _ (reads_at 0) idx HI a (q_sel q) l0 FIT (EX 0) S0) as [sel' [E1 _]].
      exists sel'. split; auto. intro k. destruct (SEL k) as [l S]. split.
      - destruct (after_selector tb G _ _ _ _ (reads_at k) idx HI a (q_sel q) l FIT (EX k) S) as [sel2 [E2 [E3 _]]]. congruence.
      - intros l' S'. destruct (after_selector tb G _ _ _ _ (reads_at k) idx HI a (q_sel q) l' FIT (EX k) S') as [sel2 [E2 [_ E3]]]. congruence. }
    destruct SA as [sel' [ES SA]].
    assert (SG' : single sel') by (destruct (q_sel q); try easy; cbn in ES; injection ES as <-; exact Logic.I).
    destruct (start_seen tb G w ms CO sees false idx sel' HI (fun k => proj1 (SA k))) as [b [E [ks [l' [A1 [A2 [A3 [ST FL]]]]]]]].
    destruct (A2 SG') as [lo [hi ->]]. set (k := sees 0 lo hi) in *. destruct (SEL k) as [l SL].
    assert (SL' : selected tb idx (ms k) sel' l').
    { unfold selected. remember [k] as kk. destruct A3 as [|k' ks P Ps l1 l2 HL1 L]; [discriminate|]. injection Heqkk as -> ->. inversion L; subst.
      econstructor; [exact HL1|constructor]. }
    assert (EL : l' = from_a tb (sindex_of idx) a l).
    { eapply (selected_unique tb G _ _ NoBatch _ (CO k)); [exact HI|exact SL'|apply SA; exact SL]. }
    destruct (single_selection tb G _ _ _ _ (reads_at k) idx (q_sel q) l HI SL) as [SO _]; [destruct (q_sel q); easy|].
    assert (FR : forall r, In r l -> parts_fit (sindex_of idx) r).
    { intros r Hr. apply (fits tb G _ _ _ _ (reads_at k) idx HI). eapply listings_stored; [exact SL|auto]. }
    assert (FR' : forall r, In r l' -> parts_fit (sindex_of idx) r). { intros r Hr. rewrite EL in Hr. apply filter_In in Hr. apply FR. tauto. }
    set (d := rows_after sc (sindex_of idx) a l) in *.
    assert (SK : skip_eq tb (sindex_of idx) a l' = d) by (rewrite EL; apply skip_from_after; auto).
    assert (LL : length l' <= length l) by (rewrite EL; apply filter_short).
    exists lo, hi, l, (length l' - length d). split; auto. split; [rewrite EL; apply sorted_meets; auto|].
    assert (ID1 : idle q (Qst [] 0 true true false false)) by (right; right; reflexivity).
    cbn [dir] in FL.
    destruct HI as [HP|HI'].
    - exists (skipn (ahead q) d), true. unfold gathered_from. assert (EI : Byte.eqb (ix_id idx) primary_index_id = true) by (rewrite <- HP; reflexivity).
      change x00 with primary_index_id. rewrite EI. split; auto. intros fuel LE.
      unfold live_query. fold idx. rewrite AF, LS, ES, NR. unfold live_scan_for_each. rewrite E, EI. cbv zeta.
      rewrite (primary_flows tb G ev QT w ms CO sees false (cb q) idx EI l' _ fuel 0 START ST FL) by lia.
      rewrite <- keyed_combine.
      destruct (first_call tb G srt idx (or_introl HP) q a l' eq_refl AF LS FA FR' HO HL) as [s' [E4 E5]]. rewrite E4. cbn [conclude]. rewrite E5, SK.
      destruct (window_read q d) as [->|X]; [|easy].
      apply aw_done with (s := keep (q_filter q) (skipn (ahead q) d)); rewrite ?LS; auto; reflexivity.
    - assert (EI : Byte.eqb (ix_id idx) primary_index_id = false) by (apply (not_primary tb G); auto).
      destruct (fetched_total tb ms gets (t_prefetch tb) PRE (length (skipn (ahead q) d)) (length l' - length d + ahead q) (skipn (ahead q) d) (le_n _)) as [rows [ok FT]].
      exists rows, ok. unfold gathered_from. change x00 with primary_index_id. rewrite EI. split; [exact FT|].
      intros fuel LE. unfold live_query. fold idx. rewrite AF, LS, ES, NR. unfold live_scan_for_each. rewrite E, EI. cbv zeta.
      destruct (after_load q a idx HI' PRE eq_refl AF LS FA l' _ fuel FR' ST FL ltac:(lia)) with (rows := rows) (ok := ok) as [s [EQ CASE]]; [rewrite SK; exact FT|].
      rewrite EQ, SK.
      destruct CASE as [->|[-> ->]].
      + apply plain_answered; auto; [rewrite map_length; auto|]. apply fetched_length in FT. rewrite skipn_length in FT. exact FT.
      + assert (D0 : d = []) by (rewrite <- SK; reflexivity). rewrite D0 in *. rewrite skipn_nil in FT. inversion FT; subst; try easy.
        rewrite firstn_nil. cbn [app]. change (outcome (cb q) (map (entry_key sc (sindex_of idx)) []) [] true START) with (visit (cb q) (keyed sc (sindex_of idx) []) START).
        destruct (first_call tb G srt idx (or_intror HI') q a [] eq_refl AF LS FA) as [s' [E4 E5]]; auto.
        rewrite E4. cbn [conclude]. rewrite E5. cbn [skip_eq]. destruct (window_read q []) as [->|X]; [|easy]. rewrite skipn_nil.
        apply aw_done with (s := keep (q_filter q) []); rewrite ?LS; auto; reflexivity.
  Qed.
  (** ** What follows *)
  Lemma live_query_still q lk fuel : live_query tb ev srt (fun _ => lk) sees gets fuel q = execute_query tb ev srt fuel (lk_db lk) (lk_fl lk) q NoBatch.
  Proof.
    unfold live_query, execute_query. destruct (match q_after q, q_less q with Some a, None => _ | _, _ => _ end); auto.
    rewrite live_for_each_still. destruct (scan_index_for_each _ _ _ _ _ _ _ _ _ _ _) as [s [?|?| |]]; reflexivity.
  Qed.

  Lemma in_window {A} off lim (l : list A) x : In x (window off lim l) -> In x l.
  Proof.
    unfold window. intro H.
    assert (X : In x (skipn (N.to_nat off) l)).
    { destruct (lim =? 0)%N; auto. rewrite <- (firstn_skipn (N.to_nat lim) (skipn (N.to_nat off) l)). apply in_or_app. auto. }
    rewrite <- (firstn_skipn (N.to_nat off) l). apply in_or_app. auto.
  Qed.

  Lemma in_keep {A} f (l : list A) x : In x (keep f l) <-> In x l /\ match f with Some f => f x = true | None => True end.
  Proof. destruct f; cbn [keep]; [apply filter_In|tauto]. Qed.

  Lemma ordered_perm (less : option (T -> T -> bool)) l s : ordered less l s -> Permutation s l.
  Proof. destruct less; cbn [ordered]; [tauto|intros ->; auto]. Qed.

  Lemma from_rows idx n l rows ok : known l -> gathered_from tb ms gets idx n l rows ok ->
    exists l', (exists tail, l = l' ++ tail /\ (ok = true -> tail = [])) /\
    Forall2 (fun r x => exists i, ms i (s_pk sc r) = Some x) l' rows.
  Proof.
    unfold gathered_from. intros ST GA. destruct (Byte.eqb _ _).
    - destruct GA as [-> ->]. exists l. split; [exists []; rewrite app_nil_r; auto|]. clear - ST. induction l as [|r l IH]; constructor.
      + apply ST. left; auto. + apply IH. intros; apply ST; right; auto.
    - apply fetched_rows in GA. destruct GA as [l' [A B]]. exists l'. split; auto. clear - B.
      induction B as [|r x l' out [i H] B IH]; constructor; eauto.
  Qed.

  Lemma live_query_rows q fuel out : sorts srt -> isin (q_index q) -> (forall k, exact_selector tb (q_index q) (ms k) (q_sel q)) -> 0 < t_prefetch tb ->
    (q_after q = None \/ q_less q <> None) -> (q_offset q < 2 ^ 63)%N -> (q_limit q < 2 ^ 63)%N ->
    (forall ks l, listed tb ms (sindex_of (q_index q)) ks (selections sc (sindex_of (q_index q)) (Byte.eqb (ix_id (q_index q)) x00) (q_sel q)) l -> length l <= fuel) ->
    live_query tb ev srt w sees gets fuel q = Ok out ->
    (forall x, In x out -> (exists k, ms k (s_pk sc x) = Some x) /\ match q_filter q with Some f => f x = true | None => True end) /\
    ((0 < q_limit q)%N -> (N.of_nat (length out) <= q_limit q)%N) /\
    (q_after q = None -> q_offset q = 0%N -> q_limit q = 0%N -> forall r, (forall k, ms k (s_pk sc r) = Some r) ->
       (In r out <-> picks tb (q_index q) (q_sel q) r /\ match q_filter q with Some f => f r = true | None => True end)).
  Proof.
    intros SR HI EX PRE AF HO HL FU RUN. destruct (live_plain q SR HI EX PRE AF HO HL) as [ks [l [A1 [A2 [A3 [rows [ok [GA ANS]]]]]]]].
    specialize (ANS fuel (FU ks l A3)). rewrite RUN in ANS.
    pose proof (in_listed _ _ _ _ A3) as KN.
    assert (KND : known (dir (q_rev q) l)) by (intros r Hr; apply KN; exact (proj1 (in_dir _ r l) Hr)).
    assert (KNS : known (skipn (ahead q) (dir (q_rev q) l))).
    { intros r Hr. apply KND. rewrite <- (firstn_skipn (ahead q) (dir (q_rev q) l)). apply in_or_app; auto. }
    assert (KEY : forall k r x, ms k (s_pk sc r) = Some x -> s_pk sc x = s_pk sc r) by (intros k r x H; apply (rep_rows _ _ _ (cons_rep _ _ _ _ (CO k)) _ _ H)).
    inversion ANS as [s s' CASE OR BE EQ|]; subst. apply ordered_perm in OR.
    destruct (from_rows _ _ _ _ _ KNS GA) as [l' [[tail [E1 E2]] F2]].
    assert (SUB : forall x, In x s' -> In x s).
    { destruct (match q_less q with Some _ => q_after q | None => None end) as [a|]; cbn [behind_opt] in BE; [|subst; auto].
      destruct BE; auto. intros x Hx. apply in_or_app. right; right; auto. }
    assert (ROWS : forall x, In x rows -> exists k, ms k (s_pk sc x) = Some x).
    { intros x Hx. clear - F2 Hx KEY. induction F2 as [|y z ys zs [i H] F2 IH]; [easy|]. destruct Hx as [->|Hx]; auto.
      exists i. rewrite (KEY _ _ _ H). exact H. }
    split; [|split].
    - intros x Hx. apply in_window, SUB in Hx. apply (Permutation_in _ OR) in Hx. apply in_keep in Hx as [Hx HF]. split; auto.
    - intros HP. unfold window. replace (q_limit q =? 0)%N with false by (symmetry; apply N.eqb_neq; lia). rewrite firstn_length. lia.
    - intros NA O0 L0 r UN.
      assert (ES : s' = s). { rewrite NA in BE. destruct (q_less q); exact BE. } subst s'.
      assert (A0 : ahead q = 0 /\ left_over q = 0%N) by (unfold ahead, left_over; rewrite O0; destruct (q_filter q), (q_less q); auto). destruct A0 as [A0 B0].
      assert (OK : ok = true). { destruct CASE as [->|[_ [X _]]]; auto. rewrite L0 in X. discriminate. }
      rewrite (E2 OK), app_nil_r in E1. subst l'. rewrite A0 in *. cbn [skipn] in *. rewrite B0, L0. unfold window. cbn [N.eqb N.to_nat skipn].
      assert (X : In r s <-> In r rows /\ match q_filter q with Some f => f r = true | None => True end).
      { rewrite <- in_keep. split; apply Permutation_in; auto. apply Permutation_sym; auto. }
      rewrite X. apply and_iff_compat_r. unfold picks. rewrite <- (listed_untouched tb ms _ _ _ _ r A3 UN). split.
      + intro Hr. assert (Y : exists y, In y (dir (q_rev q) l) /\ s_pk sc y = s_pk sc r).
        { clear - F2 Hr KEY. induction F2 as [|y z ys zs [i H] F2 IH]; [easy|]. destruct Hr as [->|Hr].
          - exists y. split; [left; auto|]. symmetry. apply (KEY _ _ _ H).
          - destruct (IH Hr) as [u [A B]]. exists u. split; [right|]; auto. }
        destruct Y as [y [Hy Ey]]. exists y. split; auto. exact (proj1 (in_dir _ _ _) Hy).
      + intros [x [Hx Ex]]. pose proof (proj2 (in_dir (q_rev q) x l) Hx) as Hx'. clear - F2 Hx' Ex UN. induction F2 as [|y z ys zs [i H] F2 IH]; [easy|].
        destruct Hx' as [->|Hx']; [|right; auto]. left. rewrite Ex, UN in H. congruence.
  Qed.
End P.
