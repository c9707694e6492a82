(** Queries with After and no Order: every selector, every row, both directions. *)

From Coq Require Import List NArith ZArith Lia Bool Arith Sorting.Sorted Sorting.Permutation.
From Verif.Model Require Import Bytes Go Keys Pebble Index Table Scan Query.
From Verif.Spec Require Import KeySpec StoreSpec TableSpec ScanSpec QuerySpec AfterSpec.
From Verif.Proofs Require Import BytesFacts KeysFacts PebbleFacts TableFacts WriteFacts IterFacts ScanFacts ScanRows ScanProps ScanTop QueryFacts QueryProps.
Import ListNotations.

Lemma keep_split3 {A} f (l k1 k2 : list A) a : keep f l = k1 ++ a :: k2 ->
  exists l1 l2, l = l1 ++ a :: l2 /\ keep f l1 = k1 /\ keep f [a] = [a].
Proof.
  destruct f as [f|]; cbn [keep]; [|intros ->; exists k1, k2; auto]. revert k1. induction l as [|x l IH]; intros k1 E; cbn in E; [destruct k1; discriminate|].
  destruct (f x) eqn:EX.
  - destruct k1 as [|y k1]; cbn in E.
    + exists [], l. assert (x = a) by congruence. subst. cbn. rewrite EX. auto.
    + destruct (IH k1) as [l1 [l2 [-> [E2 E3]]]]; [congruence|]. exists (x :: l1), l2. cbn [filter app]. rewrite EX. split; auto. split; auto. congruence.
  - destruct (IH k1 E) as [l1 [l2 [-> [E2 E3]]]]. exists (x :: l1), l2. cbn [filter app]. rewrite EX. auto.
Qed.

Lemma filter_rev {A} f (l : list A) : filter f (rev l) = rev (filter f l).
Proof. induction l as [|x l IH]; cbn; auto. rewrite filter_app, IH. cbn. destruct (f x); cbn; auto. apply app_nil_r. Qed.

Section P.
  Context {T F : Type}.
  Variable tb : table T F.
  Hypothesis G : good_table tb.
  Variable ev : env T.
  Hypothesis EV : env_ok ev.
  Variable srt : (T -> T -> bool) -> list T -> list T.
  Variables (db : kv) (fl : F) (ob : optb) (m : tmap T).
  Hypothesis R : reads tb db fl ob m.
  Hypothesis PRE : 0 < t_prefetch tb.
  Hypothesis Q : quiet ev.
  Notation sc := (schema_of tb).
  Notation isin idx := (In idx (primary_index :: t_indexes tb)).
  Let LAW : lawful tb := good_lawful _ G.

  Lemma short_fits (ix : sindex T) r : parts_short ix r -> parts_fit ix r.
  Proof. intros [A B]. split; auto. eapply N.lt_trans; [exact A|reflexivity]. Qed.

  Section Idx.
    Variable idx : index T.
    Hypothesis HI : isin idx.
    Notation ix := (sindex_of idx).
    Notation K := (entry_key sc ix).

    Lemma points_moved a ps : parts_fit ix a -> (forall p, In p ps -> parts_fit ix p) ->
      exists pss, points_after tb idx a ps = Ok (concat pss) /\ Forall2 (moved_point sc ix a) ps pss.
    Proof.
      intros FA. induction ps as [|p ps IH]; intro FP; [exists []; split; [reflexivity|constructor]|].
      destruct IH as [pss [E1 E2]]; [intros; apply FP; right; auto|]. assert (FP' : parts_fit ix p) by (apply FP; left; auto).
      cbn [points_after]. rewrite E1. unfold idx_key. rewrite !(enc_eq tb LAW idx HI). destruct (bltb (K a) (K p)) eqn:EL.
      - exists ([p] :: pss). split; [reflexivity|]. constructor; auto. apply mp_ahead. apply (pos_lt_iff tb idx); auto. apply bltb_lt. auto.
      - apply bltb_ge in EL. apply (pos_le_iff tb idx) in EL; auto.
        change (K a) with (layout (t_id tb) (si_id ix) (si_key ix a) (si_ord ix a) (s_pk sc a)).
        change (K p) with (layout (t_id tb) (si_id ix) (si_key ix p) (si_ord ix p) (s_pk sc p)).
        rewrite !layout_prefix, !key_prefix_of_layout by (apply FA || apply FP').
        destruct (beqb (prefix_layout _ _ (si_key ix a)) _) eqn:EP.
        + apply beqb_eq in EP. rewrite <- (app_nil_r (prefix_layout _ _ (si_key ix a))), <- (app_nil_r (prefix_layout _ _ (si_key ix p))) in EP.
          apply prefix_layout_inj_app in EP as [_ [_ [EK _]]]; [|apply FA|apply FP'].
          exists ([a] :: pss). split; [reflexivity|]. constructor; auto. apply mp_here; auto.
        + exists ([] :: pss). split; [reflexivity|]. constructor; auto. apply mp_past; auto. intro X. rewrite X, beqb_refl in EP. discriminate.
    Qed.

    Lemma ranges_moved a rs : parts_fit ix a -> (forall r, In r rs -> exists lo hi, r = [lo; hi] /\ parts_fit ix lo /\ parts_fit ix hi) ->
      exists rss, ranges_after tb idx a rs = Ok (concat rss) /\ Forall2 (moved_range sc ix a) rs rss.
    Proof.
      intros FA. induction rs as [|rg rs IH]; intro FP; [exists []; split; [reflexivity|constructor]|].
      destruct IH as [rss [E1 E2]]; [intros; apply FP; right; auto|]. destruct (FP rg (or_introl eq_refl)) as [lo [hi [-> [FL FH]]]].
      cbn [ranges_after]. rewrite E1. unfold idx_key. rewrite !(enc_eq tb LAW idx HI). destruct (bltb (K a) (K lo)) eqn:EL.
      - exists ([[lo; hi]] :: rss). split; [reflexivity|]. constructor; auto. apply mr_ahead. apply (pos_lt_iff tb idx); auto. apply bltb_lt. auto.
      - apply bltb_ge in EL. apply (pos_le_iff tb idx) in EL; auto. destruct (bleb (K a) (K hi)) eqn:EH.
        + exists ([[a; hi]] :: rss). split; [reflexivity|]. constructor; auto. apply mr_here; auto. apply (pos_le_iff tb idx); auto.
          apply bleb_le. auto.
        + exists ([] :: rss). split; [reflexivity|]. constructor; auto. apply mr_past; auto. apply (pos_lt_iff tb idx); auto. apply bleb_gt. auto.
    Qed.

    Lemma selector_resumes a sel : parts_short ix a -> short_sel ix sel ->
      exists sel', selector_with_after tb idx a sel = Ok sel' /\ resumes sc ix a sel sel' /\ (nothing_left sel' \/ short_sel ix sel').
    Proof.
      intros FA SH. destruct sel as [p|ps|lo hi|rs|]; cbn [selector_with_after short_sel] in *; try easy.
      - exists (SPoint a). split; auto. split; [constructor|right; exact FA].
      - destruct SH as [_ SH]. destruct (points_moved a ps) as [pss [E1 E2]]; [apply short_fits; auto|intros; apply short_fits; auto|].
        exists (SPoints (concat pss)). rewrite E1. split; auto. split; [constructor; auto|].
        destruct (concat pss) as [|p l] eqn:EC; [left; left; auto|]. right. split; [discriminate|]. rewrite <- EC.
        clear - E2 FA SH. intros x Hx. apply in_concat in Hx as [y [Hy Hx]].
        induction E2 as [|p y' ps pss MP E2 IH]; [easy|]. destruct Hy as [->|Hy]; [|apply IH; auto; intros; apply SH; right; auto].
        destruct MP; [| |destruct Hx]; destruct Hx as [<-|[]]; auto. apply SH. left; auto.
      - exists (SRange a hi). split; auto. split; [constructor|right; split; tauto].
      - destruct SH as [_ SH]. destruct (ranges_moved a rs) as [rss [E1 E2]].
        { apply short_fits; auto. }
        { intros r Hr. destruct (SH r Hr) as [lo [hi [A [B C]]]]. exists lo, hi. split; auto. split; apply short_fits; auto. }
        exists (SRanges (concat rss)). rewrite E1. split; auto. split; [constructor; auto|].
        destruct (concat rss) as [|p l] eqn:EC; [left; right; auto|]. right. split; [discriminate|]. rewrite <- EC.
        clear - E2 FA SH. intros x Hx. apply in_concat in Hx as [y [Hy Hx]].
        induction E2 as [|rg y' rs rss MP E2 IH]; [easy|]. destruct Hy as [->|Hy]; [|apply IH; auto; intros; apply SH; right; auto].
        destruct (SH rg (or_introl eq_refl)) as [lo [hi [E [B C]]]].
        destruct MP as [lo' hi'|lo' hi'|lo' hi']; [| |destruct Hx]; destruct Hx as [<-|[]].
        + exists lo, hi. auto.
        + exists a, hi. assert (hi' = hi) by congruence. subst. auto.
    Qed.

    Lemma skip_less_first a l : less_first sc ix a l (skip_eq tb ix a l).
    Proof.
      destruct l as [|r l]; cbn [skip_eq]; [constructor|]. destruct (pos_cmp sc ix a r) eqn:E; constructor; congruence.
    Qed.
  End Idx.

  Lemma empty_scan_panics idx sel W (f : W -> bytes -> prog W) fuel rv s : nothing_left sel ->
    scan_index_for_each tb ev fuel db fl idx sel f rv ob s = (s, Panic).
  Proof. intros [-> | ->]; unfold scan_index_for_each, index_iter; destruct ob; reflexivity. Qed.

  Lemma query_after_all q a : isin (q_index q) -> short_sel (sindex_of (q_index q)) (q_sel q) -> parts_short (sindex_of (q_index q)) a ->
    q_inter q = [] -> q_less q = None -> q_after q = Some a -> (q_offset q < 2 ^ 63)%N -> (q_limit q < 2 ^ 63)%N ->
    exists sel, resumes sc (sindex_of (q_index q)) a (q_sel q) sel /\
      (nothing_left sel -> forall fuel, execute tb ev srt fuel db fl q ob = Panic) /\
      (~ nothing_left sel -> exists l l', visits tb (q_index q) m sel l /\
         less_first sc (sindex_of (q_index q)) a (dir (q_rev q) l) l' /\
         forall fuel, length l <= fuel -> execute tb ev srt fuel db fl q ob = Ok (window (q_offset q) (q_limit q) (keep (q_filter q) l'))).
  Proof.
    intros HI SH FA NI LS AF HO HL. destruct (selector_resumes _ HI a (q_sel q) FA SH) as [sel [E1 [E2 E3]]]. exists sel. split; auto.
    split.
    - intros NL fuel. unfold execute. rewrite NI. unfold execute_query. rewrite AF, LS, E1, (empty_scan_panics _ _ _ _ _ _ _ NL). reflexivity.
    - intro NL. destruct E3 as [E3|E3]; [contradiction|].
      destruct (really_steady tb G ev EV db fl ob m R PRE Q _ sel HI E3) as [l [S [ST V]]].
      exists l, (skip_eq tb (sindex_of (q_index q)) a (dir (q_rev q) l)). split; auto. split; [apply skip_less_first|].
      intros fuel LE. unfold execute. rewrite NI. unfold execute_query. rewrite AF, LS, E1.
      rewrite (V _ _ _ _ _ (cb_steady tb q)); [|apply within_all'; exact LE].
      destruct (first_call tb G srt _ HI q a (dir (q_rev q) l) eq_refl AF LS (short_fits _ _ FA)) as [s' [E4 E5]]; auto.
      { intros r Hr. apply (fits tb G db fl ob m R _ HI). apply ST. destruct (q_rev q); auto. apply in_rev. auto. }
      rewrite E4. exact E5.
  Qed.

  (** with Reverse, a single selection yields the rows up to the given one instead of those behind it *)
  Lemma query_after_reverse q a : isin (q_index q) -> exact_selector tb (q_index q) m (q_sel q) ->
    match q_sel q with SPoint _ | SRange _ _ => True | _ => False end ->
    q_inter q = [] -> q_less q = None -> q_after q = Some a -> q_rev q = true -> (q_offset q < 2 ^ 63)%N -> (q_limit q < 2 ^ 63)%N ->
    forall l1 l2, selected tb (q_index q) m (q_sel q) (rev (l1 ++ a :: l2)) -> forall fuel, length l1 < fuel ->
    execute tb ev srt fuel db fl q ob =
      Ok (window (q_offset q) (q_limit q) (keep (q_filter q) (match l1 with [] => [] | _ => l1 ++ [a] end))).
  Proof.
    intros HI EX ONE NI LS AF RV HO HL l1 l2 SL fuel LE. set (ix := sindex_of (q_index q)) in *.
    assert (INA : In a (rev (l1 ++ a :: l2))) by (apply -> in_rev; apply in_or_app; right; left; auto).
    assert (ST : forall r, In r (rev (l1 ++ a :: l2)) -> m (s_pk sc r) = Some r) by (eapply listings_stored; exact SL).
    assert (FT : forall r, In r (rev (l1 ++ a :: l2)) -> parts_fit ix r) by (intros; apply (fits tb G db fl ob m R _ HI); auto).
    assert (FIT : after_fits sc ix (Byte.eqb (ix_id (q_index q)) x00) a (q_sel q)).
    { apply (selected_after_fits tb G db fl ob m R (q_index q) (q_sel q) _ a HI) with (3 := SL); auto; intros; destruct (q_sel q); try easy; discriminate. }
    destruct (after_selector tb G _ _ _ _ R _ HI a (q_sel q) _ FIT EX SL) as [sel' [E1 [E2 E3]]].
    destruct (scan_steady tb G ev EV db fl ob m R PRE Q _ sel' HI E2) as [l' [S' [_ V]]].
    assert (EL : l' = from_a tb ix a (rev (l1 ++ a :: l2))) by (eapply (selected_unique tb G db fl ob m (reads_cons _ _ _ _ _ R)); eauto).
    destruct (single_selection tb G db fl ob m R _ _ _ HI SL ONE) as [SO _].
    assert (EF : from_a tb ix a (rev (l1 ++ a :: l2)) = rev (l1 ++ [a])).
    { rewrite rev_app_distr in *. cbn [rev] in *. rewrite <- app_assoc in *. cbn [app] in *.
      assert (CUT : forall x, In x (rev l2) -> pos_lt sc ix x a).
      { clear - SO. induction (rev l2) as [|y l IH]; [easy|]. cbn [app] in SO. inversion SO as [|? ? S F1]; subst. rewrite Forall_forall in F1.
        intros x [<-|Hx]; auto. apply F1. apply in_or_app; right; left; auto. }
      assert (UP : forall x, In x (rev l1) -> pos_lt sc ix a x).
      { clear - SO. induction (rev l2) as [|y l IH]; cbn [app] in SO; inversion SO as [|? ? S F1]; subst; auto. rewrite Forall_forall in F1. auto. }
      rewrite rev_app_distr. cbn [rev app]. unfold from_a. rewrite filter_app, filter_none; cbn [app filter].
      - assert (AA : pos_cmp sc ix a a = Eq) by (unfold ix; rewrite (pos_cmp_eq tb (q_index q)) by (apply FT; auto); apply bcmp_refl).
        rewrite AA. f_equal. apply filter_all. intros x Hx. specialize (UP x Hx). unfold pos_lt in UP. rewrite UP. reflexivity.
      - intros x Hx. specialize (CUT x Hx). assert (FX : parts_fit ix x) by (apply FT; apply in_or_app; auto).
        apply (pos_lt_iff tb (q_index q)) in CUT; [|auto|apply FT; auto]. unfold ix. rewrite (pos_cmp_eq tb (q_index q)) by (auto; apply FT; auto).
        unfold blt in CUT. rewrite bcmp_antisym, CUT. reflexivity. }
    rewrite EF in EL. subst l'. unfold execute. rewrite NI. unfold execute_query. rewrite AF, LS, E1.
    rewrite (V _ _ _ _ _ (cb_steady tb q)).
    2:{ apply within_all'. rewrite rev_length, app_length. cbn [length]. lia. }
    rewrite RV. cbn [dir]. rewrite rev_involutive.
    destruct (first_call tb G srt _ HI q a (l1 ++ [a]) eq_refl AF LS (FT a INA)) as [s' [E4 E5]]; auto.
    { intros r Hr. apply FT. apply -> in_rev. apply in_app_or in Hr as [Hr|[<-|[]]]; apply in_or_app; [left|right; left]; auto. }
    rewrite E4, E5. f_equal. f_equal. f_equal. destruct l1 as [|r l1]; cbn [app skip_eq].
    - unfold ix. rewrite (pos_cmp_eq tb (q_index q)) by (apply FT; auto). rewrite bcmp_refl. reflexivity.
    - assert (NE : pos_cmp sc (sindex_of (q_index q)) a r <> Eq); [|destruct (pos_cmp sc (sindex_of (q_index q)) a r); auto; contradiction].
      assert (P : pos_lt sc ix a r).
      { rewrite rev_app_distr in SO. cbn [rev] in SO. rewrite <- !app_assoc in SO. cbn [app] in SO.
        clear - SO. induction (rev l2) as [|y l IH]; cbn [app] in SO; inversion SO as [|? ? S F1]; subst; auto. rewrite Forall_forall in F1.
        apply F1. apply in_or_app; right; left; auto. }
      unfold pos_lt in P. fold ix. rewrite P. discriminate.
  Qed.

  (** so paging with Reverse stays on the first page for ever *)
  Lemma reverse_paging q n : isin (q_index q) -> exact_selector tb (q_index q) m (q_sel q) ->
    match q_sel q with SPoint _ | SRange _ _ => True | _ => False end ->
    q_inter q = [] -> q_less q = None -> q_after q = None -> q_rev q = true -> q_offset q = 0%N -> (2 <= n < 2 ^ 63)%N ->
    forall l, selected tb (q_index q) m (q_sel q) l -> 2 <= length (keep (q_filter q) l) ->
    forall fuel, length l <= fuel -> forall k,
      pages (fun a => execute tb ev srt fuel db fl (page (q_with_limit q n) a) ob) k None = Diverge.
  Proof.
    intros HI EX ONE NI LS NA RV OF HN l SL TWO fuel LE.
    set (run := fun a => execute tb ev srt fuel db fl (page (q_with_limit q n) a) ob).
    assert (NZ : (n =? 0)%N = false) by (apply N.eqb_neq; lia).
    assert (FIRST : run None = Ok (firstn (N.to_nat n) (keep (q_filter q) (rev l)))).
    { unfold run. destruct (query_plain tb G ev EV srt db fl ob m R PRE Q (page (q_with_limit q n) None)) as [l' [S' H]]; auto.
      { unfold page, q_with_limit. cbn. rewrite OF. reflexivity. }
      { cbn. apply HN. }
      assert (l' = l) by (eapply (selected_unique tb G db fl ob m (reads_cons _ _ _ _ _ R)); [exact HI|exact S'|exact SL]). subst l'.
      rewrite H; [|left; rewrite length_dir; exact LE]. unfold page, q_with_limit. cbn [q_offset q_limit q_filter q_rev dir].
      rewrite OF, RV. unfold window. rewrite NZ. reflexivity. }
    set (pg := firstn (N.to_nat n) (keep (q_filter q) (rev l))) in *.
    assert (LP : 2 <= length pg).
    { unfold pg. rewrite firstn_length. destruct (q_filter q) as [f|]; cbn [keep] in *; [rewrite filter_rev|]; rewrite rev_length; lia. }
    destruct (exists_last (l := pg)) as [k1 [a EP]]; [intro X; rewrite X in LP; cbn in LP; lia|].
    assert (K1 : k1 <> []) by (intro X; rewrite EP, X in LP; cbn in LP; lia).
    destruct (keep_split3 (q_filter q) (rev l) k1 (skipn (N.to_nat n) (keep (q_filter q) (rev l))) a) as [l1 [l2 [EV' [E1 E2]]]].
    { rewrite <- (firstn_skipn (N.to_nat n) (keep (q_filter q) (rev l))) at 1. fold pg. rewrite EP, <- app_assoc. reflexivity. }
    assert (EL : l = rev (l1 ++ a :: l2)) by (rewrite <- EV', rev_involutive; reflexivity).
    assert (AGAIN : run (Some a) = Ok pg).
    { unfold run. rewrite (query_after_reverse (page (q_with_limit q n) (Some a)) a) with (l1 := l1) (l2 := l2); auto.
      - unfold page, q_with_after, q_with_limit. cbn [q_offset q_limit q_filter]. rewrite OF. unfold window. rewrite NZ. cbn [N.to_nat skipn].
        f_equal. destruct l1 as [|r l1]; [exfalso; apply K1; rewrite <- E1; destruct (q_filter q); auto|].
        rewrite keep_app, E1, E2, <- EP. apply firstn_all2. unfold pg. rewrite firstn_length. lia.
      - unfold page, q_with_after, q_with_limit. cbn [q_offset]. rewrite OF. reflexivity.
      - cbn. apply HN.
      - unfold page, q_with_after, q_with_limit. cbn [q_index q_sel]. rewrite <- EL. exact SL.
      - rewrite EL, rev_length, app_length in LE. cbn [length] in LE. lia. }
    destruct pg as [|r pg'] eqn:EPG; [cbn in LP; lia|].
    assert (LA : last pg' r = a).
    { transitivity (last (r :: pg') r); [destruct pg'; auto|]. rewrite EP. apply last_last. }
    assert (ON : forall k, pages run k (Some a) = Diverge).
    { induction k as [|k IH]; [reflexivity|]. cbn [pages]. rewrite AGAIN, LA, IH. reflexivity. }
    intros [|k]; [reflexivity|]. cbn [pages]. rewrite FIRST, LA, ON. reflexivity.
  Qed.
End P.
