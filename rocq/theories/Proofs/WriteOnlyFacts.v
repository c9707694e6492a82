(** Scans, queries and gets through a write-only batch. *)

From Coq Require Import List NArith ZArith Lia Bool Arith.
From Verif.Model Require Import Bytes Go Keys Pebble Index Table Scan Query.
From Verif.Spec Require Import KeySpec StoreSpec TableSpec ScanSpec QuerySpec AfterSpec.
From Verif.Proofs Require Import BytesFacts KeysFacts PebbleFacts TableFacts WriteFacts ScanRows QueryFacts QueryProps InterFacts AfterFacts.
Import ListNotations.

Section W.
  Context {T F : Type}.
  Variable tb : table T F.
  Hypothesis G : good_table tb.
  Variable ev : env T.
  Variable srt : (T -> T -> bool) -> list T -> list T.
  Variables (db : kv) (fl : F) (b : batch).
  Hypothesis WO : b_rw b = false.
  Let LAW : lawful tb := good_lawful _ G.
  Notation isin idx := (In idx (primary_index :: t_indexes tb)).
  Notation sc := (schema_of tb).

  Lemma no_items lo hi : db_iter db (Some b) lo hi = err_iter ENotIndexed.
  Proof. unfold db_iter. rewrite WO. reflexivity. Qed.

  Lemma open_none opts i : exists e, open_at (db_iter db (Some b)) opts i = err_iter e.
  Proof. unfold open_at. destruct (nth_error opts i) as [[lo hi]|]; [|eauto]. rewrite no_items. eauto. Qed.

  Lemma first_none opts : forall n i c, it_valid (snd c) = false -> it_valid (snd (multi_first (db_iter db (Some b)) opts n i c)) = false.
  Proof.
    induction n as [|n IH]; intros i c H; cbn [multi_first]; auto. destruct (open_none opts i) as [e ->]. cbn [err_iter it_first pi_items it_valid pi_pos].
    apply IH. reflexivity.
  Qed.

  Lemma last_none opts : forall n c, it_valid (snd c) = false -> it_valid (snd (multi_last (db_iter db (Some b)) opts n c)) = false.
  Proof.
    induction n as [|n IH]; intros c H; cbn [multi_last]; auto. destruct (open_none opts n) as [e ->]. cbn [err_iter it_last pi_items it_valid pi_pos].
    apply IH. reflexivity.
  Qed.

  Lemma bounds_ok idx exact p : isin idx -> parts_fit (sindex_of idx) p -> exists o, point_bounds tb idx exact p = Ok o.
  Proof.
    intros HI FP. unfold point_bounds. rewrite !(enc_eq tb LAW idx HI).
    change (entry_key sc (sindex_of idx) p) with (layout (t_id tb) (si_id (sindex_of idx)) (si_key (sindex_of idx) p) (si_ord (sindex_of idx) p) (s_pk sc p)).
    rewrite !layout_prefix, key_prefix_of_layout by apply FP. eauto.
  Qed.

  Lemma opens_empty idx sel : isin idx -> short_sel (sindex_of idx) sel ->
    exists it, index_iter tb db (ABatch b) idx sel = Ok it /\
      forall rv, bi_valid (scan_first (db_iter db (Some b)) rv it) = false.
  Proof.
    intros HI SH.
    assert (MULTI : forall opts, opts <> [] -> exists it, new_multi (db_iter db (Some b)) opts = Ok it /\
      forall rv, bi_valid (scan_first (db_iter db (Some b)) rv it) = false).
    { intros [|[lo hi] opts] NE; [contradiction|]. eexists. split; [reflexivity|]. intros [|]; unfold scan_first, bi_valid; cbn [bi_first bi_last].
      - pose proof (last_none ((lo, hi) :: opts) (length ((lo, hi) :: opts)) (0, db_iter db (Some b) lo hi)) as H. rewrite no_items in *.
        destruct (multi_last _ _ _ _) as [i p]. apply H. reflexivity.
      - pose proof (first_none ((lo, hi) :: opts) (length ((lo, hi) :: opts)) 0 (0, db_iter db (Some b) lo hi)) as H. rewrite no_items in *.
        destruct (multi_first _ _ _ _ _) as [i p]. apply H. reflexivity. }
    unfold index_iter. cbn [batch_of]. destruct sel as [p|ps|lo hi|rs|]; cbn [short_sel] in SH.
    - destruct (bounds_ok idx false p HI (short_fits _ _ SH)) as [[lo hi] ->]. eexists. split; [reflexivity|].
      intro rv. rewrite no_items. destruct rv; reflexivity.
    - destruct SH as [NE SH]. assert (X : exists opts, points_bounds tb idx (Byte.eqb (ix_id idx) primary_index_id) ps = Ok opts /\ (ps <> [] -> opts <> [])).
      { clear NE. induction ps as [|p ps IH]; [exists []; split; auto|]. destruct IH as [opts [E _]]; [intros; apply SH; right; auto|].
        cbn [points_bounds]. destruct (bounds_ok idx (Byte.eqb (ix_id idx) primary_index_id) p HI) as [o ->]; [apply short_fits, SH; left; auto|].
        rewrite E. exists (o :: opts). split; auto. discriminate. }
      destruct X as [opts [-> X]]. apply MULTI. auto.
    - destruct (range_bounds tb idx lo hi) as [l h]. eexists. split; [reflexivity|]. intro rv. rewrite no_items. destruct rv; reflexivity.
    - destruct SH as [NE SH]. assert (X : exists opts, ranges_bounds tb idx rs = Ok opts /\ (rs <> [] -> opts <> [])).
      { clear NE. induction rs as [|r rs IH]; [exists []; split; auto|]. destruct IH as [opts [E _]]; [intros; apply SH; right; auto|].
        destruct (SH r (or_introl eq_refl)) as [lo [hi [-> _]]]. cbn [ranges_bounds]. rewrite E. eexists. split; [reflexivity|]. discriminate. }
      destruct X as [opts [-> X]]. apply MULTI. auto.
    - destruct SH.
  Qed.

  Lemma scans_nothing idx sel W (f : W -> bytes -> prog W) fuel rv s : isin idx -> short_sel (sindex_of idx) sel ->
    scan_index_for_each tb ev fuel db fl idx sel f rv (ABatch b) s = (s, Ok tt).
  Proof.
    intros HI SH. destruct (opens_empty idx sel HI SH) as [it [E V]]. unfold scan_index_for_each. rewrite E. cbn [batch_of].
    destruct (Byte.eqb (ix_id idx) primary_index_id); destruct fuel; cbn [primary_loop secondary_loop]; rewrite V; reflexivity.
  Qed.

  Lemma offset_none {A} off (p : bool) : (off < 2 ^ 63)%N -> (if p then apply_offset off [] else Ok []) = Ok (@nil A).
  Proof. intro H. rewrite apply_offset_eq, skipn_nil by auto. destruct p; reflexivity. Qed.
  Lemma limit_none {A} lim (p : bool) : (lim < 2 ^ 63)%N -> (if p then apply_limit lim [] else Ok []) = Ok (@nil A).
  Proof. intro H. rewrite apply_limit_eq, firstn_nil by auto. destruct p; reflexivity. Qed.

  Lemma query_nothing q fuel : sorts srt -> (forall x, In x (q :: q_inter q) -> isin (q_index x) /\ short_sel (sindex_of (q_index x)) (q_sel x)) ->
    (forall x, In x (q_inter q) -> plain_part x) ->
    (q_after q = None \/ q_less q <> None \/ q_inter q <> []) -> (q_offset q < 2 ^ 63)%N -> (q_limit q < 2 ^ 63)%N ->
    execute tb ev srt fuel db fl q (ABatch b) = Ok [].
  Proof.
    intros SRT H PL AF HO HL.
    assert (SN : forall less, srt less [] = []).
    { intro less. destruct (SRT less []) as [P _]. apply Permutation.Permutation_nil. apply Permutation.Permutation_sym. auto. }
    unfold execute. destruct (q_inter q) as [|x xs] eqn:EI.
    - destruct (H q (or_introl eq_refl)) as [HI SH]. unfold execute_query.
      replace (match q_after q with Some a => match q_less q with Some _ => Ok (q_sel q) | None => selector_with_after tb (q_index q) a (q_sel q) end | None => Ok (q_sel q) end)
        with (Ok (q_sel q)).
      2:{ destruct (q_after q), (q_less q); auto. destruct AF as [X|[X|X]]; [discriminate|contradiction|contradiction]. }
      rewrite scans_nothing by auto. unfold finish_query. cbn [qs_records qs_after_applied qs_offset_applied qs_limit_applied].
      replace (match q_less q with Some less => srt less [] | None => [] end) with (@nil T) by (destruct (q_less q); auto).
      replace (match q_after q with Some a => drop_after tb a [] | None => [] end) with (@nil T) by (destruct (q_after q); auto).
      rewrite offset_none by auto. apply limit_none. auto.
    - unfold execute_intersect. rewrite EI.
      replace (forallb plain_query (x :: xs)) with true.
      2:{ symmetry. apply forallb_forall. intros y Hy. apply plain_query_ok. auto. }
      assert (C : forall y w n, In y (q :: x :: xs) -> exists it, index_iter tb db (ABatch b) (q_index y) (q_sel y) = Ok it /\
        collect_keys ev (db_iter db (Some b)) w fuel n (bi_first (db_iter db (Some b)) it) [] = Ok (n, [])).
      { intros y w n Hy. destruct (H y Hy) as [HI SH]. destruct (opens_empty _ _ HI SH) as [it [E V]]. exists it. split; auto.
        specialize (V false). unfold scan_first in V. destruct fuel; cbn [collect_keys]; rewrite V; reflexivity. }
      assert (I : intersect tb ev fuel db q (ABatch b) = Ok []).
      { unfold intersect. cbn [batch_of]. destruct (C q None 0) as [it [-> ->]]; [left; auto|]. rewrite EI.
        assert (REST : forall l n, (forall y, In y l -> In y (q :: x :: xs)) -> intersect_rest tb ev fuel db (ABatch b) n l [] = Ok []).
        { induction l as [|y l IH]; intros n HL'; cbn [intersect_rest]; auto. cbn [batch_of].
          destruct (C y (Some []) n) as [it' [-> ->]]; [apply HL'; left; auto|]. apply IH. intros; apply HL'; right; auto. }
        apply REST. intros y Hy. right. auto. }
      rewrite I.
      rewrite offset_none, limit_none by auto.
      cbn [get_keys decode_records].
      replace (match q_less q with Some less => srt less [] | None => [] end) with (@nil T) by (destruct (q_less q); auto).
      replace (match q_after q with Some a => drop_after tb a [] | None => [] end) with (@nil T) by (destruct (q_after q); auto).
      rewrite offset_none, limit_none by auto. destruct (q_filter q), (q_less q); reflexivity.
  Qed.

  Lemma values_nothing keys lo hi : get_values tb fl (db_iter db (Some b) lo hi) keys false = Ok (map (fun _ => []) keys).
  Proof.
    rewrite no_items. induction keys as [|k keys IH]; cbn [get_values]; auto.
    replace (get_value tb fl (err_iter ENotIndexed) k) with (@None bytes).
    - rewrite IH. reflexivity.
    - unfold get_value. destruct (negb _); reflexivity.
  Qed.

  Lemma decode_nothing n : decode_values tb (repeat [] n) = Ok (repeat (t_nil tb) n).
  Proof. induction n as [|n IH]; cbn [repeat decode_values]; auto. rewrite IH. reflexivity. Qed.

  Lemma all_same {A} (x : A) l : (forall y, In y l -> y = x) -> l = repeat x (length l).
  Proof.
    induction l as [|y l IH]; intro H; cbn; auto. f_equal; [apply H; left; auto|apply IH; intros; apply H; right; auto].
  Qed.

  Lemma keys_nothing keys : env_ok ev -> get_keys tb ev db fl (Some b) keys false = Ok (repeat [] (length keys)).
  Proof.
    intro EV. destruct keys as [|k keys']; [reflexivity|]. unfold get_keys, sort_keys. rewrite values_nothing. f_equal.
    set (keys := k :: keys').
    set (vs := map (fun _ => []) (map (fun i => nth i keys []) (e_sort ev keys))).
    assert (LV : length vs = length keys).
    { unfold vs. rewrite !map_length. rewrite (Permutation.Permutation_length (env_sort_perm _ EV keys)), seq_length. reflexivity. }
    replace (length keys) with (length (reorder_values vs (e_sort ev keys))) by (unfold reorder_values; rewrite map_length, seq_length; auto).
    apply all_same. unfold reorder_values. intros y Hy. apply in_map_iff in Hy as [i [<- _]]. destruct (index_of i _); auto.
    destruct (nth_in_or_default n vs []) as [H|H]; auto. unfold vs in H at 2. apply in_map_iff in H as [? [E _]]. symmetry. exact E.
  Qed.

  Lemma points_nothing ps : env_ok ev -> get_points tb ev db fl (Some b) ps = Ok (repeat (t_nil tb) (length ps)).
  Proof.
    intro EV. destruct ps as [|p ps']; [reflexivity|]. set (ps := p :: ps'). unfold get_points.
    destruct (batched_chunks (St := list T) (length ps) ps) as [cs [C1 C2]]; [cbn; lia|]. rewrite C2.
    rewrite (is_chunks_small _ _ _ C1) by (auto; easy). cbn [run_chunks].
    rewrite keys_nothing, map_length, decode_nothing by auto. reflexivity.
  Qed.

  Lemma ranges_nothing sel fuel : (exists lo hi, sel = SRange lo hi) \/ (exists rs, sel = SRanges rs) -> short_sel (@sprimary T) sel ->
    get_sel tb ev fuel db fl (ABatch b) sel = Ok [].
  Proof.
    intros K SH. assert (X : scan_index tb ev fuel db fl primary_index sel [] false (ABatch b) = ([], Ok tt)).
    { apply scans_nothing; [left; auto|exact SH]. }
    destruct K as [[lo [hi ->]]|[rs ->]]; cbn [get_sel]; rewrite X; reflexivity.
  Qed.

  Lemma write_only_reads : env_ok ev ->
    (forall idx sel W (f : W -> bytes -> prog W) fuel rv s, isin idx -> short_sel (sindex_of idx) sel ->
       scan_index_for_each tb ev fuel db fl idx sel f rv (ABatch b) s = (s, Ok tt)) /\
    (forall q fuel, sorts srt -> (forall x, In x (q :: q_inter q) -> isin (q_index x) /\ short_sel (sindex_of (q_index x)) (q_sel x)) ->
       (forall x, In x (q_inter q) -> plain_part x) ->
       (q_after q = None \/ q_less q <> None \/ q_inter q <> []) -> (q_offset q < 2 ^ 63)%N -> (q_limit q < 2 ^ 63)%N ->
       execute tb ev srt fuel db fl q (ABatch b) = Ok []) /\
    (forall p fuel, get_sel tb ev fuel db fl (ABatch b) (SPoint p) = Err ENotFound) /\
    (forall ps fuel, get_sel tb ev fuel db fl (ABatch b) (SPoints ps) = Ok (repeat (t_nil tb) (length ps))) /\
    (forall sel fuel, (exists lo hi, sel = SRange lo hi) \/ (exists rs, sel = SRanges rs) -> short_sel (@sprimary T) sel ->
       get_sel tb ev fuel db fl (ABatch b) sel = Ok []) /\
    (forall p, exist tb db fl (Some b) p = false).
  Proof.
    intro EV. split; [intros; apply scans_nothing; auto|]. split; [intros; apply query_nothing; auto|].
    split; [|split; [intros; apply points_nothing; auto|split; [intros; apply ranges_nothing; auto|]]].
    - intros p fuel. cbn [get_sel batch_of]. unfold get_one, db_get. rewrite WO. destruct (negb _); reflexivity.
    - intro p. unfold exist, db_get. rewrite WO. apply andb_false_r.
  Qed.
End W.
