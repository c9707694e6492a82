(** The scan properties, in the form of the theorems. *)

From Coq Require Import List NArith Lia Bool Arith Sorting.Sorted Sorting.Permutation.
From Verif.Model Require Import Bytes Go Keys Pebble Index Table Scan.
From Verif.Spec Require Import KeySpec StoreSpec TableSpec ScanSpec.
From Verif.Proofs Require Import BytesFacts KeysFacts PebbleFacts TableFacts WriteFacts ReadFacts IterFacts ScanFacts ScanOffer ScanRows.
Import ListNotations.

Section P.
  Context {T F : Type}.
  Variable tb : table T F.
  Hypothesis G : good_table tb.
  Variable ev : env T.
  Hypothesis EV : env_ok ev.
  Notation sc := (schema_of tb).
  Let LAW := good_lawful _ G.
  Let SF : ser_fresh tb := fun r v => good_ser _ G r v (t_nil tb).

  Variable db : kv.
  Variable fl : F.
  Variable ob : optb.
  Variable m : tmap T.
  Hypothesis KV : kv_ok db.
  Hypothesis NB : ob <> NilBatch.
  Hypothesis RD : readable (batch_of ob).
  Hypothesis CO : consistent tb (view db (batch_of ob)) fl m.
  Let REP := cons_rep _ _ _ _ CO.
  Notation st := (view db (batch_of ob)).
  Notation open := (db_iter db (batch_of ob)).

  Lemma listing_stored ix P l r : listing sc ix m P l -> In r l -> m (s_pk sc r) = Some r.
  Proof. intros [_ H] I. apply H in I. tauto. Qed.

  Lemma listings_stored ix Ps l : listings sc ix m Ps l -> forall r, In r l -> m (s_pk sc r) = Some r.
  Proof.
    induction 1 as [|P Ps l ls HL H IH]; [easy|]. intros r Hr. apply in_app_iff in Hr as [Hr|Hr]; auto.
    eapply listing_stored; eauto.
  Qed.

  Lemma stored_value r : m (s_pk sc r) = Some r -> exists v, t_ser tb r = Some v /\ t_deser tb v (t_nil tb) = Some r /\
     kv_get st (data_key tb r) = Some v.
  Proof. intro H. destruct (rep_some (LAW:=LAW) _ _ _ _ REP H) as [v [E1 E2]]. exists v. eauto. Qed.

  (** the selector opens an iterator over the entries of the rows [l] *)
  Definition opens (idx : index T) (sel : selector T) (l : list T) : Prop :=
    exists b, index_iter tb db ob idx sel = Ok b /\ fresh b /\
      contents open b = map (fun r => (entry_key sc (sindex_of idx) r, val_of tb idx r)) l.

  Lemma within_all {W} (f : W -> bytes -> prog W) ix rv l s fuel : length l <= fuel -> within f (keyed sc ix (dir rv l)) s fuel.
  Proof. intro H. left. unfold keyed. rewrite map_length. destruct rv; cbn [dir]; rewrite ?rev_length; auto. Qed.

  Lemma primary_opens sel l : opens primary_index sel l -> (forall r, In r l -> m (s_pk sc r) = Some r) ->
    forall rv W (f : W -> bytes -> prog W) fuel s, within f (keyed sc (sindex_of primary_index) (dir rv l)) s fuel ->
      visited ev f (keyed sc (sindex_of primary_index) (dir rv l)) s
        (scan_index_for_each tb ev fuel db fl primary_index sel f rv ob s).
  Proof.
    intros [b [E [FR C]]] ST rv W f fuel s LE. unfold scan_index_for_each. rewrite E.
    change (Byte.eqb (ix_id primary_index) primary_index_id) with true.
    pose proof (scan_delivers open rv b FR) as D. rewrite C in D.
    set (en := fun r : T => (entry_key sc (sindex_of primary_index) r, val_of tb primary_index r)) in *.
    match type of D with delivers _ _ _ ?x => assert (ED : x = map en (dir rv l)) by (destruct rv; cbn [dir]; rewrite ?map_rev; reflexivity) end.
    rewrite ED in D.
    assert (IN : forall r, In r (dir rv l) -> m (s_pk sc r) = Some r).
    { intros r Hr. apply ST. destruct rv; cbn in Hr; auto. apply in_rev; auto. }
    assert (DS : forall r, In r (dir rv l) -> t_deser tb (snd (en r)) (t_nil tb) = Some r).
    { intros r Hr. destruct (stored_value r (IN r Hr)) as [v [E1 [E2 _]]]. unfold en, val_of. cbn. rewrite E1. exact E2. }
    assert (CM : combine (map fst (map en (dir rv l))) (dir rv l) = keyed sc (sindex_of primary_index) (dir rv l)).
    { unfold keyed. generalize (dir rv l) as rows. induction rows as [|r rows IH]; cbn; f_equal; auto. }
    rewrite <- CM in *. apply primary_visited; auto.
    clear - DS. revert DS. generalize (dir rv l) as rows. induction rows as [|r rows IH]; intro DS; constructor.
    - apply DS. left; auto.
    - apply IH. intros; apply DS; right; auto.
  Qed.

  Lemma secondary_opens idx sel l : In idx (t_indexes tb) -> 0 < t_prefetch tb -> opens idx sel l ->
    (forall r, In r l -> m (s_pk sc r) = Some r) ->
    forall rv W (f : W -> bytes -> prog W) fuel s, loads_steadily f -> within f (keyed sc (sindex_of idx) (dir rv l)) s fuel ->
      visited ev f (keyed sc (sindex_of idx) (dir rv l)) s
        (scan_index_for_each tb ev fuel db fl idx sel f rv ob s).
  Proof.
    intros HI PRE [b [E [FR C]]] ST rv W f fuel s [L [L1 L2]] LE. unfold scan_index_for_each. rewrite E.
    pose proof (law_nonzero _ LAW _ HI) as NZ.
    replace (Byte.eqb (ix_id idx) primary_index_id) with false.
    2:{ symmetry. destruct (Byte.eqb (ix_id idx) primary_index_id) eqn:X; auto. apply Byte.byte_dec_bl in X. easy. }
    pose proof (scan_delivers open rv b FR) as D. rewrite C in D.
    set (en := fun r : T => (entry_key sc (sindex_of idx) r, val_of tb idx r)) in *.
    match type of D with delivers _ _ _ ?x => assert (ED : x = map en (dir rv l)) by (destruct rv; cbn [dir]; rewrite ?map_rev; reflexivity) end.
    rewrite ED in D.
    assert (IN : forall r, In r (dir rv l) -> m (s_pk sc r) = Some r).
    { intros r Hr. apply ST. destruct rv; cbn in Hr; auto. apply in_rev; auto. }
    (* read the row back from the entry *)
    set (dk := fun e : entry => match to_data_key_bytes (fst e) [] with Ok k => k | _ => [] end).
    set (val := fun e : entry => match kv_get st (dk e) with Some v => v | None => [] end).
    set (row := fun e : entry => match t_deser tb (val e) (t_nil tb) with Some r => r | None => t_nil tb end).
    assert (DK : forall r, In r (dir rv l) -> to_data_key_bytes (fst (en r)) [] = Ok (data_key tb r)).
    { intros r Hr. pose proof (stored_fits tb LAW idx (or_intror HI) _ _ r REP (IN r Hr)) as [F1 F2].
      unfold en. cbn [fst]. rewrite (data_key_eq tb LAW).
      apply (to_data_key_bytes_layout (t_id tb) (ix_id idx) (si_key (sindex_of idx) r) (si_ord (sindex_of idx) r) (s_pk sc r) [] F1 F2). }
    assert (DK' : forall r, In r (dir rv l) -> dk (en r) = data_key tb r) by (intros r Hr; unfold dk; rewrite DK; auto).
    assert (VV : forall r, In r (dir rv l) -> kv_get st (data_key tb r) = Some (val (en r)) /\ t_deser tb (val (en r)) (t_nil tb) = Some r).
    { intros r Hr. destruct (stored_value r (IN r Hr)) as [v [_ [E2 E3]]]. unfold val. rewrite DK', E3 by auto. auto. }
    assert (RW : forall r, In r (dir rv l) -> row (en r) = r) by (intros r Hr; unfold row; rewrite (proj2 (VV r Hr)); auto).
    assert (K1 : keyed sc (sindex_of idx) (dir rv l) = map (fun e => (fst e, row e)) (map en (dir rv l))).
    { unfold keyed. rewrite map_map. apply map_ext_in. intros r Hr. rewrite RW by auto. reflexivity. }
    rewrite K1 in *.
    eapply (secondary_visited tb ev f open rv db fl (batch_of ob) dk L L1 L2 row val PRE (length (map en (dir rv l)))); auto.
    - intros e He. apply in_map_iff in He as [r [<- Hr]]. rewrite DK, DK'; auto.
    - intros e He. apply in_map_iff in He as [r [<- Hr]]. rewrite (proj2 (VV r Hr)), RW; auto.
    - intros l' INC. destruct (choose_list (fun e r => In r (dir rv l) /\ e = en r) l') as [pts F2].
      { intros e He. apply INC in He. apply in_map_iff in He as [r [<- Hr]]. eauto. }
      assert (E1 : map dk l' = map (data_key tb) pts).
      { clear - F2 DK'. induction F2 as [|e r es rs [H1 ->] F2 IH]; auto. cbn [map]. rewrite IH, DK'; auto. }
      assert (E2 : map val l' = map (value_at (tb:=tb) st) pts).
      { clear - F2 VV. induction F2 as [|e r es rs [H1 ->] F2 IH]; auto. cbn [map]. rewrite IH. f_equal.
        unfold value_at. rewrite (proj1 (VV r H1)). reflexivity. }
      rewrite E1, E2. rewrite (get_keys_err_eq (tb:=tb) (ev:=ev) (LAW:=LAW) (EV:=EV) db fl (batch_of ob) pts KV (cons_covers _ _ _ _ CO) RD).
      replace (forallb _ pts) with true; auto. symmetry. apply forallb_forall. intros r Hr.
      assert (Hr' : In r (dir rv l)).
      { clear - F2 Hr. induction F2 as [|e x es rs [H1 _] F2 IH]; [easy|]. destruct Hr as [->|Hr]; auto. }
      rewrite (proj1 (VV r Hr')). reflexivity.
  Qed.

  Lemma offered_opens idx sel l : In idx (t_indexes tb) -> 0 < t_prefetch tb -> opens idx sel l ->
    (forall r, In r l -> m (s_pk sc r) = Some r) ->
    forall rv W (f : W -> bytes -> prog W) s, loads_at_most_once f ->
      (forall out, offered ev f (t_prefetch tb) 0 0 (keyed sc (sindex_of idx) (dir rv l)) s out ->
         exists n, forall fuel, n <= fuel -> scan_index_for_each tb ev fuel db fl idx sel f rv ob s = out) /\
      (forall fuel, snd (scan_index_for_each tb ev fuel db fl idx sel f rv ob s) <> Diverge ->
         offered ev f (t_prefetch tb) 0 0 (keyed sc (sindex_of idx) (dir rv l)) s (scan_index_for_each tb ev fuel db fl idx sel f rv ob s)).
  Proof.
    intros HI PRE [b [E [FR C]]] ST rv W f s ONCE. unfold scan_index_for_each. rewrite E.
    pose proof (law_nonzero _ LAW _ HI) as NZ.
    replace (Byte.eqb (ix_id idx) primary_index_id) with false.
    2:{ symmetry. destruct (Byte.eqb (ix_id idx) primary_index_id) eqn:X; auto. apply Byte.byte_dec_bl in X. easy. }
    pose proof (scan_delivers open rv b FR) as D. rewrite C in D.
    set (en := fun r : T => (entry_key sc (sindex_of idx) r, val_of tb idx r)) in *.
    match type of D with delivers _ _ _ ?x => assert (ED : x = map en (dir rv l)) by (destruct rv; cbn [dir]; rewrite ?map_rev; reflexivity) end.
    rewrite ED in D.
    assert (IN : forall r, In r (dir rv l) -> m (s_pk sc r) = Some r).
    { intros r Hr. apply ST. destruct rv; cbn in Hr; auto. apply in_rev; auto. }
    (* read the row back from the entry *)
    set (dk := fun e : entry => match to_data_key_bytes (fst e) [] with Ok k => k | _ => [] end).
    set (val := fun e : entry => match kv_get st (dk e) with Some v => v | None => [] end).
    set (row := fun e : entry => match t_deser tb (val e) (t_nil tb) with Some r => r | None => t_nil tb end).
    assert (DK : forall r, In r (dir rv l) -> to_data_key_bytes (fst (en r)) [] = Ok (data_key tb r)).
    { intros r Hr. pose proof (stored_fits tb LAW idx (or_intror HI) _ _ r REP (IN r Hr)) as [F1 F2].
      unfold en. cbn [fst]. rewrite (data_key_eq tb LAW).
      apply (to_data_key_bytes_layout (t_id tb) (ix_id idx) (si_key (sindex_of idx) r) (si_ord (sindex_of idx) r) (s_pk sc r) [] F1 F2). }
    assert (DK' : forall r, In r (dir rv l) -> dk (en r) = data_key tb r) by (intros r Hr; unfold dk; rewrite DK; auto).
    assert (VV : forall r, In r (dir rv l) -> kv_get st (data_key tb r) = Some (val (en r)) /\ t_deser tb (val (en r)) (t_nil tb) = Some r).
    { intros r Hr. destruct (stored_value r (IN r Hr)) as [v [_ [E2 E3]]]. unfold val. rewrite DK', E3 by auto. auto. }
    assert (RW : forall r, In r (dir rv l) -> row (en r) = r) by (intros r Hr; unfold row; rewrite (proj2 (VV r Hr)); auto).
    assert (K1 : keyed sc (sindex_of idx) (dir rv l) = map (fun e => (fst e, row e)) (map en (dir rv l))).
    { unfold keyed. rewrite map_map. apply map_ext_in. intros r Hr. rewrite RW by auto. reflexivity. }
    rewrite K1 in *.
    set (all := map en (dir rv l)) in *.
    assert (TD : forall e, In e all -> to_data_key_bytes (fst e) [] = Ok (dk e)).
    { intros e He. apply in_map_iff in He as [r [<- Hr]]. rewrite DK, DK'; auto. }
    assert (DS : forall e, In e all -> t_deser tb (val e) (t_nil tb) = Some (row e)).
    { intros e He. apply in_map_iff in He as [r [<- Hr]]. rewrite (proj2 (VV r Hr)), RW; auto. }
    assert (GK : forall l', incl l' all -> get_keys tb ev db fl (batch_of ob) (map dk l') true = Ok (map val l')).
    { intros l' INC. destruct (choose_list (fun e r => In r (dir rv l) /\ e = en r) l') as [pts F2].
      { intros e He. apply INC in He. apply in_map_iff in He as [r [<- Hr]]. eauto. }
      assert (E1 : map dk l' = map (data_key tb) pts).
      { clear - F2 DK'. induction F2 as [|e r es rs [H1 ->] F2 IH]; auto. cbn [map]. rewrite IH, DK'; auto. }
      assert (E2 : map val l' = map (value_at (tb:=tb) st) pts).
      { clear - F2 VV. induction F2 as [|e r es rs [H1 ->] F2 IH]; auto. cbn [map]. rewrite IH. f_equal.
        unfold value_at. rewrite (proj1 (VV r H1)). reflexivity. }
      rewrite E1, E2. rewrite (get_keys_err_eq (tb:=tb) (ev:=ev) (LAW:=LAW) (EV:=EV) db fl (batch_of ob) pts KV (cons_covers _ _ _ _ CO) RD).
      replace (forallb _ pts) with true; auto. symmetry. apply forallb_forall. intros r Hr.
      assert (Hr' : In r (dir rv l)).
      { clear - F2 Hr. induction F2 as [|e x es rs [H1 _] F2 IH]; [easy|]. destruct Hr as [->|Hr]; auto. }
      rewrite (proj1 (VV r Hr')). reflexivity. }
    split.
    - intros out O. destruct (complete tb ev f open rv db fl (batch_of ob) dk row val all PRE ONCE TD DS GK _ _ _ _ _ O) as [Q _].
      apply (Q eq_refl _ all); auto. apply incl_refl.
    - intros fuel ND. apply (second_sound tb ev f open rv db fl (batch_of ob) dk row val all PRE ONCE TD DS GK); auto. apply incl_refl.
  Qed.

  Lemma exact_opens idx sel : In idx (primary_index :: t_indexes tb) -> exact_selector tb idx m sel ->
    exists l, selected tb idx m sel l /\ opens idx sel l /\ forall r, In r l -> m (s_pk sc r) = Some r.
  Proof.
    intros HI EX. destruct (index_iter_rows tb LAW idx HI db ob m KV RD REP sel NB EX) as [b [l [E [FR [C LS]]]]].
    exists l. split; auto. split; [exists b; auto|]. eapply listings_stored. exact LS.
  Qed.

  Lemma really_opens idx sel : In idx (primary_index :: t_indexes tb) -> short_sel (sindex_of idx) sel ->
    exists l, visits tb idx m sel l /\ opens idx sel l /\ forall r, In r l -> m (s_pk sc r) = Some r.
  Proof.
    intros HI EX. destruct (index_iter_really tb LAW idx HI db ob m KV RD REP sel NB EX) as [b [l [E [FR [C LS]]]]].
    exists l. split; auto. split; [exists b; auto|]. eapply listings_stored. exact LS.
  Qed.

  Lemma scan_primary sel : exact_selector tb primary_index m sel ->
    exists l, selected tb primary_index m sel l /\
    forall rv W (f : W -> bytes -> prog W) fuel s, within f (keyed sc (sindex_of primary_index) (dir rv l)) s fuel ->
      visited ev f (keyed sc (sindex_of primary_index) (dir rv l)) s
        (scan_index_for_each tb ev fuel db fl primary_index sel f rv ob s).
  Proof.
    intro EX. destruct (exact_opens primary_index sel (or_introl eq_refl) EX) as [l [S [O ST]]]. exists l. split; auto.
    intros. apply primary_opens; auto.
  Qed.

  Lemma scan_secondary idx sel : In idx (t_indexes tb) -> 0 < t_prefetch tb -> exact_selector tb idx m sel ->
    exists l, selected tb idx m sel l /\
    forall rv W (f : W -> bytes -> prog W) fuel s, loads_steadily f -> within f (keyed sc (sindex_of idx) (dir rv l)) s fuel ->
      visited ev f (keyed sc (sindex_of idx) (dir rv l)) s
        (scan_index_for_each tb ev fuel db fl idx sel f rv ob s).
  Proof.
    intros HI PRE EX. destruct (exact_opens idx sel (or_intror HI) EX) as [l [S [O ST]]]. exists l. split; auto.
    intros. apply secondary_opens; auto.
  Qed.

  Lemma scan_offered idx sel : In idx (t_indexes tb) -> 0 < t_prefetch tb -> exact_selector tb idx m sel ->
    exists l, selected tb idx m sel l /\
    forall rv W (f : W -> bytes -> prog W) s, loads_at_most_once f ->
      (forall out, offered ev f (t_prefetch tb) 0 0 (keyed sc (sindex_of idx) (dir rv l)) s out ->
         exists n, forall fuel, n <= fuel -> scan_index_for_each tb ev fuel db fl idx sel f rv ob s = out) /\
      (forall fuel, snd (scan_index_for_each tb ev fuel db fl idx sel f rv ob s) <> Diverge ->
         offered ev f (t_prefetch tb) 0 0 (keyed sc (sindex_of idx) (dir rv l)) s (scan_index_for_each tb ev fuel db fl idx sel f rv ob s)).
  Proof.
    intros HI PRE EX. destruct (exact_opens idx sel (or_intror HI) EX) as [l [S [O ST]]]. exists l. split; auto.
    intros. apply offered_opens; auto.
  Qed.

  (** ** ScanIndex, Scan, Get *)

  Lemma append_visit (l : list (bytes * T)) : forall acc, visit append_cb l acc = (acc ++ map snd l, Ok tt).
  Proof.
    assert (X : forall acc, visit_go append_cb l acc = inr (acc ++ map snd l)).
    { induction l as [|[k r] l IH]; intro acc; cbn [visit_go append_cb answer map snd]; [rewrite app_nil_r; auto|].
      rewrite IH, <- app_assoc. reflexivity. }
    intro acc. unfold visit. rewrite X. reflexivity.
  Qed.

  Lemma append_steady : loads_steadily (@append_cb T).
  Proof.
    exists (fun _ => True). assert (X : forall s k, one_get (@append_cb T s k) (fun _ => True)).
    { intros s k. eexists. split; [reflexivity|]. intro r. exists (s ++ [r]), true, None. auto. }
    auto.
  Qed.

  Lemma keyed_rows ix l : map snd (keyed sc ix l) = l.
  Proof. unfold keyed. rewrite map_map. apply map_id. Qed.

  Lemma scan_index_opens idx sel l : In idx (primary_index :: t_indexes tb) -> 0 < t_prefetch tb ->
    (forall n, e_ctx ev n = false) -> opens idx sel l -> (forall r, In r l -> m (s_pk sc r) = Some r) ->
    forall rv fuel acc, length l <= fuel -> scan_index tb ev fuel db fl idx sel acc rv ob = (acc ++ dir rv l, Ok tt).
  Proof.
    intros HI PRE Q O ST rv fuel acc LE. unfold scan_index. destruct HI as [<-|HI].
    - rewrite (proj1 (primary_opens sel l O ST rv _ append_cb fuel acc (within_all _ _ _ _ _ _ LE)) Q), append_visit, keyed_rows. reflexivity.
    - rewrite (proj1 (secondary_opens idx sel l HI PRE O ST rv _ append_cb fuel acc append_steady (within_all _ _ _ _ _ _ LE)) Q), append_visit, keyed_rows. reflexivity.
  Qed.

  Lemma scan_index_rows idx sel : In idx (primary_index :: t_indexes tb) -> 0 < t_prefetch tb ->
    (forall n, e_ctx ev n = false) -> exact_selector tb idx m sel ->
    exists l, selected tb idx m sel l /\ forall rv fuel acc, length l <= fuel ->
      scan_index tb ev fuel db fl idx sel acc rv ob = (acc ++ dir rv l, Ok tt).
  Proof.
    intros HI PRE Q EX. destruct (exact_opens idx sel HI EX) as [l [S [O ST]]]. exists l. split; auto.
    intros. apply scan_index_opens; auto.
  Qed.

  Lemma listings_in ix Ps l : listings sc ix m Ps l -> forall r,
    In r l <-> exists P, In P Ps /\ m (s_pk sc r) = Some r /\ si_filter ix r = true /\ P r.
  Proof.
    induction 1 as [|P Ps l ls HL H IH]; intro r.
    - split; [easy|]. intros [P [[] _]].
    - rewrite in_app_iff, IH, (proj2 HL r). split.
      + intros [X|[Q [HQ X]]]; [exists P|exists Q]; cbn; tauto.
      + intros [Q [[<-|HQ] X]]; [left; tauto|right; exists Q; tauto].
  Qed.

  Lemma never_misses idx sel : In idx (primary_index :: t_indexes tb) -> 0 < t_prefetch tb ->
    (forall n, e_ctx ev n = false) -> short_sel (sindex_of idx) sel ->
    exists l, (forall rv fuel acc, length l <= fuel ->
      scan_index tb ev fuel db fl idx sel acc rv ob = (acc ++ dir rv l, Ok tt)) /\
      (forall r, In r l -> m (s_pk sc r) = Some r /\ si_filter (sindex_of idx) r = true) /\
      (forall P r, In P (selections sc (sindex_of idx) (Byte.eqb (ix_id idx) x00) sel) -> m (s_pk sc r) = Some r ->
         si_filter (sindex_of idx) r = true -> P r -> In r l).
  Proof.
    intros HI PRE Q SH. destruct (index_iter_over tb LAW idx HI db ob m KV RD REP sel NB SH) as [b [l [Ps' [E [FR [C [LS WD]]]]]]].
    exists l. split; [|split].
    - intros. apply scan_index_opens; auto; [exists b; auto|]. eapply listings_stored. exact LS.
    - intros r Hr. apply (listings_in _ _ _ LS) in Hr as [P [_ [A [B _]]]]. auto.
    - intros P r HP A B X. apply (listings_in _ _ _ LS).
      assert (Y : exists P', In P' Ps' /\ wider tb m P P').
      { change (Byte.eqb (ix_id idx) x00) with (prim idx) in HP. clear - HP WD. induction WD as [|p p' ps ps' H W IH]; [easy|].
        destruct HP as [->|HP]; [exists p'; split; [left|]; auto|]. destruct IH as [P' [I1 I2]]; auto. exists P'. split; [right|]; auto. }
      destruct Y as [P' [I1 I2]]. exists P'. split; auto.
  Qed.

  Lemma get_range_rows sel : (exists lo hi, sel = SRange lo hi) \/ (exists rs, sel = SRanges rs) ->
    0 < t_prefetch tb -> (forall n, e_ctx ev n = false) -> exact_selector tb primary_index m sel ->
    exists l, selected tb primary_index m sel l /\ forall fuel, length l <= fuel -> get_sel tb ev fuel db fl ob sel = Ok l.
  Proof.
    intros SH PRE Q EX. destruct (scan_index_rows primary_index sel (or_introl eq_refl) PRE Q EX) as [l [S V]].
    exists l. split; auto. intros fuel LE. specialize (V false fuel [] LE). cbn [dir app] in V.
    destruct SH as [[lo [hi ->]]|[rs ->]]; cbn [get_sel]; rewrite V; reflexivity.
  Qed.

  (** every listing is unique *)
  Lemma sorted_unique {A} (R : A -> A -> Prop) : (forall a, ~ R a a) -> forall l l', (forall a b, In a l -> In b l -> R a b -> ~ R b a) ->
    StronglySorted R l -> StronglySorted R l' -> (forall x, In x l <-> In x l') -> l = l'.
  Proof.
    intros IR. induction l as [|a l IH]; intros l' AS S S' E.
    - destruct l' as [|b l']; auto. destruct (proj2 (E b) (or_introl eq_refl)).
    - destruct l' as [|b l']; [destruct (proj1 (E a) (or_introl eq_refl))|].
      inversion S as [|? ? S1 F1]; subst. inversion S' as [|? ? S2 F2]; subst. rewrite Forall_forall in *.
      assert (X : a = b).
      { destruct (proj1 (E a) (or_introl eq_refl)) as [<-|H1]; auto. destruct (proj2 (E b) (or_introl eq_refl)) as [->|H2]; auto.
        exfalso. apply (AS a b (or_introl eq_refl) (or_intror H2)); auto. }
      subst b. f_equal. apply IH; auto.
      + intros; apply AS; auto; right; auto.
      + intro x. split; intro H.
        * destruct (proj1 (E x) (or_intror H)) as [<-|]; auto. exfalso. apply (IR a). apply F1; auto.
        * destruct (proj2 (E x) (or_intror H)) as [<-|]; auto. exfalso. apply (IR a). apply F2; auto.
  Qed.

  Lemma pos_irrefl ix (a : T) : ~ pos_lt sc ix a a.
  Proof.
    unfold pos_lt, pos_cmp. cbn [first_diff fold_right]. unfold shortlex. rewrite !Nat.compare_refl, !bcmp_refl. easy.
  Qed.

  Lemma listing_unique idx P l l' : In idx (primary_index :: t_indexes tb) ->
    listing sc (sindex_of idx) m P l -> listing sc (sindex_of idx) m P l' -> l = l'.
  Proof.
    intros HI [S I] [S' I']. eapply sorted_unique; eauto.
    - apply pos_irrefl.
    - intros a b Ha Hb H1 H2. apply I in Ha, Hb.
      apply (pos_lt_iff tb idx) in H1; [|eapply (stored_fits tb LAW idx HI _ m); [exact REP|tauto]..].
      apply (pos_lt_iff tb idx) in H2; [|eapply (stored_fits tb LAW idx HI _ m); [exact REP|tauto]..].
      eapply blt_asym; eauto.
    - intro x. rewrite I, I'. tauto.
  Qed.

  Lemma listings_unique idx Ps : In idx (primary_index :: t_indexes tb) -> forall l l',
    listings sc (sindex_of idx) m Ps l -> listings sc (sindex_of idx) m Ps l' -> l = l'.
  Proof.
    intros HI. induction Ps as [|P Ps IH]; intros l l' H H'; inversion H; inversion H'; subst; auto.
    f_equal; [eapply listing_unique; eauto|auto].
  Qed.

  Lemma selected_unique idx sel l l' : In idx (primary_index :: t_indexes tb) ->
    selected tb idx m sel l -> selected tb idx m sel l' -> l = l'.
  Proof. intros HI. apply listings_unique; auto. Qed.
End P.
