(** Intersecting queries: C30. *)

From Coq Require Import List NArith ZArith Lia Bool Arith Sorting.Sorted Sorting.Permutation.
From Verif.Model Require Import Bytes Go Keys Pebble Index Table Scan Query.
From Verif.Spec Require Import KeySpec StoreSpec TableSpec ScanSpec QuerySpec.
From Verif.Proofs Require Import BytesFacts KeysFacts PebbleFacts TableFacts WriteFacts ReadFacts IterFacts ScanFacts ScanRows ScanProps ScanTop QueryFacts QueryProps.
Import ListNotations.

Lemma set_add_in k l x : In x (set_add k l) <-> x = k \/ In x l.
Proof.
  induction l as [|y l IH]; cbn [set_add]; [cbn; intuition|].
  destruct (bcmp k y) eqn:E.
  - apply bcmp_eq in E. subst. cbn. intuition.
  - cbn. intuition.
  - cbn. rewrite IH. intuition.
Qed.

Lemma set_add_sorted k l : StronglySorted blt l -> StronglySorted blt (set_add k l).
Proof.
  induction 1 as [|y l S IH FA]; cbn [set_add]; [repeat constructor|].
  rewrite Forall_forall in FA. destruct (bcmp k y) eqn:E.
  - constructor; auto. apply Forall_forall; auto.
  - constructor; [constructor; auto; apply Forall_forall; auto|]. constructor; auto. apply Forall_forall. intros x Hx.
    eapply blt_trans; [exact E|auto].
  - constructor; auto. apply Forall_forall. intros x Hx. apply set_add_in in Hx as [->|Hx]; auto.
    unfold blt. rewrite bcmp_antisym, E. reflexivity.
Qed.

Section P.
  Context {T F : Type}.
  Variable tb : table T F.
  Hypothesis G : good_table tb.
  Variable ev : env T.
  Hypothesis EV : env_ok ev.
  Variable srt : (T -> T -> bool) -> list T -> list T.
  Variables (db : kv) (fl : F) (ob : optb) (m : tmap T).
  Hypothesis R : reads tb db fl ob m.
  Hypothesis Q : quiet ev.
  Variable m0 : tmap T.
  Hypothesis CO0 : consistent tb db fl m0.
  Notation sc := (schema_of tb).
  Notation isin idx := (In idx (primary_index :: t_indexes tb)).
  Notation open := (db_iter db (batch_of ob)).

  Let LAW : lawful tb := good_lawful _ G.

  Lemma collect_all within dk : forall l it fuel n acc,
    delivers open false it l -> (forall e, In e l -> to_data_key_bytes (fst e) [] = Ok (dk e)) -> length l <= fuel ->
    StronglySorted blt acc ->
    exists n' keys, collect_keys ev open within fuel n it acc = Ok (n', keys) /\ StronglySorted blt keys /\
      forall k, In k keys <-> In k acc \/ (exists e, In e l /\ dk e = k) /\ match within with None => True | Some w => In k w end.
  Proof.
    induction l as [|e l IH]; intros it fuel n acc D TD LE SA.
    - inversion D as [? N|]; subst. specialize (N 0). cbn in N. exists n, acc.
      split; [destruct fuel; cbn [collect_keys]; rewrite N; auto|]. split; auto. intro k. split; auto.
      intros [H|[[x [[] _]] _]]; auto.
    - inversion D as [|? ? ? V EK EV' D']; subst. destruct fuel as [|fuel]; [cbn in LE; lia|].
      cbn [collect_keys]. rewrite V, (proj1 Q), EK, (TD e (or_introl eq_refl)).
      set (hit := match within with None => true | Some w => existsb (beqb (dk e)) w end).
      assert (HIT : hit = true <-> match within with None => True | Some w => In (dk e) w end).
      { unfold hit. destruct within as [w|]; [|tauto]. rewrite existsb_exists. split.
        - intros [x [Hx E]]. apply beqb_eq in E. subst. auto.
        - intro H. exists (dk e). split; auto. apply beqb_refl. }
      destruct (IH (bi_next open it) fuel (S n) (if hit then set_add (dk e) acc else acc) D') as [n' [keys [E1 [E2 E3]]]].
      { intros; apply TD; right; auto. } { cbn in LE; lia. } { destruct hit; auto using set_add_sorted. }
      exists n', keys. split; auto. split; auto. intro k. rewrite E3. clear E1 E2 E3 IH.
      destruct hit eqn:EH.
      + rewrite set_add_in. split.
        * intros [[->|H]|[[x [Hx E]] W]]; auto; [right; split; [exists e; split; [left|]; auto|apply HIT; auto]|].
          right. split; auto. exists x. split; [right|]; auto.
        * intros [H|[[x [[<-|Hx] E]] W]]; auto. right. split; eauto.
      + split.
        * intros [H|[[x [Hx E]] W]]; auto. right. split; auto. exists x. split; [right|]; auto.
        * intros [H|[[x [[<-|Hx] E]] W]]; auto; [|right; split; eauto]. subst k. apply HIT in W. discriminate.
  Qed.

  (** the rows of the selectors, and when they are these *)
  Variable EXA : index T -> selector T -> Prop.
  Variable SEL : index T -> selector T -> list T -> Prop.
  Hypothesis OP : forall idx sel, isin idx -> EXA idx sel ->
    exists l, SEL idx sel l /\ opens tb db ob idx sel l /\ forall r, In r l -> m (s_pk sc r) = Some r.

  (** one part of the intersection *)
  Lemma part idx sel : isin idx -> EXA idx sel ->
    exists l it, SEL idx sel l /\ (forall r, In r l -> m (s_pk sc r) = Some r) /\
      index_iter tb db ob idx sel = Ok it /\
      forall within fuel n, length l <= fuel ->
        exists n' keys, collect_keys ev open within fuel n (bi_first open it) [] = Ok (n', keys) /\ StronglySorted blt keys /\
          forall k, In k keys <-> (exists r, In r l /\ data_key tb r = k) /\ match within with None => True | Some w => In k w end.
  Proof.
    intros HI EX.
    destruct (OP idx sel HI EX)
      as [l [S [[b [E [FR C]]] ST]]].
    exists l, b. split; auto. split; auto. split; auto. intros within fuel n LE.
    pose proof (scan_delivers open false b FR) as D. cbn [scan_first] in D. rewrite C in D.
    set (en := fun r : T => (entry_key sc (sindex_of idx) r, val_of tb idx r)) in *.
    set (dk := fun e : entry => match to_data_key_bytes (fst e) [] with Ok k => k | _ => [] end).
    assert (DK : forall r, In r l -> to_data_key_bytes (fst (en r)) [] = Ok (data_key tb r)).
    { intros r Hr. pose proof (stored_fits tb LAW idx HI _ _ r (cons_rep _ _ _ _ (reads_cons _ _ _ _ _ R)) (ST r Hr)) as [F1 F2].
      unfold en. cbn [fst]. rewrite (data_key_eq tb LAW).
      apply (to_data_key_bytes_layout (t_id tb) (ix_id idx) (si_key (sindex_of idx) r) (si_ord (sindex_of idx) r) (s_pk sc r) [] F1 F2). }
    destruct (collect_all within dk (map en l) (bi_first open b) fuel n [] D) as [n' [keys [E1 [E2 E3]]]].
    - intros e He. apply in_map_iff in He as [r [<- Hr]]. unfold dk. rewrite DK by auto. reflexivity.
    - rewrite map_length. exact LE.
    - constructor.
    - exists n', keys. split; auto. split; auto. intro k. rewrite E3. split.
      + intros [[]|[[e [He Ek]] W]]. split; auto. apply in_map_iff in He as [r [<- Hr]]. exists r. split; auto.
        unfold dk in Ek. rewrite DK in Ek by auto. exact Ek.
      + intros [[r [Hr Ek]] W]. right. split; auto. exists (en r). split; [apply in_map; auto|]. unfold dk. rewrite DK by auto. exact Ek.
  Qed.

  Lemma same_data_key x y : data_key tb x = data_key tb y -> s_pk sc x = s_pk sc y.
  Proof.
    rewrite !(data_key_eq tb LAW). intro E. apply layout_inj in E; [|unfold fits32; cbn; lia..]. tauto.
  Qed.

  Lemma data_key_lt x y : blt (data_key tb x) (data_key tb y) <-> blt (s_pk sc x) (s_pk sc y).
  Proof.
    assert (X : forall r, data_key tb r = layout (t_id tb) x00 [] [] [] ++ s_pk sc r) by (intro r; rewrite (data_key_eq tb LAW); reflexivity).
    rewrite !X. unfold blt. rewrite bcmp_app_l. tauto.
  Qed.

  (** the remaining parts *)
  Lemma rest_parts qs : (forall q, In q qs -> isin (q_index q) /\ EXA (q_index q) (q_sel q)) ->
    exists ls, Forall2 (fun q l => SEL (q_index q) (q_sel q) l) qs ls /\
      (forall l r, In l ls -> In r l -> m (s_pk sc r) = Some r) /\
      forall fuel n keys, (forall l, In l ls -> length l <= fuel) -> StronglySorted blt keys ->
        exists keys', intersect_rest tb ev fuel db ob n qs keys = Ok keys' /\ StronglySorted blt keys' /\
          forall k, In k keys' <-> In k keys /\ Forall (fun l => exists r, In r l /\ data_key tb r = k) ls.
  Proof.
    induction qs as [|q qs IH]; intro H.
    - exists []. split; [constructor|]. split; [easy|]. intros fuel n keys _ SK. exists keys. split; auto. split; auto.
      intro k. split; [intro; split; auto|tauto].
    - destruct (IH (fun q Hq => H q (or_intror Hq))) as [ls [F2 [ST V]]].
      destruct (H q (or_introl eq_refl)) as [HI EX]. destruct (part _ _ HI EX) as [l [it [SL [ST1 [E C]]]]].
      exists (l :: ls). split; [constructor; auto|]. split; [intros x r [<-|Hx] Hr; eauto|].
      intros fuel n keys LE SK. cbn [intersect_rest]. rewrite E.
      destruct (C (Some keys) fuel n) as [n' [keys1 [E1 [E2 E3]]]]; [apply LE; left; auto|]. rewrite E1.
      destruct (V fuel n' keys1) as [keys2 [E4 [E5 E6]]]; auto; [intros; apply LE; right; auto|].
      exists keys2. split; auto. split; auto. intro k. rewrite E6, E3, Forall_cons_iff. tauto.
  Qed.

  (** the keys of the intersection *)
  Lemma intersect_keys q : (forall x, In x (q :: q_inter q) -> isin (q_index x) /\ EXA (q_index x) (q_sel x)) ->
    exists ls b, Forall2 (fun x l => SEL (q_index x) (q_sel x) l) (q :: q_inter q) ls /\ intersection sc ls b /\
      (forall r, In r b -> m (s_pk sc r) = Some r) /\
      forall fuel, (forall l, In l ls -> length l <= fuel) -> intersect tb ev fuel db q ob = Ok (map (data_key tb) b).
  Proof.
    intro H. destruct (H q (or_introl eq_refl)) as [HI EX]. destruct (part _ _ HI EX) as [l [it [SL [ST1 [E C]]]]].
    destruct (rest_parts (q_inter q) (fun x Hx => H x (or_intror Hx))) as [ls [F2 [ST V]]].
    set (fuel0 := fold_right Nat.max 0 (map (@length T) (l :: ls))).
    assert (F0 : forall x, In x (l :: ls) -> length x <= fuel0).
    { intros x Hx. unfold fuel0. clear - Hx. induction (l :: ls) as [|y k IH]; [easy|]. cbn. destruct Hx as [->|Hx]; [lia|]. specialize (IH Hx). lia. }
    assert (RUN : forall fuel, (forall x, In x (l :: ls) -> length x <= fuel) -> exists keys, intersect tb ev fuel db q ob = Ok keys /\ StronglySorted blt keys /\
      forall k, In k keys <-> Forall (fun l => exists r, In r l /\ data_key tb r = k) (l :: ls)).
    { intros fuel LE. unfold intersect. rewrite E. destruct (C None fuel 0) as [n' [keys1 [E1 [E2 E3]]]]; [apply LE; left; auto|]. rewrite E1.
      destruct (V fuel n' keys1) as [keys2 [E4 [E5 E6]]]; auto; [intros; apply LE; right; auto|].
      exists keys2. split; auto. split; auto. intro k. rewrite E6, E3, Forall_cons_iff. tauto. }
    destruct (RUN fuel0 F0) as [keys [_ [K2 K3]]].
    assert (ALL : forall x r, In x (l :: ls) -> In r x -> m (s_pk sc r) = Some r) by (intros x r [<-|Hx] Hr; eauto).
    destruct (choose_list (fun k r => data_key tb r = k /\ Forall (In r) (l :: ls)) keys) as [b FB].
    { intros k Hk. apply K3 in Hk. rewrite Forall_forall in Hk. destruct (Hk l (or_introl eq_refl)) as [r [Hr Er]].
      exists r. split; auto. apply Forall_forall. intros x Hx. destruct (Hk x Hx) as [r' [Hr' Er']].
      assert (r' = r); [|subst; auto]. assert (s_pk sc r' = s_pk sc r) by (apply same_data_key; congruence).
      pose proof (ALL x r' Hx Hr') as A1. pose proof (ST1 r Hr) as A2. congruence. }
    assert (EB : map (data_key tb) b = keys).
    { clear - FB. induction FB as [|k r ks rs [H1 _] FB IH]; cbn [map]; congruence. }
    assert (BI : forall r, In r b -> Forall (In r) (l :: ls)).
    { clear - FB. induction FB as [|k r ks rs [_ H1] FB IH]; [easy|]. intros x [<-|Hx]; auto. }
    exists (l :: ls), b. split; [constructor; auto|]. split; [split|split].
    - rewrite <- EB in K2. clear - K2 LAW. induction b as [|x b IH]; [constructor|]. cbn in K2. inversion K2 as [|? ? S1 FA]; subst.
      constructor; auto. rewrite Forall_forall in *. intros y Hy. apply data_key_lt. apply FA. apply in_map; auto.
    - intro r. split; auto. intro FR. assert (IK : In (data_key tb r) keys).
      { apply K3. rewrite Forall_forall in *. intros x Hx. exists r. auto. }
      rewrite <- EB in IK. apply in_map_iff in IK as [r' [E1 Hr']]. assert (r' = r); [|subst; auto].
      pose proof (BI r' Hr') as B1. rewrite Forall_forall in B1, FR.
      pose proof (ALL l r' (or_introl eq_refl) (B1 l (or_introl eq_refl))) as A1.
      pose proof (ALL l r (or_introl eq_refl) (FR l (or_introl eq_refl))) as A2.
      apply same_data_key in E1. congruence.
    - intros r Hr. pose proof (BI r Hr) as B1. inversion B1; subst. auto.
    - intros fuel LE. destruct (RUN fuel LE) as [keys' [K1' [K2' K3']]]. rewrite K1', EB. f_equal.
      apply (sorted_unique blt blt_irrefl); auto; [|intro k; rewrite K3', K3; tauto].
      intros x y _ _ X Y. apply (blt_irrefl x). eapply blt_trans; eauto.
  Qed.

  Lemma decode_all f b : (forall r, In r b -> m0 (s_pk sc r) = Some r) ->
    decode_records tb f (map (value_at (tb:=tb) db) b) = Ok (keep f b).
  Proof.
    induction b as [|r b IH]; intro H; [destruct f; reflexivity|]. cbn [map decode_records].
    destruct (stored_value tb G db fl NoBatch m0 CO0 r (H r (or_introl eq_refl))) as [v [_ [E2 E3]]].
    unfold value_at at 1. cbn [batch_of view] in E3. rewrite E3, E2, IH by (intros; apply H; right; auto).
    destruct f as [f|]; cbn [keep filter]; auto.
  Qed.

  Lemma get_all b : (forall r, In r b -> m0 (s_pk sc r) = Some r) ->
    get_keys tb ev db fl None (map (data_key tb) b) true = Ok (map (value_at (tb:=tb) db) b).
  Proof.
    intro H. rewrite (get_keys_err_eq (tb:=tb) (ev:=ev) (LAW:=LAW) (EV:=EV) db fl None b (reads_ok _ _ _ _ _ R) (cons_covers _ _ _ _ CO0)); [|exact I].
    replace (forallb _ b) with true; auto. symmetry. apply forallb_forall. intros r Hr.
    destruct (stored_value tb G db fl NoBatch m0 CO0 r (H r Hr)) as [v [_ [_ E3]]]. cbn [batch_of view] in *. rewrite E3. reflexivity.
  Qed.

  Lemma plain_query_ok (q : query T) : plain_query q = true <-> plain_part q.
  Proof.
    unfold plain_query, plain_part. destruct (q_filter q), (q_less q), (q_after q); try (split; [discriminate|intros [? [? [? _]]]; discriminate]).
    rewrite andb_true_iff, !N.eqb_eq. tauto.
  Qed.

  Lemma offset_limit {A} off lim (l : list A) : (off < 2 ^ 63)%N -> (lim < 2 ^ 63)%N ->
    match (if (0 <? off)%N then apply_offset off l else Ok l) with
    | Ok ks => if (0 <? lim)%N then apply_limit lim ks else Ok ks
    | e => e
    end = Ok (window off lim l).
  Proof.
    intros HO HL. replace (if (0 <? off)%N then apply_offset off l else Ok l) with (Ok (skipn (N.to_nat off) l)).
    - unfold window. destruct (N.ltb_spec 0 lim).
      + rewrite apply_limit_eq by auto. replace (lim =? 0)%N with false by (symmetry; apply N.eqb_neq; lia). reflexivity.
      + replace lim with 0%N by lia. reflexivity.
    - destruct (N.ltb_spec 0 off); [rewrite apply_offset_eq; auto|]. replace off with 0%N by lia. reflexivity.
  Qed.

  Lemma window_map {A B} (f : A -> B) off lim l : window off lim (map f l) = map f (window off lim l).
  Proof. unfold window. destruct (lim =? 0)%N; rewrite skipn_map, ?firstn_map; reflexivity. Qed.

  Lemma window_incl {A} off lim (l : list A) x : In x (window off lim l) -> In x l.
  Proof.
    unfold window. intro H. assert (In x (skipn (N.to_nat off) l)).
    { destruct (lim =? 0)%N; auto. rewrite <- (firstn_skipn (N.to_nat lim)). apply in_or_app. auto. }
    rewrite <- (firstn_skipn (N.to_nat off)). apply in_or_app. auto.
  Qed.

  Lemma intersect_gen q : sorts srt ->
    (forall x, In x (q :: q_inter q) -> isin (q_index x) /\ EXA (q_index x) (q_sel x)) ->
    q_inter q <> [] -> (forall x, In x (q_inter q) -> plain_part x) -> (q_offset q < 2 ^ 63)%N -> (q_limit q < 2 ^ 63)%N ->
    (q_after q = None \/ q_filter q <> None \/ q_less q <> None \/ q_offset q = 0%N /\ q_limit q = 0%N) ->
    exists ls b s a, Forall2 (fun x l => SEL (q_index x) (q_sel x) l) (q :: q_inter q) ls /\ intersection sc ls b /\
      ordered (q_less q) (keep (q_filter q) b) s /\ behind_opt sc (q_after q) s a /\
      ((forall r, In r b -> m0 (s_pk sc r) = Some r) -> forall fuel, (forall l, In l ls -> length l <= fuel) ->
       execute tb ev srt fuel db fl q ob = Ok (window (q_offset q) (q_limit q) a)).
  Proof.
    intros SR H NE PP HO HL AF. destruct (intersect_keys q H) as [ls [b [F2 [IS [BM V]]]]].
    set (s := match q_less q with Some less => srt less (keep (q_filter q) b) | None => keep (q_filter q) b end).
    set (a := match q_after q with Some a => drop_after tb a s | None => s end).
    exists ls, b, s, a. split; auto. split; auto. split; [unfold s, ordered; destruct (q_less q); auto|].
    split; [unfold a; destruct (q_after q); cbn [behind_opt]; auto; apply drop_after_behind|].
    intros B0 fuel LE. unfold execute. destruct (q_inter q) as [|x0 xs] eqn:EI; [easy|]. rewrite <- EI in *.
    unfold execute_intersect.
    replace (forallb plain_query (q_inter q)) with true by (symmetry; apply forallb_forall; intros x Hx; apply plain_query_ok; auto).
    rewrite (V fuel LE).
    destruct (q_filter q) as [f|] eqn:EF; [|destruct (q_less q) as [less|] eqn:EL; [|destruct (q_after q) as [af|] eqn:EA]];
      cbn [andb]; unfold s, a in *.
    - rewrite get_all, decode_all by auto. destruct (q_less q); apply offset_limit; auto.
    - rewrite get_all, decode_all by auto. cbn [keep]. apply offset_limit; auto.
    - rewrite get_all, decode_all by auto. destruct AF as [AF|[AF|[AF|[A1 A2]]]]; try easy. rewrite A1, A2. reflexivity.
    - pose proof (offset_limit (q_offset q) (q_limit q) (map (data_key tb) b) HO HL) as OL.
      match goal with |- context [match ?x with Ok keys => match get_keys _ _ _ _ _ keys _ with _ => _ end | _ => _ end] =>
        replace x with (Ok (window (q_offset q) (q_limit q) (map (data_key tb) b))) end.
      2:{ rewrite <- OL. destruct (if (0 <? q_offset q)%N then _ else _); reflexivity. }
      rewrite window_map.
      rewrite get_all by (intros r Hr; apply B0; eapply window_incl; eauto).
      rewrite decode_all by (intros r Hr; apply B0; eapply window_incl; eauto). reflexivity.
  Qed.
End P.

Section Q.
  Context {T F : Type}.
  Variable tb : table T F.
  Hypothesis G : good_table tb.
  Variable ev : env T.
  Hypothesis EV : env_ok ev.
  Variable srt : (T -> T -> bool) -> list T -> list T.
  Variables (db : kv) (fl : F) (ob : optb) (m : tmap T).
  Hypothesis R : reads tb db fl ob m.
  Hypothesis Q : quiet ev.
  Variable m0 : tmap T.
  Hypothesis CO0 : consistent tb db fl m0.
  Notation sc := (schema_of tb).
  Notation isin idx := (In idx (primary_index :: t_indexes tb)).

  Lemma query_intersect q : sorts srt ->
    (forall x, In x (q :: q_inter q) -> isin (q_index x) /\ exact_selector tb (q_index x) m (q_sel x)) ->
    q_inter q <> [] -> (forall x, In x (q_inter q) -> plain_part x) -> (q_offset q < 2 ^ 63)%N -> (q_limit q < 2 ^ 63)%N ->
    (q_after q = None \/ q_filter q <> None \/ q_less q <> None \/ q_offset q = 0%N /\ q_limit q = 0%N) ->
    exists ls b s a, Forall2 (fun x l => selected tb (q_index x) m (q_sel x) l) (q :: q_inter q) ls /\ intersection sc ls b /\
      ordered (q_less q) (keep (q_filter q) b) s /\ behind_opt sc (q_after q) s a /\
      ((forall r, In r b -> m0 (s_pk sc r) = Some r) -> forall fuel, (forall l, In l ls -> length l <= fuel) ->
       execute tb ev srt fuel db fl q ob = Ok (window (q_offset q) (q_limit q) a)).
  Proof.
    apply (intersect_gen tb G ev EV srt db fl ob m R Q m0 CO0 (fun i s => exact_selector tb i m s) (fun i s l => selected tb i m s l)).
    intros idx sel. apply (exact_opens tb G db fl ob m (reads_ok _ _ _ _ _ R) (reads_batch _ _ _ _ _ R) (reads_rw _ _ _ _ _ R) (reads_cons _ _ _ _ _ R)).
  Qed.

  Lemma query_intersect_all q : sorts srt ->
    (forall x, In x (q :: q_inter q) -> isin (q_index x) /\ short_sel (sindex_of (q_index x)) (q_sel x)) ->
    q_inter q <> [] -> (forall x, In x (q_inter q) -> plain_part x) -> (q_offset q < 2 ^ 63)%N -> (q_limit q < 2 ^ 63)%N ->
    (q_after q = None \/ q_filter q <> None \/ q_less q <> None \/ q_offset q = 0%N /\ q_limit q = 0%N) ->
    exists ls b s a, Forall2 (fun x l => visits tb (q_index x) m (q_sel x) l) (q :: q_inter q) ls /\ intersection sc ls b /\
      ordered (q_less q) (keep (q_filter q) b) s /\ behind_opt sc (q_after q) s a /\
      ((forall r, In r b -> m0 (s_pk sc r) = Some r) -> forall fuel, (forall l, In l ls -> length l <= fuel) ->
       execute tb ev srt fuel db fl q ob = Ok (window (q_offset q) (q_limit q) a)).
  Proof.
    apply (intersect_gen tb G ev EV srt db fl ob m R Q m0 CO0 (fun i s => short_sel (sindex_of i) s) (fun i s l => visits tb i m s l)).
    intros idx sel. apply (really_opens tb G db fl ob m (reads_ok _ _ _ _ _ R) (reads_batch _ _ _ _ _ R) (reads_rw _ _ _ _ _ R) (reads_cons _ _ _ _ _ R)).
  Qed.
End Q.

Lemma intersect_refuses {T F} (tb : table T F) ev srt db fl (q : query T) ob fuel x : In x (q_inter q) -> ~ plain_part x ->
  execute tb ev srt fuel db fl q ob = Err EQuery.
Proof.
  intros IN NP. unfold execute. destruct (q_inter q) as [|y ys] eqn:E; [easy|]. unfold execute_intersect. rewrite E.
  replace (forallb plain_query (y :: ys)) with false; auto. symmetry. destruct (forallb plain_query (y :: ys)) eqn:X; auto.
  rewrite forallb_forall in X. exfalso. apply NP, plain_query_ok, X. auto.
Qed.
