(** Queries of the inspector: C67. *)

From Coq Require Import List NArith ZArith Lia Bool Arith Sorting.Sorted Sorting.Permutation.
From Verif.Model Require Import Bytes Go Keys Pebble Index Table Scan Query Inspect.
From Verif.Spec Require Import KeySpec StoreSpec TableSpec ScanSpec QuerySpec InspectSpec.
From Verif.Proofs Require Import BytesFacts KeysFacts PebbleFacts ScanProps QueryProps InspectFacts.
Import ListNotations.

Lemma find_only {A} (f : A -> bool) l x : In x l -> f x = true -> (forall y, In y l -> f y = true -> y = x) -> find f l = Some x.
Proof.
  induction l as [|y l IH]; cbn [In find]; [easy|]. intros I FX U. destruct (f y) eqn:FY.
  - f_equal. apply U; auto.
  - destruct I as [->|I]; [congruence|]. apply IH; auto.
Qed.

Lemma map_nodup_inj {A B} (f : A -> B) l x y : NoDup (map f l) -> In x l -> In y l -> f x = f y -> x = y.
Proof.
  induction l as [|a l IH]; cbn [map In]; [easy|]. intros ND IX IY E. apply NoDup_cons_iff in ND as [N1 N2].
  destruct IX as [->|IX], IY as [->|IY]; auto; exfalso; apply N1.
  - rewrite E. apply in_map; auto.
  - rewrite <- E. apply in_map; auto.
Qed.

(** ** The indexes *)

Section Indexes.
  Context {T F : Type}.
  Variable tb : table T F.

  Lemma insert_index_perm (ix : index T) l : Permutation (insert_index ix l) (ix :: l).
  Proof. induction l as [|j l IH]; cbn [insert_index]; auto. destruct (_ <=? _)%N; auto. rewrite IH. apply perm_swap. Qed.

  Lemma indexes_perm : Permutation (indexes_of tb) (primary_index :: t_indexes tb).
  Proof.
    unfold indexes_of. generalize (@primary_index T :: t_indexes tb) as l. induction l as [|a l IH]; cbn [fold_right]; auto.
    rewrite insert_index_perm. constructor. auto.
  Qed.

  Definition id_le (a b : index T) : Prop := (b2n (ix_id a) <= b2n (ix_id b))%N.

  Lemma insert_index_sorted (ix : index T) l : StronglySorted id_le l -> StronglySorted id_le (insert_index ix l).
  Proof.
    induction 1 as [|j l S IH FA]; cbn [insert_index]; [repeat constructor|]. destruct (_ <=? _)%N eqn:L.
    - apply N.leb_le in L. constructor; [constructor; auto|]. constructor; auto. eapply Forall_impl; [|exact FA].
      unfold id_le. intros. lia.
    - apply N.leb_gt in L. constructor; auto. rewrite Forall_forall in *. intros x I.
      apply (Permutation_in _ (insert_index_perm ix l)) in I as [<-|I]; auto. unfold id_le. lia.
  Qed.

  Lemma indexes_sorted : StronglySorted id_le (indexes_of tb).
  Proof.
    unfold indexes_of. generalize (@primary_index T :: t_indexes tb) as l. induction l as [|a l IH]; cbn [fold_right]; [constructor|].
    apply insert_index_sorted; auto.
  Qed.

  Lemma find_named names name ix : named_index tb names name ix -> find_index tb names name = Some ix.
  Proof.
    intros [NP [ND [I H]]]. unfold find_index.
    assert (E : match name with [] => primary_name | _ => name end = names (ix_id ix)).
    { destruct H as [[H1 H2]|[-> ->]]; [destruct name; [easy|auto]|]. symmetry. exact NP. }
    rewrite E. apply find_only.
    - apply (Permutation_in _ (Permutation_sym indexes_perm)). auto.
    - apply beqb_refl.
    - intros y J B. apply beqb_eq in B. apply (map_nodup_inj (fun ix => names (ix_id ix)) (primary_index :: t_indexes tb)); auto.
      apply (Permutation_in _ indexes_perm). auto.
  Qed.

  Lemma primary_named names name ix : lawful tb -> named_index tb names name ix ->
    beqb (names (ix_id ix)) primary_name = Byte.eqb (ix_id ix) x00 /\ (ix_id ix = x00 -> ix = primary_index).
  Proof.
    intros LAW [NP [ND [I _]]]. destruct I as [<-|I].
    - change (ix_id primary_index) with x00. rewrite NP, beqb_refl. auto.
    - pose proof (law_nonzero _ LAW ix I) as NZ. split; [|contradiction].
      destruct (Byte.eqb (ix_id ix) x00) eqn:B; [apply Byte.byte_dec_bl in B; contradiction|].
      apply beqb_neq. intro X. cbn [map] in ND. apply NoDup_cons_iff in ND as [N1 _]. apply N1.
      change (ix_id primary_index) with x00. rewrite NP, <- X. apply (in_map (fun ix => names (ix_id ix))). auto.
  Qed.
End Indexes.

Lemma find_info_named tis name ti : named_table tis name ti -> find_info tis name = Some ti.
Proof.
  intros [l1 [l2 [-> [E H]]]]. unfold find_info. induction l1 as [|x l1 IH]; cbn [app find].
  - rewrite E, beqb_refl. reflexivity.
  - destruct (beqb (ti_name x) name) eqn:B; [|apply IH; intros; apply H; right; auto].
    apply beqb_eq in B. exfalso. apply (H x); [left; auto|auto].
Qed.

Section Record_.
  Context {T : Type}.
  Variable outside : flt64 -> Z.
  Variable rf : refl T.
  Variable zero : T.
  Variable ok : T -> Prop.
  Hypothesis RF : reflects rf zero ok.

  Lemma make_described vs : rf_ptr rf = true -> settable (rf_map rf zero) vs ->
    exists p, make_record outside rf zero vs = Ok p /\ described rf zero vs p.
  Proof.
    intros PT ST. destruct (set_fields_given outside vs (rf_map rf zero)) as [r' [E [GV WT]]]; auto.
    - apply (rfl_names _ _ _ RF).
    - intros n v. apply (rfl_typed _ _ _ RF). apply (rfl_zero _ _ _ RF).
    - unfold make_record. rewrite E, PT. eexists. split; [reflexivity|]. unfold described.
      rewrite (proj2 (rfl_make _ _ _ RF r' (proj1 GV) WT)). exact GV.
  Qed.

  (** setting all the fields *)
  Definition becomes (v w : gval) : Prop := forall r n old, field r n = Some old -> gv_type old = gv_type w -> set_field outside r n (Some v) = Ok (put_field r n w).

  Lemma becomes_self v : becomes v v.
  Proof.
    intros r n old E TY. unfold set_field. rewrite E, TY. rewrite (proj2 (kind_eqb_eq _ _) eq_refl).
    unfold assignable. rewrite (proj2 (gtype_eqb_eq _ _) eq_refl). cbn [orb]. destruct v; reflexivity.
  Qed.

  Lemma field_app d n v r : ~ In n (map fst d) -> field (d ++ (n, v) :: r) n = Some v.
  Proof.
    induction d as [|[x u] d IH]; cbn [app field map fst In]; intro H; [rewrite beqb_refl; auto|].
    destruct (beqb x n) eqn:B; [apply beqb_eq in B; tauto|]. apply IH. tauto.
  Qed.
  Lemma put_app d n v w r : ~ In n (map fst d) -> put_field (d ++ (n, v) :: r) n w = d ++ (n, w) :: r.
  Proof.
    induction d as [|[x u] d IH]; cbn [app put_field map fst In]; intro H; [rewrite beqb_refl; auto|].
    destruct (beqb x n) eqn:B; [apply beqb_eq in B; tauto|]. rewrite IH; tauto.
  Qed.

  Lemma set_all vs ws : Forall2 (fun x y => fst x = fst y /\ becomes (snd x) (snd y)) vs ws ->
    forall d r, shape r = shape ws -> NoDup (map fst (d ++ ws)) ->
    set_fields outside (d ++ r) (map (fun nv => (fst nv, Some (snd nv))) vs) = Ok (d ++ ws).
  Proof.
    induction 1 as [|[n v] [n' w] vs ws [E B] H IH]; intros d r SH ND.
    - destruct r; [reflexivity|discriminate].
    - destruct r as [|[n2 old] r]; [discriminate|]. cbn [fst snd] in *. subst n'. unfold shape in SH. cbn [map fst snd] in SH.
      assert (n2 = n /\ gv_type old = gv_type w) as [-> TY] by (inversion SH; auto).
      assert (SH' : shape r = shape ws) by (inversion SH; auto).
      assert (NI : ~ In n (map fst d)).
      { rewrite map_app in ND. cbn [map fst] in ND. apply NoDup_remove_2 in ND. intro X. apply ND. apply in_or_app. auto. }
      cbn [map set_fields fst snd]. rewrite (B _ n old) by (auto; apply field_app; auto). rewrite put_app by auto.
      change (d ++ (n, w) :: r) with (d ++ [(n, w)] ++ r). rewrite app_assoc.
      change (d ++ (n, w) :: ws) with (d ++ [(n, w)] ++ ws). rewrite (app_assoc d [(n, w)] ws). apply IH; auto.
      rewrite <- app_assoc. exact ND.
  Qed.

  Lemma make_all vs a : ok a -> rf_ptr rf = true -> Forall2 (fun x y => fst x = fst y /\ becomes (snd x) (snd y)) vs (rf_map rf a) ->
    make_record outside rf zero (map (fun nv => (fst nv, Some (snd nv))) vs) = Ok a.
  Proof.
    intros KA PT H. unfold make_record. pose proof (set_all vs _ H [] (rf_map rf zero)) as E. cbn [app] in E. rewrite E, PT, (rfl_back _ _ _ RF); auto.
    - symmetry. apply (rfl_shape _ _ _ RF).
    - rewrite (shape_fst _ _ (rfl_shape _ _ _ RF a)). apply (rfl_names _ _ _ RF).
  Qed.

  Lemma fair_any fs r : fair_filter (rf_map rf zero) fs -> fair_filter (rf_map rf r) fs.
  Proof.
    intros H n v w I J. destruct (shape_has _ _ n w (rfl_shape _ _ _ RF r) J) as [w' J'].
    assert (E : gv_type w = gv_type w').
    { eapply (shape_type (rf_map rf r)); [|apply (rfl_shape _ _ _ RF)| |]; eauto. rewrite (shape_fst _ _ (rfl_shape _ _ _ RF r)). apply (rfl_names _ _ _ RF). }
    rewrite E. eauto.
  Qed.

  Definition the_filter (fs : option (list (bytes * gval))) : option (T -> bool) :=
    match fs with Some fs => Some (fun r => filter_row outside fs (rf_map rf r)) | None => None end.
  Definition the_test (fs : option (list (bytes * gval))) : T -> bool :=
    match fs with Some fs => fun r => filter_row outside fs (rf_map rf r) | None => fun _ => true end.

  Lemma test_decides fs : fair rf zero fs -> decides rf ok fs (the_test fs).
  Proof.
    destruct fs as [fs|]; cbn [fair the_test]; intros H r KR; [|tauto]. apply filter_meets.
    - rewrite (shape_fst _ _ (rfl_shape _ _ _ RF r)). apply (rfl_names _ _ _ RF).
    - intros n v. apply (rfl_typed _ _ _ RF). auto.
    - apply fair_any; auto.
  Qed.

  Lemma keep_test fs (l : list T) : keep (the_filter fs) l = filter (the_test fs) l.
  Proof. destruct fs as [fs|]; cbn [the_filter the_test keep]; auto. symmetry. apply filter_all. auto. Qed.
End Record_.

(** ** Names that are not there *)

Lemma put_names r n v : map fst (put_field r n v) = map fst r.
Proof.
  induction r as [|[x w] r IH]; cbn [put_field map]; auto. destruct (beqb x n); cbn [map fst]; congruence.
Qed.

Lemma field_name r n w : field r n = Some w -> In n (map fst r).
Proof.
  induction r as [|[x u] r IH]; cbn [field map fst In]; [easy|]. destruct (beqb x n) eqn:B; auto.
  intros _. left. apply beqb_eq. auto.
Qed.

Lemma set_names outside vs : forall r r', set_fields outside r vs = Ok r' -> forall n ov, In (n, ov) vs -> In n (map fst r) /\ ov <> None.
Proof.
  induction vs as [|[x v] vs IH]; intros r r' E n ov I; [easy|]. cbn [set_fields] in E.
  destruct (set_field outside r x v) as [r1| | |] eqn:E1; try discriminate.
  assert (X : In x (map fst r) /\ v <> None /\ map fst r1 = map fst r).
  { unfold set_field in E1. destruct (field r x) as [old|] eqn:EF; [|discriminate]. split; [eapply field_name; eauto|].
    destruct v as [v|]; [|discriminate]. split; [discriminate|]. destruct (kind_eqb _ _).
    - destruct (assignable _ _); [|discriminate]. inversion E1. apply put_names.
    - destruct (convert _ _ _); [|discriminate]. inversion E1. apply put_names. }
  destruct X as [X1 [X2 X3]]. destruct I as [I|I]; [inversion I; subst; auto|].
  rewrite <- X3. eapply IH; eauto.
Qed.

Lemma make_names {T} outside (rf : refl T) zero vs p : make_record outside rf zero vs = Ok p ->
  rf_ptr rf = true /\ forall n ov, In (n, ov) vs -> In n (map fst (rf_map rf zero)) /\ ov <> None.
Proof.
  unfold make_record. destruct (set_fields _ _ _) eqn:E; try discriminate. destruct (rf_ptr rf); [|discriminate].
  intros _. split; auto. eapply set_names; eauto.
Qed.

Lemma query_names {T F} outside (tb : table T F) ev srt rf names fuel db fl index sel fs lim after rows :
  table_query outside tb ev srt rf names fuel db fl index sel fs lim after = Ok rows ->
  exists ix, In ix (primary_index :: t_indexes tb) /\ names (ix_id ix) = match index with [] => primary_name | _ => index end /\
    (names (ix_id ix) <> primary_name -> rf_ptr rf = true /\ forall n ov, In (n, ov) sel -> In n (map fst (rf_map rf (t_empty tb))) /\ ov <> None) /\
    (forall vs, after = Some vs -> rf_ptr rf = true /\ forall n ov, In (n, ov) vs -> In n (map fst (rf_map rf (t_empty tb))) /\ ov <> None).
Proof.
  unfold table_query. destruct (find_index tb names index) as [ix|] eqn:EI; [|discriminate]. unfold find_index in EI.
  apply find_some in EI as [I B]. apply beqb_eq in B. intro H. exists ix. split; [apply (Permutation_in _ (indexes_perm tb)); auto|]. split; auto.
  unfold with_selector in H. split.
  - intro NP. destruct (beqb (names (ix_id ix)) primary_name) eqn:BP; [apply beqb_eq in BP; contradiction|].
    destruct (make_record _ _ _ _) eqn:E; try discriminate. eapply make_names; eauto.
  - intros vs ->. unfold with_after in H.
    destruct (if beqb (names (ix_id ix)) primary_name then _ else _) as [q1| | |]; try discriminate.
    destruct (make_record outside rf (t_empty tb) vs) eqn:E; try discriminate. eapply make_names; eauto.
Qed.

Lemma inspect_names {T F} outside (tb : table T F) ev srt rf name names fuel db fl tis q rows :
  named_table tis name (info_of outside tb ev srt rf name names fuel db fl) ->
  inspect_query tis name q = Ok rows ->
  name <> [] /\ exists ix, In ix (primary_index :: t_indexes tb) /\ names (ix_id ix) = match rq_index q with [] => primary_name | _ => rq_index q end /\
    (names (ix_id ix) <> primary_name -> rf_ptr rf = true /\ forall n ov, In (n, ov) (rq_sel q) -> In n (map fst (rf_map rf (t_empty tb))) /\ ov <> None) /\
    (forall vs, rq_after q = Some vs -> rf_ptr rf = true /\ forall n ov, In (n, ov) vs -> In n (map fst (rf_map rf (t_empty tb))) /\ ov <> None).
Proof.
  intros NT H. unfold inspect_query in H. rewrite (find_info_named _ _ _ NT) in H. destruct name as [|b name]; [discriminate|].
  split; [discriminate|]. cbn [ti_query info_of] in H. eapply query_names; eauto.
Qed.

Lemma no_table tis name : (forall ti, In ti tis -> ti_name ti <> name) ->
  (forall q, inspect_query tis name q = Err EOther) /\ inspect_indexes tis name = Err EOther /\ inspect_fields tis name = Err EOther.
Proof.
  intro H. assert (E : find_info tis name = None).
  { unfold find_info. destruct (find _ _) eqn:E; auto. apply find_some in E as [I B]. apply beqb_eq in B. exfalso. eapply H; eauto. }
  unfold inspect_query, inspect_indexes, inspect_fields. rewrite E. repeat split. intro q. destruct name; reflexivity.
Qed.

Section Q.
  Context {T F : Type}.
  Variable outside : flt64 -> Z.
  Variable tb : table T F.
  Hypothesis G : good_table tb.
  Variable ev : env T.
  Hypothesis EV : env_ok ev.
  Variable srt : (T -> T -> bool) -> list T -> list T.
  Variables (db : kv) (fl : F) (m : tmap T).
  Hypothesis R : reads tb db fl NoBatch m.
  Hypothesis PRE : 0 < t_prefetch tb.
  Hypothesis Q : quiet ev.
  Variable rf : refl T.
  Variable ok : T -> Prop.
  Hypothesis RF : reflects rf (t_empty tb) ok.
  Hypothesis OK : forall r, m (s_pk (schema_of tb) r) = Some r -> ok r.
  Variable names : byte -> bytes.
  Notation sc := (schema_of tb).

  Definition base (ix : index T) (p : T) fs (lim : N) : query T := MkQuery ix (SPoint p) false (the_filter outside rf fs) None 0 lim None [].

  Definition to_res {A B} (f : A -> B) (r : res A) : res B := match r with Ok x => Ok (f x) | Err e => Err e | Panic => Panic | Diverge => Diverge end.

  (** the query that is run *)
  Lemma query_built fuel ix q : named_index tb names (rq_index q) ix -> selectable tb rf ix (rq_sel q) ->
    exists p, start_point tb rf ix (rq_sel q) p /\
    forall fs lim after, table_query outside tb ev srt rf names fuel db fl (rq_index q) (rq_sel q) fs lim after =
      match after with
      | None => to_res (map (rf_map rf)) (execute tb ev srt fuel db fl (base ix p fs lim) NoBatch)
      | Some vs => match make_record outside rf (t_empty tb) vs with
                   | Ok a => to_res (map (rf_map rf)) (execute tb ev srt fuel db fl (q_with_after (base ix p fs lim) a) NoBatch)
                   | Err e => Err e | Panic => Panic | Diverge => Diverge
                   end
      end.
  Proof.
    intros NI SE. destruct (primary_named tb names _ ix (good_lawful _ G) NI) as [PN PI].
    assert (X : exists p, start_point tb rf ix (rq_sel q) p /\ with_selector outside tb rf names (new_query tb) ix (rq_sel q) = Ok (q_with (new_query tb) ix (SPoint p))).
    { unfold with_selector. rewrite PN. unfold selectable in SE. unfold start_point. destruct (Byte.eqb (ix_id ix) x00) eqn:B.
      - exists (t_empty tb). split; auto. apply Byte.byte_dec_bl in B. rewrite (PI B). reflexivity.
      - destruct SE as [PT ST]. destruct (make_described outside rf (t_empty tb) ok RF (rq_sel q) PT ST) as [p [E D]]. exists p. rewrite E. auto. }
    destruct X as [p [SP E]]. exists p. split; auto. intros fs lim after. unfold table_query. rewrite (find_named tb names _ ix NI), E.
    assert (B : with_limit (with_filter outside rf (q_with (new_query tb) ix (SPoint p)) fs) lim = base ix p fs lim).
    { unfold with_limit, with_filter, base, the_filter. destruct fs as [fs|]; destruct (0 <? lim)%N eqn:L; try reflexivity;
        apply N.ltb_ge in L; assert (lim = 0%N) by lia; subst lim; reflexivity. }
    rewrite B. unfold with_after. destruct after as [vs|].
    - destruct (make_record _ _ _ _); reflexivity.
    - reflexivity.
  Qed.

  Lemma run_base fuel ix p fs lim : In ix (primary_index :: t_indexes tb) -> exact_selector tb ix m (SPoint p) -> (lim < 2 ^ 63)%N ->
    exists l, selected tb ix m (SPoint p) l /\ (length l <= fuel ->
      execute tb ev srt fuel db fl (base ix p fs lim) NoBatch = Ok (window 0 lim (filter (the_test outside rf fs) l)) /\
      forall a, after_fits sc (sindex_of ix) (Byte.eqb (ix_id ix) x00) a (SPoint p) ->
        execute tb ev srt fuel db fl (q_with_after (base ix p fs lim) a) NoBatch =
        Ok (window 0 lim (filter (the_test outside rf fs) (rows_after sc (sindex_of ix) a l)))).
  Proof.
    intros HI EX HL. destruct (query_plain tb G ev EV srt db fl NoBatch m R PRE Q (base ix p fs lim) HI EX eq_refl eq_refl eq_refl eq_refl HL) as [l [S V]].
    exists l. split; auto. intro LE. split.
    - rewrite V by (left; auto). cbn [base q_offset q_limit q_filter q_rev dir]. rewrite keep_test. reflexivity.
    - intros a AF. rewrite <- keep_test.
      exact (query_after tb G ev EV srt db fl NoBatch m R PRE Q (q_with_after (base ix p fs lim) a) a HI EX eq_refl eq_refl eq_refl eq_refl AF eq_refl HL l S
        (proj1 (single_selection tb G db fl NoBatch m R ix (SPoint p) l HI S I)) fuel LE).
  Qed.

  Variables (tis : list tinfo) (name : bytes) (fuel : nat).
  Hypothesis NE : name <> [].
  Hypothesis NT : named_table tis name (info_of outside tb ev srt rf name names fuel db fl).

  Lemma query_here q : inspect_query tis name q =
    table_query outside tb ev srt rf names fuel db fl (rq_index q) (rq_sel q) (rq_filter q) (rq_limit q) (rq_after q).
  Proof. unfold inspect_query. rewrite (find_info_named _ _ _ NT). destruct name; [contradiction|reflexivity]. Qed.

  (** C67, with whatever can be said of the filter *)
  Lemma inspect_rows_any (P : (T -> bool) -> Prop) q ix : P (the_test outside rf (rq_filter q)) -> named_index tb names (rq_index q) ix -> selectable tb rf ix (rq_sel q) ->
    (rq_limit q < 2 ^ 63)%N -> (forall p, start_point tb rf ix (rq_sel q) p -> exact_selector tb ix m (SPoint p)) ->
    exists p l f, start_point tb rf ix (rq_sel q) p /\ selected tb ix m (SPoint p) l /\ P f /\ (length l <= fuel ->
      (rq_after q = None -> inspect_query tis name q = Ok (map (rf_map rf) (window 0 (rq_limit q) (filter f l)))) /\
      (forall vs, rq_after q = Some vs -> rf_ptr rf = true -> settable (rf_map rf (t_empty tb)) vs ->
         exists a, described rf (t_empty tb) vs a /\
         (after_fits sc (sindex_of ix) (Byte.eqb (ix_id ix) x00) a (SPoint p) ->
          inspect_query tis name q = Ok (map (rf_map rf) (window 0 (rq_limit q) (filter f (rows_after sc (sindex_of ix) a l))))))).
  Proof.
    intros FA NI SE HL EX. assert (HI : In ix (primary_index :: t_indexes tb)) by apply NI.
    destruct (query_built fuel ix q NI SE) as [p [SP V]]. destruct (run_base fuel ix p (rq_filter q) (rq_limit q) HI (EX p SP) HL) as [l [S W]].
    exists p, l, (the_test outside rf (rq_filter q)). split; auto. split; auto. split; auto.
    intro LE. destruct (W LE) as [W1 W2]. split.
    - intro NA. rewrite query_here, NA, V, W1. reflexivity.
    - intros vs EA PT ST. destruct (make_described outside rf (t_empty tb) ok RF vs PT ST) as [a [E D]]. exists a. split; auto.
      intro AF. rewrite query_here, EA, V, E, (W2 a AF). reflexivity.
  Qed.

  (** C67 *)
  Lemma inspect_rows q ix : named_index tb names (rq_index q) ix -> selectable tb rf ix (rq_sel q) -> fair rf (t_empty tb) (rq_filter q) ->
    (rq_limit q < 2 ^ 63)%N -> (forall p, start_point tb rf ix (rq_sel q) p -> exact_selector tb ix m (SPoint p)) ->
    exists p l f, start_point tb rf ix (rq_sel q) p /\ selected tb ix m (SPoint p) l /\ decides rf ok (rq_filter q) f /\ (length l <= fuel ->
      (rq_after q = None -> inspect_query tis name q = Ok (map (rf_map rf) (window 0 (rq_limit q) (filter f l)))) /\
      (forall vs, rq_after q = Some vs -> rf_ptr rf = true -> settable (rf_map rf (t_empty tb)) vs ->
         exists a, described rf (t_empty tb) vs a /\
         (after_fits sc (sindex_of ix) (Byte.eqb (ix_id ix) x00) a (SPoint p) ->
          inspect_query tis name q = Ok (map (rf_map rf) (window 0 (rq_limit q) (filter f (rows_after sc (sindex_of ix) a l))))))).
  Proof. intros NI SE FA. exact (inspect_rows_any _ q ix (test_decides outside rf (t_empty tb) ok RF (rq_filter q) FA) NI SE). Qed.

  (** a page behind a row of the table *)
  Lemma page_at ix p fs n l l1 a l2 : (n =? 0)%N = false -> In ix (primary_index :: t_indexes tb) -> exact_selector tb ix m (SPoint p) -> (n < 2 ^ 63)%N ->
    selected tb ix m (SPoint p) l -> length l <= fuel -> filter (the_test outside rf fs) l = l1 ++ a :: l2 ->
    execute tb ev srt fuel db fl (q_with_after (base ix p fs n) a) NoBatch = Ok (firstn (N.to_nat n) l2).
  Proof.
    intros NZ HI EX HL S LE E. destruct (run_base fuel ix p fs n HI EX HL) as [l' [S' W]].
    assert (l' = l) by (eapply (selected_unique tb G db fl NoBatch m (reads_cons _ _ _ _ _ R)); eauto). subst l'.
    destruct (W LE) as [_ W2].
    destruct (single_selection tb G db fl NoBatch m R ix (SPoint p) l HI S I) as [SO ND].
    assert (E' : keep (Some (the_test outside rf fs)) l = l1 ++ a :: l2) by exact E.
    destruct (keep_split _ _ _ _ _ E') as [k1 [k2 [EL EK]]].
    assert (IN : In a l) by (rewrite EL; apply in_or_app; right; left; auto).
    rewrite W2 by (apply (selected_after_fits tb G db fl NoBatch m R ix (SPoint p) l); auto; discriminate).
    rewrite window0 by auto. f_equal. f_equal. rewrite <- EK. cbn [keep]. f_equal. subst l.
    apply (rows_after_at tb G db fl NoBatch m R ix); auto. eapply listings_stored. exact S.
  Qed.

  Lemma inspect_paging_any (P : (T -> bool) -> Prop) q ix n : P (the_test outside rf (rq_filter q)) -> named_index tb names (rq_index q) ix -> selectable tb rf ix (rq_sel q) ->
    rf_ptr rf = true -> (0 < n < 2 ^ 63)%N -> (forall p, start_point tb rf ix (rq_sel q) p -> exact_selector tb ix m (SPoint p)) ->
    exists p l f, start_point tb rf ix (rq_sel q) p /\ selected tb ix m (SPoint p) l /\ P f /\ (length l <= fuel ->
      pages (fun a => inspect_query tis name (Request (rq_index q) (rq_sel q) (rq_filter q) n
               (match a with Some r => Some (map (fun nv => (fst nv, Some (snd nv))) r) | None => None end))) (S (length l)) None
        = Ok (map (rf_map rf) (filter f l))).
  Proof.
    intros FA NI SE PT [N1 N2] EX. assert (HI : In ix (primary_index :: t_indexes tb)) by apply NI.
    assert (NZ : (n =? 0)%N = false) by (apply N.eqb_neq; lia).
    destruct (query_built fuel ix q NI SE) as [p [SP V]]. destruct (run_base fuel ix p (rq_filter q) n HI (EX p SP) N2) as [l [S W]].
    exists p, l, (the_test outside rf (rq_filter q)). split; auto. split; auto. split; auto.
    intro LE. destruct (W LE) as [W1 W2].
    eapply (pages_list _ (N.to_nat n) (map (rf_map rf) (filter (the_test outside rf (rq_filter q)) l))) with (pre := []); [lia| |reflexivity| |].
    - intros k1 a k2 E. apply map_eq_app in E as [j1 [j2 [E1 [E2 E3]]]]. destruct j2 as [|a0 j2]; [discriminate|].
      cbn [map] in E3. assert (A : rf_map rf a0 = a /\ map (rf_map rf) j2 = k2) by (inversion E3; auto). destruct A as [<- <-].
      rewrite query_here. cbn [rq_index rq_sel rq_filter rq_limit rq_after]. rewrite V.
      assert (KA : ok a0).
      { apply OK. eapply listings_stored; [exact S|]. assert (X : In a0 (filter (the_test outside rf (rq_filter q)) l)) by (rewrite E1; apply in_or_app; right; left; auto).
        apply filter_In in X. tauto. }
      rewrite (make_all outside rf (t_empty tb) ok RF (rf_map rf a0) a0 KA PT).
      + rewrite (page_at ix p (rq_filter q) n l j1 a0 j2) by auto. cbn [to_res]. rewrite firstn_map. reflexivity.
      + clear. induction (rf_map rf a0); constructor; auto. split; auto. apply becomes_self.
    - rewrite query_here. cbn [rq_index rq_sel rq_filter rq_limit rq_after]. rewrite V, W1. cbn [to_res].
      rewrite window0 by auto. rewrite firstn_map. reflexivity.
    - rewrite map_length. pose proof (filter_short (the_test outside rf (rq_filter q)) l). lia.
  Qed.

  Lemma inspect_paging q ix n : named_index tb names (rq_index q) ix -> selectable tb rf ix (rq_sel q) -> fair rf (t_empty tb) (rq_filter q) ->
    rf_ptr rf = true -> (0 < n < 2 ^ 63)%N -> (forall p, start_point tb rf ix (rq_sel q) p -> exact_selector tb ix m (SPoint p)) ->
    exists p l f, start_point tb rf ix (rq_sel q) p /\ selected tb ix m (SPoint p) l /\ decides rf ok (rq_filter q) f /\ (length l <= fuel ->
      pages (fun a => inspect_query tis name (Request (rq_index q) (rq_sel q) (rq_filter q) n
               (match a with Some r => Some (map (fun nv => (fst nv, Some (snd nv))) r) | None => None end))) (S (length l)) None
        = Ok (map (rf_map rf) (filter f l))).
  Proof. intros NI SE FA. exact (inspect_paging_any _ q ix n (test_decides outside rf (t_empty tb) ok RF (rq_filter q) FA) NI SE). Qed.
End Q.

(** The other calls. *)
Lemma inspect_lists {T F} outside (tb : table T F) ev srt rf name names fuel db fl tis : lawful tb ->
  named_table tis name (info_of outside tb ev srt rf name names fuel db fl) ->
  In name (inspect_tables tis) /\
  (exists l, Permutation l (primary_index :: t_indexes tb) /\ StronglySorted (fun a b => (b2n (ix_id a) < b2n (ix_id b))%N) l /\
     inspect_indexes tis name = Ok (map (fun ix => names (ix_id ix)) l)) /\
  inspect_fields tis name = Ok (map (fun nv => (fst nv, gt_kind (gv_type (snd nv)))) (rf_map rf (t_empty tb))).
Proof.
  intros LAW NT. split.
  - destruct NT as [l1 [l2 [-> [E _]]]]. unfold inspect_tables. rewrite map_app. apply in_or_app. right. left. exact E.
  - unfold inspect_indexes, inspect_fields. rewrite (find_info_named _ _ _ NT). split; [|reflexivity].
    exists (indexes_of tb). split; [apply indexes_perm|]. split; [|reflexivity].
    assert (ND : NoDup (map ix_id (indexes_of tb))).
    { eapply Permutation_NoDup; [apply Permutation_map, Permutation_sym, indexes_perm|]. cbn [map]. constructor; [|apply (law_nodup _ LAW)].
      intro X. apply in_map_iff in X as [ix [E I]]. apply (law_nonzero _ LAW ix I). exact E. }
    pose proof (indexes_sorted tb) as S. revert ND S. generalize (indexes_of tb) as l.
    induction l as [|a l IH]; intros ND S; constructor; cbn [map] in ND; apply NoDup_cons_iff in ND as [N1 N2]; apply StronglySorted_inv in S as [S1 S2]; auto.
    rewrite Forall_forall in *. intros x I. specialize (S2 x I). unfold id_le in S2.
    assert (b2n (ix_id a) <> b2n (ix_id x)); [|lia]. intro E. apply N1.
    assert (X : ix_id a = ix_id x) by (apply b2n_inj; auto). rewrite X. apply in_map. auto.
Qed.
