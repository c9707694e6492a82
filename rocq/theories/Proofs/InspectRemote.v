(** Queries of the inspector through JSON: C68. *)

From Coq Require Import List NArith ZArith Lia Bool Arith Sorting.Sorted Sorting.Permutation.
From Verif.Model Require Import Bytes Go Keys Pebble Index Table Scan Query Inspect.
From Verif.Spec Require Import KeySpec StoreSpec TableSpec ScanSpec QuerySpec InspectSpec.
From Verif.Proofs Require Import BytesFacts KeysFacts PebbleFacts ScanProps QueryProps InspectFacts InspectProps.
Import ListNotations.

Section J.
  Variable outside : flt64 -> Z.
  Variable clean : bytes -> bytes.

  Lemma same_data_num a x : num a = Some x -> same_data a a.
  Proof. intro E. apply (num_same a a x x); auto. apply same_num_refl. Qed.

  Lemma json_ok v : json_safe clean v -> exists v', json_val clean v = Some v' /\ same_data (gv_data v) (gv_data v').
  Proof.
    unfold json_safe, json_val. destruct (gv_data v) as [b|z|[m e|s|]|l]; try easy.
    - eexists. split; [reflexivity|]. reflexivity.
    - intros [m [e [H1 H2]]]. eexists. split; [reflexivity|]. cbn [gv_data]. rewrite (round53_exact m e z) by auto.
      apply int_flt_same. apply same_num_refl.
    - intros _. eexists. split; [reflexivity|]. cbn [gv_data]. eapply same_data_num. reflexivity.
    - intros [K C]. eexists. split; [reflexivity|]. cbn [gv_data]. rewrite K, C. reflexivity.
  Qed.

  Lemma json_fits v t : val_fits v t -> json_safe clean v -> json_type t ->
    exists v', json_val clean v = Some v' /\ val_fits v' t /\ same_data (gv_data v) (gv_data v').
  Proof.
    intros [WV [ST [d [WD SD]]]] SF JT. destruct (json_ok v SF) as [v' [E S]]. exists v'. split; auto. split; auto.
    assert (SD' : same_data (gv_data v') d) by (eapply same_data_trans; [apply same_data_sym|]; eauto).
    split; [|split; [|exists d; auto]].
    - unfold json_safe, json_val in *. destruct (gv_data v) as [b|z|[m e|s|]|l] eqn:EV; try easy; inversion E; subst v'; unfold well_typed; cbn [gv_type gv_data gt_kind].
      + exact I.
      + destruct SF as [m [e [H1 H2]]]. exists m, e. split; auto. rewrite (round53_exact m e z) by auto. auto.
      + unfold well_typed in WV. rewrite EV in WV. destruct (gt_kind (gv_type v)); try contradiction. exact WV.
      + exact I.
    - unfold json_type in JT. destruct t as [nm k]. cbn [gt_kind gt_name] in *.
      unfold json_val in E. destruct (gv_data v) as [b|z|[m e|s|]|l]; try easy; inversion E; subst v'; cbn [gv_type gt_kind]; intro K; subst k; rewrite JT; reflexivity.
  Qed.

  Lemma json_foreign v t : foreign v t -> json_safe clean v -> exists v', json_val clean v = Some v' /\ foreign v' t /\ same_data (gv_data v) (gv_data v').
  Proof.
    intros FO SF. destruct (json_ok v SF) as [v' [E S]]. exists v'. split; auto. split; auto.
    unfold foreign in *. unfold json_safe, json_val in *. destruct (gv_data v) as [b|z|[m e|s|]|l]; try easy; inversion E; subst v'; cbn [gv_data];
      destruct (gt_kind t); auto.
  Qed.

  (** maps *)
  Definition jrel (x y : bytes * gval) : Prop := fst x = fst y /\ json_val clean (snd x) = Some (snd y).
  Definition jopt (x y : bytes * option gval) : Prop :=
    fst x = fst y /\ match snd x, snd y with Some v, Some v' => json_val clean v = Some v' | None, None => True | _, _ => False end.

  Lemma json_row_rel r : safe_row clean r -> exists r', json_row clean r = Some r' /\ Forall2 jrel r r'.
  Proof.
    induction r as [|[n v] r IH]; intro SF; [exists []; repeat split; constructor|].
    destruct (json_ok v) as [v' [E _]]; [apply (SF n); left; auto|].
    destruct IH as [r' [E' H]]; [intros x y I; apply (SF x); right; auto|].
    exists ((n, v') :: r'). cbn [json_row]. rewrite E, E'. split; auto. constructor; auto. split; auto.
  Qed.

  Lemma json_opts_rel r : safe_opts clean r -> exists r', json_opts clean r = Some r' /\ Forall2 jopt r r'.
  Proof.
    induction r as [|[n [v|]] r IH]; intro SF; [exists []; repeat split; constructor| |].
    - destruct (json_ok v) as [v' [E _]]; [apply (SF n); left; auto|].
      destruct IH as [r' [E' H]]; [intros x y I; apply (SF x); right; auto|].
      exists ((n, Some v') :: r'). cbn [json_opts]. rewrite E, E'. split; auto. constructor; auto. split; auto.
    - destruct IH as [r' [E' H]]; [intros x y I; apply (SF x); right; auto|].
      exists ((n, None) :: r'). cbn [json_opts]. rewrite E'. split; auto. constructor; auto. split; cbn; auto.
  Qed.

  Lemma rel_names {A B} (P : bytes * A -> bytes * B -> Prop) l l' : (forall x y, P x y -> fst x = fst y) -> Forall2 P l l' -> map fst l = map fst l'.
  Proof. intros H F. induction F; cbn [map]; auto. rewrite (H _ _ H0), IHF. reflexivity. Qed.

  Lemma rel_in {A B} (P : A -> B -> Prop) l l' y : Forall2 P l l' -> In y l' -> exists x, In x l /\ P x y.
  Proof. induction 1 as [|a b l l' H F IH]; [easy|]. intros [<-|I]; [exists a; split; auto; left; auto|]. destruct (IH I) as [x [J K]]. exists x. split; auto. right. auto. Qed.
  Lemma rel_in' {A B} (P : A -> B -> Prop) l l' x : Forall2 P l l' -> In x l -> exists y, In y l' /\ P x y.
  Proof. induction 1 as [|a b l l' H F IH]; [easy|]. intros [<-|I]; [exists b; split; auto; left; auto|]. destruct (IH I) as [y [J K]]. exists y. split; auto. right. auto. Qed.

  Lemma jrel_same r r' : safe_row clean r -> Forall2 jrel r r' -> same_fields r r'.
  Proof.
    intros SF H. induction H as [|[n v] [n' v'] r r' [E J] H IH]; constructor.
    - split; auto. cbn [snd] in *. destruct (json_ok v) as [v2 [E2 S]]; [apply (SF n); left; auto|]. congruence.
    - apply IH. intros x y I. apply (SF x). right. auto.
  Qed.

  Lemma json_rows_ok l : (forall r, In r l -> safe_row clean r) -> exists l', json_rows clean l = Some l' /\ Forall2 (fun r r' => Forall2 jrel r r') l l'.
  Proof.
    induction l as [|r l IH]; intro SF; [exists []; repeat split; constructor|].
    destruct (json_row_rel r) as [r' [E H]]; [apply SF; left; auto|].
    destruct IH as [l' [E' H']]; [intros; apply SF; right; auto|].
    exists (r' :: l'). cbn [json_rows]. rewrite E, E'. split; auto.
  Qed.

  Lemma rows_same l l' : (forall r, In r l -> safe_row clean r) -> Forall2 (fun r r' => Forall2 jrel r r') l l' -> Forall2 same_fields l l'.
  Proof.
    intros SF H. induction H as [|r r' l l' J H IH]; constructor; auto.
    - apply jrel_same; auto. apply SF. left. auto.
    - apply IH. intros; apply SF; right; auto.
  Qed.

  (** the request behind JSON means the same *)
  Lemma settable_json r vs vs' : (forall n w, In (n, w) r -> json_type (gv_type w)) -> safe_opts clean vs -> settable r vs -> Forall2 jopt vs vs' -> settable r vs'.
  Proof.
    intros JT SF [ND H] RL. split.
    - rewrite <- (rel_names jopt vs vs'); auto. intros x y [E _]. auto.
    - intros n ov' I. destruct (rel_in _ _ _ _ RL I) as [[n' ov] [I' [E J]]]. cbn [fst snd] in *. subst n'.
      destruct (H n ov I') as [v [w [-> [IW FT]]]]. destruct ov' as [v'|]; [|contradiction].
      destruct (json_fits v (gv_type w) FT) as [v2 [E2 [F2 _]]]; [eapply SF; eauto|eapply JT; eauto|].
      exists v', w. repeat split; auto; assert (v2 = v') by congruence; subst; apply F2.
  Qed.

  Lemma given_json r vs vs' x : safe_opts clean vs -> Forall2 jopt vs vs' -> given r vs' x -> given r vs x.
  Proof.
    intros SF RL [SH H]. split; auto. intros n w I. destruct (H n w I) as [[v' [I1 S1]]|[I1 I2]].
    - left. destruct (rel_in _ _ _ _ RL I1) as [[n' ov] [I' [E J]]]. cbn [fst snd] in *. subst n'. destruct ov as [v|]; [|contradiction].
      exists v. split; auto. destruct (json_ok v) as [v2 [E2 S2]]; [eapply SF; eauto|]. assert (v2 = v') by congruence. subst. eapply same_data_trans; eauto.
    - right. split; auto. rewrite (rel_names jopt vs vs'); auto. intros a b [E _]. auto.
  Qed.

  Lemma meets_json r fs fs' : safe_row clean fs -> Forall2 jrel fs fs' -> (meets r fs' <-> meets r fs).
  Proof.
    intros SF RL. split; intros H n v I.
    - destruct (rel_in' _ _ _ _ RL I) as [[n' v'] [I' [E J]]]. cbn [fst snd] in *. subst n'. destruct (H n v' I') as [w [IW S]]. exists w. split; auto.
      destruct (json_ok v) as [v2 [E2 S2]]; [eapply SF; eauto|]. assert (v2 = v') by congruence. subst. eapply same_data_trans; eauto.
    - destruct (rel_in _ _ _ _ RL I) as [[n' v'] [I' [E J]]]. cbn [fst snd] in *. subst n'. destruct (H n v' I') as [w [IW S]]. exists w. split; auto.
      destruct (json_ok v') as [v2 [E2 S2]]; [eapply SF; eauto|]. assert (v2 = v) by congruence. subst. eapply same_data_trans; [apply same_data_sym|]; eauto.
  Qed.

  Lemma fair_json r fs fs' : (forall n w, In (n, w) r -> json_type (gv_type w)) -> safe_row clean fs -> fair_filter r fs -> Forall2 jrel fs fs' -> fair_filter r fs'.
  Proof.
    intros JT SF FA RL n v' w I IW. destruct (rel_in _ _ _ _ RL I) as [[n' v] [I' [E J]]]. cbn [fst snd] in *. subst n'.
    destruct (FA n v w I' IW) as [FT|FO].
    - left. destruct (json_fits v (gv_type w) FT) as [v2 [E2 [F2 _]]]; [eapply SF; eauto|eapply JT; eauto|]. assert (v2 = v') by congruence. subst. auto.
    - right. destruct (json_foreign v (gv_type w) FO) as [v2 [E2 [F2 _]]]; [eapply SF; eauto|]. assert (v2 = v') by congruence. subst. auto.
  Qed.

  Definition jfilter (a b : option (list (bytes * gval))) : Prop := match a, b with Some x, Some y => Forall2 jrel x y | None, None => True | _, _ => False end.
  Definition jafter (a b : option (list (bytes * option gval))) : Prop := match a, b with Some x, Some y => Forall2 jopt x y | None, None => True | _, _ => False end.

  Lemma json_request_ok q : safe_request clean q -> exists q', json_request clean q = Some q' /\ rq_index q' = rq_index q /\ rq_limit q' = rq_limit q /\
    Forall2 jopt (rq_sel q) (rq_sel q') /\ jfilter (rq_filter q) (rq_filter q') /\ jafter (rq_after q) (rq_after q').
  Proof.
    intros [S1 [S2 S3]]. unfold json_request. destruct (json_opts_rel _ S1) as [sel [-> R1]].
    assert (F : exists fs, match rq_filter q with None => Some None | Some fs => match json_row clean fs with Some l => Some (Some l) | None => None end end = Some fs /\ jfilter (rq_filter q) fs).
    { destruct (rq_filter q) as [fs|]; [|exists None; split; cbn; auto]. destruct (json_row_rel _ S2) as [fs' [-> R2]]. exists (Some fs'). auto. }
    assert (A : exists vs, match rq_after q with None => Some None | Some vs => match json_opts clean vs with Some l => Some (Some l) | None => None end end = Some vs /\ jafter (rq_after q) vs).
    { destruct (rq_after q) as [vs|]; [|exists None; split; cbn; auto]. destruct (json_opts_rel _ S3) as [vs' [-> R3]]. exists (Some vs'). auto. }
    destruct F as [fs [-> RF]], A as [vs [-> RA]]. eexists. split; [reflexivity|]. cbn. auto.
  Qed.

  (** a value read back from JSON becomes what it was *)
  Lemma json_becomes v v' : json_safe clean v -> well_typed v -> json_type (gv_type v) -> json_val clean v = Some v' -> becomes outside v' v.
  Proof.
    intros SF WT JT E r n old EF TY. unfold set_field. rewrite EF, TY.
    destruct v as [[nm k] d]. unfold json_safe, well_typed, json_type, json_val in *. cbn [gv_type gv_data gt_kind gt_name] in *.
    destruct d as [b|z|[m e|s|]|l]; try contradiction; destruct k as [|w|w| | |]; try contradiction; inversion E; subst v'; cbn [gv_type gv_data gt_kind].
    - subst nm. reflexivity.
    - destruct WT as [W RG]. pose proof (width_pos w W) as WP. destruct SF as [m [e [H1 H2]]]. rewrite (round53_exact m e z H1 H2).
      change (kind_eqb KFloat (KInt w)) with false. unfold convert. cbn [gv_data gt_kind].
      rewrite (flt_int_exact outside _ _ z 0 z) by (try apply same_num_refl; apply (int_range_64 (width w)); auto; lia).
      rewrite to_signed_in by (auto; lia). reflexivity.
    - destruct WT as [W RG]. pose proof (width_pos w W) as WP. destruct SF as [m [e [H1 H2]]]. rewrite (round53_exact m e z H1 H2).
      change (kind_eqb KFloat (KUint w)) with false. unfold convert. cbn [gv_data gt_kind]. pose proof (pow256_le (width w) ltac:(lia)).
      rewrite (flt_int_exact outside _ _ z 0 z) by (try apply same_num_refl; lia).
      rewrite to_unsigned_in by auto. reflexivity.
    - subst nm. reflexivity.
    - subst nm. destruct SF as [_ C]. rewrite C. reflexivity.
  Qed.

  (** JSON twice is JSON once *)
  Lemma json_twice v v' : json_safe clean v -> json_val clean v = Some v' -> json_safe clean v' /\ json_val clean v' = Some v'.
  Proof.
    unfold json_safe, json_val. destruct (gv_data v) as [b|z|[m e|s|]|l]; try easy; intros SF E; inversion E; subst v'; cbn [gv_data gv_type gt_kind]; auto.
    destruct SF as [K C]. rewrite K, !C. auto.
  Qed.

  Lemma json_opts_twice r r' : safe_row clean r -> Forall2 jrel r r' ->
    json_opts clean (map (fun nv => (fst nv, Some (snd nv))) r') = Some (map (fun nv => (fst nv, Some (snd nv))) r').
  Proof.
    intros SF H. induction H as [|[n v] [n' v'] r r' [E J] H IH]; auto. cbn [map fst snd json_opts] in *.
    destruct (json_twice v v') as [_ ->]; auto; [apply (SF n); left; auto|].
    rewrite IH; auto. intros x y I. apply (SF x). right. auto.
  Qed.
End J.

Section Q.
  Context {T F : Type}.
  Variable outside : flt64 -> Z.
  Variable clean : bytes -> bytes.
  Variable tb : table T F.
  Hypothesis G : good_table tb.
  Variable ev : env T.
  Hypothesis EV : env_ok ev.
  Variable srt : (T -> T -> bool) -> list T -> list T.
  Variables (db : kv) (fl : F) (m : tmap T).
  Hypothesis R : reads tb db fl NoBatch m.
  Hypothesis PRE : 0 < t_prefetch tb.
  Hypothesis Q : quiet ev.
  Variable rf : refl T.
  Variable ok : T -> Prop.
  Hypothesis RF : reflects rf (t_empty tb) ok.
  Hypothesis OK : forall r, m (s_pk (schema_of tb) r) = Some r -> ok r.
  Hypothesis JT : forall n w, In (n, w) (rf_map rf (t_empty tb)) -> json_type (gv_type w).
  Variable names : byte -> bytes.
  Notation sc := (schema_of tb).
  Variables (tis : list tinfo) (name : bytes) (fuel : nat).
  Hypothesis NE : name <> [].
  Hypothesis NT : named_table tis name (info_of outside tb ev srt rf name names fuel db fl).

  Lemma window_in {A} off lim (l : list A) x : In x (window off lim l) -> In x l.
  Proof.
    unfold window. intro H. assert (X : In x (skipn (N.to_nat off) l)).
    { destruct (lim =? 0)%N; auto. rewrite <- (firstn_skipn (N.to_nat lim)). apply in_or_app. auto. }
    rewrite <- (firstn_skipn (N.to_nat off)). apply in_or_app. auto.
  Qed.

  Lemma answer_json q q' l : json_request clean q = Some q' -> inspect_query tis name q' = Ok (map (rf_map rf) l) -> (forall r, In r l -> safe_row clean (rf_map rf r)) ->
    exists rows, remote_query clean tis name q = Ok rows /\ Forall2 same_fields (map (rf_map rf) l) rows.
  Proof.
    intros E V SF. unfold remote_query. rewrite E, V. destruct (json_rows_ok clean (map (rf_map rf) l)) as [rows [E2 H]].
    - intros r I. apply in_map_iff in I as [x [<- I]]. auto.
    - rewrite E2. exists rows. split; auto. apply (rows_same clean); auto. intros r I. apply in_map_iff in I as [x [<- I]]. auto.
  Qed.

  (** C68 *)
  Lemma remote_rows q ix : safe_request clean q -> named_index tb names (rq_index q) ix -> selectable tb rf ix (rq_sel q) -> fair rf (t_empty tb) (rq_filter q) ->
    (rq_limit q < 2 ^ 63)%N -> (forall p, start_point tb rf ix (rq_sel q) p -> exact_selector tb ix m (SPoint p)) ->
    exists p l f, start_point tb rf ix (rq_sel q) p /\ selected tb ix m (SPoint p) l /\ decides rf ok (rq_filter q) f /\
    (length l <= fuel -> (forall r, In r l -> safe_row clean (rf_map rf r)) ->
      (rq_after q = None -> exists rows, remote_query clean tis name q = Ok rows /\ Forall2 same_fields (map (rf_map rf) (window 0 (rq_limit q) (filter f l))) rows) /\
      (forall vs, rq_after q = Some vs -> rf_ptr rf = true -> settable (rf_map rf (t_empty tb)) vs ->
         exists a, described rf (t_empty tb) vs a /\
         (after_fits sc (sindex_of ix) (Byte.eqb (ix_id ix) x00) a (SPoint p) ->
          exists rows, remote_query clean tis name q = Ok rows /\
            Forall2 same_fields (map (rf_map rf) (window 0 (rq_limit q) (filter f (rows_after sc (sindex_of ix) a l)))) rows))).
  Proof.
    intros SQ NI SE FA HL EX. pose proof SQ as [Q1 [Q2 Q3]]. destruct (json_request_ok clean q SQ) as [q' [EQ [I1 [I2 [R1 [R2 R3]]]]]].
    assert (SP : forall p, start_point tb rf ix (rq_sel q') p -> start_point tb rf ix (rq_sel q) p).
    { intro p. unfold start_point. destruct (Byte.eqb _ _); auto. apply given_json with clean; auto. }
    destruct (inspect_rows outside tb G ev EV srt db fl m R PRE Q rf ok RF names tis name fuel NE NT q' ix) as [p [l [f [H1 [H2 [H3 H4]]]]]].
    - rewrite I1. auto.
    - unfold selectable in *. destruct (Byte.eqb _ _); auto. destruct SE as [PT ST]. split; auto. eapply settable_json; eauto.
    - unfold fair in *. unfold jfilter in R2. destruct (rq_filter q) as [fs|], (rq_filter q') as [fs'|]; try contradiction; auto. eapply fair_json; eauto.
    - rewrite I2. auto.
    - intros p H. apply EX. auto.
    - exists p, l, f. split; auto. split; auto. split.
      { intros r KR. rewrite (H3 r KR). unfold jfilter in R2. destruct (rq_filter q) as [fs|], (rq_filter q') as [fs'|]; try contradiction; [|tauto].
        eapply meets_json; eauto. }
      intros LE SF. destruct (H4 LE) as [V1 V2]. rewrite I2 in *. split.
      + intro NA. apply (answer_json q q'); auto.
        * apply V1. unfold jafter in R3. rewrite NA in R3. destruct (rq_after q'); [contradiction|auto].
        * intros r I. apply window_in in I. apply filter_In in I as [I _]. auto.
      + intros vs EA PT ST. unfold jafter in R3. rewrite EA in *. destruct (rq_after q') as [vs'|] eqn:EA'; [|contradiction].
        destruct (V2 vs' eq_refl PT) as [a [D V3]]; [eapply settable_json; eauto|].
        exists a. split; [eapply given_json; eauto|]. intro AF. apply (answer_json q q'); auto.
        intros r I. apply window_in in I. apply filter_In in I as [I _]. apply SF. unfold rows_after in I. apply filter_In in I. tauto.
  Qed.

  (** paging with the rows as they come back *)
  Lemma remote_paging q ix n : safe_request clean q -> named_index tb names (rq_index q) ix -> selectable tb rf ix (rq_sel q) -> fair rf (t_empty tb) (rq_filter q) ->
    rf_ptr rf = true -> (0 < n < 2 ^ 63)%N -> (forall p, start_point tb rf ix (rq_sel q) p -> exact_selector tb ix m (SPoint p)) ->
    exists p l f, start_point tb rf ix (rq_sel q) p /\ selected tb ix m (SPoint p) l /\ decides rf ok (rq_filter q) f /\
    (length l <= fuel -> (forall r, In r l -> safe_row clean (rf_map rf r)) ->
      exists rows, pages (fun a => remote_query clean tis name (Request (rq_index q) (rq_sel q) (rq_filter q) n
               (match a with Some r => Some (map (fun nv => (fst nv, Some (snd nv))) r) | None => None end))) (S (length l)) None = Ok rows /\
        Forall2 same_fields (map (rf_map rf) (filter f l)) rows).
  Proof.
    intros SQ NI SE FA PT [N1 N2] EX. pose proof SQ as [Q1 [Q2 Q3]]. assert (HI : In ix (primary_index :: t_indexes tb)) by apply NI.
    assert (NZ : (n =? 0)%N = false) by (apply N.eqb_neq; lia).
    destruct (json_request_ok clean q SQ) as [q' [EQ [I1 [I2 [R1 [R2 R3]]]]]].
    assert (SP : forall p, start_point tb rf ix (rq_sel q') p -> start_point tb rf ix (rq_sel q) p).
    { intro p. unfold start_point. destruct (Byte.eqb _ _); auto. apply given_json with clean; auto. }
    destruct (query_built outside tb G ev srt db fl PRE rf ok RF names fuel ix q') as [p [H1 V]].
    { rewrite I1. auto. }
    { unfold selectable in *. destruct (Byte.eqb _ _); auto. destruct SE as [PT' ST]. split; auto. eapply settable_json; eauto. }
    set (fs' := rq_filter q') in *.
    destruct (run_base outside tb G ev EV srt db fl m R PRE Q rf fuel ix p fs' n HI (EX p (SP p H1)) N2) as [l [S W]].
    assert (FA' : fair rf (t_empty tb) fs').
    { unfold fair, jfilter in *. destruct (rq_filter q) as [fs|], fs' as [x|]; try contradiction; auto. eapply fair_json; eauto. }
    exists p, l, (the_test outside rf fs'). split; auto. split; auto. split.
    { intros r KR. rewrite (test_decides outside rf (t_empty tb) ok RF fs' FA' r KR). unfold jfilter in R2.
      destruct (rq_filter q) as [fs|], fs' as [x|]; try contradiction; [|tauto]. eapply meets_json; eauto. }
    intros LE SF. destruct (W LE) as [W1 W2]. set (f := the_test outside rf fs') in *.
    assert (SFF : forall r, In r (map (rf_map rf) (filter f l)) -> safe_row clean r).
    { intros r I. apply in_map_iff in I as [x [<- I]]. apply filter_In in I as [I _]. auto. }
    destruct (json_rows_ok clean (map (rf_map rf) (filter f l)) SFF) as [rows [ER HR]].
    exists rows. split; [|apply (rows_same clean); auto].
    assert (FN : forall (l1 : list row) r1, json_rows clean l1 = Some r1 -> forall k, json_rows clean (firstn k l1) = Some (firstn k r1)).
    { induction l1 as [|a l1 IH]; intros r1 E k; cbn [json_rows] in E.
      - inversion E. rewrite !firstn_nil. reflexivity.
      - destruct (json_row clean a) eqn:E1; [|discriminate]. destruct (json_rows clean l1) eqn:E2; [|discriminate]. inversion E. subst.
        destruct k; [reflexivity|]. cbn [firstn json_rows]. rewrite E1, (IH _ eq_refl). reflexivity. }
    assert (JQ : forall after after', match after with None => Some None | Some vs => match json_opts clean vs with Some l => Some (Some l) | None => None end end = Some after' ->
      json_request clean (Request (rq_index q) (rq_sel q) (rq_filter q) n after) = Some (Request (rq_index q') (rq_sel q') fs' n after')).
    { intros after after' E. unfold json_request in *. cbn [rq_sel rq_filter rq_after rq_index rq_limit].
      destruct (json_opts clean (rq_sel q)); [|discriminate].
      destruct (match rq_filter q with Some _ => _ | None => _ end) as [fs|]; [|discriminate].
      destruct (match rq_after q with Some _ => _ | None => _ end); [|discriminate].
      rewrite E. inversion EQ. subst q'. reflexivity. }
    eapply (pages_list _ (N.to_nat n) rows) with (pre := []); [lia| |reflexivity| |].
    - intros k1 ra k2 E.
      assert (X : exists l1 a l2, filter f l = l1 ++ a :: l2 /\ Forall2 (jrel clean) (rf_map rf a) ra /\ json_rows clean (map (rf_map rf) l2) = Some k2).
      { clear - ER HR E. revert rows ER HR k1 E. induction (filter f l) as [|x k IH]; intros rows ER HR k1 E.
        - destruct rows; [destruct k1; discriminate|inversion HR].
        - cbn [map] in *. destruct rows as [|y ys]; [inversion HR|]. assert (J : Forall2 (jrel clean) (rf_map rf x) y /\ Forall2 (fun r r' => Forall2 (jrel clean) r r') (map (rf_map rf) k) ys) by (inversion HR; auto).
          destruct J as [J1 J2]. cbn [json_rows] in ER.
          destruct (json_row clean (rf_map rf x)) eqn:E1; [|discriminate]. destruct (json_rows clean (map (rf_map rf) k)) as [ys'|] eqn:E2; [|discriminate].
          assert (ys' = ys) by congruence. subst ys'.
          destruct k1 as [|z k1]; cbn [app] in E.
          + assert (y = ra /\ ys = k2) as [-> ->] by (split; congruence). exists [], x, k. auto.
          + assert (E' : ys = k1 ++ ra :: k2) by congruence.
            destruct (IH ys eq_refl J2 k1 E') as [l1 [a [l2 [A1 [A2 A3]]]]]. exists (x :: l1), a, l2. split; [cbn; congruence|auto]. }
      destruct X as [l1 [a [l2 [E1 [J E2]]]]].
      assert (KA : ok a).
      { apply OK. eapply listings_stored; [exact S|]. assert (I : In a (filter f l)) by (rewrite E1; apply in_or_app; right; left; auto). apply filter_In in I. tauto. }
      assert (SA : safe_row clean (rf_map rf a)).
      { apply SF. assert (I : In a (filter f l)) by (rewrite E1; apply in_or_app; right; left; auto). apply filter_In in I. tauto. }
      unfold remote_query. rewrite (JQ _ (Some (map (fun nv => (fst nv, Some (snd nv))) ra))) by (rewrite (json_opts_twice clean (rf_map rf a) ra); auto).
      rewrite (query_here outside tb ev srt db fl rf names tis name fuel NE NT). cbn [rq_index rq_sel rq_filter rq_limit rq_after]. rewrite V.
      rewrite (make_all outside rf (t_empty tb) ok RF ra a KA PT).
      + rewrite (page_at outside tb G ev EV srt db fl m R PRE Q rf fuel ix p fs' n l l1 a l2) by auto. cbn [to_res].
        rewrite <- firstn_map, (FN _ _ E2). reflexivity.
      + assert (AL : forall n v, In (n, v) (rf_map rf a) -> well_typed v /\ json_type (gv_type v)).
        { intros n0 v I. split; [eapply (rfl_typed _ _ _ RF); eauto|].
          destruct (shape_has _ _ n0 v (rfl_shape _ _ _ RF a) I) as [w I'].
          rewrite (shape_type (rf_map rf a) (rf_map rf (t_empty tb)) n0 v w); auto; [eapply JT; eauto| |apply (rfl_shape _ _ _ RF)].
          rewrite (shape_fst _ _ (rfl_shape _ _ _ RF a)). apply (rfl_names _ _ _ RF). }
        clear - J SA AL. induction J as [|[n v] [n' v'] r r' [E J] H IH]; constructor.
        * cbn [fst snd] in *. subst n'. split; auto. destruct (AL n v) as [A1 A2]; [left; auto|]. eapply json_becomes; eauto. apply (SA n). left. auto.
        * apply IH; [intros x y I; apply (SA x); right; auto|intros x y I; apply (AL x); right; auto].
    - unfold remote_query. rewrite (JQ _ None) by reflexivity.
      rewrite (query_here outside tb ev srt db fl rf names tis name fuel NE NT). cbn [rq_index rq_sel rq_filter rq_limit rq_after]. rewrite V, W1. cbn [to_res].
      rewrite window0 by auto. rewrite <- firstn_map, (FN _ _ ER). reflexivity.
    - assert (L : length rows = length (filter f l)).
      { clear - HR. rewrite <- (map_length (rf_map rf)). induction HR; cbn; auto. }
      rewrite L. pose proof (filter_short f l). lia.
  Qed.
End Q.
