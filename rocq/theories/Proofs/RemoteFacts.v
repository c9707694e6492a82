(** The inspector over HTTP answers as the inspector. *)

From Coq Require Import Strings.String Strings.Byte List NArith ZArith Bool Arith Lia.
From Verif.Model Require Import Bytes Go Inspect Remote.
From Verif.Spec Require Import RemoteSpec.
From Verif.Proofs Require Import BytesFacts.
Import ListNotations.
Local Open Scope list_scope.

Lemma cut_none c s : ~ In c s -> cut c s = s.
Proof.
  induction s as [|x s IH]; intro N; [reflexivity|]. cbn [cut].
  destruct (Byte.eqb x c) eqn:E; [apply Byte.byte_dec_bl in E; exfalso; apply N; now left|].
  rewrite IH; [reflexivity|]. intro I. apply N. now right.
Qed.

Lemma hex_some c : hex_digit c -> exists n, hex c = Some n.
Proof. intro I. cbn in I. repeat destruct I as [<-|I]; try (eexists; vm_compute; reflexivity); destruct I. Qed.

Lemma hex_digit_of c n : hex c = Some n -> hex_digit c.
Proof. unfold hex_digit. destruct c; vm_compute; intro H; try discriminate H; tauto. Qed.

Lemma unescape_escaped s : (exists p, unescape s = Some p) <-> escaped s.
Proof.
  split.
  - assert (X : forall n s, length s <= n -> forall p, unescape s = Some p -> escaped s).
    { clear s. induction n as [|n IH]; intros s L p U.
      - destruct s; [constructor|cbn in L; lia].
      - destruct s as [|c s]; [constructor|]. cbn [length] in L. cbn [unescape] in U. destruct (Byte.eqb c x25) eqn:E.
        + apply Byte.byte_dec_bl in E. subst c. destruct s as [|a [|b s]]; try discriminate.
          destruct (hex a) as [x|] eqn:HA; [|discriminate]. destruct (hex b) as [y|] eqn:HB; [|discriminate].
          destruct (unescape s) as [r|] eqn:US; [|discriminate].
          apply esc_hex; [eapply hex_digit_of; eassumption|eapply hex_digit_of; eassumption|]. cbn [length] in L. eapply IH; [|exact US]. lia.
        + destruct (unescape s) as [r|] eqn:US; [|discriminate]. apply esc_plain; [intros ->; discriminate E|]. eapply IH; [|exact US]. lia. }
    intros [p U]. eapply X; [|exact U]. apply le_n.
  - induction 1 as [|c s N E [p IH]|a b s HA HB E [p IH]].
    + eexists. reflexivity.
    + cbn [unescape]. destruct (Byte.eqb c x25) eqn:EQ; [apply Byte.byte_dec_bl in EQ; contradiction|]. rewrite IH. eexists. reflexivity.
    + cbn [unescape]. change (Byte.eqb "%"%byte x25) with true. cbn iota.
      destruct (hex_some a HA) as [x ->], (hex_some b HB) as [y ->]. rewrite IH. eexists. reflexivity.
Qed.

Lemma unescape_app s p q : escaped s -> unescape s = Some p -> unescape (s ++ q) = match unescape q with Some r => Some (p ++ r) | None => None end.
Proof.
  intro E. revert p. induction E as [|c s N E IH|a b s HA HB E IH]; intros p U.
  - injection U as <-. cbn [app]. destruct (unescape q); reflexivity.
  - cbn [unescape app] in *. destruct (Byte.eqb c x25) eqn:EQ; [apply Byte.byte_dec_bl in EQ; contradiction|].
    destruct (unescape s) as [r|] eqn:US; [|discriminate]. injection U as <-. rewrite (IH r eq_refl). destruct (unescape q); reflexivity.
  - cbn [unescape app] in *. change (Byte.eqb "%"%byte x25) with true in *. cbn iota in *.
    destruct (hex a) as [x|]; [|discriminate]. destruct (hex b) as [y|]; [|discriminate]. destruct (unescape s) as [r|] eqn:US; [|discriminate].
    injection U as <-. rewrite (IH r eq_refl). destruct (unescape q); reflexivity.
Qed.

Lemma escaped_app s q : escaped s -> escaped q -> escaped (s ++ q).
Proof. intros E Q. induction E; cbn; [exact Q|now apply esc_plain|now apply esc_hex]. Qed.

(** What stands before a slash is complete by itself. *)
Lemma escaped_split s q : escaped (s ++ "/"%byte :: q) -> escaped s.
Proof.
  assert (X : forall n s, length s <= n -> escaped (s ++ "/"%byte :: q) -> escaped s).
  { clear s. induction n as [|n IH]; intros s L E.
    - destruct s; [constructor|cbn in L; lia].
    - destruct s as [|c s]; [constructor|]. cbn [length app] in *. remember (c :: s ++ "/"%byte :: q) as z eqn:EZ. destruct E as [|c' s' N E'|a b s0 HA HB E']; [discriminate EZ| |].
      + injection EZ as -> ->. apply esc_plain; [exact N|]. apply IH; [lia|exact E'].
      + injection EZ as <- EQ. destruct s as [|a' [|b' s]]; cbn [app length] in *.
        * exfalso. assert (a = "/"%byte) by congruence. subst a. clear - HA. cbn in HA. intuition discriminate.
        * exfalso. assert (b = "/"%byte) by congruence. subst b. clear - HB. cbn in HB. intuition discriminate.
        * injection EQ as -> -> ->. apply esc_hex; [exact HA|exact HB|]. apply IH; [lia|exact E']. }
  intro E. eapply X; [|exact E]. apply le_n.
Qed.

Lemma trim_shape s : trim_slash s = s \/ s = trim_slash s ++ ["/"%byte].
Proof.
  unfold trim_slash. destruct (rev s) as [|c r] eqn:R; [left; reflexivity|].
  assert (S : s = rev r ++ [c]) by (rewrite <- (rev_involutive s), R; reflexivity).
  destruct c; try (left; reflexivity). right. exact S.
Qed.

Lemma trim_no_query s : no_query s -> no_query (trim_slash s).
Proof.
  intros [A B]. destruct (trim_shape s) as [E|E]; [rewrite E; now split|].
  split; intro I; [apply A|apply B]; rewrite E; apply in_or_app; now left.
Qed.

Lemma trim_escaped s : escaped (trim_slash s) <-> escaped s.
Proof.
  destruct (trim_shape s) as [E|E]; [rewrite E; reflexivity|].
  split; intro H.
  - rewrite E. apply escaped_app; [exact H|]. apply esc_plain; [discriminate|constructor].
  - rewrite E in H. eapply escaped_split. exact H.
Qed.

(** One of the four paths. *)
Definition a_path (q : bytes) : Prop := no_query q /\ escaped q /\ unescape q = Some q /\ exists r, q = "/"%byte :: r.

Lemma four_paths : a_path tables_path /\ a_path indexes_path /\ a_path fields_path /\ a_path query_path.
Proof.
  assert (X : forall q r, no_query q -> unescape q = Some q -> q = "/"%byte :: r -> a_path q).
  { intros q r N U E. split; [exact N|]. split; [apply unescape_escaped; eexists; exact U|]. split; [exact U|exists r; exact E]. }
  repeat split; try (eapply X; [split|vm_compute; reflexivity|reflexivity]; vm_compute; intuition discriminate);
    try (vm_compute; intuition discriminate); try (apply unescape_escaped; eexists; vm_compute; reflexivity); try (vm_compute; reflexivity);
    eexists; reflexivity.
Qed.

Lemma url_of base q : no_query base -> a_path q ->
  (escaped base -> exists p, url_path (trim_slash base ++ q) = Some (p ++ q)) /\ (~ escaped base -> url_path (trim_slash base ++ q) = None).
Proof.
  intros NQ [[Q1 Q2] [QE [QU [r QR]]]]. destruct (trim_no_query base NQ) as [T1 T2].
  assert (U : url_path (trim_slash base ++ q) = unescape (trim_slash base ++ q)).
  { unfold url_path. rewrite (cut_none x23), (cut_none x3f); [reflexivity| |]; intro I; apply in_app_or in I; destruct I as [I|I]; contradiction. }
  rewrite U. split; intro E.
  - apply trim_escaped in E. destruct (proj2 (unescape_escaped _) E) as [p P]. exists p. rewrite (unescape_app _ _ q E P), QU. reflexivity.
  - destruct (unescape (trim_slash base ++ q)) as [p|] eqn:P; [|reflexivity].
    exfalso. apply E, trim_escaped. assert (E' : escaped (trim_slash base ++ q)) by (apply unescape_escaped; eexists; exact P).
    rewrite QR in E'. eapply escaped_split. exact E'.
Qed.

Lemma ends_app p q : ends_in q (p ++ q) = true.
Proof. unfold ends_in. rewrite rev_app_distr. apply has_prefix_app. Qed.

(** Suffixes of which none is a suffix of another. *)
Lemma ends_other p q s : (forall x, In x [tables_path; indexes_path; fields_path; query_path] -> True) -> ends_in s (p ++ q) = true ->
  length s <= length q -> ends_in s q = true.
Proof.
  intros _ E L. unfold ends_in in *. rewrite rev_app_distr in E. apply has_prefix_spec in E. destruct E as [t E].
  apply has_prefix_spec. exists (skipn (length (rev s)) (rev q)).
  assert (F : firstn (length (rev s)) (rev q) = rev s).
  { assert (X := f_equal (firstn (length (rev s))) E). rewrite firstn_app, firstn_app, firstn_all, Nat.sub_diag, firstn_O, app_nil_r in X.
    replace (length (rev s) - length (rev q)) with 0 in X by (rewrite !rev_length; lia). rewrite firstn_O, app_nil_r in X. exact X. }
  rewrite <- F at 1. symmetry. apply firstn_skipn.
Qed.

Lemma longer_ends p q s k : ends_in s (p ++ q) = true -> length q < length s -> length s = k + length q -> ends_in q s = true.
Proof.
  intros E L K. unfold ends_in in *. rewrite rev_app_distr in E. apply has_prefix_spec in E. destruct E as [t E].
  apply has_prefix_spec. exists (skipn (length (rev q)) (rev s)).
  assert (F : firstn (length (rev q)) (rev s) = rev q).
  { assert (X := f_equal (firstn (length (rev q))) E). rewrite firstn_app, firstn_app, firstn_all, Nat.sub_diag, firstn_O, app_nil_r in X.
    replace (length (rev q) - length (rev s)) with 0 in X by (rewrite !rev_length; lia). rewrite firstn_O, app_nil_r in X. symmetry. exact X. }
  rewrite <- F at 1. symmetry. apply firstn_skipn.
Qed.

Lemma not_ends p q s : ends_in s q = false -> ends_in q s = false -> ends_in s (p ++ q) = false.
Proof.
  intros A B. destruct (ends_in s (p ++ q)) eqn:E; [|reflexivity]. exfalso.
  destruct (Nat.le_gt_cases (length s) (length q)) as [L|L].
  - rewrite (ends_other p q s (fun _ _ => I) E L) in A. discriminate.
  - rewrite (longer_ends p q s (length s - length q) E L) in B; [discriminate|lia].
Qed.

(** ** Headers *)

Lemma lower_accept n : beqb (map lower n) (list_byte_of_string "accept") = true <-> is_accept n.
Proof.
  rewrite beqb_eq. unfold is_accept. split.
  - assert (X : forall l, (forall c, In c l -> In c (list_byte_of_string "accept")) -> forall n, map lower n = l -> Forall2 (fun a b => a = b \/ (b2n a + 32 = b2n b)%N) n l).
    { induction l as [|b l IH]; intros IN m M; destruct m as [|a m]; try discriminate M; [constructor|]. cbn [map] in M.
      assert (M1 : lower a = b) by congruence. assert (M2 : map lower m = l) by congruence. constructor.
      - assert (IB := IN b (or_introl eq_refl)). clear - M1 IB. subst b. destruct a; vm_compute in IB |- *; try (left; reflexivity); right; reflexivity.
      - apply IH; [intros c IC; apply IN; now right|exact M2]. }
    apply X. auto.
  - assert (X : forall l, (forall c, In c l -> In c (list_byte_of_string "accept")) -> forall n, Forall2 (fun a b => a = b \/ (b2n a + 32 = b2n b)%N) n l -> map lower n = l).
    { induction l as [|b l IH]; intros IN m M; inversion M as [|a ? m' ? AB MR]; subst; [reflexivity|]. cbn [map]. f_equal.
      - assert (IB := IN b (or_introl eq_refl)). clear - AB IB. destruct AB as [->|AB].
        + cbn in IB. repeat destruct IB as [<-|IB]; try reflexivity. destruct IB.
        + assert (BA : (b2n a = b2n b - 32)%N) by lia. cbn in IB.
          repeat destruct IB as [<-|IB]; try (vm_compute in BA; destruct a; vm_compute in BA; try discriminate BA; reflexivity). destruct IB.
      - apply IH; [intros c IC; apply IN; now right|exact MR]. }
    apply X. auto.
Qed.

Lemma accept_in h : accept_of h = [] /\ (forall n v, In (n, v) h -> ~ is_accept n) \/ exists n, In (n, accept_of h) h /\ is_accept n.
Proof.
  unfold accept_of. destruct (find (fun h => beqb (map lower (fst h)) (list_byte_of_string "accept")) (rev h)) as [[n v]|] eqn:F.
  - right. exists n. apply find_some in F. destruct F as [I E]. cbn [fst snd] in *. split; [now apply in_rev|now apply lower_accept].
  - left. split; [reflexivity|]. intros n v I A. apply in_rev in I. assert (X := find_none _ _ F (n, v) I). cbn [fst] in X.
    apply lower_accept in A. congruence.
Qed.

Lemma accepts_spec p a b : accepts (HReq p a b) = true <-> wants_json a.
Proof.
  unfold accepts, wants_json. cbn [hq_accept]. destruct a as [|c a]; [tauto|]. rewrite beqb_eq. split; [tauto|]. intros [H|H]; [discriminate|exact H].
Qed.

(** ** JSON *)

Section Facts.
  Variable clean : bytes -> bytes.
  Variable err_text : error -> bytes.
  Variable tis : list tinfo.

  Lemma strings_back l : dec_strings (enc_strings clean l) = Some (map clean l).
  Proof.
    destruct l as [|s l]; [reflexivity|]. unfold enc_strings, dec_strings. generalize (s :: l) as k. clear.
    induction k as [|s k IH]; [reflexivity|]. cbn [map fold_right]. rewrite IH. reflexivity.
  Qed.

  Lemma map_back {K} (f : K -> bytes) (l : list (bytes * K)) : dec_string_map (JObj (map (fun e => (fst e, JStr (f (snd e)))) l)) = Some (map (fun e => (fst e, f (snd e))) l).
  Proof. cbn [dec_string_map]. induction l as [|e l IH]; [reflexivity|]. cbn [map fold_right]. rewrite IH. reflexivity. Qed.

  Lemma val_back v : match enc_val clean v with Some j => dec_val j | None => None end = match json_val clean v with Some v' => Some (Some v') | None => None end.
  Proof. unfold enc_val, json_val. destruct v as [t [b|z|[m e|s|]|l]]; reflexivity. Qed.

  Lemma opts_back r : match enc_opts clean r with Some j => dec_opts j | None => None end = match json_opts clean r with Some l => Some (Some l) | None => None end.
  Proof.
    unfold enc_opts. induction r as [|[n ov] r IH]; [reflexivity|]. cbn [fold_right fst snd json_opts].
    destruct (fold_right _ (Some []) r) as [l|]; cbn [dec_opts] in IH.
    - destruct ov as [v|].
      + assert (V := val_back v). destruct (enc_val clean v) as [j|].
        * cbn [dec_opts fold_right fst snd]. rewrite V. destruct (json_val clean v) as [v'|]; [|reflexivity].
          destruct (fold_right _ (Some []) l) as [x|]; destruct (json_opts clean r) as [y|]; try discriminate IH; [|reflexivity].
          injection IH as ->. reflexivity.
        * destruct (json_val clean v); [discriminate V|reflexivity].
      + cbn [dec_opts fold_right fst snd dec_val].
        destruct (fold_right _ (Some []) l) as [x|]; destruct (json_opts clean r) as [y|]; try discriminate IH; [|reflexivity].
        injection IH as ->. reflexivity.
    - destruct (json_opts clean r) as [y|]; [discriminate IH|].
      destruct ov as [v|]; [|reflexivity]. destruct (enc_val clean v), (json_val clean v); reflexivity.
  Qed.

  Lemma row_back r : match enc_row clean r with Some j => dec_row j | None => None end = match json_row clean r with Some l => Some (Some l) | None => None end.
  Proof.
    unfold enc_row, enc_opts. induction r as [|[n v] r IH]; [reflexivity|]. cbn [map fold_right fst snd json_row].
    destruct (fold_right _ (Some []) (map _ r)) as [l|]; cbn [dec_row] in IH.
    - assert (V := val_back v). destruct (enc_val clean v) as [j|].
      + cbn [dec_row fold_right fst snd]. rewrite V. destruct (json_val clean v) as [v'|]; [|reflexivity].
        destruct (fold_right _ (Some []) l) as [x|]; destruct (json_row clean r) as [y|]; try discriminate IH; [|reflexivity].
        injection IH as ->. reflexivity.
      + destruct (json_val clean v); [discriminate V|reflexivity].
    - destruct (json_row clean r) as [y|]; [discriminate IH|]. destruct (enc_val clean v), (json_val clean v); reflexivity.
  Qed.

  Lemma enc_row_obj r j : enc_row clean r = Some j -> exists l, j = JObj l.
  Proof. unfold enc_row, enc_opts. destruct (fold_right _ _ _) as [l|]; [|discriminate]. intro H. injection H as <-. now exists l. Qed.

  Lemma rows_back l : match enc_rows clean l with Some j => dec_rows j | None => None end = json_rows clean l.
  Proof.
    destruct l as [|r0 l0]; [reflexivity|]. unfold enc_rows. generalize (r0 :: l0) as l. clear r0 l0.
    induction l as [|r l IH]; [reflexivity|]. cbn [fold_right json_rows].
    assert (R := row_back r). destruct (enc_row clean r) as [j|] eqn:ER.
    - destruct (enc_row_obj _ _ ER) as [o ->].
      destruct (fold_right _ (Some []) l) as [js|]; cbn [dec_rows] in IH.
      + cbn [dec_rows fold_right]. rewrite IH, R. destruct (json_row clean r), (json_rows clean l); reflexivity.
      + rewrite <- IH. destruct (json_row clean r); reflexivity.
    - destruct (json_row clean r); [discriminate R|reflexivity].
  Qed.

  (** The request arrives as JSON makes it. *)
  Lemma query_back t q : (rq_limit q < 2 ^ 64)%N ->
    match enc_query clean t q with Some (JObj o) => dec_query o | _ => None end =
    match json_request clean q with
    | Some q' => Some (clean t, Request (clean (rq_index q')) (rq_sel q') (rq_filter q') (rq_limit q') (rq_after q'))
    | None => None
    end.
  Proof.
    intro L. destruct q as [ix sel fs lim after]. unfold enc_query, json_request. cbn [rq_index rq_sel rq_filter rq_limit rq_after] in *.
    assert (S := opts_back sel). destruct (enc_opts clean sel) as [js|].
    2:{ destruct (json_opts clean sel); [discriminate S|reflexivity]. }
    assert (FS : match match fs with Some fs => enc_row clean fs | None => Some JNull end with Some j => dec_row j | None => None end =
                 match fs with None => Some None | Some fs => match json_row clean fs with Some l => Some (Some l) | None => None end end).
    { destruct fs as [fs|]; [apply row_back|reflexivity]. }
    assert (AF : match match after with Some vs => enc_opts clean vs | None => Some JNull end with Some j => dec_opts j | None => None end =
                 match after with None => Some None | Some vs => match json_opts clean vs with Some l => Some (Some l) | None => None end end).
    { destruct after as [vs|]; [apply opts_back|reflexivity]. }
    destruct (match fs with Some fs => enc_row clean fs | None => Some JNull end) as [jf|].
    2:{ destruct (json_opts clean sel); [|reflexivity]. rewrite <- FS. reflexivity. }
    destruct (match after with Some vs => enc_opts clean vs | None => Some JNull end) as [ja|].
    2:{ rewrite <- AF, <- FS. destruct (json_opts clean sel), (dec_row jf); reflexivity. }
    unfold dec_query.
    change (jfield _ f_table) with (JStr (clean t)). change (jfield _ f_index) with (JStr (clean ix)). change (jfield _ f_selector) with js.
    change (jfield _ f_filter) with jf. change (jfield _ f_limit) with (JInt (Z.of_N lim)). change (jfield _ f_after) with ja.
    cbn [dec_string dec_limit]. rewrite S, FS, AF, <- ?FS, <- ?AF.
    assert (LM : ((0 <=? Z.of_N lim) && (Z.of_N lim <? 2 ^ 64))%Z%bool = true).
    { apply andb_true_intro. split; [apply Z.leb_le; apply N2Z.is_nonneg|]. apply Z.ltb_lt. change (2 ^ 64)%Z with (Z.of_N (2 ^ 64)). apply N2Z.inj_lt. exact L. }
    rewrite LM, N2Z.id.
    destruct (json_opts clean sel); [|reflexivity]. destruct (dec_row jf); [|reflexivity]. destruct (dec_opts ja); reflexivity.
  Qed.

  (** ** The four calls *)

  Variable base : bytes.
  Variable headers : list (bytes * bytes).
  Notation serve := (serve clean err_text tis).
  Notation post := (post clean err_text tis base headers).

  Lemma serve_tables p a b : serve (HReq (p ++ tables_path) a b) = tables_handler clean err_text tis (HReq (p ++ tables_path) a b).
  Proof. unfold Remote.serve. cbn [hq_path]. rewrite ends_app. reflexivity. Qed.
  Lemma serve_indexes p a b : serve (HReq (p ++ indexes_path) a b) = indexes_handler clean err_text tis (HReq (p ++ indexes_path) a b).
  Proof. unfold Remote.serve. cbn [hq_path]. rewrite ends_app, not_ends by reflexivity. reflexivity. Qed.
  Lemma serve_fields p a b : serve (HReq (p ++ fields_path) a b) = fields_handler clean err_text tis (HReq (p ++ fields_path) a b).
  Proof. unfold Remote.serve. cbn [hq_path]. rewrite ends_app, !not_ends by reflexivity. reflexivity. Qed.
  Lemma serve_query p a b : serve (HReq (p ++ query_path) a b) = query_handler clean err_text tis (HReq (p ++ query_path) a b).
  Proof. unfold Remote.serve. cbn [hq_path]. rewrite ends_app, !not_ends by reflexivity. reflexivity. Qed.

  (** Does the request get through? *)
  Definition through : Prop := escaped base /\ wants_json (accept_of headers).

  Lemma through_dec : {through} + {~ through}.
  Proof.
    destruct (unescape base) as [p|] eqn:U.
    - destruct (accepts (HReq [] (accept_of headers) None)) eqn:A.
      + left. split; [apply unescape_escaped; eexists; exact U|eapply accepts_spec; exact A].
      + right. intros [_ W]. eapply accepts_spec in W. rewrite W in A. discriminate.
    - right. intros [E _]. apply unescape_escaped in E. destruct E as [p E]. congruence.
  Qed.

  Lemma post_through q b : no_query base -> a_path q -> through -> exists p, accepts (HReq (p ++ q) (accept_of headers) b) = true /\
    post q b = match serve (HReq (p ++ q) (accept_of headers) b) with Panic => Err EOther | r => r end.
  Proof.
    intros NQ Q [E W]. destruct (url_of base q NQ Q) as [U _]. destruct (U E) as [p P]. exists p. split; [now apply accepts_spec|].
    unfold Remote.post. rewrite P. reflexivity.
  Qed.

  Lemma post_stopped q b : no_query base -> a_path q -> ~ through -> post q b = Err EOther \/
    exists p, accepts (HReq (p ++ q) (accept_of headers) b) = false /\
      post q b = match serve (HReq (p ++ q) (accept_of headers) b) with Panic => Err EOther | r => r end.
  Proof.
    intros NQ Q N. destruct (url_of base q NQ Q) as [U1 U2]. destruct (unescape base) as [x|] eqn:UB.
    - assert (E : escaped base) by (apply unescape_escaped; eexists; exact UB). destruct (U1 E) as [p P]. right. exists p. split.
      + destruct (accepts _) eqn:A; [|reflexivity]. exfalso. apply N. split; [exact E|]. eapply accepts_spec. exact A.
      + unfold Remote.post. rewrite P. reflexivity.
    - left. unfold Remote.post. rewrite U2; [reflexivity|]. intro E. apply unescape_escaped in E. destruct E as [y E]. congruence.
  Qed.

  Lemma failed_received {A} (dec : json -> option A) e : receive dec (fail_with clean err_text e) = Err EOther.
  Proof. reflexivity. Qed.

  Lemma received {A B} (enc : A -> option json) (dec : json -> option B) (r : res A) (f : A -> option B) :
    (forall a, match enc a with Some j => dec j | None => None end = f a) ->
    receive dec (match answer clean err_text enc r with Panic => Err EOther | x => x end) =
    match r with Ok a => match f a with Some b => Ok b | None => Err EOther end | Err _ | Panic => Err EOther | Diverge => Diverge end.
  Proof.
    intro H. destruct r as [a|e| |]; try reflexivity. cbn [answer]. rewrite <- (H a). destruct (enc a) as [j|]; [|reflexivity].
    unfold receive. cbn [hr_status hr_body]. change (399 <? 200)%N with false. cbn iota. destruct (dec j); reflexivity.
  Qed.

  Hypothesis NQ : no_query base.

  Lemma tables_ok : client_tables clean err_text tis base headers = if through_dec then Ok (map clean (inspect_tables tis)) else Err EOther.
  Proof.
    unfold client_tables. destruct four_paths as [P _]. destruct through_dec as [T|T].
    - destruct (post_through tables_path None NQ P T) as [p [A E]]. rewrite E, serve_tables. unfold tables_handler. rewrite A.
      rewrite (received (fun l => Some (enc_strings clean l)) dec_strings _ (fun l => Some (map clean l))); [reflexivity|]. intro l. apply strings_back.
    - destruct (post_stopped tables_path None NQ P T) as [E|[p [A E]]]; rewrite E; [reflexivity|].
      rewrite serve_tables. unfold tables_handler. rewrite A. reflexivity.
  Qed.

  Lemma indexes_ok t : client_indexes clean err_text tis base headers t = if through_dec then arrives clean (inspect_indexes tis (clean t)) else Err EOther.
  Proof.
    unfold client_indexes. destruct four_paths as [_ [P _]]. destruct through_dec as [T|T].
    - destruct (post_through indexes_path (Some (JObj [(f_table, JStr (clean t))])) NQ P T) as [p [A E]]. rewrite E, serve_indexes. unfold indexes_handler, with_table.
      cbn [hq_body dec_obj]. change (dec_string (jfield _ f_table)) with (Some (clean t)). cbn iota. rewrite A.
      rewrite (received (fun l => Some (enc_strings clean l)) dec_strings _ (fun l => Some (map clean l))); [|intro l; apply strings_back].
      unfold arrives. destruct (inspect_indexes tis (clean t)); reflexivity.
    - destruct (post_stopped indexes_path (Some (JObj [(f_table, JStr (clean t))])) NQ P T) as [E|[p [A E]]]; rewrite E; [reflexivity|].
      rewrite serve_indexes. unfold indexes_handler, with_table. cbn [hq_body dec_obj]. change (dec_string (jfield _ f_table)) with (Some (clean t)). cbn iota.
      rewrite A. reflexivity.
  Qed.

  Lemma fields_ok t : client_fields clean err_text tis base headers t =
    if through_dec then arrives (fun e => (fst e, clean (kind_name (snd e)))) (inspect_fields tis (clean t)) else Err EOther.
  Proof.
    unfold client_fields. destruct four_paths as [_ [_ [P _]]]. destruct through_dec as [T|T].
    - destruct (post_through fields_path (Some (JObj [(f_table, JStr (clean t))])) NQ P T) as [p [A E]]. rewrite E, serve_fields. unfold fields_handler, with_table.
      cbn [hq_body dec_obj]. change (dec_string (jfield _ f_table)) with (Some (clean t)). cbn iota. rewrite A.
      rewrite (received (fun l => Some (JObj (map (fun e => (fst e, JStr (clean (kind_name (snd e))))) l))) dec_string_map _
                 (fun l => Some (map (fun e => (fst e, clean (kind_name (snd e)))) l))).
      2:{ intro l. apply (map_back (fun k => clean (kind_name k))). }
      unfold arrives. destruct (inspect_fields tis (clean t)); reflexivity.
    - destruct (post_stopped fields_path (Some (JObj [(f_table, JStr (clean t))])) NQ P T) as [E|[p [A E]]]; rewrite E; [reflexivity|].
      rewrite serve_fields. unfold fields_handler, with_table. cbn [hq_body dec_obj]. change (dec_string (jfield _ f_table)) with (Some (clean t)). cbn iota.
      rewrite A. reflexivity.
  Qed.

  Lemma enc_query_obj t q j : enc_query clean t q = Some j -> exists o, j = JObj o.
  Proof.
    unfold enc_query. destruct (enc_opts clean (rq_sel q)); [|discriminate].
    destruct (match rq_filter q with Some fs => enc_row clean fs | None => Some JNull end); [|discriminate].
    destruct (match rq_after q with Some vs => enc_opts clean vs | None => Some JNull end); [|discriminate].
    intro H. injection H as <-. eexists. reflexivity.
  Qed.

  Lemma query_ok t q : (rq_limit q < 2 ^ 64)%N -> client_query clean err_text tis base headers t q =
    if through_dec then remote_query clean tis (clean t) (Request (clean (rq_index q)) (rq_sel q) (rq_filter q) (rq_limit q) (rq_after q)) else Err EOther.
  Proof.
    intro L. unfold client_query. destruct four_paths as [_ [_ [_ P]]]. assert (B := query_back t q L).
    assert (RQ : forall x, remote_query clean tis x (Request (clean (rq_index q)) (rq_sel q) (rq_filter q) (rq_limit q) (rq_after q)) =
      match json_request clean q with
      | Some q' => match inspect_query tis x (Request (clean (rq_index q')) (rq_sel q') (rq_filter q') (rq_limit q') (rq_after q')) with
                   | Ok l => match json_rows clean l with Some l' => Ok l' | None => Err EOther end
                   | Err _ | Panic => Err EOther
                   | Diverge => Diverge
                   end
      | None => Err EOther
      end).
    { intro x. unfold remote_query, json_request. cbn [rq_index rq_sel rq_filter rq_limit rq_after].
      destruct (json_opts clean (rq_sel q)); [|reflexivity].
      destruct (match rq_filter q with None => Some None | Some fs => match json_row clean fs with Some l => Some (Some l) | None => None end end); [|reflexivity].
      destruct (match rq_after q with None => Some None | Some vs => match json_opts clean vs with Some l => Some (Some l) | None => None end end); reflexivity. }
    rewrite RQ. clear RQ.
    destruct (enc_query clean t q) as [j|] eqn:EQ.
    - destruct (enc_query_obj _ _ _ EQ) as [o ->]. destruct through_dec as [T|T].
      + destruct (post_through query_path (Some (JObj o)) NQ P T) as [p [A E]]. rewrite E, serve_query. unfold query_handler. cbn [hq_body dec_obj]. rewrite B.
        destruct (json_request clean q) as [q'|]; [|reflexivity]. rewrite A.
        rewrite (received (enc_rows clean) dec_rows _ (json_rows clean)); [|apply rows_back]. reflexivity.
      + destruct (post_stopped query_path (Some (JObj o)) NQ P T) as [E|[p [A E]]]; rewrite E; [reflexivity|].
        rewrite serve_query. unfold query_handler. cbn [hq_body dec_obj]. rewrite B. destruct (json_request clean q) as [q'|]; [|reflexivity]. rewrite A. reflexivity.
    - destruct (json_request clean q); [discriminate B|]. destruct through_dec; reflexivity.
  Qed.
End Facts.

Lemma kind_named clean k s : keeps_ascii clean -> go_name k s -> clean (kind_name k) = list_byte_of_string s.
Proof.
  intros K G. assert (E : kind_name k = list_byte_of_string s) by (destruct G; reflexivity). rewrite E. apply K.
  intros c I. destruct G; cbn in I; repeat destruct I as [<-|I]; try reflexivity; destruct I.
Qed.

Lemma fields_are clean l : keeps_ascii clean -> fields_named l (map (fun e => (fst e, clean (kind_name (snd e)))) l).
Proof. intro K. induction l as [|e l IH]; cbn [map]; constructor; [|exact IH]. split; [reflexivity|]. intros s G. now apply kind_named. Qed.

(** ** Everything *)

Definition client (clean : bytes -> bytes) (err_text : error -> bytes) (tis : list tinfo) (base : bytes) (headers : list (bytes * bytes)) : api :=
  Api (client_tables clean err_text tis base headers) (client_indexes clean err_text tis base headers) (client_fields clean err_text tis base headers)
      (client_query clean err_text tis base headers).

Lemma got_through clean err_text tis base headers : keeps_ascii clean -> no_query base -> through base headers ->
  as_local clean tis (client clean err_text tis base headers).
Proof.
  intros K NQ T. unfold as_local, client. cbn [ap_tables ap_indexes ap_fields ap_query].
  rewrite tables_ok by exact NQ. split; [destruct through_dec; [reflexivity|contradiction]|].
  split; [intro t; rewrite indexes_ok by exact NQ; destruct through_dec; [reflexivity|contradiction]|].
  split.
  - intro t. rewrite fields_ok by exact NQ. destruct through_dec; [|contradiction]. unfold inspect_fields.
    destruct (find_info tis (clean t)) as [ti|]; [|reflexivity]. cbn [arrives]. eexists. split; [reflexivity|]. now apply fields_are.
  - intros t q L. rewrite query_ok by assumption. destruct through_dec; [reflexivity|contradiction].
Qed.

Lemma was_stopped clean err_text tis base headers : no_query base -> ~ through base headers -> all_fail (client clean err_text tis base headers).
Proof.
  intros NQ T. unfold all_fail, client. cbn [ap_tables ap_indexes ap_fields ap_query].
  rewrite tables_ok by exact NQ. split; [destruct through_dec; [contradiction|reflexivity]|].
  split; [intro t; rewrite indexes_ok by exact NQ; destruct through_dec; [contradiction|reflexivity]|].
  split; [intro t; rewrite fields_ok by exact NQ; destruct through_dec; [contradiction|reflexivity]|].
  intros t q L. rewrite query_ok by assumption. destruct through_dec; [contradiction|reflexivity].
Qed.

Lemma remote_ok clean err_text tis base headers : keeps_ascii clean -> no_query base ->
  (escaped base -> json_accepted headers -> as_local clean tis (client clean err_text tis base headers)) /\
  (~ escaped base \/ json_refused headers -> all_fail (client clean err_text tis base headers)) /\
  (as_local clean tis (client clean err_text tis base headers) \/ all_fail (client clean err_text tis base headers)).
Proof.
  intros K NQ. split; [|split].
  - intros E A. apply got_through; [exact K|exact NQ|]. split; [exact E|].
    destruct (accept_in headers) as [[N _]|[n [I N]]]; [left; exact N|]. exact (A n _ I N).
  - intro H. apply was_stopped; [exact NQ|]. intros [E W]. destruct H as [H|[[n [v [I A]]] R]]; [contradiction|].
    destruct (accept_in headers) as [[_ N]|[n' [I' A']]]; [exact (N n v I A)|]. exact (R n' _ I' A' W).
  - destruct (through_dec base headers) as [T|T]; [left; now apply got_through|right; now apply was_stopped].
Qed.

(** ** What goes wrong *)

Lemma no_query_needed clean err_text tis headers t : json_accepted headers -> (forall ti, In ti tis -> ti_name ti <> clean t) ->
  inspect_indexes tis (clean t) = Err EOther /\
  ap_indexes (client clean err_text tis (list_byte_of_string "/tables?v=1") headers) t = Ok (map clean (inspect_tables tis)).
Proof.
  intros A N. split.
  - unfold inspect_indexes, find_info. destruct (find _ tis) as [ti|] eqn:F; [|reflexivity]. apply find_some in F. destruct F as [I E].
    apply beqb_eq in E. exfalso. exact (N ti I E).
  - unfold client, client_indexes. cbn [ap_indexes]. unfold post. change (url_path _) with (Some ([] ++ tables_path)). cbn iota. rewrite serve_tables. unfold tables_handler.
    assert (W : wants_json (accept_of headers)).
    { destruct (accept_in headers) as [[E _]|[n [I E]]]; [left; exact E|]. exact (A n _ I E). }
    rewrite (proj2 (accepts_spec _ _ _) W).
    rewrite (received clean err_text (fun l => Some (enc_strings clean l)) dec_strings _ (fun l => Some (map clean l))); [reflexivity|]. intro l. apply strings_back.
Qed.

Lemma anything_refused clean err_text tis base : no_query base ->
  all_fail (client clean err_text tis base [(list_byte_of_string "Accept", list_byte_of_string "*/*")]).
Proof.
  intro NQ. apply was_stopped; [exact NQ|]. intros [_ [W|W]]; discriminate W.
Qed.

Lemma odd_name clean err_text q base headers : clean [xff] = [xef; xbf; xbd] -> clean [xef; xbf; xbd] = [xef; xbf; xbd] -> keeps_ascii clean ->
  no_query base -> escaped base -> json_accepted headers ->
  let tis := [TInfo [xff] [primary_name] [] q] in
  inspect_indexes tis [xff] = Ok [primary_name] /\
  ap_tables (client clean err_text tis base headers) = Ok [[xef; xbf; xbd]] /\
  ap_indexes (client clean err_text tis base headers) [xff] = Err EOther /\
  ap_indexes (client clean err_text tis base headers) [xef; xbf; xbd] = Err EOther.
Proof.
  intros C1 C2 K NQ E A tis. split; [reflexivity|].
  destruct (remote_ok clean err_text tis base headers K NQ) as [R _]. destruct (R E A) as [R1 [R2 _]].
  rewrite R1, !R2, C1, C2. cbn [tis inspect_tables map ti_name]. rewrite C1. repeat split.
Qed.

(** ** Whatever answers *)
Lemma any_response {A} (dec : json -> option A) (r : res hresp) : r <> Panic -> r <> Diverge ->
  (forall a, receive dec r = Ok a <-> exists h j, r = Ok h /\ (hr_status h < 400)%N /\ hr_body h = Some j /\ dec j = Some a) /\
  ((forall a, receive dec r <> Ok a) -> exists e, receive dec r = Err e).
Proof.
  intros NP ND. unfold receive. destruct r as [h|e| |]; try congruence.
  - destruct (N.ltb_spec 399 (hr_status h)) as [G|G].
    + split; [|eauto]. intros a. split; [discriminate|]. intros (h' & j & [= <-] & L & _). lia.
    + destruct (hr_body h) as [j|] eqn:B.
      * destruct (dec j) as [x|] eqn:D.
        -- split; [|intros H; now specialize (H x)]. intros a. split; [intros [= <-]; exists h, j; repeat split; auto; lia|].
           intros (h' & j' & [= <-] & _ & B' & D'). congruence.
        -- split; [|eauto]. intros a. split; [discriminate|]. intros (h' & j' & [= <-] & _ & B' & D'). congruence.
      * split; [|eauto]. intros a. split; [discriminate|]. intros (h' & j' & [= <-] & _ & B' & D'). congruence.
  - split; [|eauto]. intros a. split; [discriminate|]. intros (h & j & [=] & _).
Qed.
