(** bond-cli. *)

From Coq Require Import Strings.String Strings.Byte List NArith ZArith Lia Bool Arith.
From Verif.Model Require Import Bytes Go Keys Pebble Backup Version Inspect Remote Cli.
From Verif.Spec Require Import RemoteSpec CliSpec BackupSpec VersionSpec.
From Verif.Proofs Require Import BytesFacts PebbleFacts RestoreFacts VersionFacts InspectFacts RemoteFacts.
Import ListNotations.
Local Open Scope list_scope.

(** ** Headers *)

Lemma split_nonempty c s : split_at c s <> [].
Proof. induction s as [|x s IH]; cbn; [discriminate|]. destruct (Byte.eqb x c); [discriminate|]. destruct (split_at c s); discriminate. Qed.

Lemma split_none c s : ~ In c s -> split_at c s = [s].
Proof.
  induction s as [|x s IH]; intro N; [reflexivity|]. cbn. destruct (Byte.eqb x c) eqn:E; [apply byte_dec_bl in E; subst; exfalso; apply N; now left|].
  rewrite IH by (intro; apply N; now right). reflexivity.
Qed.

Lemma split_app c a s : ~ In c a -> split_at c (a ++ c :: s) = a :: split_at c s.
Proof.
  induction a as [|x a IH]; intro N; cbn.
  - now rewrite (byte_dec_lb eq_refl).
  - destruct (Byte.eqb x c) eqn:E; [apply byte_dec_bl in E; subst; exfalso; apply N; now left|]. rewrite IH by (intro; apply N; now right). reflexivity.
Qed.

Lemma split_first c s p l : split_at c s = p :: l -> ~ In c p /\ match l with [] => s = p | _ => exists s', s = p ++ c :: s' /\ split_at c s' = l end.
Proof.
  revert p l. induction s as [|x s IH]; intros p l H; cbn in H.
  - injection H as <- <-. split; [intros []|reflexivity].
  - destruct (Byte.eqb x c) eqn:E.
    + apply byte_dec_bl in E. subst. injection H as <- <-. split; [intros []|]. destruct (split_at c s) eqn:S; [exfalso; exact (split_nonempty _ _ S)|]. exists s. split; [reflexivity|exact S].
    + destruct (split_at c s) as [|q m] eqn:S; [exfalso; exact (split_nonempty _ _ S)|]. injection H as <- <-. destruct (IH q m eq_refl) as [N M]. split.
      * intros [->|I]; [|now apply N]. rewrite (byte_dec_lb eq_refl) in E. discriminate.
      * destruct m as [|m1 m]; [now subst|]. destruct M as (s' & -> & R). exists s'. split; [reflexivity|exact R].
Qed.

Lemma header_split s k v : header_text s (k, v) <-> split_at x3d s = [k; v].
Proof.
  unfold header_text. cbn [fst snd]. split.
  - intros (-> & K & V). rewrite split_app by exact K. now rewrite split_none by exact V.
  - intro H. apply split_first in H as (K & s' & -> & H). apply split_first in H as (V & ->). split; [reflexivity|]. split; assumption.
Qed.

Lemma put_in m k v k' v' : In (k', v') (put_header m k v) <-> (k' = k /\ v' = v) \/ (k' <> k /\ In (k', v') m).
Proof.
  unfold put_header. rewrite in_app_iff, filter_In. cbn [fst In]. destruct (beqb k' k) eqn:E; cbn [negb].
  - apply beqb_eq in E. subst. split.
    + intros [[_ H]|[H|[]]]; [discriminate|]. injection H as <-. now left.
    + intros [[_ ->]|[H _]]; [right; now left|congruence].
  - assert (N : k' <> k) by (intro; subst; rewrite (proj2 (beqb_eq k k) eq_refl) in E; discriminate). split.
    + intros [[H _]|[H|[]]]; [now right|]. injection H as -> _. congruence.
    + intros [[H _]|[_ H]]; [congruence|]. now left.
Qed.

Lemma put_nodup m k v : NoDup (map fst m) -> NoDup (map fst (put_header m k v)).
Proof.
  intro H. unfold put_header. rewrite map_app. cbn [map fst].
  assert (F : NoDup (map fst (filter (fun e : bytes * bytes => negb (beqb (fst e) k)) m))).
  { induction m as [|e m IH]; [exact H|]. cbn [map] in H. apply NoDup_cons_iff in H as [N H]. cbn [filter]. destruct (negb (beqb (fst e) k)); [|now apply IH].
    cbn [map]. constructor; [|now apply IH]. intro I. apply N. apply in_map_iff in I as (x & E & I). apply filter_In in I as [I _]. rewrite <- E. now apply in_map. }
  rewrite <- rev_involutive. apply NoDup_rev. rewrite rev_app_distr. cbn [rev app]. constructor; [|now apply NoDup_rev].
  rewrite <- in_rev. intro I. apply in_map_iff in I as (x & E & I). apply filter_In in I as [_ I]. rewrite E, (proj2 (beqb_eq k k) eq_refl) in I. discriminate.
Qed.

Lemma headers_some l : forall m h, NoDup (map fst m) -> cli_headers l m = Some h ->
  NoDup (map fst h) /\ exists given, Forall2 header_text l given /\
  forall k v, In (k, v) h <-> (exists l1 l2, given = l1 ++ (k, v) :: l2 /\ ~ In k (map fst l2)) \/ (~ In k (map fst given) /\ In (k, v) m).
Proof.
  induction l as [|s l IH]; intros m h N H; cbn in H.
  - injection H as <-. split; [exact N|]. exists []. split; [constructor|]. intros k v. split.
    + intro I. right. split; [intros []|exact I].
    + intros [(l1 & l2 & E & _)|[_ I]]; [destruct l1; discriminate|exact I].
  - destruct (split_at x3d s) as [|k [|v [|]]] eqn:S; try discriminate. apply header_split in S.
    apply IH in H as (N' & given & F & A); [|now apply put_nodup]. split; [exact N'|]. exists ((k, v) :: given). split; [now constructor|].
    intros k' v'. rewrite A, put_in. cbn [map fst In]. split.
    + intros [(l1 & l2 & -> & L)|[NG [[-> ->]|[D I]]]].
      * left. exists ((k, v) :: l1), l2. split; [reflexivity|exact L].
      * left. exists [], given. split; [reflexivity|exact NG].
      * right. split; [|exact I]. intros [->|X]; [now apply D|now apply NG].
    + intros [(l1 & l2 & E & L)|[NG I]].
      * destruct l1 as [|e l1]; [injection E as -> -> ->; right; split; [exact L|now left]|]. injection E as <- ->. left. exists l1, l2. split; [reflexivity|exact L].
      * right. split; [intro X; apply NG; now right|]. right. split; [|exact I]. intros ->. apply NG. now left.
Qed.

Lemma headers_all l given : forall m, Forall2 header_text l given -> exists h, cli_headers l m = Some h.
Proof.
  intros m H. revert m. induction H as [|s [k v] l given E H IH]; intro m; [now exists m|]. apply header_split in E. cbn. rewrite E. apply IH.
Qed.

Lemma header_fun s h h' : header_text s h -> header_text s h' -> h = h'.
Proof. destruct h as [k v], h' as [k' v']. rewrite !header_split. intros -> H. now injection H as -> ->. Qed.

Lemma headers_fun l g g' : Forall2 header_text l g -> Forall2 header_text l g' -> g = g'.
Proof.
  intro H. revert g'. induction H as [|s h l g E H IH]; intros g' H'; inversion H'; subst; [reflexivity|]. f_equal; [now apply (header_fun s)|]. now apply IH.
Qed.

Lemma headers_ok l given : Forall2 header_text l given -> exists h, cli_headers l [] = Some h /\ last_wins given h.
Proof.
  intro F. destruct (headers_all l given [] F) as [h H]. exists h. split; [exact H|]. apply headers_some in H as (N & g & G & A); [|constructor].
  assert (g = given) as -> by exact (headers_fun l g given G F). split; [exact N|]. intros k v. rewrite A. split; [intros [X|[_ []]]; exact X|]. intro X. now left.
Qed.

Lemma headers_bad l s : In s l -> (forall h, ~ header_text s h) -> cli_headers l [] = None.
Proof.
  intros I N. destruct (cli_headers l []) as [h|] eqn:H; [|reflexivity]. exfalso. apply headers_some in H as (_ & g & G & _); [|constructor].
  clear -G I N. induction G as [|y x l g E G IH]; [destruct I|]. destruct I as [->|I]; [exact (N _ E)|exact (IH I)].
Qed.

(** ** Flags *)

Lemma val_means j v : means j v -> dec_val j = Some v.
Proof. intros [ | | z B | | ]; try reflexivity. cbn. do 5 f_equal. rewrite (round53_exact z 0 z B); reflexivity. Qed.

Lemma opts_means f r : flag_fields f r -> flag_map dec_opts f = Some r.
Proof.
  destruct r as [l|]; cbn.
  - intros (o & -> & F). cbn. assert (E : fold_right (fun e acc => match dec_val (snd e), acc with Some v, Some r => Some ((fst e, v) :: r) | _, _ => None end) (Some []) o = Some l).
    { induction F as [|[n j] [n' v] o l [E M] F IH]; [reflexivity|]. cbn [fold_right fst snd] in *. rewrite IH, (val_means _ _ M). now subst. }
    now rewrite E.
  - intros [->| ->]; reflexivity.
Qed.

Lemma row_means f r : flag_fields f (option_map (map (fun e => (fst e, Some (snd e)))) r) -> flag_map dec_row f = Some r.
Proof.
  destruct r as [l|]; cbn.
  - intros (o & -> & F). cbn. assert (E : fold_right (fun e acc => match dec_val (snd e), acc with Some (Some v), Some r => Some ((fst e, v) :: r) | _, _ => None end) (Some []) o = Some l).
    { remember (map _ l) as l' eqn:L. revert l L. induction F as [|[n j] [n' v] o l' [E M] F IH]; intros l L.
      - now destruct l.
      - destruct l as [|[n2 w] l]; [discriminate|]. cbn in L. injection L as -> -> ->. cbn [fold_right fst snd] in *. rewrite (IH l eq_refl), (val_means _ _ M). now subst. }
    now rewrite E.
  - intros [->| ->]; reflexivity.
Qed.

Lemma asks_request f q : asks f q -> cli_request f = Some q.
Proof.
  intros (I & L & (sel & S & E) & F & A). unfold cli_request. rewrite (opts_means _ _ S), (row_means _ _ F), (opts_means _ _ A).
  destruct q as [i s fs lim af]. cbn [rq_index rq_limit rq_sel rq_filter rq_after] in *. subst. reflexivity.
Qed.

Lemma bad_opts f : bad_flag f -> flag_map dec_opts f = None.
Proof. intros [->|([] & -> & N & O)]; try reflexivity; [now destruct N|now destruct (O l)]. Qed.
Lemma bad_row f : bad_flag f -> flag_map dec_row f = None.
Proof. intros [->|([] & -> & N & O)]; try reflexivity; [now destruct N|now destruct (O l)]. Qed.

Lemma bad_request f : bad_flag (qf_selector f) \/ bad_flag (qf_filter f) \/ bad_flag (qf_after f) -> cli_request f = None.
Proof.
  unfold cli_request. intros [H|[H|H]].
  - now rewrite (bad_opts _ H).
  - rewrite (bad_row _ H). now destruct (flag_map dec_opts (qf_selector f)).
  - rewrite (bad_opts _ H). destruct (flag_map dec_opts (qf_selector f)), (flag_map dec_row (qf_filter f)); reflexivity.
Qed.

(** ** Output *)

Lemma printed_told {A} (enc : A -> option json) (as_json : A -> json -> Prop) r :
  (forall a, match enc a with Some j => as_json a j | None => forall j, ~ as_json a j end) -> told as_json r (main_with (printed enc r)).
Proof.
  intro H. destruct r as [a|e| |]; cbn; try (split; reflexivity). specialize (H a). destruct (enc a) as [j|]; cbn.
  - left. exists j. now repeat split.
  - right. split; [exact H|]. split; reflexivity.
Qed.

Lemma names_enc clean l : names_json clean l (enc_strings clean l).
Proof.
  destruct l as [|a l]; [now left|]. right. split; [discriminate|]. eexists. split; [reflexivity|]. induction (a :: l) as [|x m IH]; constructor; [reflexivity|exact IH].
Qed.

Lemma fields_enc clean l : fields_json clean l (JObj (map (fun e => (fst e, JStr (clean (snd e)))) l)).
Proof. eexists. split; [reflexivity|]. induction l as [|x l IH]; constructor; [split; reflexivity|exact IH]. Qed.

Lemma value_enc clean v j : enc_val clean v = Some j <-> value_json clean v j.
Proof.
  destruct v as [t d]. unfold enc_val. cbn [gv_data gv_type]. split.
  - destruct d as [b|z|[m e| | ]|s]; intro H; try discriminate; injection H as <-; try constructor.
    destruct (gt_kind t) eqn:K; (apply vj_bytes; exact K) || (apply vj_str; congruence).
  - intro H; inversion H; subst; try reflexivity.
    + destruct (gt_kind t); congruence.
    + match goal with K : gt_kind t = _ |- _ => now rewrite K end.
Qed.

Lemma row_enc clean r j : enc_row clean r = Some j <-> row_json clean r j.
Proof.
  unfold enc_row, enc_opts, row_json.
  assert (E : forall o, fold_right (fun e acc => match match snd e with Some v => enc_val clean v | None => Some JNull end, acc with
                                   | Some j, Some l => Some ((fst e, j) :: l) | _, _ => None end) (Some []) (map (fun e : bytes * gval => (fst e, Some (snd e))) r) = Some o <->
    Forall2 (fun e e' => fst e' = fst e /\ value_json clean (snd e) (snd e')) r o).
  { induction r as [|[n v] r IH]; intro o; cbn [map fold_right fst snd].
    - split; [intro H; injection H as <-; constructor|intro H; now inversion H].
    - split.
      + destruct (enc_val clean v) as [j'|] eqn:V; [|discriminate]. match goal with |- context [fold_right ?f ?a ?b] => destruct (fold_right f a b) as [o'|] eqn:F end; [|discriminate].
        intro H. injection H as <-. constructor; [|now apply IH]. split; [reflexivity|]. now apply value_enc.
      + intro H. inversion H as [|? [n' j'] ? o' [N V] H']; subst. cbn in N, V. subst. apply value_enc in V. apply IH in H'. rewrite V, H'. reflexivity. }
  split.
  - match goal with |- context [fold_right ?f ?a ?b] => destruct (fold_right f a b) as [o|] eqn:F end; [|discriminate]. intro H. injection H as <-. exists o. split; [reflexivity|]. now apply E.
  - intros (o & -> & H). apply E in H. now rewrite H.
Qed.

Lemma rows_enc clean l j : enc_rows clean l = Some j <-> rows_json clean l j.
Proof.
  assert (E : forall l js, fold_right (fun r acc => match enc_row clean r, acc with Some j, Some js => Some (j :: js) | _, _ => None end) (Some []) l = Some js <-> Forall2 (row_json clean) l js).
  { clear. induction l as [|r l IH]; intro js; cbn [fold_right].
    - split; [intro H; injection H as <-; constructor|intro H; now inversion H].
    - split.
      + destruct (enc_row clean r) as [j|] eqn:R; [|discriminate]. match goal with |- context [fold_right ?f ?a ?b] => destruct (fold_right f a b) as [o'|] eqn:F end; [|discriminate].
        intro H. injection H as <-. constructor; [now apply row_enc|now apply IH].
      + intro H. inversion H as [|? j ? js' R H']; subst. apply row_enc in R. apply IH in H'. now rewrite R, H'. }
  unfold rows_json. destruct l as [|r l].
  - cbn. split; [intro H; injection H as <-; now left|]. intros [[_ ->]|[N _]]; [reflexivity|now destruct N].
  - unfold enc_rows. split.
    + destruct (fold_right _ _ (r :: l)) as [js|] eqn:F; [|discriminate]. intro H. injection H as <-. right. split; [discriminate|]. exists js. split; [reflexivity|]. now apply E.
    + intros [[N _]|[_ (js & -> & H)]]; [discriminate N|]. apply E in H. now rewrite H.
Qed.

Lemma action_prints clean a c : prints clean a c (main_with (cli_action clean a c)).
Proof.
  destruct c as [|t|t|t f]; cbn [prints cli_action].
  - apply printed_told. intro l. apply names_enc.
  - apply printed_told. intro l. apply names_enc.
  - apply printed_told. intro l. apply fields_enc.
  - split.
    + intros q Q. rewrite (asks_request _ _ Q). apply printed_told. intro l. pose proof (rows_enc clean l) as H. destruct (enc_rows clean l) as [j|]; [now apply H|].
      intros j J. apply H in J. discriminate J.
    + intro B. rewrite (bad_request _ B). split; reflexivity.
Qed.

Lemma web_url url : has_prefix (list_byte_of_string "https://") url || has_prefix (list_byte_of_string "http://") url = true <-> web url.
Proof.
  rewrite orb_true_iff, !has_prefix_spec. split.
  - intros [[s H]|[s H]]; exists s; [now right|now left].
  - intros [s [H|H]]; [right|left]; now exists s.
Qed.

Lemma cli_ok clean connect init url headers c :
  (web url -> forall given, Forall2 header_text headers given ->
     exists sent, last_wins given sent /\ prints clean (connect url sent) c (cli_inspect clean connect init url headers c)) /\
  (web url -> forall s, In s headers -> (forall h, ~ header_text s h) -> failed (cli_inspect clean connect init url headers c)) /\
  (~ web url -> match init with
                | Some f => match f url with Some a => prints clean a c (cli_inspect clean connect init url headers c) | None => failed (cli_inspect clean connect init url headers c) end
                | None => failed (cli_inspect clean connect init url headers c)
                end).
Proof.
  unfold cli_inspect, cli_before. split; [|split].
  - intros W given F. apply web_url in W. rewrite W. destruct (headers_ok headers given F) as (h & -> & L). exists h. split; [exact L|]. apply action_prints.
  - intros W s I N. apply web_url in W. rewrite W. rewrite (headers_bad headers s I N). split; reflexivity.
  - intro W. destruct (_ || _) eqn:E; [exfalso; apply W; now apply web_url|]. destruct init as [f|]; [|split; reflexivity].
    destruct (f url) as [a|]; [apply action_prints|split; reflexivity].
Qed.

(** ** Dump and restore *)

Lemma ids_tables ids tables : ids_name ids tables -> map table_id_of ids = tables.
Proof.
  intro H. induction H as [|z t ids tables E H IH]; [reflexivity|]. cbn [map]. rewrite IH. f_equal. unfold table_id_of. subst z.
  rewrite Z.mod_small by (pose proof (b2n_lt t); lia). rewrite N2Z.id. apply n2b_b2n.
Qed.

Lemma opened_pairs peb v d k : kv_ok (d_kv d) -> k <> data_version_key -> kv_get (d_kv (after d (open_db peb d v))) k = kv_get (d_kv d) k.
Proof. intros K N. apply (open_pairs peb d v k K (or_introl N)). apply after_crashed. Qed.

Lemma version_key_bond : 6 <= List.length data_version_key /\ firstn 4 (skipn 2 data_version_key) <> [xff; xff; xff; xff].
Proof. split; [apply Nat.leb_le; vm_compute; reflexivity|vm_compute; discriminate]. Qed.

Lemma opened_keys peb v d : kv_ok (d_kv d) -> bond_keys (d_kv d) -> bond_keys (d_kv (after d (open_db peb d v))).
Proof.
  intros K B k w G. destruct (beqb k data_version_key) eqn:E; [apply beqb_eq in E; subst; exact version_key_bond|].
  assert (N : k <> data_version_key) by (intros ->; rewrite (proj2 (beqb_eq _ _) eq_refl) in E; discriminate). rewrite (opened_pairs peb v d k K N) in G. exact (B k w G).
Qed.

Lemma backup_ok peb v full d1 d2 root ids tables want_ids want wiD wiR :
  kv_ok (d_kv d1) -> kv_ok (d_kv d2) -> bond_keys (d_kv d1) ->
  snd (open_db peb d1 v) = Ok tt -> snd (open_db peb d2 v) = Ok tt ->
  ids_name ids tables -> ids_name want_ids want -> NoDup tables -> incl want tables -> (wiR = true -> wiD = true) ->
  (forall r, In r want -> contains (table_dir r) root = false) -> (wiR = true \/ contains (str "index") root = false) ->
  (forall r d, In r want -> In d tables -> has_prefix (dec (b2n r)) (dec (b2n d)) = true -> In d want) ->
  exists d1' t o1 d2' o2, cli_dump peb v full d1 false wiD ids = (d1', t, o1) /\ oc_error o1 = false /\
    cli_restore peb v d2 root t wiR want_ids = (d2', o2) /\ oc_error o2 = false /\
    (forall k, k <> data_version_key -> kv_get (d_kv d1') k = kv_get (d_kv d1) k) /\
    (forall k, k <> data_version_key -> wanted want wiR k -> kv_get (d_kv d2') k = match kv_get (d_kv d1) k with Some w => Some w | None => kv_get (d_kv d2) k end) /\
    (forall k, k <> data_version_key -> ~ wanted want wiR k -> kv_get (d_kv d2') k = kv_get (d_kv d2) k).
Proof.
  intros K1 K2 B O1 O2 I1 I2 ND INC WI ROOT IROOT PRE. unfold cli_dump, cli_restore. rewrite O1, O2, (ids_tables _ _ I1), (ids_tables _ _ I2).
  pose proof (open_pairs_ok peb d1 v K1) as K1'. pose proof (open_pairs_ok peb d2 v K2) as K2'. pose proof (opened_keys peb v d1 K1 B) as B'.
  destruct (restore_ok full (d_kv (after d1 (open_db peb d1 v))) (fun _ => d_kv (after d1 (open_db peb d1 v))) root (d_kv (after d2 (open_db peb d2 v))) tables want wiD wiR)
    as (t & db' & D & R & _ & W & NW); auto.
  { intros _ n x i rest w _ G. exists rest, w. exact G. }
  rewrite D. do 2 eexists. eexists. do 2 eexists. split; [reflexivity|]. split; [reflexivity|]. rewrite R. split; [reflexivity|]. split; [reflexivity|].
  split; [intros k N; now apply opened_pairs|]. unfold set_kv. cbn [d_kv]. split.
  - intros k N H. rewrite (W k H), !opened_pairs by assumption. reflexivity.
  - intros k N H. rewrite (NW k H), opened_pairs by assumption. reflexivity.
Qed.

(** ** What goes wrong *)

Lemma equals_refused clean connect init url headers c k v w : web url -> In (k ++ "="%byte :: v ++ "="%byte :: w) headers ->
  failed (cli_inspect clean connect init url headers c).
Proof.
  intros W I. destruct (cli_ok clean connect init url headers c) as (_ & H & _). apply (H W _ I). intros [a b] (E & A & B). cbn [fst snd] in *.
  assert (L : List.length (filter (Byte.eqb "="%byte) (k ++ "="%byte :: v ++ "="%byte :: w)) = 1).
  { rewrite E, filter_app. cbn [filter]. change (Byte.eqb "="%byte "="%byte) with true. cbn iota. rewrite app_length. cbn [List.length].
    assert (Z : forall l, ~ In "="%byte l -> filter (Byte.eqb "="%byte) l = []).
    { clear. induction l as [|x l IH]; intro N; [reflexivity|]. cbn [filter]. destruct (Byte.eqb "="%byte x) eqn:E; [apply byte_dec_bl in E; subst; exfalso; apply N; now left|]. apply IH. intro; apply N; now right. }
    now rewrite !Z by assumption. }
  rewrite filter_app in L. cbn [filter] in L. change (Byte.eqb "="%byte "="%byte) with true in L. cbn iota in L. rewrite filter_app in L. cbn [filter] in L. change (Byte.eqb "="%byte "="%byte) with true in L. cbn iota in L.
  rewrite app_length in L. cbn [List.length] in L. rewrite app_length in L. cbn [List.length] in L. lia.
Qed.

Lemma local_refused clean connect url headers c : ~ web url -> failed (cli_inspect clean connect None url headers c).
Proof. intro W. destruct (cli_ok clean connect None url headers c) as (_ & _ & H). exact (H W). Qed.

Lemma always_zero clean connect init url headers c : oc_status (cli_inspect clean connect init url headers c) = 0%N.
Proof. reflexivity. Qed.

Lemma ids_wrap peb v full d exists_dir wi ids : cli_dump peb v full d exists_dir wi (map (fun z => z + 256)%Z ids) = cli_dump peb v full d exists_dir wi ids.
Proof.
  unfold cli_dump. replace (map table_id_of (map (fun z => z + 256)%Z ids)) with (map table_id_of ids); [reflexivity|]. rewrite map_map. apply map_ext. intro z. unfold table_id_of.
  do 2 f_equal. rewrite <- (Z.mod_add z 1 256) by discriminate. f_equal.
Qed.
