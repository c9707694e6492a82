(** Databases keep what they hold from one process to the next. *)

From Coq Require Import List NArith ZArith Lia Bool Arith.
From Verif.Model Require Import Bytes Go Keys Pebble Index Table Scan Query ReIndex Backup Version.
From Verif.Spec Require Import KeySpec StoreSpec TableSpec HistSpec ScanSpec QuerySpec ReIndexSpec VersionSpec SystemSpec LifeSpec.
From Verif.Proofs Require Import BytesFacts KeysFacts PebbleFacts TableFacts HistFacts Witness TableProps ReIndexFacts VersionFacts SystemFacts.
Import ListNotations.

(** ** Open and migrations *)
Lemma open_crash_ok peb d v d' : kv_ok (d_kv d) -> crashed d (open_db peb d v) d' -> kv_ok (d_kv d').
Proof.
  intros K [<-|H]; [exact K|].
  assert (Q : forall e, kv_ok (d_kv e) -> In d' (fst (open_pebble peb e v)) -> kv_ok (d_kv d')).
  { intros e KE. unfold open_pebble. destruct (peb (d_fmv e) v) as [f|]; [|intros []]. destruct (_ =? 0)%Z; [|destruct (negb _)]; cbn [fst]; intros I.
    - destruct I as [<-|[<-|[]]]; [exact KE|]. cbn [d_kv set_kv set_fmv]. unfold init_version. destruct (_ <? _)%Z; [exact KE|]. now apply kv_set_ok.
    - destruct I as [<-|[]]. exact KE.
    - destruct I as [<-|[]]. exact KE. }
  unfold open_db in H. cbn [d_file make_dir] in H. destruct (d_file d) as [s|].
  - destruct (parse_uint max_u64 s) as [n | |]; [destruct (n =? v)%N|..]; try (destruct H as [<-|[]]; exact K).
    specialize (Q (make_dir d) K). destruct (open_pebble peb (make_dir d) v) as [l r]. cbn [fst] in *. destruct H as [<-|H]; [exact K|auto].
  - specialize (Q (set_file (make_dir d) (dec v)) K). destruct (open_pebble peb (set_file (make_dir d) (dec v)) v) as [l r]. cbn [fst] in *. destruct H as [<-|H]; [exact K|].
    apply in_app_iff in H as [H|H]; [|auto]. apply write_steps_in in H as (n & _ & ->). exact K.
Qed.

Lemma nth_crashed d call n : crashed d call (nth n (fst call) d).
Proof. unfold crashed. destruct (Nat.lt_ge_cases n (length (fst call))) as [L|L]; [right; now apply nth_In|left; now rewrite nth_overflow]. Qed.

Lemma open_bond peb d v : d_bond (after d (open_db peb d v)) = true.
Proof.
  unfold after, open_db. cbn [d_file make_dir]. destruct (d_file d) as [s|].
  - destruct (parse_uint max_u64 s) as [n | |]; [destruct (n =? v)%N|..]; try reflexivity.
    pose proof (open_pebble_file peb (make_dir d) v) as P. destruct (open_pebble peb (make_dir d) v) as [l r]. cbn [fst] in *. rewrite last_cons.
    destruct l as [|x l]; [reflexivity|]. destruct (P (last (x :: l) (make_dir d))) as [_ E]; [|exact E]. apply RestoreFacts.last_in. discriminate.
  - pose proof (open_pebble_file peb (set_file (make_dir d) (dec v)) v) as P. destruct (open_pebble peb (set_file (make_dir d) (dec v)) v) as [l r]. cbn [fst] in *.
    rewrite last_cons, last_app, write_steps_last. destruct l as [|x l]; [reflexivity|].
    destruct (P (last (x :: l) (set_file (make_dir d) (dec v)))) as [_ E]; [|exact E]. apply RestoreFacts.last_in. discriminate.
Qed.

Lemma migrate_bond peb d v : d_bond (after d (migrate peb d v)) = d_bond d.
Proof.
  unfold migrate, after. destruct (peb (d_fmv d) v) as [f|]; [|reflexivity]. cbn [d_bond set_fmv]. destruct (d_bond d) eqn:B; cbn [fst]; [|exact B].
  rewrite last_cons, write_steps_last. exact B.
Qed.

Lemma open_recorded peb d v : (v <= max_u64)%N -> snd (open_db peb d v) = Ok tt -> recorded (after d (open_db peb d v)) v.
Proof.
  intros V O. pose proof (proj1 (open_ok peb d v V) O) as ([F|(s & F & R)] & _).
  - exists (dec v). split; [now apply open_pins|apply records_dec].
  - exists s. split; [|exact R]. eapply open_keeps; [exact F|apply after_crashed].
Qed.

(** ** An interrupted AddIndex *)
Lemma interrupted {T F} (tb : table T F) ev db idxs : lawful (with_indexes tb (t_indexes tb ++ idxs)) -> kv_ok db ->
  let db' := snd (fst (add_index_call ev tb (IxState (t_indexes tb) false) db idxs true)) in
  kv_ok db' /\ (forall j, In j idxs -> ~ In (ix_id j) (map ix_id (t_indexes tb))) /\ forall k, ~ index_area (t_id tb) idxs k -> kv_get db' k = kv_get db k.
Proof.
  intros LAW K. set (tb' := with_indexes tb (t_indexes tb ++ idxs)) in *.
  assert (ND : NoDup (map ix_id idxs) /\ forall j, In j idxs -> ~ In (ix_id j) (map ix_id (t_indexes tb))).
  { pose proof (law_nodup _ LAW) as N. cbn [tb' with_indexes t_indexes] in N. rewrite map_app in N. revert N. generalize (map ix_id (t_indexes tb)) as l. clear.
    induction l as [|a l IH]; cbn [app]; intros N; [split; [exact N|easy]|]. inversion N as [|? ? H1 H2]; subst. destruct (IH H2) as (B & C). split; [exact B|].
    intros j J [->|Q]; [|now apply (C j)]. apply H1, in_app_iff. right. now apply in_map. }
  destruct ND as (N2 & N3). unfold add_index_call. rewrite add_index_ok; auto. cbn [xs_map]. fold tb'.
  assert (LX : lawful (with_indexes tb' idxs)).
  { destruct LAW as [L1 L2 L3 L4 L5]. constructor; cbn [with_indexes t_indexes t_pk tb'] in *; auto.
    - intros ix b r I. apply L2. apply in_app_iff; auto.
    - intros ix b r I. apply L3. apply in_app_iff; auto.
    - intros ix I. apply L5. apply in_app_iff; auto. }
  destruct (re_index_outside tb' idxs LX ev db K) as [K' O]. destruct (re_index ev tb' db idxs) as [db' r]. cbn [fst snd] in *. auto.
Qed.

Lemma interrupted_rep {T F} (tb : table T F) ev db idxs m : lawful (with_indexes tb (t_indexes tb ++ idxs)) -> kv_ok db -> Rep (schema_of tb) db m ->
  Rep (schema_of tb) (snd (fst (add_index_call ev tb (IxState (t_indexes tb) false) db idxs true))) m.
Proof.
  intros LAW K R. destruct (interrupted tb ev db idxs LAW K) as (_ & N & O). destruct R as [R1 R2 R3 R4].
  assert (Z : forall rest, ~ index_area (t_id tb) idxs (t_id tb :: x00 :: rest)).
  { intros rest (j & rest' & J & [= E _]). apply (law_nonzero _ LAW j); [|auto]. cbn [with_indexes t_indexes]. apply in_app_iff. auto. }
  constructor; auto.
  - intros pk. rewrite <- R2. apply O. apply Z.
  - intros rest v. change (s_id (schema_of tb)) with (t_id tb). rewrite O by apply Z. apply R3.
  - intros six rest v I. rewrite O; [now apply R4|]. intros (j & rest' & J & [= E _]). apply in_map_iff in I as [ix [<- I]]. apply (N j J). rewrite <- E. cbn [si_id sindex_of]. now apply in_map.
Qed.

(** ** Fewer indexes *)
Lemma fewer_rep {T F} (tb : table T F) l db m : incl l (t_indexes tb) -> Rep (schema_of tb) db m -> Rep (schema_of (with_indexes tb l)) db m.
Proof.
  intros L [R1 R2 R3 R4]. constructor; auto.
  - intros pk r M. destruct (R1 pk r M) as (A & B & C). split; [exact A|]. split; [|exact C]. intros ix I. apply B. apply in_map_iff in I as [x [<- I]]. apply in_map. auto.
  - intros ix rest v I. apply R4. apply in_map_iff in I as [x [<- I]]. apply in_map. auto.
Qed.

Lemma fewer_good {T F} (tb : table T F) l : incl l (t_indexes tb) -> NoDup (map ix_id l) -> good_table tb -> good_table (with_indexes tb l).
Proof.
  intros L N [[L1 L2 L3 L4 L5] S Fi]. constructor; auto. constructor; cbn [with_indexes t_indexes t_pk] in *; auto.
Qed.

Section Life.
  Context {I : Type} (eq_dec : forall i j : I, {i = j} + {i <> j}) (Ty Fl : I -> Type).
  Variable peb : option N -> N -> option N.
  Variable fuel : nat.
  Notation sys := (sys Ty Fl).
  Notation world := (world Ty Fl).
  Notation content := (content Ty).
  Notation refines := (refines Ty Fl).

  (** What is on disk between the sessions. *)
  Record stored (db : kv) (tb : forall i, table (Ty i) (Fl i)) (c : content) : Prop := {
    st_ok : kv_ok db;
    st_good : forall i, good_table (tb i);
    st_ids : forall i j, t_id (tb i) = t_id (tb j) -> i = j;
    st_zero : forall i, t_id (tb i) <> x00;
    st_rep : forall i, Rep (schema_of (tb i)) db (c_rows Ty c i);
    st_raw : forall k, (forall i rest, k <> t_id (tb i) :: rest) -> kv_get db k = c_raw Ty c k
  }.

  Lemma version_own (tb : forall i, table (Ty i) (Fl i)) : (forall i, t_id (tb i) <> x00) -> forall i rest, data_version_key <> t_id (tb i) :: rest.
  Proof. intros Z i rest E. apply (Z i). change data_version_key with (x00 :: tl data_version_key) in E. now injection E. Qed.

  Lemma stored_marked db db' tb c : stored db tb c -> kv_ok db' -> (forall k, k <> data_version_key -> kv_get db' k = kv_get db k) ->
    stored db' tb (marked Ty c (kv_get db' data_version_key)).
  Proof.
    intros [K G D Z R W] K' E. constructor; auto.
    - intros i. cbn [marked with_raw c_rows]. apply (Rep_same _ db); [apply R|]. intros j rest. apply E. intros X. now apply (version_own tb Z i (j :: rest)).
    - intros k N. cbn [marked with_raw c_raw]. destruct (beqb k data_version_key) eqn:B; [apply beqb_eq in B; now subst|].
      rewrite E; [now apply W|]. intros ->. now rewrite beqb_refl in B.
  Qed.

  Lemma stored_open d v tb c d' : stored (d_kv d) tb c -> crashed d (open_db peb d v) d' -> stored (d_kv d') tb (marked Ty c (kv_get (d_kv d') data_version_key)).
  Proof.
    intros S C. apply (stored_marked (d_kv d)); auto.
    - eapply open_crash_ok; eauto. exact (st_ok _ _ _ S).
    - intros k N. eapply open_pairs; eauto. exact (st_ok _ _ _ S).
  Qed.

  Lemma stored_migrate d v tb c d' : stored (d_kv d) tb c -> crashed d (migrate peb d v) d' -> stored (d_kv d') tb (marked Ty c (kv_get (d_kv d') data_version_key)).
  Proof. intros S C. pose proof (migrate_kv _ _ _ _ C) as E. apply (stored_marked (d_kv d)); auto; rewrite E; auto. exact (st_ok _ _ _ S). Qed.

  Lemma stored_declared db tb0 tb init c : stored db tb0 c -> declared Ty Fl tb0 tb init -> stored db tb c.
  Proof.
    intros [K G D Z R W] [DT _].
    assert (ID : forall i, t_id (tb i) = t_id (tb0 i)) by (intros i; destruct (DT i) as (l & -> & _); reflexivity).
    constructor; auto.
    - intros i. destruct (DT i) as (l & -> & L & N). now apply fewer_good.
    - intros i j. rewrite !ID. apply D.
    - intros i. rewrite ID. apply Z.
    - intros i. destruct (DT i) as (l & -> & L & N). now apply fewer_rep.
    - intros k N. apply W. intros i rest. rewrite <- ID. apply N.
  Qed.

  Lemma stored_refines db tb init c : stored db tb c -> (forall i db, kv_ok db -> covers (tb i) (init i db) db) ->
    refines (Sys Ty Fl db tb (fun i => init i db) None) (World Ty Fl tb c (BNone Ty)).
  Proof.
    intros [K G D Z R W] C. constructor; cbn [y_db y_tb y_fl y_b w_tb w_now w_batch]; auto. split; [exact K|]. split; [|exact W].
    intros i. constructor; auto.
  Qed.

  Lemma refines_stored s w : refines s w -> (forall i, t_id (w_tb Ty Fl w i) <> x00) -> stored (y_db Ty Fl s) (w_tb Ty Fl w) (w_now Ty Fl w).
  Proof.
    intros [T D G (K & H & W) B] Z. constructor; auto. intros i. exact (cons_rep _ _ _ _ (H i)).
  Qed.

  (** ** Calls *)
  Lemma next_id (w : world) o x i : t_id (w_tb Ty Fl (next eq_dec Ty Fl w o x) i) = t_id (w_tb Ty Fl w i).
  Proof.
    destruct o as [inb j ev c|inb k v|inb k|inb r|j ev idxs| |ok| ]; cbn [next]; try reflexivity.
    - unfold leave. destruct inb; destruct (seen _ _ _ w); try destruct x as [[[]| | |]| | | | |]; reflexivity.
    - unfold leave. destruct inb; [reflexivity|]. now destruct (option_map _ _).
    - unfold leave. destruct inb; [reflexivity|]. now destruct (option_map _ _).
    - cbn [w_tb]. unfold upd. destruct (eq_dec j i) as [<-|N]; reflexivity.
  Qed.

  Lemma world_after_id l : forall (w : world) i, t_id (w_tb Ty Fl (world_after eq_dec Ty Fl w l) i) = t_id (w_tb Ty Fl w i).
  Proof. induction l as [|[o x] l IH]; intros w i; [reflexivity|]. unfold world_after in *. cbn [fold_left fst snd]. rewrite IH. apply next_id. Qed.

  Lemma run_ops_length l : forall s, length (run_ops eq_dec Ty Fl fuel s l) = length l.
  Proof. induction l as [|o l IH]; intros s; [reflexivity|]. cbn [run_ops]. destruct (run_op _ _ _ _ s o). cbn [length]. now rewrite IH. Qed.

  Lemma run_refines l : forall n s w, refines s w -> all_proper eq_dec Ty Fl fuel w (run_ops eq_dec Ty Fl fuel s l) ->
    refines (run_state eq_dec Ty Fl fuel s (firstn n l)) (world_after eq_dec Ty Fl w (firstn n (run_ops eq_dec Ty Fl fuel s l))).
  Proof.
    induction l as [|o l IH]; intros n s w R P; [now destruct n|]. destruct n as [|n]; [exact R|]. cbn [run_ops firstn] in *. unfold run_state. cbn [fold_left].
    destruct (run_op eq_dec Ty Fl fuel s o) as [s' x] eqn:E. cbn [all_proper] in P. destruct P as [P PS]. destruct (step_ok eq_dec Ty Fl fuel s w o s' x R P E) as [_ R'].
    cbn [firstn fst]. unfold world_after. cbn [fold_left fst snd]. apply IH; auto.
  Qed.

  Lemma run_refines_all l s w : refines s w -> all_proper eq_dec Ty Fl fuel w (run_ops eq_dec Ty Fl fuel s l) ->
    refines (run_state eq_dec Ty Fl fuel s l) (world_after eq_dec Ty Fl w (run_ops eq_dec Ty Fl fuel s l)).
  Proof.
    intros R P. pose proof (run_refines l (length l) s w R P) as H. rewrite firstn_all in H. rewrite <- (run_ops_length l s), firstn_all in H. exact H.
  Qed.

  Lemma killed_stored s w lost busy : refines s w -> (forall i, t_id (w_tb Ty Fl w i) <> x00) -> busy_proper Ty Fl w (EKill Ty lost busy) ->
    stored (killed Ty Fl s busy) (w_tb Ty Fl w) (w_now Ty Fl w).
  Proof.
    intros R Z B. pose proof (refines_stored s w R Z) as ST. destruct busy as [a|]; [|exact ST]. cbn [busy_proper killed] in *.
    destruct ST as [K G D _ RP W]. rewrite (rf_tb _ _ _ _ R). set (i := ad_tab Ty a) in *.
    destruct (interrupted (w_tb Ty Fl w i) (ad_env Ty a) (y_db Ty Fl s) (ad_idxs Ty a) B K) as (K' & N & O).
    assert (O' : forall k, (forall rest, k <> t_id (w_tb Ty Fl w i) :: rest) ->
      kv_get (snd (fst (add_index_call (ad_env Ty a) (w_tb Ty Fl w i) (IxState (t_indexes (w_tb Ty Fl w i)) false) (y_db Ty Fl s) (ad_idxs Ty a) true))) k = kv_get (y_db Ty Fl s) k).
    { intros k NK. apply O. intros (ix & rest & _ & ->). now apply (NK (ix_id ix :: rest)). }
    constructor; auto.
    - intros j. destruct (eq_dec i j) as [<-|NE]; [now apply interrupted_rep|]. apply (Rep_same _ (y_db Ty Fl s)); [apply RP|].
      intros x rest. apply O'. intros rest' [= E _]. apply NE. symmetry. now apply D.
    - intros k NK. rewrite O'; [now apply W|apply NK].
  Qed.

  (** A session that was opened leaves what its calls made of the content. *)
  Lemma session_stored d v tb0 tb init ops e c rs d' : stored (d_kv d) tb0 c -> declared Ty Fl tb0 tb init ->
    run_session eq_dec Ty Fl peb fuel d (SRun Ty Fl v tb init ops e) = (d', Some rs) ->
    exists mark, let w := World Ty Fl tb (marked Ty c mark) (BNone Ty) in
    mark = kv_get (d_kv (after d (open_db peb d v))) data_version_key /\
    snd (open_db peb d v) = Ok tt /\ d_file d' = d_file (after d (open_db peb d v)) /\ d_bond d' = true /\
    map fst rs = map fst ops ++ match e with EClose _ cbs => close_ops Ty cbs | _ => [] end /\
    all_right eq_dec Ty Fl fuel w rs /\
    (all_proper eq_dec Ty Fl fuel w rs -> busy_proper Ty Fl (world_after eq_dec Ty Fl w (kept Ty ops e rs)) e ->
     stored (d_kv d') (w_tb Ty Fl (world_after eq_dec Ty Fl w (kept Ty ops e rs))) (w_now Ty Fl (world_after eq_dec Ty Fl w (kept Ty ops e rs)))).
  Proof.
    intros S D E. cbn [run_session] in E. set (d1 := after d (open_db peb d v)) in *. exists (kv_get (d_kv d1) data_version_key). cbv zeta.
    set (w := World Ty Fl tb (marked Ty c (kv_get (d_kv d1) data_version_key)) (BNone Ty)).
    pose proof (stored_declared _ _ _ _ _ (stored_open d v tb0 c d1 S (after_crashed _ _)) D) as S1.
    pose proof (stored_refines _ _ init _ S1 (proj2 D)) as R. set (s := Sys Ty Fl (d_kv d1) tb (fun i => init i (d_kv d1)) None) in *. fold w in R.
    assert (Z : forall l i, t_id (w_tb Ty Fl (world_after eq_dec Ty Fl w l) i) <> x00) by (intros l i; rewrite world_after_id; apply (st_zero _ _ _ S1)).
    assert (L : forall s l, map fst (run_ops eq_dec Ty Fl fuel s l) = l).
    { intros s0 l. revert s0. induction l as [|o l IH]; intros s0; [reflexivity|]. cbn [run_ops]. destruct (run_op _ _ _ _ s0 o). cbn [map fst]. now rewrite IH. }
    split; [reflexivity|]. destruct (snd (open_db peb d v)) as [[]| | |]; try (apply pair_equal_spec in E as [_ E]; discriminate). split; [reflexivity|]. destruct e as [cbs|lost busy].
    - apply pair_equal_spec in E as [<- E]. injection E as <-. cbn [d_file d_bond d_kv set_kv]. split; [reflexivity|]. split; [apply open_bond|]. split; [apply L|].
      split; [now apply run_ok|]. intros P _. cbn [kept]. apply refines_stored; [|apply Z]. now apply run_refines_all.
    - apply pair_equal_spec in E as [<- E]. injection E as <-. cbn [d_file d_bond d_kv set_kv]. split; [reflexivity|]. split; [apply open_bond|]. split; [rewrite app_nil_r; apply L|].
      split; [now apply run_ok|]. intros P B. cbn [kept] in *. apply (killed_stored _ _ lost); auto. now apply run_refines.
  Qed.

  Lemma life_ok l : forall d tb c, stored (d_kv d) tb c -> life_right eq_dec Ty Fl fuel tb c (run_life eq_dec Ty Fl peb fuel d l).
  Proof.
    induction l as [|se l IH]; intros d tb c S; [exact Logic.I|]. cbn [run_life]. destruct (run_session eq_dec Ty Fl peb fuel d se) as [d' x] eqn:E.
    destruct se as [v n|v tb' init ops e|v n].
    - cbn [run_session] in E. injection E as <- <-. cbn [life_right]. eexists. apply IH. apply (stored_open d v); auto. apply nth_crashed.
    - destruct x as [rs|].
      + cbn [life_right]. intros D. destruct (session_stored _ _ _ _ _ _ _ _ _ _ S D E) as (mark & _ & _ & _ & _ & _ & AR & ST).
        exists mark. split; [exact AR|]. intros P _ B. apply IH. auto.
      + cbn [life_right]. cbn [run_session] in E. exists (kv_get (d_kv d') data_version_key). apply IH. apply (stored_open d v); auto.
        destruct (snd (open_db peb d v)); [destruct e; discriminate|..]; injection E as <-; apply after_crashed.
    - cbn [run_session] in E. injection E as <- <-. cbn [life_right]. eexists. apply IH. apply (stored_migrate d v); auto. destruct n; [apply nth_crashed|apply after_crashed].
  Qed.

  Lemma stored_new (tb : forall i, table (Ty i) (Fl i)) : (forall i, good_table (tb i)) -> (forall i j, t_id (tb i) = t_id (tb j) -> i = j) -> (forall i, t_id (tb i) <> x00) ->
    stored [] tb (empty Ty).
  Proof. intros G D Z. constructor; auto; [constructor|]. intros i. apply Rep_empty. Qed.

  (** ** Every Open succeeds *)
  Definition has_mark (w : world) (x : option bytes) : Prop :=
    c_raw Ty (w_now Ty Fl w) data_version_key = x /\ match w_batch Ty Fl w with BOpen _ c => c_raw Ty c data_version_key = x | _ => True end.

  Lemma next_mark (w : world) o x m : not_version Ty o -> has_mark w m -> has_mark (next eq_dec Ty Fl w o x) m.
  Proof.
    intros NV [A B].
    assert (RW : forall c k y, k <> data_version_key -> c_raw Ty (with_raw Ty c k y) data_version_key = c_raw Ty c data_version_key).
    { intros c k y N. cbn [with_raw c_raw]. destruct (beqb data_version_key k) eqn:E; [apply beqb_eq in E; congruence|reflexivity]. }
    destruct o as [inb j ev c|inb k v|inb k|inb r|j ev idxs| |ok| ]; cbn [next not_version] in *; unfold has_mark.
    - unfold seen, leave. destruct inb; destruct (w_batch Ty Fl w) as [|c0|] eqn:WB; try destruct x as [[[]| | |]| | | | |]; cbn [w_now w_batch with_rows c_raw]; rewrite ?WB; auto.
    - unfold seen, leave. destruct inb; destruct (w_batch Ty Fl w) as [|c0|] eqn:WB; cbn [w_now w_batch option_map]; rewrite ?RW, ?WB by auto; auto.
    - unfold seen, leave. destruct inb; destruct (w_batch Ty Fl w) as [|c0|] eqn:WB; cbn [w_now w_batch option_map]; rewrite ?RW, ?WB by auto; auto.
    - auto.
    - cbn [w_now w_batch]. auto.
    - cbn [w_now w_batch]. auto.
    - cbn [w_now w_batch]. split; [|exact Logic.I]. destruct (w_batch Ty Fl w) as [|c0|]; auto. destruct x as [[[]| | |]| | | | |]; auto.
    - cbn [w_now w_batch]. auto.
  Qed.

  Lemma after_mark l : forall (w : world) m, Forall (not_version Ty) (map fst l) -> has_mark w m -> has_mark (world_after eq_dec Ty Fl w l) m.
  Proof.
    induction l as [|[o x] l IH]; intros w m F H; [exact H|]. cbn [map fst] in F. inversion F; subst. unfold world_after in *. cbn [fold_left fst snd]. apply IH; auto. now apply next_mark.
  Qed.

  Definition ready (d : disk) (cur : option N) : Prop :=
    (version (d_kv d) = 0%Z \/ version (d_kv d) = Z.of_N data_version) /\
    match cur with None => d_file d = None | Some v => recorded d v /\ d_bond d = true end.

  Lemma life_opens l : forall d tb c cur, stored (d_kv d) tb c -> ready d cur ->
    orderly_life eq_dec Ty Fl peb fuel tb c cur (run_life eq_dec Ty Fl peb fuel d l) -> all_opened Ty Fl (run_life eq_dec Ty Fl peb fuel d l).
  Proof.
    induction l as [|se l IH]; intros d tb c cur S RD O; [constructor|]. cbn [run_life] in *. destruct (run_session eq_dec Ty Fl peb fuel d se) as [d' x] eqn:E.
    destruct RD as [V RD]. destruct se as [v n|v tb' init ops e|v n]; cbn [orderly_life] in O.
    - destruct O.
    - destruct O as ((VM & PB) & CUR & D & NV & NC & O).
      assert (OK : snd (open_db peb d v) = Ok tt).
      { apply open_ok; auto. split; [|split; [apply PB|exact V]]. destruct CUR as [->| ->]; [left; exact RD|right; exact (proj1 RD)]. }
      destruct x as [rs|].
      + constructor; [exact Logic.I|]. destruct (session_stored _ _ _ _ _ _ _ _ _ _ S D E) as (mark & MK & _ & FI & BO & LS & AR & ST). cbv zeta in *.
        specialize (O mark). destruct O as (P & CE & B & O). specialize (ST P B). eapply IH; [exact ST| |exact O].
        split; [|split; [destruct (open_recorded peb d v VM OK) as (s & A & R); exists s; split; [congruence|exact R]|exact BO]].
        right. unfold version. set (w' := world_after _ _ _ _ _) in ST.
        assert (HM : has_mark w' mark).
        { apply after_mark.
          - assert (F : Forall (not_version Ty) (map fst rs)).
            { rewrite LS. apply Forall_app. split; [rewrite Forall_forall in *; intros o IN; apply in_map_iff in IN as (y & <- & IN); now apply NV|].
              destruct e as [cbs|]; [|constructor]. unfold close_ops. clear - NC. induction NC as [|y cbs F _ IH]; [constructor|]. cbn [concat]. apply Forall_app. auto. }
            destruct e as [cbs|lost busy]; cbn [kept]; [exact F|]. rewrite <- firstn_map. rewrite Forall_forall in *. intros o IN. apply F. rewrite <- (firstn_skipn (length ops - lost) (map fst rs)). apply in_app_iff. auto.
          - split; [|exact Logic.I]. cbn [w_now marked with_raw c_raw]. now rewrite beqb_refl. }
        rewrite (st_raw _ _ _ ST) by (apply version_own; exact (st_zero _ _ _ ST)). rewrite (proj1 HM), MK.
        exact (open_marks peb d v (st_ok _ _ _ S) OK).
      + exfalso. cbn [run_session] in E. rewrite OK in E. destruct e; discriminate.
    - destruct O as ((VM & PB) & -> & CUR & O). cbn [run_session] in E. injection E as <- <-. constructor; [exact Logic.I|].
      destruct cur as [v0|]; [|congruence]. destruct RD as [RC BO]. pose proof (proj2 (migrate_ok peb d v) (conj (PB _) BO)) as OK. destruct (migrate_after peb d v OK) as [R' K'].
      eapply IH; [| |exact O]; [rewrite K'; exact S|]. split; [now rewrite K'|]. split; [exact R'|]. now rewrite migrate_bond.
  Qed.

  Lemma life_new (tb : forall i, table (Ty i) (Fl i)) d l : (forall i, good_table (tb i)) -> (forall i j, t_id (tb i) = t_id (tb j) -> i = j) -> (forall i, t_id (tb i) <> x00) ->
    d_kv d = [] -> life_right eq_dec Ty Fl fuel tb (empty Ty) (run_life eq_dec Ty Fl peb fuel d l).
  Proof. intros G D Z E. apply life_ok. rewrite E. now apply stored_new. Qed.

  Lemma life_from (tb : forall i, table (Ty i) (Fl i)) d c l : (forall i, good_table (tb i)) -> (forall i j, t_id (tb i) = t_id (tb j) -> i = j) -> (forall i, t_id (tb i) <> x00) ->
    kv_ok (d_kv d) -> (forall i, Rep (schema_of (tb i)) (d_kv d) (c_rows Ty c i)) ->
    (forall k, (forall i rest, k <> t_id (tb i) :: rest) -> kv_get (d_kv d) k = c_raw Ty c k) ->
    life_right eq_dec Ty Fl fuel tb c (run_life eq_dec Ty Fl peb fuel d l).
  Proof. intros G D Z K R W. apply life_ok. now constructor. Qed.

  Lemma life_new_opens (tb : forall i, table (Ty i) (Fl i)) d l : (forall i, good_table (tb i)) -> (forall i j, t_id (tb i) = t_id (tb j) -> i = j) -> (forall i, t_id (tb i) <> x00) ->
    d_kv d = [] -> d_file d = None ->
    orderly_life eq_dec Ty Fl peb fuel tb (empty Ty) None (run_life eq_dec Ty Fl peb fuel d l) -> all_opened Ty Fl (run_life eq_dec Ty Fl peb fuel d l).
  Proof. intros G D Z E F O. eapply life_opens; [rewrite E; now apply stored_new| |exact O]. split; [left; now rewrite E|exact F]. Qed.
End Life.
