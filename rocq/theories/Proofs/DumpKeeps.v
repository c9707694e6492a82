(** What an unfinished Dump has written stays as it is. *)

From Coq Require Import List NArith Bool Arith Lia Strings.String Strings.Byte.
From Verif.Model Require Import Bytes Go Keys Pebble Bloom Backup DumpSteps.
From Verif.Spec Require Import StoreSpec BackupSpec.
From Verif.Proofs Require Import BytesFacts PebbleFacts BackupFacts RestoreFacts DumpStepsFacts.
Import ListNotations.
Local Open Scope list_scope.

(** [d'] has all paths of [d], in the same directories, and the sst files and directories as they were. *)
Definition grown (d d' : tree) : Prop := forall p,
  (In p (map fst d) -> In p (map fst d')) /\ (In (p, NDir) d -> In (p, NDir) d') /\ (forall f, In (p, NSst f) d -> In (p, NSst f) d').

Lemma grown_refl d : grown d d.
Proof. intro p. auto. Qed.

Lemma grown_trans a b c : grown a b -> grown b c -> grown a c.
Proof. intros A B p. destruct (A p) as (a1 & a2 & a3), (B p) as (b1 & b2 & b3). auto. Qed.

Lemma grown_app a b a' b' : grown a a' -> grown b b' -> grown (a ++ b) (a' ++ b').
Proof.
  intros A B p. destruct (A p) as (a1 & a2 & a3), (B p) as (b1 & b2 & b3). rewrite !map_app.
  split; [|split]; intros; repeat rewrite in_app_iff in *; intuition.
Qed.

Lemma grown_more a b : grown a (a ++ b).
Proof. intros p. rewrite map_app. split; [|split]; intros; apply in_or_app; auto. Qed.

Lemma grown_writer full w : grown (writer_tree w) (writer_tree (writer_step full w)).
Proof.
  unfold writer_step. destruct (w_done w) eqn:D; [apply grown_refl|].
  destruct (w_open w) as [cur|] eqn:O; unfold writer_tree; rewrite O; cbn [w_dir w_files w_open].
  - assert (G : forall c, grown (([w_dir w], NDir) :: sst_files (w_dir w) 1 (w_files w) ++ [([w_dir w; sst_name (1 + N.of_nat (List.length (w_files w)))], NFile [])])
        (([w_dir w], NDir) :: sst_files (w_dir w) 1 (w_files w ++ [c]) ++ [])).
    { intro c. rewrite sst_files_app, app_nil_r. cbn [sst_files]. intro p. cbn [map]. rewrite !map_app. cbn [map fst].
      split; [|split]; intros; cbn [In] in *; repeat rewrite in_app_iff in *; cbn [In] in *; intuition congruence. }
    destruct (w_left w) as [|e more]; [apply G|]. destruct (full (cur ++ [e])); [apply G|]. cbn [w_dir w_files w_open]. apply grown_refl.
  - rewrite app_nil_r. rewrite app_comm_cons. apply grown_more.
Qed.

Lemma grown_writers full ws : forall i w, nth_error ws i = Some w ->
  grown (flat_map writer_tree ws) (flat_map writer_tree (firstn i ws ++ writer_step full w :: skipn (S i) ws)).
Proof.
  intros i w E. rewrite (split_nth ws i w E) at 1. rewrite !flat_map_app. cbn [flat_map].
  apply grown_app; [apply grown_refl|]. apply grown_app; [apply grown_writer|apply grown_refl].
Qed.

Lemma grown_mkdir st dir items next : grown (tree_of st) (tree_of (mkdir_step st dir items next)).
Proof.
  unfold mkdir_step. destruct (tree_get (tree_of st) [dir]); [apply grown_refl|]. unfold tree_of. cbn [ds_version ds_writers].
  rewrite flat_map_app, app_assoc. apply grown_more.
Qed.

Lemma grown_step full snap live ex wi st c : grown (tree_of st) (tree_of (dump_step full snap live ex wi st c)).
Proof.
  destruct c as [|i]; cbn [dump_step].
  - unfold main_step. destruct (ds_main st) as [ts|ts|n [|t ts]|n t ts|n t [|j ids] ts| |r]; try apply grown_mkdir; try apply grown_refl.
    + destruct ex; apply grown_refl.
    + destruct (ds_version st) as [v|] eqn:V.
      * destruct (Nat.ltb (List.length v) 4); [|unfold tree_of; cbn [ds_version ds_writers]; rewrite V; apply grown_refl].
        unfold tree_of. cbn [ds_version ds_writers]. rewrite V. apply grown_app; [|apply grown_refl]. intro p. cbn. intuition congruence.
      * unfold tree_of. cbn [ds_version ds_writers]. rewrite V. intro p. cbn. auto.
    + destruct (get_index_ids (live n) t); apply grown_refl.
    + destruct (forallb w_done (ds_writers st)); apply grown_refl.
  - destruct (nth_error (ds_writers st) i) as [w|] eqn:E; [|apply grown_refl].
    unfold tree_of. cbn [ds_version ds_writers]. apply grown_app; [apply grown_refl|apply grown_writers, E].
Qed.

Theorem dump_keeps full snap live ex wi tables sched more p :
  let d := tree_of (run_dump full snap live ex wi tables sched) in
  let d' := tree_of (run_dump full snap live ex wi tables (sched ++ more)) in
  (In p (map fst d) -> In p (map fst d')) /\ (In (p, NDir) d -> In (p, NDir) d') /\ (forall f, In (p, NSst f) d -> In (p, NSst f) d').
Proof.
  cbn zeta. unfold run_dump. rewrite fold_left_app. generalize (fold_left (dump_step full snap live ex wi) sched (DState None [] (MStart tables))).
  revert p. induction more as [|c more IH]; intros p st; [auto|]. cbn [fold_left].
  exact (grown_trans _ _ _ (grown_step full snap live ex wi st c) (fun p => IH p _) p).
Qed.

(** No path occurs twice. *)
Definition dirs_ok (st : dstate) : Prop := NoDup (map w_dir (ds_writers st)) /\ ~ In (str "VERSION") (map w_dir (ds_writers st)).

Lemma dirs_mkdir st dir items next : dirs_ok st -> dir <> str "VERSION" -> dirs_ok (mkdir_step st dir items next).
Proof.
  intros [N V] D. unfold mkdir_step. destruct (tree_get (tree_of st) [dir]) eqn:G; [split; auto|]. split; cbn [ds_writers]; rewrite map_app; cbn [map w_dir start_writer].
  - apply nodup_snoc; auto. intro I. apply in_map_iff in I as (w & W & I).
    destruct (tree_get_some (tree_of st) [dir]) as [x X]; [|congruence]. unfold tree_of. rewrite map_app. apply in_app_iff. right.
    apply (flat_top writer_tree); [intros; apply writer_top|]. exists w. auto.
  - rewrite in_app_iff. cbn. intuition.
Qed.

Lemma table_dir_version t : table_dir t <> str "VERSION".
Proof. unfold table_dir. cbn. discriminate. Qed.
Lemma index_dir_version t i : index_dir t i <> str "VERSION".
Proof. unfold index_dir, table_dir. cbn. discriminate. Qed.

Lemma dirs_step full snap live ex wi st c : dirs_ok st -> dirs_ok (dump_step full snap live ex wi st c).
Proof.
  intro O. destruct c as [|i]; cbn [dump_step].
  - unfold main_step. destruct (ds_main st) as [ts|ts|n [|t ts]|n t ts|n t [|j ids] ts| |r];
      try (apply dirs_mkdir; auto using table_dir_version, index_dir_version); try exact O.
    + destruct ex; exact O.
    + destruct (ds_version st) as [v|]; [destruct (Nat.ltb (List.length v) 4)|]; exact O.
    + destruct (get_index_ids (live n) t); exact O.
    + destruct (forallb w_done (ds_writers st)); exact O.
  - destruct (nth_error (ds_writers st) i) as [w|] eqn:E; [|exact O]. unfold dirs_ok in *. cbn [ds_writers].
    replace (map w_dir (firstn i (ds_writers st) ++ writer_step full w :: skipn (S i) (ds_writers st))) with (map w_dir (ds_writers st)); auto.
    rewrite (split_nth _ i w E) at 1. rewrite !map_app. cbn [map]. now rewrite writer_step_dir.
Qed.

Lemma dirs_run full snap live ex wi tables sched : dirs_ok (run_dump full snap live ex wi tables sched).
Proof.
  unfold run_dump. assert (O : dirs_ok (DState None [] (MStart tables))) by (split; [constructor|easy]). revert O.
  generalize (DState None [] (MStart tables)). induction sched as [|c sched IH]; intros st O; [exact O|]. cbn [fold_left]. apply IH, dirs_step, O.
Qed.

Lemma sst_name_inj a b : sst_name a = sst_name b -> a = b.
Proof. unfold sst_name. intro E. apply app_inv_tail in E. apply dec_inj, E. Qed.

Lemma sst_paths dir l : forall n p, In p (map fst (sst_files dir n l)) -> exists m, (n <= m < n + N.of_nat (List.length l))%N /\ p = [dir; sst_name m].
Proof.
  induction l as [|f l IH]; intros n p I; cbn [sst_files map fst In List.length] in *; [easy|]. destruct I as [<-|I].
  - exists n. split; [lia|reflexivity].
  - apply IH in I as (m & M & ->). exists m. split; [lia|reflexivity].
Qed.

Lemma sst_nodup dir l : forall n, NoDup (map fst (sst_files dir n l)).
Proof.
  induction l as [|f l IH]; intro n; cbn [sst_files map fst]; [constructor|]. constructor; [|apply IH].
  intro I. apply sst_paths in I as (m & M & E). injection E as E. apply sst_name_inj in E. lia.
Qed.

Lemma writer_paths w p : In p (map fst (writer_tree w)) -> p = [w_dir w] \/ exists n, p = [w_dir w; sst_name n].
Proof.
  unfold writer_tree. cbn [map fst In]. rewrite map_app, in_app_iff. intros [<-|[I|I]]; auto; right.
  - apply sst_paths in I as (m & _ & ->). eauto.
  - destruct (w_open w); cbn in I; [|easy]. destruct I as [<-|[]]. eauto.
Qed.

Lemma nodup_app {A} (a b : list A) : NoDup a -> NoDup b -> (forall x, In x a -> ~ In x b) -> NoDup (a ++ b).
Proof.
  induction a as [|x a IH]; intros Na Nb D; [exact Nb|]. inversion Na; subst. cbn. constructor.
  - rewrite in_app_iff. intros [H|H]; [auto|]. apply (D x); cbn; auto.
  - apply IH; auto. intros y Y. apply D. now right.
Qed.

Lemma writer_nodup w : NoDup (map fst (writer_tree w)).
Proof.
  unfold writer_tree. cbn [map fst]. rewrite map_app. constructor.
  - rewrite in_app_iff. intros [I|I].
    + apply sst_paths in I as (m & _ & E). discriminate E.
    + destruct (w_open w); cbn in I; [destruct I as [E|[]]; discriminate E|easy].
  - apply nodup_app; [apply sst_nodup| |].
    + destruct (w_open w); cbn; repeat constructor; easy.
    + intros x I J. apply sst_paths in I as (m & M & ->). destruct (w_open w); cbn [map fst In] in J; [|easy]. destruct J as [J|[]].
      assert (E : sst_name (1 + N.of_nat (List.length (w_files w))) = sst_name m) by congruence. apply sst_name_inj in E. lia.
Qed.

Lemma writers_nodup ws : NoDup (map w_dir ws) -> NoDup (map fst (flat_map writer_tree ws)).
Proof.
  induction ws as [|w ws IH]; intro N; [constructor|]. cbn [map] in N. inversion N; subst. cbn [flat_map]. rewrite map_app.
  apply nodup_app; auto using writer_nodup. intros p I J. apply in_map_iff in J as (e & E & J).
  apply in_flat_map in J as (w' & W & J). apply (in_map fst) in J. rewrite E in J. apply H1. apply in_map_iff. exists w'. split; auto.
  apply writer_paths in I. apply writer_paths in J. destruct I as [->|[n ->]], J as [J|[m J]]; congruence.
Qed.

Theorem dump_distinct full snap live ex wi tables sched : NoDup (map fst (tree_of (run_dump full snap live ex wi tables sched))).
Proof.
  destruct (dirs_run full snap live ex wi tables sched) as [N V]. set (st := run_dump _ _ _ _ _ _ _) in *. clearbody st.
  unfold tree_of. rewrite map_app. apply nodup_app; [|apply writers_nodup, N|].
  - destruct (ds_version st); repeat constructor; easy.
  - intros p I J. destruct (ds_version st); [|easy]. cbn [map fst In] in I. destruct I as [<-|[]]. apply V.
    apply in_map_iff in J as (e & E & J). apply in_flat_map in J as (w & W & J). apply (in_map fst) in J. rewrite E in J.
    apply in_map_iff. exists w. split; auto. apply writer_paths in J. destruct J as [J|[m J]]; congruence.
Qed.

(** ** When Restore refuses what an interrupted Dump left *)

(** Has the directory of a table's rows ([i] zero) or of an index been made? Is a file of it being written? *)
Definition dir_made (st : dstate) (t i : byte) : Prop := exists w, In w (ds_writers st) /\ w_dir w = area_dir (t, i).
Definition dir_writing (st : dstate) (t i : byte) : Prop := exists w, In w (ds_writers st) /\ w_dir w = area_dir (t, i) /\ w_open w <> None.

Lemma version_run full snap live wi tables sched : match ds_version (run_dump full snap live false wi tables sched) with
  | None => True
  | Some v => v = firstn (List.length v) (be_bytes 4 data_version) end.
Proof.
  destruct (dinv_run full snap live wi tables sched) as [_ M]. set (st := run_dump _ _ _ _ _ _ _) in *. clearbody st.
  destruct (ds_main st) as [ts|ts|n ts|n t ts|n t ids ts| |r]; try (destruct M as [-> _]; reflexivity); try exact Logic.I.
  destruct M as (_ & _ & [->|(k & K & ->)]); [exact Logic.I|]. rewrite firstn_length. unfold version_bytes. change (List.length (be_bytes 4 data_version)) with 4.
  now rewrite Nat.min_l by lia.
Qed.

Lemma tree_get_path d p : forall x, tree_get d p = Some x -> In p (map fst d).
Proof.
  induction d as [|[q y] d IH]; intros x H; cbn [tree_get] in H; [discriminate|]. match type of H with context [list_eq_dec ?f p q] => destruct (list_eq_dec f p q) as [-> |E] end; [now left|right; eauto].
Qed.

Lemma ends_sst_name dir n : ends_sst [dir; sst_name n] = true.
Proof. unfold ends_sst, sst_name. cbn [last]. rewrite rev_app_distr. apply has_prefix_app. Qed.

Theorem refused_exactly full snap live wi : (forall n, kv_ok (live n)) -> (forall n k v, kv_get (live n) k = Some v -> 2 <= List.length k) ->
  forall root want wiR, (forall r, In r want -> contains (table_dir r) root = false) -> wiR = true \/ contains (str "index") root = false ->
  kv_ok snap -> bond_keys snap -> forall tables sched db,
  (forall r d, In r want -> In d tables -> has_prefix (dec (b2n r)) (dec (b2n d)) = true -> In d want) ->
  let st := run_dump full snap live false wi tables sched in
  snd (restore_disk root (tree_of st) db want wiR) = Ok tt <->
  (exists v, ds_version st = Some v /\ 4 <= List.length v) /\ (forall t, In t want -> dir_made st t x00) /\
  (forall t i, In t want -> i = x00 \/ wiR = true -> ~ dir_writing st t i).
Proof.
  intros LIVE LEN root want wiR ROOT IROOT SNAP BOND tables sched db PRE st.
  pose proof (ainv_run full snap live wi LIVE LEN tables sched) as [_ (ars & F & N & T)]. fold st in F. destruct (pairs_of _ _ _ F) as (p & -> & WS & P).
  assert (PK : pick_ssts root want wiR (tree_of st) = closed want wiR p).
  { unfold tree_of. rewrite pick_app, WS. rewrite (pick_writers full snap root want wiR ROOT IROOT p P). destruct (ds_version st); reflexivity. }
  pose proof (version_run full snap live wi tables sched) as V. fold st in V.
  assert (NV : forall w, In w (ds_writers st) -> w_dir w <> str "VERSION").
  { intros w W E. apply (dirs_run full snap live false wi tables sched). fold st. rewrite <- E. now apply in_map. }
  assert (BR : picks_broken root want wiR (tree_of st) = true <-> exists a w, In (a, w) p /\ wanted_area want wiR a = true /\ w_open w <> None).
  { unfold picks_broken. rewrite existsb_exists. split.
    - intros (e & I & B). unfold tree_of in I. apply in_app_iff in I as [I|I].
      + destruct (ds_version st); [|easy]. destruct I as [<-|[]]. cbn [snd fst] in B. rewrite ends_sst_version in B. discriminate B.
      + apply in_flat_map in I as (w & W & I). rewrite WS in W. apply in_map_iff in W as ([a w'] & E & A). cbn [snd] in E. subst w'.
        rewrite Forall_forall in P. destruct (P _ A) as (D & _). cbn [fst snd] in D.
        unfold writer_tree in I. destruct I as [<-|I]; [discriminate B|]. apply in_app_iff in I as [I|I].
        * exfalso. revert I B. generalize 1%N. induction (w_files w) as [|f l IH]; intros n I B; [easy|]. destruct I as [<-|I]; [discriminate B|]. eapply IH; eauto.
        * destruct (w_open w) eqn:O; [|easy]. destruct I as [<-|[]]. cbn [fst snd] in B. rewrite D in B. apply andb_true_iff in B as [_ B].
          rewrite picked_area in B by auto. exists a, w. rewrite O. split; auto. split; auto. discriminate.
    - intros (a & w & A & W & O). destruct (w_open w) as [cur|] eqn:OW; [|congruence].
      rewrite Forall_forall in P. destruct (P _ A) as (D & _). cbn [fst snd] in D.
      exists ([w_dir w; sst_name (1 + N.of_nat (List.length (w_files w)))], NFile []). split.
      + unfold tree_of. apply in_app_iff. right. apply in_flat_map. exists w. split; [rewrite WS; apply in_map_iff; exists (a, w); auto|].
        unfold writer_tree. rewrite OW. right. apply in_app_iff. right. now left.
      + cbn [fst snd]. rewrite ends_sst_name, D, picked_area, W by auto. reflexivity. }
  assert (WR : (exists a w, In (a, w) p /\ wanted_area want wiR a = true /\ w_open w <> None) <->
               exists t i, In t want /\ (i = x00 \/ wiR = true) /\ dir_writing st t i).
  { split.
    - intros (a & w & A & W & O). unfold wanted_area in W. apply andb_true_iff in W as [W1 W2]. apply existsb_exists in W1 as [q [R1 R2]].
      exists (fst a), (snd a). split; [apply (PRE q); auto; apply T; apply (in_map fst) in A; exact A|].
      split; [apply orb_true_iff in W2 as [W2|W2]; [left; now apply byte_eqb_eq|now right]|].
      exists w. rewrite WS. rewrite Forall_forall in P. destruct (P _ A) as (D & _). cbn [fst snd] in D. split; [apply in_map_iff; exists (a, w); auto|].
      destruct a. auto.
    - intros (t & i & TW & I & w & W & D & O). rewrite WS in W. apply in_map_iff in W as ([a w'] & E & A). cbn [snd] in E. subst w'.
      rewrite Forall_forall in P. destruct (P _ A) as (D' & _). cbn [fst snd] in D'. rewrite D in D'. apply area_dir_inj in D'. subst a.
      exists (t, i), w. split; auto. split; auto. unfold wanted_area. cbn [fst snd]. apply andb_true_iff.
      split; [apply existsb_exists; exists t; split; [auto|apply prefix_refl]|]. apply orb_true_iff. destruct I as [-> | ->]; [now left|now right]. }
  assert (MD : forallb (fun t => match tree_get (tree_of st) [table_dir t] with Some _ => true | None => false end) want = true <->
               forall t, In t want -> dir_made st t x00).
  { rewrite forallb_forall. assert (X : forall t, match tree_get (tree_of st) [table_dir t] with Some _ => true | None => false end = true <-> dir_made st t x00).
    { intro t. unfold dir_made. change (area_dir (t, x00)) with (table_dir t). split.
      - destruct (tree_get (tree_of st) [table_dir t]) as [x|] eqn:G; [|discriminate]. intros _. apply tree_get_path in G.
        unfold tree_of in G. rewrite map_app in G. apply in_app_iff in G as [G|G].
        + destruct (ds_version st); [|easy]. destruct G as [G|[]]. cbn [fst] in G. exfalso. apply (table_dir_version t). congruence.
        + apply (flat_top writer_tree) in G; [|intros; apply writer_top]. destruct G as (w & W & E). exists w. auto.
      - intros (w & W & E). destruct (tree_get_some (tree_of st) [table_dir t]) as [x X]; [|now rewrite X].
        unfold tree_of. rewrite map_app. apply in_app_iff. right. apply (flat_top writer_tree); [intros; apply writer_top|]. exists w. auto. }
    split; intros H t I; apply X, H, I. }
  unfold restore_disk, restore. rewrite PK. unfold ingest. rewrite (closed_apart full snap want wiR SNAP BOND p P N).
  assert (VG : tree_get (tree_of st) [str "VERSION"] = match ds_version st with Some v => Some (NFile v) | None => None end).
  { unfold tree_of. destruct (ds_version st) as [v|]; [reflexivity|]. cbn [app].
    destruct (tree_get (flat_map writer_tree (ds_writers st)) [str "VERSION"]) as [x|] eqn:G; [|reflexivity]. exfalso.
    apply tree_get_path in G. apply (flat_top writer_tree) in G; [|intros; apply writer_top]. destruct G as (w & W & E). now apply (NV w W). }
  rewrite VG. destruct (ds_version st) as [v|]; [|split; [discriminate|intros ((v & Q & _) & _); discriminate Q]].
  destruct (Nat.ltb_spec (List.length v) 4) as [L|L].
  { split; [discriminate|]. intros ((v' & Q & L') & _). injection Q as <-. lia. }
  assert (V4 : be_val (firstn 4 v) = data_version).
  { rewrite V, firstn_firstn, Nat.min_l by lia. reflexivity. }
  rewrite V4, N.eqb_refl. cbn [negb]. rewrite <- MD.
  match goal with |- context [forallb ?f want] => destruct (forallb f want) end.
  2:{ split; [discriminate|]. intros (_ & Q & _). discriminate Q. }
  destruct (picks_broken root want wiR (tree_of st)) eqn:B; cbn [snd].
  - split; [discriminate|]. intros (_ & _ & Q). exfalso. pose proof (proj1 WR (proj1 BR eq_refl)) as B'. destruct B' as (t & i & TW & I & W). exact (Q t i TW I W).
  - split; [|reflexivity]. intros _. split; [eauto|]. split; [reflexivity|]. intros t i TW I W.
    assert (X : false = true) by (apply BR, WR; eauto 6). discriminate X.
Qed.

(** a directory that exists is left alone *)
Lemma existing_refused full snap live wi tables sched : run_dump full snap live true wi tables sched =
  DState None [] (if existsb (fun c => match c with DMain => true | DWriter _ => false end) sched then MEnd (Err EOther) else MStart tables).
Proof.
  unfold run_dump. assert (E : forall sched, fold_left (dump_step full snap live true wi) sched (DState None [] (MEnd (Err EOther))) = DState None [] (MEnd (Err EOther))).
  { induction sched0 as [|c l IH]; [reflexivity|]. cbn [fold_left]. destruct c as [|i]; [exact IH|]. cbn. destruct i; exact IH. }
  induction sched as [|c l IH]; [reflexivity|]. cbn [fold_left existsb]. destruct c as [|i]; [exact (E l)|].
  cbn. destruct i; exact IH.
Qed.

Lemma existing_dir full snap live wi tables sched : let st := run_dump full snap live true wi tables sched in
  tree_of st = [] /\ (In DMain sched -> ds_main st = MEnd (Err EOther)) /\ (~ In DMain sched -> forall r, ds_main st <> MEnd r).
Proof.
  cbv zeta. rewrite existing_refused. split; [reflexivity|]. cbn [ds_main].
  destruct (existsb _ sched) eqn:E; split; intros H.
  - reflexivity.
  - exfalso. apply existsb_exists in E. destruct E as ([|i] & I & Q); [exact (H I)|discriminate].
  - exfalso. assert (X : existsb (fun c => match c with DMain => true | DWriter _ => false end) sched = true) by (apply existsb_exists; exists DMain; auto). congruence.
  - discriminate.
Qed.
