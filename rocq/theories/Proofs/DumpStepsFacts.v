(** Dump under every schedule of its goroutines, and Restore of what an interrupted Dump leaves behind. *)

From Coq Require Import List FinFun NArith Lia Bool Arith Sorting.Sorted Strings.String Strings.Byte.
From Verif.Model Require Import Bytes Go Keys Pebble Bloom Backup DumpSteps.
From Verif.Spec Require Import StoreSpec BackupSpec.
From Verif.Proofs Require Import BytesFacts PebbleFacts BackupFacts RestoreFacts.
Import ListNotations.
Local Open Scope list_scope.

Section Steps.
  Variable full : kv -> bool.
  Variable snap : kv.
  Variable live : nat -> kv.
  Variable wi : bool.

  (** ** One goroutine *)

  (** The files that the directory will have in the end. *)
  Definition w_all (w : writer) : list kv :=
    w_files w ++ if w_done w then [] else sst_split full (w_left w) (match w_open w with Some c => c | None => [] end).

  Definition w_ok (w : writer) : Prop := w_done w = true -> w_open w = None.

  Lemma writer_step_dir w : w_dir (writer_step full w) = w_dir w.
  Proof. unfold writer_step. destruct (w_done w); auto. destruct (w_open w); auto. destruct (w_left w); auto. destruct (full _); auto. Qed.

  Lemma writer_step_ok w : w_ok w -> w_ok (writer_step full w).
  Proof.
    intros W. unfold writer_step. destruct (w_done w) eqn:D; [exact W|]. destruct (w_open w); [|discriminate]. destruct (w_left w); [now intros _|].
    destruct (full _); discriminate.
  Qed.

  Lemma writer_step_all w : w_all (writer_step full w) = w_all w.
  Proof.
    unfold writer_step. destruct (w_done w) eqn:D; auto. unfold w_all. rewrite D. destruct (w_open w) as [cur|]; [|reflexivity].
    destruct (w_left w) as [|e more]; cbn [w_files w_done w_left w_open sst_split].
    - now rewrite app_nil_r.
    - destruct (full (cur ++ [e])); cbn [w_files w_done w_left w_open]; [|reflexivity]. now rewrite <- app_assoc.
  Qed.

  Lemma writer_step_done w : w_done w = true -> writer_step full w = w.
  Proof. unfold writer_step. now intros ->. Qed.

  (** ** The whole *)
  Definition final_writer (w : writer) : tree := ([w_dir w], NDir) :: sst_files (w_dir w) 1 (w_all w).
  Definition final_tree (ws : list writer) : tree := version_node :: flat_map final_writer ws.

  (** What the rest of the call does to the directory. *)
  Definition rest (pc : dpc) (d : tree) : tree * res unit :=
    match pc with
    | MStart _ | MVersion _ => (d, Ok tt)
    | MTables n ts => dump_tables full snap live n wi ts d
    | MIds n t ts =>
        match get_index_ids (live n) t with
        | Ok ids => match dump_indexes full snap t ids d with (d', Ok _) => dump_tables full snap live (S n) wi ts d' | r => r end
        | Err e => (d, Err e)
        | Panic => (d, Panic)
        | Diverge => (d, Diverge)
        end
    | MIndexes n t ids ts => match dump_indexes full snap t ids d with (d', Ok _) => dump_tables full snap live (S n) wi ts d' | r => r end
    | MWait => (d, Ok tt)
    | MEnd r => (d, r)
    end.

  Definition version_bytes : bytes := be_bytes 4 data_version.

  Definition dinv (tables : list byte) (st : dstate) : Prop :=
    Forall w_ok (ds_writers st) /\
    match ds_main st with
    | MStart ts => ds_version st = None /\ ds_writers st = [] /\ ts = tables
    | MVersion ts => ds_writers st = [] /\ ts = tables /\ (ds_version st = None \/ exists k, k <= 4 /\ ds_version st = Some (firstn k version_bytes))
    | pc => ds_version st = Some version_bytes /\ rest pc (final_tree (ds_writers st)) = dump full snap live false wi tables /\
            (pc = MEnd (Ok tt) -> forallb w_done (ds_writers st) = true)
    end.

  Lemma tree_get_top d d' x : (forall y, In [y] (map fst d) <-> In [y] (map fst d')) ->
    match tree_get d [x] with Some _ => true | None => false end = match tree_get d' [x] with Some _ => true | None => false end.
  Proof.
    intros H. destruct (in_dec (list_eq_dec (list_eq_dec byte_eq_dec)) [x] (map fst d)) as [I|I].
    - destruct (tree_get_some _ _ I) as [n ->]. apply H in I. now destruct (tree_get_some _ _ I) as [n' ->].
    - rewrite tree_get_none by auto. rewrite tree_get_none; auto. now rewrite <- H.
  Qed.

  Lemma writer_top w y : In [y] (map fst (writer_tree w)) <-> y = w_dir w.
  Proof.
    unfold writer_tree. cbn [map fst]. split.
    - intros [H|H]; [now apply one_inj in H|]. rewrite map_app in H. apply in_app_iff in H as [H|H].
      + apply sst_files_paths in H as [x H]. discriminate.
      + destruct (w_open w); [|easy]. destruct H as [H|[]]. discriminate.
    - intros ->. now left.
  Qed.

  Lemma final_top w y : In [y] (map fst (final_writer w)) <-> y = w_dir w.
  Proof.
    unfold final_writer. cbn [map fst]. split.
    - intros [H|H]; [now apply one_inj in H|]. apply sst_files_paths in H as [x H]. discriminate.
    - intros ->. now left.
  Qed.

  Lemma flat_top (f : writer -> tree) ws y : (forall w, In [y] (map fst (f w)) <-> y = w_dir w) ->
    In [y] (map fst (flat_map f ws)) <-> exists w, In w ws /\ y = w_dir w.
  Proof.
    intros F. rewrite in_map_iff. split.
    - intros (e & E & I). apply in_flat_map in I as (w & W & I). exists w. split; auto. apply F. apply in_map_iff. eauto.
    - intros (w & W & E). apply F in E. apply in_map_iff in E as (e & E & I). exists e. split; auto. apply in_flat_map. eauto.
  Qed.

  Lemma same_top st y : ds_version st = Some version_bytes -> In [y] (map fst (tree_of st)) <-> In [y] (map fst (final_tree (ds_writers st))).
  Proof.
    intros V. unfold tree_of. rewrite V. unfold final_tree. cbn [app map fst In].
    rewrite (flat_top writer_tree) by (intros; apply writer_top). rewrite (flat_top final_writer) by (intros; apply final_top). reflexivity.
  Qed.

  Lemma sst_files_app dir l l' : forall n, sst_files dir n (l ++ l') = sst_files dir n l ++ sst_files dir (n + N.of_nat (List.length l)) l'.
  Proof.
    induction l as [|f l IH]; intros n; cbn [sst_files app List.length]; [now rewrite N.add_0_r|]. rewrite IH. do 3 f_equal. lia.
  Qed.

  Lemma final_start dir items : final_writer (start_writer dir items) = ([dir], NDir) :: sst_files dir 1 (sst_split full items []).
  Proof. reflexivity. Qed.

  Lemma final_snoc ws w : final_tree (ws ++ [w]) = final_tree ws ++ final_writer w.
  Proof. unfold final_tree. cbn [app]. rewrite flat_map_app. cbn [flat_map]. now rewrite app_nil_r. Qed.

  Lemma mkdir_rest st dir items next : ds_version st = Some version_bytes -> Forall w_ok (ds_writers st) ->
    let st' := mkdir_step st dir items next in
    ds_version st' = Some version_bytes /\ Forall w_ok (ds_writers st') /\
    ((ds_main st' = MEnd (Err EOther) /\ dump_dir full (final_tree (ds_writers st)) dir items = None /\ ds_writers st' = ds_writers st) \/
     (ds_main st' = next /\ dump_dir full (final_tree (ds_writers st)) dir items = Some (final_tree (ds_writers st')))).
  Proof.
    intros V W. cbv zeta. unfold mkdir_step, dump_dir. pose proof (tree_get_top (tree_of st) (final_tree (ds_writers st)) dir (fun y => same_top st y V)) as T.
    destruct (tree_get (tree_of st) [dir]); destruct (tree_get (final_tree (ds_writers st)) [dir]); try discriminate; cbn [ds_version ds_writers ds_main].
    - split; [auto|]. split; [auto|]. left. auto.
    - split; [auto|]. split; [apply Forall_app; split; [auto|constructor; [discriminate|constructor]]|]. right. split; [auto|].
      now rewrite final_snoc, final_start.
  Qed.

  Lemma done_tree w : w_ok w -> w_done w = true -> writer_tree w = final_writer w.
  Proof. intros O D. unfold writer_tree, final_writer, w_all. now rewrite (O D), D, !app_nil_r. Qed.

  Lemma dinv_main tables st : dinv tables st -> dinv tables (main_step snap live false wi st).
  Proof.
    intros [W M]. unfold main_step. destruct (ds_main st) as [ts|ts|n [|t ts]|n t ts|n t [|i ids] ts| |r] eqn:PC.
    - destruct M as (V & WS & ->). split; cbn; [auto|]. split; [auto|]. split; [reflexivity|now left].
    - destruct M as (WS & -> & [V|[k [K V]]]); rewrite V.
      + split; cbn [ds_writers ds_main ds_version]; [auto|]. split; [auto|]. split; [reflexivity|]. right. exists 0. split; [lia|reflexivity].
      + assert (L : List.length (firstn k version_bytes) = k) by (rewrite firstn_length; change (List.length version_bytes) with 4; lia).
        rewrite L. destruct (Nat.ltb_spec k 4) as [H|H]; (split; cbn [ds_writers ds_main ds_version]; [auto|]).
        * split; [auto|]. split; [reflexivity|]. right. exists (S k). split; [lia|reflexivity].
        * assert (k = 4) as -> by lia. split; [reflexivity|]. split; [|discriminate]. rewrite WS. reflexivity.
    - destruct M as (V & R & _). split; cbn [ds_writers ds_main ds_version]; [auto|]. split; [auto|]. split; [|discriminate]. rewrite <- R. reflexivity.
    - destruct M as (V & R & _). pose proof (mkdir_rest st (table_dir t) (kv_range snap (fst (row_bounds t)) (snd (row_bounds t)))
        (if wi then MIds n t ts else MTables (S n) ts) V W) as (V' & W' & [(PC' & D & WS)|(PC' & D)]).
      + unfold dinv. rewrite PC', V', WS. split; [auto|]. split; [auto|]. split; [|discriminate]. rewrite <- R. cbn [rest dump_tables]. now rewrite D.
      + unfold dinv. rewrite PC'. split; [auto|]. cbn [rest dump_tables] in R. rewrite D in R.
        revert PC' R V' W'. case_eq wi; intros EW PC' R V' W'; (split; [auto|]; split; [|discriminate]); cbn [rest]; rewrite ?EW; exact R.
    - destruct M as (V & R & _). cbn [rest] in R. destruct (get_index_ids (live n) t) as [ids|e| |] eqn:G; (split; cbn [ds_writers ds_main ds_version]; [auto|]; split; [auto|]; split; [exact R|discriminate]).
    - destruct M as (V & R & _). split; cbn [ds_writers ds_main ds_version]; [auto|]. split; [auto|]. split; [exact R|discriminate].
    - destruct M as (V & R & _). pose proof (mkdir_rest st (index_dir t i) (kv_range snap (fst (index_bounds t i)) (snd (index_bounds t i)))
        (MIndexes n t ids ts) V W) as (V' & W' & [(PC' & D & WS)|(PC' & D)]).
      + unfold dinv. rewrite PC', V', WS. split; [auto|]. split; [auto|]. split; [|discriminate]. rewrite <- R. cbn [rest dump_indexes]. now rewrite D.
      + unfold dinv. rewrite PC'. split; [auto|]. cbn [rest dump_indexes] in R. rewrite D in R. split; [auto|]. split; [exact R|discriminate].
    - destruct M as (V & R & _). destruct (forallb w_done (ds_writers st)) eqn:D.
      + split; cbn [ds_writers ds_main ds_version]; [auto|]. split; [auto|]. split; [exact R|auto].
      + unfold dinv. rewrite PC. split; [auto|]. split; [auto|]. split; [exact R|discriminate].
    - unfold dinv. rewrite PC. auto.
  Qed.

  Lemma split_nth {A} (l : list A) i x : nth_error l i = Some x -> l = firstn i l ++ x :: skipn (S i) l.
  Proof. revert i. induction l as [|a l IH]; intros [|i]; cbn; try discriminate; [now intros [= ->]|]. intros H. f_equal. now apply IH. Qed.

  Lemma dinv_step tables st c : dinv tables st -> dinv tables (dump_step full snap live false wi st c).
  Proof.
    intros I. destruct c as [|i]; cbn [dump_step]; [now apply dinv_main|]. destruct (nth_error (ds_writers st) i) as [w|] eqn:E; [|exact I].
    destruct I as [W M]. apply split_nth in E. set (a := firstn i (ds_writers st)) in *. set (b := skipn (S i) (ds_writers st)) in *. clearbody a b.
    rewrite E in W. apply Forall_app in W as [W1 W2]. inversion W2; subst.
    assert (F : final_tree (a ++ writer_step full w :: b) = final_tree (ds_writers st)).
    { rewrite E. unfold final_tree. rewrite !flat_map_app. cbn [flat_map].
      replace (final_writer (writer_step full w)) with (final_writer w) by (unfold final_writer; now rewrite writer_step_all, writer_step_dir). reflexivity. }
    split; cbn [ds_writers ds_main ds_version].
    - apply Forall_app. split; [auto|]. constructor; [now apply writer_step_ok|auto].
    - destruct (ds_main st) as [ts|ts|n ts|n t ts|n t ids ts| |r].
      + destruct M as (_ & WS & _). rewrite WS in E. apply app_cons_not_nil in E. easy.
      + destruct M as (WS & _). rewrite WS in E. apply app_cons_not_nil in E. easy.
      + rewrite F. destruct M as (V & R & _). split; [auto|]. split; [auto|discriminate].
      + rewrite F. destruct M as (V & R & _). split; [auto|]. split; [auto|discriminate].
      + rewrite F. destruct M as (V & R & _). split; [auto|]. split; [auto|discriminate].
      + rewrite F. destruct M as (V & R & _). split; [auto|]. split; [auto|discriminate].
      + rewrite F. destruct M as (V & R & D). split; [auto|]. split; [auto|]. intros Q. specialize (D Q). rewrite E in D. rewrite forallb_app in *.
        cbn [forallb] in *. apply andb_true_iff in D as [D1 D2]. apply andb_true_iff in D2 as [D2 D3]. rewrite D1, D3, writer_step_done, D2 by auto. reflexivity.
  Qed.

  Lemma dinv_run tables sched : dinv tables (run_dump full snap live false wi tables sched).
  Proof.
    unfold run_dump. assert (I : dinv tables (DState None [] (MStart tables))) by (split; cbn; auto). revert I.
    generalize (DState None [] (MStart tables)). induction sched as [|c sched IH]; intros st I; [exact I|]. cbn [fold_left]. apply IH. now apply dinv_step.
  Qed.

  Theorem any_schedule tables sched r : ds_main (run_dump full snap live false wi tables sched) = MEnd r ->
    snd (dump full snap live false wi tables) = r /\
    (r = Ok tt -> dump full snap live false wi tables = (tree_of (run_dump full snap live false wi tables sched), Ok tt)).
  Proof.
    intros E. destruct (dinv_run tables sched) as [W M]. rewrite E in M. destruct M as (V & R & D). cbn [rest] in R. split; [now rewrite <- R|].
    intros ->. rewrite <- R. f_equal. unfold tree_of, final_tree. rewrite V. cbn [app]. unfold version_node. f_equal.
    specialize (D eq_refl). revert W D. generalize (ds_writers (run_dump full snap live false wi tables sched)). induction l as [|w l IH]; intros W D; [reflexivity|].
    inversion W; subst. cbn [forallb] in D. apply andb_true_iff in D as [D1 D2]. cbn [flat_map]. rewrite (done_tree w), IH; auto.
  Qed.
End Steps.

(** ** The directories of the goroutines *)
Section Interrupted.
  Variable full : kv -> bool.
  Variable snap : kv.
  Variable live : nat -> kv.
  Variable wi : bool.
  Hypothesis LIVE : forall n, kv_ok (live n).
  Hypothesis LEN : forall n k v, kv_get (live n) k = Some v -> 2 <= List.length k.

  Definition works (a : byte * byte) (w : writer) : Prop := w_dir w = area_dir a /\ List.concat (w_all full w) = area_items snap a /\ w_ok w.

  Definition pc_in (tables : list byte) (pc : dpc) : Prop :=
    match pc with
    | MStart ts | MVersion ts | MTables _ ts => incl ts tables
    | MIds _ t ts => In t tables /\ incl ts tables
    | MIndexes _ t ids ts => In t tables /\ incl ts tables /\ ~ In x00 ids
    | MWait | MEnd _ => True
    end.

  Definition ainv (tables : list byte) (st : dstate) : Prop :=
    pc_in tables (ds_main st) /\
    exists ars, Forall2 works ars (ds_writers st) /\ NoDup ars /\ forall a, In a ars -> In (fst a) tables.

  Lemma Forall2_snoc {A B} (R : A -> B -> Prop) l l' a b : Forall2 R l l' -> R a b -> Forall2 R (l ++ [a]) (l' ++ [b]).
  Proof. intros F H. apply Forall2_app; auto. Qed.

  Lemma Forall2_in_l {A B} (R : A -> B -> Prop) l l' a : Forall2 R l l' -> In a l -> exists b, In b l' /\ R a b.
  Proof. induction 1 as [|x y l l' H F IH]; [easy|]. intros [<-|I]; [exists y; cbn; auto|]. destruct (IH I) as [b [B1 B2]]. exists b. cbn. auto. Qed.

  Lemma nodup_snoc {A} (l : list A) a : NoDup l -> ~ In a l -> NoDup (l ++ [a]).
  Proof.
    induction l as [|x l IH]; intros N I; cbn [app]; [repeat constructor; easy|]. inversion N; subst. constructor.
    - rewrite in_app_iff. intros [H|[H|[]]]; [auto|]. apply I. now left.
    - apply IH; auto. intros H. apply I. now right.
  Qed.

  Lemma ainv_mkdir tables st a dir items next : ainv tables st -> pc_in tables next -> In (fst a) tables -> dir = area_dir a -> items = area_items snap a ->
    ainv tables (mkdir_step st dir items next).
  Proof.
    intros [P (ars & F & N & T)] PN IN -> ->. unfold mkdir_step. destruct (tree_get (tree_of st) [area_dir a]) eqn:G; split; cbn [ds_main ds_writers pc_in]; auto.
    - exists ars. auto.
    - exists (ars ++ [a]). split; [|split].
      + apply Forall2_snoc; auto. split; [reflexivity|]. split; [|discriminate]. unfold w_all, start_writer. cbn [w_files w_done w_left w_open app]. apply split_concat.
      + apply nodup_snoc; auto. intros H. destruct (Forall2_in_l _ _ _ _ F H) as (w & W & D & _).
        destruct (tree_get_some (tree_of st) [area_dir a]) as [x X]; [|congruence]. unfold tree_of. rewrite map_app. apply in_app_iff. right.
        apply (flat_top writer_tree); [intros; apply writer_top|]. exists w. auto.
      + intros b B. apply in_app_iff in B as [B|[<-|[]]]; auto.
  Qed.

  Lemma ainv_main tables st : ainv tables st -> ainv tables (main_step snap live false wi st).
  Proof.
    intros I. pose proof I as [P H]. unfold main_step. destruct (ds_main st) as [ts|ts|n [|t ts]|n t ts|n t [|i ids] ts| |r] eqn:PC; cbn [pc_in] in P.
    - split; auto.
    - destruct (ds_version st) as [v|]; [|split; auto]. destruct (Nat.ltb _ 4); split; auto.
    - split; auto. easy.
    - assert (In t tables /\ incl ts tables) as [T TS] by (split; [apply P; now left|intros x X; apply P; now right]).
      apply (ainv_mkdir tables st (t, x00)); auto. destruct wi; [split; auto|auto].
    - destruct P as [T TS]. destruct (get_index_ids_ok (live n) t (LIVE n) (LEN n)) as (ids & E & _ & IN). rewrite E. split; auto. cbn [ds_main pc_in].
      split; [auto|]. split; [auto|]. intros Z. apply IN in Z as [Z _]. now apply Z.
    - split; auto. apply P.
    - destruct P as (T & TS & Z).
      assert (I0 : Byte.eqb i x00 = false) by (apply byte_eqb_neq; intros ->; apply Z; now left).
      apply (ainv_mkdir tables st (t, i)); auto.
      + split; [auto|]. split; [auto|]. intros X. apply Z. now right.
      + unfold area_dir. cbn [fst snd]. now rewrite I0.
      + unfold area_items, bounds. cbn [fst snd]. now rewrite I0.
    - destruct (forallb w_done (ds_writers st)); [split; auto; easy|exact I].
    - exact I.
  Qed.

  Lemma ainv_step tables st c : ainv tables st -> ainv tables (dump_step full snap live false wi st c).
  Proof.
    intros I. destruct c as [|i]; cbn [dump_step]; [now apply ainv_main|]. destruct (nth_error (ds_writers st) i) as [w|] eqn:E; [|exact I].
    destruct I as [P (ars & F & N & T)]. split; [exact P|]. exists ars. split; [|auto]. cbn [ds_writers]. apply split_nth in E.
    set (a := firstn i (ds_writers st)) in *. set (b := skipn (S i) (ds_writers st)) in *. clearbody a b. rewrite E in F.
    apply Forall2_app_inv_r in F as (l1 & l2 & F1 & F2 & ->). inversion F2 as [|x y l3 l4 (D & C & O) F3]; subst. apply Forall2_app; auto. constructor; auto.
    split; [now rewrite writer_step_dir|]. split; [now rewrite writer_step_all|now apply writer_step_ok].
  Qed.

  Lemma ainv_run tables sched : ainv tables (run_dump full snap live false wi tables sched).
  Proof.
    unfold run_dump. assert (I : ainv tables (DState None [] (MStart tables))).
    { split; [apply incl_refl|]. exists []. split; [constructor|]. split; [constructor|easy]. }
    revert I. generalize (DState None [] (MStart tables)). induction sched as [|c sched IH]; intros st I; [exact I|]. cbn [fold_left]. apply IH. now apply ainv_step.
  Qed.

  Lemma pairs_of {A B} (R : A -> B -> Prop) l l' : Forall2 R l l' -> exists p, l = map fst p /\ l' = map snd p /\ Forall (fun e => R (fst e) (snd e)) p.
  Proof.
    induction 1 as [|a b l l' H F (p & -> & -> & P)]; [exists []; auto|]. exists ((a, b) :: p). cbn. auto.
  Qed.

  (** What Restore finds: for each wanted directory the files that were closed. *)
  Variable root : bytes.
  Variable want : list byte.
  Variable wiR : bool.
  Hypothesis ROOT : forall r, In r want -> contains (table_dir r) root = false.
  Hypothesis IROOT : wiR = true \/ contains (str "index") root = false.

  Definition closed (p : list ((byte * byte) * writer)) : list kv :=
    flat_map (fun e => if wanted_area want wiR (fst e) then w_files (snd e) else []) p.

  Lemma pick_writers p : Forall (fun e => works (fst e) (snd e)) p ->
    pick_ssts root want wiR (flat_map writer_tree (map snd p)) = closed p.
  Proof.
    induction 1 as [|[a w] p (D & _) F IH]; [reflexivity|]. cbn [fst snd] in *. cbn [map flat_map closed fst snd]. fold (closed p). rewrite pick_app, IH. f_equal.
    unfold writer_tree. cbn [pick_ssts]. rewrite pick_app, D. rewrite (pick_files root want wiR (area_dir a) (wanted_area want wiR a)) by (intros; now apply picked_area).
    destruct (w_open w); cbn [pick_ssts]; apply app_nil_r.
  Qed.

  Lemma closed_items a w : works a w -> exists later, area_items snap a = List.concat (w_files w) ++ later.
  Proof. intros (_ & C & _). unfold w_all in C. rewrite concat_app in C. rewrite <- C. eauto. Qed.

  Hypothesis SNAP : kv_ok snap.
  Hypothesis BOND : bond_keys snap.

  Lemma closed_apart p : Forall (fun e => works (fst e) (snd e)) p -> NoDup (map fst p) -> overlapping (closed p) = false.
  Proof.
    induction 1 as [|[a w] p W F IH]; intros N; [reflexivity|]. cbn [map fst] in N. inversion N; subst. cbn [closed flat_map]. fold (closed p).
    destruct (closed_items _ _ W) as [later L]. cbn [fst snd] in *. apply overlapping_app; auto.
    - destruct (wanted_area want wiR a); [|reflexivity]. apply overlapping_pieces. pose proof (kv_range_ok snap (fst (bounds a)) (snd (bounds a)) SNAP) as K.
      change (kv_ok (area_items snap a)) in K. rewrite L in K. now apply kv_ok_app_lt in K as [K _].
    - intros f g Hf Hg. destruct (wanted_area want wiR a); [|easy]. apply in_flat_map in Hg as [[b u] [B G]]. cbn [fst snd] in G.
      destruct (wanted_area want wiR b); [|easy]. rewrite Forall_forall in F. pose proof (F _ B) as U. destruct (closed_items _ _ U) as [later' L']. cbn [fst snd] in *.
      assert (AB : a <> b) by (intros ->; apply H1; apply (in_map fst) in B; exact B).
      assert (FI : forall x, In x f -> In x (area_items snap a)) by (intros x X; rewrite L; apply in_app_iff; left; apply in_concat; eauto).
      assert (GI : forall x, In x g -> In x (area_items snap b)) by (intros x X; rewrite L'; apply in_app_iff; left; apply in_concat; eauto).
      destruct (area_lt snap a b SNAP BOND AB) as [H|H]; [apply (overlap_lt f g)|apply (overlap_lt g f)]; auto.
  Qed.

  (** Has the goroutine of a table's rows ([i] zero) or of an index finished? *)
  Definition dir_done (st : dstate) (t i : byte) : Prop := exists w, In w (ds_writers st) /\ w_dir w = area_dir (t, i) /\ w_done w = true.

  Theorem interrupted tables sched db : kv_ok db ->
    (forall r d, In r want -> In d tables -> has_prefix (dec (b2n r)) (dec (b2n d)) = true -> In d want) ->
    let st := run_dump full snap live false wi tables sched in
    (exists e, restore_disk root (tree_of st) db want wiR = (db, Err e)) \/
    exists (db' : kv) (got : bytes -> bool), restore_disk root (tree_of st) db want wiR = (db', Ok tt) /\ kv_ok db' /\
    (forall k, kv_get db' k = if got k then kv_get snap k else kv_get db k) /\
    (forall k, got k = true -> wanted want wiR k /\ kv_get snap k <> None) /\
    (forall t i r r', got (t :: i :: r) = true -> kv_get snap (t :: i :: r') <> None -> blt r' r -> got (t :: i :: r') = true) /\
    (forall t i, dir_done st t i -> In t want -> i = x00 \/ wiR = true -> forall r, kv_get snap (t :: i :: r) <> None -> got (t :: i :: r) = true).
  Proof.
    intros KD PRE st. pose proof (ainv_run tables sched) as [_ (ars & F & N & T)]. fold st in F. destruct (pairs_of _ _ _ F) as (p & -> & WS & P).
    assert (PK : pick_ssts root want wiR (tree_of st) = closed p).
    { unfold tree_of. rewrite pick_app, WS, (pick_writers p P). destruct (ds_version st); reflexivity. }
    unfold restore_disk, restore. rewrite PK. unfold ingest. rewrite closed_apart by auto. rewrite flat_map_concat_map.
    destruct (tree_get (tree_of st) [str "VERSION"]) as [[ |buf| ]|]; try (left; eexists; reflexivity).
    destruct (Nat.ltb _ 4); [left; eexists; reflexivity|]. destruct (negb _); [left; eexists; reflexivity|].
    destruct (forallb _ want); [|left; eexists; reflexivity]. destruct (picks_broken root want wiR (tree_of st)); [left; eexists; reflexivity|]. right.
    set (es := List.concat (closed p)) in *.
    assert (IN : forall k v, In (k, v) es -> kv_get snap k = Some v /\ wanted want wiR k /\
      exists a w later, In (a, w) p /\ area_items snap a = List.concat (w_files w) ++ later /\ In (k, v) (List.concat (w_files w)) /\ wanted_area want wiR a = true /\ exists r, k = fst a :: snd a :: r).
    { intros k v I. unfold es in I. apply in_concat in I as (f & Hf & I). apply in_flat_map in Hf as [[a w] [A Hf]]. cbn [fst snd] in Hf.
      destruct (wanted_area want wiR a) eqn:W; [|easy]. rewrite Forall_forall in P. destruct (closed_items _ _ (P _ A)) as [later L]. cbn [fst snd] in L.
      assert (C : In (k, v) (List.concat (w_files w))) by (apply in_concat; eauto).
      assert (J : In (k, v) (area_items snap a)) by (rewrite L; apply in_app_iff; now left).
      apply (area_items_in snap _ _ _ SNAP BOND) in J as [G [r ->]]. split; [exact G|]. split; [|exists a, w, later; eauto 10].
      unfold wanted_area in W. apply andb_true_iff in W as [W1 W2]. apply existsb_exists in W1 as [q [R1 R2]].
      exists (fst a), (snd a), r. split; [reflexivity|]. split.
      - apply (PRE q); auto. apply T. apply (in_map fst) in A. exact A.
      - apply orb_true_iff in W2 as [W2|W2]; [left; now apply byte_eqb_eq|now right]. }
    exists (apply_ops db (map (fun e => BSet (fst e) (snd e)) es)), (fun k => existsb (fun e => beqb k (fst e)) es).
    assert (GOT : forall k, existsb (fun e => beqb k (fst e)) es = true <-> exists v, In (k, v) es).
    { intros k. rewrite existsb_exists. split.
      - intros [[x v] [I B]]. cbn [fst] in B. apply beqb_eq in B. subst x. eauto.
      - intros [v I]. exists (k, v). split; [auto|apply beqb_refl]. }
    split; [reflexivity|]. split; [apply apply_ops_ok; auto|]. split; [|split; [|split]].
    - intros k. rewrite kv_get_apply_ops by auto. rewrite (sets_effect snap es k) by (intros x v I; now apply IN in I).
      match goal with |- context [existsb ?f es] => destruct (existsb f es); reflexivity end.
    - intros k G. apply GOT in G as [v I]. destruct (IN _ _ I) as (G & W & _). split; [auto|]. rewrite G. discriminate.
    - intros t i r r' G S L. apply GOT in G as [v I]. destruct (IN _ _ I) as (_ & _ & a & w & later & A & E & C & W & [q Q]). injection Q as -> -> <-.
      destruct (kv_get snap (fst a :: snd a :: r')) as [v'|] eqn:S'; [|congruence]. apply GOT. exists v'.
      assert (J : In (fst a :: snd a :: r', v') (area_items snap a)) by (apply (area_items_in snap _ _ _ SNAP BOND); split; [auto|eexists; reflexivity]).
      rewrite E in J. apply in_app_iff in J as [J|J].
      + unfold es. apply in_concat in J as (f & Hf & J). apply in_concat. exists f. split; [|auto]. apply in_flat_map. exists (a, w). split; [auto|]. cbn [fst snd]. now rewrite W.
      + exfalso. pose proof (kv_range_ok snap (fst (bounds a)) (snd (bounds a)) SNAP) as K. change (kv_ok (area_items snap a)) in K. rewrite E in K.
        apply kv_ok_app_lt in K as (_ & _ & K). specialize (K _ _ C J). cbn [fst] in K. unfold blt in K, L. rewrite !bcmp_cons, !N.compare_refl in K.
        change (blt r r') in K. apply blt_not_le in K. apply K. now apply blt_le.
    - intros t i (w & WIN & D & DONE) TW I r S. destruct (kv_get snap (t :: i :: r)) as [v|] eqn:G; [|congruence]. apply GOT. exists v.
      rewrite WS in WIN. apply in_map_iff in WIN as [[a w'] [Q A]]. cbn [snd] in Q. subst w'.
      rewrite Forall_forall in P. pose proof (P _ A) as (D' & C & O). cbn [fst snd] in D', C, O. rewrite D in D'. apply area_dir_inj in D'. subst a.
      unfold w_all in C. rewrite DONE, app_nil_r in C.
      assert (J : In (t :: i :: r, v) (area_items snap (t, i))) by (apply (area_items_in snap _ _ _ SNAP BOND); split; [auto|eexists; reflexivity]).
      rewrite <- C in J. unfold es. apply in_concat in J as (f & Hf & J). apply in_concat. exists f. split; [|auto]. apply in_flat_map. exists ((t, i), w). split; [auto|].
      cbn [fst snd]. replace (wanted_area want wiR (t, i)) with true; [auto|]. symmetry. unfold wanted_area. cbn [fst snd]. apply andb_true_iff.
      split; [apply existsb_exists; exists t; split; [auto|apply prefix_refl]|]. apply orb_true_iff. destruct I as [-> | ->]; [now left|now right].
  Qed.
End Interrupted.

(** ** A finished dump has no broken files *)
Lemma ends_sst_version : ends_sst [str "VERSION"] = false.
Proof. reflexivity. Qed.

Lemma done_not_broken root want wiR ws v : Forall w_ok ws -> forallb w_done ws = true ->
  picks_broken root want wiR (([str "VERSION"], NFile v) :: flat_map writer_tree ws) = false.
Proof.
  intros W D. unfold picks_broken. cbn [existsb snd fst]. rewrite ends_sst_version. cbn [andb orb]. induction W as [|w ws O W IH]; [reflexivity|].
  cbn [forallb] in D. apply andb_true_iff in D as [D1 D2]. cbn [flat_map]. rewrite existsb_app, IH, orb_false_r by auto.
  unfold writer_tree. rewrite (O D1), app_nil_r. cbn [existsb snd orb]. generalize 1%N. induction (w_files w) as [|f l IHl]; intros n; [reflexivity|]. cbn [sst_files existsb snd orb]. apply IHl.
Qed.

Theorem finished full snap live wi tables sched r : ds_main (run_dump full snap live false wi tables sched) = MEnd r ->
  snd (dump full snap live false wi tables) = r /\
  (r = Ok tt -> dump full snap live false wi tables = (tree_of (run_dump full snap live false wi tables sched), Ok tt) /\
   forall root db want wiR, restore_disk root (tree_of (run_dump full snap live false wi tables sched)) db want wiR =
                            restore root (fst (dump full snap live false wi tables)) db want wiR).
Proof.
  intros E. destruct (any_schedule full snap live wi tables sched r E) as [R T]. split; [exact R|]. intros OK. specialize (T OK). split; [exact T|].
  intros root db want wiR. rewrite T. cbn [fst]. unfold restore_disk.
  replace (picks_broken root want wiR (tree_of (run_dump full snap live false wi tables sched))) with false; [now destruct (restore _ _ _ _ _) as [x [|e| |]]|].
  symmetry. destruct (dinv_run full snap live wi tables sched) as [W M]. rewrite E in M. destruct M as (V & _ & D). unfold tree_of. rewrite V. cbn [app].
  apply done_not_broken; auto. apply D. now rewrite OK.
Qed.

(** ** Dump ends *)
Section Ends.
  Variable full : kv -> bool.
  Variable snap : kv.
  Variable live : nat -> kv.
  Variable wi : bool.
  Notation step := (dump_step full snap live false wi).

  Definition reaches (st : dstate) (P : dstate -> Prop) : Prop := exists more, P (fold_left step more st).

  Lemma reaches_here st (P : dstate -> Prop) : P st -> reaches st P.
  Proof. exists []. exact H. Qed.

  Lemma reaches_more st c (P : dstate -> Prop) : reaches (step st c) P -> reaches st P.
  Proof. intros [more H]. exists (c :: more). exact H. Qed.

  Lemma reaches_trans st (P Q : dstate -> Prop) : reaches st P -> (forall st', P st' -> reaches st' Q) -> reaches st Q.
  Proof. intros [more H] N. destruct (N _ H) as [more' H']. exists (more ++ more'). now rewrite fold_left_app. Qed.

  Definition weight (w : writer) : nat := if w_done w then 0 else 1 + 2 * List.length (w_left w) + match w_open w with Some _ => 0 | None => 1 end.

  Lemma weight_step w : w_done w = false -> weight (writer_step full w) < weight w.
  Proof.
    intros D. unfold writer_step, weight. rewrite D. destruct (w_open w); cbn [w_done w_open w_left]; [|lia]. destruct (w_left w); cbn [w_done w_open w_left List.length]; [lia|].
    destruct (full _); cbn [w_done w_open w_left]; lia.
  Qed.

  Definition weights (ws : list writer) : nat := fold_right (fun w n => weight w + n) 0 ws.

  Lemma weights_app a b : weights (a ++ b) = weights a + weights b.
  Proof. induction a as [|w a IH]; [reflexivity|]. cbn [app weights fold_right]. fold (weights (a ++ b)) (weights a). lia. Qed.

  Lemma writers_end n : forall st, weights (ds_writers st) < n ->
    reaches st (fun st' => forallb w_done (ds_writers st') = true /\ ds_main st' = ds_main st).
  Proof.
    induction n as [|n IH]; intros st L; [lia|]. destruct (forallb w_done (ds_writers st)) eqn:D; [now apply reaches_here|].
    assert (X : exists i w, nth_error (ds_writers st) i = Some w /\ w_done w = false).
    { clear - D. induction (ds_writers st) as [|w l IHl]; [discriminate|]. cbn [forallb] in D. destruct (w_done w) eqn:W; [|exists 0, w; auto].
      destruct (IHl D) as (i & u & E & U). exists (S i), u. auto. }
    destruct X as (i & w & E & W). apply (reaches_more st (DWriter i)). cbn [dump_step]. rewrite E.
    apply (reaches_trans _ (fun st' => forallb w_done (ds_writers st') = true /\ ds_main st' = ds_main st)).
    - apply (IH (DState (ds_version st) (firstn i (ds_writers st) ++ writer_step full w :: skipn (S i) (ds_writers st)) (ds_main st))). cbn [ds_writers].
      rewrite (split_nth _ _ _ E) in L. rewrite weights_app in *. cbn [weights fold_right] in *. pose proof (weight_step w W). lia.
    - intros st' H. now apply reaches_here.
  Qed.

  Definition ended (st : dstate) : Prop := exists r, ds_main st = MEnd r.

  Lemma end_ended st : ended st -> reaches st ended.
  Proof. apply reaches_here. Qed.

  Lemma wait_ends st : ds_main st = MWait -> reaches st ended.
  Proof.
    intros E. eapply reaches_trans; [apply (writers_end (S (weights (ds_writers st)))); lia|]. intros st' [D M]. apply (reaches_more st' DMain). apply reaches_here.
    cbn [dump_step]. unfold main_step. rewrite M, E, D. eexists. reflexivity.
  Qed.

  Lemma mkdir_main st dir items next : ds_main (mkdir_step st dir items next) = next \/ ended (mkdir_step st dir items next).
  Proof. unfold mkdir_step. destruct (tree_get _ _); [right; eexists; reflexivity|now left]. Qed.

  Lemma indexes_end n t ts : (forall st, ds_main st = MTables (S n) ts -> reaches st ended) ->
    forall ids st, ds_main st = MIndexes n t ids ts -> reaches st ended.
  Proof.
    intros K. induction ids as [|i ids IH]; intros st E; apply (reaches_more st DMain); cbn [dump_step]; unfold main_step; rewrite E; [now apply K|].
    match goal with |- reaches (mkdir_step ?s ?d ?x ?y) _ => destruct (mkdir_main s d x y) as [H|H] end; [now apply IH|now apply end_ended].
  Qed.

  Lemma tables_end ts : forall n st, ds_main st = MTables n ts -> reaches st ended.
  Proof.
    induction ts as [|t ts IH]; intros n st E; apply (reaches_more st DMain); cbn [dump_step]; unfold main_step; rewrite E; [now apply wait_ends|].
    match goal with |- reaches (mkdir_step ?s ?d ?x ?y) _ => destruct (mkdir_main s d x y) as [H|H]; [|now apply end_ended]; generalize dependent (mkdir_step s d x y) end.
    intros st'. case wi; intros H; [|now apply (IH (S n))]. apply (reaches_more st' DMain). cbn [dump_step]. unfold main_step. rewrite H.
    destruct (get_index_ids (live n) t) as [ids|e| |]; try (apply end_ended; eexists; reflexivity). eapply (indexes_end n t ts); [apply IH|reflexivity].
  Qed.

  Lemma version_ends ts k : forall st, 5 - match ds_version st with None => 0 | Some v => S (List.length v) end <= k -> ds_main st = MVersion ts -> reaches st ended.
  Proof.
    induction k as [|k IH]; intros st L E; apply (reaches_more st DMain); cbn [dump_step]; unfold main_step; rewrite E.
    - destruct (ds_version st) as [v|]; [|lia]. destruct (Nat.ltb_spec (List.length v) 4); [lia|]. now apply (tables_end ts 0).
    - destruct (ds_version st) as [v|].
      + destruct (Nat.ltb_spec (List.length v) 4); [|now apply (tables_end ts 0)]. apply IH; [|reflexivity]. cbn [ds_version].
        rewrite firstn_length. change (List.length (be_bytes 4 data_version)) with 4. lia.
      + apply IH; [|reflexivity]. cbn [ds_version List.length]. lia.
  Qed.

  Theorem dump_ends tables sched : exists more r, ds_main (run_dump full snap live false wi tables (sched ++ more)) = MEnd r.
  Proof.
    unfold run_dump. pose (st0 := DState None [] (MStart tables)). fold st0.
    enough (R : forall st, (exists r, ds_main st = MEnd r) \/ reaches st ended).
    { destruct (R (fold_left step sched st0)) as [[r H]|[more [r H]]]; [exists [], r; now rewrite app_nil_r|exists more, r]. now rewrite fold_left_app. }
    intros st. destruct (ds_main st) as [ts|ts|n ts|n t ts|n t ids ts| |r] eqn:E; [right|right|right|right|right|right|left; eauto].
    - apply (reaches_more st DMain). cbn [dump_step]. unfold main_step. rewrite E. eapply version_ends; [apply le_n|reflexivity].
    - eapply version_ends; [apply le_n|exact E].
    - now apply (tables_end ts n).
    - apply (reaches_more st DMain). cbn [dump_step]. unfold main_step. rewrite E. destruct (get_index_ids (live n) t) as [ids|e| |]; try (apply end_ended; eexists; reflexivity).
      eapply (indexes_end n t ts); [apply tables_end|reflexivity].
    - eapply (indexes_end n t ts); [apply tables_end|exact E].
    - now apply wait_ends.
  Qed.
End Ends.
