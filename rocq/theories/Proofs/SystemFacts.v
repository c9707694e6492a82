(** Databases with several tables behave like the worlds of Spec/SystemSpec.v. *)

From Coq Require Import List NArith Lia Bool Sorting.Sorted Arith.
From Verif.Model Require Import Bytes Go Keys Pebble Index Table Scan Query ReIndex.
From Verif.Spec Require Import KeySpec StoreSpec TableSpec HistSpec ScanSpec QuerySpec ReIndexSpec SystemSpec.
From Verif.Proofs Require Import InspectRemote BytesFacts KeysFacts PebbleFacts TableFacts WriteFacts CallFacts HistFacts ReadFacts Witness TableProps ScanProps ScanTop QueryProps InterFacts ReIndexFacts.
Import ListNotations.

Lemma frame_consistent {T F} (tb : table T F) db db' fl m : consistent tb db fl m -> kv_ok db' ->
  (forall rest, kv_get db' (t_id tb :: rest) = kv_get db (t_id tb :: rest)) -> consistent tb db' fl m.
Proof.
  intros [K R C] K' E. constructor; auto.
  - destruct R as [R1 R2 R3 R4]. constructor; auto.
    + intros pk. rewrite <- R2. apply E.
    + intros rest v. change (s_id (schema_of tb)) with (t_id tb). rewrite E. apply R3.
    + intros ix rest v IN. change (s_id (schema_of tb)) with (t_id tb). rewrite E. now apply R4.
  - intros f rest v HF. rewrite E. now apply C.
Qed.

Lemma call_filter {T F} (tb : table T F) ev (EV : env_ok ev) db fl ob c w r : good_table tb ->
  run_call tb ev db fl ob c = (w, r) -> flt_le tb fl (r_flt w).
Proof.
  intros G. rewrite run_call_eq. unfold run_write.
  destruct ob as [b|].
  - pose proof (body_mono (EV:=EV) c db (b_rw b) (WSt (b_ops b) fl (t_nil tb) 0) (good_filter _ G)) as M.
    destruct (body c db (b_rw b) _) as [s' r'] eqn:E. cbn [fst w_flt] in M. intros [= <- <-]. exact M.
  - pose proof (body_mono (EV:=EV) c db false (WSt [] fl (t_nil tb) 0) (good_filter _ G)) as M.
    destruct (body c db false _) as [s' r'] eqn:E. cbn [fst w_flt] in M.
    destruct r'; [|intros [= <- <-]; exact M ..]. destruct (w_ops s'); [intros [= <- <-]; exact M|]. destruct (e_commit ev); intros [= <- <-]; exact M.
Qed.

Lemma wider_filter {T F} (tb : table T F) db fl fl' m : flt_le tb fl fl' -> consistent tb db fl m -> consistent tb db fl' m.
Proof. intros L [K R C]. constructor; auto. eapply covers_le; eauto. Qed.

Section System.
  Context {I : Type} (eq_dec : forall i j : I, {i = j} + {i <> j}) (Ty Fl : I -> Type).
  Notation sys := (sys Ty Fl).
  Notation world := (world Ty Fl).

  (** The store shows the content. *)
  Definition holds (db : kv) (fl : forall i, Fl i) (w : world) (c : content Ty) : Prop :=
    kv_ok db /\ (forall i, consistent (w_tb _ _ w i) db (fl i) (c_rows _ c i)) /\ (forall k, own_key _ _ w k -> kv_get db k = c_raw _ c k).

  Record refines (s : sys) (w : world) : Prop := {
    rf_tb : forall i, y_tb _ _ s i = w_tb _ _ w i;
    rf_ids : forall i j, t_id (w_tb _ _ w i) = t_id (w_tb _ _ w j) -> i = j;
    rf_good : forall i, good_table (w_tb _ _ w i);
    rf_now : holds (y_db _ _ s) (y_fl _ _ s) w (w_now _ _ w);
    rf_batch : match w_batch _ _ w with
               | BOpen _ c => exists b, y_b _ _ s = Some b /\ b_rw b = true /\ holds (apply_ops (y_db _ _ s) (b_ops b)) (y_fl _ _ s) w c
               | _ => True
               end
  }.

  (** What a call with the batch argument sees. *)
  Lemma seen_reads s w inb c : refines s w -> seen _ _ inb w = Some c ->
    let ob := arg _ _ inb s in
    ob <> NilBatch /\ readable (batch_of ob) /\ holds (view (y_db _ _ s) (batch_of ob)) (y_fl _ _ s) w c.
  Proof.
    intros R. unfold seen, arg. pose proof (rf_batch _ _ R) as B. destruct inb.
    - destruct (w_batch _ _ w) as [|c'|]; try discriminate. intros [= <-]. destruct B as (b & -> & RW & H). split; [discriminate|]. split; [exact RW|exact H].
    - intros [= <-]. split; [discriminate|]. split; [exact Logic.I|exact (rf_now _ _ R)].
  Qed.

  Lemma table_reads s w inb c i : refines s w -> seen _ _ inb w = Some c ->
    reads (w_tb _ _ w i) (y_db _ _ s) (y_fl _ _ s i) (arg _ _ inb s) (c_rows _ c i).
  Proof.
    intros R S. destruct (seen_reads s w inb c R S) as (N & RD & K & H & _). constructor; auto. exact (proj1 (rf_now _ _ R)).
  Qed.

  Lemma read_ok fuel s w inb c r : refines s w -> seen _ _ inb w = Some c -> proper_read _ _ fuel w c inb r ->
    right_read _ _ w c r (run_read _ _ fuel s (arg _ _ inb s) r).
  Proof.
    intros R S P. destruct r as [i x|i x|i ev l|i ev idx sel rv|i ev srt q|k]; cbn [proper_read right_read run_read] in *;
      rewrite ?(rf_tb _ _ R); try (pose proof (table_reads s w inb c i R S) as RD; pose proof (rf_good _ _ R i) as G; destruct (RD) as [K N RW CN]; destruct (CN) as [KV RP CV]).
    - f_equal. apply (get_point_eq (LAW:=good_lawful _ G)); auto. intros y v. apply (good_ser _ G).
    - f_equal. apply (exist_eq (LAW:=good_lawful _ G)); auto.
    - destruct P as [EV NE]. f_equal. apply points_positional; auto.
    - destruct P as (EV & Q & PF & IN & EX & FU). destruct (t_multi _ G ev EV _ _ _ _ RD idx sel IN PF Q EX) as (l & SL & _ & RUN).
      exists l. split; auto. f_equal. apply (RUN rv fuel []). auto.
    - destruct P as (EV & Q & PF & SRT & O & L & PARTS & CASE). unfold query_rows. destruct (PARTS q (or_introl eq_refl)) as (IN & EX & FU).
      destruct (q_inter q) as [|q1 qs] eqn:QI.
      + destruct (q_less q) as [less|] eqn:QL.
        * destruct (query_order _ G ev EV srt _ _ _ _ RD PF Q q less SRT IN EX QI QL O L) as (l & s' & a & SL & OD & BH & RUN).
          eexists. split; [|f_equal; apply RUN; auto]. exists l. split; auto. exists s', a. auto.
        * destruct (q_after q) as [a|] eqn:QA.
          -- destruct CASE as (QR & AF & SS). destruct (t_multi _ G ev EV _ _ _ _ RD (q_index q) (q_sel q) IN PF Q EX) as (l & SL & _ & _).
             eexists. split; [|f_equal; eapply query_after; eauto]. exists l. auto.
          -- destruct (query_plain _ G ev EV srt _ _ _ _ RD PF Q q IN EX QI QL QA O L) as (l & SL & RUN).
             eexists. split; [|f_equal; apply RUN; left; unfold dir; destruct (q_rev q); rewrite ?rev_length; auto].
             exists l. split; auto. exists (keep (q_filter q) (dir (q_rev q) l)), (keep (q_filter q) (dir (q_rev q) l)). split; [reflexivity|]. split; reflexivity.
      + destruct CASE as (-> & PP & AF). cbn [seen] in S. injection S as <-. rewrite <- QI in *.
        assert (NE : q_inter q <> []) by (rewrite QI; discriminate).
        destruct (query_intersect _ G ev EV srt _ _ _ _ RD Q (c_rows _ (w_now _ _ w) i) CN q SRT) as (ls & b & s' & a & F2 & IT & OD & BH & RUN); auto.
        { intros x IX. destruct (PARTS x IX) as (? & ? & _). auto. }
        eexists. split; [|f_equal; apply RUN].
        * rewrite QI. rewrite <- QI. exists ls, b, s', a. auto.
        * intros r IR. apply IT in IR. inversion F2 as [|? l1 ? ? SL _]; subst. inversion IR as [|? ? I1 _]; subst.
          eapply listings_stored; eauto.
        * intros l IL. destruct (rel_in _ _ _ _ F2 IL) as (x & IX & SL). apply (PARTS x IX). exact SL.
    - destruct (seen_reads s w inb c R S) as (N & RD & K & _ & RAW). rewrite <- RAW by auto. unfold db_get. destruct (batch_of (arg _ _ inb s)) as [b|]; [|reflexivity].
      cbn in RD. rewrite RD. reflexivity.
  Qed.

  (** One table's keys are not another's. *)
  Lemma frame_other (w : world) (s : sys) i j db db' : refines s w -> i <> j ->
    (forall k, (forall rest, k <> t_id (w_tb _ _ w i) :: rest) -> kv_get db' k = kv_get db k) ->
    forall rest, kv_get db' (t_id (w_tb _ _ w j) :: rest) = kv_get db (t_id (w_tb _ _ w j) :: rest).
  Proof. intros R N E rest. apply E. intros rest' [= EQ _]. apply N. symmetry. now apply (rf_ids _ _ R). Qed.

  Lemma outside_id {T} (sc : schema T) db db' : same_outside sc db db' ->
    forall k, (forall rest, k <> s_id sc :: rest) -> kv_get db' k = kv_get db k.
  Proof. intros O k N. apply O. intros (i & rest & -> & _). now apply (N (i :: rest)). Qed.

  Lemma holds_write (s : sys) (w : world) db db' fl i fl' c m' : refines s w -> holds db fl w c ->
    consistent (w_tb _ _ w i) db' fl' m' -> same_outside (schema_of (w_tb _ _ w i)) db db' ->
    holds db' (upd eq_dec (P:=Fl) fl i fl') w (with_rows eq_dec _ c i m').
  Proof.
    intros R (K & H & RAW) C O. split; [exact (cons_ok _ _ _ _ C)|]. split.
    - intros j. unfold with_rows. cbn [c_rows]. unfold upd. destruct (eq_dec i j) as [<-|N]; [exact C|].
      eapply frame_consistent; [apply H|exact (cons_ok _ _ _ _ C)|]. eapply frame_other; eauto. apply (outside_id (schema_of (w_tb _ _ w i))). exact O.
    - intros k OW. cbn [with_rows c_raw]. rewrite <- RAW by auto. eapply (outside_id (schema_of (w_tb _ _ w i))); eauto. intros rest. apply OW.
  Qed.

  Lemma holds_filter (w : world) db fl i fl' c : holds db fl w c -> flt_le (w_tb _ _ w i) (fl i) fl' -> holds db (upd eq_dec (P:=Fl) fl i fl') w c.
  Proof.
    intros (K & H & RAW) L. split; auto. split; auto. intros j. unfold upd. destruct (eq_dec i j) as [<-|N]; cbn; auto.
    eapply wider_filter; eauto.
  Qed.

  Lemma holds_raw (w : world) db fl c o k v : holds db fl w c -> own_key _ _ w k ->
    (forall k', kv_get (apply_op db o) k' = if beqb k' k then v else kv_get db k') ->
    holds (apply_op db o) fl w (with_raw _ c k v).
  Proof.
    intros (K & H & RAW) OW E. pose proof (apply_op_ok db o K) as K'. split; auto. split.
    - intros i. eapply frame_consistent; eauto. intros rest. rewrite E. destruct (beqb (t_id (w_tb _ _ w i) :: rest) k) eqn:B; auto. apply beqb_eq in B. exfalso. now apply (OW i rest).
    - intros k' OW'. rewrite E. cbn [with_raw c_raw]. destruct (beqb k' k); auto.
  Qed.

  Lemma raw_step (s : sys) (w : world) inb o k v s' x : refines s w -> own_key _ _ w k -> seen _ _ inb w <> None -> (inb = false -> w_batch _ _ w = BNone _) ->
    (forall db k', kv_ok db -> kv_get (apply_op db o) k' = if beqb k' k then v else kv_get db k') ->
    run_raw _ _ s inb o = (s', x) ->
    x = AWrite _ (Ok tt) /\ refines s' (leave _ _ inb w (option_map (fun ct => with_raw _ ct k v) (seen _ _ inb w))).
  Proof.
    intros R OW SE DB E. destruct R as [TB ID GD NOW BT]. unfold run_raw, seen, leave in *. destruct inb.
    - destruct (w_batch _ _ w) as [|c|] eqn:WB; try easy. destruct BT as (b & Y & RW & H). rewrite Y. intros [= <- <-]. split; auto.
      constructor; cbn [y_db y_tb y_fl y_b w_tb w_now w_batch option_map]; auto.
      eexists. split; [reflexivity|]. split; [exact RW|]. cbn [b_ops]. rewrite apply_ops_app. cbn [apply_ops fold_left].
      apply (holds_raw w (apply_ops (y_db _ _ s) (b_ops b))); auto. intros k'. apply E. exact (proj1 H).
    - intros [= <- <-]. split; auto. constructor; cbn [y_db y_tb y_fl y_b w_tb w_now w_batch option_map]; auto.
      + apply holds_raw; auto. intros k'. apply E. exact (proj1 NOW).
      + now rewrite DB.
  Qed.

  Lemma step_ok fuel s w o s' x : refines s w -> proper _ _ fuel w o -> run_op eq_dec _ _ fuel s o = (s', x) ->
    right _ _ w o x /\ refines s' (next eq_dec _ _ w o x).
  Proof.
    intros R P E. destruct o as [inb i ev c|inb k v|inb k|inb r|i ev idxs| |ok| ].
    - cbn [proper] in P. destruct P as (EV & ct & SE & DB & AD). cbn [run_op] in E. rewrite (rf_tb _ _ R) in E.
      pose proof (rf_good _ _ R i) as G. destruct inb.
      + pose proof (rf_batch _ _ R) as B. cbn [seen] in SE. destruct (w_batch _ _ w) as [|c'|] eqn:WB; try discriminate. injection SE as ->.
        destruct B as (b & Y & RW & H). rewrite Y in E. pose proof (rf_now _ _ R) as NOW. destruct NOW as (K & NOW).
        assert (CN : consistent (w_tb _ _ w i) (view (y_db _ _ s) (Some b)) (y_fl _ _ s i) (c_rows _ ct i)).
        { exact (proj1 (proj2 H) i). }
        destruct (batch_step _ G ev c (y_db _ _ s) (y_fl _ _ s i) b (c_rows _ ct i) EV K RW CN AD) as (wr & rr & b' & RC & RDB & RB & RW' & OUT & QU).
        rewrite RC in E. injection E as <- <-. pose proof (call_filter _ ev EV _ _ _ _ _ _ G RC) as FL.
        cbn [right next seen]. rewrite WB. split.
        * exists ct, rr. split; auto. split; auto. split; auto. destruct OUT as [[e ->]|(-> & _ & _ & SU)]; eauto.
        * assert (RN : holds (y_db _ _ s) (upd eq_dec (P:=Fl) (y_fl _ _ s) i (r_flt wr)) w (w_now _ _ w)) by (apply holds_filter; auto; split; auto).
          constructor; cbn [y_db y_tb y_fl y_b]; destruct rr as [[]| | |]; cbn [leave w_tb w_now w_batch]; try rewrite RDB; try apply R; auto.
          destruct OUT as [[e [=]]|(_ & CN' & SO & SU)]. exists b'. split; [exact RB|]. split; [exact RW'|].

          eapply (holds_write s w (apply_ops (y_db _ _ s) (b_ops b))); eauto.
      + specialize (DB eq_refl). cbn [seen] in SE. injection SE as <-. pose proof (rf_now _ _ R) as NOW.
        destruct (call_step _ G ev c (y_db _ _ s) (y_fl _ _ s i) _ EV (proj1 (proj2 NOW) i) AD) as (wr & rr & RC & OUT & SO & CN & QU).
        rewrite RC in E. injection E as <- <-.
        cbn [right next seen]. split.
        * eexists _, rr. split; [reflexivity|]. split; auto. split; auto. destruct OUT as [(e & -> & _)|(-> & _ & SU)]; eauto.
        * assert (OK : rr = Ok tt \/ exists e, rr = Err e) by (destruct OUT as [(e & -> & _)|(-> & _)]; eauto).
          constructor; cbn [y_db y_tb y_fl y_b]; destruct OK as [->|[e ->]]; cbn [leave w_tb w_now w_batch]; try apply R; rewrite ?DB; auto.
          -- eapply (holds_write s w (y_db _ _ s)); eauto.
          -- destruct OUT as [(_ & _ & ->)|([=] & _)]. apply holds_filter; auto. eapply call_filter; eauto.
    - destruct P as (OW & SE & DB). cbn [run_op] in E. eapply raw_step in E; eauto. intros db k' _. apply kv_get_set.
    - destruct P as (OW & SE & DB). cbn [run_op] in E. eapply raw_step in E; eauto. intros db k' K. now apply kv_get_del.
    - destruct P as (ct & SE & PR). cbn [run_op] in E. injection E as <- <-. cbn [right next]. split; auto. exists ct. split; auto. eapply read_ok; eauto.
    - destruct P as (WB & LAW & WR & FF & ROW). cbn [run_op] in E. rewrite (rf_tb _ _ R) in E. pose proof (rf_good _ _ R i) as G. pose proof (rf_now _ _ R) as (K & H & RAW).
      destruct (add_index_consistent (w_tb _ _ w i) ev (y_db _ _ s) (y_fl _ _ s i) (c_rows _ (w_now _ _ w) i) idxs LAW) as (db' & RUN & CN & FR); auto.
      { intros r v. apply (good_ser _ G). }
      rewrite RUN in E. injection E as <- <-. cbn [right next xs_map]. split; auto.
      assert (FR' : forall k, (forall rest, k <> t_id (w_tb _ _ w i) :: rest) -> kv_get db' k = kv_get (y_db _ _ s) k).
      { intros k N. apply FR. intros (ix & rest & _ & ->). now apply (N (ix_id ix :: rest)). }
      assert (ID : forall j, t_id (upd eq_dec (P:=fun i => table (Ty i) (Fl i)) (w_tb _ _ w) i (with_indexes (w_tb _ _ w i) (t_indexes (w_tb _ _ w i) ++ idxs)) j) = t_id (w_tb _ _ w j)).
      { intros j. unfold upd. destruct (eq_dec i j) as [<-|N]; reflexivity. }
      constructor; cbn [y_db y_tb y_fl y_b w_tb w_now w_batch].
      + intros j. unfold upd. destruct (eq_dec i j) as [<-|N]; [reflexivity|]. apply (rf_tb _ _ R).
      + intros j j'. rewrite !ID. apply (rf_ids _ _ R).
      + intros j. unfold upd. destruct (eq_dec i j) as [<-|N]; [|apply (rf_good _ _ R)]. cbn [eq_rect]. destruct G as [GL GS GF]. constructor; auto.
      + split; [exact (cons_ok _ _ _ _ CN)|]. split.
        * intros j. cbn [w_tb]. unfold upd. destruct (eq_dec i j) as [<-|N]; [exact CN|]. eapply frame_consistent; [apply H|exact (cons_ok _ _ _ _ CN)|].
          eapply frame_other; eauto.
        * intros k OW. rewrite FR'; [apply RAW|]; [intros j rest; specialize (OW j rest)|intros rest; specialize (OW i rest)]; cbn [w_tb] in OW; rewrite ID in OW; exact OW.
      + now rewrite WB.
    - cbn [proper] in P. cbn [run_op] in E. injection E as <- <-. cbn [right next]. split; auto. destruct R as [TB ID GD NOW BT].
      constructor; cbn [y_db y_tb y_fl y_b w_tb w_now w_batch]; auto. eexists. split; [reflexivity|]. split; [reflexivity|]. exact NOW.
    - destruct P as (c & WB). destruct R as [TB ID GD NOW BT]. rewrite WB in BT. destruct BT as (b & Y & RW & H). cbn [run_op] in E. rewrite Y in E.
      destruct ok; [|destruct (b_ops b) eqn:O]; cbn [orb] in E; injection E as <- <-; cbn [right next]; rewrite WB; (split; [auto|]);
        constructor; cbn [y_db y_tb y_fl y_b w_tb w_now w_batch]; auto.
    - cbn [run_op] in E. injection E as <- <-. cbn [right next]. split; auto. destruct R as [TB ID GD NOW BT].
      constructor; cbn [y_db y_tb y_fl y_b w_tb w_now w_batch]; auto.
  Qed.

  Lemma run_ok fuel l : forall s w, refines s w -> all_right eq_dec _ _ fuel w (run_ops eq_dec _ _ fuel s l).
  Proof.
    induction l as [|o l IH]; intros s w R; cbn [run_ops all_right]; auto.
    destruct (run_op eq_dec _ _ fuel s o) as [s' x] eqn:E. cbn [all_right]. intros P. destruct (step_ok fuel s w o s' x R P E) as [OK R']. split; auto.
  Qed.

  (** From a new database. *)
  Lemma system_ok fuel (tb : forall i, table (Ty i) (Fl i)) fl l : (forall i, good_table (tb i)) -> (forall i j, t_id (tb i) = t_id (tb j) -> i = j) ->
    all_right eq_dec _ _ fuel (World _ _ tb (empty _) (BNone _)) (run_ops eq_dec _ _ fuel (Sys _ _ [] tb fl None) l).
  Proof.
    intros G ID. apply run_ok. constructor; cbn [y_db y_tb y_fl y_b w_tb w_now w_batch]; auto.
    split; [constructor|]. split; auto. intros i. constructor; [constructor|apply Rep_empty|apply covers_empty].
  Qed.

  (** From any consistent one. *)
  Lemma system_from fuel (tb : forall i, table (Ty i) (Fl i)) db fl c l : (forall i, good_table (tb i)) -> (forall i j, t_id (tb i) = t_id (tb j) -> i = j) ->
    kv_ok db -> (forall i, consistent (tb i) db (fl i) (c_rows _ c i)) ->
    (forall k, own_key _ _ (World _ _ tb c (BNone _)) k -> kv_get db k = c_raw _ c k) ->
    all_right eq_dec _ _ fuel (World _ _ tb c (BNone _)) (run_ops eq_dec _ _ fuel (Sys _ _ db tb fl None) l).
  Proof. intros G ID K H RAW. apply run_ok. constructor; cbn [y_db y_tb y_fl y_b w_tb w_now w_batch]; auto. split; auto. Qed.
End System.
