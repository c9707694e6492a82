(** Databases with several open batches behave like the worlds of Spec/BatchesSpec.v. *)

From Coq Require Import List NArith Lia Bool Sorting.Sorted Arith.
From Verif.Model Require Import Bytes Go Keys Pebble Index Table Scan Query ReIndex.
From Verif.Spec Require Import KeySpec StoreSpec TableSpec HistSpec ScanSpec QuerySpec ReIndexSpec SystemSpec BatchesSpec.
From Verif.Proofs Require Import InspectRemote BytesFacts KeysFacts PebbleFacts TableFacts WriteFacts CallFacts LocalFacts FilterSim HistFacts ReadFacts ConcurFacts Witness ReIndexFacts SystemFacts.
Import ListNotations.

(** ** Rep and equal contents *)

Lemma Rep_ext {T} (sc : schema T) db m m' : (forall p, m p = m' p) -> Rep sc db m -> Rep sc db m'.
Proof.
  intros E [R1 R2 R3 R4]. constructor.
  - intros pk r. rewrite <- E. apply R1.
  - intros pk. rewrite <- E. apply R2.
  - exact R3.
  - intros ix rest v IN. rewrite (R4 ix rest v IN). split; intros (V & r & M & H); (split; [exact V|]); exists r; [rewrite <- E|rewrite E]; auto.
Qed.

Lemma frame_rep {T F} (tb : table T F) db db' m : Rep (schema_of tb) db m ->
  (forall rest, kv_get db' (t_id tb :: rest) = kv_get db (t_id tb :: rest)) -> Rep (schema_of tb) db' m.
Proof.
  intros [R1 R2 R3 R4] E. constructor; auto.
  - intros pk. rewrite <- R2. apply E.
  - intros rest v. change (s_id (schema_of tb)) with (t_id tb). rewrite E. apply R3.
  - intros ix rest v IN. change (s_id (schema_of tb)) with (t_id tb). rewrite E. now apply R4.
Qed.

(** ** A call on a batch does the same to every database with the same rows under its primary keys *)

Lemma no_filter_good {T F} (tb : table T F) : good_table tb -> good_table (no_filter tb).
Proof. intros [L S O]. constructor; [destruct L; constructor; auto|exact S|]. unfold filter_ok in *. intros f E. discriminate E. Qed.

Lemma call_stable {T F} (tb : table T F) (G : good_table tb) ev (EV : env_ok ev) c db fl b w b' :
  b_rw b = true -> kv_ok db -> covers tb fl db -> ops_covered tb fl (b_ops b) ->
  run_call tb ev db fl (Some b) c = (w, Ok tt) -> Table.r_batch w = Some b' ->
  forall db' m', kv_ok db' -> (forall r, In r (rows_of c) -> kv_get db (data_key tb r) = kv_get db' (data_key tb r)) ->
    Rep (schema_of tb) (apply_ops db' (b_ops b)) m' -> admissible (schema_of tb) m' c ->
    Rep (schema_of tb) (apply_ops db' (b_ops b')) (effect (schema_of tb) m' c) /\
    same_outside (schema_of tb) (apply_ops db' (b_ops b)) (apply_ops db' (b_ops b')).
Proof.
  intros RW K CV OC RC RB db' m' K' AG RP AD. pose proof (no_filter_good tb G) as G0. pose proof (good_lawful _ G) as LAW.
  pose proof (call_sim (LAW:=LAW) (EV:=EV) (good_filter _ G) c db fl fl (Some b) K CV) as S. rewrite RC in S.
  assert (H : exists w0, run_call (no_filter tb) ev db' fl (Some b) c = (w0, Ok tt) /\ Table.r_batch w0 = Some b').
  { rewrite run_call_eq in S |- *. unfold run_write in *. rewrite RW in *.
    rewrite <- (body_local (LAW:=good_lawful _ G0) (EV:=EV) c db db' true) by auto.
    destruct (body (tb:=no_filter tb) (ev:=ev) c db true _) as [s0 r0]. destruct S as (E1 & _ & E2 & _); [intros ? [= <-]; exact OC|]. subst r0.
    eexists. split; [reflexivity|]. cbn [Table.r_batch] in *. congruence. }
  destruct H as (w0 & RC0 & RB0).
  destruct (batch_step _ G0 ev c db' fl b m' EV K' RW) as (w1 & r1 & b1 & RC1 & _ & RB1 & _ & OUT & _).
  { constructor; [apply apply_ops_ok; auto|exact RP|]. intros f rest v E. discriminate E. }
  { exact AD. }
  rewrite RC0 in RC1. injection RC1 as <- <-. assert (b1 = b') as -> by congruence.
  destruct OUT as [[e [=]]|(_ & CN & SO & _)]. split; [exact (cons_rep _ _ _ _ CN)|exact SO].
Qed.

(** Operations on one table's keys do not concern another's filter. *)
Lemma other_covered {T F T' F'} (tb : table T F) (tb' : table T' F') (LAW : lawful tb) ev (EV : env_ok ev) db fl b c w r b' fl' :
  t_id tb <> t_id tb' -> run_call tb ev db fl (Some b) c = (w, r) -> Table.r_batch w = Some b' ->
  ops_covered tb' fl' (b_ops b) -> ops_covered tb' fl' (b_ops b').
Proof.
  intros N RC RB OC. rewrite run_call_eq in RC. unfold run_write in RC.
  pose proof (body_ext (LAW:=LAW) (EV:=EV) c db (b_rw b) (WSt (b_ops b) fl (t_nil tb) 0)) as X. destruct (body c db (b_rw b) _) as [s' r'].
  injection RC as <- <-. cbn [Table.r_batch] in RB. injection RB as <-. cbn [b_ops fst w_ops] in *. destruct X as (os & -> & IN).
  intros f rest v E H. apply in_app_or in H as [H|H]; [eapply OC; eauto|]. rewrite Forall_forall in IN. specialize (IN _ H). cbn [op_in] in IN.
  destruct IN as (i & rest' & [= E' _] & _). exfalso. apply N. symmetry. exact E'.
Qed.

Section Batches.
  Context {I : Type} (eq_dec : forall i j : I, {i = j} + {i <> j}) (Ty Fl : I -> Type).
  Notation msys := (msys Ty Fl).
  Notation mworld := (mworld Ty Fl).
  Notation content := (content Ty).
  Notation changes := (changes Ty).
  Notation tables := (forall i, table (Ty i) (Fl i)).

  Definition own (tb : tables) (k : bytes) : Prop := forall i rest, k <> t_id (tb i) :: rest.

  (** The store shows the content; the filters are left aside. *)
  Definition shows (tb : tables) (db : kv) (c : content) : Prop :=
    kv_ok db /\ (forall i, Rep (schema_of (tb i)) db (c_rows _ c i)) /\ (forall k, own tb k -> kv_get db k = c_raw _ c k).

  Definition same_content (c c' : content) : Prop := (forall i p, c_rows _ c i p = c_rows _ c' i p) /\ (forall k, c_raw _ c k = c_raw _ c' k).

  Lemma shows_ext tb db c c' : same_content c c' -> shows tb db c -> shows tb db c'.
  Proof. intros [E1 E2] (K & R & W). split; auto. split; [intros i; eapply Rep_ext; eauto|intros k O; rewrite <- E2; auto]. Qed.

  (** The operations make the changes, whatever is committed elsewhere. *)
  Definition stable (tb : tables) (now : content) (ch : changes) (os : list bop) : Prop :=
    forall db c, shows tb db c -> (forall i p, ch_rows _ ch i p <> None -> c_rows _ c i p = c_rows _ now i p) -> shows tb (apply_ops db os) (over _ c ch).

  Definition apart (a b : changes) : Prop :=
    (forall i p, ch_rows _ a i p <> None -> ch_rows _ b i p = None) /\ (forall k, ch_raw _ a k <> None -> ch_raw _ b k = None).

  Record rep (s : msys) (w : mworld) : Prop := {
    rp_tb : forall i, z_tb _ _ s i = v_tb _ _ w i;
    rp_ids : forall i j, t_id (v_tb _ _ w i) = t_id (v_tb _ _ w j) -> i = j;
    rp_good : forall i, good_table (v_tb _ _ w i);
    rp_now : shows (v_tb _ _ w) (z_db _ _ s) (v_now _ _ w);
    rp_cov : forall i, covers (v_tb _ _ w i) (z_fl _ _ s i) (z_db _ _ s);
    rp_open : forall n ch, v_bs _ _ w n = SOpen _ ch -> exists b, z_bs _ _ s n = Some b /\ b_rw b = true /\
                (forall i, ops_covered (v_tb _ _ w i) (z_fl _ _ s i) (b_ops b)) /\ stable (v_tb _ _ w) (v_now _ _ w) ch (b_ops b);
    rp_apart : forall n m a b, n <> m -> v_bs _ _ w n = SOpen _ a -> v_bs _ _ w m = SOpen _ b -> apart a b
  }.

  Lemma stable_now s w n ch : rep s w -> v_bs _ _ w n = SOpen _ ch -> exists b, z_bs _ _ s n = Some b /\ b_rw b = true /\
    shows (v_tb _ _ w) (apply_ops (z_db _ _ s) (b_ops b)) (over _ (v_now _ _ w) ch) /\
    forall i, covers (v_tb _ _ w i) (z_fl _ _ s i) (apply_ops (z_db _ _ s) (b_ops b)).
  Proof.
    intros R O. destruct (rp_open _ _ R n ch O) as (b & Z & RW & OC & ST). exists b. split; auto. split; auto. split.
    - apply ST; auto. exact (rp_now _ _ R).
    - intros i. apply covers_apply; auto. { exact (proj1 (rp_now _ _ R)). } exact (rp_cov _ _ R i).
  Qed.

  (** ** Reading *)

  Lemma mread_ok fuel s w who c r : rep s w -> mseen _ _ who w = Some c ->
    proper_read Ty Fl fuel (table_world _ _ w) c (match who with Some _ => true | None => false end) r ->
    right_read Ty Fl (table_world _ _ w) c r (run_read Ty Fl fuel (Sys Ty Fl (z_db _ _ s) (z_tb _ _ s) (z_fl _ _ s) None) (marg _ _ who s) r).
  Proof.
    intros R S P. pose proof (rp_now _ _ R) as (K & RN & RAW).
    assert (NOW : holds Ty Fl (z_db _ _ s) (z_fl _ _ s) (table_world _ _ w) (v_now _ _ w)).
    { split; auto. split; [|exact RAW]. intros i. constructor; [exact K|exact (RN i)|exact (rp_cov _ _ R i)]. }
    destruct who as [n|]; cbn [mseen] in S.
    - destruct (v_bs _ _ w n) as [|ch|] eqn:VB; try discriminate. injection S as <-.
      destruct (stable_now s w n ch R VB) as (b & Z & RW & (K2 & R2 & RAW2) & CV2).
      set (s0 := Sys Ty Fl (z_db _ _ s) (z_tb _ _ s) (z_fl _ _ s) (Some b)).
      set (w0 := World Ty Fl (v_tb _ _ w) (v_now _ _ w) (BOpen _ (over _ (v_now _ _ w) ch))).
      assert (R0 : refines Ty Fl s0 w0).
      { constructor; [apply (rp_tb _ _ R)|apply (rp_ids _ _ R)|apply (rp_good _ _ R)|exact NOW|]. exists b. split; [reflexivity|]. split; [exact RW|].
        split; auto. split; [|exact RAW2]. intros i. constructor; [exact K2|exact (R2 i)|exact (CV2 i)]. }
      pose proof (read_ok Ty Fl fuel s0 w0 true _ r R0 eq_refl P) as H. unfold marg. rewrite Z. exact H.
    - injection S as <-. set (s0 := Sys Ty Fl (z_db _ _ s) (z_tb _ _ s) (z_fl _ _ s) None).
      assert (R0 : refines Ty Fl s0 (table_world _ _ w)).
      { constructor; [apply (rp_tb _ _ R)|apply (rp_ids _ _ R)|apply (rp_good _ _ R)|exact NOW|exact Logic.I]. }
      exact (read_ok Ty Fl fuel s0 (table_world _ _ w) false _ r R0 eq_refl P).
  Qed.

  (** ** Writing *)

  Lemma put_same {A} (f : nat -> A) n x : put_at f n x n = x.
  Proof. unfold put_at. now rewrite Nat.eqb_refl. Qed.
  Lemma put_other {A} (f : nat -> A) n x m : m <> n -> put_at f n x m = f m.
  Proof. unfold put_at. destruct (Nat.eqb_spec m n); congruence. Qed.

  Lemma about_pk (w : mworld) i c p : about _ _ w i c p = true <-> has_pk (v_tb _ _ w i) c p.
  Proof.
    unfold about, has_pk. rewrite existsb_exists. split.
    - intros (r & IN & E). apply beqb_eq in E. exists r. auto.
    - intros (r & IN & <-). exists r. split; auto. apply beqb_refl.
  Qed.

  (** The content after a call, in two ways. *)
  Lemma call_same (w : mworld) (c c0 : content) i cl : wf (v_tb _ _ w i) (c_rows _ c i) -> wf (v_tb _ _ w i) (c_rows _ c0 i) ->
    admissible (schema_of (v_tb _ _ w i)) (c_rows _ c i) cl -> admissible (schema_of (v_tb _ _ w i)) (c_rows _ c0 i) cl ->
    (forall p, about _ _ w i cl p = true -> c_rows _ c i p = c_rows _ c0 i p) ->
    same_content (with_rows eq_dec _ c i (effect (schema_of (v_tb _ _ w i)) (c_rows _ c i) cl)) (over _ c (call_changes eq_dec _ _ w c0 i cl)).
  Proof.
    intros W W0 A A0 E. split; [|reflexivity]. intros j p. unfold with_rows, over, call_changes. cbn [c_rows ch_rows]. unfold upd.
    destruct (eq_dec i j) as [<-|N]; [|reflexivity]. cbn [eq_rect]. destruct (about _ _ w i cl p) eqn:B.
    - apply effect_at; auto.
    - apply effect_out; auto. intros H. apply about_pk in H. congruence.
  Qed.

  Lemma over_then (c : content) a b : same_content (over _ (over _ c a) b) (over _ c (then_ch _ a b)).
  Proof.
    split; intros; cbn [over then_ch c_rows c_raw ch_rows ch_raw]; [destruct (ch_rows _ b i p)|destruct (ch_raw _ b k)]; reflexivity.
  Qed.

  Lemma same_trans a b c : same_content a b -> same_content b c -> same_content a c.
  Proof. intros [A1 A2] [B1 B2]. split; intros; [rewrite A1; apply B1|rewrite A2; apply B2]. Qed.

  Lemma shows_write (tb : tables) db db' i c m' : (forall i j, t_id (tb i) = t_id (tb j) -> i = j) -> shows tb db c -> kv_ok db' ->
    Rep (schema_of (tb i)) db' m' -> same_outside (schema_of (tb i)) db db' -> shows tb db' (with_rows eq_dec _ c i m').
  Proof.
    intros ID (K & H & RAW) K' RP O. split; auto. split.
    - intros j. unfold with_rows. cbn [c_rows]. unfold upd. destruct (eq_dec i j) as [<-|N]; [exact RP|].
      apply (frame_rep (tb j) db); [apply H|]. intros rest. apply (outside_id _ _ _ O). intros rest' [= EQ _]. apply N. symmetry. now apply ID.
    - intros k OW. cbn [with_rows c_raw]. rewrite <- RAW by auto. apply (outside_id _ _ _ O). intros rest. apply OW.
  Qed.

  Lemma shows_raw (tb : tables) db c o : shows tb db c -> (forall k, hits o k = true -> own tb k) ->
    shows tb (apply_op db o) (over _ c (raw_changes _ o)).
  Proof.
    intros (K & H & RAW) OW. pose proof (apply_op_ok db o K) as K'.
    assert (E : forall k, kv_get (apply_op db o) k = if hits o k then left_by o else kv_get db k).
    { intros k. destruct o as [k' v|k'|lo hi]; cbn [apply_op hits left_by]; [apply kv_get_set|now apply kv_get_del|now rewrite kv_get_del_range]. }
    split; auto. split.
    - intros i. apply (frame_rep (tb i) db); [exact (H i)|]. intros rest. rewrite E. destruct (hits o (t_id (tb i) :: rest)) eqn:B; auto. exfalso. exact (OW _ B i rest eq_refl).
    - intros k O. rewrite E. cbn [over c_raw raw_changes ch_raw]. destruct (hits o k); auto.
  Qed.

  (** What is committed elsewhere does not disturb a batch. *)
  Lemma stable_other tb now now' ch os : stable tb now ch os -> (forall i p, ch_rows _ ch i p <> None -> c_rows _ now' i p = c_rows _ now i p) -> stable tb now' ch os.
  Proof. intros ST E db c SH AG. apply ST; auto. intros i p H. rewrite AG by auto. auto. Qed.

  Lemma stable_then tb now a b os os' : stable tb now a os -> stable tb now b os' -> apart a b -> stable tb now (then_ch _ a b) (os ++ os').
  Proof.
    intros SA SB [AP _] db c SH AG. rewrite apply_ops_app.
    assert (H : shows tb (apply_ops db os) (over _ c a)).
    { apply SA; auto. intros i p H. apply AG. cbn [then_ch ch_rows]. destruct (ch_rows _ b i p); congruence. }
    apply (shows_ext _ _ _ _ (over_then c a b)). apply SB; auto.
    intros i p N. cbn [over c_rows]. destruct (ch_rows _ a i p) eqn:EA.
    - exfalso. apply N. apply AP. congruence.
    - apply AG. cbn [then_ch ch_rows]. destruct (ch_rows _ b i p); congruence.
  Qed.

  Lemma fl_le_upd (w : mworld) fl i fl' j : flt_le (v_tb _ _ w i) (fl i) fl' -> flt_le (v_tb _ _ w j) (fl j) (upd eq_dec (P:=Fl) fl i fl' j).
  Proof. intros L. unfold upd. destruct (eq_dec i j) as [<-|N]; [exact L|apply flt_le_refl]. Qed.

  Lemma ops_covered_wider {T F} (tb : table T F) fl fl' os : flt_le tb fl fl' -> ops_covered tb fl os -> ops_covered tb fl' os.
  Proof. apply ops_covered_le. Qed.

  (** A batch call that succeeded. *)
  Lemma stable_call s (w : mworld) n ch b i ev c wr b' : rep s w -> v_bs _ _ w n = SOpen _ ch -> env_ok ev ->
    z_bs _ _ s n = Some b -> admissible (schema_of (v_tb _ _ w i)) (c_rows _ (over _ (v_now _ _ w) ch) i) c ->
    run_call (v_tb _ _ w i) ev (z_db _ _ s) (z_fl _ _ s i) (Some b) c = (wr, Ok tt) -> Table.r_batch wr = Some b' ->
    stable (v_tb _ _ w) (v_now _ _ w) (then_ch _ ch (call_changes eq_dec _ _ w (over _ (v_now _ _ w) ch) i c)) (b_ops b').
  Proof.
    intros R VB EV Z AD RC RB. destruct (rp_open _ _ R n ch VB) as (b0 & Z0 & RW & OC & ST). rewrite Z in Z0. injection Z0 as <-.
    pose proof (rp_now _ _ R) as NOW. pose proof (rp_good _ _ R i) as G.
    intros db c0 SH AG. set (d := call_changes eq_dec _ _ w (over _ (v_now _ _ w) ch) i c) in *.
    assert (TH : forall j p, ch_rows _ (then_ch _ ch d) j p = None -> ch_rows _ ch j p = None).
    { intros j p. cbn [then_ch ch_rows]. destruct (ch_rows _ d j p); congruence. }
    assert (AT : forall p, about _ _ w i c p = true -> c_rows _ c0 i p = c_rows _ (v_now _ _ w) i p).
    { intros p B. apply AG. cbn [then_ch ch_rows]. unfold d, call_changes. cbn [ch_rows]. unfold upd. destruct (eq_dec i i) as [e|N]; [|congruence].
      rewrite (Eqdep_dec.UIP_dec eq_dec e eq_refl). cbn [eq_rect]. rewrite B. discriminate. }
    assert (SC : shows (v_tb _ _ w) (apply_ops db (b_ops b)) (over _ c0 ch)).
    { apply ST; [exact SH|]. intros j p H. apply AG. intros X. apply H. now apply TH. }
    assert (SN : shows (v_tb _ _ w) (apply_ops (z_db _ _ s) (b_ops b)) (over _ (v_now _ _ w) ch)) by (apply ST; auto).
    assert (OV : forall p, about _ _ w i c p = true -> c_rows _ (over _ c0 ch) i p = c_rows _ (over _ (v_now _ _ w) ch) i p).
    { intros p B. cbn [over c_rows]. now rewrite AT. }
    assert (AD0 : admissible (schema_of (v_tb _ _ w i)) (c_rows _ (over _ c0 ch) i) c).
    { eapply admissible_agree; [|exact AD]. intros p H. symmetry. apply OV. now apply about_pk. }
    destruct (call_stable (v_tb _ _ w i) G ev EV c (z_db _ _ s) (z_fl _ _ s i) b wr b' RW (proj1 NOW) (rp_cov _ _ R i) (OC i) RC RB db (c_rows _ (over _ c0 ch) i)) as [RP SO].
    - exact (proj1 SH).
    - intros r IN. rewrite !(data_key_eq _ (good_lawful _ G)), (rep_get _ _ _ (proj1 (proj2 NOW) i)), (rep_get _ _ _ (proj1 (proj2 SH) i)).
      rewrite AT; [reflexivity|]. apply about_pk. exists r. auto.
    - exact (proj1 (proj2 SC) i).
    - exact AD0.
    - eapply shows_ext; [|eapply shows_write; [apply (rp_ids _ _ R)|exact SC|apply apply_ops_ok; exact (proj1 SH)|exact RP|exact SO]].
      eapply same_trans; [apply (call_same w (over _ c0 ch) (over _ (v_now _ _ w) ch)); auto|apply over_then].
      + eapply Rep_wf. exact (proj1 (proj2 SC) i).
      + eapply Rep_wf. exact (proj1 (proj2 SN) i).
  Qed.

  Lemma apart_sym a b : apart a b -> apart b a.
  Proof.
    intros [A B]. split.
    - intros i p H. destruct (ch_rows _ a i p) eqn:E; auto. exfalso. apply H. apply A. congruence.
    - intros k H. destruct (ch_raw _ a k) eqn:E; auto. exfalso. apply H. apply B. congruence.
  Qed.

  Lemma apart_then a b c : apart a c -> apart b c -> apart (then_ch _ a b) c.
  Proof.
    intros [A1 A2] [B1 B2]. split; intros; cbn [then_ch ch_rows ch_raw] in *.
    - destruct (ch_rows _ b i p) eqn:E; [apply B1; congruence|apply A1; auto].
    - destruct (ch_raw _ b k) eqn:E; [apply B2; congruence|apply A2; auto].
  Qed.

  Lemma call_apart (w : mworld) ct i c who n ch : rows_free _ _ who w i c -> who <> Some n -> v_bs _ _ w n = SOpen _ ch -> apart (call_changes eq_dec _ _ w ct i c) ch.
  Proof.
    intros FR N O. split; [|intros k H; now destruct H]. intros j p. unfold call_changes. cbn [ch_rows]. unfold upd. destruct (eq_dec i j) as [<-|NE]; [|congruence].
    cbn [eq_rect]. destruct (about _ _ w i c p) eqn:B; [|congruence]. intros _. eapply FR; eauto.
  Qed.

  Lemma raw_apart (w : mworld) o who n ch : keys_free _ _ who w o -> who <> Some n -> v_bs _ _ w n = SOpen _ ch -> apart (raw_changes _ o) ch.
  Proof.
    intros FR N O. split; [intros i p H; now destruct H|]. intros k. cbn [raw_changes ch_raw]. destruct (hits o k) eqn:B; [|congruence]. intros _. eapply FR; eauto.
  Qed.

  Lemma over_apart (now : content) d ch : apart d ch -> forall i p, ch_rows _ ch i p <> None -> c_rows _ (over _ now d) i p = c_rows _ now i p.
  Proof. intros A i p H. cbn [over c_rows]. destruct (ch_rows _ d i p) eqn:E; auto. exfalso. apply H. apply (proj1 A). congruence. Qed.

  (** Open batches after the batch [n] changed. *)
  Lemma apart_put (w : mworld) n st :
    (forall n m a b, n <> m -> v_bs _ _ w n = SOpen _ a -> v_bs _ _ w m = SOpen _ b -> apart a b) ->
    (forall a m b, st = SOpen _ a -> m <> n -> v_bs _ _ w m = SOpen _ b -> apart a b) ->
    forall n1 m a b, n1 <> m -> put_at (v_bs _ _ w) n st n1 = SOpen _ a -> put_at (v_bs _ _ w) n st m = SOpen _ b -> apart a b.
  Proof.
    intros H1 H2 n1 m a b N. unfold put_at. destruct (Nat.eqb_spec n1 n) as [->|N1], (Nat.eqb_spec m n) as [->|N2]; try congruence; intros A B; eauto.
    apply apart_sym. eauto.
  Qed.

  (** ** One call *)

  Lemma mstep_ok fuel s w o s' x : rep s w -> mproper _ _ fuel w o -> run_mop eq_dec _ _ fuel s o = (s', x) ->
    mright _ _ w o x /\ rep s' (mnext eq_dec _ _ w o x).
  Proof.
    intros R P E. destruct o as [who i ev c|who o|who r|i ev idxs|n|n ok|into from|n].
    - destruct P as (EV & FR & ct & SE & AD). pose proof (rp_good _ _ R i) as G. pose proof (rp_now _ _ R) as NOW. cbn [run_mop] in E. rewrite (rp_tb _ _ R) in E.
      destruct who as [n|]; cbn [mseen given] in *.
      + destruct (v_bs _ _ w n) as [|ch|] eqn:VB; try discriminate. injection SE as <-. destruct (stable_now s w n ch R VB) as (b & Z & RW & SH & CV). rewrite Z in E.
        destruct (batch_step _ G ev c (z_db _ _ s) (z_fl _ _ s i) b (c_rows _ (over _ (v_now _ _ w) ch) i) EV (proj1 NOW) RW) as (wr & rr & b' & RC & RDB & RB & RW' & OUT & QU).
        { constructor; [exact (proj1 SH)|exact (proj1 (proj2 SH) i)|exact (CV i)]. }
        { exact AD. }
        rewrite RC in E. injection E as <- <-. pose proof (call_filter _ ev EV _ _ _ _ _ _ G RC) as FL. rewrite RDB, RB.
        cbn [mright mnext mseen]. rewrite VB. split.
        * exists (over _ (v_now _ _ w) ch), rr. split; auto. split; auto. split; auto. destruct OUT as [[e ->]|(-> & _ & _ & SU)]; eauto.
        * assert (COV : forall j, covers (v_tb _ _ w j) (upd eq_dec (P:=Fl) (z_fl _ _ s) i (r_flt wr) j) (z_db _ _ s)).
          { intros j. eapply covers_le; [apply fl_le_upd; exact FL|apply (rp_cov _ _ R)]. }
          assert (OTH : forall m ch', m <> n -> v_bs _ _ w m = SOpen _ ch' -> exists b0, put_at (z_bs _ _ s) n (Some b') m = Some b0 /\ b_rw b0 = true /\
             (forall j, ops_covered (v_tb _ _ w j) (upd eq_dec (P:=Fl) (z_fl _ _ s) i (r_flt wr) j) (b_ops b0)) /\ stable (v_tb _ _ w) (v_now _ _ w) ch' (b_ops b0)).
          { intros m ch' N VM. rewrite put_other by auto. destruct (rp_open _ _ R m ch' VM) as (b0 & Z0 & RW0 & OC0 & ST0). exists b0. split; auto. split; auto. split; auto.
            intros j. eapply ops_covered_wider; [apply fl_le_upd; exact FL|apply OC0]. }
          destruct OUT as [[e ->]|(-> & CN & SO & SU)]; cbn [mfail mleave]; rewrite ?VB;
            constructor; cbn [z_db z_tb z_fl z_bs v_tb v_now v_bs]; try apply R; auto.
          -- intros m ch' VM. destruct (Nat.eq_dec m n) as [->|N]; [rewrite put_same in VM; discriminate|rewrite put_other in VM by auto; auto].
          -- apply apart_put; [apply (rp_apart _ _ R)|discriminate].
          -- intros m ch' VM. destruct (Nat.eq_dec m n) as [->|N]; [|rewrite put_other in VM by auto; auto].
             rewrite put_same in VM. injection VM as <-. rewrite put_same. exists b'. split; auto. split; auto. split.
             ++ destruct (rp_open _ _ R n ch VB) as (b0 & Z0 & _ & OC & _). rewrite Z in Z0. injection Z0 as <-.
                intros j. unfold upd. destruct (eq_dec i j) as [<-|N].
                ** cbn [eq_rect]. pose proof (call_sim (LAW:=good_lawful _ G) (EV:=EV) (good_filter _ G) c _ _ (z_fl _ _ s i) (Some b) (proj1 NOW) (rp_cov _ _ R i)) as SM.
                   rewrite RC in SM. destruct (run_call (no_filter (v_tb _ _ w i)) ev _ _ _ _) as [w0 r0].
                   destruct SM as (_ & _ & _ & _ & OCB); [intros ? [= <-]; apply OC|]. apply OCB. exact RB.
                ** eapply (other_covered (v_tb _ _ w i) (v_tb _ _ w j) (good_lawful _ G) ev EV); eauto. intros EQ. apply N. now apply (rp_ids _ _ R).
             ++ eapply stable_call; eauto.
          -- apply apart_put; [apply (rp_apart _ _ R)|]. intros a m b0 [= <-] N VM. apply apart_then.
             ++ eapply (rp_apart _ _ R n m); eauto.
             ++ eapply call_apart; eauto. congruence.
      + injection SE as <-. destruct (call_step _ G ev c (z_db _ _ s) (z_fl _ _ s i) (c_rows _ (v_now _ _ w) i) EV) as (wr & rr & RC & OUT & SO & CN & QU).
        { constructor; [exact (proj1 NOW)|exact (proj1 (proj2 NOW) i)|exact (rp_cov _ _ R i)]. }
        { exact AD. }
        rewrite RC in E. injection E as <- <-. pose proof (call_filter _ ev EV _ _ _ _ _ _ G RC) as FL.
        cbn [mright mnext mseen]. split.
        * eexists _, rr. split; [reflexivity|]. split; auto. split; auto. destruct OUT as [(e & -> & _)|(-> & _ & SU)]; eauto.
        * assert (OTH : forall now', (forall n ch j p, v_bs _ _ w n = SOpen _ ch -> ch_rows _ ch j p <> None -> c_rows _ now' j p = c_rows _ (v_now _ _ w) j p) ->
             forall n ch, v_bs _ _ w n = SOpen _ ch -> exists b0, z_bs _ _ s n = Some b0 /\ b_rw b0 = true /\
             (forall j, ops_covered (v_tb _ _ w j) (upd eq_dec (P:=Fl) (z_fl _ _ s) i (r_flt wr) j) (b_ops b0)) /\ stable (v_tb _ _ w) now' ch (b_ops b0)).
          { intros now' SAME n ch VM. destruct (rp_open _ _ R n ch VM) as (b0 & Z0 & RW0 & OC0 & ST0). exists b0. split; auto. split; auto. split.
            - intros j. eapply ops_covered_wider; [apply fl_le_upd; exact FL|apply OC0].
            - eapply stable_other; eauto. }
          destruct OUT as [(e & -> & DB)|(-> & RP & SU)]; cbn [mfail mleave]; constructor; cbn [z_db z_tb z_fl z_bs v_tb v_now v_bs]; try apply R.
          -- rewrite DB. exact NOW.
          -- rewrite DB. intros j. eapply covers_le; [apply fl_le_upd; exact FL|apply (rp_cov _ _ R)].
          -- apply OTH. auto.
          -- eapply shows_ext; [|eapply shows_write; [apply (rp_ids _ _ R)|exact NOW|exact (cons_ok _ _ _ _ CN)|exact (cons_rep _ _ _ _ CN)|exact SO]].
             cbn. apply call_same; auto; eapply Rep_wf; exact (proj1 (proj2 NOW) i).
          -- intros j. unfold upd. destruct (eq_dec i j) as [<-|N]; [exact (cons_covers _ _ _ _ CN)|].
             intros f rest v EF. rewrite (outside_id _ _ _ SO); [apply (rp_cov _ _ R j f rest v EF)|].
             intros rest' [= EQ _]. apply N. symmetry. now apply (rp_ids _ _ R).
          -- apply OTH. intros n ch j p VM H. eapply over_apart; [|exact H]. eapply call_apart; eauto. discriminate.
    - destruct P as (SE & FR & OW). cbn [run_mop] in E. destruct who as [n|].
      + cbn [mseen] in SE. destruct (v_bs _ _ w n) as [|ch|] eqn:VB; try easy. destruct (rp_open _ _ R n ch VB) as (b & Z & RW & OC & ST). rewrite Z in E. injection E as <- <-.
        cbn [mright mnext mleave]. rewrite VB. split; auto. constructor; cbn [z_db z_tb z_fl z_bs v_tb v_now v_bs]; try apply R.
        * intros m ch' VM. destruct (Nat.eq_dec m n) as [->|N].
          -- rewrite put_same in VM. rewrite put_same. injection VM as <-. eexists. split; [reflexivity|]. split; [exact RW|]. cbn [b_ops]. split.
             ++ intros j f rest v EF H. apply in_app_or in H as [H|[H|[]]]; [eapply OC; eauto|]. subst o. exfalso.
                apply (OW (t_id (v_tb _ _ w j) :: x00 :: rest)) with (i := j) (rest := x00 :: rest); [|reflexivity]. cbn [hits]. apply beqb_refl.
             ++ intros db c SH AG. rewrite apply_ops_app. cbn [apply_ops fold_left]. apply (shows_ext _ _ _ _ (over_then c ch (raw_changes _ o))).
                apply shows_raw; [|exact OW]. apply ST; [exact SH|]. intros j p H. apply AG. cbn [then_ch ch_rows raw_changes]. exact H.
          -- rewrite put_other in VM by auto. rewrite put_other by auto. apply (rp_open _ _ R); auto.
        * apply apart_put; [apply (rp_apart _ _ R)|]. intros a m b0 [= <-] N VM. apply apart_then.
          -- eapply (rp_apart _ _ R n m); eauto.
          -- eapply raw_apart; eauto. congruence.
      + injection E as <- <-. cbn [mright mnext mleave]. split; auto. pose proof (rp_now _ _ R) as NOW.
        pose proof (shows_raw _ _ _ o NOW OW) as SH. constructor; cbn [z_db z_tb z_fl z_bs v_tb v_now v_bs]; try apply R; auto.
        * intros j. apply (covers_apply (tb:=v_tb _ _ w j) _ _ [o]); [exact (proj1 NOW)|apply (rp_cov _ _ R)|]. intros f rest v EF [H|[]]. subst o. exfalso.
          apply (OW (t_id (v_tb _ _ w j) :: x00 :: rest)) with (i := j) (rest := x00 :: rest); [|reflexivity]. cbn [hits]. apply beqb_refl.
    - destruct P as (ct & SE & PR). cbn [run_mop] in E. injection E as <- <-. cbn [mright mnext]. split; auto. exists ct. split; auto. eapply mread_ok; eauto.
    - destruct P as (NB & LAW & WR & FF & ROW). cbn [run_mop] in E. rewrite (rp_tb _ _ R) in E. pose proof (rp_good _ _ R i) as G. pose proof (rp_now _ _ R) as (K & H & RAW).
      destruct (add_index_consistent (v_tb _ _ w i) ev (z_db _ _ s) (z_fl _ _ s i) (c_rows _ (v_now _ _ w) i) idxs LAW) as (db' & RUN & CN & FR); auto.
      { intros r v. apply (good_ser _ G). }
      { constructor; auto. apply (rp_cov _ _ R). }
      rewrite RUN in E. injection E as <- <-. cbn [mright mnext xs_map]. split; auto.
      assert (FR' : forall k, (forall rest, k <> t_id (v_tb _ _ w i) :: rest) -> kv_get db' k = kv_get (z_db _ _ s) k).
      { intros k N. apply FR. intros (ix & rest & _ & ->). now apply (N (ix_id ix :: rest)). }
      assert (ID : forall j, t_id (upd eq_dec (P:=fun i => table (Ty i) (Fl i)) (v_tb _ _ w) i (with_indexes (v_tb _ _ w i) (t_indexes (v_tb _ _ w i) ++ idxs)) j) = t_id (v_tb _ _ w j)).
      { intros j. unfold upd. destruct (eq_dec i j) as [<-|N]; reflexivity. }
      assert (FO : forall j, i <> j -> forall rest, kv_get db' (t_id (v_tb _ _ w j) :: rest) = kv_get (z_db _ _ s) (t_id (v_tb _ _ w j) :: rest)).
      { intros j N rest. apply FR'. intros rest' [= EQ _]. apply N. symmetry. now apply (rp_ids _ _ R). }
      constructor; cbn [z_db z_tb z_fl z_bs v_tb v_now v_bs].
      + intros j. unfold upd. destruct (eq_dec i j) as [<-|N]; [reflexivity|]. apply (rp_tb _ _ R).
      + intros j j'. rewrite !ID. apply (rp_ids _ _ R).
      + intros j. unfold upd. destruct (eq_dec i j) as [<-|N]; [|apply (rp_good _ _ R)]. cbn [eq_rect]. destruct G as [GL GS GF]. constructor; auto.
      + split; [exact (cons_ok _ _ _ _ CN)|]. split.
        * intros j. unfold upd. destruct (eq_dec i j) as [<-|N]; [exact (cons_rep _ _ _ _ CN)|]. apply (frame_rep (v_tb _ _ w j) (z_db _ _ s)); auto.
        * intros k OW. rewrite FR'; [apply RAW|]; [intros j rest; specialize (OW j rest)|intros rest; specialize (OW i rest)]; rewrite ID in OW; exact OW.
      + intros j. unfold upd. destruct (eq_dec i j) as [<-|N]; [exact (cons_covers _ _ _ _ CN)|]. intros f rest v EF. rewrite FO by auto. apply (rp_cov _ _ R j f rest v EF).
      + intros n ch VM. exfalso. eapply NB; eauto.
      + intros n m a b _ VM. exfalso. eapply NB; eauto.
    - cbn [mproper] in P. cbn [run_mop] in E. injection E as <- <-. cbn [mright mnext]. split; auto.
      constructor; cbn [z_db z_tb z_fl z_bs v_tb v_now v_bs]; try apply R.
      + intros m ch VM. destruct (Nat.eq_dec m n) as [->|N]; [|rewrite put_other in VM by auto; rewrite put_other by auto; apply (rp_open _ _ R); auto].
        rewrite put_same in VM. rewrite put_same. injection VM as <-. eexists. split; [reflexivity|]. split; [reflexivity|]. split; [intros j f rest v _ []|].
        intros db c SH _. eapply shows_ext; [|exact SH]. split; reflexivity.
      + apply apart_put; [apply (rp_apart _ _ R)|]. intros a m b [= <-] _ _. split; intros; cbn in *; congruence.
    - destruct P as (ch & VB). destruct (rp_open _ _ R n ch VB) as (b & Z & RW & OC & ST). cbn [run_mop] in E. rewrite Z in E.
      destruct (stable_now s w n ch R VB) as (b0 & Z0 & _ & SH & CV). rewrite Z in Z0. injection Z0 as <-.
      assert (OTH : forall now', (forall m c j p, m <> n -> v_bs _ _ w m = SOpen _ c -> ch_rows _ c j p <> None -> c_rows _ now' j p = c_rows _ (v_now _ _ w) j p) ->
             forall m c, put_at (v_bs _ _ w) n (SNone _) m = SOpen _ c -> exists b0, put_at (z_bs _ _ s) n None m = Some b0 /\ b_rw b0 = true /\
             (forall j, ops_covered (v_tb _ _ w j) (z_fl _ _ s j) (b_ops b0)) /\ stable (v_tb _ _ w) now' c (b_ops b0)).
      { intros now' SAME m c VM. destruct (Nat.eq_dec m n) as [->|N]; [rewrite put_same in VM; discriminate|]. rewrite put_other in VM by auto. rewrite put_other by auto.
        destruct (rp_open _ _ R m c VM) as (b0 & Z0 & RW0 & OC0 & ST0). exists b0. split; auto. split; auto. split; auto. eapply stable_other; eauto. }
      assert (AP : forall n1 m a b, n1 <> m -> put_at (v_bs _ _ w) n (SNone _) n1 = SOpen _ a -> put_at (v_bs _ _ w) n (SNone _) m = SOpen _ b -> apart a b).
      { apply apart_put; [apply (rp_apart _ _ R)|discriminate]. }
      destruct (ok || match b_ops b with [] => true | _ => false end)%bool eqn:OK; injection E as <- <-; cbn [mright mnext]; rewrite VB.
      + split; auto. constructor; cbn [z_db z_tb z_fl z_bs v_tb v_now v_bs]; try apply R; auto.
        apply OTH. intros m c j p N VM H. eapply over_apart; [|exact H]. eapply (rp_apart _ _ R n m); eauto.
      + apply orb_false_iff in OK as [-> _]. split; auto. constructor; cbn [z_db z_tb z_fl z_bs v_tb v_now v_bs]; try apply R; auto.
    - destruct P as (NE & (a & VA) & (b & VB)). destruct (rp_open _ _ R into a VA) as (ba & ZA & RWA & OCA & STA). destruct (rp_open _ _ R from b VB) as (bb & ZB & RWB & OCB & STB).
      cbn [run_mop] in E. rewrite ZA, ZB in E. injection E as <- <-. cbn [mright mnext]. rewrite VA, VB. split; auto.
      pose proof (rp_apart _ _ R into from a b NE VA VB) as AB.
      constructor; cbn [z_db z_tb z_fl z_bs v_tb v_now v_bs]; try apply R.
      + intros m ch VM. destruct (Nat.eq_dec m from) as [->|N]; [rewrite put_same in VM; discriminate|]. rewrite put_other in VM by auto.
        destruct (Nat.eq_dec m into) as [->|N2].
        * rewrite put_same in VM. rewrite put_same. injection VM as <-. eexists. split; [reflexivity|]. split; [exact RWA|]. cbn [b_ops]. split.
          -- intros j. apply ops_covered_app; auto.
          -- apply stable_then; auto.
        * rewrite put_other in VM by auto. rewrite put_other by auto. apply (rp_open _ _ R); auto.
      + intros n1 m c1 c2 N. unfold put_at. destruct (Nat.eqb_spec n1 from) as [->|N1]; [discriminate|]. destruct (Nat.eqb_spec m from) as [->|N2]; [discriminate|].
        destruct (Nat.eqb_spec n1 into) as [->|N3], (Nat.eqb_spec m into) as [->|N4]; try congruence.
        * intros [= <-] VM. apply apart_then; eapply (rp_apart _ _ R); [|eassumption|eassumption| |eassumption|eassumption]; congruence.
        * intros VM [= <-]. apply apart_sym. apply apart_then; eapply (rp_apart _ _ R); [|eassumption|eassumption| |eassumption|eassumption]; congruence.
        * intros A B. exact (rp_apart _ _ R n1 m c1 c2 N A B).
    - cbn [run_mop] in E. injection E as <- <-. cbn [mright mnext]. split; auto. constructor; cbn [z_db z_tb z_fl z_bs v_tb v_now v_bs]; try apply R.
      + intros m ch VM. destruct (Nat.eq_dec m n) as [->|N]; [rewrite put_same in VM; discriminate|]. rewrite put_other in VM by auto. rewrite put_other by auto. apply (rp_open _ _ R); auto.
      + apply apart_put; [apply (rp_apart _ _ R)|discriminate].
  Qed.

  Lemma mrun_ok fuel l : forall s w, rep s w -> all_mright eq_dec _ _ fuel w (run_mops eq_dec _ _ fuel s l).
  Proof.
    induction l as [|o l IH]; intros s w R; cbn [run_mops all_mright]; auto.
    destruct (run_mop eq_dec _ _ fuel s o) as [s' x] eqn:E. cbn [all_mright]. intros P. destruct (mstep_ok fuel s w o s' x R P E) as [OK R']. split; auto.
  Qed.

  (** From any consistent database. *)
  Lemma batches_ok fuel (tb : tables) db fl c l : (forall i, good_table (tb i)) -> (forall i j, t_id (tb i) = t_id (tb j) -> i = j) ->
    kv_ok db -> (forall i, consistent (tb i) db (fl i) (c_rows _ c i)) ->
    (forall k, own_key Ty Fl (World Ty Fl tb c (BNone Ty)) k -> kv_get db k = c_raw _ c k) ->
    all_mright eq_dec _ _ fuel (MWorld _ _ tb c (fun _ => SNone _)) (run_mops eq_dec _ _ fuel (MSys _ _ db tb fl (fun _ => None)) l).
  Proof.
    intros G ID K H RAW. apply mrun_ok. constructor; cbn [z_db z_tb z_fl z_bs v_tb v_now v_bs]; auto; try discriminate.
    - split; auto. split; auto. intros i. apply (cons_rep _ _ _ _ (H i)).
    - intros i. apply (cons_covers _ _ _ _ (H i)).
  Qed.
End Batches.
