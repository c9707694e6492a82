(** ReIndex among calls that only add rows: the index is exact. *)

From Coq Require Import List NArith Lia Bool Arith Sorting.Permutation.
From Verif.Model Require Import Bytes Go Keys Pebble Index Table Concur ReIndex LiveReIndex.
From Verif.Spec Require Import KeySpec StoreSpec TableSpec HistSpec ReIndexSpec LiveReIndexSpec.
From Verif.Proofs Require Import BytesFacts PebbleFacts TableFacts WriteFacts ReIndexFacts ConcurRows LiveReIndexFacts.
Import ListNotations.

(** ** Batches that only set *)
Definition all_sets (ops : list bop) : Prop := forall o, In o ops -> exists k v, o = BSet k v.

Lemma get_from ops : forall db k v, kv_ok db -> kv_get (apply_ops db ops) k = Some v -> In (BSet k v) ops \/ kv_get db k = Some v.
Proof.
  induction ops as [|o ops IH]; intros db k v K H; [now right|]. cbn [apply_ops fold_left] in H.
  change (fold_left apply_op ops (apply_op db o)) with (apply_ops (apply_op db o) ops) in H.
  apply IH in H as [H|H]; [left; now right| |now apply apply_op_ok].
  rewrite kv_get_apply_op in H by auto. destruct (op_touches o k) eqn:E; [|now right].
  destruct o as [k' v'|k'|lo hi]; cbn [op_result] in H; try discriminate. cbn [op_touches] in E. apply beqb_eq in E. injection H as ->. subst. left. now left.
Qed.

Lemma get_keeps ops : all_sets ops -> forall db k, kv_ok db -> (kv_get db k <> None \/ exists v, In (BSet k v) ops) -> kv_get (apply_ops db ops) k <> None.
Proof.
  induction ops as [|o ops IH]; intros S db k K H; [destruct H as [H|[v []]]; exact H|]. cbn [apply_ops fold_left].
  change (fold_left apply_op ops (apply_op db o)) with (apply_ops (apply_op db o) ops).
  apply IH; [intros x I; apply S; now right|now apply apply_op_ok|].
  destruct (S o (or_introl eq_refl)) as (k' & v' & ->). rewrite kv_get_apply_op by auto. cbn [op_touches op_result]. destruct (beqb k k') eqn:E.
  - left. discriminate.
  - destruct H as [H|[v [H|H]]]; [now left| |right; eauto]. injection H as -> ->. rewrite beqb_refl in E. discriminate.
Qed.

Lemma adds_app {T} (sc : schema T) must a b x y : adds sc must a x -> adds sc must b y -> adds sc must (a ++ b) (x ++ y).
Proof.
  intros [A1 A2 A3] [B1 B2 B3]. constructor.
  - intros o I. apply in_app_iff in I as [I|I]; [destruct (A1 o I) as (r & J & H)|destruct (B1 o I) as (r & J & H)]; exists r; (split; [apply in_app_iff; auto|exact H]).
  - intros r I. apply in_app_iff in I as [I|I]; [destruct (A2 r I) as (v & J & H)|destruct (B2 r I) as (v & J & H)]; exists v; (split; [exact J|apply in_app_iff; auto]).
  - intros r ix I J M H. apply in_app_iff. apply in_app_iff in I as [I|I]; auto.
Qed.

Lemma adds_nil {T} (sc : schema T) must : adds sc must [] [].
Proof. constructor; easy. Qed.

Lemma adds_flat {T} (sc : schema T) must (at_ : nat -> list T) ops l : (forall n, In n l -> adds sc must (at_ n) (ops n)) ->
  adds sc must (flat_map at_ l) (flat_map ops l).
Proof.
  induction l as [|n l IH]; intros H; [apply adds_nil|]. cbn [flat_map]. apply adds_app; [apply H; now left|apply IH; intros; apply H; now right].
Qed.

Lemma adds_weaken {T} (sc : schema T) (p q : sindex T -> Prop) rows ops : (forall ix, In ix (s_indexes sc) -> q ix -> p ix) -> adds sc p rows ops -> adds sc q rows ops.
Proof. intros W [A B C]. constructor; auto. Qed.

Lemma adds_sets {T} (sc : schema T) must rows ops : adds sc must rows ops -> all_sets ops.
Proof. intros [A _ _] o I. destruct (A o I) as (r & _ & [(v & _ & ->)|(ix & _ & _ & ->)]); eauto. Qed.

Section Adds.
  Context {T F : Type}.
  Variables (tb : table T F) (old idxs : list (index T)).
  Notation tbx := (with_indexes tb (old ++ idxs)).
  Notation sc := (schema_of tbx).
  Hypothesis LAW : lawful tbx.
  Notation isold := (fun ix => In ix (map sindex_of old)).
  Notation pk := (s_pk sc).

  Lemma same_id a b : In a (s_indexes sc) -> In b (s_indexes sc) -> si_id a = si_id b -> a = b.
  Proof.
    intros A B E. apply (sc_index_inv tbx) in A as [i [A ->]]. apply (sc_index_inv tbx) in B as [j [B ->]].
    now rewrite (index_by_id tbx LAW i j A B E).
  Qed.

  Lemma entry_area ix r : exists rest, entry_key sc ix r = t_id tb :: si_id ix :: rest.
  Proof. eexists. reflexivity. Qed.

  (** what a key of the table holds that an adding batch sets *)
  Lemma added_row must rows ops rest v : adds sc must rows ops -> In (BSet (t_id tb :: x00 :: rest) v) ops ->
    exists r, In r rows /\ s_val sc r = Some v /\ t_id tb :: x00 :: rest = row_key sc (pk r).
  Proof.
    intros [A _ _] I. destruct (A _ I) as (r & J & [(w & V & [= E1 ->])|(ix & X & _ & E)]).
    - exists r. split; [auto|]. split; [auto|]. rewrite E1. reflexivity.
    - exfalso. injection E as E _ _. apply (sc_nonzero tbx LAW ix X). auto.
  Qed.

  Lemma added_entry must rows ops ix rest v : adds sc must rows ops -> In ix (s_indexes sc) -> In (BSet (t_id tb :: si_id ix :: rest) v) ops ->
    v = [] /\ exists r, In r rows /\ si_filter ix r = true /\ t_id tb :: si_id ix :: rest = entry_key sc ix r.
  Proof.
    intros [A _ _] X I. destruct (A _ I) as (r & J & [(w & V & E)|(j & Y & H & E)]).
    - exfalso. injection E as E _ _. apply (sc_nonzero tbx LAW ix X). auto.
    - injection E as E0 E1 ->. assert (ix = j) as -> by (apply same_id; auto). split; [reflexivity|]. exists r. split; [auto|]. split; [auto|]. rewrite E1. reflexivity.
  Qed.

  Notation fresh_rows := (new_rows sc).

  Lemma puts_cases m rows r : fresh_rows m rows -> puts sc m rows (pk r) = Some r -> In r rows \/ m (pk r) = Some r.
  Proof.
    intros [N FR] H. destruct (in_pk_dec tbx rows (pk r)) as [[q [I E]]|NI].
    - left. rewrite <- E in H. rewrite (puts_in (tb:=tbx)) in H by auto. injection H as ->. auto.
    - right. now rewrite (puts_notin (tb:=tbx)) in H.
  Qed.

  Lemma puts_has m rows r : fresh_rows m rows -> In r rows -> puts sc m rows (pk r) = Some r.
  Proof. intros [N _] I. now apply (puts_in (tb:=tbx)). Qed.

  Lemma puts_keeps m rows p r : fresh_rows m rows -> m p = Some r -> puts sc m rows p = Some r.
  Proof.
    intros [N FR] M. rewrite (puts_notin (tb:=tbx)); auto. intros q I E'. destruct (FR q I) as [E _]. congruence.
  Qed.

  (** The rows and the old indexes follow the added rows. *)
  Lemma adds_rep db m rows ops : kv_ok db -> Rep (schema_of (with_indexes tb old)) db m -> adds sc isold rows ops -> fresh_rows m rows ->
    Rep (schema_of (with_indexes tb old)) (apply_ops db ops) (puts sc m rows).
  Proof.
    intros K [R1 R2 R3 R4] A FR. pose proof FR as [N FRE].
    assert (SETS := adds_sets _ _ _ _ A).
    constructor.
    - intros p r M. destruct (in_pk_dec tbx rows p) as [[q [I E]]|NI].
      + rewrite <- E in M. rewrite (puts_in (tb:=tbx)) in M by auto. injection M as <-. split; [exact E|]. split.
        * intros ix X. destruct (FRE q I) as [_ RO]. apply RO. cbn. rewrite map_app. apply in_app_iff. now left.
        * destruct (adds_row _ _ _ _ A q I) as (v & V & _). change (s_val sc q <> None). congruence.
      + rewrite (puts_notin (tb:=tbx)) in M by auto. auto.
    - intros p. change (row_key (schema_of (with_indexes tb old)) p) with (row_key sc p). change (s_val (schema_of (with_indexes tb old))) with (s_val sc).
      destruct (in_pk_dec tbx rows p) as [[q [I E]]|NI].
      + rewrite <- E. rewrite (puts_in (tb:=tbx)) by auto. destruct (adds_row _ _ _ _ A q I) as (v & V & J). rewrite V.
        pose proof (get_keeps ops SETS db (row_key sc (pk q)) K (or_intror (ex_intro _ v J))) as H.
        destruct (kv_get (apply_ops db ops) (row_key sc (pk q))) as [w|] eqn:G; [|now destruct H].
        apply get_from in G as [G|G]; [|exfalso|auto].
        * apply (added_row _ _ _ _ _ A) in G as (q' & I' & V' & E'). apply (row_key_inj tbx) in E'.
          assert (q' = q) as ->; [|congruence].
          assert (X := puts_in (tb:=tbx) rows m q N I). rewrite E' in X. rewrite (puts_in (tb:=tbx)) in X by auto. congruence.
        * change (row_key sc (pk q)) with (row_key (schema_of (with_indexes tb old)) (pk q)) in G. rewrite R2 in G. destruct (FRE q I) as [M0 _]. rewrite M0 in G. discriminate.
      + rewrite (puts_notin (tb:=tbx)) by auto. transitivity (kv_get db (row_key sc p)); [|exact (R2 p)].
        apply get_leaves; auto. intros o I. destruct (SETS o I) as (k & v & ->). intros ->.
        apply (added_row _ _ _ _ _ A) in I as (q & I & V & E). apply (row_key_inj tbx) in E. apply (NI q I). auto.
    - intros rest v H. apply get_from in H as [H|H]; [|exact (R3 rest v H)|auto].
      apply (added_row _ _ _ _ _ A) in H as (q & I & V & E). exists (pk q). exact E.
    - intros six rest v X. assert (X' : In six (s_indexes sc)) by (cbn; rewrite map_app; apply in_app_iff; left; exact X).
      change (s_id (schema_of (with_indexes tb old))) with (t_id tb). change (s_pk (schema_of (with_indexes tb old))) with pk.
      change (entry_key (schema_of (with_indexes tb old))) with (entry_key sc).
      assert (R4' := fun v => R4 six rest v X). change (s_id (schema_of (with_indexes tb old))) with (t_id tb) in R4'. change (s_pk (schema_of (with_indexes tb old))) with pk in R4'.
      change (entry_key (schema_of (with_indexes tb old))) with (entry_key sc) in R4'. clear R4.
      assert (UP : forall v, kv_get (apply_ops db ops) (t_id tb :: si_id six :: rest) = Some v -> v = [] /\ exists r, puts sc m rows (pk r) = Some r /\ si_filter six r = true /\ t_id tb :: si_id six :: rest = entry_key sc six r).
      { intros w H. apply get_from in H as [H|H]; [| |auto].
        - apply (added_entry _ _ _ _ _ _ A X') in H as (-> & r & I & H1 & H2). split; [auto|]. exists r. split; [now apply puts_has|auto].
        - apply R4' in H as (-> & r & I & H1 & H2). split; [auto|]. exists r. split; [now apply puts_keeps|auto]. }
      split; [apply UP|]. intros (-> & r & M & H1 & H2).
      assert (P : kv_get (apply_ops db ops) (t_id tb :: si_id six :: rest) <> None).
      { apply get_keeps; auto. apply puts_cases in M as [M|M]; [| |auto].
        - right. exists []. rewrite H2. apply (adds_entry _ _ _ _ A); auto.
        - left. rewrite (proj2 (R4' [])); [discriminate|]. split; [auto|]. exists r. auto. }
      destruct (kv_get (apply_ops db ops) _) as [w|] eqn:G; [|now destruct P]. now destruct (UP w eq_refl) as [-> _].
  Qed.

  Variable ev : renv.
  Variable os : others.
  Hypothesis Q : forall n, r_write ev n = true.

  (** ** Where the content of a new index comes from *)
  Lemma delete_from : forall (l : list (index T)) n db k v db' n', kv_ok db -> live_delete ev os (t_id tb) l n db = (db', n', true) ->
    kv_get db' k = Some v -> kv_get db k = Some v \/ In (BSet k v) (flat_map (o_at os) (seq n (length l))).
  Proof.
    induction l as [|ix l IH]; intros n db k v db' n' K E G; cbn [live_delete length seq flat_map] in *; [injection E as <- _; auto|].
    cbv zeta in E. rewrite Q in E. apply (IH (S n) _ k v) in E as [E|E]; auto using kv_del_range_ok, apply_ops_ok.
    - rewrite kv_get_del_range in E by auto using apply_ops_ok. destruct (in_range _ _ k); [discriminate|].
      apply get_from in E as [E|E]; auto. right. apply in_app_iff. auto.
    - right. apply in_app_iff. auto.
  Qed.

  Lemma delete_gone : forall (l : list (index T)) n db ix rest v db' n', kv_ok db -> live_delete ev os (t_id tb) l n db = (db', n', true) -> In ix l -> ix_id ix <> xff ->
    kv_get db' (t_id tb :: ix_id ix :: rest) = Some v -> In (BSet (t_id tb :: ix_id ix :: rest) v) (flat_map (o_at os) (seq n (length l))).
  Proof.
    induction l as [|jx l IH]; intros n db ix rest v db' n' K E I NF G; [easy|]. cbn [live_delete length seq flat_map] in *.
    cbv zeta in E. rewrite Q in E. destruct I as [->|I].
    - apply in_app_iff. right. eapply delete_from in E; [|auto using kv_del_range_ok, apply_ops_ok|exact G]. destruct E as [E|E]; [|auto].
      rewrite kv_get_del_range in E by auto using apply_ops_ok. rewrite (proj2 (area_range (t_id tb) (ix_id ix) _ NF)) in E; [discriminate|eauto].
    - apply in_app_iff. right. eapply IH in E; eauto using kv_del_range_ok, apply_ops_ok.
  Qed.

  Lemma rows_from (items : kv) : forall rows, map (fun e => t_deser tb (snd e) (t_nil tb)) items = map Some rows ->
    forall db n ops c db' n' k v, kv_ok db -> live_rows ev os tb idxs items db n ops c = (db', n', Ok tt) ->
    kv_get db' k = Some v ->
    kv_get db k = Some v \/ In (BSet k v) (ops ++ flat_map (row_sets tb idxs) rows) \/ In (BSet k v) (flat_map (o_at os) (seq n (n' - n))).
  Proof.
    induction items as [|[key w] items IH]; intros rows E db n ops c db' n' k v K H G; destruct rows as [|r rows]; try discriminate; cbn [live_rows flat_map] in *.
    - cbv zeta in H. rewrite Q in H. injection H as <- <-. replace (S n - n) with 1 by lia. cbn [seq flat_map]. rewrite !app_nil_r.
      apply get_from in G as [G|G]; auto using apply_ops_ok. apply get_from in G as [G|G]; auto.
    - cbn [map snd] in E. injection E as E1 E2. rewrite E1 in H. cbv zeta in H. fold (row_sets tb idxs r) in H. rewrite app_assoc.
      destruct (Nat.leb _ _).
      + rewrite Q in H. pose proof (IH rows E2 _ _ _ _ _ _ k v (apply_ops_ok _ _ (apply_ops_ok _ _ K)) H G) as X.
        assert (L : n < n').
        { clear - H. revert H. generalize (apply_ops (apply_ops db (o_at os n)) (ops ++ row_sets tb idxs r)). intros d H.
          assert (GG : forall (l : list (index T)) (items : kv) db n ops c d n', live_rows ev os tb l items db n ops c = (d, n', Ok tt) -> n < n').
          { intros l its. induction its as [|[kk vv] its IH]; intros db0 n0 ops0 c0 d0 n0' H0; cbn [live_rows] in H0.
            - cbv zeta in H0. destruct (r_write ev n0); [|discriminate]. injection H0 as _ <-. lia.
            - destruct (t_deser tb vv (t_nil tb)); [|discriminate]. cbv zeta in H0. destruct (Nat.leb _ _).
              + destruct (r_write ev n0); [|discriminate]. apply IH in H0. lia.
              + apply IH in H0. lia. }
          apply GG in H. lia. }
        replace (n' - n) with (S (n' - S n)) by lia. cbn [seq flat_map]. destruct X as [X|[X|X]].
        * apply get_from in X as [X|X]; auto using apply_ops_ok; [right; left; apply in_app_iff; auto|].
          apply get_from in X as [X|X]; auto. right. right. apply in_app_iff. auto.
        * right. left. apply in_app_iff. auto.
        * right. right. apply in_app_iff. auto.
      + pose proof (IH rows E2 _ _ _ _ _ _ k v K H G) as X. exact X.
  Qed.

  Lemma rows_keep (items : kv) : (forall n, all_sets (o_at os n)) -> forall rows, map (fun e => t_deser tb (snd e) (t_nil tb)) items = map Some rows ->
    forall db n ops c db' n' k, kv_ok db -> all_sets ops -> live_rows ev os tb idxs items db n ops c = (db', n', Ok tt) ->
    kv_get db k <> None \/ (exists v, In (BSet k v) (ops ++ flat_map (row_sets tb idxs) rows)) \/ (exists v, In (BSet k v) (flat_map (o_at os) (seq n (n' - n)))) ->
    kv_get db' k <> None.
  Proof.
    intros AS. induction items as [|[key w] items IH]; intros rows E db n ops c db' n' k K OA H G; destruct rows as [|r rows]; try discriminate; cbn [live_rows flat_map] in *.
    - cbv zeta in H. rewrite Q in H. injection H as <- <-. replace (S n - n) with 1 in G by lia. cbn [seq flat_map] in G. rewrite !app_nil_r in G.
      apply get_keeps; auto using apply_ops_ok. destruct G as [G|[G|G]]; [left|right|left]; auto; apply get_keeps; auto.
    - cbn [map snd] in E. injection E as E1 E2. rewrite E1 in H. cbv zeta in H. fold (row_sets tb idxs r) in H. rewrite app_assoc in G.
      assert (RS : all_sets (ops ++ row_sets tb idxs r)).
      { intros o I. apply in_app_iff in I as [I|I]; auto. unfold row_sets in I. apply in_flat_map in I as [ix [_ I]]. unfold on_insert in I.
        destruct (ix_filter ix r); [|easy]. destruct I as [<-|[]]. eauto. }
      destruct (Nat.leb _ _).
      + rewrite Q in H. refine (IH rows E2 _ (S n) [] 0 _ _ _ _ _ H _); [auto using apply_ops_ok|easy|]. cbn [app].
        destruct (Nat.leb (n' - n) 0) eqn:Z.
        * apply Nat.leb_le in Z. replace (n' - n) with 0 in G by lia. cbn [seq flat_map] in G. destruct G as [G|[[v G]|[v []]]].
          -- left. apply get_keeps; auto using apply_ops_ok. left. apply get_keeps; auto.
          -- apply in_app_iff in G as [G|G]; [|right; left; eauto]. left. apply get_keeps; auto using apply_ops_ok. right. eauto.
        * apply Nat.leb_gt in Z. replace (n' - n) with (S (n' - S n)) in G by lia. cbn [seq flat_map] in G. destruct G as [G|[[v G]|[v G]]].
          -- left. apply get_keeps; auto using apply_ops_ok. left. apply get_keeps; auto.
          -- apply in_app_iff in G as [G|G]; [|right; left; eauto]. left. apply get_keeps; auto using apply_ops_ok. right. eauto.
          -- apply in_app_iff in G as [G|G]; [|right; right; eauto]. left. apply get_keeps; auto using apply_ops_ok. left. apply get_keeps; auto. right. eauto.
      + eapply (IH rows E2 db n (ops ++ row_sets tb idxs r) (S c)); eauto.
  Qed.

  Variables (at_ : nat -> list T) (open : list T).
  Notation k0 := (length idxs).

  Lemma idxs_in ix : In ix idxs -> In (sindex_of ix) (s_indexes sc).
  Proof. intros I. cbn. rewrite map_app. apply in_app_iff. right. now apply in_map. Qed.

  Lemma lawful_idxs : lawful (with_indexes tb idxs).
  Proof.
    destruct LAW as [L1 L2 L3 L4 L5]. cbn [with_indexes t_indexes t_pk] in *. constructor; cbn [with_indexes t_indexes t_pk]; auto.
    - intros ix b r I. apply L2. apply in_app_iff. auto.
    - intros ix b r I. apply L3. apply in_app_iff. auto.
    - rewrite map_app in L4. now apply nodup_app_iff in L4.
    - intros ix I. apply L5. apply in_app_iff. auto.
  Qed.

  Lemma row_sets_in rows k v : In (BSet k v) (flat_map (row_sets tb idxs) rows) <->
    v = [] /\ exists r ix, In r rows /\ In ix idxs /\ ix_filter ix r = true /\ k = entry_key sc (sindex_of ix) r.
  Proof.
    rewrite in_flat_map. split.
    - intros (r & I & J). unfold row_sets in J. apply in_flat_map in J as [ix [X J]]. unfold on_insert in J. destruct (ix_filter ix r) eqn:FL; [|easy].
      destruct J as [J|[]]. injection J as <- <-. split; [auto|]. exists r, ix. split; [auto|]. split; [auto|]. split; [auto|].
      rewrite (encode_index_key_eq (with_indexes tb idxs) lawful_idxs) by auto. reflexivity.
    - intros (-> & r & ix & I & X & FL & ->). exists r. split; [auto|]. unfold row_sets. apply in_flat_map. exists ix. split; [auto|]. unfold on_insert. rewrite FL. left.
      rewrite (encode_index_key_eq (with_indexes tb idxs) lawful_idxs) by auto. reflexivity.
  Qed.

  Lemma live_adds db m : kv_ok db -> ser_fresh tb -> Rep (schema_of (with_indexes tb old)) db m ->
    (forall ix, In ix idxs -> ix_id ix <> xff) -> (forall pk r, m pk = Some r -> row_ok sc r) ->
    (forall n, n < k0 -> adds sc isold (at_ n) (o_at os n)) -> adds sc isold open (o_open os) ->
    (forall n, k0 <= n -> adds sc (fun _ => True) (at_ n) (o_at os n)) ->
    (forall n, fresh_rows m (rows_all at_ open k0 n)) ->
    exists db' n, live_re_index ev os tb db idxs = (db', n, Ok tt) /\ kv_ok db' /\ Rep sc db' (puts sc m (rows_all at_ open k0 n)).
  Proof.
    intros K SF R NF RO A1 A2 A3 FR.
    assert (AO : adds sc isold (rows_open at_ open k0) (before_open os k0)).
    { apply adds_app; [apply adds_flat|exact A2]. intros n I. apply in_seq in I. apply A1. lia. }
    assert (AL : forall n, adds sc isold (rows_all at_ open k0 n) (all_of os k0 n)).
    { intros n. apply adds_app; [exact AO|]. apply adds_flat. intros j I. apply in_seq in I. apply (adds_weaken _ (fun _ => True)); [auto|]. apply A3. lia. }
    assert (AT : forall n, adds sc (fun _ => True) (flat_map at_ (seq k0 (n - k0))) (flat_map (o_at os) (seq k0 (n - k0)))).
    { intros n. apply adds_flat. intros j I. apply in_seq in I. apply A3. lia. }
    assert (FO : fresh_rows m (rows_open at_ open k0)).
    { specialize (FR 0). unfold rows_all in FR. cbn [Nat.sub seq flat_map] in FR. rewrite app_nil_r in FR. exact FR. }
    set (mo := puts sc m (rows_open at_ open k0)).
    assert (RO0 : Rep (schema_of (with_indexes tb old)) (apply_ops db (before_open os k0)) mo) by (apply adds_rep; auto).
    assert (R0 : Rep (schema_of (with_indexes tb [])) (apply_ops db (before_open os k0)) mo).
    { destruct RO0 as [B1 B2 B3 B4]. constructor; auto.
      - intros p r M. destruct (B1 p r M) as (C1 & _ & C3). split; [exact C1|]. split; [intros ix []|exact C3].
      - intros ix rest v []. }
    destruct (live_keys tb os ev Q idxs db mo lawful_idxs K SF R0) as (db' & n & E & LN & K' & OUT & _).
    exists db', n. split; [exact E|]. split; [exact K'|].
    assert (RF : Rep (schema_of (with_indexes tb old)) (apply_ops db (all_of os k0 n)) (puts sc m (rows_all at_ open k0 n))) by (apply adds_rep; auto).
    (* the parts of the call *)
    unfold live_re_index in E. destruct (live_delete ev os (t_id tb) idxs 0 db) as [[db1 n1] ok] eqn:D.
    destruct (live_delete_keys tb os ev Q idxs 0 db K) as (db1' & D' & K1 & OUT1 & _). rewrite D' in D. injection D as -> <- <-. cbn [Nat.add] in *. cbv zeta in E.
    set (db2 := apply_ops db1 (o_open os)) in *. assert (K2 : kv_ok db2) by (apply apply_ops_ok; auto).
    assert (Z : forall rest, ~ index_area (t_id tb) idxs (t_id tb :: x00 :: rest)).
    { intros rest (j & rest' & J & [= N _]). apply (law_nonzero _ lawful_idxs j J). auto. }
    assert (A2' : forall k, ~ index_area (t_id tb) idxs k -> kv_get db2 k = kv_get (apply_ops db (before_open os k0)) k).
    { intros k NA. unfold before_open. rewrite apply_ops_app. apply get_apply_ops_cong; auto using apply_ops_ok. }
    assert (R' : Rep (schema0 tb) db2 mo).
    { destruct R0 as [B1 B2 B3 B4]. constructor; auto.
      - intros p. rewrite <- B2. apply A2'. apply Z.
      - intros rest v H. apply (B3 rest v). rewrite <- A2'; [exact H|apply Z].
      - intros ix rest v []. }
    destruct (items_rows tb idxs db2 mo K2 SF R') as (rows & E1 & IN). cbv zeta in *.
    set (items := items_from _ _) in *. clearbody items.
    assert (UP : forall ix rest v, In ix idxs -> kv_get db' (t_id tb :: ix_id ix :: rest) = Some v ->
      v = [] /\ exists r, puts sc m (rows_all at_ open k0 n) (pk r) = Some r /\ ix_filter ix r = true /\ t_id tb :: ix_id ix :: rest = entry_key sc (sindex_of ix) r).
    { intros ix rest v I H.
      assert (SET : forall ops l, (exists must, adds sc must l ops) -> incl l (rows_all at_ open k0 n) -> In (BSet (t_id tb :: ix_id ix :: rest) v) ops ->
        v = [] /\ exists r, puts sc m (rows_all at_ open k0 n) (pk r) = Some r /\ ix_filter ix r = true /\ t_id tb :: ix_id ix :: rest = entry_key sc (sindex_of ix) r).
      { intros ops l [must A] INC J. apply (added_entry must l ops (sindex_of ix) rest v A (idxs_in ix I)) in J as (-> & r & J1 & J2 & J3).
        split; [auto|]. exists r. split; [apply puts_has; auto|]. auto. }
      apply (rows_from items rows E1 _ _ _ _ _ _ _ _ K2 E) in H as [H|[H|H]].
      - apply get_from in H as [H|H]; [| |auto].
        + apply (SET (o_open os) open); eauto. intros r Hr. unfold rows_all, rows_open. rewrite !in_app_iff. auto.
        + eapply delete_gone in H; [|exact K|exact D'|auto|auto]. eapply (SET _ (flat_map at_ (seq 0 k0))); [|intros r Hr; unfold rows_all, rows_open; rewrite !in_app_iff; auto|exact H].
          eexists. apply adds_flat. intros j J. apply in_seq in J. apply A1. lia.
      - cbn [app] in H. apply row_sets_in in H as (-> & r & j & J1 & J2 & J3 & J4). split; [auto|]. exists r.
        assert (j = ix) as ->.
        { apply (index_by_id (with_indexes tb idxs) lawful_idxs); auto. injection J4 as J4 _. auto. }
        split; [|auto]. apply IN in J1. change (mo (pk r) = Some r) in J1. unfold mo in J1. apply puts_cases in J1 as [J1|J1]; [| |auto].
        + apply puts_has; auto. unfold rows_all. apply in_app_iff. auto.
        + apply puts_keeps; auto.
      - eapply SET; [eexists; apply AT| |exact H]. intros r Hr. unfold rows_all. apply in_app_iff. auto. }
    assert (AS : forall j, all_sets (o_at os j)).
    { intros j. destruct (Nat.lt_ge_cases j k0) as [L|L]; [apply (adds_sets _ _ _ _ (A1 j L))|apply (adds_sets _ _ _ _ (A3 j L))]. }
    destruct RF as [B1 B2 B3 B4]. constructor.
    - intros p r M. destruct (B1 p r M) as (C1 & _ & C3). split; [exact C1|]. split; [|exact C3].
      change (s_pk (schema_of (with_indexes tb old))) with pk in C1. rewrite <- C1 in M. apply puts_cases in M as [M|M]; [| |auto].
      + destruct (FR n) as [_ FRE]. now apply FRE.
      + now apply (RO (pk r)).
    - intros p. specialize (B2 p). rewrite <- OUT in B2 by apply Z. exact B2.
    - intros rest v H. apply (B3 rest v). cbn [s_id schema_of with_indexes t_id] in *. rewrite <- OUT by apply Z. exact H.
    - intros six rest v X. pose proof X as X0. apply (sc_index_inv tbx) in X as [ix [X ->]]. cbn [with_indexes t_indexes] in X. apply in_app_iff in X as [X|X].
      + assert (NA : ~ index_area (t_id tb) idxs (t_id tb :: ix_id ix :: rest)).
        { intros (j & rest' & J & [= N _]). pose proof (law_nodup _ LAW) as ND. cbn [with_indexes t_indexes] in ND. rewrite map_app in ND.
          apply nodup_app_iff in ND as (_ & _ & ND). apply (ND (ix_id ix)); [now apply in_map|]. rewrite N. now apply in_map. }
        specialize (B4 (sindex_of ix) rest v (in_map _ _ _ X)). change (s_id (schema_of (with_indexes tb old)) :: si_id (sindex_of ix) :: rest) with (t_id tb :: ix_id ix :: rest) in B4.
        rewrite <- OUT in B4 by exact NA. exact B4.
      + change (s_id sc :: si_id (sindex_of ix) :: rest) with (t_id tb :: ix_id ix :: rest). split; [apply (UP ix rest v X)|]. intros (-> & r & M & H1 & H2).
        assert (P : kv_get db' (t_id tb :: ix_id ix :: rest) <> None).
        { apply (rows_keep items AS rows E1 _ _ _ _ _ _ _ K2 (fun o (Ho : In o []) => match Ho with end) E).
          apply puts_cases in M as [M|M]; [| |auto].
          - unfold rows_all in M. apply in_app_iff in M as [M|M].
            + right. left. exists []. cbn [app]. apply row_sets_in. split; [auto|]. exists r, ix. split; [|auto]. apply IN. change (mo (pk r) = Some r). unfold mo. now apply puts_has.
            + right. right. exists []. rewrite H2. apply (adds_entry _ _ _ _ (AT n)); auto using idxs_in.
          - right. left. exists []. cbn [app]. apply row_sets_in. split; [auto|]. exists r, ix. split; [|auto]. apply IN. change (mo (pk r) = Some r). unfold mo. now apply puts_keeps. }
        destruct (kv_get db' (t_id tb :: ix_id ix :: rest)) as [w|] eqn:G; [|now destruct P]. now destruct (UP ix rest w X G) as [-> _].
  Qed.
End Adds.

(** ** The batch of an Insert call *)
Section Batch.
  Context {T F : Type}.
  Variables (tb : table T F) (mine full : list (index T)).
  Hypothesis LAW : lawful (with_indexes tb full).
  Hypothesis SUB : incl mine full.
  Notation tbm := (with_indexes tb mine).
  Notation sc := (schema_of (with_indexes tb full)).
  Notation must := (fun ix => In ix (map sindex_of mine)).

  Lemma key_full ix r : In ix full -> encode_index_key (t_id tb) (t_pk tb) ix r [] = entry_key sc (sindex_of ix) r.
  Proof. intros I. rewrite (encode_index_key_eq (with_indexes tb full) LAW) by auto. reflexivity. Qed.

  Lemma data_full r : data_key tbm r = row_key sc (s_pk sc r).
  Proof. exact (data_key_eq (with_indexes tb full) LAW r). Qed.

  Lemma adds_one ev n r v : env_ok ev -> t_ser tb r = Some v ->
    adds sc must [r] (BSet (data_key tbm r) v :: flat_map (fun idx => on_insert (t_id tb) (t_pk tb) idx r) (e_map ev n mine)).
  Proof.
    intros EV V. pose proof (env_map_perm _ EV n mine) as P. constructor.
    - intros o [<-|I]; exists r; (split; [now left|]).
      + left. exists v. split; [exact V|]. now rewrite data_full.
      + right. apply in_flat_map in I as [ix [I J]]. unfold on_insert in J. destruct (ix_filter ix r) eqn:FL; [|easy]. destruct J as [<-|[]].
        assert (X : In ix full) by (apply SUB; eapply Permutation_in; eauto). exists (sindex_of ix). split; [now apply in_map|]. split; [exact FL|].
        now rewrite key_full.
    - intros r' [<-|[]]. exists v. split; [exact V|]. rewrite data_full. now left.
    - intros r' six [<-|[]] X M FL. apply in_map_iff in M as [ix [<- M]]. right. apply in_flat_map. exists ix.
      split; [eapply Permutation_in; [apply Permutation_sym, P|exact M]|]. unfold on_insert. cbn [si_filter sindex_of] in FL. rewrite FL. left. now rewrite key_full by auto.
  Qed.

  Lemma adds_perm a b ops : Permutation a b -> adds sc must a ops -> adds sc must b ops.
  Proof.
    intros P [A B C]. constructor.
    - intros o I. destruct (A o I) as (r & J & H). exists r. split; [eapply Permutation_in; eauto|exact H].
    - intros r I. apply B. eapply Permutation_in; [apply Permutation_sym, P|exact I].
    - intros r ix I X M H. apply C; auto. eapply Permutation_in; [apply Permutation_sym, P|exact I].
  Qed.

  Lemma insert_rows_adds ev it trs : env_ok ev -> forall rs os prev s s', Forall2 (fun o r => nth_error trs o = Some r) os rs ->
    insert_rows tbm ev it trs prev (combine (map (data_key tbm) rs) os) s = (s', Ok tt) ->
    exists ops, w_ops s' = w_ops s ++ ops /\ adds sc must rs ops.
  Proof.
    intros EV. induction rs as [|r rs IH]; intros os prev s s' F2 H.
    - inversion F2; subst. cbn in H. injection H as <-. exists []. rewrite app_nil_r. split; [auto|apply adds_nil].
    - inversion F2 as [|o r' os' rs' Ho F2']; subst. cbn [map combine insert_rows] in H.
      destruct (e_ctx ev (w_tick s)); [easy|]. destruct (_ || _); [easy|]. rewrite Ho in H.
      destruct (t_ser tbm r) as [v|] eqn:V; [|easy].
      apply IH in H; auto. destruct H as [ops [E W]]. rewrite flt_add_ops in E. cbn [w_ops add_ops tick] in E. rewrite <- app_assoc in E.
      eexists. split; [exact E|]. change (r :: rs) with ([r] ++ rs). apply adds_app; [|exact W]. now apply adds_one.
  Qed.

  Lemma insert_call_adds ev rows fl seen : env_ok ev -> th_res (call_at tbm ev (CInsert rows) fl seen) = Some (Ok tt) ->
    adds sc must rows (batch_at tbm ev (CInsert rows) fl seen).
  Proof.
    intros EV. unfold batch_at, call_at.
    assert (INV : forall seen th, th_env th = ev -> th_call th = CInsert rows ->
      (th_res th = None -> adds sc must (handled ev (CInsert rows) (th_num th)) (w_ops (th_st th))) ->
      (th_res th = Some (Ok tt) -> adds sc must rows (w_ops (th_st th))) ->
      let th' := fold_left (fun th m => snd (step_thread tbm (fst m) (snd m) th)) seen th in
      th_res th' = Some (Ok tt) -> adds sc must rows (w_ops (th_st th'))).
    { clear seen. induction seen as [|[db f] seen IH]; intros th E1 E2 I1 I2; cbv zeta; [exact I2|]. cbn [fold_left fst snd].
      unfold step_thread at 2 4. destruct (th_res th) as [r|] eqn:TR; [cbn [snd]; apply IH; auto; rewrite TR; auto|].
      rewrite E1, E2. specialize (I1 eq_refl). destruct (part ev (CInsert rows) (th_num th)) as [l|] eqn:P.
      - destruct (round tbm ev (CInsert rows) db l (with_flt (th_st th) f)) as [s r] eqn:RD.
        destruct r as [u|e| |]; cbn [snd]; apply IH; cbn [th_env th_call th_res th_num th_st]; auto; try discriminate.
        intros _. destruct u. cbn [round] in RD. rewrite (part_handled ev (CInsert rows) _ _ EV P).
        destruct (sort_keys_rows (tb := tbm) (ev := ev) l) as [keys [order [rs [K1 [K2 [PM [SS F2]]]]]]].
        unfold insert_chunk in RD. rewrite K1 in RD. subst keys.
        destruct (map (data_key tbm) rs) as [|k ks] eqn:ER; [easy|]. rewrite <- ER in RD.
        eapply insert_rows_adds in RD; eauto. destruct RD as [ops [W A]]. cbn [w_ops with_flt] in W. rewrite W. apply adds_app; [exact I1|].
        eapply adds_perm; [|exact A]. auto.
      - destruct (commit ev db (w_ops (th_st th))) as [db' r] eqn:C. cbn [snd]. apply IH; cbn [th_env th_call th_res th_num th_st]; auto; try discriminate.
        intros _. rewrite (none_handled ev (CInsert rows) _ EV P) in I1. exact I1. }
    apply INV; cbn [th_env th_call th_res th_num th_st w_ops]; auto; try discriminate. intros _. rewrite handled_0. apply adds_nil.
  Qed.
End Batch.
