(** ReIndex among other writers: what becomes of each key. *)

From Coq Require Import List NArith Lia Bool Arith.
From Verif.Model Require Import Bytes Go Keys Pebble Index Table Concur ReIndex LiveReIndex.
From Verif.Spec Require Import KeySpec StoreSpec TableSpec HistSpec ReIndexSpec LiveReIndexSpec.
From Verif.Proofs Require Import BytesFacts PebbleFacts TableFacts WriteFacts ReIndexFacts.
Import ListNotations.

Lemma leaves_effect k ops : leaves k ops <-> ops_effect ops k = None.
Proof.
  rewrite <- ops_effect_none. unfold leaves. split; intros H o I; specialize (H o I); destruct o as [k' v|k'|lo hi]; cbn [op_touches] in *.
  - apply beqb_neq. congruence.
  - apply beqb_neq. congruence.
  - unfold in_range. destruct (bleb lo k) eqn:A; auto. destruct (bltb k hi) eqn:B; auto. exfalso. apply H. split; [now apply bleb_le|now apply bltb_lt].
  - apply beqb_neq in H. congruence.
  - apply beqb_neq in H. congruence.
  - intros [A B]. apply bleb_le in A. apply bltb_lt in B. unfold in_range in H. rewrite A, B in H. discriminate.
Qed.

Lemma leaves_app k a b : leaves k (a ++ b) <-> leaves k a /\ leaves k b.
Proof.
  unfold leaves. split; [intros H; split; intros o I; apply H, in_app_iff; auto|].
  intros [A B] o I. apply in_app_iff in I as [I|I]; [exact (A o I)|exact (B o I)].
Qed.

Lemma get_leaves db k ops : kv_ok db -> leaves k ops -> kv_get (apply_ops db ops) k = kv_get db k.
Proof. intros K L. rewrite kv_get_apply_ops by auto. apply leaves_effect in L. now rewrite L. Qed.

Lemma get_apply_ops_cong a b k ops : kv_ok a -> kv_ok b -> kv_get a k = kv_get b k -> kv_get (apply_ops a ops) k = kv_get (apply_ops b ops) k.
Proof. intros A B E. rewrite !kv_get_apply_ops by auto. now rewrite E. Qed.

Section Live.
  Context {T F : Type}.
  Variable tb : table T F.
  Variable os : others.
  Variable ev : renv.
  Hypothesis Q : forall n, r_write ev n = true.
  Implicit Types (idxs : list (index T)) (db : kv).

  Notation area idxs k := (index_area (t_id tb) idxs k).
  Notation rng ix k := (in_range [t_id tb; ix_id ix] [t_id tb; n2b (b2n (ix_id ix) + 1)] k).

  Lemma rng_area (ix : index T) k : rng ix k = true -> exists rest, k = t_id tb :: ix_id ix :: rest.
  Proof.
    intros H. destruct (byte_eq_dec (ix_id ix) xff) as [J|J]; [rewrite J, area_range_ff in H; discriminate|]. now apply area_range.
  Qed.

  Lemma live_delete_keys idxs : forall n db, kv_ok db -> exists db', live_delete ev os (t_id tb) idxs n db = (db', n + length idxs, true) /\ kv_ok db' /\
    (forall k, ~ area idxs k -> kv_get db' k = kv_get (apply_ops db (flat_map (o_at os) (seq n (length idxs)))) k) /\
    (forall ix rest, In ix idxs -> ix_id ix <> xff -> leaves (t_id tb :: ix_id ix :: rest) (flat_map (o_at os) (seq n (length idxs))) ->
      kv_get db' (t_id tb :: ix_id ix :: rest) = None).
  Proof.
    induction idxs as [|ix idxs IH]; intros n db K; cbn [live_delete length seq flat_map].
    - exists db. split; [now rewrite Nat.add_0_r|]. split; [auto|]. split; [intros; reflexivity|intros ix rest []].
    - cbv zeta. rewrite Q. set (db0 := apply_ops db (o_at os n)). assert (K0 : kv_ok db0) by (apply apply_ops_ok; auto).
      set (db1 := kv_del_range db0 _ _). assert (K1 : kv_ok db1) by (apply kv_del_range_ok; auto).
      assert (G : forall k, kv_get db1 k = if rng ix k then None else kv_get db0 k) by (intros; apply kv_get_del_range; auto).
      destruct (IH (S n) db1 K1) as (db' & E & K' & A & B). exists db'. split; [rewrite E; now rewrite Nat.add_succ_r|]. split; [auto|]. split.
      + intros k NA. rewrite A by (intros (j & rest & I & ->); apply NA; exists j, rest; split; [now right|auto]).
        rewrite apply_ops_app. apply get_apply_ops_cong; auto. rewrite G. destruct (rng ix k) eqn:R; [|reflexivity].
        apply rng_area in R as [rest ->]. exfalso. apply NA. exists ix, rest. split; [now left|auto].
      + intros j rest I NF L. apply leaves_app in L as [L1 L2].
        destruct (in_dec byte_eq_dec (ix_id j) (map ix_id idxs)) as [J|J].
        * apply in_map_iff in J as [j' [J1 J2]]. rewrite <- J1 in *. now apply B.
        * destruct I as [<-|I]; [|exfalso; apply J; now apply in_map].
          rewrite A.
          -- rewrite get_leaves by auto. rewrite G. rewrite (proj2 (area_range (t_id tb) (ix_id ix) _ NF)); [reflexivity|eauto].
          -- intros (j' & rest' & I' & [= J1 J2]). apply J. rewrite J1. now apply in_map.
  Qed.

  Lemma live_rows_keys idxs (items : kv) : lawful (with_indexes tb idxs) ->
    forall rows, map (fun e => t_deser tb (snd e) (t_nil tb)) items = map Some rows -> forall db n ops c, kv_ok db ->
    (forall k, ~ area idxs k -> leaves k ops) ->
    exists db' w, live_rows ev os tb idxs items db n ops c = (db', n + w, Ok tt) /\ kv_ok db' /\
    (forall k, ~ area idxs k -> kv_get db' k = kv_get (apply_ops db (flat_map (o_at os) (seq n w))) k) /\
    (forall k, leaves k (flat_map (o_at os) (seq n w)) ->
      kv_get db' k = match ops_effect (ops ++ flat_map (row_sets tb idxs) rows) k with Some r => r | None => kv_get db k end).
  Proof.
    intros LAW. induction items as [|[key v] items IH]; intros rows E db n ops c K OK; destruct rows as [|r rows]; try discriminate; cbn [live_rows flat_map].
    - cbv zeta. rewrite Q. exists (apply_ops (apply_ops db (o_at os n)) ops), 1. split; [now rewrite Nat.add_1_r|]. split; [auto using apply_ops_ok|].
      cbn [seq flat_map]. rewrite !app_nil_r. split.
      + intros k NA. rewrite get_leaves; auto using apply_ops_ok.
      + intros k L. rewrite kv_get_apply_ops by auto using apply_ops_ok. destruct (ops_effect ops k); auto. now apply get_leaves.
    - cbn [map snd] in E. injection E as E1 E2. rewrite E1. cbv zeta. fold (row_sets tb idxs r).
      assert (OK' : forall k, ~ area idxs k -> leaves k (ops ++ row_sets tb idxs r)).
      { intros k NA. apply leaves_app. split; [auto|]. apply leaves_effect. apply ops_effect_none. intros o I. unfold row_sets in I.
        apply in_flat_map in I as [ix [I J]]. pose proof (on_insert_under (with_indexes tb idxs) LAW ix r I) as U. rewrite Forall_forall in U.
        apply (op_under_no_touch _ _ o k (U o J)). intros [rest ->]. apply NA. exists ix, rest. auto. }
      destruct (Nat.leb _ _).
      + rewrite Q. set (db0 := apply_ops db (o_at os n)). assert (K0 : kv_ok db0) by (apply apply_ops_ok; auto).
        destruct (IH rows E2 (apply_ops db0 (ops ++ row_sets tb idxs r)) (S n) [] 0) as (db' & w & E' & K' & A & B); [auto using apply_ops_ok|intros k _ o []|].
        exists db', (S w). split; [rewrite E'; now rewrite Nat.add_succ_r|]. split; [auto|]. cbn [seq flat_map]. split.
        * intros k NA. rewrite A by auto. rewrite (apply_ops_app db). apply get_apply_ops_cong; auto using apply_ops_ok. fold db0. apply get_leaves; auto.
        * intros k L. apply leaves_app in L as [L1 L2]. rewrite B by auto. cbn [app]. rewrite app_assoc, ops_effect_app.
          destruct (ops_effect (flat_map (row_sets tb idxs) rows) k); auto. rewrite kv_get_apply_ops by auto.
          destruct (ops_effect (ops ++ _) k); auto. apply get_leaves; auto.
      + destruct (IH rows E2 db n (ops ++ row_sets tb idxs r) (S c) K OK') as (db' & w & E' & K' & A & B).
        exists db', w. split; [auto|]. split; [auto|]. split; [auto|]. intros k L. rewrite B by auto. now rewrite <- app_assoc.
  Qed.

  (** ** The whole call *)
  Lemma live_keys idxs db (m : tmap T) : lawful (with_indexes tb idxs) -> kv_ok db -> ser_fresh tb ->
    Rep (schema_of (with_indexes tb [])) (apply_ops db (before_open os (length idxs))) m ->
    exists db' n, live_re_index ev os tb db idxs = (db', n, Ok tt) /\ length idxs < n /\ kv_ok db' /\
    (forall k, ~ area idxs k -> kv_get db' k = kv_get (apply_ops db (all_of os (length idxs) n)) k) /\
    (forall ix rest v, In ix idxs -> ix_id ix <> xff -> leaves (t_id tb :: ix_id ix :: rest) (all_of os (length idxs) n) ->
      kv_get db' (t_id tb :: ix_id ix :: rest) = Some v <->
      v = [] /\ exists r, m (s_pk (schema_of tb) r) = Some r /\ ix_filter ix r = true /\ t_id tb :: ix_id ix :: rest = entry_key (schema_of tb) (sindex_of ix) r).
  Proof.
    intros LAW K SF R. unfold live_re_index. destruct (live_delete_keys idxs 0 db K) as (db1 & E & K1 & A & B). rewrite E. cbn [Nat.add]. cbv zeta.
    set (db2 := apply_ops db1 (o_open os)). assert (K2 : kv_ok db2) by (apply apply_ops_ok; auto).
    assert (A2 : forall k, ~ area idxs k -> kv_get db2 k = kv_get (apply_ops db (before_open os (length idxs))) k).
    { intros k NA. unfold before_open. rewrite apply_ops_app. apply get_apply_ops_cong; auto using apply_ops_ok. }
    assert (Z : forall rest, ~ area idxs (t_id tb :: x00 :: rest)).
    { intros rest (j & rest' & J & [= N _]). apply (law_nonzero _ LAW j J). auto. }
    assert (R' : Rep (schema0 tb) db2 m).
    { destruct R as [R1 R2 R3 R4]. constructor; auto.
      - intros pk. rewrite <- R2. apply A2. apply Z.
      - intros rest v H. apply (R3 rest v). rewrite <- A2; [exact H|apply Z].
      - intros ix rest v []. }
    destruct (items_rows tb idxs db2 m K2 SF R') as (rows & E1 & IN). cbv zeta in *.
    destruct (live_rows_keys idxs _ LAW rows E1 db2 (length idxs) [] 0 K2) as (db' & w & E' & K' & A' & B'); [intros k _ o []|].
    exists db', (length idxs + w). split; [exact E'|].
    assert (W : 0 < w).
    { clear - E'. assert (G : forall idxs (items : kv) db n ops c d n', live_rows ev os tb idxs items db n ops c = (d, n', Ok tt) -> n < n').
      { intros l items. induction items as [|[key v] items IH]; intros db0 n ops c d n' H; cbn [live_rows] in H.
        - cbv zeta in H. destruct (r_write ev n); [|discriminate]. injection H as _ <-. lia.
        - destruct (t_deser tb v (t_nil tb)); [|discriminate]. cbv zeta in H. destruct (Nat.leb _ _).
          + destruct (r_write ev n); [|discriminate]. apply IH in H. lia.
          + apply IH in H. lia. }
      apply G in E'. lia. }
    split; [lia|]. split; [auto|]. unfold all_of. replace (length idxs + w - length idxs) with w by lia. split.
    - intros k NA. rewrite A' by auto. rewrite apply_ops_app. apply get_apply_ops_cong; auto using apply_ops_ok.
    - intros ix rest v I NF L. apply leaves_app in L as [L1 L2]. unfold before_open in L1. apply leaves_app in L1 as [L0 L1].
      rewrite B' by auto. cbn [app]. rewrite (row_sets_effect tb idxs LAW) by auto.
      assert (X : existsb (fun r => ix_filter ix r && beqb (t_id tb :: ix_id ix :: rest) (entry_key (schema_of (with_indexes tb idxs)) (sindex_of ix) r)) rows = true <->
        exists r, m (s_pk (schema_of tb) r) = Some r /\ ix_filter ix r = true /\ t_id tb :: ix_id ix :: rest = entry_key (schema_of tb) (sindex_of ix) r).
      { rewrite existsb_exists. split.
        - intros (r & A1 & A3). apply andb_true_iff in A3 as [A3 A4]. apply beqb_eq in A4. exists r. apply IN in A1. auto.
        - intros (r & A1 & A3 & A4). exists r. split; [apply IN; exact A1|]. rewrite A3. apply beqb_eq. exact A4. }
      destruct (existsb _ rows) eqn:EX.
      + split; [intros [= <-]; split; [reflexivity|now apply X]|]. intros [-> _]. reflexivity.
      + unfold db2. rewrite get_leaves by auto. rewrite B by auto. split; [discriminate|]. intros [_ H]. apply X in H. discriminate.
  Qed.
End Live.

(** With nobody else it is the ReIndex of Model/ReIndex.v. *)
Lemma live_alone {T F} (tb : table T F) ev os db idxs : (forall n, o_at os n = []) -> o_open os = [] ->
  let '(db', n, r) := live_re_index ev os tb db idxs in (db', r) = re_index ev tb db idxs.
Proof.
  intros Z1 Z2. unfold live_re_index, re_index.
  assert (D : forall n d, live_delete ev os (t_id tb) idxs n d = re_delete ev (t_id tb) idxs n d).
  { induction idxs as [|ix idxs IH]; intros n d; cbn [live_delete re_delete]; [reflexivity|]. cbv zeta. rewrite Z1. cbn [apply_ops fold_left].
    destruct (r_write ev n); auto. }
  rewrite D. destruct (re_delete ev (t_id tb) idxs 0 db) as [[db1 n] ok]. destruct ok; [|reflexivity]. rewrite Z2. cbn [apply_ops fold_left]. cbv zeta.
  set (items := items_from _ _). clearbody items. clear D. generalize (@nil bop). generalize 0. revert db1 n.
  induction items as [|[k v] items IH]; intros d n c ops; cbn [live_rows re_rows].
  - cbv zeta. rewrite Z1. cbn [apply_ops fold_left]. destruct (r_write ev n); reflexivity.
  - destruct (t_deser tb v (t_nil tb)); [|reflexivity]. cbv zeta. rewrite Z1. cbn [apply_ops fold_left]. destruct (Nat.leb _ _); [destruct (r_write ev n); [apply IH|reflexivity]|apply IH].
Qed.
