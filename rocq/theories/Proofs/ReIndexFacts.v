(** What AddIndex and ReIndex do. *)

From Coq Require Import List NArith Lia Bool Arith Sorting.Sorted.
From Verif.Model Require Import Bytes Go Keys Pebble Index Table ReIndex.
From Verif.Spec Require Import KeySpec StoreSpec TableSpec ReIndexSpec.
From Verif.Proofs Require Import BytesFacts KeysFacts PebbleFacts TableFacts.
Import ListNotations.

(** ** AddIndex *)
Section Add.
  Context {T : Type}.
  Implicit Types m idxs : list (index T).

  Lemma has_index_in m i : has_index m i = true <-> In i (map ix_id m).
  Proof.
    unfold has_index. rewrite existsb_exists, in_map_iff. split.
    - intros [j [Hj E]]. exists j. split; auto. now apply Byte.byte_dec_bl in E.
    - intros [j [E Hj]]. exists j. split; auto. subst. now apply Byte.byte_dec_lb.
  Qed.

  Lemma add_loop_ok idxs : forall m, NoDup (map ix_id idxs) -> (forall j, In j idxs -> ~ In (ix_id j) (map ix_id m)) ->
    add_loop m idxs = (m ++ idxs, None).
  Proof.
    induction idxs as [|ix idxs IH]; intros m N D; cbn [add_loop]; [now rewrite app_nil_r|].
    destruct (has_index m (ix_id ix)) eqn:H.
    - apply has_index_in in H. exfalso. exact (D ix (or_introl eq_refl) H).
    - cbn [map] in N. inversion N; subst. rewrite IH; auto; [now rewrite <- app_assoc|].
      intros j Hj. rewrite map_app, in_app_iff. intros [Q|[Q|[]]]; [now apply (D j (or_intror Hj))|].
      apply H2. rewrite Q. now apply in_map.
  Qed.

  Lemma add_loop_dup idxs : forall m before ix after, first_duplicate m idxs before ix after ->
    add_loop m idxs = (m ++ before, Some (ix_id ix)).
  Proof.
    intros m before. revert m idxs. induction before as [|b before IH]; intros m idxs ix after (E & N & D & I); subst idxs.
    - cbn [app add_loop]. rewrite app_nil_r in *. apply has_index_in in I. now rewrite I.
    - cbn [app add_loop]. destruct (has_index m (ix_id b)) eqn:H.
      + apply has_index_in in H. exfalso. exact (D b (or_introl eq_refl) H).
      + cbn [map] in N. inversion N; subst. rewrite (IH (m ++ [b]) (before ++ ix :: after) ix after); [now rewrite <- app_assoc|].
        split; [reflexivity|]. split; [auto|]. split.
        * intros j Hj. rewrite map_app, in_app_iff. intros [Q|[Q|[]]]; [now apply (D j (or_intror Hj))|].
          apply H2. rewrite Q. now apply in_map.
        * now rewrite <- app_assoc.
  Qed.

  Lemma dup_or_not m idxs : NoDup (map ix_id m) ->
    NoDup (map ix_id (m ++ idxs)) \/ exists before ix after, first_duplicate m idxs before ix after.
  Proof.
    revert m. induction idxs as [|ix idxs IH]; intros m N; [left; now rewrite app_nil_r|].
    destruct (has_index m (ix_id ix)) eqn:H.
    - right. exists [], ix, idxs. split; [reflexivity|]. split; [constructor|]. split; [easy|].
      rewrite app_nil_r. now apply has_index_in.
    - assert (H' : ~ In (ix_id ix) (map ix_id m)) by (intros Q; apply has_index_in in Q; congruence).
      assert (N' : NoDup (map ix_id (m ++ [ix]))).
      { rewrite map_app. cbn [map]. apply NoDup_Add with (a := ix_id ix) (l := map ix_id m).
        - replace (map ix_id m) with (map ix_id m ++ []) at 1 by apply app_nil_r. apply Add_app.
        - auto. }
      destruct (IH (m ++ [ix]) N') as [Q|(before & jx & after & E & A & B & C)].
      + left. now rewrite <- app_assoc in Q.
      + right. exists (ix :: before), jx, after. subst idxs. split; [reflexivity|]. split; [|split].
        * cbn [map]. constructor; auto. intros Q. apply in_map_iff in Q as [j [Q1 Q2]]. apply (B j Q2).
          rewrite Q1, map_app, in_app_iff. right. left. reflexivity.
        * intros j [<-|Hj] Q; [now apply H'|]. apply (B j Hj). rewrite map_app, in_app_iff. auto.
        * now rewrite <- app_assoc in C.
  Qed.

  Lemma add_index_ok (st : ix_state T) idxs : xs_held st = false -> NoDup (map ix_id idxs) ->
    (forall j, In j idxs -> ~ In (ix_id j) (map ix_id (xs_map st))) ->
    add_index st idxs = (IxState (xs_map st ++ idxs) false, Ok tt).
  Proof. intros H N D. unfold add_index. now rewrite H, add_loop_ok. Qed.

  Lemma add_index_dup (st : ix_state T) idxs before ix after : xs_held st = false -> first_duplicate (xs_map st) idxs before ix after ->
    add_index st idxs = (IxState (xs_map st ++ before) true, Err (EDuplicateIndex (ix_id ix))).
  Proof. intros H D. unfold add_index. now rewrite H, (add_loop_dup _ _ _ _ _ D). Qed.

  Lemma add_index_blocks (st : ix_state T) idxs before ix after : xs_held st = false -> first_duplicate (xs_map st) idxs before ix after ->
    let st' := fst (add_index st idxs) in
    snd (add_index st idxs) = Err (EDuplicateIndex (ix_id ix)) /\ (forall l, add_index st' l = (st', Diverge)) /\
    (forall A (f : list (index T) -> res A), with_read_lock st' f = Diverge) /\ xs_map st' = xs_map st ++ before.
  Proof.
    intros H D. cbv zeta. rewrite (add_index_dup _ _ _ _ _ H D). cbn [fst snd xs_map].
    split; [reflexivity|]. split; [reflexivity|]. split; reflexivity.
  Qed.
End Add.

(** ** The ranges that ReIndex deletes *)
Lemma area_range t i k : i <> xff -> in_range [t; i] [t; n2b (b2n i + 1)] k = true <-> exists rest, k = t :: i :: rest.
Proof.
  intros NF. assert (L : (b2n i + 1 < 256)%N).
  { pose proof (b2n_lt i). assert (b2n i <> 255%N); [|lia]. intros E. apply NF. apply b2n_inj. rewrite E. reflexivity. }
  assert (S : b2n (n2b (b2n i + 1)) = (b2n i + 1)%N) by (rewrite b2n_n2b; apply N.mod_small; auto).
  unfold in_range. rewrite andb_true_iff, bleb_le, bltb_lt. unfold ble, blt. split.
  - intros [A B]. destruct k as [|a [|b k]].
    + exfalso. cbn in A. congruence.
    + rewrite bcmp_cons in A, B. rewrite (N.compare_antisym (b2n t) (b2n a)) in B. destruct (N.compare (b2n t) (b2n a)) eqn:C; cbn in A, B; congruence.
    + rewrite bcmp_cons in A, B. rewrite (N.compare_antisym (b2n t) (b2n a)) in B. destruct (N.compare (b2n t) (b2n a)) eqn:C; cbn [CompOpp] in A, B; try congruence.
      apply N.compare_eq in C. apply b2n_inj in C. subst a. rewrite bcmp_cons in A, B. rewrite S in B.
      assert (E : b2n b = b2n i).
      { destruct (N.compare_spec (b2n i) (b2n b)) as [C|C|C]; [auto| |congruence].
        destruct (N.compare_spec (b2n b) (b2n i + 1)) as [D|D|D]; [|lia|congruence].
        exfalso. destruct k; cbn in B; congruence. }
      apply b2n_inj in E. subst b. eauto.
  - intros [rest ->]. split.
    + change (t :: i :: rest) with ([t; i] ++ rest). apply ble_app.
    + rewrite bcmp_cons, N.compare_refl, bcmp_cons, S. replace (b2n i ?= b2n i + 1)%N with Lt; auto. symmetry. apply N.compare_lt_iff. lia.
Qed.

Lemma area_range_ff t k : in_range [t; xff] [t; n2b (b2n xff + 1)] k = false.
Proof.
  replace (n2b (b2n xff + 1)) with x00 by reflexivity. unfold in_range.
  destruct (bleb [t; xff] k) eqn:A; auto. destruct (bltb k [t; x00]) eqn:B; auto. exfalso.
  apply bleb_le in A. apply bltb_lt in B. apply (blt_irrefl [t; xff]). eapply ble_lt_trans; [eauto|]. eapply blt_le_trans; [eauto|].
  apply blt_le. unfold blt. rewrite bcmp_cons, N.compare_refl. reflexivity.
Qed.

Section Facts.
  Context {T F : Type}.
  Variable tb : table T F.
  Implicit Types (idxs : list (index T)) (db : kv).

  Lemma re_delete_inv ev idxs : forall n db, kv_ok db -> forall db' n' ok, re_delete ev (t_id tb) idxs n db = (db', n', ok) ->
    kv_ok db' /\ (forall k, ~ index_area (t_id tb) idxs k -> kv_get db' k = kv_get db k) /\
    (ok = true -> forall k ix rest, In ix idxs -> ix_id ix <> xff -> k = t_id tb :: ix_id ix :: rest -> kv_get db' k = None) /\
    (forall rest, kv_get db' (t_id tb :: xff :: rest) = kv_get db (t_id tb :: xff :: rest)).
  Proof.
    induction idxs as [|ix idxs IH]; intros n db K db' n' ok E; cbn [re_delete] in E.
    - injection E as <- <- <-. split; [auto|]. split; [auto|]. split; [easy|auto].
    - destruct (r_write ev n).
      2: { injection E as <- <- <-. split; [auto|]. split; [auto|]. split; [easy|auto]. }
      set (db1 := kv_del_range db _ _) in E. assert (K1 : kv_ok db1) by (apply kv_del_range_ok; auto).
      destruct (IH _ _ K1 _ _ _ E) as (A & B & C & D). split; [auto|].
      assert (G : forall k, kv_get db1 k = if in_range [t_id tb; ix_id ix] [t_id tb; n2b (b2n (ix_id ix) + 1)] k then None else kv_get db k)
        by (intros; apply kv_get_del_range; auto).
      split; [|split].
      + intros k NA. rewrite B.
        * rewrite G. destruct (in_range _ _ k) eqn:IR; auto. exfalso. destruct (byte_eq_dec (ix_id ix) xff) as [Q|Q].
          -- rewrite Q, area_range_ff in IR. discriminate.
          -- apply (area_range _ _ _ Q) in IR as [rest ->]. apply NA. exists ix, rest. split; [now left|reflexivity].
        * intros (j & rest & Hj & ->). apply NA. exists j, rest. split; [now right|reflexivity].
      + intros OK k j rest [<-|Hj] NF ->; [|now apply (C OK _ j rest)].
        destruct (kv_get db' (t_id tb :: ix_id ix :: rest)) eqn:Q; auto. exfalso.
        (* either a later index with the same id cleared it too, or it was already gone *)
        destruct (in_dec byte_eq_dec (ix_id ix) (map ix_id idxs)) as [I|I].
        * apply in_map_iff in I as [j [I1 I2]]. rewrite (C OK (t_id tb :: ix_id ix :: rest) j rest) in Q; auto; congruence.
        * rewrite B, G in Q.
          -- rewrite (proj2 (area_range (t_id tb) (ix_id ix) (t_id tb :: ix_id ix :: rest) NF)) in Q; [discriminate|eauto].
          -- intros (j & rest' & Hj & [= J _]). apply I. rewrite J. now apply in_map.
      + intros rest. rewrite D, G. destruct (byte_eq_dec (ix_id ix) xff) as [Q|Q]; [now rewrite Q, area_range_ff|].
        destruct (in_range _ _ (t_id tb :: xff :: rest)) eqn:IR; auto. apply (area_range _ _ _ Q) in IR as [r [= J]]. now destruct Q.
  Qed.

  Lemma re_delete_quiet ev idxs : (forall n, r_write ev n = true) -> forall n db, exists db' n', re_delete ev (t_id tb) idxs n db = (db', n', true).
  Proof. intros Q. induction idxs as [|ix idxs IH]; intros n db; cbn [re_delete]; [eauto|]. rewrite Q. auto. Qed.

  (** ** The rows loop *)
  Definition row_sets idxs (r : T) : list bop := flat_map (fun ix => on_insert (t_id tb) (t_pk tb) ix r) idxs.

  Lemma re_rows_quiet ev idxs (items : kv) : (forall n, r_write ev n = true) -> forall rows, map (fun e => t_deser tb (snd e) (t_nil tb)) items = map Some rows ->
    forall db n ops c, re_rows ev tb idxs items db n ops c = (apply_ops (apply_ops db ops) (flat_map (row_sets idxs) rows), Ok tt).
  Proof.
    intros Q. induction items as [|[k v] items IH]; intros rows E db n ops c; destruct rows as [|r rows]; try discriminate; cbn [re_rows flat_map].
    - rewrite Q. reflexivity.
    - cbn [map snd] in E. injection E as E1 E2. rewrite E1. cbv zeta. fold (row_sets idxs r). destruct (Nat.leb _ _).
      + rewrite Q, (IH rows E2). cbn [apply_ops fold_left]. change (fold_left apply_op) with (fun l s => apply_ops s l). cbv beta.
        rewrite !apply_ops_app. reflexivity.
      + rewrite (IH rows E2). rewrite !apply_ops_app. reflexivity.
  Qed.

  Lemma re_rows_inv ev idxs (items : kv) (P : kv -> Prop) : (forall db r ix o, P db -> In ix idxs -> In o (on_insert (t_id tb) (t_pk tb) ix r) -> P (apply_op db o)) ->
    forall db n ops c, P db -> (forall o, In o ops -> exists r ix, In ix idxs /\ In o (on_insert (t_id tb) (t_pk tb) ix r)) ->
    P (fst (re_rows ev tb idxs items db n ops c)).
  Proof.
    intros ST. assert (AP : forall ops db, P db -> (forall o, In o ops -> exists r ix, In ix idxs /\ In o (on_insert (t_id tb) (t_pk tb) ix r)) -> P (apply_ops db ops)).
    { induction ops as [|o ops IH]; intros db H O; auto. cbn [apply_ops fold_left]. apply IH; [|intros; apply O; now right].
      destruct (O o (or_introl eq_refl)) as (r & ix & I & J). eauto. }
    induction items as [|[k v] items IH]; intros db n ops c H O; cbn [re_rows].
    - destruct (r_write ev n); cbn [fst]; auto.
    - destruct (t_deser tb v (t_nil tb)) as [r|]; cbn [fst]; auto. cbv zeta.
      assert (O' : forall o, In o (ops ++ flat_map (fun ix => on_insert (t_id tb) (t_pk tb) ix r) idxs) -> exists r ix, In ix idxs /\ In o (on_insert (t_id tb) (t_pk tb) ix r)).
      { intros o Ho. apply in_app_iff in Ho as [Ho|Ho]; auto. apply in_flat_map in Ho as [ix [I J]]. eauto. }
      destruct (Nat.leb _ _); [destruct (r_write ev n); cbn [fst]; auto|auto]. apply IH; [apply AP; auto|easy].
  Qed.
End Facts.

Section Exact.
  Context {T F : Type}.
  Variable tb : table T F.
  Variable idxs : list (index T).
  Notation tbx := (with_indexes tb idxs).
  Hypothesis LAW : lawful tbx.
  Notation sc := (schema_of tbx).

  Lemma primary_prefix_eq : primary_prefix tb = [t_id tb; x00; x00; x00; x00; x00].
  Proof. reflexivity. Qed.

  (** Whatever happens, nothing outside the indexes changes. *)
  Lemma re_index_outside ev db : kv_ok db ->
    kv_ok (fst (re_index ev tb db idxs)) /\
    forall k, ~ index_area (t_id tb) idxs k -> kv_get (fst (re_index ev tb db idxs)) k = kv_get db k.
  Proof.
    intros K. unfold re_index. destruct (re_delete ev (t_id tb) idxs 0 db) as [[db1 n] ok] eqn:E.
    destruct (re_delete_inv tb ev idxs 0 db K _ _ _ E) as (A & B & C & D). destruct ok; [|cbn [fst]; auto]. cbv zeta.
    apply (re_rows_inv tb ev idxs _ (fun s => kv_ok s /\ forall k, ~ index_area (t_id tb) idxs k -> kv_get s k = kv_get db k)); auto; [|easy].
    intros s r ix o [K1 H] I J. split; [apply apply_op_ok; auto|]. intros k NA. rewrite kv_get_apply_op by auto.
    pose proof (on_insert_under tbx LAW ix r I) as U. rewrite Forall_forall in U. specialize (U o J). cbn [with_indexes t_id] in U.
    rewrite (op_under_no_touch _ _ o k U); auto. intros [rest ->]. apply NA. exists ix, rest. auto.
  Qed.

  Lemma row_sets_effect rows ix rest : In ix idxs ->
    ops_effect (flat_map (row_sets tb idxs) rows) (t_id tb :: ix_id ix :: rest) =
    if existsb (fun r => ix_filter ix r && beqb (t_id tb :: ix_id ix :: rest) (entry_key sc (sindex_of ix) r)) rows then Some (Some []) else None.
  Proof.
    intros I. induction rows as [|r rows IH]; [reflexivity|]. cbn [flat_map existsb]. rewrite ops_effect_app, IH.
    rewrite (orb_comm (_ && _)). destruct (existsb _ rows); cbn [orb]; auto.
    unfold row_sets. rewrite (ops_effect_flat_map (t_id tb) _ idxs ix rest); auto.
    - apply (on_insert_effect tbx LAW ix r _ I).
    - intros j J. apply (on_insert_under tbx LAW j r J).
    - apply (law_nodup _ LAW).
  Qed.

  Definition schema0 := schema_of (with_indexes tb []).

  (** The rows that the iterator meets. *)
  Lemma items_rows db (m : tmap T) : kv_ok db -> ser_fresh tb -> Rep schema0 db m ->
    let p := primary_prefix tb in
    exists rows, map (fun e => t_deser tb (snd e) (t_nil tb)) (items_from (new_iter db p (key_successor p)) p) = map Some rows /\
    forall r, In r rows <-> m (s_pk sc r) = Some r.
  Proof.
    intros K SF [R1 R2 R3 R4]. cbv zeta. rewrite primary_prefix_eq.
    replace (key_successor [t_id tb; x00; x00; x00; x00; x00]) with [t_id tb; x00; x00; x00; x00; x01] by reflexivity.
    set (lo := [t_id tb; x00; x00; x00; x00; x00]). set (hi := [t_id tb; x00; x00; x00; x00; x01]).
    assert (IT : items_from (new_iter db lo hi) lo = kv_range db lo hi).
    { unfold items_from, new_iter. cbn [pi_items]. destruct (kv_range db lo hi) as [|[k v] l] eqn:Q; [reflexivity|].
      cbn [find_ge]. replace (bleb lo k) with true; [reflexivity|]. symmetry.
      assert (I : In (k, v) (kv_range db lo hi)) by (rewrite Q; now left). unfold kv_range in I. apply filter_In in I as [_ I].
      unfold in_range in I. cbn [fst] in I. now apply andb_true_iff in I as [I _]. }
    rewrite IT.
    assert (IN : forall k v, In (k, v) (kv_range db lo hi) <-> exists pk r, m pk = Some r /\ k = row_key schema0 pk /\ s_val schema0 r = Some v).
    { intros k v. rewrite <- (kv_get_in _ _ _ (kv_range_ok db lo hi K)), kv_get_range by auto. split.
      - intros H. destruct (in_range lo hi k) eqn:IR; [|discriminate]. unfold in_range in IR. apply andb_true_iff in IR as [I1 I2].
        apply bleb_le in I1. apply bltb_lt in I2.
        assert (exists rest, k = t_id tb :: x00 :: rest) as [rest ->].
        { unfold ble, blt in I1, I2. subst lo hi. destruct k as [|a [|b k]]; [cbn in I1; congruence| |].
          - rewrite bcmp_cons in I1, I2. rewrite (N.compare_antisym (b2n (t_id tb)) (b2n a)) in I2. destruct (N.compare (b2n (t_id tb)) (b2n a)); cbn in I1, I2; congruence.
          - rewrite bcmp_cons in I1, I2. rewrite (N.compare_antisym (b2n (t_id tb)) (b2n a)) in I2. destruct (N.compare (b2n (t_id tb)) (b2n a)) eqn:C; cbn [CompOpp] in I1, I2; try congruence.
            apply N.compare_eq in C. apply b2n_inj in C. subst a. rewrite bcmp_cons in I1, I2.
            destruct (N.compare (b2n b) (b2n x00)) eqn:C2; try congruence.
            + apply N.compare_eq in C2. apply b2n_inj in C2. subst b. eauto.
            + exfalso. apply (proj1 (N.compare_lt_iff _ _)) in C2. cbn in C2. lia. }
        destruct (R3 rest v H) as [pk Q]. cbn [s_id schema0 schema_of with_indexes t_id] in Q. rewrite Q in H |- *. rewrite R2 in H.
        destruct (m pk) as [r|] eqn:M; [|discriminate]. exists pk, r. auto.
      - intros (pk & r & M & -> & V). specialize (R2 pk). rewrite M in R2. rewrite R2.
        replace (in_range lo hi (row_key schema0 pk)) with true; [auto|]. symmetry. unfold in_range. apply andb_true_iff. rewrite bleb_le, bltb_lt. split.
        + change (row_key schema0 pk) with (lo ++ [x00; x00; x00; x00] ++ pk). apply ble_app.
        + change (row_key schema0 pk) with ([t_id tb; x00; x00; x00; x00] ++ x00 :: [x00; x00; x00; x00] ++ pk).
          change hi with ([t_id tb; x00; x00; x00; x00] ++ [x01]). apply blt_app_l. reflexivity. }
    assert (EX : forall l : kv, (forall k v, In (k, v) l -> exists r, t_deser tb v (t_nil tb) = Some r) ->
      exists rows, map (fun e => t_deser tb (snd e) (t_nil tb)) l = map Some rows).
    { induction l as [|[k v] l IH]; intros H; [exists []; reflexivity|]. destruct (H k v (or_introl eq_refl)) as [r E].
      destruct IH as [rows E2]; [intros k' v' I; apply (H k' v'); now right|]. exists (r :: rows). cbn [map snd]. now rewrite E, E2. }
    destruct (EX (kv_range db lo hi)) as [rows E].
    { intros k v I. apply IN in I as (pk & r & M & -> & V). exists r. now apply SF. }
    exists rows. split; [auto|]. intros r. split.
    - intros I. assert (In (Some r) (map Some rows)) as I' by now apply in_map. rewrite <- E in I'. apply in_map_iff in I' as [[k v] [D J]].
      apply IN in J as (pk & q & M & -> & V). cbn [snd] in D. rewrite (SF _ _ V) in D. injection D as ->.
      destruct (R1 _ _ M) as [P _]. cbn [s_pk schema0 schema_of with_indexes t_pk] in *. now rewrite P.
    - intros M. destruct (R1 _ _ M) as (_ & _ & V). destruct (s_val schema0 r) as [v|] eqn:V'; [|now destruct V].
      assert (In (row_key schema0 (s_pk sc r), v) (kv_range db lo hi)) as J by (apply IN; eauto).
      assert (In (Some r) (map Some rows)) as I'.
      { rewrite <- E. apply in_map_iff. exists (row_key schema0 (s_pk sc r), v). cbn [snd]. split; [now apply SF|auto]. }
      apply in_map_iff in I' as [q [[= ->] J']]. auto.
  Qed.

  (** A call whose writes all succeed: the content of every index afterwards. *)
  Lemma re_index_effect ev db (m : tmap T) : kv_ok db -> ser_fresh tb -> Rep schema0 db m -> (forall n, r_write ev n = true) ->
    exists db', re_index ev tb db idxs = (db', Ok tt) /\
    forall ix rest v, In ix idxs ->
      kv_get db' (t_id tb :: ix_id ix :: rest) = Some v <->
      (v = [] /\ exists r, m (s_pk sc r) = Some r /\ ix_filter ix r = true /\ t_id tb :: ix_id ix :: rest = entry_key sc (sindex_of ix) r) \/
      (ix_id ix = xff /\ kv_get db (t_id tb :: ix_id ix :: rest) = Some v /\
       ~ exists r, m (s_pk sc r) = Some r /\ ix_filter ix r = true /\ t_id tb :: ix_id ix :: rest = entry_key sc (sindex_of ix) r).
  Proof.
    intros K SF R Q. unfold re_index. destruct (re_delete_quiet tb ev idxs Q 0 db) as (db1 & n & E). rewrite E.
    destruct (re_delete_inv tb ev idxs 0 db K _ _ _ E) as (K1 & B & C & D).
    assert (Z : forall rest, ~ index_area (t_id tb) idxs (t_id tb :: x00 :: rest)).
    { intros rest (j & rest' & J & [= N _]). apply (law_nonzero _ LAW j J). auto. }
    assert (R' : Rep schema0 db1 m).
    { destruct R as [R1 R2 R3 R4]. constructor; auto.
      - intros pk. rewrite <- R2. apply B. apply Z.
      - intros rest v H. apply (R3 rest v). rewrite <- B; [exact H|apply Z].
      - intros ix rest v []. }
    destruct (items_rows db1 m K1 SF R') as (rows & E1 & IN). cbv zeta in *.
    rewrite (re_rows_quiet tb ev idxs _ Q rows E1). cbn [apply_ops fold_left].
    change (fold_left apply_op (flat_map (row_sets tb idxs) rows) db1) with (apply_ops db1 (flat_map (row_sets tb idxs) rows)).
    eexists. split; [reflexivity|]. intros ix rest v I. rewrite kv_get_apply_ops by auto. rewrite row_sets_effect by auto.
    assert (X : existsb (fun r => ix_filter ix r && beqb (t_id tb :: ix_id ix :: rest) (entry_key sc (sindex_of ix) r)) rows = true <->
      exists r, m (s_pk sc r) = Some r /\ ix_filter ix r = true /\ t_id tb :: ix_id ix :: rest = entry_key sc (sindex_of ix) r).
    { rewrite existsb_exists. split.
      - intros (r & A1 & A2). apply andb_true_iff in A2 as [A2 A3]. apply beqb_eq in A3. exists r. apply IN in A1. auto.
      - intros (r & A1 & A2 & A3). exists r. apply IN in A1. split; auto. rewrite A2, A3. apply beqb_refl. }
    destruct (existsb _ rows) eqn:EX.
    - split.
      + intros [= <-]. left. split; [reflexivity|]. apply X. reflexivity.
      + intros [[-> _]|(_ & _ & N)]; [reflexivity|]. exfalso. apply N. apply X. reflexivity.
    - assert (NE : ~ exists r, m (s_pk sc r) = Some r /\ ix_filter ix r = true /\ t_id tb :: ix_id ix :: rest = entry_key sc (sindex_of ix) r)
        by (intros H; apply X in H; discriminate).
      destruct (byte_eq_dec (ix_id ix) xff) as [J|J].
      + rewrite J, D. split; [intros H; right; rewrite J in NE; auto|]. intros [[_ H]|(_ & H & _)]; [|exact H]. exfalso. apply NE. rewrite J. exact H.
      + rewrite (C eq_refl _ ix rest I J eq_refl). split; [discriminate|]. intros [[_ H]|(H & _)]; [now destruct NE|congruence].
  Qed.

  Lemma re_index_exact ev db (m : tmap T) : kv_ok db -> ser_fresh tb -> Rep schema0 db m -> (forall n, r_write ev n = true) ->
    (forall pk r, m pk = Some r -> row_ok sc r) -> (forall ix, In ix idxs -> ix_id ix <> xff) ->
    exists db', re_index ev tb db idxs = (db', Ok tt) /\ kv_ok db' /\ Rep sc db' m /\
    forall k, ~ index_area (t_id tb) idxs k -> kv_get db' k = kv_get db k.
  Proof.
    intros K SF R Q RO NF. destruct (re_index_outside ev db K) as [K' OUT]. destruct (re_index_effect ev db m K SF R Q) as (db' & E & EFF).
    rewrite E in K', OUT. cbn [fst] in K', OUT. exists db'. split; [auto|]. split; [auto|]. split; [|auto].
    assert (Z : forall rest, ~ index_area (t_id tb) idxs (t_id tb :: x00 :: rest)).
    { intros rest (j & rest' & J & [= N _]). apply (law_nonzero _ LAW j J). auto. }
    destruct R as [R1 R2 R3 R4]. constructor.
    - intros pk r M. destruct (R1 pk r M) as (A & _ & B). split; [exact A|]. split; [now apply (RO pk)|exact B].
    - intros pk. change (row_key sc pk) with (row_key schema0 pk). rewrite OUT; [exact (R2 pk)|apply Z].
    - intros rest v H. apply (R3 rest v). cbn [s_id schema_of with_indexes t_id schema0] in *. rewrite OUT in H; [exact H|apply Z].
    - intros six rest v I. apply (sc_index_inv tbx) in I as [ix [I ->]]. cbn [with_indexes t_indexes] in I.
      cbn [s_id schema_of with_indexes t_id si_id sindex_of]. rewrite (EFF ix rest v I). split.
      + intros [H|(H & _)]; [exact H|]. now destruct (NF ix I).
      + intros H. left. exact H.
  Qed.

  (** Interrupted at any write and repeated: the same as if it had never been interrupted. *)
  Lemma re_index_again ev1 ev2 ev3 db (m : tmap T) : kv_ok db -> ser_fresh tb -> Rep schema0 db m ->
    (forall n, r_write ev2 n = true) -> (forall n, r_write ev3 n = true) ->
    (forall pk r, m pk = Some r -> row_ok sc r) -> (forall ix, In ix idxs -> ix_id ix <> xff) ->
    re_index ev2 tb (fst (re_index ev1 tb db idxs)) idxs = re_index ev3 tb db idxs.
  Proof.
    intros K SF R Q2 Q3 RO NF. destruct (re_index_outside ev1 db K) as [K1 OUT]. set (db1 := fst (re_index ev1 tb db idxs)) in *.
    assert (Z : forall rest, ~ index_area (t_id tb) idxs (t_id tb :: x00 :: rest)).
    { intros rest (j & rest' & J & [= N _]). apply (law_nonzero _ LAW j J). auto. }
    assert (R' : Rep schema0 db1 m).
    { destruct R as [R1 R2 R3 R4]. constructor; auto.
      - intros pk. rewrite <- R2. apply OUT. apply Z.
      - intros rest v H. apply (R3 rest v). rewrite <- OUT; [exact H|apply Z].
      - intros ix rest v []. }
    destruct (re_index_effect ev2 db1 m K1 SF R' Q2) as (a & E2 & F2). destruct (re_index_effect ev3 db m K SF R Q3) as (b & E3 & F3).
    destruct (re_index_outside ev2 db1 K1) as [Ka Oa]. destruct (re_index_outside ev3 db K) as [Kb Ob].
    rewrite E2 in Ka, Oa |- *. rewrite E3 in Kb, Ob |- *. cbn [fst] in *. f_equal. apply kv_ext; auto. intros k.
    destruct (k) as [|a0 [|b0 rest]] eqn:EK.
    1-2: rewrite Oa, Ob, OUT; auto; intros (j & r' & _ & H); discriminate H.
    destruct (byte_eq_dec a0 (t_id tb)) as [->|NA].
    2: { rewrite Oa, Ob, OUT; auto; intros (j & r' & _ & [= H]); auto. }
    destruct (in_dec byte_eq_dec b0 (map ix_id idxs)) as [J|J].
    - apply in_map_iff in J as [ix [<- I]]. specialize (F2 ix rest). specialize (F3 ix rest). specialize (NF ix I).
      assert (X : forall v, kv_get a (t_id tb :: ix_id ix :: rest) = Some v <-> kv_get b (t_id tb :: ix_id ix :: rest) = Some v).
      { intros v. rewrite (F2 v I), (F3 v I). split; (intros [H|(H & _)]; [now left|now destruct NF]). }
      destruct (kv_get a _) as [v|] eqn:G; [symmetry; now apply X|]. destruct (kv_get b _) as [v|] eqn:G2; auto.
      specialize (X v). destruct X as [_ X]. discriminate (X eq_refl).
    - rewrite Oa, Ob, OUT; auto; (intros (j & r' & I & [= H _]); apply J; rewrite H; now apply in_map).
  Qed.
End Exact.

(** Index id 0 is the rows themselves. *)
Lemma re_index_zero {T F} (tb : table T F) ev db ix : kv_ok db -> ix_id ix = x00 -> (forall n, r_write ev n = true) ->
  exists db', re_index ev tb db [ix] = (db', Ok tt) /\ forall rest, kv_get db' (t_id tb :: x00 :: rest) = None.
Proof.
  intros K I Q. unfold re_index. cbn [re_delete]. rewrite Q, I. set (db1 := kv_del_range db _ _).
  assert (N : forall rest, kv_get db1 (t_id tb :: x00 :: rest) = None).
  { intros rest. unfold db1. rewrite kv_get_del_range by auto. rewrite (proj2 (area_range (t_id tb) x00 (t_id tb :: x00 :: rest) ltac:(discriminate))); eauto. }
  assert (K1 : kv_ok db1) by (apply kv_del_range_ok; auto).
  cbv zeta. rewrite primary_prefix_eq. replace (key_successor _) with [t_id tb; x00; x00; x00; x00; x01] by reflexivity.
  set (lo := [t_id tb; x00; x00; x00; x00; x00]). set (hi := [t_id tb; x00; x00; x00; x00; x01]).
  assert (E : kv_range db1 lo hi = []).
  { destruct (kv_range db1 lo hi) as [|[k v] l] eqn:L; auto. exfalso.
    assert (J : In (k, v) (kv_range db1 lo hi)) by (rewrite L; now left).
    apply (kv_get_in _ _ _ (kv_range_ok db1 lo hi K1)) in J. rewrite kv_get_range in J by auto.
    destruct (in_range lo hi k) eqn:IR; [|discriminate].
    assert (A : in_range [t_id tb; x00] [t_id tb; n2b (b2n x00 + 1)] k = true).
    { unfold in_range in *. apply andb_true_iff in IR as [I1 I2]. apply bleb_le in I1. apply bltb_lt in I2. apply andb_true_iff. rewrite bleb_le, bltb_lt. split.
      - eapply ble_trans; [|eauto]. change lo with ([t_id tb; x00] ++ [x00; x00; x00; x00]). apply ble_app.
      - eapply blt_le_trans; [eauto|]. apply blt_le. unfold blt, hi. rewrite bcmp_cons, N.compare_refl. reflexivity. }
    apply area_range in A as [rest ->]; [|discriminate]. rewrite N in J. discriminate. }
  unfold items_from, new_iter. cbn [pi_items]. rewrite E. cbn [find_ge re_rows]. rewrite Q. cbn [apply_ops fold_left]. eauto.
Qed.

(** AddIndex with reIndex: the table stays consistent, with more indexes. *)
Lemma add_index_consistent {T F} (tb : table T F) ev db fl (m : tmap T) idxs : let tb' := with_indexes tb (t_indexes tb ++ idxs) in
  lawful tb' -> ser_fresh tb -> consistent tb db fl m -> (forall n, r_write ev n = true) ->
  (forall pk r, m pk = Some r -> row_ok (schema_of tb') r) -> (forall ix, In ix idxs -> ix_id ix <> xff) ->
  exists db', add_index_call ev tb (IxState (t_indexes tb) false) db idxs true = (IxState (t_indexes tb ++ idxs) false, db', Ok tt) /\
  consistent tb' db' fl m /\ forall k, ~ index_area (t_id tb) idxs k -> kv_get db' k = kv_get db k.
Proof.
  intros tb' LAW SF [K R COV] Q RO NF.
  assert (ND : NoDup (map ix_id (t_indexes tb)) /\ NoDup (map ix_id idxs) /\ forall j, In j idxs -> ~ In (ix_id j) (map ix_id (t_indexes tb))).
  { pose proof (law_nodup _ LAW) as N. cbn [tb' with_indexes t_indexes] in N. rewrite map_app in N. revert N. generalize (map ix_id (t_indexes tb)) as l. clear.
    induction l as [|a l IH]; cbn [app]; intros N.
    - split; [constructor|]. split; [auto|]. easy.
    - inversion N; subst. destruct (IH H2) as (A & B & C). split; [constructor; auto; intros H; apply H1, in_app_iff; auto|]. split; [auto|].
      intros j J [->|Q]; [|now apply (C j)]. apply H1, in_app_iff. right. now apply in_map. }
  destruct ND as (N1 & N2 & N3).
  unfold add_index_call. rewrite add_index_ok; auto. cbn [xs_map]. fold tb'.
  assert (LX : lawful (with_indexes tb' idxs)).
  { destruct LAW as [L1 L2 L3 L4 L5]. constructor; cbn [with_indexes t_indexes t_pk tb'] in *; auto.
    - intros ix b r I. apply L2. apply in_app_iff; auto.
    - intros ix b r I. apply L3. apply in_app_iff; auto.
    - intros ix I. apply L5. apply in_app_iff; auto. }
  destruct R as [R1 R2 R3 R4].
  assert (R0 : Rep (schema0 tb') db m).
  { constructor; auto.
    - intros pk r M. destruct (R1 pk r M) as (A & _ & B). split; [exact A|]. split; [|exact B]. intros ix [].
    - intros ix rest v []. }
  destruct (re_index_exact tb' idxs LX ev db m K) as (db' & E & K' & R' & OUT); auto.
  { intros pk r M ix I. apply (RO pk r M ix). cbn [schema_of with_indexes s_indexes t_indexes tb'] in *. rewrite map_app. apply in_app_iff. auto. }
  rewrite E. exists db'. split; [reflexivity|]. split; [|exact OUT].
  assert (Z : forall rest, ~ index_area (t_id tb) idxs (t_id tb :: x00 :: rest)).
  { intros rest (j & rest' & J & [= N _]). apply (law_nonzero _ LX j J). auto. }
  destruct R' as [S1 S2 S3 S4]. constructor; [auto| |].
  - constructor.
    + intros pk r M. destruct (S1 pk r M) as (A & _ & B). split; [exact A|]. split; [exact (RO pk r M)|exact B].
    + exact S2.
    + exact S3.
    + intros six rest v I. cbn [schema_of with_indexes s_indexes t_indexes tb'] in I. rewrite map_app in I. apply in_app_iff in I as [I|I]; [|exact (S4 six rest v I)].
      pose proof (R4 six rest v I) as H. cbn [s_id schema_of tb' with_indexes t_id] in H |- *. rewrite OUT; [exact H|].
      intros (j & rest' & J & [= N _]). apply in_map_iff in I as [ix [<- I]]. apply (N3 j J). rewrite <- N. cbn [si_id sindex_of]. now apply in_map.
  - intros f rest v FL G. apply (COV f rest v); [exact FL|]. cbn [tb' with_indexes t_id] in G. rewrite OUT in G; [exact G|]. apply Z.
Qed.

(** Id 255: what the index held before stays. *)
Lemma re_index_ff {T F} (tb : table T F) idxs ev db (m : tmap T) ix rest v : lawful (with_indexes tb idxs) -> kv_ok db -> ser_fresh tb ->
  Rep (schema0 tb) db m -> (forall n, r_write ev n = true) -> In ix idxs -> ix_id ix = xff ->
  kv_get db (t_id tb :: xff :: rest) = Some v ->
  (~ exists r, m (s_pk (schema_of tb) r) = Some r /\ ix_filter ix r = true /\ t_id tb :: xff :: rest = entry_key (schema_of tb) (sindex_of ix) r) ->
  exists db', re_index ev tb db idxs = (db', Ok tt) /\ kv_get db' (t_id tb :: xff :: rest) = Some v.
Proof.
  intros LAW K SF R Q I J G N. destruct (re_index_effect tb idxs LAW ev db m K SF R Q) as (db' & E & EFF). exists db'. split; [auto|].
  rewrite <- J. apply (EFF ix rest v I). right. split; [auto|]. rewrite J. split; auto.
Qed.
