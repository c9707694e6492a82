(** Representation facts: what one row's batch operations do to a table. *)

From Coq Require Import List NArith Lia Bool Sorting.Sorted Sorting.Permutation Arith.
From Verif.Model Require Import Bytes Go Keys Pebble Index Table.
From Verif.Spec Require Import KeySpec TableSpec.
From Verif.Proofs Require Import BytesFacts KeysFacts PebbleFacts.
Import ListNotations.

Lemma second_byte (k k' : bytes) : k = k' -> nth 1 k x00 = nth 1 k' x00.
Proof. intros ->. reflexivity. Qed.

(** ** Lists of operations *)

Definition op_key_under (t i : byte) (o : bop) : Prop :=
  match o with
  | BSet k _ | BDel k => exists rest, k = t :: i :: rest
  | BDelRange _ _ => False
  end.

Lemma op_under_no_touch t i o k : op_key_under t i o -> ~ (exists rest, k = t :: i :: rest) ->
  op_touches o k = false.
Proof.
  intros H N. destruct o; cbn in *; try contradiction; destruct (beqb k _) eqn:E; auto;
    apply beqb_eq in E; subst; contradiction.
Qed.

Lemma ops_effect_under t i os k : Forall (op_key_under t i) os -> ~ (exists rest, k = t :: i :: rest) ->
  ops_effect os k = None.
Proof.
  intros H N. apply ops_effect_none. intros o Ho. rewrite Forall_forall in H.
  eapply op_under_no_touch; eauto.
Qed.

(** Operations of several indexes do not interfere. *)
Lemma ops_effect_flat_map {T} t (g : index T -> list bop) (l : list (index T)) ix rest :
  (forall j, In j l -> Forall (op_key_under t (ix_id j)) (g j)) ->
  NoDup (map ix_id l) -> In ix l ->
  ops_effect (flat_map g l) (t :: ix_id ix :: rest) = ops_effect (g ix) (t :: ix_id ix :: rest).
Proof.
  intros U N Hin. induction l as [|j l IH]; [easy|].
  cbn [flat_map]. rewrite ops_effect_app. inversion N; subst.
  destruct Hin as [->|Hin].
  - assert (E : ops_effect (flat_map g l) (t :: ix_id ix :: rest) = None).
    { apply ops_effect_none. intros o Ho. apply in_flat_map in Ho as [j [Hj Ho]].
      specialize (U j (or_intror Hj)). rewrite Forall_forall in U. specialize (U o Ho).
      eapply op_under_no_touch; eauto. intros [r [=]]. apply H1. rewrite H0. apply in_map; auto. }
    rewrite E. reflexivity.
  - rewrite IH; auto; [|intros; apply U; right; auto].
    destruct (ops_effect (g ix) _); auto.
    apply (ops_effect_under t (ix_id j)). { apply U; left; auto. }
    intros [r [=]]. apply H1. rewrite <- H0. apply in_map; auto.
Qed.

Lemma ops_effect_flat_map_none {T} t (g : index T -> list bop) (l : list (index T)) k :
  (forall j, In j l -> Forall (op_key_under t (ix_id j)) (g j)) ->
  (forall j rest, In j l -> k <> t :: ix_id j :: rest) ->
  ops_effect (flat_map g l) k = None.
Proof.
  intros U N. apply ops_effect_none. intros o Ho. apply in_flat_map in Ho as [j [Hj Ho]].
  specialize (U j Hj). rewrite Forall_forall in U. specialize (U o Ho).
  eapply op_under_no_touch; eauto. intros [r Hr]. apply (N j r); auto.
Qed.

(** ** Keys of a lawful table *)

Section Lawful.
  Context {T F : Type}.
  Variable tb : table T F.
  Hypothesis LAW : lawful tb.
  Notation sc := (schema_of tb).

  Lemma data_key_eq r : data_key tb r = row_key sc (s_pk sc r).
  Proof.
    unfold data_key, row_key, primary_index_id.
    change (spec_key (s_id sc) x00 [] [] (s_pk sc r)) with ([] ++ layout (t_id tb) x00 [] [] (s_pk sc r)).
    apply (key_encode_raw_full _ _ None None _ [] [] (s_pk sc r)).
    - reflexivity.
    - reflexivity.
    - intro b. apply (law_pk _ LAW).
  Qed.

  Lemma encode_index_key_eq ix r : In ix (t_indexes tb) ->
    encode_index_key (t_id tb) (t_pk tb) ix r [] = entry_key sc (sindex_of ix) r.
  Proof.
    intro Hin. unfold encode_index_key, entry_key.
    change (spec_key (s_id sc) (si_id (sindex_of ix)) (si_key (sindex_of ix) r) (si_ord (sindex_of ix) r) (s_pk sc r))
      with ([] ++ layout (t_id tb) (ix_id ix) (si_key (sindex_of ix) r) (si_ord (sindex_of ix) r) (s_pk sc r)).
    apply (key_encode_raw_full _ _ (Some _) (Some _) _ (si_key (sindex_of ix) r) (si_ord (sindex_of ix) r) (s_pk sc r)).
    - intro b. apply (law_key _ LAW); auto.
    - intro b. apply (law_ord _ LAW); auto.
    - intro b. apply (law_pk _ LAW).
  Qed.

  Lemma row_key_inj p q : row_key sc p = row_key sc q -> p = q.
  Proof. intro H. apply layout_inj in H; [tauto|..]; unfold fits32; cbn; lia. Qed.

  Lemma row_key_shape p : exists rest, row_key sc p = t_id tb :: x00 :: rest.
  Proof. eexists. reflexivity. Qed.

  Lemma entry_key_shape ix r : exists rest, entry_key sc ix r = t_id tb :: si_id ix :: rest.
  Proof. eexists. reflexivity. Qed.

  Lemma in_sc_index ix : In ix (t_indexes tb) -> In (sindex_of ix) (s_indexes sc).
  Proof. intro H. cbn. apply in_map; auto. Qed.

  Lemma sc_index_inv ix : In ix (s_indexes sc) -> exists j, In j (t_indexes tb) /\ ix = sindex_of j.
  Proof. cbn. intro H. apply in_map_iff in H as [j [<- Hj]]. eauto. Qed.

  Lemma sc_nonzero ix : In ix (s_indexes sc) -> si_id ix <> x00.
  Proof. intro H. apply sc_index_inv in H as [j [Hj ->]]. apply (law_nonzero _ LAW); auto. Qed.

  Lemma index_by_id i j : In i (t_indexes tb) -> In j (t_indexes tb) -> ix_id i = ix_id j -> i = j.
  Proof.
    intros Hi Hj E. pose proof (law_nodup _ LAW) as N. revert Hi Hj N. generalize (t_indexes tb).
    induction l as [|a l IH]; intros Hi Hj N; [easy|]. inversion N; subst.
    destruct Hi as [<-|Hi], Hj as [<-|Hj]; auto.
    - exfalso. apply H1. rewrite E. apply in_map; auto.
    - exfalso. apply H1. rewrite <- E. apply in_map; auto.
  Qed.

  Lemma entry_key_inj ix r r' : In ix (s_indexes sc) -> row_ok sc r -> row_ok sc r' ->
    entry_key sc ix r = entry_key sc ix r' ->
    si_key ix r = si_key ix r' /\ si_ord ix r = si_ord ix r' /\ s_pk sc r = s_pk sc r'.
  Proof.
    intros Hin H1 H2 E. destruct (H1 ix Hin), (H2 ix Hin).
    apply layout_inj in E; auto. tauto.
  Qed.

  (** ** Operations of one row *)

  Lemma on_insert_under ix r : In ix (t_indexes tb) ->
    Forall (op_key_under (t_id tb) (ix_id ix)) (on_insert (t_id tb) (t_pk tb) ix r).
  Proof.
    intro H. unfold on_insert. destruct (ix_filter ix r); auto.
    constructor; auto. cbn [op_key_under]. rewrite encode_index_key_eq; auto. eexists; reflexivity.
  Qed.

  Lemma on_delete_under ix r : In ix (t_indexes tb) ->
    Forall (op_key_under (t_id tb) (ix_id ix)) (on_delete (t_id tb) (t_pk tb) ix r).
  Proof.
    intro H. unfold on_delete. destruct (ix_filter ix r); auto.
    constructor; auto. cbn [op_key_under]. rewrite encode_index_key_eq; auto. eexists; reflexivity.
  Qed.

  Lemma on_update_under ix o r : In ix (t_indexes tb) ->
    Forall (op_key_under (t_id tb) (ix_id ix)) (on_update (t_id tb) (t_pk tb) ix o r).
  Proof.
    intro H. unfold on_update. rewrite !encode_index_key_eq by auto.
    destruct (ix_filter ix o), (ix_filter ix r); try destruct (beqb _ _); repeat constructor; cbn [op_key_under]; eexists; reflexivity.
  Qed.

  Lemma on_insert_effect ix r k : In ix (t_indexes tb) ->
    ops_effect (on_insert (t_id tb) (t_pk tb) ix r) k =
    if ix_filter ix r && beqb k (entry_key sc (sindex_of ix) r) then Some (Some []) else None.
  Proof.
    intro H. unfold on_insert. destruct (ix_filter ix r); cbn [andb ops_effect op_touches op_result]; auto.
    rewrite encode_index_key_eq by auto. reflexivity.
  Qed.

  Lemma on_delete_effect ix r k : In ix (t_indexes tb) ->
    ops_effect (on_delete (t_id tb) (t_pk tb) ix r) k =
    if ix_filter ix r && beqb k (entry_key sc (sindex_of ix) r) then Some None else None.
  Proof.
    intro H. unfold on_delete. destruct (ix_filter ix r); cbn [andb ops_effect op_touches op_result]; auto.
    rewrite encode_index_key_eq by auto. reflexivity.
  Qed.

  (** Update: the new entry is present, the old one (if different) absent. When
      both keys agree nothing is written. *)
  Lemma on_update_effect ix o r k : In ix (t_indexes tb) ->
    let ko := entry_key sc (sindex_of ix) o in
    let kn := entry_key sc (sindex_of ix) r in
    ops_effect (on_update (t_id tb) (t_pk tb) ix o r) k =
    if ix_filter ix o && ix_filter ix r && beqb ko kn then None
    else if ix_filter ix r && beqb k kn then Some (Some [])
    else if ix_filter ix o && beqb k ko then Some None
    else None.
  Proof.
    intros H ko kn. unfold on_update. rewrite !encode_index_key_eq by auto. fold ko kn.
    destruct (ix_filter ix o) eqn:Fo, (ix_filter ix r) eqn:Fr; cbn [andb].
    - destruct (beqb ko kn) eqn:E; auto. cbn [ops_effect op_touches op_result].
      destruct (beqb k kn) eqn:Ek; auto.
    - cbn [ops_effect op_touches op_result]. destruct (beqb k ko); auto.
    - cbn [ops_effect op_touches op_result]. destruct (beqb k kn); auto.
    - reflexivity.
  Qed.

  (** ** How a row's operations change the represented map *)

  Lemma Rep_ext db m m' : Rep sc db m -> (forall pk, m pk = m' pk) -> Rep sc db m'.
  Proof.
    intros R E. destruct R as [R1 R2 R3 R4]. constructor.
    - intros pk r H. apply R1. rewrite E. exact H.
    - intro pk. rewrite <- E. apply R2.
    - exact R3.
    - intros ix rest v Hin. rewrite R4 by auto. split; intros [Hv [r [H1 H2]]]; split; auto; exists r; split; auto.
      + rewrite <- E; auto.
      + rewrite E; auto.
  Qed.

  Lemma row_key_not_entry pk ix r : In ix (s_indexes sc) -> row_key sc pk <> entry_key sc ix r.
  Proof.
    intros Hin E. apply second_byte in E. change (x00 = si_id ix) in E. apply (sc_nonzero ix Hin). auto.
  Qed.

  Variable perm : list (index T).
  Hypothesis PERM : Permutation perm (t_indexes tb).

  Lemma perm_in ix : In ix perm <-> In ix (t_indexes tb).
  Proof. split; apply Permutation_in; auto. symmetry; auto. Qed.

  Lemma perm_nodup : NoDup (map ix_id perm).
  Proof. eapply Permutation_NoDup; [|apply (law_nodup _ LAW)]. apply Permutation_map. symmetry; auto. Qed.

  (** Effect of [o :: flat_map g perm] where [o] writes the row and [g] the index entries. *)
  Lemma row_ops_effect_row o g p :
    (forall ix, In ix (t_indexes tb) -> Forall (op_key_under (t_id tb) (ix_id ix)) (g ix)) ->
    ops_effect (o :: flat_map g perm) (row_key sc p) =
    if op_touches o (row_key sc p) then Some (op_result o) else None.
  Proof.
    intros U. cbn [ops_effect].
    rewrite (ops_effect_flat_map_none (t_id tb)); auto.
    - intros j Hj. apply U. apply perm_in; auto.
    - intros j rest Hj E. apply second_byte in E. change (x00 = ix_id j) in E. apply perm_in in Hj. apply (law_nonzero _ LAW j Hj). auto.
  Qed.

  Lemma row_ops_effect_data o g rest :
    (forall ix, In ix (t_indexes tb) -> Forall (op_key_under (t_id tb) (ix_id ix)) (g ix)) ->
    ops_effect (o :: flat_map g perm) (t_id tb :: x00 :: rest) =
    if op_touches o (t_id tb :: x00 :: rest) then Some (op_result o) else None.
  Proof.
    intros U. cbn [ops_effect].
    rewrite (ops_effect_flat_map_none (t_id tb)); auto.
    - intros j Hj. apply U. apply perm_in; auto.
    - intros j rest' Hj E. apply second_byte in E. change (x00 = ix_id j) in E. apply perm_in in Hj. apply (law_nonzero _ LAW j Hj). auto.
  Qed.

  Lemma row_ops_effect_index o g ix rest :
    op_key_under (t_id tb) x00 o ->
    (forall ix, In ix (t_indexes tb) -> Forall (op_key_under (t_id tb) (ix_id ix)) (g ix)) ->
    In ix (t_indexes tb) ->
    ops_effect (o :: flat_map g perm) (t_id tb :: ix_id ix :: rest) =
    ops_effect (g ix) (t_id tb :: ix_id ix :: rest).
  Proof.
    intros Ho U Hin. cbn [ops_effect].
    rewrite (ops_effect_flat_map (t_id tb)); auto using perm_nodup.
    - destruct (ops_effect (g ix) _); auto.
      rewrite (op_under_no_touch _ _ _ _ Ho); auto.
      intros [r [=]]. apply (law_nonzero _ LAW ix Hin); auto.
    - intros j Hj. apply U. apply perm_in; auto.
    - apply perm_in; auto.
  Qed.

  Lemma row_ops_effect_outside o g k :
    op_key_under (t_id tb) x00 o ->
    (forall ix, In ix (t_indexes tb) -> Forall (op_key_under (t_id tb) (ix_id ix)) (g ix)) ->
    ~ in_table sc k ->
    ops_effect (o :: flat_map g perm) k = None.
  Proof.
    intros Ho U N. cbn [ops_effect].
    rewrite (ops_effect_flat_map_none (t_id tb)).
    - rewrite (op_under_no_touch _ _ _ _ Ho); auto.
      intros [r ->]. apply N. exists x00, r. auto.
    - intros j Hj. apply U. apply perm_in; auto.
    - intros j rest Hj ->. apply N. exists (ix_id j), rest. split; auto. right.
      exists (sindex_of j). split; auto. apply in_sc_index. apply perm_in; auto.
  Qed.

  Definition insert_ops (r : T) (v : bytes) : list bop :=
    BSet (data_key tb r) v :: flat_map (fun idx => on_insert (t_id tb) (t_pk tb) idx r) perm.
  Definition update_ops (o r : T) (v : bytes) : list bop :=
    BSet (data_key tb r) v :: flat_map (fun idx => on_update (t_id tb) (t_pk tb) idx o r) perm.
  Definition delete_ops (r : T) : list bop :=
    BDel (data_key tb r) :: flat_map (fun idx => on_delete (t_id tb) (t_pk tb) idx r) perm.

  Lemma set_under r v : op_key_under (t_id tb) x00 (BSet (data_key tb r) v).
  Proof. cbn [op_key_under]. rewrite data_key_eq. apply row_key_shape. Qed.
  Lemma del_under r : op_key_under (t_id tb) x00 (BDel (data_key tb r)).
  Proof. cbn [op_key_under]. rewrite data_key_eq. apply row_key_shape. Qed.

  Lemma insert_ops_outside db r v : kv_ok db -> same_outside sc db (apply_ops db (insert_ops r v)).
  Proof.
    intros K k N. rewrite kv_get_apply_ops by auto. unfold insert_ops.
    rewrite row_ops_effect_outside; auto using set_under.
    intros; apply on_insert_under; auto.
  Qed.
  Lemma update_ops_outside db o r v : kv_ok db -> same_outside sc db (apply_ops db (update_ops o r v)).
  Proof.
    intros K k N. rewrite kv_get_apply_ops by auto. unfold update_ops.
    rewrite row_ops_effect_outside; auto using set_under.
    intros; apply on_update_under; auto.
  Qed.
  Lemma delete_ops_outside db r : kv_ok db -> same_outside sc db (apply_ops db (delete_ops r)).
  Proof.
    intros K k N. rewrite kv_get_apply_ops by auto. unfold delete_ops.
    rewrite row_ops_effect_outside; auto using del_under.
    intros; apply on_delete_under; auto.
  Qed.

  Lemma beqb_row_key p q : beqb (row_key sc p) (row_key sc q) = beqb p q.
  Proof.
    destruct (beqb p q) eqn:E.
    - apply beqb_eq in E; subst. apply beqb_refl.
    - apply beqb_neq in E. apply beqb_neq. intro H. apply E. apply row_key_inj; auto.
  Qed.

  Lemma insert_ops_rep db m r v : kv_ok db -> Rep sc db m -> row_ok sc r -> s_val sc r = Some v ->
    m (s_pk sc r) = None -> Rep sc (apply_ops db (insert_ops r v)) (put sc m r).
  Proof.
    intros K R OK V N.
    assert (U : forall ix, In ix (t_indexes tb) ->
       Forall (op_key_under (t_id tb) (ix_id ix)) (on_insert (t_id tb) (t_pk tb) ix r)) by (intros; apply on_insert_under; auto).
    destruct R as [R1 R2 R3 R4]. constructor.
    - intros pk x. unfold put. destruct (beqb pk (s_pk sc r)) eqn:E; [|apply R1].
      intros [= <-]. apply beqb_eq in E. split; [auto|split; [exact OK|congruence]].
    - intro pk. rewrite kv_get_apply_ops by auto. unfold insert_ops.
      rewrite row_ops_effect_row by auto. cbn [op_touches op_result].
      rewrite data_key_eq, beqb_row_key. unfold put. destruct (beqb pk (s_pk sc r)); auto.
    - intros rest x. cbn [s_id schema_of]. rewrite kv_get_apply_ops by auto. unfold insert_ops.
      rewrite row_ops_effect_data by auto. cbn [op_touches op_result].
      destruct (beqb _ (data_key tb r)) eqn:E.
      + intros _. apply beqb_eq in E. rewrite data_key_eq in E. eauto.
      + apply R3.
    - intros ix rest x Hin. apply sc_index_inv in Hin as [j [Hj ->]]. cbn [s_id schema_of si_id sindex_of].
      rewrite kv_get_apply_ops by auto. unfold insert_ops.
      rewrite row_ops_effect_index; auto using set_under.
      rewrite on_insert_effect by auto.
      specialize (R4 (sindex_of j) rest x (in_sc_index _ Hj)). cbn [s_id schema_of si_id sindex_of] in R4.
      destruct (ix_filter j r && beqb _ _) eqn:E.
      + apply andb_true_iff in E as [E1 E2]. apply beqb_eq in E2. split.
        * intros [= <-]. split; auto. exists r. repeat split; auto. unfold put. rewrite beqb_refl. auto.
        * intros [-> _]. auto.
      + rewrite R4. split; intros [Hx [q [Q1 [Q2 Q3]]]]; split; auto; exists q; repeat split; auto.
        * unfold put. destruct (beqb (s_pk sc q) (s_pk sc r)) eqn:B; auto.
          apply beqb_eq in B. rewrite B in Q1. congruence.
        * unfold put in Q1. destruct (beqb (s_pk sc q) (s_pk sc r)) eqn:B; auto.
          injection Q1 as <-. exfalso. cbn [si_filter sindex_of] in Q2. rewrite Q2 in E. cbn in E.
          apply beqb_neq in E. auto.
  Qed.

  Lemma update_ops_rep db m o r v : kv_ok db -> Rep sc db m -> row_ok sc r -> s_val sc r = Some v ->
    m (s_pk sc r) = Some o -> Rep sc (apply_ops db (update_ops o r v)) (put sc m r).
  Proof.
    intros K R OK V N.
    assert (U : forall ix, In ix (t_indexes tb) ->
       Forall (op_key_under (t_id tb) (ix_id ix)) (on_update (t_id tb) (t_pk tb) ix o r)) by (intros; apply on_update_under; auto).
    destruct R as [R1 R2 R3 R4]. destruct (R1 _ _ N) as [Po [Oo _]]. constructor.
    - intros pk x. unfold put. destruct (beqb pk (s_pk sc r)) eqn:E; [|apply R1].
      intros [= <-]. apply beqb_eq in E. split; [auto|split; [exact OK|congruence]].
    - intro pk. rewrite kv_get_apply_ops by auto. unfold update_ops.
      rewrite row_ops_effect_row by auto. cbn [op_touches op_result].
      rewrite data_key_eq, beqb_row_key. unfold put. destruct (beqb pk (s_pk sc r)); auto.
    - intros rest x. cbn [s_id schema_of]. rewrite kv_get_apply_ops by auto. unfold update_ops.
      rewrite row_ops_effect_data by auto. cbn [op_touches op_result].
      destruct (beqb _ (data_key tb r)) eqn:E.
      + intros _. apply beqb_eq in E. rewrite data_key_eq in E. eauto.
      + apply R3.
    - intros ix rest x Hin. apply sc_index_inv in Hin as [j [Hj ->]]. cbn [s_id schema_of si_id sindex_of].
      rewrite kv_get_apply_ops by auto. unfold update_ops.
      rewrite row_ops_effect_index; auto using set_under.
      rewrite on_update_effect by auto.
      specialize (R4 (sindex_of j) rest). cbn [s_id schema_of si_id sindex_of] in R4.
      set (k := t_id tb :: ix_id j :: rest) in *.
      set (ko := entry_key sc (sindex_of j) o) in *.
      set (kn := entry_key sc (sindex_of j) r) in *.
      (* which rows have an entry under k *)
      assert (PUT : forall q, put sc m r (s_pk sc q) = Some q ->
                (q = r /\ s_pk sc q = s_pk sc r) \/ (s_pk sc q <> s_pk sc r /\ m (s_pk sc q) = Some q)).
      { intros q. unfold put. destruct (beqb (s_pk sc q) (s_pk sc r)) eqn:B.
        - intros [= <-]. left; auto.
        - apply beqb_neq in B. intro Q. right; auto. }
      assert (OLD : forall q, m (s_pk sc q) = Some q -> s_pk sc q = s_pk sc r -> q = o) by (intros; congruence).
      assert (PK : forall q, row_ok sc q -> k = entry_key sc (sindex_of j) q -> forall q', row_ok sc q' ->
                k = entry_key sc (sindex_of j) q' -> s_pk sc q = s_pk sc q').
      { intros q Hq E q' Hq' E'. eapply entry_key_inj; eauto using in_sc_index. congruence. }
      destruct (ix_filter j o && ix_filter j r && beqb ko kn) eqn:E1.
      + apply andb_true_iff in E1 as [E1 E1']. apply andb_true_iff in E1 as [Fo Fr].
        apply beqb_eq in E1'. rewrite R4 by (apply in_sc_index; auto).
        split; intros [Hx [q [Q1 [Q2 Q3]]]]; split; auto.
        * destruct (bytes_eq_dec (s_pk sc q) (s_pk sc r)) as [B|B].
          -- rewrite (OLD q Q1 B) in *. exists r. repeat split; auto.
             ++ unfold put. rewrite beqb_refl. auto.
             ++ change (k = kn). rewrite <- E1'. exact Q3.
          -- exists q. repeat split; auto. unfold put. apply beqb_neq in B. rewrite B. auto.
        * destruct (PUT q Q1) as [[-> B]|[B Q1']].
          -- exists o. repeat split; auto. { rewrite Po. exact N. } change (k = ko). rewrite E1'. exact Q3.
          -- exists q. repeat split; auto.
      + destruct (ix_filter j r && beqb k kn) eqn:E2.
        * apply andb_true_iff in E2 as [Fr E2]. apply beqb_eq in E2. split.
          -- intros [= <-]. split; auto. exists r. repeat split; auto. unfold put. rewrite beqb_refl; auto.
          -- intros [-> _]. auto.
        * destruct (ix_filter j o && beqb k ko) eqn:E3.
          -- apply andb_true_iff in E3 as [Fo E3]. apply beqb_eq in E3. split; [easy|].
             intros [Hx [q [Q1 [Q2 Q3]]]]. exfalso.
             destruct (PUT q Q1) as [[-> B]|[B Q1']].
             ++ cbn [si_filter sindex_of] in Q2. rewrite Q2 in E2. cbn in E2. apply beqb_neq in E2. auto.
             ++ apply B. rewrite (PK q (proj1 (proj2 (R1 _ _ Q1'))) Q3 o Oo E3). exact Po.
          -- rewrite R4 by (apply in_sc_index; auto).
             split; intros [Hx [q [Q1 [Q2 Q3]]]]; split; auto; exists q; repeat split; auto.
             ++ unfold put. destruct (beqb (s_pk sc q) (s_pk sc r)) eqn:B; auto. exfalso.
                apply beqb_eq in B. rewrite (OLD q Q1 B) in *. cbn [si_filter sindex_of] in Q2.
                rewrite Q2 in E3. cbn in E3. apply beqb_neq in E3. auto.
             ++ destruct (PUT q Q1) as [[-> B]|[B Q1']]; auto. exfalso.
                cbn [si_filter sindex_of] in Q2. rewrite Q2 in E2. cbn in E2. apply beqb_neq in E2. auto.
  Qed.

  (** Deleting removes the row and its entries when the index keys of the given
      record are those of the stored one. *)
  Definition same_entries (r o : T) : Prop :=
    forall ix, In ix (s_indexes sc) -> si_filter ix o = true ->
      si_filter ix r = true /\ entry_key sc ix r = entry_key sc ix o.

  Lemma delete_ops_rep db m r : kv_ok db -> Rep sc db m -> row_ok sc r ->
    (forall o, m (s_pk sc r) = Some o -> same_entries r o) ->
    Rep sc (apply_ops db (delete_ops r)) (remove sc m r).
  Proof.
    intros K R OK SE.
    assert (U : forall ix, In ix (t_indexes tb) ->
       Forall (op_key_under (t_id tb) (ix_id ix)) (on_delete (t_id tb) (t_pk tb) ix r)) by (intros; apply on_delete_under; auto).
    destruct R as [R1 R2 R3 R4]. constructor.
    - intros pk x. unfold remove. destruct (beqb pk (s_pk sc r)) eqn:E; [easy|apply R1].
    - intro pk. rewrite kv_get_apply_ops by auto. unfold delete_ops.
      rewrite row_ops_effect_row by auto. cbn [op_touches op_result].
      rewrite data_key_eq, beqb_row_key. unfold remove. destruct (beqb pk (s_pk sc r)); auto.
    - intros rest x. cbn [s_id schema_of]. rewrite kv_get_apply_ops by auto. unfold delete_ops.
      rewrite row_ops_effect_data by auto. cbn [op_touches op_result].
      destruct (beqb _ (data_key tb r)) eqn:E; [easy|apply R3].
    - intros ix rest x Hin. apply sc_index_inv in Hin as [j [Hj ->]]. cbn [s_id schema_of si_id sindex_of].
      rewrite kv_get_apply_ops by auto. unfold delete_ops.
      rewrite row_ops_effect_index; auto using del_under.
      rewrite on_delete_effect by auto.
      specialize (R4 (sindex_of j) rest). cbn [s_id schema_of si_id sindex_of] in R4.
      set (k := t_id tb :: ix_id j :: rest) in *.
      destruct (ix_filter j r && beqb k _) eqn:E.
      + apply andb_true_iff in E as [E1 E2]. apply beqb_eq in E2. split; [easy|].
        intros [Hx [q [Q1 [Q2 Q3]]]]. exfalso. unfold remove in Q1.
        destruct (beqb (s_pk sc q) (s_pk sc r)) eqn:B; [easy|]. apply beqb_neq in B. apply B.
        destruct (R1 _ _ Q1) as [_ [Oq _]].
        assert (E3 : entry_key sc (sindex_of j) q = entry_key sc (sindex_of j) r) by (transitivity k; [symmetry; exact Q3|exact E2]).
        eapply entry_key_inj in E3; eauto using in_sc_index. tauto.
      + rewrite R4 by (apply in_sc_index; auto).
        split; intros [Hx [q [Q1 [Q2 Q3]]]]; split; auto; exists q; repeat split; auto.
        * unfold remove. destruct (beqb (s_pk sc q) (s_pk sc r)) eqn:B; auto. exfalso.
          apply beqb_eq in B. rewrite B in Q1. destruct (SE q Q1 (sindex_of j) (in_sc_index _ Hj) Q2) as [S1 S2].
          cbn [si_filter sindex_of] in S1. rewrite S1 in E. cbn in E. apply beqb_neq in E. apply E.
          exact (eq_trans Q3 (eq_sym S2)).
        * unfold remove in Q1. destruct (beqb (s_pk sc q) (s_pk sc r)); [easy|auto].
  Qed.
End Lawful.
