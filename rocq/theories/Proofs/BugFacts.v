(** Calls after which the indexes no longer match the rows. *)

From Coq Require Import List NArith Lia Bool Sorting.Sorted Sorting.Permutation Arith.
From Verif.Model Require Import Bytes Go Keys Pebble Index Table.
From Verif.Spec Require Import KeySpec TableSpec HistSpec.
From Verif.Proofs Require Import BytesFacts KeysFacts PebbleFacts TableFacts WriteFacts UpdateFacts UpsertFacts CallFacts.
Import ListNotations.

Lemma is_chunks_two {A} n (c : list A) x cs : 0 < n -> length c = n -> is_chunks n (c ++ [x]) cs -> cs = [c; [x]].
Proof.
  intros P L H. inversion H as [E|l HL E|c' l cs' HL NE HC E]; subst.
  - destruct c; discriminate.
  - rewrite app_length in HL. cbn in HL. lia.
  - assert (c' = c /\ l = [x]) as [-> ->].
    { destruct (app_inj_len _ _ _ _ HL E) as [? ?]; auto. }
    f_equal. apply (is_chunks_small _ _ _ HC); [cbn; lia|easy].
Qed.

Lemma op_key_under_touch t i o k : op_key_under t i o -> op_touches o k = true -> exists rest, k = t :: i :: rest.
Proof.
  destruct o; cbn [op_key_under op_touches]; intros U B; try easy; destruct U as [rest E]; apply beqb_eq in B; subst; eauto.
Qed.

Section Bugs.
  Context {T F : Type} {tb : table T F} {ev : env T} {LAW : lawful tb} {EV : env_ok ev}.
  Notation sc := (schema_of tb).
  Notation dk := (data_key tb).
  Notation pk := (s_pk (schema_of tb)).

  (** An index entry must belong to the stored row. *)
  Lemma dangling db m ix r0 w : Rep sc db m -> ser_fresh tb -> In ix (s_indexes sc) -> row_ok sc r0 ->
    kv_get db (entry_key sc ix r0) = Some w ->
    match kv_get db (row_key sc (pk r0)) with
    | None => False
    | Some v => forall x, t_ser tb x = Some v -> si_filter ix x = true /\ entry_key sc ix x = entry_key sc ix r0
    end.
  Proof.
    intros R SF I OK Hg. destruct (entry_key_shape tb ix r0) as [rest E]. pose proof Hg as Hg'. rewrite E in Hg.
    apply (rep_index _ _ _ R ix rest w I) in Hg as [_ [r [M [FL EK]]]].
    change (t_id tb) with (s_id sc) in E. rewrite <- E in EK.
    destruct (rep_rows _ _ _ R _ _ M) as [_ [OKr _]].
    destruct (entry_key_inj _ ix r0 r I OK OKr EK) as [_ [_ P]]. rewrite P, (rep_get _ _ _ R), M.
    destruct (s_val sc r) as [v|] eqn:SV; [|apply (rep_rows _ _ _ R _ _ M); auto].
    intros x SX. assert (x = r) by (pose proof (SF _ _ SX); pose proof (SF _ _ SV); congruence). subst x. auto.
  Qed.

  (** What an operation list must not do to keep the value under a key. *)
  Lemma keeps os : forall st k v, kv_ok st -> kv_get st k = Some v ->
    (forall o, In o os -> op_touches o k = true -> op_result o = Some v) -> kv_get (apply_ops st os) k = Some v.
  Proof.
    induction os as [|o os IH]; intros st k v K G H; auto.
    change (apply_ops st (o :: os)) with (apply_ops (apply_op st o) os). apply IH.
    - apply apply_op_ok; auto.
    - rewrite kv_get_apply_op by auto. destruct (op_touches o k) eqn:E; auto. apply H; auto. left; auto.
    - intros; apply H; auto. right; auto.
  Qed.

  (** ** The same primary key in two chunks of one Insert *)

  Lemma insert_across_chunks db fl m c1 r r' ix :
    kv_ok db -> filter_ok tb -> ser_fresh tb -> quiet ev -> Rep sc db m ->
    length c1 = e_chunk ev -> Forall (row_ok sc) c1 -> NoDup (map pk c1) ->
    (forall x, In x (r' :: c1) -> m (pk x) = None /\ t_ser tb x <> None) ->
    In r c1 -> pk r' = pk r ->
    In ix (s_indexes sc) -> si_filter ix r = true ->
    (si_filter ix r' = false \/ entry_key sc ix r' <> entry_key sc ix r) ->
    exists w, insert tb ev db fl None (c1 ++ [r']) = (w, Ok tt) /\ forall m', ~ Rep sc (r_db w) m'.
  Proof.
    intros K FO SF [Q1 Q2] R LEN OK ND AB HR PK I FR DIFF.
    unfold insert, run_write.
    destruct (batched_chunks (St := wst T F) (e_chunk ev) (c1 ++ [r']) (env_chunk_pos _ EV)) as [cs [C1 C2]]. rewrite C2.
    rewrite (is_chunks_two _ _ _ _ (env_chunk_pos _ EV) LEN C1). cbn [run_chunks].
    assert (ABDB : forall x, In x (r' :: c1) -> kv_get db (dk x) = None).
    { intros x Hx. apply (rep_none (LAW:=LAW) _ _ _ R). apply AB; auto. }
    destruct (insert_chunk_fwd (tb:=tb) (ev:=ev) (LAW:=LAW) (EV:=EV) db false c1 (WSt [] fl (t_nil tb) 0) m) as [s1 [E1 [R1 _]]]; auto.
    { intro; subst; easy. }
    { intros x Hx. apply AB. right; auto. }
    { intros i _. apply Q1. }
    { intros x Hx. apply AB. right; auto. }
    { right. intros x Hx. apply ABDB. right; auto. }
    rewrite E1.
    destruct (insert_chunk_unfold (tb:=tb) (ev:=ev) (EV:=EV) db false [r'] s1) as [order [rs [P [S [F2 E2]]]]]; [easy|].
    apply Permutation_sym, Permutation_length_1_inv in P. subst rs.
    inversion F2 as [|o ? os ? HO F2']; subst. inversion F2'; subst. rewrite E2. clear E2.
    cbn [map combine insert_rows hd]. rewrite Q1. cbn [orb].
    rewrite (exist_key_eq (LAW:=LAW)) by (auto using snapshot_ok, ble_refl). cbn [chunk_snapshot].
    rewrite (ABDB r' (or_introl eq_refl)), andb_false_r, HO.
    destruct (t_ser tb r') as [v|] eqn:SV; [|exfalso; apply (AB r'); auto; left; auto].
    set (os2 := BSet (dk r') v :: _). cbn [fst snd]. rewrite flt_add_ops. cbn [w_ops add_ops tick].
    destruct (w_ops s1 ++ os2) as [|o0 os0] eqn:EO; [destruct (w_ops s1); discriminate|]. rewrite <- EO, Q2. clear EO o0 os0.
    eexists. split; [reflexivity|]. cbn [r_db]. intros m' R'. rewrite apply_ops_app in R'. fold (V db s1) in R'.
    assert (KV : kv_ok (V db s1)) by (apply V_ok; auto).
    assert (UND : forall j o, In j (t_indexes tb) -> In o (on_insert (t_id tb) (t_pk tb) j r') -> op_key_under (t_id tb) (ix_id j) o).
    { intros j o' Hj. pose proof (on_insert_under _ LAW j r' Hj) as U. rewrite Forall_forall in U. apply U. }
    assert (IN : forall j, In j (e_map ev (w_tick s1) (t_indexes tb)) -> In j (t_indexes tb)).
    { intros j Hj. apply (Permutation_in _ (env_map_perm _ EV _ _) Hj). }
    assert (ENT : kv_get (apply_ops (V db s1) os2) (entry_key sc ix r) = Some []).
    { apply keeps; auto.
      - destruct (entry_key_shape tb ix r) as [rest E]. rewrite E. apply (rep_index _ _ _ R1); auto. split; auto.
        exists r. rewrite puts_in by auto. repeat split; auto.
      - intros o' [<-|Ho] TO; cbn [op_touches op_result] in *.
        + apply beqb_eq in TO. rewrite (data_key_eq _ LAW) in TO. symmetry in TO. exfalso. apply (row_key_not_entry _ LAW _ _ _ I TO).
        + apply in_flat_map in Ho as [j [Hj Ho]]. unfold on_insert in Ho. destruct (ix_filter j r'); [|easy].
          destruct Ho as [<-|[]]. reflexivity. }
    assert (ROW : kv_get (apply_ops (V db s1) os2) (row_key sc (pk r)) = Some v).
    { change (apply_ops (V db s1) os2) with (apply_ops (kv_set (V db s1) (dk r') v)
        (flat_map (fun idx => on_insert (t_id tb) (t_pk tb) idx r') (e_map ev (w_tick s1) (t_indexes tb)))).
      apply keeps; [apply kv_set_ok; auto|rewrite kv_get_set, (data_key_eq _ LAW), PK, beqb_refl; reflexivity|].
      intros o' Ho TO. apply in_flat_map in Ho as [j [Hj Ho]]. specialize (UND j o' (IN j Hj) Ho).
      exfalso. rewrite (op_under_no_touch _ _ _ _ UND) in TO; [easy|].
      intros [rest E]. destruct (row_key_shape tb (pk r)) as [rest' E']. rewrite E' in E.
      apply (law_nonzero _ LAW j (IN j Hj)). congruence. }
    rewrite Forall_forall in OK.
    pose proof (dangling _ _ ix r [] R' SF I (OK r HR) ENT) as D. rewrite ROW in D.
    destruct (D r' SV) as [D1 D2]. destruct DIFF as [DF|DF]; [congruence|auto].
  Qed.

  (** ** The same primary key in two chunks of one Update *)

  Lemma update_across_chunks db fl m c1 r r' o ix :
    kv_ok db -> filter_ok tb -> ser_over tb -> quiet ev -> Rep sc db m ->
    length c1 = e_chunk ev -> Forall (row_ok sc) c1 -> NoDup (map pk c1) ->
    (forall x, In x (r' :: c1) -> m (pk x) <> None /\ t_ser tb x <> None) ->
    In r c1 -> pk r' = pk r -> m (pk r) = Some o ->
    In ix (s_indexes sc) -> si_filter ix r = true ->
    (si_filter ix r' = false \/ entry_key sc ix r' <> entry_key sc ix r) ->
    entry_key sc ix o <> entry_key sc ix r ->
    exists w, update tb ev db fl None (c1 ++ [r']) = (w, Ok tt) /\ forall m', ~ Rep sc (r_db w) m'.
  Proof.
    intros K FO SO [Q1 Q2] R LEN OK ND AB HR PK MO I FR DIFF DO.
    assert (SF : ser_fresh tb) by (intros x v; apply SO).
    unfold update, run_write.
    destruct (batched_chunks (St := wst T F) (e_chunk ev) (c1 ++ [r']) (env_chunk_pos _ EV)) as [cs [C1 C2]]. rewrite C2.
    rewrite (is_chunks_two _ _ _ _ (env_chunk_pos _ EV) LEN C1). cbn [run_chunks].
    assert (NE : c1 <> []) by (intro; subst; easy).
    destruct (update_chunk_fwd (tb:=tb) (ev:=ev) (LAW:=LAW) (EV:=EV) db false c1 (WSt [] fl (t_nil tb) 0) m) as [s1 [sel [E1 [I1 [I2 [R1 _]]]]]]; auto.
    { intros x Hx. apply AB. right; auto. }
    { intros i _. apply Q1. }
    { intros x Hx. apply AB. right; auto. }
    rewrite E1.
    assert (R1' : Rep sc (V db s1) (puts sc m c1)).
    { eapply (Rep_ext tb); [exact R1|]. apply wrote_puts; auto. apply (puts_wrote (tb:=tb)); auto. }
    destruct (update_chunk_unfold (tb:=tb) (ev:=ev) (EV:=EV) db false [r'] s1) as [order [rs [P [S [F2 E2]]]]]; [easy|].
    apply Permutation_sym, Permutation_length_1_inv in P. subst rs.
    inversion F2 as [|o1 ? os ? HO F2']; subst. inversion F2'; subst. rewrite E2. clear E2.
    cbn [map combine update_rows hd]. rewrite Q1. cbn [chunk_snapshot].
    destruct (rep_some (LAW:=LAW) _ _ r' o R) as [vo [SO1 GO]]; [rewrite PK; auto|].
    pose proof (probe (LAW:=LAW) db (dk r') r' K (ble_refl _)) as PR. cbn zeta in PR. rewrite GO in PR. destruct PR as [P1 [P2 P3]].
    cbn zeta. rewrite P1, P2, P3, beqb_refl. cbn [negb orb]. rewrite (SO _ _ _ SO1), HO.
    destruct (t_ser tb r') as [v|] eqn:SV; [|exfalso; apply (AB r'); auto; left; auto].
    set (os2 := BSet (dk r') v :: _). cbn [fst snd w_ops add_ops set_old tick].
    destruct (w_ops s1 ++ os2) as [|o0 os0] eqn:EO; [destruct (w_ops s1); discriminate|]. rewrite <- EO, Q2. clear EO o0 os0.
    eexists. split; [reflexivity|]. cbn [r_db]. intros m' R'. rewrite apply_ops_app in R'. fold (V db s1) in R'.
    assert (KV : kv_ok (V db s1)) by (apply V_ok; auto).
    assert (UND : forall j o', In j (t_indexes tb) -> In o' (on_update (t_id tb) (t_pk tb) j o r') -> op_key_under (t_id tb) (ix_id j) o').
    { intros j o' Hj. pose proof (on_update_under _ LAW j o r' Hj) as U. rewrite Forall_forall in U. apply U. }
    assert (IN : forall j, In j (e_map ev (w_tick s1) (t_indexes tb)) -> In j (t_indexes tb)).
    { intros j Hj. apply (Permutation_in _ (env_map_perm _ EV _ _) Hj). }
    assert (ENT : kv_get (apply_ops (V db s1) os2) (entry_key sc ix r) = Some []).
    { apply keeps; auto.
      - destruct (entry_key_shape tb ix r) as [rest E]. rewrite E. apply (rep_index _ _ _ R1'); auto. split; auto.
        exists r. rewrite puts_in by auto. repeat split; auto.
      - intros o' [<-|Ho] TO; cbn [op_touches op_result] in *.
        + apply beqb_eq in TO. rewrite (data_key_eq _ LAW) in TO. symmetry in TO. exfalso. apply (row_key_not_entry _ LAW _ _ _ I TO).
        + apply in_flat_map in Ho as [j [Hj Ho]]. pose proof (UND j o' (IN j Hj) Ho) as U.
          assert (JX : ix = sindex_of j).
          { destruct (sc_index_inv _ _ I) as [j' [J1 ->]]. f_equal. apply (index_by_id _ LAW); auto.
            destruct (op_key_under_touch _ _ _ _ U TO) as [rest E].
            destruct (entry_key_shape tb (sindex_of j') r) as [rest' E']. rewrite E' in E. cbn [si_id sindex_of] in E. congruence. }
          unfold on_update in Ho. rewrite !(encode_index_key_eq _ LAW) in Ho by (apply IN; auto). rewrite <- JX in Ho.
          assert (ND1 : forall k, k = entry_key sc ix o -> op_touches (BDel k) (entry_key sc ix r) = true -> False).
          { intros k -> B. cbn in B. apply beqb_eq in B. auto. }
          destruct (ix_filter j o), (ix_filter j r'); try (destruct (beqb _ _)); cbn in Ho;
            repeat (destruct Ho as [<-|Ho]; [try reflexivity; exfalso; eapply ND1; eauto|]); easy. }
    assert (ROW : kv_get (apply_ops (V db s1) os2) (row_key sc (pk r)) = Some v).
    { change (apply_ops (V db s1) os2) with (apply_ops (kv_set (V db s1) (dk r') v)
        (flat_map (fun idx => on_update (t_id tb) (t_pk tb) idx o r') (e_map ev (w_tick s1) (t_indexes tb)))).
      apply keeps; [apply kv_set_ok; auto|rewrite kv_get_set, (data_key_eq _ LAW), PK, beqb_refl; reflexivity|].
      intros o' Ho TO. apply in_flat_map in Ho as [j [Hj Ho]]. specialize (UND j o' (IN j Hj) Ho).
      exfalso. rewrite (op_under_no_touch _ _ _ _ UND) in TO; [easy|].
      intros [rest E]. destruct (row_key_shape tb (pk r)) as [rest' E']. rewrite E' in E.
      apply (law_nonzero _ LAW j (IN j Hj)). congruence. }
    rewrite Forall_forall in OK.
    pose proof (dangling _ _ ix r [] R' SF I (OK r HR) ENT) as D. rewrite ROW in D.
    destruct (D r' SV) as [D1 D2]. destruct DIFF as [DF|DF]; [congruence|auto].
  Qed.
End Bugs.
