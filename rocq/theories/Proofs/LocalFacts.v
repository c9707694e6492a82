(** Which keys a write call touches, which it reads, and why it fails. *)

From Coq Require Import List NArith Lia Bool Sorting.Sorted Sorting.Permutation Arith.
From Verif.Model Require Import Bytes Go Keys Pebble Index Table.
From Verif.Spec Require Import KeySpec TableSpec HistSpec.
From Verif.Proofs Require Import BytesFacts KeysFacts PebbleFacts TableFacts WriteFacts UpdateFacts UpsertFacts CallFacts.
Import ListNotations.

(** ** Operations stay in the table *)

Section Touch.
  Context {T F : Type} {tb : table T F} {ev : env T} {LAW : lawful tb} {EV : env_ok ev}.
  Notation sc := (schema_of tb).
  Notation dk := (data_key tb).
  Notation pk := (s_pk (schema_of tb)).

  (** The operation sets or deletes single keys of the table. *)
  Definition op_in (o : bop) : Prop :=
    match o with
    | BSet k _ => in_table sc k
    | BDel k => in_table sc k
    | BDelRange _ _ => False
    end.

  Definition extends (s s' : wst T F) : Prop :=
    exists os, w_ops s' = w_ops s ++ os /\ Forall op_in os.

  Lemma extends_refl s : extends s s.
  Proof. exists []. rewrite app_nil_r. auto. Qed.
  Lemma extends_trans a b c : extends a b -> extends b c -> extends a c.
  Proof.
    intros [x [X1 X2]] [y [Y1 Y2]]. exists (x ++ y). rewrite Y1, X1, app_assoc. split; auto. apply Forall_app; auto.
  Qed.
  Lemma extends_add s os : Forall op_in os -> extends s (add_ops s os).
  Proof. intro H. exists os. auto. Qed.
  Lemma extends_eq s s' : w_ops s' = w_ops s -> extends s s'.
  Proof. intro H. exists []. rewrite H, app_nil_r. auto. Qed.

  Lemma dk_in_table r : in_table sc (dk r).
  Proof.
    rewrite (data_key_eq _ LAW). destruct (row_key_shape tb (pk r)) as [rest E]. exists x00, rest. split; auto.
  Qed.

  Lemma under_in_table ix o : In ix (t_indexes tb) -> op_key_under (t_id tb) (ix_id ix) o -> op_in o.
  Proof.
    intros H. destruct o as [k v|k|lo hi]; cbn [op_key_under op_in]; auto.
    - intros [rest ->]. exists (ix_id ix), rest. split; auto. right. exists (sindex_of ix). split; auto. apply in_sc_index; auto.
    - intros [rest ->]. exists (ix_id ix), rest. split; auto. right. exists (sindex_of ix). split; auto. apply in_sc_index; auto.
  Qed.

  Lemma flat_map_op_in (g : index T -> list bop) n :
    (forall ix, In ix (t_indexes tb) -> Forall (op_key_under (t_id tb) (ix_id ix)) (g ix)) ->
    Forall op_in (flat_map g (e_map ev n (t_indexes tb))).
  Proof.
    intro H. rewrite Forall_forall. intros o Ho. apply in_flat_map in Ho as [ix [H1 H2]].
    apply (Permutation_in _ (env_map_perm _ EV n _)) in H1.
    specialize (H ix H1). rewrite Forall_forall in H. apply (under_in_table ix); auto.
  Qed.

  Lemma ins_ops_in n r : Forall op_in (flat_map (fun idx => on_insert (t_id tb) (t_pk tb) idx r) (e_map ev n (t_indexes tb))).
  Proof. apply flat_map_op_in. intros; apply on_insert_under; auto. Qed.
  Lemma upd_ops_in n o r : Forall op_in (flat_map (fun idx => on_update (t_id tb) (t_pk tb) idx o r) (e_map ev n (t_indexes tb))).
  Proof. apply flat_map_op_in. intros; apply on_update_under; auto. Qed.
  Lemma del_ops_in n r : Forall op_in (flat_map (fun idx => on_delete (t_id tb) (t_pk tb) idx r) (e_map ev n (t_indexes tb))).
  Proof. apply flat_map_op_in. intros; apply on_delete_under; auto. Qed.

  Lemma insert_rows_ext it trs : forall rows prev s, Forall (fun kr => in_table sc (fst kr)) rows ->
    extends s (fst (insert_rows tb ev it trs prev rows s)).
  Proof.
    induction rows as [|[k o] rows IH]; intros prev s H; cbn [insert_rows]; [apply extends_eq; reflexivity|].
    inversion H as [|? ? H1 H2]; subst. cbn [fst] in H1.
    destruct (e_ctx ev (w_tick s)); [apply extends_eq; reflexivity|].
    destruct (_ || _); [apply extends_eq; reflexivity|]. destruct (nth_error trs o); [|apply extends_eq; reflexivity].
    destruct (t_ser tb t); [|apply extends_eq; reflexivity].
    eapply extends_trans; [|apply IH; auto].
    eapply extends_trans; [apply (extends_add (tick s))|apply extends_eq; apply flt_add_ops].
    constructor; [exact H1|apply ins_ops_in].
  Qed.

  Lemma update_rows_ext it trs : forall rows s, Forall (fun kr => in_table sc (fst kr)) rows ->
    extends s (fst (update_rows tb ev it trs rows s)).
  Proof.
    induction rows as [|[k o] rows IH]; intros s H; cbn [update_rows]; [apply extends_eq; reflexivity|].
    inversion H as [|? ? H1 H2]; subst. cbn [fst] in H1.
    destruct (e_ctx ev (w_tick s)); [apply extends_eq; reflexivity|].
    destruct (match rows with [] => false | _ => _ end); [apply (IH (tick s)); auto|].
    cbn zeta. destruct (_ || _); [apply extends_eq; reflexivity|]. destruct (t_deser tb _ _) as [old|]; [|apply extends_eq; reflexivity].
    destruct (nth_error trs o); [|apply extends_eq; reflexivity]. destruct (t_ser tb t); [|apply extends_eq; reflexivity].
    eapply extends_trans; [|apply IH; auto]. apply (extends_add (set_old (tick s) old)).
    constructor; [exact H1|apply upd_ops_in].
  Qed.

  Lemma upsert_rows_ext f it trs keys order : Forall (in_table sc) keys -> forall fuel i s,
    extends s (fst (upsert_rows tb ev f fuel it trs keys order i s)).
  Proof.
    intro KH. induction fuel as [|fuel IH]; intros i s; cbn [upsert_rows]; [apply extends_eq; reflexivity|].
    destruct (Nat.ltb i (length keys)) eqn:L; [|apply extends_eq; reflexivity]. apply Nat.ltb_lt in L.
    assert (KI : in_table sc (nth i keys [])).
    { rewrite Forall_forall in KH. apply KH. apply nth_In; auto. }
    destruct (nth_error trs _); [|apply extends_eq; reflexivity].
    destruct (e_ctx ev (w_tick s)); [apply extends_eq; reflexivity|].
    destruct (if exist_key _ _ _ _ then _ else _); [|apply extends_eq; reflexivity].
    destruct (upsert_dups _ _ _ _ _ _ _) as [[[i' old'] tr']|]; [|apply extends_eq; reflexivity].
    destruct (t_ser tb tr'); [|apply extends_eq; reflexivity].
    eapply extends_trans; [|apply IH].
    destruct (exist_key _ _ _ _).
    - apply (extends_add (set_old (tick s) old')). constructor; [exact KI|apply upd_ops_in].
    - eapply extends_trans; [apply (extends_add (set_old (tick s) old'))|apply extends_eq; apply flt_add_ops].
      constructor; [exact KI|apply ins_ops_in].
  Qed.

  Lemma delete_rows_ext : forall trs s, extends s (fst (delete_rows tb ev trs s)).
  Proof.
    induction trs as [|r trs IH]; intro s; cbn [delete_rows]; [apply extends_eq; reflexivity|].
    destruct (e_ctx ev (w_tick s)); [apply extends_eq; reflexivity|].
    eapply extends_trans; [|apply IH]. apply (extends_add (tick s)).
    constructor; [apply dk_in_table|apply del_ops_in].
  Qed.

  Lemma unsafe_insert_rows_ext : forall trs s, extends s (fst (unsafe_insert_rows tb ev trs s)).
  Proof.
    induction trs as [|r trs IH]; intro s; cbn [unsafe_insert_rows]; [apply extends_eq; reflexivity|].
    destruct (e_ctx ev (w_tick s)); [apply extends_eq; reflexivity|]. destruct (t_ser tb r); [|apply extends_eq; reflexivity].
    eapply extends_trans; [|apply IH].
    eapply extends_trans; [apply (extends_add (tick s))|apply extends_eq; apply flt_add_ops].
    constructor; [apply dk_in_table|apply ins_ops_in].
  Qed.

  Lemma unsafe_update_rows_ext : forall trs olds s, extends s (fst (unsafe_update_rows tb ev trs olds s)).
  Proof.
    induction trs as [|r trs IH]; intros olds s; cbn [unsafe_update_rows]; [apply extends_eq; reflexivity|].
    destruct olds as [|o olds]; [apply extends_eq; reflexivity|].
    destruct (e_ctx ev (w_tick s)); [apply extends_eq; reflexivity|]. destruct (t_ser tb r); [|apply extends_eq; reflexivity].
    eapply extends_trans; [|apply IH]. apply (extends_add (tick s)).
    constructor; [apply dk_in_table|apply upd_ops_in].
  Qed.

  Lemma run_chunks_ext {A} (g : list A -> wst T F -> wst T F * res unit) :
    (forall c s, extends s (fst (g c s))) -> forall cs s, extends s (fst (run_chunks g cs s)).
  Proof.
    intros H. induction cs as [|c cs IH]; intro s; cbn; [apply extends_eq; reflexivity|].
    pose proof (H c s) as H1. destruct (g c s) as [s' r]. cbn in H1. destruct r; auto.
    eapply extends_trans; eauto.
  Qed.

  Lemma batched_ext {A} (l : list A) (g : list A -> wst T F -> wst T F * res unit) s :
    (forall c s, extends s (fst (g c s))) -> extends s (fst (batched l (e_chunk ev) g s)).
  Proof.
    intro H. destruct (batched_chunks (St := wst T F) (e_chunk ev) l (env_chunk_pos _ EV)) as [cs [_ C2]]. rewrite C2.
    apply run_chunks_ext; auto.
  Qed.

  Lemma sorted_keys_in (c : list T) keys order : sort_keys ev (map dk c) = (keys, order) -> Forall (in_table sc) keys.
  Proof.
    intro E. destruct (sort_keys_rows (tb := tb) (ev := ev) c) as [keys' [order' [rs [E1 [E2 _]]]]].
    assert (keys = map dk rs) as -> by congruence. rewrite Forall_forall. intros k Hk.
    apply in_map_iff in Hk as [r [<- _]]. apply dk_in_table.
  Qed.

  Lemma combine_in (keys : list bytes) (order : list nat) : Forall (in_table sc) keys ->
    Forall (fun kr => in_table sc (fst kr)) (combine keys order).
  Proof.
    intro H. rewrite Forall_forall in *. intros [k o] Hk. apply in_combine_l in Hk. auto.
  Qed.

  Lemma body_ext c db rw s : extends s (fst (body (tb:=tb) (ev:=ev) c db rw s)).
  Proof.
    destruct c as [l|l|f l|l]; cbn [body].
    - apply batched_ext. intros c s0. unfold insert_chunk. destruct (sort_keys _ _) as [keys order] eqn:E.
      apply sorted_keys_in in E. destruct keys as [|k ks]; [apply extends_eq; reflexivity|]. apply insert_rows_ext. apply combine_in; auto.
    - apply batched_ext. intros c s0. unfold update_chunk. destruct (sort_keys _ _) as [keys order] eqn:E.
      apply sorted_keys_in in E. destruct keys as [|k ks]; [apply extends_eq; reflexivity|]. apply update_rows_ext. apply combine_in; auto.
    - apply batched_ext. intros c s0. unfold upsert_chunk. destruct (sort_keys _ _) as [keys order] eqn:E.
      apply sorted_keys_in in E. destruct keys as [|k ks]; [apply extends_eq; reflexivity|]. apply upsert_rows_ext; auto.
    - apply delete_rows_ext.
  Qed.

  (** Frame: nothing outside the table changes. *)
  Lemma ops_in_outside os : Forall op_in os -> forall db, kv_ok db -> same_outside sc db (apply_ops db os).
  Proof.
    induction os as [|o os IH]; intros H db K; [apply same_outside_refl|].
    inversion H as [|? ? H1 H2]; subst. change (apply_ops db (o :: os)) with (apply_ops (apply_op db o) os).
    eapply same_outside_trans; [|apply IH; auto; apply apply_op_ok; auto].
    intros k N. destruct o as [k' v|k'|lo hi]; cbn [apply_op op_in] in *; [| |easy].
    - rewrite kv_get_set. destruct (beqb k k') eqn:B; auto. apply beqb_eq in B. congruence.
    - rewrite kv_get_del by auto. destruct (beqb k k') eqn:B; auto. apply beqb_eq in B. congruence.
  Qed.

  Lemma run_write_frame db fl ob g w r : kv_ok db ->
    (forall rw s, extends s (fst (g rw s))) ->
    run_write tb ev db fl ob g = (w, r) ->
    same_outside sc db (r_db w) /\
    match ob with
    | Some b => r_db w = db /\ exists os, r_batch w = Some (Batch (b_rw b) (b_ops b ++ os)) /\ Forall op_in os
    | None => r_batch w = None
    end.
  Proof.
    intros K X. unfold run_write. destruct ob as [b|].
    - pose proof (X (b_rw b) (WSt (b_ops b) fl (t_nil tb) 0)) as [os [E1 E2]].
      destruct (g (b_rw b) _) as [s r']. cbn [fst w_ops] in *. intros [= <- <-]. cbn.
      split; [apply same_outside_refl|]. split; auto. exists os. rewrite E1. auto.
    - pose proof (X false (WSt [] fl (t_nil tb) 0)) as [os [E1 E2]].
      destruct (g false _) as [s r']. cbn [fst w_ops app] in *.
      destruct r' as [[]|e| |]; [|intros [= <- <-]; cbn; split; auto; apply same_outside_refl ..].
      subst os. destruct (w_ops s) as [|o os] eqn:EO; [intros [= <- <-]; cbn; split; auto; apply same_outside_refl|].
      destruct (e_commit ev); intros [= <- <-]; cbn [r_db r_batch]; split; auto.
      + change (same_outside sc db (apply_ops db (o :: os))). apply ops_in_outside; auto.
      + apply same_outside_refl.
  Qed.
End Touch.
Arguments op_in {T F} tb o.
Arguments extends {T F} tb s s'.

(** ** A call reads only the rows with the given primary keys *)

Section Local.
  Context {T F : Type} {tb : table T F} {ev : env T} {LAW : lawful tb} {EV : env_ok ev}.
  Notation sc := (schema_of tb).
  Notation dk := (data_key tb).
  Notation pk := (s_pk (schema_of tb)).

  Notation hi := (data_key_space_end tb).

  Lemma value_local s1 s2 lo r : kv_ok s1 -> kv_ok s2 -> ble lo (dk r) -> kv_get s1 (dk r) = kv_get s2 (dk r) ->
    let a := it_seek_ge (new_iter s1 lo hi) (dk r) in
    let b := it_seek_ge (new_iter s2 lo hi) (dk r) in
    (negb (it_valid a) || negb (beqb (it_key a) (dk r))) = (negb (it_valid b) || negb (beqb (it_key b) (dk r))) /\
    (it_valid a && beqb (it_key a) (dk r) = true -> it_value a = it_value b).
  Proof.
    intros K1 K2 L E. cbn zeta. pose proof (probe s1 lo r K1 L) as P1. pose proof (probe s2 lo r K2 L) as P2.
    cbn zeta in *. rewrite <- E in P2. rewrite <- !negb_andb. destruct (kv_get s1 (dk r)).
    - destruct P1 as [A1 [A2 A3]], P2 as [B1 [B2 B3]]. rewrite A1, A2, B1, B2, beqb_refl. split; auto. congruence.
    - rewrite P1, P2. split; auto. easy.
  Qed.

  Lemma insert_rows_local s1 s2 lo trs : kv_ok s1 -> kv_ok s2 -> forall rs os prev s,
    Forall (fun r => ble lo (dk r)) rs -> (forall r, In r rs -> kv_get s1 (dk r) = kv_get s2 (dk r)) ->
    insert_rows tb ev (new_iter s1 lo hi) trs prev (combine (map dk rs) os) s =
    insert_rows tb ev (new_iter s2 lo hi) trs prev (combine (map dk rs) os) s.
  Proof.
    intros K1 K2. induction rs as [|r rs IH]; intros os prev s LO AG; auto.
    destruct os as [|o os]; auto. cbn [map combine insert_rows]. inversion LO as [|? ? LO1 LO2]; subst.
    rewrite !exist_key_eq by auto. rewrite (AG r) by (left; auto).
    destruct (e_ctx ev (w_tick s)); auto. destruct (_ || _); auto. destruct (nth_error trs o); auto.
    destruct (t_ser tb t); auto. apply IH; auto. intros; apply AG; right; auto.
  Qed.

  Lemma update_rows_local s1 s2 lo trs : kv_ok s1 -> kv_ok s2 -> forall rs os s,
    Forall (fun r => ble lo (dk r)) rs -> (forall r, In r rs -> kv_get s1 (dk r) = kv_get s2 (dk r)) ->
    update_rows tb ev (new_iter s1 lo hi) trs (combine (map dk rs) os) s =
    update_rows tb ev (new_iter s2 lo hi) trs (combine (map dk rs) os) s.
  Proof.
    intros K1 K2. induction rs as [|r rs IH]; intros os s LO AG; auto.
    destruct os as [|o os]; auto. cbn [map combine update_rows]. inversion LO as [|? ? LO1 LO2]; subst.
    destruct (e_ctx ev (w_tick s)); auto.
    assert (AG' : forall x, In x rs -> kv_get s1 (dk x) = kv_get s2 (dk x)) by (intros; apply AG; right; auto).
    destruct (match combine _ _ with [] => false | _ => _ end); [apply IH; auto|].
    pose proof (value_local s1 s2 lo r K1 K2 LO1 (AG r (or_introl eq_refl))) as VL. cbn zeta in VL |- *.
    destruct VL as [A1 A2]. rewrite <- A1.
    destruct (negb (it_valid (it_seek_ge (new_iter s1 lo hi) (dk r))) || negb (beqb (it_key (it_seek_ge (new_iter s1 lo hi) (dk r))) (dk r))) eqn:B; auto.
    rewrite <- negb_andb in B. apply negb_false_iff in B. rewrite (A2 B).
    destruct (t_deser tb _ _); auto. destruct (nth_error trs o); auto. destruct (t_ser tb t0); auto.
  Qed.

  Lemma upsert_rows_local f s1 s2 lo trs order rs : kv_ok s1 -> kv_ok s2 ->
    Forall (fun r => ble lo (dk r)) rs -> (forall r, In r rs -> kv_get s1 (dk r) = kv_get s2 (dk r)) ->
    forall fuel i s,
    upsert_rows tb ev f fuel (new_iter s1 lo hi) trs (map dk rs) order i s =
    upsert_rows tb ev f fuel (new_iter s2 lo hi) trs (map dk rs) order i s.
  Proof.
    intros K1 K2 LO AG. induction fuel as [|fuel IH]; intros i s; auto. cbn [upsert_rows].
    destruct (Nat.ltb i (length (map dk rs))) eqn:L; auto.
    destruct (nth_error trs (nth i order 0)) as [tr|]; auto. destruct (e_ctx ev (w_tick s)); auto.
    apply Nat.ltb_lt in L. rewrite map_length in L.
    destruct rs as [|d rs'] eqn:ER; [cbn in L; lia|]. rewrite <- ER in *.
    assert (EK : nth i (map dk rs) [] = dk (nth i rs d)).
    { rewrite (nth_indep _ [] (dk d)) by (rewrite map_length; auto). apply map_nth. }
    rewrite EK. set (r := nth i rs d) in *.
    assert (HR : In r rs) by (apply nth_In; auto).
    assert (LR : ble lo (dk r)) by (rewrite Forall_forall in LO; auto).
    rewrite !exist_key_eq by auto. rewrite (AG r HR).
    pose proof (value_local s1 s2 lo r K1 K2 LR (AG r HR)) as VL. cbn zeta in VL. destruct VL as [_ A2].
    pose proof (probe s1 lo r K1 LR) as P1. cbn zeta in P1.
    assert (EQ : (flt_may tb (w_flt (tick s)) (dk r) && match kv_get s2 (dk r) with Some _ => true | None => false end) = true ->
       it_value (it_seek_ge (new_iter s1 lo hi) (dk r)) = it_value (it_seek_ge (new_iter s2 lo hi) (dk r))).
    { intro B. apply A2. rewrite <- (AG r HR) in B. destruct (kv_get s1 (dk r)).
      - destruct P1 as [B1 [B2 _]]. rewrite B1, B2, beqb_refl. auto.
      - rewrite andb_false_r in B. easy. }
    destruct (flt_may tb (w_flt (tick s)) (dk r) && _) eqn:B.
    - rewrite EQ by auto. destruct (t_deser tb _ _); auto.
      destruct (upsert_dups _ _ _ _ _ _ _) as [[[i' old'] tr']|]; auto. destruct (t_ser tb tr'); auto.
    - destruct (upsert_dups _ _ _ _ _ _ _) as [[[i' old'] tr']|]; auto. destruct (t_ser tb tr'); auto.
  Qed.

  Lemma snapshot_local db1 db2 rw (s : wst T F) k : kv_ok db1 -> kv_ok db2 -> kv_get db1 k = kv_get db2 k ->
    kv_get (chunk_snapshot db1 rw (w_ops s)) k = kv_get (chunk_snapshot db2 rw (w_ops s)) k.
  Proof.
    intros K1 K2 E. unfold chunk_snapshot. destruct rw; auto. rewrite !kv_get_apply_ops by auto. rewrite E. reflexivity.
  Qed.

  Lemma run_chunks_ext_eq {A St} (f g : list A -> St -> St * res unit) cs :
    (forall c s, In c cs -> f c s = g c s) -> forall s, run_chunks f cs s = run_chunks g cs s.
  Proof.
    induction cs as [|c cs IH]; intros H s; cbn; auto. rewrite H by (left; auto). destruct (g c s) as [s' r].
    destruct r; auto. apply IH. intros; apply H; right; auto.
  Qed.

  Lemma in_chunk {A} (c : list A) cs x : In c cs -> In x c -> In x (concat cs).
  Proof. intros H1 H2. apply in_concat. eauto. Qed.

  Lemma body_local c db1 db2 rw s : kv_ok db1 -> kv_ok db2 ->
    (forall r, In r (rows_of c) -> kv_get db1 (dk r) = kv_get db2 (dk r)) ->
    body (tb:=tb) (ev:=ev) c db1 rw s = body (tb:=tb) (ev:=ev) c db2 rw s.
  Proof.
    intros K1 K2 AG. destruct c as [l|l|f l|l]; cbn [body rows_of] in *; [| | |reflexivity].
    - destruct (batched_chunks (St := wst T F) (e_chunk ev) l (env_chunk_pos _ EV)) as [cs [C1 C2]]. rewrite !C2.
      pose proof (is_chunks_concat _ _ _ C1) as EC. apply run_chunks_ext_eq. intros c s0 Hc.
      assert (AGc : forall r, In r c -> kv_get db1 (dk r) = kv_get db2 (dk r)).
      { intros r Hr. apply AG. rewrite <- EC. eapply in_chunk; eauto. }
      destruct (sort_keys_rows (tb := tb) (ev := ev) c) as [keys [order [rs [E1 [E2 [P [S F2]]]]]]].
      unfold insert_chunk. rewrite E1. subst keys. destruct (map dk rs) as [|k ks] eqn:ER; auto. rewrite <- ER in S |- *.
      unfold chunk_iter. apply insert_rows_local; auto using snapshot_ok.
      + apply hd_le; auto.
      + intros r Hr. apply snapshot_local; auto. apply AGc. eapply Permutation_in; eauto.
    - destruct (batched_chunks (St := wst T F) (e_chunk ev) l (env_chunk_pos _ EV)) as [cs [C1 C2]]. rewrite !C2.
      pose proof (is_chunks_concat _ _ _ C1) as EC. apply run_chunks_ext_eq. intros c s0 Hc.
      assert (AGc : forall r, In r c -> kv_get db1 (dk r) = kv_get db2 (dk r)).
      { intros r Hr. apply AG. rewrite <- EC. eapply in_chunk; eauto. }
      destruct (sort_keys_rows (tb := tb) (ev := ev) c) as [keys [order [rs [E1 [E2 [P [S F2]]]]]]].
      unfold update_chunk. rewrite E1. subst keys. destruct (map dk rs) as [|k ks] eqn:ER; auto. rewrite <- ER in S |- *.
      unfold chunk_iter. apply update_rows_local; auto using snapshot_ok.
      + apply hd_le; auto.
      + intros r Hr. apply snapshot_local; auto. apply AGc. eapply Permutation_in; eauto.
    - destruct (batched_chunks (St := wst T F) (e_chunk ev) l (env_chunk_pos _ EV)) as [cs [C1 C2]]. rewrite !C2.
      pose proof (is_chunks_concat _ _ _ C1) as EC. apply run_chunks_ext_eq. intros c s0 Hc.
      assert (AGc : forall r, In r c -> kv_get db1 (dk r) = kv_get db2 (dk r)).
      { intros r Hr. apply AG. rewrite <- EC. eapply in_chunk; eauto. }
      destruct (sort_keys_rows (tb := tb) (ev := ev) c) as [keys [order [rs [E1 [E2 [P [S F2]]]]]]].
      unfold upsert_chunk. rewrite E1. subst keys. destruct (map dk rs) as [|k ks] eqn:ER; auto. rewrite <- ER in S |- *.
      unfold chunk_iter. apply upsert_rows_local; auto using snapshot_ok.
      + apply hd_le; auto.
      + intros r Hr. apply snapshot_local; auto. apply AGc. eapply Permutation_in; eauto.
  Qed.
End Local.
