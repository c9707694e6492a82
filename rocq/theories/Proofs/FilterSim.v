(** A filter without false negatives does not change what a call does. *)

From Coq Require Import List NArith Lia Bool Sorting.Sorted Sorting.Permutation Arith.
From Verif.Model Require Import Bytes Go Keys Pebble Index Table.
From Verif.Spec Require Import KeySpec TableSpec HistSpec.
From Verif.Proofs Require Import BytesFacts KeysFacts PebbleFacts TableFacts WriteFacts UpdateFacts UpsertFacts CallFacts LocalFacts ReadFacts.
Import ListNotations.

Section Sim.
  Context {T F : Type} {tb : table T F} {ev : env T} {LAW : lawful tb} {EV : env_ok ev}.
  Variable FO : filter_ok tb.
  Notation sc := (schema_of tb).
  Notation dk := (data_key tb).
  Notation pk := (s_pk (schema_of tb)).
  Notation hi := (data_key_space_end tb).
  Notation tb0 := (no_filter tb).

  Definition sim (s s0 : wst T F) : Prop := w_ops s = w_ops s0 /\ w_old s = w_old s0 /\ w_tick s = w_tick s0.

  Definition good (snap : kv) (s : wst T F) : Prop := covers tb (w_flt s) snap /\ ops_covered tb (w_flt s) (w_ops s).

  Lemma sim_same s s0 : sim s s0 -> sim (tick s) (tick s0).
  Proof. intros [A [B C]]. repeat split; cbn; congruence. Qed.

  Lemma good_tick snap s : good snap s -> good snap (tick s).
  Proof. auto. Qed.

  Lemma ops_covered_le fl fl' os : flt_le tb fl fl' -> ops_covered tb fl os -> ops_covered tb fl' os.
  Proof.
    intros L H f rest v Ef Hin. specialize (H f rest v Ef Hin). specialize (L (t_id tb :: x00 :: rest)).
    unfold flt_may in L. rewrite Ef in L. auto.
  Qed.

  Lemma ops_covered_app fl a b : ops_covered tb fl a -> ops_covered tb fl b -> ops_covered tb fl (a ++ b).
  Proof. intros H1 H2 f rest v Ef Hin. apply in_app_or in Hin as [Hin|Hin]; eauto. Qed.

  (** index operations never set a row key *)
  Lemma index_ops_covered fl (g : index T -> list bop) n :
    (forall ix, In ix (t_indexes tb) -> Forall (op_key_under (t_id tb) (ix_id ix)) (g ix)) ->
    ops_covered tb fl (flat_map g (e_map ev n (t_indexes tb))).
  Proof.
    intros H f rest v Ef Hin. apply in_flat_map in Hin as [ix [H1 H2]].
    apply (Permutation_in _ (env_map_perm _ EV n _)) in H1. specialize (H ix H1). rewrite Forall_forall in H.
    specialize (H _ H2). cbn [op_key_under] in H. destruct H as [rest' E]. exfalso.
    apply (law_nonzero _ LAW ix H1). congruence.
  Qed.

  Lemma row_ops_covered fl r v os : flt_may tb fl (dk r) = true -> ops_covered tb fl os -> ops_covered tb fl (BSet (dk r) v :: os).
  Proof.
    intros M H f rest v' Ef [Hin|Hin]; [|eauto]. injection Hin as E _. rewrite <- E. unfold flt_may in M. rewrite Ef in M. auto.
  Qed.

  Lemma exist_key_sim snap lo fl fl0 r : kv_ok snap -> ble lo (dk r) -> covers tb fl snap ->
    exist_key tb fl (new_iter snap lo hi) (dk r) = exist_key tb0 fl0 (new_iter snap lo hi) (dk r).
  Proof.
    intros K L C. rewrite exist_key_eq by auto. unfold exist_key at 1. change (flt_may tb0 fl0 (dk r)) with true. cbn [andb].
    pose proof (probe snap lo r K L) as P. cbn zeta in P |- *. destruct (kv_get snap (dk r)) eqn:Gk.
    - rewrite (covers_may _ _ _ _ C Gk). destruct P as [P1 [P2 _]]. rewrite P1, P2, beqb_refl. reflexivity.
    - rewrite P. apply andb_false_r.
  Qed.

  Definition sim_res (snap : kv) (a b : wst T F * res unit) : Prop :=
    sim (fst a) (fst b) /\ snd a = snd b /\ good snap (fst a).

  Lemma insert_rows_sim snap lo trs : kv_ok snap -> forall rs os prev s s0,
    Forall2 (fun o r => nth_error trs o = Some r) os rs ->
    Forall (fun r => ble lo (dk r)) rs -> sim s s0 -> good snap s ->
    sim_res snap (insert_rows tb ev (new_iter snap lo hi) trs prev (combine (map dk rs) os) s)
                 (insert_rows tb0 ev (new_iter snap lo hi) trs prev (combine (map dk rs) os) s0).
  Proof.
    intros K. induction rs as [|r rs IH]; intros os prev s s0 F2 LO SM GD; [split; auto|].
    inversion F2 as [|o r' os' rs' Ho F2']; subst. inversion LO as [|? ? L1 L2]; subst.
    cbn [map combine insert_rows]. pose proof SM as [S1 [S2 S3]]. rewrite <- S3.
    rewrite (exist_key_sim snap lo (w_flt (tick s)) (w_flt (tick s0)) r K L1 (proj1 GD)).
    destruct (e_ctx ev (w_tick s)); [split; [apply sim_same; auto|split; auto]|].
    destruct (_ || _); [split; [apply sim_same; auto|split; auto]|].
    rewrite Ho. change (t_ser tb0 r) with (t_ser tb r).
    destruct (t_ser tb r) as [v|]; [|split; [apply sim_same; auto|split; auto]].
    apply IH; auto.
    - split; [|split].
      + rewrite flt_add_ops. cbn. rewrite S1. reflexivity.
      + rewrite flt_add_old. cbn. auto.
      + rewrite flt_add_tick. cbn. congruence.
    - destruct GD as [G1 G2]. set (s1 := add_ops _ _).
      assert (LE : flt_le tb (w_flt s) (w_flt (flt_add tb (dk r) s1))) by (apply (flt_add_le s1); auto).
      split; [eapply covers_le; eauto|]. rewrite flt_add_ops. unfold s1 at 2. cbn [w_ops add_ops tick].
      apply ops_covered_app; [eapply ops_covered_le; eauto|].
      apply row_ops_covered; [apply flt_add_has; auto|].
      apply index_ops_covered. intros; apply on_insert_under; auto.
  Qed.

  Lemma update_rows_sim snap lo trs : kv_ok snap -> forall rs os s s0,
    Forall2 (fun o r => nth_error trs o = Some r) os rs ->
    Forall (fun r => ble lo (dk r)) rs -> sim s s0 -> good snap s ->
    sim_res snap (update_rows tb ev (new_iter snap lo hi) trs (combine (map dk rs) os) s)
                 (update_rows tb0 ev (new_iter snap lo hi) trs (combine (map dk rs) os) s0).
  Proof.
    intros K. induction rs as [|r rs IH]; intros os s s0 F2 LO SM GD; [split; auto|].
    inversion F2 as [|o r' os' rs' Ho F2']; subst. inversion LO as [|? ? L1 L2]; subst.
    cbn [map combine update_rows]. pose proof SM as [S1 [S2 S3]]. rewrite <- S3.
    destruct (e_ctx ev (w_tick s)); [split; [apply sim_same; auto|split; auto]|].
    destruct (match combine _ _ with [] => false | _ => _ end); [apply IH; auto using sim_same|].
    cbn zeta. pose proof (probe snap lo r K L1) as P. cbn zeta in P.
    change (w_old (tick s0)) with (w_old s0). change (w_old (tick s)) with (w_old s). rewrite <- S2.
    change (t_deser tb0) with (t_deser tb).
    destruct (kv_get snap (dk r)) as [vo|] eqn:Gk.
    - destruct P as [P1 [P2 P3]]. rewrite P1, P2, P3, beqb_refl. cbn [negb orb].
      destruct (t_deser tb vo (w_old s)) as [old|]; [|split; [apply sim_same; auto|split; auto]].
      rewrite Ho. change (t_ser tb0 r) with (t_ser tb r).
      destruct (t_ser tb r) as [v|]; [|split; [repeat split; cbn; congruence|split; auto]].
      apply IH; auto.
      + split; [|split]; cbn; solve [auto | rewrite S1; reflexivity | congruence].
      + destruct GD as [G1 G2]. split; [exact G1|]. cbn [w_ops w_flt add_ops set_old tick].
        apply ops_covered_app; auto. apply row_ops_covered; [apply (covers_may _ _ _ _ G1 Gk)|].
        apply index_ops_covered. intros; apply on_update_under; auto.
    - rewrite <- negb_andb, P. cbn [negb]. split; [apply sim_same; auto|split; auto].
  Qed.

  Lemma upsert_rows_sim f snap lo trs order rs : kv_ok snap ->
    Forall (fun r => ble lo (dk r)) rs -> forall fuel i s s0, sim s s0 -> good snap s ->
    sim_res snap (upsert_rows tb ev f fuel (new_iter snap lo hi) trs (map dk rs) order i s)
                 (upsert_rows tb0 ev f fuel (new_iter snap lo hi) trs (map dk rs) order i s0).
  Proof.
    intros K LO. induction fuel as [|fuel IH]; intros i s s0 SM GD; cbn [upsert_rows]; [split; auto|].
    destruct (Nat.ltb i (length (map dk rs))) eqn:L; [|split; auto].
    destruct (nth_error trs (nth i order 0)) as [tr|]; [|split; auto].
    pose proof SM as [S1 [S2 S3]]. rewrite <- S3.
    destruct (e_ctx ev (w_tick s)); [split; [apply sim_same; auto|split; auto]|].
    apply Nat.ltb_lt in L. rewrite map_length in L.
    destruct rs as [|d rs'] eqn:ER; [cbn in L; lia|]. rewrite <- ER in *.
    assert (EK : nth i (map dk rs) [] = dk (nth i rs d)).
    { rewrite (nth_indep _ [] (dk d)) by (rewrite map_length; auto). apply map_nth. }
    rewrite EK. set (r := nth i rs d) in *.
    assert (HR : In r rs) by (apply nth_In; auto).
    assert (LR : ble lo (dk r)) by (rewrite Forall_forall in LO; auto).
    rewrite (exist_key_sim snap lo (w_flt (tick s)) (w_flt (tick s0)) r K LR (proj1 GD)).
    assert (PRES : exist_key tb0 (w_flt (tick s0)) (new_iter snap lo hi) (dk r) = true -> flt_may tb (w_flt s) (dk r) = true).
    { rewrite <- (exist_key_sim snap lo (w_flt s) (w_flt (tick s0)) r K LR (proj1 GD)).
      rewrite exist_key_eq by auto. intro B. apply andb_true_iff in B as [B _]. exact B. }
    destruct (exist_key tb0 (w_flt (tick s0)) (new_iter snap lo hi) (dk r)) eqn:X.
    - change (t_deser tb0) with (t_deser tb). change (w_old (tick s0)) with (w_old s0). rewrite <- S2. change (w_old (tick s)) with (w_old s).
      destruct (t_deser tb _ (w_old s)) as [old|]; [|split; [apply sim_same; auto|split; auto]].
      destruct (upsert_dups _ _ _ _ _ _ _) as [[[i' old'] tr']|]; [|split; [repeat split; cbn; congruence|split; auto]].
      change (t_ser tb0 tr') with (t_ser tb tr').
      destruct (t_ser tb tr') as [v|]; [|split; [repeat split; cbn; congruence|split; auto]].
      apply IH.
      + split; [|split]; cbn; solve [auto | rewrite S1; reflexivity | congruence].
      + destruct GD as [G1 G2]. split; [exact G1|]. cbn [w_ops w_flt add_ops set_old tick].
        apply ops_covered_app; auto. apply row_ops_covered; [auto|].
        apply index_ops_covered. intros; apply on_update_under; auto.
    - change (w_old (tick s0)) with (w_old s0). rewrite <- S2. change (w_old (tick s)) with (w_old s).
      destruct (upsert_dups _ _ _ _ _ _ _) as [[[i' old'] tr']|]; [|split; [repeat split; cbn; congruence|split; auto]].
      change (t_ser tb0 tr') with (t_ser tb tr').
      destruct (t_ser tb tr') as [v|]; [|split; [repeat split; cbn; congruence|split; auto]].
      apply IH.
      + split; [|split].
        * rewrite flt_add_ops. cbn. rewrite S1. reflexivity.
        * rewrite flt_add_old. cbn. auto.
        * rewrite flt_add_tick. cbn. congruence.
      + destruct GD as [G1 G2]. set (s1 := add_ops _ _).
        assert (LE : flt_le tb (w_flt s) (w_flt (flt_add tb (dk r) s1))) by (apply (flt_add_le s1); auto).
        split; [eapply covers_le; eauto|]. rewrite flt_add_ops. unfold s1 at 2. cbn [w_ops add_ops set_old tick].
        apply ops_covered_app; [eapply ops_covered_le; eauto|].
        apply row_ops_covered; [apply flt_add_has; auto|].
        apply index_ops_covered. intros; apply on_insert_under; auto.
  Qed.

  (** ** Covering the store with a batch on top *)

  Lemma get_apply_set os : forall st k v, kv_ok st -> kv_get (apply_ops st os) k = Some v ->
    kv_get st k = Some v \/ In (BSet k v) os.
  Proof.
    induction os as [|o os IH]; intros st k v K H; auto.
    change (apply_ops st (o :: os)) with (apply_ops (apply_op st o) os) in H.
    apply IH in H; [|apply apply_op_ok; auto]. destruct H as [H|H]; [|right; right; auto].
    destruct o as [k' v'|k'|lo h]; cbn [apply_op] in H.
    - rewrite kv_get_set in H. destruct (beqb k k') eqn:B; [|auto]. apply beqb_eq in B. right. left. congruence.
    - rewrite kv_get_del in H by auto. destruct (beqb k k'); [easy|auto].
    - rewrite kv_get_del_range in H by auto. destruct (in_range lo h k); [easy|auto].
  Qed.

  Lemma covers_apply fl db os : kv_ok db -> covers tb fl db -> ops_covered tb fl os -> covers tb fl (apply_ops db os).
  Proof.
    intros K C O f rest v Ef Hg. apply get_apply_set in Hg as [Hg|Hg]; auto; [eapply C|eapply O]; eauto.
  Qed.

  Lemma good_snapshot db rw s : kv_ok db -> good db s -> good (chunk_snapshot db rw (w_ops s)) s.
  Proof.
    intros K [G1 G2]. split; auto. unfold chunk_snapshot. destruct rw; auto. apply covers_apply; auto.
  Qed.

  Lemma insert_chunk_mono db rw c s : flt_le tb (w_flt s) (w_flt (fst (insert_chunk tb ev db rw c s))).
  Proof.
    unfold insert_chunk. destruct (sort_keys _ _) as [keys order].
    destruct keys; [apply flt_le_refl|]. apply insert_rows_mono; auto.
  Qed.

  Lemma chunk_good db rw s (a b : wst T F * res unit) :
    kv_ok db -> good db s -> flt_le tb (w_flt s) (w_flt (fst a)) ->
    sim_res (chunk_snapshot db rw (w_ops s)) a b -> sim_res db a b.
  Proof.
    intros K [G1 G2] LE [A [B [C D]]]. split; auto. split; auto. split; auto. eapply covers_le; eauto.
  Qed.

  Lemma insert_chunk_sim db rw c s s0 : kv_ok db -> sim s s0 -> good db s ->
    sim_res db (insert_chunk tb ev db rw c s) (insert_chunk tb0 ev db rw c s0).
  Proof.
    intros K SM GD. apply (chunk_good db rw s); auto; [apply insert_chunk_mono|].
    unfold insert_chunk. change (map (data_key tb0) c) with (map dk c).
    destruct (sort_keys_rows (tb:=tb) (ev:=ev) c) as [keys [order [rs [E1 [E2 [P [S F2]]]]]]]. rewrite E1. subst keys.
    pose proof (good_snapshot db rw s K GD) as GS.
    destruct (map dk rs) as [|k ks] eqn:ER; [split; auto|]. rewrite <- ER in S |- *.
    unfold chunk_iter. pose proof SM as [S1 _]. rewrite <- S1. change (data_key_space_end tb0) with hi.
    apply insert_rows_sim; auto using snapshot_ok. apply hd_le; auto.
  Qed.

  Lemma update_chunk_sim db rw c s s0 : kv_ok db -> sim s s0 -> good db s ->
    sim_res db (update_chunk tb ev db rw c s) (update_chunk tb0 ev db rw c s0).
  Proof.
    intros K SM GD. apply (chunk_good db rw s); auto.
    { unfold update_chunk. destruct (sort_keys _ _) as [keys order]. destruct keys; [apply flt_le_refl|].
      rewrite update_rows_mono. apply flt_le_refl. }
    unfold update_chunk. change (map (data_key tb0) c) with (map dk c).
    destruct (sort_keys_rows (tb:=tb) (ev:=ev) c) as [keys [order [rs [E1 [E2 [P [S F2]]]]]]]. rewrite E1. subst keys.
    pose proof (good_snapshot db rw s K GD) as GS.
    destruct (map dk rs) as [|k ks] eqn:ER; [split; auto|]. rewrite <- ER in S |- *.
    unfold chunk_iter. pose proof SM as [S1 _]. rewrite <- S1. change (data_key_space_end tb0) with hi.
    apply update_rows_sim; auto using snapshot_ok. apply hd_le; auto.
  Qed.

  Lemma upsert_chunk_sim f db rw c s s0 : kv_ok db -> sim s s0 -> good db s ->
    sim_res db (upsert_chunk tb ev f db rw c s) (upsert_chunk tb0 ev f db rw c s0).
  Proof.
    intros K SM GD. apply (chunk_good db rw s); auto.
    { unfold upsert_chunk. destruct (sort_keys _ _) as [keys order]. destruct keys; [apply flt_le_refl|].
      apply upsert_rows_mono; auto. }
    unfold upsert_chunk. change (map (data_key tb0) c) with (map dk c).
    destruct (sort_keys_rows (tb:=tb) (ev:=ev) c) as [keys [order [rs [E1 [E2 [P [S F2]]]]]]]. rewrite E1. subst keys.
    pose proof (good_snapshot db rw s K GD) as GS.
    destruct (map dk rs) as [|k ks] eqn:ER; [split; auto|]. rewrite <- ER in S |- *.
    unfold chunk_iter. pose proof SM as [S1 _]. rewrite <- S1. change (data_key_space_end tb0) with hi.
    apply upsert_rows_sim; auto using snapshot_ok. apply hd_le; auto.
  Qed.

  Lemma run_chunks_sim db (g g0 : list T -> wst T F -> wst T F * res unit) :
    (forall c s s0, sim s s0 -> good db s -> sim_res db (g c s) (g0 c s0)) ->
    forall cs s s0, sim s s0 -> good db s -> sim_res db (run_chunks g cs s) (run_chunks g0 cs s0).
  Proof.
    intros H. induction cs as [|c cs IH]; intros s s0 SM GD; cbn; [split; auto|].
    specialize (H c s s0 SM GD). destruct (g c s) as [s1 r1], (g0 c s0) as [s2 r2]. destruct H as [A [B C]]. cbn [fst snd] in *.
    subst r2. destruct r1; [apply IH; auto|split; auto ..].
  Qed.

  Lemma delete_rows_sim db : forall trs s s0, sim s s0 -> good db s ->
    sim_res db (delete_rows tb ev trs s) (delete_rows tb0 ev trs s0).
  Proof.
    induction trs as [|r trs IH]; intros s s0 SM GD; cbn [delete_rows]; [split; auto|].
    pose proof SM as [S1 [S2 S3]]. rewrite <- S3.
    destruct (e_ctx ev (w_tick s)); [split; [apply sim_same; auto|split; auto]|].
    apply IH.
    - split; [|split]; cbn; solve [auto | rewrite S1; reflexivity | congruence].
    - destruct GD as [G1 G2]. split; [exact G1|]. cbn [w_ops w_flt add_ops tick]. apply ops_covered_app; auto.
      intros fn rest v Ef [Hin|Hin]; [easy|].
      eapply (index_ops_covered (w_flt s)); eauto. intros; apply on_delete_under; auto.
  Qed.

  Lemma body_sim c db rw s s0 : kv_ok db -> sim s s0 -> good db s ->
    sim_res db (body (tb:=tb) (ev:=ev) c db rw s) (body (tb:=tb0) (ev:=ev) c db rw s0).
  Proof.
    intros K SM GD. destruct c as [l|l|f l|l]; cbn [body]; [| | |apply delete_rows_sim; auto].
    - destruct (batched_chunks (St := wst T F) (e_chunk ev) l (env_chunk_pos _ EV)) as [cs [_ C2]]. rewrite !C2.
      apply run_chunks_sim; auto. intros; apply insert_chunk_sim; auto.
    - destruct (batched_chunks (St := wst T F) (e_chunk ev) l (env_chunk_pos _ EV)) as [cs [_ C2]]. rewrite !C2.
      apply run_chunks_sim; auto. intros; apply update_chunk_sim; auto.
    - destruct (batched_chunks (St := wst T F) (e_chunk ev) l (env_chunk_pos _ EV)) as [cs [_ C2]]. rewrite !C2.
      apply run_chunks_sim; auto. intros; apply upsert_chunk_sim; auto.
  Qed.

  (** A whole call, with or without an external batch. *)
  Lemma call_sim c db fl fl0 ob : kv_ok db -> covers tb fl db ->
    (forall b, ob = Some b -> ops_covered tb fl (b_ops b)) ->
    let '(w, r) := run_call tb ev db fl ob c in
    let '(w0, r0) := run_call tb0 ev db fl0 ob c in
    r = r0 /\ r_db w = r_db w0 /\ r_batch w = r_batch w0 /\ covers tb (r_flt w) (r_db w) /\
    (forall b, r_batch w = Some b -> ops_covered tb (r_flt w) (b_ops b)).
  Proof.
    intros K C CB. rewrite !run_call_eq. unfold run_write. destruct ob as [b|].
    - pose proof (body_sim c db (b_rw b) (WSt (b_ops b) fl (t_nil tb) 0) (WSt (b_ops b) fl0 (t_nil tb0) 0) K) as H.
      destruct (body (tb:=tb) c db (b_rw b) _) as [s r], (body (tb:=tb0) c db (b_rw b) _) as [s0 r0].
      destruct H as [[A1 _] [B [C1 C2]]]; [repeat split|split; [exact C|exact (CB b eq_refl)]|]. cbn [fst snd r_db r_batch r_flt] in *.
      split; auto. split; auto. split; [congruence|]. split; auto. intros b' [= <-]. exact C2.
    - pose proof (body_sim c db false (WSt [] fl (t_nil tb) 0) (WSt [] fl0 (t_nil tb0) 0) K) as H.
      destruct (body (tb:=tb) c db false _) as [s r], (body (tb:=tb0) c db false _) as [s0 r0].
      destruct H as [[A1 _] [B [C1 C2]]]; [repeat split|split; [exact C|intros ? ? ? ? []]|]. cbn [fst snd] in *. subst r0. rewrite <- A1.
      assert (DONE : forall r' : res unit, r' = r' /\ db = db /\ @None batch = None /\ covers tb (w_flt s) db /\
          (forall b, None = Some b -> ops_covered tb (w_flt s) (b_ops b))).
      { intro r'. split; auto. split; auto. split; auto. split; [exact C1|easy]. }
      destruct r as [[]|e| |]; cbn [r_db r_batch r_flt]; [|apply DONE ..].
      destruct (w_ops s) as [|o os] eqn:EO; cbn [r_db r_batch r_flt]; [apply DONE|].
      destruct (e_commit ev); cbn [r_db r_batch r_flt]; [|apply DONE].
      split; auto. split; auto. split; auto. split; [|easy].
      apply covers_apply; auto.
  Qed.

  (** Reads. *)
  Lemma db_get_ok db ob k v : db_get db ob k = Ok v -> exists v', kv_get (view db ob) k = Some v'.
  Proof.
    unfold db_get. destruct ob as [b|]; [destruct (b_rw b)|].
    - destruct (kv_get (view db (Some b)) k); [eauto|easy].
    - easy.
    - cbn [view]. destruct (kv_get db k); [eauto|easy].
  Qed.

  Lemma exist_sim db fl fl0 ob r : kv_ok db -> covers tb fl db ->
    (forall b, ob = Some b -> ops_covered tb fl (b_ops b)) ->
    exist tb db fl ob r = exist tb0 db fl0 ob r.
  Proof.
    intros K C CB. unfold exist. change (data_key tb0 r) with (dk r). change (flt_may tb0 fl0 (dk r)) with true.
    destruct (db_get db ob (dk r)) as [v|e| |] eqn:E; rewrite ?andb_false_r; auto.
    destruct (db_get_ok _ _ _ _ E) as [v' G]. assert (CV : covers tb fl (view db ob)).
    { destruct ob as [b|]; cbn; auto. apply covers_apply; auto. }
    rewrite (covers_may _ _ _ _ CV G). reflexivity.
  Qed.

  Lemma get_point_sim db fl fl0 ob r : kv_ok db -> covers tb fl db ->
    (forall b, ob = Some b -> ops_covered tb fl (b_ops b)) ->
    get_point tb db fl ob r = get_point tb0 db fl0 ob r.
  Proof.
    intros K C CB. unfold get_point, get_one. change (data_key tb0 r) with (dk r). change (flt_may tb0 fl0 (dk r)) with true.
    cbn [negb]. destruct (db_get db ob (dk r)) as [v|e| |] eqn:E; [|destruct (negb _); auto ..].
    destruct (db_get_ok _ _ _ _ E) as [v' G]. assert (CV : covers tb fl (view db ob)).
    { destruct ob as [b|]; cbn; auto. apply covers_apply; auto. }
    rewrite (covers_may _ _ _ _ CV G). reflexivity.
  Qed.

  Lemma get_points_sim db fl fl0 ob pts : kv_ok db -> covers tb fl db ->
    (forall b, ob = Some b -> ops_covered tb fl (b_ops b)) ->
    get_points tb ev db fl ob pts = get_points tb0 ev db fl0 ob pts.
  Proof.
    intros K C CB. unfold get_points. destruct pts as [|p0 pts']; [reflexivity|]. set (pts := p0 :: pts').
    destruct (batched_chunks (St := list T) (length pts) pts) as [cs [C1 C2]]; [cbn; lia|]. rewrite !C2.
    rewrite (is_chunks_small _ _ _ C1) by (auto; easy). cbn [run_chunks]. change (data_key tb0) with dk.
    assert (CV : covers tb fl (view db ob)).
    { destruct ob as [b|]; cbn; auto. apply covers_apply; auto. }
    assert (EQ : get_keys tb ev db fl ob (map dk pts) false = get_keys tb0 ev db fl0 ob (map dk pts) false).
    { assert (CASES : readable ob \/ exists b, ob = Some b /\ b_rw b = false).
      { destruct ob as [b|]; cbn; auto. destruct (b_rw b) eqn:RW; eauto. }
      destruct CASES as [RD|[b [-> RW]]].
      - rewrite get_keys_eq by auto. assert (L0 : lawful tb0) by (destruct LAW; constructor; auto).
        change dk with (data_key tb0). symmetry. apply (get_keys_eq (tb:=tb0)); auto. intros f rest v Ef; easy.
      - unfold get_keys. destruct (map dk pts) as [|k ks] eqn:EM; auto. destruct (sort_keys ev (k :: ks)) as [sk order].
        unfold db_iter. rewrite RW. change (data_key_space_end tb0) with hi.
        assert (GV : forall keys fl1, get_values tb fl1 (err_iter ENotIndexed) keys false = Ok (map (fun _ => []) keys)).
        { induction keys as [|k' keys IHk]; intro fl1; cbn [get_values map]; auto. unfold get_value.
          rewrite IHk. destruct (negb (flt_may _ _ _)); auto. }
        assert (GV0 : forall keys fl1, get_values tb0 fl1 (err_iter ENotIndexed) keys false = Ok (map (fun _ => []) keys)).
        { induction keys as [|k' keys IHk]; intro fl1; cbn [get_values map]; auto. unfold get_value.
          rewrite IHk. destruct (negb (flt_may _ _ _)); auto. }
        rewrite GV, GV0. reflexivity. }
    rewrite EQ. reflexivity.
  Qed.
End Sim.
