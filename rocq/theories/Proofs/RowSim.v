(** What a call does to the rows does not depend on the secondary indexes. *)

From Coq Require Import List NArith Lia Bool Sorting.Sorted Sorting.Permutation Arith.
From Verif.Model Require Import Bytes Go Keys Pebble Index Table.
From Verif.Spec Require Import KeySpec StoreSpec TableSpec HistSpec.
From Verif.Proofs Require Import BytesFacts KeysFacts PebbleFacts TableFacts WriteFacts UpdateFacts UpsertFacts CallFacts LocalFacts ReadFacts HistFacts Witness.
Import ListNotations.

Section Sim.
  Context {T F : Type} {tb : table T F} {ev : env T} {LAW : lawful tb} {EV : env_ok ev}.
  Notation sc := (schema_of tb).
  Notation dk := (data_key tb).
  Notation pk := (s_pk (schema_of tb)).
  Notation hi := (data_key_space_end tb).
  Notation tb0 := (no_indexes tb).

  (** Two lists of operations do the same to the rows. *)
  Definition same_rows (a b : list bop) : Prop :=
    (a = [] <-> b = []) /\ forall rest, ops_effect a (t_id tb :: x00 :: rest) = ops_effect b (t_id tb :: x00 :: rest).

  Definition sim (s s0 : wst T F) : Prop :=
    same_rows (w_ops s) (w_ops s0) /\ w_flt s = w_flt s0 /\ w_old s = w_old s0 /\ w_tick s = w_tick s0.

  Definition sim_res (a b : wst T F * res unit) : Prop := sim (fst a) (fst b) /\ snd a = snd b.

  Lemma sim_tick s s0 : sim s s0 -> sim (tick s) (tick s0).
  Proof. intros [A [B [C D]]]. split; [exact A|]. cbn. split; [auto|split; congruence]. Qed.

  Lemma sim_old s s0 o : sim s s0 -> sim (set_old s o) (set_old s0 o).
  Proof. intros [A [B [C D]]]. split; [exact A|]. cbn. split; auto. Qed.

  Lemma map_none n : e_map ev n [] = [].
  Proof. pose proof (env_map_perm _ EV n []) as P. apply Permutation_sym, Permutation_nil in P. exact P. Qed.

  Lemma index_ops_rows (g : index T -> list bop) n rest :
    (forall ix, In ix (t_indexes tb) -> Forall (op_key_under (t_id tb) (ix_id ix)) (g ix)) ->
    ops_effect (flat_map g (e_map ev n (t_indexes tb))) (t_id tb :: x00 :: rest) = None.
  Proof.
    intro H. apply ops_effect_none. intros o Ho. apply in_flat_map in Ho as [ix [H1 H2]].
    apply (Permutation_in _ (env_map_perm _ EV n _)) in H1. specialize (H ix H1). rewrite Forall_forall in H.
    specialize (H _ H2). pose proof (law_nonzero _ LAW ix H1) as NZ.
    destruct o as [k v|k|lo h]; cbn [op_key_under op_touches] in *; [| |easy]; destruct H as [rest' ->].
    - apply not_true_is_false. intro B. apply beqb_eq in B. congruence.
    - apply not_true_is_false. intro B. apply beqb_eq in B. congruence.
  Qed.

  Lemma sim_row s s0 o (g g0 : index T -> list bop) n :
    (forall ix, In ix (t_indexes tb) -> Forall (op_key_under (t_id tb) (ix_id ix)) (g ix)) -> sim s s0 ->
    sim (add_ops s (o :: flat_map g (e_map ev n (t_indexes tb)))) (add_ops s0 (o :: flat_map g0 (e_map ev n (t_indexes tb0)))).
  Proof.
    intros H [A [B [C D]]]. split; [|cbn; auto]. cbn [w_ops add_ops t_indexes no_indexes]. rewrite map_none. cbn [flat_map].
    destruct A as [_ A]. split.
    - split; intro E; apply app_eq_nil in E as [_ E]; easy.
    - intro rest. rewrite !ops_effect_app, A. cbn [ops_effect]. rewrite index_ops_rows by auto. reflexivity.
  Qed.

  Lemma sim_flt s s0 k : sim s s0 -> sim (flt_add tb k s) (flt_add tb0 k s0).
  Proof.
    intros [A [B [C D]]]. unfold flt_add. change (t_filter tb0) with (t_filter tb). destruct (t_filter tb); split; cbn; auto.
    rewrite B. auto.
  Qed.

  Lemma exist_key_sim fl it k : exist_key tb0 fl it k = exist_key tb fl it k.
  Proof. reflexivity. Qed.

  Lemma insert_rows_sim it trs : forall rows prev s s0, sim s s0 ->
    sim_res (insert_rows tb ev it trs prev rows s) (insert_rows tb0 ev it trs prev rows s0).
  Proof.
    induction rows as [|[k o] rows IH]; intros prev s s0 SM; cbn [insert_rows]; [split; auto|].
    pose proof SM as [_ [S1 [S2 S3]]]. change (w_flt (tick s0)) with (w_flt s0). change (w_flt (tick s)) with (w_flt s).
    rewrite exist_key_sim. rewrite <- S1, <- S3.
    destruct (e_ctx ev (w_tick s)); [split; [apply sim_tick; auto|auto]|].
    destruct (_ || _); [split; [apply sim_tick; auto|auto]|].
    destruct (nth_error trs o) as [r|]; [|split; [apply sim_tick; auto|auto]].
    change (t_ser tb0 r) with (t_ser tb r).
    destruct (t_ser tb r) as [v|]; [|split; [apply sim_tick; auto|auto]].
    apply IH. apply sim_flt. apply sim_row; [|apply sim_tick; auto]. intros; apply on_insert_under; auto.
  Qed.

  Lemma update_rows_sim it trs : forall rows s s0, sim s s0 ->
    sim_res (update_rows tb ev it trs rows s) (update_rows tb0 ev it trs rows s0).
  Proof.
    induction rows as [|[k o] rows IH]; intros s s0 SM; cbn [update_rows]; [split; auto|].
    pose proof SM as [_ [S1 [S2 S3]]]. rewrite <- S3.
    destruct (e_ctx ev (w_tick s)); [split; [apply sim_tick; auto|auto]|].
    destruct (match rows with [] => false | _ => _ end); [apply IH; auto using sim_tick|]. cbn zeta.
    destruct (_ || _); [split; [apply sim_tick; auto|auto]|].
    change (w_old (tick s0)) with (w_old s0). change (w_old (tick s)) with (w_old s). rewrite <- S2.
    change (t_deser tb0) with (t_deser tb).
    destruct (t_deser tb _ (w_old s)) as [old|]; [|split; [apply sim_tick; auto|auto]].
    destruct (nth_error trs o) as [r|]; [|split; [apply sim_old, sim_tick; auto|auto]].
    change (t_ser tb0 r) with (t_ser tb r).
    destruct (t_ser tb r) as [v|]; [|split; [apply sim_old, sim_tick; auto|auto]].
    apply IH. apply sim_row; [|apply sim_old, sim_tick; auto]. intros; apply on_update_under; auto.
  Qed.

  Lemma upsert_rows_sim f it trs keys order : forall fuel i s s0, sim s s0 ->
    sim_res (upsert_rows tb ev f fuel it trs keys order i s) (upsert_rows tb0 ev f fuel it trs keys order i s0).
  Proof.
    induction fuel as [|fuel IH]; intros i s s0 SM; cbn [upsert_rows]; [split; auto|].
    destruct (Nat.ltb i (length keys)); [|split; auto].
    destruct (nth_error trs (nth i order 0)) as [tr|]; [|split; auto].
    pose proof SM as [_ [S1 [S2 S3]]]. rewrite <- S3.
    destruct (e_ctx ev (w_tick s)); [split; [apply sim_tick; auto|auto]|].
    change (w_flt (tick s0)) with (w_flt s0). change (w_flt (tick s)) with (w_flt s).
    change (w_old (tick s0)) with (w_old s0). change (w_old (tick s)) with (w_old s).
    rewrite exist_key_sim. rewrite <- S1, <- S2. change (t_deser tb0) with (t_deser tb).
    destruct (if exist_key _ _ _ _ then _ else _) as [old|]; [|split; [apply sim_tick; auto|auto]].
    destruct (upsert_dups _ _ _ _ _ _ _) as [[[i' old'] tr']|]; [|split; [apply sim_old, sim_tick; auto|auto]].
    change (t_ser tb0 tr') with (t_ser tb tr').
    destruct (t_ser tb tr') as [v|]; [|split; [apply sim_old, sim_tick; auto|auto]].
    apply IH. destruct (exist_key _ _ _ _).
    - apply sim_row; [|apply sim_old, sim_tick; auto]. intros; apply on_update_under; auto.
    - apply sim_flt. apply sim_row; [|apply sim_old, sim_tick; auto]. intros; apply on_insert_under; auto.
  Qed.

  Lemma delete_rows_sim : forall trs s s0, sim s s0 ->
    sim_res (delete_rows tb ev trs s) (delete_rows tb0 ev trs s0).
  Proof.
    induction trs as [|r trs IH]; intros s s0 SM; cbn [delete_rows]; [split; auto|].
    pose proof SM as [_ [S1 [S2 S3]]]. rewrite <- S3.
    destruct (e_ctx ev (w_tick s)); [split; [apply sim_tick; auto|auto]|].
    apply IH. change (dk r) with (data_key tb0 r). apply sim_row; [|apply sim_tick; auto].
    intros; apply on_delete_under; auto.
  Qed.

  Lemma run_chunks_sim (g g0 : list T -> wst T F -> wst T F * res unit) :
    (forall c s s0, sim s s0 -> sim_res (g c s) (g0 c s0)) ->
    forall cs s s0, sim s s0 -> sim_res (run_chunks g cs s) (run_chunks g0 cs s0).
  Proof.
    intros H. induction cs as [|c cs IH]; intros s s0 SM; cbn; [split; auto|].
    specialize (H c s s0 SM). destruct (g c s) as [s1 r1], (g0 c s0) as [s2 r2]. destruct H as [A B]. cbn [fst snd] in *.
    subst r2. destruct r1; [apply IH; auto|split; auto ..].
  Qed.

  Lemma body_sim c db s s0 : sim s s0 ->
    sim_res (body (tb:=tb) (ev:=ev) c db false s) (body (tb:=tb0) (ev:=ev) c db false s0).
  Proof.
    intros SM. destruct c as [l|l|f l|l]; cbn [body]; [| | |apply delete_rows_sim; auto].
    - destruct (batched_chunks (St := wst T F) (e_chunk ev) l (env_chunk_pos _ EV)) as [cs [_ C2]]. rewrite !C2.
      apply run_chunks_sim; auto. intros c s1 s2 SM1. unfold insert_chunk. change (data_key tb0) with dk.
      destruct (sort_keys _ _) as [[|k ks] order]; [split; auto|apply insert_rows_sim; auto].
    - destruct (batched_chunks (St := wst T F) (e_chunk ev) l (env_chunk_pos _ EV)) as [cs [_ C2]]. rewrite !C2.
      apply run_chunks_sim; auto. intros c s1 s2 SM1. unfold update_chunk. change (data_key tb0) with dk.
      destruct (sort_keys _ _) as [[|k ks] order]; [split; auto|apply update_rows_sim; auto].
    - destruct (batched_chunks (St := wst T F) (e_chunk ev) l (env_chunk_pos _ EV)) as [cs [_ C2]]. rewrite !C2.
      apply run_chunks_sim; auto. intros c s1 s2 SM1. unfold upsert_chunk. change (data_key tb0) with dk.
      destruct (sort_keys _ _) as [[|k ks] order]; [split; auto|apply upsert_rows_sim; auto].
  Qed.
End Sim.

Section Hist.
  Context {T F : Type} (tb : table T F) (G : good_table tb).
  Notation sc := (schema_of tb).
  Notation dk := (data_key tb).
  Notation pk := (s_pk (schema_of tb)).
  Notation tb0 := (no_indexes tb).

  Let LAW : lawful tb := good_lawful _ G.
  Local Existing Instance LAW.

  Lemma good_rows : good_table tb0.
  Proof.
    destruct G as [L S FO]. destruct L. constructor; [|exact S|exact FO].
    constructor; auto; cbn; try easy. constructor.
  Qed.

  Definition agree (a b : kv) : Prop :=
    forall rest, kv_get a (t_id tb :: x00 :: rest) = kv_get b (t_id tb :: x00 :: rest).

  Lemma agree_dk a b r : agree a b -> kv_get a (dk r) = kv_get b (dk r).
  Proof. intro A. rewrite (data_key_eq _ LAW). destruct (row_key_shape tb (pk r)) as [rest ->]. apply A. Qed.

  Lemma call_rows ev c db db0 fl w w0 r r0 : env_ok ev -> kv_ok db -> kv_ok db0 -> agree db db0 ->
    run_call tb ev db fl None c = (w, r) -> run_call tb0 ev db0 fl None c = (w0, r0) ->
    r = r0 /\ r_flt w = r_flt w0 /\ agree (r_db w) (r_db w0) /\ kv_ok (r_db w) /\ kv_ok (r_db w0).
  Proof.
    intros EV K K0 A. rewrite !run_call_eq. unfold run_write.
    assert (SM : sim (tb:=tb) (WSt [] fl (t_nil tb) 0) (WSt [] fl (t_nil tb0) 0)).
    { split; [|cbn; auto]. split; [split; auto|auto]. }
    pose proof (body_sim (LAW:=LAW) (EV:=EV) c db _ _ SM) as H.
    pose proof (good_lawful _ good_rows) as LAW0.
    rewrite (body_local (tb:=tb0) (LAW:=LAW0) (EV:=EV) c db db0 false) in H; auto.
    2: { intros x _. apply (agree_dk db db0 x A). }
    destruct (body (tb:=tb) c db false _) as [s x], (body (tb:=tb0) c db0 false _) as [s0 x0].
    destruct H as [[[N S] [S1 _]] S2]. cbn [fst snd] in *. subst x0.
    destruct x as [[]|e| |]; [|intros [= <- <-] [= <- <-]; cbn; auto ..].
    destruct (w_ops s) as [|o os] eqn:EO, (w_ops s0) as [|o0 os0] eqn:EO0.
    - intros [= <- <-] [= <- <-]; cbn; auto.
    - destruct N as [N _]. discriminate (N eq_refl).
    - destruct N as [_ N]. discriminate (N eq_refl).
    - destruct (e_commit ev); intros [= <- <-] [= <- <-]; cbn [r_db r_flt]; auto.
      split; auto. split; auto. split; [|split; [apply (apply_ops_ok (o :: os))|apply (apply_ops_ok (o0 :: os0))]; auto].
      intro rest. change (kv_get (apply_ops db (o :: os)) (t_id tb :: x00 :: rest) = kv_get (apply_ops db0 (o0 :: os0)) (t_id tb :: x00 :: rest)).
      rewrite !kv_get_apply_ops by auto. rewrite S. rewrite A. reflexivity.
  Qed.

  Lemma hist_rows : forall h db db0 fl db' fl' oks, Forall (fun ec => env_ok (fst ec)) h ->
    kv_ok db -> kv_ok db0 -> agree db db0 -> run_hist tb db fl h = (db', fl', oks) ->
    exists db0', run_hist tb0 db0 fl h = (db0', fl', oks) /\ agree db' db0' /\ kv_ok db' /\ kv_ok db0'.
  Proof.
    induction h as [|[ev c] h IH]; intros db db0 fl db' fl' oks EVS K K0 A RUN; cbn [run_hist] in *.
    - injection RUN as <- <- <-. eauto.
    - inversion EVS as [|? ? EV1 EV2]; subst. cbn [fst] in EV1.
      destruct (run_call tb ev db fl None c) as [w r] eqn:E1, (run_call tb0 ev db0 fl None c) as [w0 r0] eqn:E2.
      destruct (call_rows ev c db db0 fl w w0 r r0 EV1 K K0 A E1 E2) as [<- [B [C [D1 D2]]]].
      destruct (run_hist tb (r_db w) (r_flt w) h) as [[db1 fl1] oks1] eqn:E3. injection RUN as <- <- <-.
      destruct (IH _ _ _ _ _ _ EV2 D1 D2 C E3) as [db0' [X1 [X2 [X3 X4]]]].
      exists db0'. rewrite <- B, X1. auto.
  Qed.

  Lemma db_get_agree a b r : agree a b -> db_get a None (dk r) = db_get b None (dk r).
  Proof. intro A. unfold db_get. cbn [view]. rewrite (agree_dk a b r A). reflexivity. Qed.

  (** Reads after a history, whatever the indexes went through. *)
  Lemma reads_after_any_deletes h db' fl' oks : Forall (fun ec => env_ok (fst ec)) h ->
    forall fl0, run_hist tb [] fl0 h = (db', fl', oks) -> admissible_hist (schema_of tb0) empty_map oks ->
    forall r, get_point tb db' fl' None r = match outcome sc empty_map oks (pk r) with Some x => Ok x | None => Err ENotFound end
      /\ exist tb db' fl' None r = match outcome sc empty_map oks (pk r) with Some _ => true | None => false end.
  Proof.
    intros EH fl0 RUN AD r.
    destruct (hist_rows h [] [] fl0 db' fl' oks EH kv_ok_nil kv_ok_nil (fun _ => eq_refl) RUN) as [db0 [X1 [X2 [X3 X4]]]].
    pose proof good_rows as G0. pose proof (good_lawful _ G0) as LAW0.
    destruct (hist_run tb0 G0 h [] fl0 empty_map db0 fl' oks EH) as [[K R C] _]; auto.
    { constructor; [apply kv_ok_nil|apply Rep_empty|apply covers_empty]. }
    assert (EO : outcome (schema_of tb0) empty_map oks = outcome sc empty_map oks) by reflexivity.
    rewrite EO in *. split.
    - pose proof (get_point_eq (tb:=tb0) (LAW:=LAW0) db0 fl' None (outcome sc empty_map oks) r (fun x v => good_ser _ G0 x v _)) as H.
      unfold get_point, get_one in *. rewrite (db_get_agree db' db0 r X2). apply H; auto. exact I.
    - pose proof (exist_eq (tb:=tb0) (LAW:=LAW0) db0 fl' None (outcome sc empty_map oks) r) as H. unfold exist in *.
      rewrite (db_get_agree db' db0 r X2). apply H; auto. exact I.
  Qed.
End Hist.

Lemma row_ok_no_indexes {T F} (tb : table T F) l : Forall (row_ok (schema_of (no_indexes tb))) l.
Proof. apply Forall_forall. intros r _ ix []. Qed.
