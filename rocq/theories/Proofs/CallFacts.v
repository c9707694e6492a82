(** Whole write calls. *)

From Coq Require Import List NArith Lia Bool Sorting.Sorted Sorting.Permutation Arith.
From Verif.Model Require Import Bytes Go Keys Pebble Index Table.
From Verif.Spec Require Import KeySpec TableSpec HistSpec.
From Verif.Proofs Require Import BytesFacts KeysFacts PebbleFacts TableFacts WriteFacts UpdateFacts UpsertFacts.
Import ListNotations.

Section Calls.
  Context {T F : Type} {tb : table T F} {ev : env T} {LAW : lawful tb} {EV : env_ok ev}.
  Notation sc := (schema_of tb).
  Notation dk := (data_key tb).
  Notation pk := (s_pk (schema_of tb)).

  (** ** Delete *)

  Lemma remove_le m r p o : remove sc m r p = Some o -> m p = Some o.
  Proof. unfold remove. destruct (beqb p (pk r)); easy. Qed.

  Lemma removes_le l : forall m p o, removes sc m l p = Some o -> m p = Some o.
  Proof.
    induction l as [|r l IH]; intros m p o H; auto.
    change (removes sc m (r :: l)) with (removes sc (remove sc m r) l) in H.
    apply IH in H. eapply remove_le; eauto.
  Qed.

  Lemma delete_rows_run db : kv_ok db -> forall trs s m,
    Forall (row_ok sc) trs -> Rep sc (V db s) m ->
    (forall r o, In r trs -> m (pk r) = Some o -> same_entries tb r o) ->
    exists s' res, delete_rows tb ev trs s = (s', res)
      /\ ((exists e, res = Err e) \/
          res = Ok tt /\ Rep sc (V db s') (removes sc m trs) /\ same_outside sc (V db s) (V db s')
          /\ live ev s (length trs))
      /\ (live ev s (length trs) -> res = Ok tt) /\ w_flt s' = w_flt s.
  Proof.
    intro K. induction trs as [|r trs IH]; intros s m OK R SE.
    - exists s, (Ok tt). cbn. split; auto. split; [|auto]. right. split; auto. split; [exact R|].
      split; [apply same_outside_refl|]. intros i Hi; lia.
    - inversion OK as [|? ? OK1 OK2]; subst. cbn [delete_rows].
      destruct (e_ctx ev (w_tick s)) eqn:EC.
      { exists (tick s), (Err ECtx). split; auto. split; [left; eauto|]. split; [|reflexivity].
        intros Lv. rewrite Lv in EC; [easy|cbn; lia]. }
      set (s1 := add_ops _ _).
      assert (VK : kv_ok (V db s)) by (apply V_ok; auto).
      assert (V1 : V db s1 = apply_ops (V db s) (delete_ops tb (e_map ev (w_tick s) (t_indexes tb)) r)).
      { unfold s1. rewrite V_add, V_tick. reflexivity. }
      assert (R1 : Rep sc (V db s1) (remove sc m r)).
      { rewrite V1. apply delete_ops_rep; auto. { apply (env_map_perm _ EV). }
        intros o Ho. apply SE; auto. left; auto. }
      destruct (IH s1 (remove sc m r) OK2 R1) as [s' [res [E1 [E2 [E3 E4]]]]].
      { intros x o Hx Ho. apply SE; [right; auto|]. eapply remove_le; eauto. }
      exists s', res. split; [exact E1|].
      assert (LVs : live ev s1 (length trs) <-> live ev s (S (length trs))).
      { split; intros L i Hi.
        - destruct (Nat.eq_dec i (w_tick s)) as [->|]; auto. apply L. cbn. lia.
        - apply L. cbn in Hi. lia. }
      split; [|split; [|exact E4]].
      + destruct E2 as [E2|[E2 [G1 [G2 G3]]]]; [left; auto|right]. split; auto. split; [exact G1|].
        split; [|apply LVs; auto]. eapply same_outside_trans; [|exact G2]. rewrite V1. apply delete_ops_outside; auto.
        apply (env_map_perm _ EV).
      + intro Lv. apply E3. apply LVs; auto.
  Qed.

  (** ** Running a call on the database *)

  Definition body (c : call T) (db : kv) (rw : bool) (s : wst T F) : wst T F * res unit :=
    match c with
    | CInsert l => batched l (e_chunk ev) (insert_chunk tb ev db rw) s
    | CUpdate l => batched l (e_chunk ev) (update_chunk tb ev db rw) s
    | CUpsert f l => batched l (e_chunk ev) (upsert_chunk tb ev f db rw) s
    | CDelete l => delete_rows tb ev l s
    end.

  Lemma run_call_eq db fl ob c : run_call tb ev db fl ob c = run_write tb ev db fl ob (body c db).
  Proof. destruct c; reflexivity. Qed.

  (** the state in which a call starts: reads of the snapshot agree with the virtual store *)
  Definition reads_ok (db : kv) (rw : bool) (s : wst T F) : Prop :=
    rw = true \/ V db s = db.

  Lemma reads_snapshot db rw s : reads_ok db rw s -> chunk_snapshot db rw (w_ops s) = V db s.
  Proof. intros [->|E]; [reflexivity|]. unfold chunk_snapshot. destruct rw; auto. Qed.

  (** The complete description of a body on an admissible call. *)
  Lemma body_run c db rw s m : kv_ok db -> ser_over tb -> filter_ok tb ->
    reads_ok db rw s -> covers tb (w_flt s) (V db s) -> Rep sc (V db s) m -> admissible sc m c ->
    exists s' res, body c db rw s = (s', res)
      /\ ((exists e, res = Err e) \/
          res = Ok tt /\ Rep sc (V db s') (effect sc m c) /\ same_outside sc (V db s) (V db s')
          /\ flt_le tb (w_flt s) (w_flt s') /\ covers tb (w_flt s') (V db s')
          /\ live ev s (length (rows_of c)) /\ succeeds sc m c)
      /\ (live ev s (length (rows_of c)) -> succeeds sc m c -> res = Ok tt).
  Proof.
    intros K SO FO RD CV R AD. destruct c as [l|l|f l|l]; destruct AD as [OK AD]; cbn [body rows_of effect succeeds stored_row] in *.
    - (* insert *)
      destruct (batched_chunks (St := wst T F) (e_chunk ev) l (env_chunk_pos _ EV)) as [cs [C1 C2]]. rewrite C2.
      pose proof (is_chunks_nonempty _ _ _ (env_chunk_pos _ EV) C1) as NE. apply is_chunks_concat in C1. subst l.
      assert (CASES : (rw = true /\ covers tb (w_flt s) (V db s)) \/
        (rw = false /\ covers tb (w_flt s) db /\ NoDup (map pk (concat cs)) /\
         forall r, In r (concat cs) -> kv_get db (dk r) = kv_get (V db s) (dk r))).
      { destruct rw; [left; auto|right]. destruct RD as [|E]; [easy|]. rewrite E in *. auto. }
      assert (FWD : live ev s (length (concat cs)) ->
         (forall r, In r (concat cs) -> m (pk r) = None /\ t_ser tb r <> None) ->
         exists s', run_chunks (insert_chunk tb ev db rw) cs s = (s', Ok tt)
          /\ Rep sc (V db s') (puts sc m (concat cs)) /\ same_outside sc (V db s) (V db s')
          /\ flt_le tb (w_flt s) (w_flt s') /\ (forall r, In r (concat cs) -> flt_may tb (w_flt s') (dk r) = true)).
      { intros Lv Sc. apply (insert_run_fwd (EV:=EV) db rw K FO cs s m); auto.
        - intros; apply Sc; auto.
        - intros; apply Sc; auto.
        - destruct RD as [|E]; [left; auto|right]. intros r Hr. rewrite <- E.
          apply (rep_none _ _ _ R). apply Sc; auto. }
      destruct (run_chunks (insert_chunk tb ev db rw) cs s) as [s' res] eqn:RUN. exists s', res. split; auto. split.
      + assert (ERR : err_only (snd (run_chunks (insert_chunk tb ev db rw) cs s))).
        { apply run_chunks_err. intros c0 s0 Hc. apply (insert_chunk_err (EV:=EV)). rewrite Forall_forall in NE. auto. }
        rewrite RUN in ERR. destruct ERR as [[[] E]|[e E]]; cbn in E; subst res; [|left; eauto]. right.
        destruct (insert_run_inv (EV:=EV) db rw K FO cs s m s' NE OK R CASES RUN) as [I1 [I2 I3]].
        destruct (FWD I3 I2) as [s'' [F1 [F2 [F3 [F4 F5]]]]]. injection F1 as <-.
        split; auto. split; [exact F2|]. split; [exact F3|]. split; [exact F4|].
        split; [exact (covers_puts db s s' m _ R F2 F4 F5 CV)|]. split; [exact I3|]. exact I2.
      + intros Lv Sc. destruct (FWD Lv Sc) as [s'' [F1 _]]. congruence.
    - (* update *)
      destruct (batched_chunks (St := wst T F) (e_chunk ev) l (env_chunk_pos _ EV)) as [cs [C1 C2]]. rewrite C2.
      pose proof (is_chunks_nonempty _ _ _ (env_chunk_pos _ EV) C1) as NE. apply is_chunks_concat in C1. subst l.
      assert (AG : rw = true \/ NoDup (map pk (concat cs)) /\ forall r, In r (concat cs) -> kv_get db (dk r) = kv_get (V db s) (dk r)).
      { destruct RD as [|E]; [left; auto|right]. rewrite E. auto. }
      assert (FWD : live ev s (length (concat cs)) ->
         (forall r, In r (concat cs) -> m (pk r) <> None /\ t_ser tb r <> None) ->
         exists s' sel, run_chunks (update_chunk tb ev db rw) cs s = (s', Ok tt)
      /\ incl sel (concat cs) /\ (forall r, In r (concat cs) -> exists r', In r' sel /\ pk r' = pk r)
      /\ Rep sc (V db s') (puts sc m sel) /\ same_outside sc (V db s) (V db s')
      /\ w_flt s' = w_flt s).
      { intros Lv Sc. apply update_run_fwd; auto; intros; apply Sc; auto. }
      destruct (run_chunks (update_chunk tb ev db rw) cs s) as [s' res] eqn:RUN. exists s', res. split; auto. split.
      + assert (ERR : err_only (snd (run_chunks (update_chunk tb ev db rw) cs s))).
        { apply run_chunks_err. intros c0 s0 Hc. apply update_chunk_err. rewrite Forall_forall in NE. auto. }
        rewrite RUN in ERR. destruct ERR as [[[] E]|[e E]]; cbn in E; subst res; [|left; eauto]. right.
        destruct (update_run_inv db rw K SO cs s m s' NE OK (or_intror AD) R AG RUN) as [I1 [I2 I3]].
        assert (SC : forall r, In r (concat cs) -> m (pk r) <> None /\ t_ser tb r <> None) by (intros; split; auto).
        destruct (FWD I2 SC) as [s'' [sel [F1 [F2 [F3 [F4 [F5 F6]]]]]]]. injection F1 as <-.
        assert (FL : flt_le tb (w_flt s) (w_flt s')) by (rewrite F6; apply flt_le_refl).
        split; auto. split.
        { eapply (Rep_ext tb); [exact F4|]. apply wrote_puts; auto. apply puts_wrote; auto. }
        split; [exact F5|]. split; [exact FL|]. split; [|split; [exact I2|exact SC]].
        apply (covers_puts db s s' m sel R F4 FL); auto.
        intros r Hr. rewrite F6. destruct (m (pk r)) as [o|] eqn:EM; [|exfalso; apply (I1 r); auto].
        destruct (rep_some _ _ _ _ R EM) as [vo [_ EG]]. apply (covers_may _ _ _ _ CV EG).
      + intros Lv Sc. destruct (FWD Lv Sc) as [s'' [sel [F1 _]]]. congruence.
    - (* upsert *)
      destruct (batched_chunks (St := wst T F) (e_chunk ev) l (env_chunk_pos _ EV)) as [cs [C1 C2]]. rewrite C2.
      pose proof (is_chunks_nonempty _ _ _ (env_chunk_pos _ EV) C1) as NE. apply is_chunks_concat in C1. subst l.
      destruct AD as [ND CF].
      assert (PKM : forall r, In r (concat cs) -> pk (merged tb f m r) = pk r).
      { intros r Hr. rewrite Forall_forall in OK. apply (merged_pk f m r _ CF R); auto. }
      destruct (upsert_run f db rw K SO FO CF cs s m) as [s' [res [E1 [E2 E3]]]]; auto.
      { rewrite reads_snapshot by auto. exact CV. }
      { destruct RD as [|E]; [left; auto|right]. rewrite E. auto. }
      exists s', res. split; [exact E1|]. split.
      + destruct E2 as [E2|[E2 [G1 [G2 [G3 [G4 [G5 G6]]]]]]]; [left; auto|right].
        split; auto. split; [rewrite merges_puts; auto|]. split; [exact G2|]. split; [exact G3|].
        split; [|split; [exact G5|exact G6]].
        apply (covers_puts db s s' m (map (merged tb f m) (concat cs)) R G1 G3); auto.
        intros y Hy. apply in_map_iff in Hy as [z [<- Hz]]. rewrite (proj2 (dk_inj (merged tb f m z) z)); auto.
      + intros Lv Sc. apply E3; auto.
    - (* delete *)
      destruct (delete_rows_run db K l s m OK R AD) as [s' [res [E1 [E2 [E3 E4]]]]].
      exists s', res. split; [exact E1|]. split; [|auto].
      destruct E2 as [E2|[E2 [G1 [G2 G3]]]]; [left; auto|right].
      split; auto. split; [exact G1|]. split; [exact G2|].
      split; [rewrite E4; apply flt_le_refl|]. split; [|auto].
      intros fn rest v Ef Hg. destruct (rep_data _ _ _ G1 rest v Hg) as [p Ep]. cbn [s_id schema_of] in Ep.
      rewrite Ep in *. rewrite (rep_get _ _ _ G1) in Hg. rewrite E4.
      destruct (removes sc m l p) as [o|] eqn:Er; [|easy]. apply removes_le in Er.
      pose proof (rep_get _ _ _ R p) as RG. rewrite Er in RG.
      assert (Hg' : kv_get (V db s) (row_key sc p) = Some v) by (rewrite RG; exact Hg).
      exact (CV fn _ v Ef Hg').
  Qed.

  (** ** The filter only grows, also on error paths *)

  Lemma run_chunks_mono {A} (g : list A -> wst T F -> wst T F * res unit) :
    (forall c s, flt_le tb (w_flt s) (w_flt (fst (g c s)))) ->
    forall cs s, flt_le tb (w_flt s) (w_flt (fst (run_chunks g cs s))).
  Proof.
    intros H. induction cs as [|c cs IH]; intro s; cbn; [apply flt_le_refl|].
    pose proof (H c s) as H1. destruct (g c s) as [s' r]. cbn in H1. destruct r; auto.
    eapply flt_le_trans; eauto.
  Qed.

  Lemma insert_rows_mono it trs : filter_ok tb -> forall rows prev s,
    flt_le tb (w_flt s) (w_flt (fst (insert_rows tb ev it trs prev rows s))).
  Proof.
    intro FO. induction rows as [|[k o] rows IH]; intros prev s; cbn [insert_rows]; [apply flt_le_refl|].
    destruct (e_ctx ev (w_tick s)); [apply flt_le_refl|].
    destruct (_ || _); [apply flt_le_refl|].
    destruct (nth_error trs o); [|apply flt_le_refl]. destruct (t_ser tb t); [|apply flt_le_refl].
    eapply flt_le_trans; [|apply IH].
    apply (flt_add_le (add_ops (tick s) _)); auto.
  Qed.

  Lemma update_rows_mono it trs : forall rows s,
    w_flt (fst (update_rows tb ev it trs rows s)) = w_flt s.
  Proof.
    induction rows as [|[k o] rows IH]; intros s; cbn [update_rows]; auto.
    destruct (e_ctx ev (w_tick s)); [reflexivity|].
    destruct (match rows with [] => false | _ => _ end); [rewrite IH; reflexivity|].
    cbn zeta. destruct (_ || _); [reflexivity|]. destruct (t_deser tb _ _); [|reflexivity].
    destruct (nth_error trs o); [|reflexivity]. destruct (t_ser tb t0); [|reflexivity].
    rewrite IH. reflexivity.
  Qed.

  Lemma upsert_rows_mono f it trs keys order : filter_ok tb -> forall fuel i s,
    flt_le tb (w_flt s) (w_flt (fst (upsert_rows tb ev f fuel it trs keys order i s))).
  Proof.
    intro FO. induction fuel as [|fuel IH]; intros i s; cbn [upsert_rows]; [apply flt_le_refl|].
    destruct (Nat.ltb i (length keys)); [|apply flt_le_refl].
    destruct (nth_error trs _); [|apply flt_le_refl].
    destruct (e_ctx ev (w_tick s)); [apply flt_le_refl|].
    destruct (if exist_key _ _ _ _ then _ else _); [|apply flt_le_refl].
    destruct (upsert_dups _ _ _ _ _ _ _) as [[[i' old'] tr']|]; [|apply flt_le_refl].
    destruct (t_ser tb tr'); [|apply flt_le_refl].
    eapply flt_le_trans; [|apply IH].
    destruct (exist_key _ _ _ _); [apply flt_le_refl|].
    apply (flt_add_le (add_ops (set_old (tick s) _) _)); auto.
  Qed.

  Lemma delete_rows_mono : forall trs s, w_flt (fst (delete_rows tb ev trs s)) = w_flt s.
  Proof.
    induction trs as [|r trs IH]; intro s; cbn [delete_rows]; auto.
    destruct (e_ctx ev (w_tick s)); [reflexivity|]. rewrite IH. reflexivity.
  Qed.

  Lemma body_mono c db rw s : filter_ok tb -> flt_le tb (w_flt s) (w_flt (fst (body c db rw s))).
  Proof.
    intro FO. destruct c as [l|l|f l|l]; cbn [body].
    - destruct (batched_chunks (St := wst T F) (e_chunk ev) l (env_chunk_pos _ EV)) as [cs [_ C2]]. rewrite C2.
      apply run_chunks_mono. intros c s0. unfold insert_chunk. destruct (sort_keys _ _) as [keys order].
      destruct keys; [apply flt_le_refl|]. apply insert_rows_mono; auto.
    - destruct (batched_chunks (St := wst T F) (e_chunk ev) l (env_chunk_pos _ EV)) as [cs [_ C2]]. rewrite C2.
      apply run_chunks_mono. intros c s0. unfold update_chunk. destruct (sort_keys _ _) as [keys order].
      destruct keys; [apply flt_le_refl|]. rewrite update_rows_mono. apply flt_le_refl.
    - destruct (batched_chunks (St := wst T F) (e_chunk ev) l (env_chunk_pos _ EV)) as [cs [_ C2]]. rewrite C2.
      apply run_chunks_mono. intros c s0. unfold upsert_chunk. destruct (sort_keys _ _) as [keys order].
      destruct keys; [apply flt_le_refl|]. apply upsert_rows_mono; auto.
    - rewrite delete_rows_mono. apply flt_le_refl.
  Qed.

  (** Committed calls. *)
  Lemma call_run c db fl m : kv_ok db -> ser_over tb -> filter_ok tb ->
    covers tb fl db -> Rep sc db m -> admissible sc m c ->
    exists w res, run_call tb ev db fl None c = (w, res)
      /\ ((exists e, res = Err e /\ r_db w = db) \/
          res = Ok tt /\ Rep sc (r_db w) (effect sc m c) /\ same_outside sc db (r_db w) /\ succeeds sc m c)
      /\ kv_ok (r_db w) /\ covers tb (r_flt w) (r_db w)
      /\ (quiet ev -> succeeds sc m c -> res = Ok tt).
  Proof.
    intros K SO FO CV R AD. rewrite run_call_eq. unfold run_write.
    destruct (body_run c db false (WSt [] fl (t_nil tb) 0) m K SO FO) as [s' [res [E1 [E2 E3]]]]; auto.
    { right. reflexivity. }
    pose proof (body_mono c db false (WSt [] fl (t_nil tb) 0) FO) as MONO. rewrite E1 in MONO. cbn [fst w_flt] in MONO.
    assert (CV' : covers tb (w_flt s') db) by (eapply covers_le; eauto).
    rewrite E1. destruct E2 as [[e ->]|[-> [G1 [G2 [G3 [G4 [G5 G6]]]]]]].
    - eexists _, _. split; [reflexivity|]. split; [left; exists e; auto|]. split; [exact K|]. split; [exact CV'|].
      intros Q S. apply E3; auto. intros i _. apply Q.
    - destruct (w_ops s') as [|o ops] eqn:EO.
      + eexists _, _. split; [reflexivity|]. cbn [r_db].
        assert (EV' : V db s' = db) by (unfold V; rewrite EO; reflexivity). rewrite EV' in G1, G2.
        split; [right; auto|]. auto.
      + destruct (e_commit ev) eqn:EC.
        * eexists _, _. split; [reflexivity|]. cbn [r_db].
          assert (EV' : apply_ops db (o :: ops) = V db s') by (unfold V; rewrite EO; reflexivity). rewrite EV'.
          split; [right; split; auto|]. split; [apply V_ok; auto|]. auto.
        * eexists _, _. split; [reflexivity|]. cbn [r_db]. split; [left; eauto|]. split; [exact K|]. split; [exact CV'|].
          intros Q. destruct Q as [_ Q]. congruence.
  Qed.
End Calls.
