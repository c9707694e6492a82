(** Insert, Update and Upsert given a primary key in several of their chunks. *)

From Coq Require Import List NArith Lia Bool Sorting.Sorted Sorting.Permutation Arith.
From Verif.Model Require Import Bytes Go Keys Pebble Index Table.
From Verif.Spec Require Import KeySpec TableSpec HistSpec RepeatSpec.
From Verif.Proofs Require Import BytesFacts KeysFacts PebbleFacts TableFacts WriteFacts UpdateFacts UpsertFacts CallFacts TableProps.
Import ListNotations.

Section Repeats.
  Context {T F : Type} {tb : table T F} {ev : env T} (LAW : lawful tb) (EV : env_ok ev) (SO : ser_over tb) (FO : filter_ok tb).
  Notation sc := (schema_of tb).
  Notation dk := (data_key tb).
  Notation pk := (s_pk (schema_of tb)).

  Definition hasb (ix : sindex T) (x : T) (k : bytes) : bool := si_filter ix x && beqb k (entry_key sc ix x).

  Lemma hasb_iff ix x k : hasb ix x k = true <-> has_entry sc ix x k.
  Proof. unfold hasb, has_entry. rewrite andb_true_iff, beqb_eq. tauto. Qed.

  Lemma hasb_not ix x k : hasb ix x k = false <-> ~ has_entry sc ix x k.
  Proof. rewrite <- hasb_iff. destruct (hasb ix x k); split; congruence. Qed.

  Lemma update_effect ix o r k : In ix (t_indexes tb) ->
    ops_effect (on_update (t_id tb) (t_pk tb) ix o r) k =
    match hasb (sindex_of ix) o k, hasb (sindex_of ix) r k with
    | true, true | false, false => None
    | false, true => Some (Some [])
    | true, false => Some None
    end.
  Proof.
    intro H. rewrite (on_update_effect tb LAW ix o r k H). unfold hasb. cbn [si_filter sindex_of].
    set (ko := entry_key sc _ o). set (kn := entry_key sc _ r). destruct (ix_filter ix o), (ix_filter ix r); cbn [andb]; auto.
    destruct (beqb ko kn) eqn:E.
    - apply beqb_eq in E. rewrite E. destruct (beqb k kn); auto.
    - destruct (beqb k kn) eqn:E1, (beqb k ko) eqn:E2; auto. apply beqb_eq in E1, E2. apply beqb_neq in E. congruence.
  Qed.

  (** the operations for one row, written to what was there before the call *)
  Definition row_ops (m : tmap T) (perm : list (index T)) (q : T) (v : bytes) : list bop :=
    match m (pk q) with Some o => update_ops tb perm o q v | None => insert_ops tb perm q v end.

  Definition fit (m : tmap T) : Prop := forall p o, m p = Some o -> pk o = p /\ row_ok sc o.

  Lemma after_row m ws q v perm db : kv_ok db -> fit m -> Forall (row_ok sc) ws -> row_ok sc q -> t_ser tb q = Some v ->
    Permutation perm (t_indexes tb) -> RepVersions sc m ws db -> RepVersions sc m (ws ++ [q]) (apply_ops db (row_ops m perm q v)).
  Proof.
    intros K FT OKS OK SV P [R1 R2 R3]. unfold row_ops.
    assert (SHAPE : exists g, row_ops m perm q v = BSet (dk q) v :: flat_map g perm /\
      (forall ix, In ix (t_indexes tb) -> Forall (op_key_under (t_id tb) (ix_id ix)) (g ix)) /\
      (forall ix k, In ix (t_indexes tb) -> ops_effect (g ix) k =
         match (match m (pk q) with Some o => hasb (sindex_of ix) o k | None => false end), hasb (sindex_of ix) q k with
         | true, true | false, false => None | false, true => Some (Some []) | true, false => Some None end)).
    { unfold row_ops. destruct (m (pk q)) as [o|].
      - exists (fun ix => on_update (t_id tb) (t_pk tb) ix o q). split; [reflexivity|]. split.
        + intros ix I. apply (on_update_under tb LAW); auto.
        + intros ix k I. apply update_effect; auto.
      - exists (fun ix => on_insert (t_id tb) (t_pk tb) ix q). split; [reflexivity|]. split.
        + intros ix I. apply (on_insert_under tb LAW); auto.
        + intros ix k I. rewrite (on_insert_effect tb LAW ix q k I). unfold hasb. cbn [si_filter sindex_of]. destruct (_ && _); reflexivity. }
    destruct SHAPE as (g & E & U & EFF). unfold row_ops in E. rewrite E. constructor.
    - intro p. rewrite kv_get_apply_ops by exact K. rewrite (row_ops_effect_row tb LAW perm P) by exact U.
      cbn [op_touches op_result]. rewrite (data_key_eq tb LAW), (beqb_row_key tb). rewrite puts_app.
      change (puts sc (puts sc m ws) [q]) with (put sc (puts sc m ws) q). unfold put. destruct (beqb p (pk q)); [symmetry; exact SV|apply R1].
    - intros rest x. change (s_id sc) with (t_id tb). rewrite kv_get_apply_ops by exact K. rewrite (row_ops_effect_data tb LAW perm P) by exact U.
      cbn [op_touches op_result]. destruct (beqb _ (dk q)) eqn:B; [|apply R2]. intros _. apply beqb_eq in B. rewrite (data_key_eq tb LAW) in B. eauto.
    - intros ix rest x I. specialize (R3 ix rest x I). pose proof I as I'. apply sc_index_inv in I' as [j [J EJ]].
      change (s_id sc) with (t_id tb) in *. set (k := t_id tb :: si_id ix :: rest) in *.
      assert (EK : kv_get (apply_ops db (BSet (dk q) v :: flat_map g perm)) k =
        match (match m (pk q) with Some o => hasb ix o k | None => false end), hasb ix q k with
        | true, true | false, false => kv_get db k | false, true => Some [] | true, false => None end).
      { rewrite kv_get_apply_ops by exact K. unfold k. rewrite EJ. cbn [si_id sindex_of].
        rewrite (row_ops_effect_index tb LAW perm P); [|apply (set_under tb LAW)|exact U|exact J]. rewrite EFF by exact J.
        destruct (m (pk q)); repeat match goal with |- context[hasb ?a ?b ?c] => destruct (hasb a b c) end; reflexivity. }
      rewrite EK. clear EK E EFF U.
      assert (SAME : forall a b, row_ok sc a -> row_ok sc b -> has_entry sc ix a k -> has_entry sc ix b k -> pk a = pk b).
      { intros a b Ha Hb [_ Ea] [_ Eb]. assert (X : entry_key sc ix a = entry_key sc ix b) by congruence.
        apply (entry_key_inj tb ix a b I Ha Hb) in X. tauto. }
      assert (OKW : forall w, In w (ws ++ [q]) -> row_ok sc w).
      { intros w Hw. apply in_app_or in Hw as [Hw|[<-|[]]]; [|exact OK]. rewrite Forall_forall in OKS. auto. }
      destruct (m (pk q)) as [o|] eqn:EM.
      + destruct (FT _ _ EM) as [Po OKo].
        destruct (hasb ix o k) eqn:HO, (hasb ix q k) eqn:HQ; try rewrite hasb_iff in HO; try rewrite hasb_iff in HQ;
          try rewrite hasb_not in HO; try rewrite hasb_not in HQ.
        * rewrite R3. clear R3. split; (intros [-> H]; split; [reflexivity|]).
          -- destruct H as [(o' & M & HE & ALL)|(w & W & HE & NO)]; [left; exists o'|right; exists w].
             ++ split; [exact M|]. split; [exact HE|]. intros w Hw EP. apply in_app_or in Hw as [Hw|[<-|[]]]; auto.
             ++ split; [apply in_or_app; auto|]. auto.
          -- destruct H as [(o' & M & HE & ALL)|(w & W & HE & NO)]; [left; exists o'|].
             ++ split; [exact M|]. split; [exact HE|]. intros w Hw EP. apply ALL; [apply in_or_app; auto|exact EP].
             ++ exfalso. apply (NO o); [|exact HO]. rewrite (SAME w o); auto. rewrite Po. exact EM.
        * split; [discriminate|]. intros [_ [(o' & M & HE & ALL)|(w & W & HE & NO)]]; exfalso.
          -- destruct (FT _ _ M) as [_ OKo']. pose proof (SAME o' o OKo' OKo HE HO) as EP. apply HQ. apply ALL; [apply in_or_app; right; now left|]. congruence.
          -- apply (NO o); [|exact HO]. rewrite (SAME w o); auto. rewrite Po. exact EM.
        * split; [intros [= <-]|intros [-> _]; reflexivity]. split; [reflexivity|]. right. exists q. split; [apply in_or_app; right; now left|].
          split; [exact HQ|]. intros o' M. congruence.
        * rewrite R3. clear R3. split; (intros [-> H]; split; [reflexivity|]).
          -- destruct H as [(o' & M & HE & ALL)|(w & W & HE & NO)]; [left; exists o'|right; exists w].
             ++ split; [exact M|]. split; [exact HE|]. intros w Hw EP. apply in_app_or in Hw as [Hw|[<-|[]]]; auto.
                exfalso. apply HO. rewrite EP in EM. congruence.
             ++ split; [apply in_or_app; auto|]. auto.
          -- destruct H as [(o' & M & HE & ALL)|(w & W & HE & NO)]; [left; exists o'|right; exists w].
             ++ split; [exact M|]. split; [exact HE|]. intros w Hw EP. apply ALL; [apply in_or_app; auto|exact EP].
             ++ apply in_app_or in W as [W|[<-|[]]]; [auto|contradiction].
      + destruct (hasb ix q k) eqn:HQ; [rewrite hasb_iff in HQ|rewrite hasb_not in HQ].
        * split; [intros [= <-]|intros [-> _]; reflexivity]. split; [reflexivity|]. right. exists q. split; [apply in_or_app; right; now left|].
          split; [exact HQ|]. intros o' M. congruence.
        * rewrite R3. clear R3. split; (intros [-> H]; split; [reflexivity|]).
          -- destruct H as [(o' & M & HE & ALL)|(w & W & HE & NO)]; [left; exists o'|right; exists w].
             ++ split; [exact M|]. split; [exact HE|]. intros w Hw EP. apply in_app_or in Hw as [Hw|[<-|[]]]; auto.
                exfalso. rewrite EP in EM. congruence.
             ++ split; [apply in_or_app; auto|]. auto.
          -- destruct H as [(o' & M & HE & ALL)|(w & W & HE & NO)]; [left; exists o'|right; exists w].
             ++ split; [exact M|]. split; [exact HE|]. intros w Hw EP. apply ALL; [apply in_or_app; auto|exact EP].
             ++ apply in_app_or in W as [W|[<-|[]]]; [auto|contradiction].
  Qed.

  (** ** The loops over the rows of a chunk, reading the database *)

  Section Loops.
    Context (db : kv) (m : tmap T) (K : kv_ok db) (R : Rep sc db m).

    Lemma rep_fit : fit m.
    Proof. intros p o E. destruct (rep_rows _ _ _ R _ _ E) as [H1 [H2 _]]. auto. Qed.

    Lemma row_after n ws (s1 s : wst T F) q v : Forall (row_ok sc) ws -> row_ok sc q -> t_ser tb q = Some v ->
      V db s1 = apply_ops (V db s) (row_ops m (e_map ev n (t_indexes tb)) q v) ->
      RepVersions sc m ws (V db s) -> RepVersions sc m (ws ++ [q]) (V db s1).
    Proof.
      intros OKS OK SV E RV. rewrite E. apply after_row; auto.
      - apply V_ok; exact K.
      - exact rep_fit.
      - apply (env_map_perm _ EV).
    Qed.

    Lemma insert_rows_after lo trs : forall rs os prev s s' ws,
      Forall2 (fun o r => nth_error trs o = Some r) os rs -> Forall (fun r => ble lo (dk r)) rs -> Forall (row_ok sc) rs ->
      covers tb (w_flt s) db ->
      insert_rows tb ev (new_iter db lo (data_key_space_end tb)) trs prev (combine (map dk rs) os) s = (s', Ok tt) ->
      Forall (row_ok sc) ws -> RepVersions sc m ws (V db s) ->
      RepVersions sc m (ws ++ rs) (V db s') /\ covers tb (w_flt s') db.
    Proof.
      induction rs as [|r rs IH]; intros os prev s s' ws F2 LO OK CV RUN OKS RV.
      - inversion F2; subst. cbn in RUN. injection RUN as <-. rewrite app_nil_r. auto.
      - inversion F2 as [|o r' os' rs' Ho F2']; subst. cbn [map combine insert_rows] in RUN.
        inversion LO as [|? ? LO1 LO2]; subst. inversion OK as [|? ? OK1 OK2]; subst.
        destruct (e_ctx ev (w_tick s)); [discriminate|].
        rewrite exist_key_eq in RUN by auto. change (w_flt (tick s)) with (w_flt s) in RUN.
        destruct (match prev with Some p => beqb (dk r) p | None => false end); [discriminate|]. cbn [orb] in RUN.
        assert (EM : m (pk r) = None).
        { apply (rep_none db m r R). destruct (kv_get db (dk r)) as [x|] eqn:EG; [|reflexivity].
          rewrite (covers_may _ _ _ _ CV EG) in RUN. discriminate. }
        rewrite (proj2 (rep_none db m r R) EM), andb_false_r in RUN. rewrite Ho in RUN.
        destruct (t_ser tb r) as [v|] eqn:SV; [|discriminate].
        set (s1 := flt_add tb (dk r) _) in RUN.
        destruct (IH os' (Some (dk r)) s1 s' (ws ++ [r]) F2' LO2 OK2) as [A B]; auto.
        + eapply covers_le; [|exact CV]. unfold s1. apply (flt_add_le (add_ops (tick s) _)). exact FO.
        + apply Forall_app; auto.
        + apply (row_after (w_tick s) ws s1 s r v); auto. unfold s1. rewrite V_flt, V_add, V_tick. unfold row_ops. rewrite EM. reflexivity.
        + rewrite <- app_assoc in A. auto.
    Qed.

    Lemma update_rows_after lo trs : forall rs os s s' ws,
      Forall2 (fun o r => nth_error trs o = Some r) os rs -> Forall (fun r => ble lo (dk r)) rs -> Forall (row_ok sc) rs ->
      update_rows tb ev (new_iter db lo (data_key_space_end tb)) trs (combine (map dk rs) os) s = (s', Ok tt) ->
      Forall (row_ok sc) ws -> RepVersions sc m ws (V db s) ->
      RepVersions sc m (ws ++ lasts tb rs) (V db s').
    Proof.
      induction rs as [|r rs IH]; intros os s s' ws F2 LO OK RUN OKS RV.
      - inversion F2; subst. cbn in RUN. injection RUN as <-. cbn [lasts]. rewrite app_nil_r. auto.
      - inversion F2 as [|o r' os' rs' Ho F2']; subst. cbn [map combine update_rows] in RUN.
        inversion LO as [|? ? LO1 LO2]; subst. inversion OK as [|? ? OK1 OK2]; subst.
        destruct (e_ctx ev (w_tick s)); [discriminate|].
        assert (LAST : lasts tb (r :: rs) = if match combine (map dk rs) os' with (k2, _) :: _ => beqb k2 (dk r) | [] => false end
                                       then lasts tb rs else r :: lasts tb rs).
        { destruct rs as [|r2 rs]; [reflexivity|]. inversion F2'; subst. cbn [map combine]. reflexivity. }
        rewrite LAST. destruct (match combine (map dk rs) os' with (k2, _) :: _ => beqb k2 (dk r) | [] => false end).
        { apply (IH os' (tick s) s' ws); auto. }
        pose proof (probe db lo r K LO1) as P. cbn zeta in P.
        destruct (kv_get db (dk r)) as [vo|] eqn:EG.
        2: { destruct (it_valid _); cbn [negb orb andb] in *; [rewrite P in RUN|]; discriminate. }
        destruct P as [P1 [P2 P3]]. rewrite P1, P2, P3, beqb_refl in RUN. cbn [negb orb] in RUN.
        assert (EM : exists old, m (pk r) = Some old).
        { destruct (m (pk r)) eqn:E; [eauto|]. apply (rep_none db m r R) in E. congruence. }
        destruct EM as [old EM]. destruct (rep_some _ _ _ _ R EM) as [vo' [SVo EG']]. rewrite EG in EG'. injection EG' as <-.
        rewrite (SO _ _ (w_old (tick s)) SVo), Ho in RUN.
        destruct (t_ser tb r) as [v|] eqn:SV; [|discriminate]. set (s1 := add_ops _ _) in RUN.
        replace (ws ++ r :: lasts tb rs) with ((ws ++ [r]) ++ lasts tb rs) by (rewrite <- app_assoc; reflexivity).
        apply (IH os' s1 s' (ws ++ [r])); auto.
        + apply Forall_app; auto.
        + apply (row_after (w_tick s) ws s1 s r v); auto. unfold s1. rewrite V_add, V_old, V_tick. unfold row_ops. rewrite EM. reflexivity.
    Qed.

    Context (f : T -> T -> T) (CF : conflict_ok tb f).

    Lemma upsert_rows_after lo trs : forall rs os dn odn fuel s s' ws,
      Forall2 (fun o r => nth_error trs o = Some r) os rs -> length odn = length dn ->
      Forall (fun r => ble lo (dk r)) rs -> StronglySorted blt (map dk (dn ++ rs)) -> Forall (row_ok sc) rs ->
      covers tb (w_flt s) db ->
      upsert_rows tb ev f fuel (new_iter db lo (data_key_space_end tb)) trs (map dk (dn ++ rs)) (odn ++ os) (length dn) s = (s', Ok tt) ->
      Forall (row_ok sc) ws -> RepVersions sc m ws (V db s) ->
      RepVersions sc m (ws ++ map (merged tb f m) rs) (V db s') /\ covers tb (w_flt s') db.
    Proof.
      induction rs as [|r rs IH]; intros os dn odn fuel s s' ws F2 LEN LO SS OK CV RUN OKS RV.
      - inversion F2; subst. rewrite app_nil_r in RUN.
        destruct fuel; cbn [upsert_rows] in RUN; rewrite map_length, Nat.ltb_irrefl in RUN; injection RUN as <-; cbn [map]; rewrite app_nil_r; auto.
      - inversion F2 as [|o r' os' rs' Ho F2']; subst.
        assert (L : Nat.ltb (length dn) (length (map dk (dn ++ r :: rs))) = true).
        { apply Nat.ltb_lt. rewrite map_length, app_length. cbn. lia. }
        destruct fuel as [|fuel]; cbn [upsert_rows] in RUN; rewrite L in RUN; [discriminate|].
        inversion LO as [|? ? LO1 LO2]; subst. inversion OK as [|? ? OK1 OK2]; subst.
        assert (N1 : nth (length dn) (odn ++ o :: os') 0 = o).
        { rewrite app_nth2 by lia. rewrite LEN, Nat.sub_diag. reflexivity. }
        assert (N2 : nth (length dn) (map dk (dn ++ r :: rs)) [] = dk r).
        { rewrite map_app, app_nth2; rewrite map_length; [|lia]. rewrite Nat.sub_diag. reflexivity. }
        rewrite N1, N2, Ho in RUN. destruct (e_ctx ev (w_tick s)); [discriminate|].
        rewrite exist_key_eq in RUN by auto. change (w_flt (tick s)) with (w_flt s) in RUN.
        set (q := merged tb f m r).
        destruct (merged_pk (tb:=tb) f m r db CF R OK1) as [Q1 Q2]. fold q in Q1, Q2.
        assert (dkq : dk q = dk r) by (apply dk_inj; auto).
        assert (TAIL : forall s1 v, t_ser tb q = Some v -> flt_le tb (w_flt s) (w_flt s1) ->
          V db s1 = apply_ops (V db s) (row_ops m (e_map ev (w_tick s) (t_indexes tb)) q v) ->
          upsert_rows tb ev f fuel (new_iter db lo (data_key_space_end tb)) trs (map dk (dn ++ r :: rs)) (odn ++ o :: os') (S (length dn)) s1 = (s', Ok tt) ->
          RepVersions sc m (ws ++ map (merged tb f m) (r :: rs)) (V db s') /\ covers tb (w_flt s') db).
        { intros s1 v SV FL V1 RUN1.
          destruct (IH os' (dn ++ [r]) (odn ++ [o]) fuel s1 s' (ws ++ [q]) F2') as [A B]; auto.
          - rewrite !app_length. cbn. lia.
          - rewrite <- app_assoc. exact SS.
          - eapply covers_le; eauto.
          - rewrite <- !app_assoc, app_length. cbn [app length]. rewrite Nat.add_1_r. exact RUN1.
          - apply Forall_app; auto.
          - apply (row_after (w_tick s) ws s1 s q v); auto.
          - rewrite <- app_assoc in A. auto. }
        destruct (m (pk r)) as [old|] eqn:EM.
        + destruct (rep_some _ _ _ _ R EM) as [vo [SVo EG]]. rewrite EG in RUN. rewrite (covers_may _ _ _ _ CV EG) in RUN. cbn [andb] in RUN.
          pose proof (probe db lo r K LO1) as P. cbn zeta in P. rewrite EG in P. destruct P as [P1 [P2 P3]].
          rewrite P3 in RUN. rewrite (SO _ _ (w_old (tick s)) SVo) in RUN.
          assert (Eq : f old r = q) by (unfold q, merged; rewrite EM; auto). rewrite Eq in RUN.
          rewrite upsert_dups_distinct in RUN by auto.
          destruct (t_ser tb q) as [v|] eqn:SV; [|discriminate].
          refine (TAIL _ v eq_refl _ _ RUN); [apply flt_le_refl|].
          rewrite V_add, V_old, V_tick. unfold row_ops. rewrite Q1, EM, <- dkq. reflexivity.
        + rewrite (proj2 (rep_none db m r R) EM), andb_false_r in RUN.
          assert (Eq : r = q) by (unfold q, merged; rewrite EM; auto).
          rewrite upsert_dups_distinct in RUN by auto.
          destruct (t_ser tb r) as [v|] eqn:SV; [|discriminate].
          refine (TAIL _ v _ _ _ RUN).
          * rewrite <- Eq. exact SV.
          * apply (flt_add_le (add_ops (set_old (tick s) (w_old (tick s))) _)). exact FO.
          * rewrite V_flt, V_add, V_old, V_tick. unfold row_ops. rewrite <- Eq, EM. reflexivity.
    Qed.

    (** ** Chunks *)

    Lemma versions_perm ws a b d : RepVersions sc m (ws ++ a) d -> NoDup (map pk a) -> Permutation a b -> RepVersions sc m (ws ++ b) d.
    Proof.
      intros [R1 R2 R3] ND P.
      assert (IN : forall w, In w (ws ++ a) <-> In w (ws ++ b)).
      { intro w. rewrite !in_app_iff. split; (intros [H|H]; [now left|right]); [|apply Permutation_sym in P]; eapply Permutation_in; eauto. }
      constructor; [|exact R2|].
      - intro p. rewrite R1, !puts_app, (puts_perm (tb:=tb) (puts sc m ws) a b ND P). reflexivity.
      - intros ix rest v I. rewrite R3 by exact I. split; (intros [-> H]; split; [reflexivity|]);
          (destruct H as [(o & M & HE & ALL)|(w & W & HE & NO)]; [left; exists o|right; exists w]).
        + split; [exact M|]. split; [exact HE|]. intros w W. apply ALL. apply IN. exact W.
        + split; [apply IN; exact W|]. auto.
        + split; [exact M|]. split; [exact HE|]. intros w W. apply ALL. apply IN. exact W.
        + split; [apply IN; exact W|]. auto.
    Qed.

    Lemma perm_rows {A} (P : A -> Prop) a b : Permutation a b -> Forall P b -> Forall P a.
    Proof. intro H. apply Forall_perm. symmetry. exact H. Qed.

    Lemma insert_run_after : forall cs s s' ws, Forall (fun c => c <> []) cs -> Forall (row_ok sc) (concat cs) ->
      covers tb (w_flt s) db -> run_chunks (insert_chunk tb ev db false) cs s = (s', Ok tt) ->
      Forall (row_ok sc) ws -> RepVersions sc m ws (V db s) -> RepVersions sc m (ws ++ concat cs) (V db s').
    Proof.
      induction cs as [|c cs IH]; intros s s' ws NE OK CV RUN OKS RV; cbn [run_chunks concat] in *.
      - injection RUN as <-. rewrite app_nil_r. exact RV.
      - inversion NE as [|? ? NE1 NE2]; subst. apply Forall_app in OK as [OK1 OK2].
        destruct (insert_chunk tb ev db false c s) as [s1 r1] eqn:E. destruct r1 as [[]| | |]; try discriminate.
        destruct (insert_chunk_inv (LAW:=LAW) (EV:=EV) db false c s s1 K FO NE1 CV E) as [ND _].
        destruct (insert_chunk_unfold (tb:=tb) (ev:=ev) (EV:=EV) db false c s NE1) as [order [rs [P [S [F2 E']]]]]. rewrite E' in E. cbn [chunk_snapshot] in E.
        destruct (insert_rows_after (hd [] (map dk rs)) c rs order None s s1 ws) as [A B]; auto.
        + apply hd_le; auto.
        + eapply perm_rows; eauto.
        + rewrite app_assoc. apply (IH s1); auto; [apply Forall_app; auto|].
          apply (versions_perm ws rs c); auto. eapply Permutation_NoDup; [apply Permutation_map; symmetry; eauto|exact ND].
    Qed.

    Lemma lasts_nodup rs : StronglySorted ble (map dk rs) -> NoDup (map pk (lasts tb rs)).
    Proof.
      induction rs as [|r rs IH]; intro S; [constructor|]. cbn [map] in S. apply StronglySorted_inv in S as [S1 S2].
      destruct rs as [|r2 rs]; [repeat constructor; auto|].
      change (lasts tb (r :: r2 :: rs)) with (if beqb (dk r2) (dk r) then lasts tb (r2 :: rs) else r :: lasts tb (r2 :: rs)).
      destruct (beqb (dk r2) (dk r)) eqn:B; [auto|]. cbn [map]. constructor; [|auto].
      intro X. apply in_map_iff in X as [x [EP X]]. apply lasts_incl in X. apply (dk_inj (LAW:=LAW)) in EP. apply beqb_neq in B.
      rewrite Forall_forall in S2. assert (L1 : ble (dk r) (dk r2)) by (apply S2; now left).
      assert (L2 : ble (dk r2) (dk x)).
      { destruct X as [<-|X]; [apply ble_refl|]. cbn [map] in S1. apply StronglySorted_inv in S1 as [_ S1].
        rewrite Forall_forall in S1. apply S1. apply in_map; auto. }
      rewrite EP in L2. apply B. apply ble_antisym; auto.
    Qed.

    Lemma update_run_after : forall cs s s' ws, Forall (fun c => c <> []) cs -> Forall (row_ok sc) (concat cs) ->
      run_chunks (update_chunk tb ev db false) cs s = (s', Ok tt) ->
      Forall (row_ok sc) ws -> RepVersions sc m ws (V db s) ->
      exists wss, Forall2 (one_each sc) cs wss /\ RepVersions sc m (ws ++ concat wss) (V db s').
    Proof.
      induction cs as [|c cs IH]; intros s s' ws NE OK RUN OKS RV; cbn [run_chunks concat] in *.
      - injection RUN as <-. exists []. split; [constructor|]. cbn [concat]. rewrite app_nil_r. exact RV.
      - inversion NE as [|? ? NE1 NE2]; subst. apply Forall_app in OK as [OK1 OK2].
        destruct (update_chunk tb ev db false c s) as [s1 r1] eqn:E. destruct r1 as [[]| | |]; try discriminate.
        destruct (update_chunk_unfold (tb:=tb) (ev:=ev) (EV:=EV) db false c s NE1) as [order [rs [P [S [F2 E']]]]]. rewrite E' in E. cbn [chunk_snapshot] in E.
        assert (OKr : Forall (row_ok sc) rs) by (eapply perm_rows; eauto).
        assert (A : RepVersions sc m (ws ++ lasts tb rs) (V db s1)).
        { apply (update_rows_after (hd [] (map dk rs)) c rs order s s1 ws); auto. apply hd_le; auto. }
        destruct (IH s1 s' (ws ++ lasts tb rs)) as (wss & W1 & W2); auto.
        { apply Forall_app. split; [exact OKS|]. rewrite Forall_forall in OKr |- *. intros x X. apply OKr. apply lasts_incl in X. exact X. }
        exists (lasts tb rs :: wss). split.
        + constructor; [|exact W1]. split; [|split].
          * intros x X. apply lasts_incl in X. eapply Permutation_in; eauto.
          * apply lasts_nodup; exact S.
          * intros r Hr. apply (lasts_cover (LAW:=LAW)). eapply Permutation_in; [symmetry; eauto|exact Hr].
        + cbn [concat]. rewrite app_assoc. exact W2.
    Qed.

    Lemma upsert_run_after : forall cs s s' ws, Forall (fun c => c <> []) cs -> Forall (row_ok sc) (concat cs) ->
      Forall (fun c => NoDup (map pk c)) cs ->
      covers tb (w_flt s) db -> run_chunks (upsert_chunk tb ev f db false) cs s = (s', Ok tt) ->
      Forall (row_ok sc) ws -> RepVersions sc m ws (V db s) -> RepVersions sc m (ws ++ map (merged tb f m) (concat cs)) (V db s').
    Proof.
      induction cs as [|c cs IH]; intros s s' ws NE OK NDS CV RUN OKS RV; cbn [run_chunks concat map] in *.
      - injection RUN as <-. rewrite app_nil_r. exact RV.
      - inversion NE as [|? ? NE1 NE2]; subst. apply Forall_app in OK as [OK1 OK2]. inversion NDS as [|? ? ND NDS']; subst.
        destruct (upsert_chunk tb ev f db false c s) as [s1 r1] eqn:E. destruct r1 as [[]| | |]; try discriminate.
        destruct (upsert_chunk_unfold (tb:=tb) (ev:=ev) (EV:=EV) f db false c s NE1) as [order [rs [P [S [F2 E']]]]]. rewrite E' in E. cbn [chunk_snapshot] in E.
        assert (OKr : Forall (row_ok sc) rs) by (eapply perm_rows; eauto).
        assert (NDr : NoDup (map pk rs)) by (eapply Permutation_NoDup; [apply Permutation_map; symmetry; eauto|exact ND]).
        assert (MP : forall x, In x rs -> pk (merged tb f m x) = pk x /\ row_ok sc (merged tb f m x)).
        { intros x X. apply (merged_pk (tb:=tb) f m x db CF R). rewrite Forall_forall in OKr. auto. }
        destruct (upsert_rows_after (hd [] (map dk rs)) c rs order [] [] (length rs) s s1 ws) as [A B]; auto.
        + apply hd_le; auto.
        + apply sorted_nodup_strict; [exact S|]. apply (nodup_dk (LAW:=LAW)). exact NDr.
        + rewrite map_app, app_assoc. apply (IH s1); auto.
          * apply Forall_app. split; [exact OKS|]. apply Forall_forall. intros x X. apply in_map_iff in X as [y [<- Y]].
            apply MP. eapply Permutation_in; [symmetry; eauto|exact Y].
          * apply (versions_perm ws (map (merged tb f m) rs) (map (merged tb f m) c)); auto; [|apply Permutation_map; exact P].
            rewrite map_map, (map_ext_in _ pk); [exact NDr|]. intros x X. apply MP. exact X.
    Qed.
  End Loops.

  Lemma versions_start db m : Rep sc db m -> RepVersions sc m [] db.
  Proof.
    intros [R1 R2 R3 R4]. constructor; [exact R2|exact R3|]. intros ix rest v I. rewrite R4 by exact I. split; (intros [-> H]; split; [reflexivity|]).
    - destruct H as (o & M & FX & KX). left. exists o. split; [exact M|]. split; [split; auto|]. intros w [].
    - destruct H as [(o & M & [FX KX] & _)|(w & [] & _)]. exists o. auto.
  Qed.

  (** ** The calls *)

  Lemma write_after db fl g w (X : kv -> Prop) : run_write tb ev db fl None g = (w, Ok tt) ->
    (forall s, g false (WSt [] fl (t_nil tb) 0) = (s, Ok tt) -> X (V db s)) -> X (r_db w).
  Proof.
    unfold run_write. intros RUN H. destruct (g false (WSt [] fl (t_nil tb) 0)) as [s r] eqn:E. destruct r as [[]|e| |]; try discriminate.
    specialize (H s eq_refl). unfold V in H. destruct (w_ops s) as [|o os]; [injection RUN as <-; exact H|].
    destruct (e_commit ev); [|discriminate]. injection RUN as <-. exact H.
  Qed.
End Repeats.

Section Calls.
  Context {T F : Type} (tb : table T F) (G : good_table tb) (ev : env T) (EV : env_ok ev).
  Notation sc := (schema_of tb).
  Notation pk := (s_pk (schema_of tb)).

  Lemma insert_any_rows db fl m rows w : consistent tb db fl m -> Forall (row_ok sc) rows ->
    insert tb ev db fl None rows = (w, Ok tt) -> RepVersions sc m rows (r_db w).
  Proof.
    intros [K R CV] OK RUN. unfold insert in RUN. refine (write_after (tb:=tb) (ev:=ev) db fl _ w _ RUN _). intros s E. cbn beta in E.
    destruct (batched_chunks (St := wst T F) (e_chunk ev) rows (env_chunk_pos _ EV)) as [cs [C1 C2]]. rewrite C2 in E.
    pose proof (is_chunks_nonempty _ _ _ (env_chunk_pos _ EV) C1) as NE. pose proof (is_chunks_concat _ _ _ C1) as CC. subst rows.
    refine (insert_run_after (good_lawful _ G) EV (good_filter _ G) db m K R cs (WSt [] fl (t_nil tb) 0) s [] NE OK CV E (Forall_nil _) _).
    apply versions_start. exact R.
  Qed.

  Lemma update_any_rows db fl m rows cs w : consistent tb db fl m -> Forall (row_ok sc) rows -> is_chunks (e_chunk ev) rows cs ->
    update tb ev db fl None rows = (w, Ok tt) ->
    exists wss, Forall2 (one_each sc) cs wss /\ RepVersions sc m (concat wss) (r_db w).
  Proof.
    intros [K R CV] OK CH RUN. unfold update in RUN.
    refine (write_after (tb:=tb) (ev:=ev) db fl _ w (fun d => exists wss, Forall2 (one_each sc) cs wss /\ RepVersions sc m (concat wss) d) RUN _).
    intros s E. cbn beta in E.
    destruct (batched_chunks (St := wst T F) (e_chunk ev) rows (env_chunk_pos _ EV)) as [cs' [C1 C2]]. rewrite C2 in E.
    assert (cs' = cs) as -> by exact (is_chunks_det _ _ _ _ (env_chunk_pos _ EV) C1 CH).
    pose proof (is_chunks_nonempty _ _ _ (env_chunk_pos _ EV) C1) as NE. pose proof (is_chunks_concat _ _ _ C1) as CC. subst rows.
    refine (update_run_after (good_lawful _ G) EV (good_ser _ G) db m K R cs (WSt [] fl (t_nil tb) 0) s [] NE OK E (Forall_nil _) _).
    apply versions_start. exact R.
  Qed.

  Lemma upsert_any_chunks f db fl m rows cs w : consistent tb db fl m -> Forall (row_ok sc) rows -> is_chunks (e_chunk ev) rows cs ->
    Forall (fun c => NoDup (map pk c)) cs ->
    (forall old r, pk old = pk r -> row_ok sc old -> row_ok sc r -> pk (f old r) = pk r /\ row_ok sc (f old r)) ->
    upsert tb ev f db fl None rows = (w, Ok tt) ->
    RepVersions sc m (map (fun r => match m (pk r) with Some old => f old r | None => r end) rows) (r_db w).
  Proof.
    intros [K R CV] OK CH NDS CF RUN. unfold upsert in RUN. refine (write_after (tb:=tb) (ev:=ev) db fl _ w _ RUN _). intros s E. cbn beta in E.
    destruct (batched_chunks (St := wst T F) (e_chunk ev) rows (env_chunk_pos _ EV)) as [cs' [C1 C2]]. rewrite C2 in E.
    assert (cs' = cs) as -> by exact (is_chunks_det _ _ _ _ (env_chunk_pos _ EV) C1 CH).
    pose proof (is_chunks_nonempty _ _ _ (env_chunk_pos _ EV) C1) as NE. pose proof (is_chunks_concat _ _ _ C1) as CC. subst rows.
    refine (upsert_run_after (good_lawful _ G) EV (good_ser _ G) (good_filter _ G) db m K R f CF cs (WSt [] fl (t_nil tb) 0) s [] NE OK NDS CV E (Forall_nil _) _).
    apply versions_start. exact R.
  Qed.
End Calls.
