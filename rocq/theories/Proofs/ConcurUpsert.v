(** Concurrent calls on the same rows, Upserts among them: each Upsert merges with a version that the row had before. *)

From Coq Require Import List NArith Lia Bool Sorting.Sorted Sorting.Permutation Arith.
From Verif.Model Require Import Bytes Go Keys Pebble Index Table Concur.
From Verif.Spec Require Import KeySpec TableSpec HistSpec ConcurSpec.
From Verif.Proofs Require Import BytesFacts KeysFacts PebbleFacts TableFacts WriteFacts UpdateFacts UpsertFacts CallFacts LocalFacts ReadFacts FilterSim ConcurFacts ConcurRows.
Import ListNotations.

Section Rows.
  Context {T F : Type} (tb : table T F) (LAW : lawful tb) (SO : ser_over tb) (FO : filter_ok tb).
  Notation sc := (schema_of tb).
  Notation dk := (data_key tb).
  Notation pk := (s_pk (schema_of tb)).
  Notation hi := (data_key_space_end tb).
  Notation writes := (writes tb).
  Notation once := (ConcurSpec.once sc).

  (** ** The filter knows every row that is stored or is about to be *)

  Lemma round_good ev c db rows s : env_ok ev -> kv_ok db -> good (tb:=tb) db s ->
    good (tb:=tb) db (fst (round tb ev c db rows s)) /\ flt_le tb (w_flt s) (w_flt (fst (round tb ev c db rows s))).
  Proof.
    intros EV K GD. assert (SM : sim s s) by (repeat split).
    destruct c as [l|l|f l|l]; cbn [round].
    - split; [exact (proj2 (proj2 (insert_chunk_sim (ev:=ev) (LAW:=LAW) (EV:=EV) FO db false rows s s K SM GD)))|]. now apply insert_chunk_mono.
    - split; [exact (proj2 (proj2 (update_chunk_sim (ev:=ev) (LAW:=LAW) (EV:=EV) db false rows s s K SM GD)))|].
      unfold update_chunk. destruct (sort_keys _ _) as [keys order]. destruct keys; [apply flt_le_refl|].
      rewrite update_rows_mono. apply flt_le_refl.
    - split; [exact (proj2 (proj2 (upsert_chunk_sim (ev:=ev) (LAW:=LAW) (EV:=EV) FO f db false rows s s K SM GD)))|].
      unfold upsert_chunk. destruct (sort_keys _ _) as [keys order]. destruct keys; [apply flt_le_refl|].
      apply upsert_rows_mono; auto.
    - split; [exact (proj2 (proj2 (delete_rows_sim (ev:=ev) (LAW:=LAW) (EV:=EV) db rows s s SM GD)))|]. rewrite delete_rows_mono. apply flt_le_refl.
  Qed.

  (** ** Rows that were written can be encoded *)

  Lemma insert_rows_ser ev it trs : forall rs os prev s s', Forall2 (fun o r => nth_error trs o = Some r) os rs ->
    insert_rows tb ev it trs prev (combine (map dk rs) os) s = (s', Ok tt) -> Forall (fun r => t_ser tb r <> None) rs.
  Proof.
    induction rs as [|r rs IH]; intros os prev s s' F2 H; [constructor|].
    inversion F2 as [|o r' os' rs' Ho F2']; subst. cbn [map combine insert_rows] in H.
    destruct (e_ctx ev (w_tick s)); [easy|]. destruct (_ || _); [easy|]. rewrite Ho in H.
    destruct (t_ser tb r) as [v|] eqn:V; [|easy]. constructor; [congruence|]. eapply IH; eauto.
  Qed.

  Lemma update_rows_ser ev it trs : forall rs os s s', Forall2 (fun o r => nth_error trs o = Some r) os rs -> NoDup (map pk rs) ->
    update_rows tb ev it trs (combine (map dk rs) os) s = (s', Ok tt) -> Forall (fun r => t_ser tb r <> None) rs.
  Proof.
    induction rs as [|r rs IH]; intros os s s' F2 N H; [constructor|].
    inversion F2 as [|o r' os' rs' Ho F2']; subst. cbn [map combine update_rows] in H.
    destruct (e_ctx ev (w_tick s)); [easy|]. inversion N as [|? ? N1 N2]; subst.
    assert (ND : (match combine (map dk rs) os' with [] => false | (k2, _) :: _ => beqb k2 (dk r) end) = false).
    { destruct rs as [|r2 rs2]; [reflexivity|]. inversion F2'; subst. cbn. apply beqb_neq. intro E. apply N1. left.
      exact (proj1 (dk_inj (tb:=tb) (LAW:=LAW) r2 r) E). }
    rewrite ND in H. cbn zeta in H. destruct (_ || _); [easy|]. destruct (t_deser tb _ _) as [old|]; [|easy]. rewrite Ho in H.
    destruct (t_ser tb r) as [v|] eqn:V; [|easy]. constructor; [congruence|]. eapply IH; eauto.
  Qed.

  (** ** A round of Upsert *)

  Lemma merged_same f m r : own_keys sc m -> (forall old r, pk old = pk r -> pk (f old r) = pk r) -> pk (merged tb f m r) = pk r.
  Proof.
    intros KM CF. unfold merged. destruct (m (pk r)) as [o|] eqn:E; [|reflexivity]. apply CF. apply (KM _ _ E).
  Qed.

  Lemma upsert_rows_writes f ev snap lo trs m : env_ok ev -> kv_ok snap -> rows_are sc snap m -> own_keys sc m ->
    (forall old r, pk old = pk r -> pk (f old r) = pk r) -> forall rs os done odone fuel s s',
    Forall2 (fun o r => nth_error trs o = Some r) os rs -> length odone = length done ->
    Forall (fun r => ble lo (dk r)) rs -> StronglySorted blt (map dk (done ++ rs)) -> length rs <= fuel ->
    good (tb:=tb) snap s ->
    upsert_rows tb ev f fuel (new_iter snap lo hi) trs (map dk (done ++ rs)) (odone ++ os) (length done) s = (s', Ok tt) ->
    exists ops, w_ops s' = w_ops s ++ ops /\ writes ops (CUpsert f []) (map (merged tb f m) rs) /\
                Forall (fun r => t_ser tb (merged tb f m r) <> None) rs.
  Proof.
    intros EV K RA KM CF. induction rs as [|r rs IH]; intros os dn odn fuel s s' F2 LEN LO SS FU GD H.
    - inversion F2; subst. exists []. rewrite app_nil_r in *. split; [|split; [apply writes_nil|constructor]].
      destruct fuel; cbn [upsert_rows] in H; rewrite map_length, Nat.ltb_irrefl in H; injection H as <-; reflexivity.
    - inversion F2 as [|o r' os' rs' Ho F2']; subst. destruct fuel as [|fuel]; [cbn in FU; lia|].
      inversion LO as [|? ? LO1 LO2]; subst. cbn [upsert_rows] in H.
      assert (L : Nat.ltb (length dn) (length (map dk (dn ++ r :: rs))) = true).
      { apply Nat.ltb_lt. rewrite map_length, app_length. cbn. lia. }
      rewrite L in H.
      assert (N1 : nth (length dn) (odn ++ o :: os') 0 = o).
      { rewrite app_nth2 by lia. rewrite LEN, Nat.sub_diag. reflexivity. }
      assert (N2 : nth (length dn) (map dk (dn ++ r :: rs)) [] = dk r).
      { rewrite map_app, app_nth2; rewrite map_length; [|lia]. rewrite Nat.sub_diag. reflexivity. }
      rewrite N1, N2, Ho in H. destruct (e_ctx ev (w_tick s)); [easy|].
      rewrite exist_key_eq in H by auto. change (w_flt (tick s)) with (w_flt s) in H.
      assert (GT : forall x, In x rs -> pk x <> pk r).
      { intros x Hx Epk. apply dk_inj in Epk. rewrite map_app in SS. apply strict_nodup in SS.
        apply nodup_app_iff in SS as [_ [SS _]]. inversion SS; subst. apply H2. rewrite <- Epk. apply in_map; auto. }
      assert (NDR : NoDup (map pk rs)).
      { apply (nodup_dk (tb:=tb)). apply strict_nodup in SS. rewrite map_app in SS. apply nodup_app_iff in SS as [_ [SS _]]. inversion SS; auto. }
      set (q := merged tb f m r).
      assert (Q1 : pk q = pk r) by (apply merged_same; auto).
      assert (dkq : dk q = dk r) by (apply (dk_inj (tb:=tb)); auto).
      assert (NQ : NoDup (map pk (q :: map (merged tb f m) rs))).
      { cbn [map]. rewrite map_map. rewrite (map_ext _ pk (fun x => merged_same f m x KM CF)). constructor; auto.
        intro X. apply in_map_iff in X as [x [X1 X2]]. apply (GT x X2). congruence. }
      pose proof (RA (pk r)) as RP. rewrite <- (data_key_eq _ LAW) in RP.
      (* the common tail *)
      assert (TAIL : forall s1 v g n, t_ser tb q = Some v -> w_ops s1 = w_ops s ++ BSet (dk r) v :: flat_map g (e_map ev n (t_indexes tb)) ->
        (forall ix, In ix (t_indexes tb) -> Forall (op_key_under (t_id tb) (ix_id ix)) (g ix)) -> good (tb:=tb) snap s1 ->
        upsert_rows tb ev f fuel (new_iter snap lo hi) trs (map dk (dn ++ r :: rs)) (odn ++ o :: os') (S (length dn)) s1 = (s', Ok tt) ->
        exists ops, w_ops s' = w_ops s ++ ops /\ writes ops (CUpsert f []) (map (merged tb f m) (r :: rs)) /\
          Forall (fun r => t_ser tb (merged tb f m r) <> None) (r :: rs)).
      { intros s1 v g n ES W1 UN G1 H1.
        destruct (IH os' (dn ++ [r]) (odn ++ [o]) fuel s1 s') as (ops & E1 & E2 & E3); auto.
        - rewrite !app_length. cbn. lia.
        - rewrite <- app_assoc. exact SS.
        - cbn in FU. lia.
        - rewrite <- !app_assoc, app_length. cbn [app length]. rewrite Nat.add_1_r. exact H1.
        - rewrite W1, <- app_assoc in E1. eexists. split; [exact E1|]. split; [|constructor; [fold q; congruence|exact E3]].
          cbn [map]. fold q. rewrite <- dkq.
          apply (row_op_writes tb LAW (CUpsert f []) q v (flat_map g (e_map ev n (t_indexes tb))) ops (map (merged tb f m) rs)); auto.
          intro p. apply (index_ops_rows tb LAW); auto. intros ix Hix. exact (emap_sub tb ev _ EV ix Hix). }
      destruct GD as [G1 G2].
      destruct (m (pk r)) as [old|] eqn:EM.
      + destruct (KM _ _ EM) as [_ EV0]. destruct (s_val sc old) as [vo|] eqn:EVo; [|easy].
        rewrite RP in H. rewrite (covers_may _ _ _ _ G1 RP) in H. cbn [andb] in H.
        pose proof (probe snap lo r K LO1) as P. cbn zeta in P. rewrite RP in P. destruct P as [P1 [P2 P3]].
        rewrite P3 in H. rewrite (SO _ _ (w_old (tick s)) EVo) in H.
        assert (Eq : f old r = q) by (unfold q, merged; rewrite EM; auto). rewrite Eq in H.
        rewrite upsert_dups_distinct in H by auto.
        destruct (t_ser tb q) as [v|] eqn:ES; [|easy].
        refine (TAIL _ v (fun idx => on_update (t_id tb) (t_pk tb) idx old q) (w_tick s) eq_refl _ _ _ H); [reflexivity| |].
        * intros; apply on_update_under; auto.
        * split; [exact G1|]. cbn [w_ops w_flt add_ops set_old tick]. apply ops_covered_app; auto.
          apply row_ops_covered; [apply (covers_may _ _ _ _ G1 RP)|]. apply (index_ops_covered (EV:=EV) (LAW:=LAW)). intros; apply on_update_under; auto.
      + rewrite RP, andb_false_r in H.
        assert (Eq : r = q) by (unfold q, merged; rewrite EM; auto).
        rewrite upsert_dups_distinct in H by auto. rewrite <- Eq in TAIL.
        destruct (t_ser tb r) as [v|] eqn:ES; [|easy].
        refine (TAIL _ v (fun idx => on_insert (t_id tb) (t_pk tb) idx r) (w_tick s) eq_refl _ _ _ H); [rewrite flt_add_ops; reflexivity| |].
        * intros; apply on_insert_under; auto.
        * set (s1 := add_ops _ _). assert (LE : flt_le tb (w_flt s) (w_flt (flt_add tb (dk r) s1))) by (apply (flt_add_le s1); auto).
          split; [eapply covers_le; eauto|]. rewrite flt_add_ops. unfold s1 at 2. cbn [w_ops add_ops set_old tick].
          apply ops_covered_app; [eapply ops_covered_le; eauto|].
          apply row_ops_covered; [apply flt_add_has; auto|]. apply (index_ops_covered (EV:=EV) (LAW:=LAW)). intros; apply on_insert_under; auto.
  Qed.

  (** what a round writes *)
  Lemma round_settles ev c db m rows s s' : env_ok ev -> kv_ok db -> rows_are sc db m -> own_keys sc m -> keeps_key sc c ->
    (match c with CDelete _ => True | _ => NoDup (map pk rows) end) -> good (tb:=tb) db s ->
    round tb ev c db rows s = (s', Ok tt) ->
    exists ops l', w_ops s' = w_ops s ++ ops /\ writes ops c l' /\ settled sc [m] c rows l' /\
      (match c with CDelete _ => True | _ => map pk l' = map pk rows /\ Forall (fun r => t_ser tb r <> None) l' end).
  Proof.
    intros EV K RA KM CF N GD H. destruct c as [l|l|f l|l].
    - destruct (round_writes tb LAW ev (CInsert l) db rows s s' EV I N H) as (ops & E1 & E2). exists ops, rows.
      split; [auto|]. split; [auto|]. split; [reflexivity|]. split; [reflexivity|]. cbn [round] in H.
      destruct (sort_keys_rows (tb := tb) (ev := ev) rows) as [keys [order [rs [X1 [X2 [P [S F2]]]]]]].
      unfold insert_chunk in H. rewrite X1 in H. subst keys. destruct (map dk rs) as [|k ks] eqn:ER; [easy|]. rewrite <- ER in H.
      eapply insert_rows_ser in H; eauto. eapply Forall_perm; eauto.
    - destruct (round_writes tb LAW ev (CUpdate l) db rows s s' EV I N H) as (ops & E1 & E2). exists ops, rows.
      split; [auto|]. split; [auto|]. split; [reflexivity|]. split; [reflexivity|]. cbn [round] in H.
      destruct (sort_keys_rows (tb := tb) (ev := ev) rows) as [keys [order [rs [X1 [X2 [P [S F2]]]]]]].
      unfold update_chunk in H. rewrite X1 in H. subst keys. destruct (map dk rs) as [|k ks] eqn:ER; [easy|]. rewrite <- ER in H.
      eapply update_rows_ser in H; eauto; [eapply Forall_perm; eauto|].
      eapply Permutation_NoDup; [apply Permutation_map, Permutation_sym, P|auto].
    - cbn [round] in H. cbn [keeps_key] in CF.
      destruct rows as [|r0 rows0]; [unfold upsert_chunk in H; destruct (sort_keys_rows (tb := tb) (ev := ev) []) as (keys & order & rs & X1 & X2 & P & _); rewrite X1 in H;
        apply Permutation_nil in P + apply Permutation_sym, Permutation_nil in P; subst; easy|].
      set (rows := r0 :: rows0) in *.
      destruct (upsert_chunk_unfold (tb:=tb) (ev:=ev) f db false rows s ltac:(easy)) as (order & rs & P & S & F2 & E). rewrite E in H.
      change (chunk_snapshot db false (w_ops s)) with db in H.
      assert (NR : NoDup (map pk rs)) by (eapply Permutation_NoDup; [apply Permutation_map, Permutation_sym, P|auto]).
      destruct (upsert_rows_writes f ev db (hd [] (map dk rs)) rows m EV K RA KM CF rs order [] [] (length rs) s s') as (ops & E1 & E2 & E3); auto.
      + apply hd_le; auto.
      + apply sorted_nodup_strict; auto. apply nodup_dk; auto.
      + assert (MP : map pk (map (merged tb f m) rows) = map pk rows) by (rewrite map_map; apply map_ext; intro x; now apply merged_same).
        exists ops, (map (merged tb f m) rows). split; [auto|]. split; [|split; [|split]].
        * intro p. rewrite E2. apply (eff_perm tb (CUpsert f l)); [|now apply Permutation_map].
          rewrite map_map. rewrite (map_ext _ pk (fun x => merged_same f m x KM CF)). auto.
        * cbn [settled]. clear. induction rows as [|x rows IH]; cbn [map]; constructor; auto. exists m. split; [now left|reflexivity].
        * exact MP.
        * apply Forall_map. eapply Forall_perm; eauto.
    - destruct (round_writes tb LAW ev (CDelete l) db rows s s' EV I N H) as (ops & E1 & E2). exists ops, rows. split; [auto|]. split; [auto|]. split; [reflexivity|exact I].
  Qed.

  (** the effect of a call that commits *)
  Lemma lands_rows db m c l' ops : kv_ok db -> (match c with CDelete _ => True | _ => NoDup (map pk l') end) ->
    rows_are sc db m -> writes ops c l' -> rows_are sc (apply_ops db ops) (lands sc m c l').
  Proof.
    intros K N R W. assert (E : lands sc m c l' = effect sc m (match c with CDelete _ => CDelete l' | _ => CInsert l' end)) by (destruct c; reflexivity).
    rewrite E. apply (effect_rows tb); auto; try (destruct c; exact I).
    - destruct c; auto.
    - destruct c; exact W.
  Qed.

  Lemma lands_keyed m c l' : own_keys sc m -> (match c with CDelete _ => True | _ => Forall (fun r => t_ser tb r <> None) l' end) ->
    own_keys sc (lands sc m c l').
  Proof.
    intros KM FS. destruct c as [l|l|f l|l]; cbn [lands].
    1,2,3: revert m KM; induction l' as [|x l' IH]; intros m KM; [exact KM|]; inversion FS; subst; apply IH; [assumption|];
      intros p r E; unfold put in E; destruct (beqb p (pk x)) eqn:B; [injection E as <-; apply beqb_eq in B; split; auto|exact (KM _ _ E)].
    intros p r E. apply removes_le in E. exact (KM _ _ E).
  Qed.

  (** ** Any schedule *)

  (** a call in progress has collected the writes for the rows it has handled, computed from contents the table had *)
  Definition upto (ms : list (tmap T)) (fl : F) (th : @thread T F) : Prop :=
    env_ok (th_env th) /\ keeps_key sc (th_call th) /\ once (th_call th) /\
    (th_res th = None -> ops_covered tb fl (w_ops (th_st th)) /\
      exists l', writes (w_ops (th_st th)) (th_call th) l' /\
        settled sc ms (th_call th) (handled (th_env th) (th_call th) (th_num th)) l' /\
        (match th_call th with
         | CDelete _ => True
         | _ => map pk l' = map pk (handled (th_env th) (th_call th) (th_num th)) /\ Forall (fun r => t_ser tb r <> None) l'
         end)).

  Lemma settled_more ms ms' c l l' : incl ms ms' -> settled sc ms c l l' -> settled sc ms' c l l'.
  Proof.
    intros I S. destruct c; auto. cbn [settled] in *. induction S as [|a b l l' (m & Hm & E) S IH]; constructor; eauto.
  Qed.

  Lemma settled_app ms c a b a' b' : settled sc ms c a a' -> settled sc ms c b b' -> settled sc ms c (a ++ b) (a' ++ b').
  Proof. intros A B. destruct c; cbn [settled] in *; try congruence. now apply Forall2_app. Qed.

  Lemma upto_more ms ms' fl fl' th : incl ms ms' -> flt_le tb fl fl' -> upto ms fl th -> upto ms' fl' th.
  Proof.
    intros I L (A & B & C & D). split; [auto|]. split; [auto|]. split; [auto|]. intro N. destruct (D N) as (D1 & l' & D2 & D3 & D4).
    split; [eapply ops_covered_le; eauto|]. exists l'. split; [auto|]. split; [eapply settled_more; eauto|auto].
  Qed.

  (** the state of the system and its past *)
  Definition fits (y : sys (T:=T) (F:=F)) (m : tmap T) (ms : list (tmap T)) : Prop :=
    kv_ok (y_db y) /\ rows_are sc (y_db y) m /\ own_keys sc m /\ covers tb (y_flt y) (y_db y) /\ Forall (upto (m :: ms) (y_flt y)) (y_threads y).

  Lemma step_fits db fl th db' fl' th' m ms : kv_ok db -> rows_are sc db m -> own_keys sc m -> covers tb fl db -> upto (m :: ms) fl th ->
    step_thread tb db fl th = (db', fl', th') ->
    flt_le tb fl fl' /\ kv_ok db' /\ covers tb fl' db' /\
    match th_res th, th_res th' with
    | None, Some r =>
        if ok_of r then exists l', settled sc (m :: ms) (th_call th) (rows_of (th_call th)) l' /\ own_keys sc (lands sc m (th_call th) l') /\
                          rows_are sc db' (lands sc m (th_call th) l')
        else rows_are sc db' m
    | _, _ => rows_are sc db' m
    end /\ (forall ms', incl (m :: ms) ms' -> upto ms' fl' th').
  Proof.
    intros K R KM CV (EV & KK & N & W) H. unfold step_thread in H. destruct (th_res th) as [r|] eqn:RES.
    { injection H as <- <- <-. split; [apply flt_le_refl|]. split; [auto|]. split; [auto|]. split; [auto|].
      intros ms' _. split; [auto|]. split; [auto|]. split; [auto|]. congruence. }
    destruct (W eq_refl) as (OC & l' & W1 & W2 & W3). clear W.
    destruct (part (th_env th) (th_call th) (th_num th)) as [rows|] eqn:P.
    - assert (GD : good (tb:=tb) db (with_flt (th_st th) fl)) by (split; auto).
      destruct (round tb (th_env th) (th_call th) db rows (with_flt (th_st th) fl)) as [s1 r1] eqn:E1.
      destruct (round_good (th_env th) (th_call th) db rows _ EV K GD) as [GD' LE]. rewrite E1 in GD', LE. cbn [fst with_flt w_flt] in GD', LE.
      destruct GD' as [CV' OC'].
      destruct r1 as [[]|e| |]; injection H as <- <- <-; cbn [th_res ok_of]; (split; [exact LE|]); (split; [auto|]); (split; [exact CV'|]); (split; [auto|]);
        intros ms' IN; (split; [auto|]); (split; [auto|]); (split; [auto|]); try easy.
      intros _. cbn [th_st th_call th_num th_env]. split; [exact OC'|]. rewrite (part_handled _ _ _ _ EV P).
      pose proof (handled_nodup tb (th_env th) (th_call th) (S (th_num th)) N) as HN. rewrite (part_handled _ _ _ _ EV P) in HN.
      destruct (round_settles (th_env th) (th_call th) db m rows (with_flt (th_st th) fl) s1) as (ops & l2 & E2 & E3 & E4 & E5); auto.
      { destruct (th_call th); auto; rewrite map_app in HN; apply nodup_app_iff in HN; tauto. }
      cbn [w_ops with_flt] in E2. exists (l' ++ l2). split; [|split].
      + rewrite E2. intro p. rewrite ops_effect_app, E3, W1. symmetry.
        destruct (th_call th) as [l|l|f l|l]; [..|apply (find_del_app tb)];
          apply (eff_app tb); rewrite map_app; rewrite (proj1 W3), (proj1 E5); rewrite map_app in HN; exact HN.
      + apply settled_app; [eapply settled_more; [|exact W2]; auto|]. eapply settled_more; [|exact E4]. intros x [<-|[]]. apply IN. now left.
      + destruct (th_call th); auto; destruct W3 as [A1 A2], E5 as [B1 B2]; (split; [now rewrite !map_app, A1, B1|now apply Forall_app]).
    - rewrite (none_handled _ _ _ EV P) in W2, W3.
      destruct (commit (th_env th) db (w_ops (th_st th))) as [dbc rc] eqn:CM. injection H as <- <- <-. cbn [th_res].
      split; [apply flt_le_refl|]. unfold commit in CM.
      assert (GT : forall ms', upto ms' fl (Thread (th_env th) (th_call th) (S (th_num th)) (th_st th) (Some rc))).
      { intro ms'. split; [auto|]. split; [auto|]. split; [auto|]. easy. }
      assert (ND : match th_call th with CDelete _ => True | _ => NoDup (map pk l') end).
      { unfold once, ConcurSpec.once in N. destruct (th_call th); auto; destruct W3 as [-> _]; exact N. }
      assert (LK : own_keys sc (lands sc m (th_call th) l')) by (apply lands_keyed; auto; destruct (th_call th); tauto).
      pose proof (lands_rows db m (th_call th) l' (w_ops (th_st th)) K ND R W1) as LR.
      pose proof (covers_apply (tb:=tb) fl db (w_ops (th_st th)) K CV OC) as CA.
      destruct (w_ops (th_st th)) as [|o os] eqn:WO.
      + injection CM as <- <-. cbn [ok_of]. split; [auto|]. split; [auto|]. split; [|auto]. exists l'. auto.
      + destruct (e_commit (th_env th)); injection CM as <- <-; cbn [ok_of].
        * change (apply_ops (apply_op db o) os) with (apply_ops db (o :: os)).
          split; [apply apply_ops_ok; auto|]. split; [exact CA|]. split; [|auto]. exists l'. auto.
        * split; [auto|]. split; [auto|]. split; auto.
  Qed.

  Lemma explains sch : forall y m ms, fits y m ms ->
    exists m', explained sc (m :: ms) (map (fun f => (snd (fst f), ok_of (snd f))) (returned tb y sch)) m' /\ own_keys sc m' /\
      rows_are sc (y_db (run_sched tb sch y)) m'.
  Proof.
    induction sch as [|i sch IH]; intros y m ms (K & R & KM & CV & GT).
    - exists m. split; [constructor|]. split; [exact KM|exact R].
    - cbn [run_sched fold_left returned]. change (fold_left (step tb) sch (step tb y i)) with (run_sched tb sch (step tb y i)).
      destruct (nth_error (y_threads y) i) as [th|] eqn:E.
      2:{ assert (ST : step tb y i = y) by (unfold step; rewrite E; reflexivity). rewrite ST. cbn [app]. apply IH. repeat (split; [auto|]). auto. }
      destruct (step_thread tb (y_db y) (y_flt y) th) as [[db' fl'] th'] eqn:ST.
      assert (EY : step tb y i = Sys db' fl' (set_nth (y_threads y) i th')) by (unfold step; rewrite E, ST; reflexivity).
      rewrite EY. cbn [y_threads]. rewrite (set_nth_same _ _ _ _ E).
      assert (G1 : upto (m :: ms) (y_flt y) th) by (rewrite Forall_forall in GT; apply GT; eapply nth_error_In; eauto).
      destruct (step_fits _ _ _ _ _ _ m ms K R KM CV G1 ST) as (LE & K' & CV' & R' & G').
      assert (GT' : forall ms', incl (m :: ms) ms' -> Forall (upto ms' fl') (set_nth (y_threads y) i th')).
      { intros ms' IN. destruct (set_nth_split _ _ _ E) as [a [b [E1 E2]]]. rewrite E2. rewrite E1 in GT.
        apply Forall_app in GT as [GA GB]. inversion GB; subst.
        apply Forall_app. split; [|constructor; [now apply G'|]]; (eapply Forall_impl; [|eassumption]; intros x Hx; eapply upto_more; eauto). }
      assert (SAME : rows_are sc db' m -> exists m', explained sc (m :: ms) (map (fun f => (snd (fst f), ok_of (snd f))) (returned tb (Sys db' fl' (set_nth (y_threads y) i th')) sch)) m' /\
        own_keys sc m' /\ rows_are sc (y_db (run_sched tb sch (Sys db' fl' (set_nth (y_threads y) i th')))) m').
      { intro R1. apply IH. split; [exact K'|]. split; [exact R1|]. split; [exact KM|]. split; [exact CV'|]. apply GT'. apply incl_refl. }
      destruct (th_res th) as [r0|]; [cbn [app map]; auto|].
      destruct (th_res th') as [r|]; [|cbn [app map]; auto]. cbn [app map fst snd].
      destruct (ok_of r).
      + destruct R' as (l' & S1 & KM' & R').
        destruct (IH (Sys db' fl' (set_nth (y_threads y) i th')) (lands sc m (th_call th) l') (m :: ms)) as (m' & X1 & X2 & X3).
        { split; [exact K'|]. split; [exact R'|]. split; [exact KM'|]. split; [exact CV'|]. apply GT'. intros x Hx. now right. }
        exists m'. split; [|auto]. econstructor; eauto.
      + destruct (SAME R') as (m' & X1 & X2). exists m'. split; [now constructor|auto].
  Qed.
End Rows.

Theorem rows_explained {T F} (tb : table T F) : good_table tb -> forall db fl m h sch, kv_ok db -> rows_are (schema_of tb) db m -> own_keys (schema_of tb) m ->
  covers tb fl db -> Forall (fun ec => env_ok (fst ec) /\ keeps_key (schema_of tb) (snd ec) /\ once (schema_of tb) (snd ec)) h ->
  exists m', explained (schema_of tb) [m] (map (fun f => (snd (fst f), ok_of (snd f))) (returned tb (start tb db fl h) sch)) m' /\
    own_keys (schema_of tb) m' /\ rows_are (schema_of tb) (y_db (run_sched tb sch (start tb db fl h))) m'.
Proof.
  intros [LAW SO FO] db fl m h sch K R KM CV H. apply explains; auto. split; [exact K|]. split; [exact R|]. split; [exact KM|]. split; [exact CV|].
  cbn [start y_threads y_flt]. apply Forall_forall. intros th Hth. apply in_map_iff in Hth as [ec [<- He]].
  rewrite Forall_forall in H. destruct (H _ He) as (A & B & C). split; [auto|]. split; [auto|]. split; [auto|].
  intros _. cbn [th_st w_ops th_call th_env th_num]. split; [intros f rest v _ []|]. exists []. rewrite handled_0.
  split; [apply writes_nil|]. split; [destruct (snd ec); cbn; auto|]. destruct (snd ec); cbn; auto.
Qed.
