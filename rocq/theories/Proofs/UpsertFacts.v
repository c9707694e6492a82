(** Upsert with pairwise distinct keys. *)

From Coq Require Import List NArith Lia Bool Sorting.Sorted Sorting.Permutation Arith.
From Verif.Model Require Import Bytes Go Keys Pebble Index Table.
From Verif.Spec Require Import KeySpec TableSpec.
From Verif.Proofs Require Import BytesFacts KeysFacts PebbleFacts TableFacts WriteFacts UpdateFacts.
Import ListNotations.

Section Upsert.
  Context {T F : Type} {tb : table T F} {ev : env T} {LAW : lawful tb} {EV : env_ok ev}.
  Variable f : T -> T -> T.
  Notation sc := (schema_of tb).
  Notation dk := (data_key tb).
  Notation pk := (s_pk (schema_of tb)).

  (** the row stored for [r] *)
  Definition merged (m : tmap T) (r : T) : T :=
    match m (pk r) with Some old => f old r | None => r end.

  (** what onConflict must respect *)
  Definition conflict_ok : Prop :=
    forall old r, pk old = pk r -> row_ok sc old -> row_ok sc r -> pk (f old r) = pk r /\ row_ok sc (f old r).

  Lemma merged_pk m r db : conflict_ok -> Rep sc db m -> row_ok sc r -> pk (merged m r) = pk r /\ row_ok sc (merged m r).
  Proof.
    intros C R OK. unfold merged. destruct (m (pk r)) as [o|] eqn:E; [|split; [reflexivity|exact OK]].
    destruct (rep_rows _ _ _ R _ _ E) as [H1 [H2 _]]. apply C; auto.
  Qed.

  Lemma upsert_dups_distinct n keys trs i old tr : StronglySorted blt keys ->
    upsert_dups f n keys trs i old tr = Some (i, old, tr).
  Proof.
    intro S. destruct n as [|n]; auto. cbn [upsert_dups].
    destruct (Nat.ltb i (length keys - 1)) eqn:L; auto. apply Nat.ltb_lt in L.
    assert (B : beqb (nth (Datatypes.S i) keys []) (nth i keys []) = false).
    { apply beqb_neq. intro E. apply strict_nodup in S.
      assert (X : Datatypes.S i = i) by (apply (proj1 (NoDup_nth keys []) S); [lia|lia|exact E]). lia. }
    rewrite B. reflexivity.
  Qed.

  (** everything the loop does to the tail [rs] of the rows *)
  Lemma upsert_rows_run snap lo trs db : kv_ok snap -> kv_ok db -> ser_over tb -> filter_ok tb -> conflict_ok ->
    forall rs os done odone fuel s m,
    Forall2 (fun o r => nth_error trs o = Some r) os rs -> length odone = length done ->
    Forall (fun r => ble lo (dk r)) rs ->
    StronglySorted blt (map dk (done ++ rs)) ->
    Forall (row_ok sc) rs -> length rs <= fuel ->
    covers tb (w_flt s) snap ->
    Rep sc (V db s) m ->
    (forall r, In r rs -> kv_get snap (dk r) = kv_get (V db s) (dk r)) ->
    exists s' res,
      upsert_rows tb ev f fuel (new_iter snap lo (data_key_space_end tb)) trs (map dk (done ++ rs)) (odone ++ os) (length done) s = (s', res)
      /\ ((exists e, res = Err e) \/
          res = Ok tt /\ Rep sc (V db s') (puts sc m (map (merged m) rs)) /\ same_outside sc (V db s) (V db s')
          /\ flt_le tb (w_flt s) (w_flt s')
          /\ (forall r, In r rs -> flt_may tb (w_flt s') (dk r) = true)
          /\ w_tick s' = w_tick s + length rs /\ live ev s (length rs) /\ (forall r, In r rs -> t_ser tb (merged m r) <> None))
      /\ (live ev s (length rs) -> (forall r, In r rs -> t_ser tb (merged m r) <> None) -> res = Ok tt).
  Proof.
    intros KS KD SO FO CF. induction rs as [|r rs IH]; intros os dn odn fuel s m F2 LEN LO SS OK FU CV R AG.
    - inversion F2; subst. exists s, (Ok tt). rewrite app_nil_r. split.
      + destruct fuel; cbn [upsert_rows]; rewrite map_length, Nat.ltb_irrefl; reflexivity.
      + split; auto. right. cbn. split; auto. split; [exact R|]. split; [apply same_outside_refl|].
        split; [apply flt_le_refl|]. split; [intros; contradiction|]. split; [lia|]. split; [intros i Hi; lia|]. intros; contradiction.
    - inversion F2 as [|o r' os' rs' Ho F2']; subst. destruct fuel as [|fuel]; [cbn in FU; lia|].
      inversion LO as [|? ? LO1 LO2]; subst. inversion OK as [|? ? OK1 OK2]; subst.
      cbn [upsert_rows].
      assert (L : Nat.ltb (length dn) (length (map dk (dn ++ r :: rs))) = true).
      { apply Nat.ltb_lt. rewrite map_length, app_length. cbn. lia. }
      rewrite L.
      assert (N1 : nth (length dn) (odn ++ o :: os') 0 = o).
      { rewrite app_nth2 by lia. rewrite LEN, Nat.sub_diag. reflexivity. }
      assert (N2 : nth (length dn) (map dk (dn ++ r :: rs)) [] = dk r).
      { rewrite map_app, app_nth2; rewrite map_length; [|lia]. rewrite Nat.sub_diag. reflexivity. }
      rewrite N1, N2, Ho.
      destruct (e_ctx ev (w_tick s)) eqn:EC.
      { exists (tick s), (Err ECtx). split; auto. split; [left; eauto|]. intros LV _.
        rewrite LV in EC; [easy|cbn; lia]. }
      rewrite exist_key_eq by auto. change (w_flt (tick s)) with (w_flt s).
      assert (LVs : forall (s1 : wst T F) n, w_tick s1 = S (w_tick s) -> (live ev s1 n <-> live ev s (S n))).
      { intros s1 n E. split; intros Lv i Hi.
        - destruct (Nat.eq_dec i (w_tick s)) as [->|]; auto. apply Lv. lia.
        - apply Lv. lia. }
      assert (GT : forall x, In x rs -> pk x <> pk r).
      { intros x Hx Epk. apply dk_inj in Epk. rewrite map_app in SS. apply strict_nodup in SS.
        apply nodup_app_iff in SS as [_ [SS _]]. inversion SS; subst. apply H1. rewrite <- Epk. apply in_map; auto. }
      (* the common tail, once the row [r] has been turned into [q] *)
      set (q := merged m r).
      destruct (merged_pk m r _ CF R OK1) as [Q1 Q2]. fold q in Q1, Q2.
      assert (dkq : dk q = dk r) by (apply dk_inj; auto).
      assert (TAIL : forall s1 v ops, t_ser tb q = Some v ->
        w_tick s1 = S (w_tick s) -> V db s1 = apply_ops (V db s) ops ->
        Rep sc (V db s1) (put sc m q) -> same_outside sc (V db s) (V db s1) ->
        flt_le tb (w_flt s) (w_flt s1) -> flt_may tb (w_flt s1) (dk r) = true ->
        exists s' res,
          upsert_rows tb ev f fuel (new_iter snap lo (data_key_space_end tb)) trs (map dk (dn ++ r :: rs)) (odn ++ o :: os') (S (length dn)) s1 = (s', res)
          /\ ((exists e, res = Err e) \/
          res = Ok tt /\ Rep sc (V db s') (puts sc m (map (merged m) (r :: rs))) /\ same_outside sc (V db s) (V db s')
          /\ flt_le tb (w_flt s) (w_flt s')
          /\ (forall x, In x (r :: rs) -> flt_may tb (w_flt s') (dk x) = true)
          /\ w_tick s' = w_tick s + length (r :: rs) /\ live ev s (length (r :: rs)) /\ (forall x, In x (r :: rs) -> t_ser tb (merged m x) <> None))
          /\ (live ev s (length (r :: rs)) -> (forall x, In x (r :: rs) -> t_ser tb (merged m x) <> None) -> res = Ok tt)).
      { intros s1 v ops ES T1 V1 R1 O1 FL FM.
        assert (MG : forall x, In x rs -> merged (put sc m q) x = merged m x).
        { intros x Hx. unfold merged. rewrite put_other; auto. rewrite Q1. auto. }
        destruct (IH os' (dn ++ [r]) (odn ++ [o]) fuel s1 (put sc m q)) as [s' [res [E1 [E2 E3]]]]; auto.
        - rewrite !app_length. cbn. lia.
        - rewrite <- app_assoc. exact SS.
        - cbn in FU. lia.
        - eapply covers_le; eauto.
        - intros x Hx. rewrite AG by (right; auto). symmetry.
          apply (puts_snapshot_keep m [q] db s s1 x); auto. intros y [<-|[]]. rewrite Q1. intro E. apply (GT x Hx). auto.
        - exists s', res. split.
          { rewrite <- E1. rewrite <- !app_assoc, app_length. cbn [app length]. rewrite Nat.add_1_r. reflexivity. }
          split.
          + destruct E2 as [E2|[E2 [G1 [G2 [G3 [G4 [G5 [G6 G7]]]]]]]]; [left; auto|right]. split; auto.
            split. { cbn [map]. change (puts sc m (merged m r :: map (merged m) rs)) with (puts sc (put sc m q) (map (merged m) rs)).
              rewrite <- (map_ext_in _ _ rs MG). exact G1. }
            split; [eapply same_outside_trans; eauto|]. split; [eapply flt_le_trans; eauto|].
            split. { intros x [<-|Hx]; auto. }
            split; [cbn; lia|]. split; [apply (LVs s1); auto|].
            intros x [<-|Hx]; [fold q; congruence|]. rewrite <- MG by auto. auto.
          + intros Lv Sv. apply E3.
            * apply LVs; auto.
            * intros x Hx. rewrite MG by auto. apply Sv. right; auto. }
      destruct (m (pk r)) as [old|] eqn:EM.
      + destruct (rep_some _ _ _ _ R EM) as [vo [EVo EG]].
        assert (EG' : kv_get snap (dk r) = Some vo) by (rewrite AG by (left; auto); exact EG).
        rewrite EG'. rewrite (covers_may _ _ _ _ CV EG'). cbn [andb].
        pose proof (probe snap lo r KS LO1) as P. cbn zeta in P. rewrite EG' in P. destruct P as [P1 [P2 P3]].
        rewrite P3. rewrite (SO _ _ (w_old (tick s)) EVo).
        assert (Eq : f old r = q) by (unfold q, merged; rewrite EM; auto). rewrite Eq.
        rewrite upsert_dups_distinct by auto.
        destruct (t_ser tb q) as [v|] eqn:ES.
        2: { eexists _, _. split; [reflexivity|]. split; [left; eauto|]. intros _ Sv. exfalso. apply (Sv r); [left; auto|exact ES]. }
        assert (VK : kv_ok (V db s)) by (apply V_ok; auto).
        rewrite <- dkq.
        eapply (TAIL _ v (update_ops tb (e_map ev (w_tick s) (t_indexes tb)) old q v)); auto.
        * unfold V at 1. cbn [w_ops add_ops]. apply apply_ops_app.
        * rewrite V_add, V_old, V_tick. apply (update_ops_rep tb LAW (e_map ev (w_tick s) (t_indexes tb))); auto.
          -- apply (env_map_perm _ EV).
          -- rewrite Q1. exact EM.
        * rewrite V_add, V_old, V_tick. apply (update_ops_outside tb LAW (e_map ev (w_tick s) (t_indexes tb))); auto.
          apply (env_map_perm _ EV).
        * apply flt_le_refl.
        * apply (covers_may _ _ _ _ CV EG').
      + assert (EG : kv_get snap (dk r) = None).
        { rewrite AG by (left; auto). apply (rep_none _ _ _ R). exact EM. }
        rewrite EG, andb_false_r.
        assert (Eq : r = q) by (unfold q, merged; rewrite EM; auto).
        rewrite upsert_dups_distinct by auto. 
        destruct (t_ser tb r) as [v|] eqn:ES.
        2: { eexists _, _. split; [reflexivity|]. split; [left; eauto|]. intros _ Sv. exfalso. apply (Sv r); [left; auto|].
             fold q. rewrite <- Eq. exact ES. }
        assert (VK : kv_ok (V db s)) by (apply V_ok; auto).
        eapply (TAIL _ v (insert_ops tb (e_map ev (w_tick s) (t_indexes tb)) r v)).
        * rewrite <- Eq. exact ES.
        * rewrite flt_add_tick. reflexivity.
        * rewrite V_flt, V_add, V_old, V_tick. reflexivity.
        * rewrite V_flt, V_add, V_old, V_tick. rewrite <- Eq.
          apply (insert_ops_rep tb LAW (e_map ev (w_tick s) (t_indexes tb))); auto. apply (env_map_perm _ EV).
        * rewrite V_flt, V_add, V_old, V_tick. 
          apply (insert_ops_outside tb LAW (e_map ev (w_tick s) (t_indexes tb))); auto. apply (env_map_perm _ EV).
        * apply (flt_add_le (add_ops (set_old (tick s) (w_old (tick s))) _)); auto.
        * apply flt_add_has; auto.
  Qed.

  Lemma puts_merged_perm m l l' : NoDup (map pk l) -> (forall r, In r l -> pk (merged m r) = pk r) ->
    Permutation l l' -> forall p, puts sc m (map (merged m) l) p = puts sc m (map (merged m) l') p.
  Proof.
    intros ND PKM P p. apply puts_perm; [|apply Permutation_map; auto].
    rewrite map_map. rewrite (map_ext_in _ pk); auto.
  Qed.

  Lemma upsert_chunk_unfold db rw c s : c <> [] -> exists order rs,
    Permutation rs c /\ StronglySorted ble (map dk rs) /\
    Forall2 (fun o r => nth_error c o = Some r) order rs /\
    upsert_chunk tb ev f db rw c s =
      upsert_rows tb ev f (length rs) (new_iter (chunk_snapshot db rw (w_ops s)) (hd [] (map dk rs)) (data_key_space_end tb))
        c (map dk rs) order 0 s.
  Proof.
    intro NE. destruct (sort_keys_rows (tb := tb) (ev := ev) c) as [keys [order [rs [E1 [E2 [E3 [E4 E5]]]]]]].
    exists order, rs. repeat split; auto. unfold upsert_chunk. rewrite E1. subst keys.
    destruct (map dk rs) as [|k ks] eqn:E.
    - exfalso. apply NE. destruct rs; [|easy]. apply Permutation_nil; auto.
    - rewrite <- E. rewrite map_length. reflexivity.
  Qed.

  Lemma upsert_chunk_run db rw c s m : kv_ok db -> ser_over tb -> filter_ok tb -> conflict_ok -> c <> [] ->
    NoDup (map pk c) -> Forall (row_ok sc) c ->
    covers tb (w_flt s) (chunk_snapshot db rw (w_ops s)) -> Rep sc (V db s) m ->
    (rw = true \/ forall r, In r c -> kv_get db (dk r) = kv_get (V db s) (dk r)) ->
    exists s' res, upsert_chunk tb ev f db rw c s = (s', res)
      /\ ((exists e, res = Err e) \/
          res = Ok tt /\ Rep sc (V db s') (puts sc m (map (merged m) c)) /\ same_outside sc (V db s) (V db s')
          /\ flt_le tb (w_flt s) (w_flt s')
          /\ (forall r, In r c -> flt_may tb (w_flt s') (dk r) = true)
          /\ w_tick s' = w_tick s + length c /\ live ev s (length c) /\ (forall r, In r c -> t_ser tb (merged m r) <> None))
      /\ (live ev s (length c) -> (forall r, In r c -> t_ser tb (merged m r) <> None) -> res = Ok tt).
  Proof.
    intros K SO FO CF NE ND OK CV R AG.
    destruct (upsert_chunk_unfold db rw c s NE) as [order [rs [P [S [F2 E]]]]]. rewrite E.
    assert (INr : forall r, In r rs -> In r c) by (intros; eapply Permutation_in; eauto).
    assert (INc : forall r, In r c -> In r rs) by (intros; eapply Permutation_in; [symmetry|]; eauto).
    assert (LEN : length rs = length c) by (apply Permutation_length; auto).
    assert (NDr : NoDup (map pk rs)) by (eapply Permutation_NoDup; [apply Permutation_map; symmetry; eauto|auto]).
    assert (OKr : Forall (row_ok sc) rs) by (eapply Forall_perm; [symmetry; eauto|auto]).
    destruct (upsert_rows_run (chunk_snapshot db rw (w_ops s)) (hd [] (map dk rs)) c db (snapshot_ok db rw s K) K SO FO CF
                rs order [] [] (length rs) s m) as [s' [res [E1 [E2 E3]]]]; auto.
    - apply hd_le; auto.
    - apply sorted_nodup_strict; auto. apply nodup_dk; auto.
    - intros r Hr. unfold chunk_snapshot. destruct rw; [reflexivity|]. destruct AG as [|AG]; [easy|auto].
    - exists s', res. split; [exact E1|]. rewrite <- LEN. split.
      + destruct E2 as [E2|[E2 [G1 [G2 [G3 [G4 [G5 [G6 G7]]]]]]]]; [left; auto|right].
        split; auto. split.
        { eapply (Rep_ext tb); [exact G1|]. intro p. apply puts_merged_perm; auto.
          intros r Hr. rewrite Forall_forall in OKr. apply (merged_pk m r _ CF R); auto. }
        split; [exact G2|]. split; [exact G3|]. split; [auto|]. split; [exact G5|]. split; [exact G6|]. auto.
      + intros Lv Sv. apply E3; auto.
  Qed.

  Lemma upsert_run db rw : kv_ok db -> ser_over tb -> filter_ok tb -> conflict_ok -> forall cs s m,
    Forall (fun c => c <> []) cs -> NoDup (map pk (concat cs)) -> Forall (row_ok sc) (concat cs) ->
    covers tb (w_flt s) (chunk_snapshot db rw (w_ops s)) -> Rep sc (V db s) m ->
    (rw = true \/ forall r, In r (concat cs) -> kv_get db (dk r) = kv_get (V db s) (dk r)) ->
    exists s' res, run_chunks (upsert_chunk tb ev f db rw) cs s = (s', res)
      /\ ((exists e, res = Err e) \/
          res = Ok tt /\ Rep sc (V db s') (puts sc m (map (merged m) (concat cs))) /\ same_outside sc (V db s) (V db s')
          /\ flt_le tb (w_flt s) (w_flt s')
          /\ (forall r, In r (concat cs) -> flt_may tb (w_flt s') (dk r) = true)
          /\ live ev s (length (concat cs)) /\ (forall r, In r (concat cs) -> t_ser tb (merged m r) <> None))
      /\ (live ev s (length (concat cs)) -> (forall r, In r (concat cs) -> t_ser tb (merged m r) <> None) -> res = Ok tt).
  Proof.
    intros K SO FO CF. induction cs as [|c cs IH]; intros s m NE ND OK CV R AG.
    - exists s, (Ok tt). cbn. split; auto. split; [|auto]. right. split; [auto|]. split; [exact R|]. split; [apply same_outside_refl|].
      split; [apply flt_le_refl|]. split; [intros; contradiction|]. split; [intros i Hi; lia|]. intros; contradiction.
    - inversion NE as [|? ? NE1 NE2]; subst. cbn [concat] in *.
      apply nodup_map_app in ND as [ND1 [ND2 DIS]]. apply Forall_app in OK as [OK1 OK2].
      assert (PKM : forall r, In r c -> pk (merged m r) = pk r).
      { intros r Hr. rewrite Forall_forall in OK1. apply (merged_pk m r _ CF R); auto. }
      destruct (upsert_chunk_run db rw c s m) as [s1 [res1 [E1 [E2 E3]]]]; auto.
      { destruct AG as [|AG]; [left; auto|right]. intros; apply AG; apply in_or_app; auto. }
      cbn [run_chunks]. rewrite E1. rewrite map_app, app_length.
      destruct E2 as [[e E2]|[E2 [G1 [G2 [G3 [G4 [G5 [G6 G7]]]]]]]].
      { subst res1. exists s1, (Err e). split; auto. split; [left; eauto|]. intros Lv Sv. apply E3.
        - eapply live_le; [|exact Lv]. lia.
        - intros; apply Sv; apply in_or_app; auto. }
      subst res1.
      assert (MG : forall x, In x (concat cs) -> merged (puts sc m (map (merged m) c)) x = merged m x).
      { intros x Hx. unfold merged at 1. rewrite puts_notin; [reflexivity|].
        intros y Hy. apply in_map_iff in Hy as [z [<- Hz]]. rewrite PKM; auto. }
      destruct (IH s1 (puts sc m (map (merged m) c))) as [s' [res [H1 [H2 H3]]]]; auto.
      { destruct rw.
        - apply (covers_puts db s s1 m (map (merged m) c) R G1 G3); [|exact CV].
          intros y Hy. apply in_map_iff in Hy as [z [<- Hz]]. rewrite (proj2 (dk_inj (merged m z) z)); auto.
        - eapply covers_le; [exact G3|exact CV]. }
      { destruct AG as [|AG]; [left; auto|right]. intros r Hr.
        rewrite (puts_snapshot_keep m (map (merged m) c) db s s1 r R G1).
        - apply AG. apply in_or_app; auto.
        - intros y Hy. apply in_map_iff in Hy as [z [<- Hz]]. rewrite PKM; auto. }
      assert (LVs : live ev s (length c) -> (live ev s1 (length (concat cs)) <-> live ev s (length c + length (concat cs)))).
      { intros L1. split; intros L i Hi.
        - destruct (Nat.lt_ge_cases i (w_tick s + length c)) as [X|X]; [apply L1|apply L]; lia.
        - apply L. lia. }
      exists s', res. split; [exact H1|]. split.
      + destruct H2 as [H2|[H2 [J1 [J2 [J3 [J4 [J5 J6]]]]]]]; [left; auto|right].
        split; auto. split.
        { rewrite puts_app. rewrite <- (map_ext_in _ _ _ MG). exact J1. }
        split; [eapply same_outside_trans; eauto|]. split; [eapply flt_le_trans; eauto|].
        split. { intros r Hr. apply in_app_or in Hr as [Hr|Hr]; auto. }
        split; [apply LVs; auto|]. intros r Hr. apply in_app_or in Hr as [Hr|Hr]; auto. rewrite <- MG; auto.
      + intros Lv Sv. apply H3.
        * apply LVs; auto.
        * intros r Hr. rewrite MG by auto. apply Sv. apply in_or_app; auto.
  Qed.

  Lemma merges_puts l : forall m, NoDup (map pk l) -> (forall r, In r l -> pk (merged m r) = pk r) ->
    merges sc f m l = puts sc m (map (merged m) l).
  Proof.
    induction l as [|r l IH]; intros m ND PKM; auto.
    change (merges sc f m (r :: l)) with (merges sc f (put sc m (merged m r)) l).
    cbn [map] in *. apply NoDup_cons_iff in ND as [N1 N2].
    assert (MG : forall x, In x l -> merged (put sc m (merged m r)) x = merged m x).
    { intros x Hx. unfold merged at 1. rewrite put_other; [reflexivity|].
      rewrite PKM by (left; auto). intro E. apply N1. apply in_map_iff. exists x. auto. }
    rewrite IH; auto.
    - rewrite (map_ext_in _ _ l MG). reflexivity.
    - intros x Hx. rewrite MG by auto. apply PKM. right; auto.
  Qed.
End Upsert.
Arguments merged {T F} tb f m r.
Arguments conflict_ok {T F} tb f.
