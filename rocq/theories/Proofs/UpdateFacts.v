(** Update: what the row loop, the chunks and the whole body do to the represented map. *)

From Coq Require Import List NArith Lia Bool Sorting.Sorted Sorting.Permutation Arith.
From Verif.Model Require Import Bytes Go Keys Pebble Index Table.
From Verif.Spec Require Import KeySpec TableSpec.
From Verif.Proofs Require Import BytesFacts KeysFacts PebbleFacts TableFacts WriteFacts.
Import ListNotations.

Section Update.
  Context {T F : Type} {tb : table T F} {ev : env T} {LAW : lawful tb} {EV : env_ok ev}.
  Notation sc := (schema_of tb).
  Notation dk := (data_key tb).
  Notation pk := (s_pk (schema_of tb)).

  (** the rows Update keeps: the last of each run of equal keys *)
  Fixpoint lasts (rs : list T) : list T :=
    match rs with
    | [] => []
    | r :: rs' => match rs' with
                  | r2 :: _ => if beqb (dk r2) (dk r) then lasts rs' else r :: lasts rs'
                  | [] => [r]
                  end
    end.

  Lemma lasts_incl rs : incl (lasts rs) rs.
  Proof.
    induction rs as [|r rs IH]; [easy|]. cbn [lasts]. destruct rs as [|r2 rs']; [apply incl_refl|].
    destruct (beqb (dk r2) (dk r)).
    - apply incl_tl; auto.
    - intros x [<-|H]; [left; auto|right; auto].
  Qed.

  Lemma lasts_hd rs : forall r, exists r', In r' (lasts (r :: rs)) /\ pk r' = pk r.
  Proof.
    induction rs as [|a rs IH]; intro r.
    - exists r. split; [left|]; auto.
    - change (lasts (r :: a :: rs)) with (if beqb (dk a) (dk r) then lasts (a :: rs) else r :: lasts (a :: rs)).
      destruct (beqb (dk a) (dk r)) eqn:B.
      + destruct (IH a) as [r' [H1 H2]]. exists r'. split; auto. rewrite H2. apply dk_inj. apply beqb_eq; auto.
      + exists r. split; [left|]; auto.
  Qed.

  Lemma lasts_cover rs : forall r, In r rs -> exists r', In r' (lasts rs) /\ pk r' = pk r.
  Proof.
    induction rs as [|x rs IH]; [easy|]. intros r [<-|H]; [apply lasts_hd|].
    destruct (IH r H) as [r' [H1 H2]]. exists r'. split; auto.
    destruct rs as [|a rs]; [easy|].
    change (lasts (x :: a :: rs)) with (if beqb (dk a) (dk x) then lasts (a :: rs) else x :: lasts (a :: rs)).
    destruct (beqb (dk a) (dk x)); auto. right; auto.
  Qed.

  Lemma lasts_strict rs : StronglySorted blt (map dk rs) -> lasts rs = rs.
  Proof.
    induction rs as [|r rs IH]; intro S; auto. cbn [map] in S. apply StronglySorted_inv in S as [S1 S2].
    destruct rs as [|r2 rs]; auto.
    change (lasts (r :: r2 :: rs)) with (if beqb (dk r2) (dk r) then lasts (r2 :: rs) else r :: lasts (r2 :: rs)).
    rewrite IH by auto. destruct (beqb (dk r2) (dk r)) eqn:B; auto.
    apply beqb_eq in B. inversion S2; subst. rewrite B in H1. exfalso. apply (blt_irrefl _ H1).
  Qed.

  (** the result map: every given key holds one of the given rows *)
  Definition wrote (m : tmap T) (l : list T) (m' : tmap T) : Prop :=
    forall p, (exists r, In r l /\ pk r = p /\ m' p = Some r) \/ ((forall r, In r l -> pk r <> p) /\ m' p = m p).

  Lemma puts_some l : forall m p, (exists r, In r l /\ pk r = p) -> exists r, In r l /\ pk r = p /\ puts sc m l p = Some r.
  Proof.
    induction l as [|x l IH]; intros m p [r [H E]]; [easy|].
    change (puts sc m (x :: l) p) with (puts sc (put sc m x) l p).
    destruct (in_pk_dec tb l p) as [[r' [H1 H2]]|N].
    - destruct (IH (put sc m x) p) as [q [Q1 [Q2 Q3]]]; eauto. exists q. split; [right|]; auto.
    - destruct H as [<-|H]; [|exfalso; apply (N r); auto].
      exists x. split; [left; auto|]. split; auto. rewrite puts_notin by auto. rewrite <- E. apply put_same.
  Qed.

  Lemma puts_wrote m l sel : incl sel l -> (forall r, In r l -> exists r', In r' sel /\ pk r' = pk r) ->
    wrote m l (puts sc m sel).
  Proof.
    intros I C p. destruct (in_pk_dec tb l p) as [[r [H1 H2]]|N].
    - left. destruct (C r H1) as [r' [H3 H4]]. destruct (puts_some sel m p) as [q [Q1 [Q2 Q3]]].
      { exists r'. split; congruence. }
      exists q. auto.
    - right. split; auto. apply puts_notin. intros r Hr. apply N. auto.
  Qed.

  Lemma wrote_puts m l m' : NoDup (map pk l) -> wrote m l m' -> forall p, m' p = puts sc m l p.
  Proof.
    intros ND W p. destruct (W p) as [[r [H1 [H2 H3]]]|[N E]].
    - rewrite <- H2 in *. rewrite puts_in; auto.
    - rewrite puts_notin; auto.
  Qed.

  Definition updatable (snap : kv) (r : T) : Prop := kv_get snap (dk r) <> None.

  Lemma update_rows_fwd snap lo trs db : kv_ok snap -> kv_ok db -> ser_over tb ->
    forall rs os s m,
    Forall2 (fun o r => nth_error trs o = Some r) os rs ->
    Forall (fun r => ble lo (dk r)) rs ->
    StronglySorted ble (map dk rs) ->
    Forall (row_ok sc) rs -> (forall r, In r (lasts rs) -> t_ser tb r <> None) ->
    live ev s (length rs) ->
    Rep sc (V db s) m -> (forall r, In r rs -> m (pk r) <> None) ->
    (forall r, In r rs -> kv_get snap (dk r) = kv_get (V db s) (dk r)) ->
    exists s', update_rows tb ev (new_iter snap lo (data_key_space_end tb)) trs (combine (map dk rs) os) s = (s', Ok tt)
      /\ Rep sc (V db s') (puts sc m (lasts rs)) /\ same_outside sc (V db s) (V db s')
      /\ w_flt s' = w_flt s /\ w_tick s' = w_tick s + length rs.
  Proof.
    intros KS KD SO. induction rs as [|r rs IH]; intros os s m F2 LO SS OK SER LV R PRES AG.
    - inversion F2; subst. exists s. cbn [map combine update_rows length lasts]. split; [reflexivity|]. split; [exact R|].
      split; [apply same_outside_refl|]. split; auto.
    - inversion F2 as [|o r' os' rs' Ho F2']; subst. cbn [map combine update_rows].
      inversion LO as [|? ? LO1 LO2]; subst.
      inversion OK as [|? ? OK1 OK2]; subst. cbn [map] in SS. apply StronglySorted_inv in SS as [SS1 SS2].
      assert (EC : e_ctx ev (w_tick s) = false) by (apply LV; cbn; lia).
      rewrite EC.
      assert (LV' : live ev (tick s) (length rs)) by (intros i Hi; apply LV; cbn in *; lia).
      destruct rs as [|r2 rs].
      + inversion F2'; subst. cbn [map combine].
        destruct (m (pk r)) as [old|] eqn:EM; [|exfalso; apply (PRES r); auto; left; auto].
        destruct (rep_some _ _ _ _ R EM) as [vo [EVo EG]].
        assert (EG' : kv_get snap (dk r) = Some vo) by (rewrite AG by (left; auto); exact EG).
        pose proof (probe snap lo r KS LO1) as P. cbn zeta in P. rewrite EG' in P. destruct P as [P1 [P2 P3]].
        rewrite P1, P2, P3, beqb_refl. cbn [negb orb]. rewrite (SO _ _ (w_old (tick s)) EVo). rewrite Ho.
        destruct (t_ser tb r) as [v|] eqn:ES; [|exfalso; apply (SER r); [left|]; auto].
        set (s1 := add_ops _ _).
        assert (V1 : V db s1 = apply_ops (V db s) (update_ops tb (e_map ev (w_tick s) (t_indexes tb)) old r v)).
        { unfold s1. rewrite V_add, V_old, V_tick. reflexivity. }
        exists s1. cbn [update_rows]. split; [reflexivity|]. rewrite V1.
        assert (VK : kv_ok (V db s)) by (apply V_ok; auto).
        split; [|split].
        * cbn [lasts]. change (puts sc m [r]) with (put sc m r). apply update_ops_rep; auto. apply (env_map_perm _ EV).
        * apply update_ops_outside; auto. apply (env_map_perm _ EV).
        * cbn. split; auto. lia.
      + inversion F2' as [|o2 r2' os2 rs2 Ho2 F2'']; subst.
        change (lasts (r :: r2 :: rs)) with (if beqb (dk r2) (dk r) then lasts (r2 :: rs) else r :: lasts (r2 :: rs)) in *.
        cbn [map combine].
        destruct (beqb (dk r2) (dk r)) eqn:B.
        * destruct (IH (o2 :: os2) (tick s) m) as [s' [E1 [E2 [E3 [E4 E5]]]]]; auto.
          { intros; apply PRES; right; auto. }
          { intros; apply AG; right; auto. }
          exists s'. cbn [map combine] in E1. split; [exact E1|]. split; [exact E2|]. split; [exact E3|].
          split; [exact E4|]. rewrite E5. cbn. lia.
        * assert (GT : forall x, In x (r2 :: rs) -> pk x <> pk r).
          { intros x Hx Epk. apply dk_inj in Epk. apply beqb_neq in B.
            pose proof SS2 as SS2'. rewrite Forall_forall in SS2'.
            assert (L1 : ble (dk r) (dk r2)) by (apply SS2'; left; auto).
            assert (L2 : ble (dk r2) (dk x)).
            { destruct Hx as [<-|Hx]; [apply ble_refl|]. cbn [map] in SS1. apply StronglySorted_inv in SS1 as [_ SS1].
              rewrite Forall_forall in SS1. apply SS1. apply in_map; auto. }
            rewrite Epk in L2. apply B. apply ble_antisym; auto. }
          destruct (m (pk r)) as [old|] eqn:EM; [|exfalso; apply (PRES r); auto; left; auto].
          destruct (rep_some _ _ _ _ R EM) as [vo [EVo EG]].
          assert (EG' : kv_get snap (dk r) = Some vo) by (rewrite AG by (left; auto); exact EG).
          pose proof (probe snap lo r KS LO1) as P. cbn zeta in P. rewrite EG' in P. destruct P as [P1 [P2 P3]].
          rewrite P1, P2, P3, beqb_refl. cbn [negb orb]. rewrite (SO _ _ (w_old (tick s)) EVo). rewrite Ho.
          destruct (t_ser tb r) as [v|] eqn:ES; [|exfalso; apply (SER r); [left|]; auto].
          set (s1 := add_ops _ _).
          assert (V1 : V db s1 = apply_ops (V db s) (update_ops tb (e_map ev (w_tick s) (t_indexes tb)) old r v)).
          { unfold s1. rewrite V_add, V_old, V_tick. reflexivity. }
          assert (VK : kv_ok (V db s)) by (apply V_ok; auto).
          assert (R1 : Rep sc (V db s1) (put sc m r)).
          { rewrite V1. apply update_ops_rep; auto. apply (env_map_perm _ EV). }
          destruct (IH (o2 :: os2) s1 (put sc m r)) as [s' [E1 [E2 [E3 [E4 E5]]]]]; auto.
          { intros x Hx. apply SER. right; auto. }
          { intros x Hx. rewrite put_other by auto. apply PRES. right; auto. }
          { intros x Hx. rewrite AG by (right; auto). symmetry.
            apply (puts_snapshot_keep m [r] db s s1 x); auto. intros y [<-|[]]. intro E. apply (GT x Hx). auto. }
          exists s'. split; [exact E1|]. split; [exact E2|]. split.
          { eapply same_outside_trans; [|exact E3]. rewrite V1. apply update_ops_outside; auto. apply (env_map_perm _ EV). }
          split; [exact E4|]. rewrite E5. cbn. lia.
  Qed.

  Lemma update_rows_inv snap lo trs : kv_ok snap ->
    forall rs os s s',
    Forall2 (fun o r => nth_error trs o = Some r) os rs ->
    Forall (fun r => ble lo (dk r)) rs ->
    update_rows tb ev (new_iter snap lo (data_key_space_end tb)) trs (combine (map dk rs) os) s = (s', Ok tt) ->
    Forall (updatable snap) rs /\ (forall r, In r (lasts rs) -> t_ser tb r <> None) /\ live ev s (length rs).
  Proof.
    intros KS. induction rs as [|r rs IH]; intros os s s' F2 LO RUN.
    - cbn. repeat split; auto; try contradiction. intros i Hi. cbn in Hi. lia.
    - inversion F2 as [|o r' os' rs' Ho F2']; subst. cbn [map combine update_rows] in RUN.
      inversion LO as [|? ? LO1 LO2]; subst.
      destruct (e_ctx ev (w_tick s)) eqn:EC; [easy|].
      assert (LVs : forall (s1 : wst T F) n, w_tick s1 = S (w_tick s) -> live ev s1 n -> live ev s (S n)).
      { intros s1 n E L i Hi. destruct (Nat.eq_dec i (w_tick s)) as [->|]; auto. apply L. lia. }
      (* processing r itself *)
      assert (STEP : forall rows, 
        (let it' := it_seek_ge (new_iter snap lo (data_key_space_end tb)) (dk r) in
          if negb (it_valid it') || negb (beqb (it_key it') (dk r))
          then (tick s, Err (EMissing (after_split (dk r))))
          else
            match t_deser tb (it_value it') (w_old (tick s)) with
            | None => (tick s, Err EDeserialize)
            | Some old =>
                match nth_error trs o with
                | None => (set_old (tick s) old, Panic)
                | Some tr =>
                    match t_ser tb tr with
                    | None => (set_old (tick s) old, Err ESerialize)
                    | Some data =>
                        update_rows tb ev (new_iter snap lo (data_key_space_end tb)) trs rows
                          (add_ops (set_old (tick s) old) (BSet (dk r) data ::
                             flat_map (fun idx => on_update (t_id tb) (t_pk tb) idx old tr)
                                      (e_map ev (w_tick s) (t_indexes tb))))
                    end
                end
            end) = (s', Ok tt) ->
        updatable snap r /\ t_ser tb r <> None /\ exists s1, w_tick s1 = S (w_tick s) /\
          update_rows tb ev (new_iter snap lo (data_key_space_end tb)) trs rows s1 = (s', Ok tt)).
      { intros rows. cbn zeta. pose proof (probe snap lo r KS LO1) as P. cbn zeta in P. unfold updatable.
        destruct (kv_get snap (dk r)) as [vo|].
        - destruct P as [P1 [P2 P3]]. rewrite P1, P2, P3, beqb_refl. cbn [negb orb].
          destruct (t_deser tb vo _) as [old|]; [|easy]. rewrite Ho.
          destruct (t_ser tb r) as [v|]; [|easy]. intro H. split; [easy|]. split; [easy|].
          eexists. split; [|exact H]. reflexivity.
        - rewrite <- negb_andb, P. easy. }
      destruct rs as [|r2 rs].
      + inversion F2'; subst. cbn [map combine] in RUN. apply STEP in RUN as [U [S1 [s1 [T1 RUN]]]].
        split; [constructor; auto|]. split; [intros x [<-|[]]; auto|].
        apply (LVs s1); auto. intros i Hi. cbn in Hi. lia.
      + inversion F2' as [|o2 r2' os2 rs2 Ho2 F2'']; subst.
        change (lasts (r :: r2 :: rs)) with (if beqb (dk r2) (dk r) then lasts (r2 :: rs) else r :: lasts (r2 :: rs)).
        cbn [map combine] in RUN.
        destruct (beqb (dk r2) (dk r)) eqn:B.
        * destruct (IH (o2 :: os2) (tick s) s') as [I1 [I2 I3]]; auto.
          split.
          { constructor; auto. inversion I1; subst. unfold updatable in *. apply beqb_eq in B. rewrite <- B. auto. }
          split; [exact I2|]. apply (LVs (tick s)); auto.
        * apply STEP in RUN as [U [S1 [s1 [T1 RUN]]]].
          destruct (IH (o2 :: os2) s1 s') as [I1 [I2 I3]]; auto.
          split; [constructor; auto|]. split; [intros x [<-|Hx]; auto|]. apply (LVs s1); auto.
  Qed.

  Lemma update_rows_err it trs : forall rs os s,
    Forall2 (fun o r => nth_error trs o = Some r) os rs ->
    err_only (snd (update_rows tb ev it trs (combine (map dk rs) os) s)).
  Proof.
    induction rs as [|r rs IH]; intros os s F2.
    - cbn. left; eauto.
    - inversion F2 as [|o r' os' rs' Ho F2']; subst. cbn [map combine update_rows].
      destruct (e_ctx ev (w_tick s)); [right; eexists; reflexivity|].
      destruct (match combine _ _ with [] => false | _ => _ end); [apply IH; auto|].
      cbn zeta. destruct (_ || _); [right; eexists; reflexivity|].
      destruct (t_deser tb _ _); [|right; eexists; reflexivity].
      rewrite Ho. destruct (t_ser tb r); [|right; eexists; reflexivity].
      apply IH; auto.
  Qed.

  (** ** One chunk *)

  Lemma update_chunk_unfold db rw c s : c <> [] -> exists order rs,
    Permutation rs c /\ StronglySorted ble (map dk rs) /\
    Forall2 (fun o r => nth_error c o = Some r) order rs /\
    update_chunk tb ev db rw c s =
      update_rows tb ev (new_iter (chunk_snapshot db rw (w_ops s)) (hd [] (map dk rs)) (data_key_space_end tb))
        c (combine (map dk rs) order) s.
  Proof.
    intro NE. destruct (sort_keys_rows (tb := tb) (ev := ev) c) as [keys [order [rs [E1 [E2 [E3 [E4 E5]]]]]]].
    exists order, rs. repeat split; auto. unfold update_chunk. rewrite E1. subst keys.
    destruct (map dk rs) as [|k ks] eqn:E; auto.
    exfalso. apply NE. destruct rs; [|easy]. apply Permutation_nil; auto.
  Qed.

  Lemma update_chunk_fwd db rw c s m : kv_ok db -> ser_over tb -> c <> [] ->
    Forall (row_ok sc) c -> (forall r, In r c -> t_ser tb r <> None) ->
    live ev s (length c) -> Rep sc (V db s) m -> (forall r, In r c -> m (pk r) <> None) ->
    (rw = true \/ forall r, In r c -> kv_get db (dk r) = kv_get (V db s) (dk r)) ->
    exists s' sel, update_chunk tb ev db rw c s = (s', Ok tt)
      /\ incl sel c /\ (forall r, In r c -> exists r', In r' sel /\ pk r' = pk r)
      /\ Rep sc (V db s') (puts sc m sel) /\ same_outside sc (V db s) (V db s')
      /\ w_flt s' = w_flt s /\ w_tick s' = w_tick s + length c.
  Proof.
    intros K SO NE OK SER LV R PRES AG.
    destruct (update_chunk_unfold db rw c s NE) as [order [rs [P [S [F2 E]]]]]. rewrite E.
    assert (INr : forall r, In r rs -> In r c) by (intros; eapply Permutation_in; eauto).
    assert (LEN : length rs = length c) by (apply Permutation_length; auto).
    destruct (update_rows_fwd (chunk_snapshot db rw (w_ops s)) (hd [] (map dk rs)) c db (snapshot_ok db rw s K) K SO
                rs order s m) as [s' [E1 [E2 [E3 [E4 E5]]]]]; auto.
    - apply hd_le; auto.
    - eapply Forall_perm; [symmetry; eauto|auto].
    - intros r Hr. apply SER. apply INr. apply lasts_incl; auto.
    - rewrite LEN. auto.
    - intros r Hr. unfold chunk_snapshot. destruct rw; [reflexivity|]. destruct AG as [|AG]; [easy|auto].
    - exists s', (lasts rs). split; [exact E1|]. split.
      { intros x Hx. apply INr. apply lasts_incl; auto. }
      split. { intros r Hr. apply lasts_cover. eapply Permutation_in; [symmetry|]; eauto. }
      split; [exact E2|]. split; [exact E3|]. split; [exact E4|]. lia.
  Qed.

  Lemma update_chunk_inv db rw c s s' : kv_ok db -> c <> [] ->
    update_chunk tb ev db rw c s = (s', Ok tt) ->
    (forall r, In r c -> updatable (chunk_snapshot db rw (w_ops s)) r) /\ live ev s (length c) /\
    (NoDup (map pk c) -> forall r, In r c -> t_ser tb r <> None).
  Proof.
    intros K NE RUN.
    destruct (update_chunk_unfold db rw c s NE) as [order [rs [P [S [F2 E]]]]]. rewrite E in RUN.
    apply update_rows_inv in RUN; auto using snapshot_ok, hd_le.
    destruct RUN as [R1 [R2 R3]]. split.
    - intros r Hr. rewrite Forall_forall in R1. apply R1. eapply Permutation_in; [symmetry|]; eauto.
    - split; [rewrite <- (Permutation_length P); exact R3|]. intros ND r Hr. apply R2. rewrite lasts_strict.
      + eapply Permutation_in; [symmetry|]; eauto.
      + apply sorted_nodup_strict; auto. apply nodup_dk.
        eapply Permutation_NoDup; [apply Permutation_map; symmetry; eauto|auto].
  Qed.

  Lemma update_chunk_err db rw c s : c <> [] -> err_only (snd (update_chunk tb ev db rw c s)).
  Proof.
    intro NE. destruct (update_chunk_unfold db rw c s NE) as [order [rs [P [S [F2 E]]]]]. rewrite E.
    apply update_rows_err; auto.
  Qed.

  (** ** All chunks *)

  Lemma update_run_fwd db rw : kv_ok db -> ser_over tb -> forall cs s m,
    Forall (fun c => c <> []) cs -> Forall (row_ok sc) (concat cs) ->
    (forall r, In r (concat cs) -> t_ser tb r <> None) ->
    live ev s (length (concat cs)) -> Rep sc (V db s) m -> (forall r, In r (concat cs) -> m (pk r) <> None) ->
    (rw = true \/ NoDup (map pk (concat cs)) /\ forall r, In r (concat cs) -> kv_get db (dk r) = kv_get (V db s) (dk r)) ->
    exists s' sel, run_chunks (update_chunk tb ev db rw) cs s = (s', Ok tt)
      /\ incl sel (concat cs) /\ (forall r, In r (concat cs) -> exists r', In r' sel /\ pk r' = pk r)
      /\ Rep sc (V db s') (puts sc m sel) /\ same_outside sc (V db s) (V db s')
      /\ w_flt s' = w_flt s.
  Proof.
    intros K SO. induction cs as [|c cs IH]; intros s m NE OK SER LV R PRES AG.
    - exists s, []. cbn. split; [auto|]. split; [apply incl_refl|]. split; [intros; contradiction|].
      split; [exact R|]. split; [apply same_outside_refl|]. auto.
    - inversion NE as [|? ? NE1 NE2]; subst. cbn [concat] in *.
      rewrite app_length in LV. apply Forall_app in OK as [OK1 OK2].
      destruct (update_chunk_fwd db rw c s m) as [s1 [sel1 [E1 [E2 [E3 [E4 [E5 [E6 E7]]]]]]]]; auto.
      { intros; apply SER; apply in_or_app; auto. }
      { eapply live_le; [|exact LV]. lia. }
      { intros; apply PRES; apply in_or_app; auto. }
      { destruct AG as [|[ND AG]]; [left; auto|right]. intros; apply AG; apply in_or_app; auto. }
      destruct (IH s1 (puts sc m sel1)) as [s' [sel2 [G1 [G2 [G3 [G4 [G5 G6]]]]]]]; auto.
      { intros; apply SER; apply in_or_app; auto. }
      { intros i Hi. apply LV. lia. }
      { intros r Hr. destruct (in_pk_dec tb sel1 (pk r)) as [X|N].
        - destruct (puts_some sel1 m (pk r) X) as [q [_ [_ Q]]]. rewrite Q. easy.
        - rewrite puts_notin by auto. apply PRES; apply in_or_app; auto. }
      { destruct AG as [|[ND AG]]; [left; auto|right]. apply nodup_map_app in ND as [ND1 [ND2 DIS]]. split; auto.
        intros r Hr. rewrite (puts_snapshot_keep m sel1 db s s1 r R E4).
        - apply AG. apply in_or_app; auto.
        - intros x Hx. apply DIS; auto. }
      exists s', (sel1 ++ sel2). cbn [run_chunks]. rewrite E1. split; [exact G1|]. split.
      { intros x Hx. apply in_app_or in Hx as [Hx|Hx]; apply in_or_app; auto. }
      split.
      { intros r Hr. apply in_app_or in Hr as [Hr|Hr]; [destruct (E3 r Hr) as [q [Q1 Q2]]|destruct (G3 r Hr) as [q [Q1 Q2]]];
          exists q; (split; [apply in_or_app; auto|auto]). }
      split; [rewrite puts_app; exact G4|].
      split; [eapply same_outside_trans; eauto|]. congruence.
  Qed.

  (** If every chunk succeeds, all rows were present and no check was cancelled. *)
  Lemma update_run_inv db rw : kv_ok db -> ser_over tb -> forall cs s m s',
    Forall (fun c => c <> []) cs -> Forall (row_ok sc) (concat cs) ->
    (forall r, In r (concat cs) -> t_ser tb r <> None) \/ NoDup (map pk (concat cs)) ->
    Rep sc (V db s) m ->
    (rw = true \/ NoDup (map pk (concat cs)) /\ forall r, In r (concat cs) -> kv_get db (dk r) = kv_get (V db s) (dk r)) ->
    run_chunks (update_chunk tb ev db rw) cs s = (s', Ok tt) ->
    (forall r, In r (concat cs) -> m (pk r) <> None) /\
    live ev s (length (concat cs)) /\ (forall r, In r (concat cs) -> t_ser tb r <> None).
  Proof.
    intros K SO. induction cs as [|c cs IH]; intros s m s' NE OK SER R AG RUN.
    - cbn. split; [intros; contradiction|]. split; [|intros; contradiction]. intros i Hi; lia.
    - inversion NE as [|? ? NE1 NE2]; subst. cbn [run_chunks] in RUN. cbn [concat] in *.
      apply Forall_app in OK as [OK1 OK2].
      destruct (update_chunk tb ev db rw c s) as [s1 r1] eqn:E1. destruct r1 as [[]| | |]; try easy.
      destruct (update_chunk_inv db rw c s s1 K NE1 E1) as [I1 [I2 I3]].
      assert (SER1 : forall r, In r c -> t_ser tb r <> None).
      { destruct SER as [SER|ND]; [intros; apply SER; apply in_or_app; auto|].
        apply nodup_map_app in ND as [ND1 _]. auto. }
      assert (PRES : forall r, In r c -> m (pk r) <> None).
      { intros r Hr E. apply (rep_none _ _ _ R) in E. apply (I1 r Hr). unfold chunk_snapshot. destruct rw; [exact E|].
        destruct AG as [|[_ AG]]; [easy|]. rewrite AG by (apply in_or_app; auto). exact E. }
      destruct (update_chunk_fwd db rw c s m) as [s1' [sel1 [F1 [F2 [F3 [F4 [F5 [F6 F7]]]]]]]]; auto.
      { destruct AG as [|[ND AG]]; [left; auto|right]. intros; apply AG; apply in_or_app; auto. }
      rewrite F1 in E1. injection E1 as ->.
      destruct (IH s1 (puts sc m sel1) s') as [J1 [J2 J3]]; auto.
      { destruct SER as [SER|ND]; [left; intros; apply SER; apply in_or_app; auto|right].
        apply nodup_map_app in ND as [_ [ND2 _]]. auto. }
      { destruct AG as [|[ND AG]]; [left; auto|right]. apply nodup_map_app in ND as [ND1 [ND2 DIS]]. split; auto.
        intros r Hr. rewrite (puts_snapshot_keep m sel1 db s s1 r R F4).
        - apply AG. apply in_or_app; auto.
        - intros x Hx. apply DIS; auto. }
      split.
      + intros r Hr. apply in_app_or in Hr as [Hr|Hr]; auto.
        destruct (in_pk_dec tb sel1 (pk r)) as [[x [X1 X2]]|N].
        * rewrite <- X2. apply PRES. auto.
        * specialize (J1 r Hr). rewrite puts_notin in J1; auto.
      + split.
        * intros i Hi. rewrite app_length in Hi.
          destruct (Nat.lt_ge_cases i (w_tick s + length c)) as [L|L].
          -- apply I2. lia.
          -- apply J2. lia.
        * intros r Hr. apply in_app_or in Hr as [Hr|Hr]; auto.
  Qed.
End Update.
Arguments updatable {T F} tb snap r.
Arguments lasts {T F} tb rs.
Arguments wrote {T F} tb m l m'.
