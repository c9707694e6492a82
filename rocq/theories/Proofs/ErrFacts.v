(** Why a write call fails. *)

From Coq Require Import List NArith Lia Bool Sorting.Sorted Sorting.Permutation Arith.
From Verif.Model Require Import Bytes Go Keys Pebble Index Table.
From Verif.Spec Require Import KeySpec TableSpec HistSpec.
From Verif.Proofs Require Import BytesFacts KeysFacts PebbleFacts TableFacts WriteFacts UpdateFacts UpsertFacts CallFacts LocalFacts.
Import ListNotations.

Section Why.
  Context {T F : Type} {tb : table T F} {ev : env T} {LAW : lawful tb} {EV : env_ok ev}.
  Notation sc := (schema_of tb).
  Notation dk := (data_key tb).
  Notation pk := (s_pk (schema_of tb)).
  Notation hi := (data_key_space_end tb).

  Lemma after_split_dk r : after_split (dk r) = [x00; x00; x00; x00] ++ pk r.
  Proof.
    rewrite (data_key_eq _ LAW). unfold row_key, spec_key, after_split.
    change ([s_id sc; x00] ++ be_bytes 4 (N.of_nat (length [])) ++ [] ++ be_bytes 4 (N.of_nat (length [])) ++ [] ++ pk r)
      with (s_id sc :: x00 :: be_bytes 4 (blen []) ++ ([x00; x00; x00; x00] ++ pk r)).
    rewrite split_index_layout by reflexivity. reflexivity.
  Qed.

  Lemma repeated_cons r rs p : repeated sc rs p -> repeated sc (r :: rs) p.
  Proof. unfold repeated. cbn [filter]. destruct (beqb (pk r) p); cbn [length]; lia. Qed.

  Lemma repeated_hd r r' rs : In r' rs -> pk r = pk r' -> repeated sc (r :: rs) (pk r').
  Proof.
    intros H E. unfold repeated. cbn [filter]. rewrite (proj2 (beqb_eq _ _) E). cbn [length].
    assert (In r' (filter (fun x => beqb (pk x) (pk r')) rs)) by (apply filter_In; split; auto; apply beqb_refl).
    destruct (filter _ rs); [easy|cbn; lia].
  Qed.

  Lemma filter_perm_len {A} (f : A -> bool) l l' : Permutation l l' -> length (filter f l) = length (filter f l').
  Proof. intro P. induction P; cbn; auto; repeat destruct (f _); cbn; auto; congruence. Qed.

  Lemma repeated_perm l l' p : Permutation l l' -> repeated sc l p -> repeated sc l' p.
  Proof. intros P. unfold repeated. rewrite (filter_perm_len _ _ _ P). auto. Qed.

  Lemma repeated_app_l a b p : repeated sc a p -> repeated sc (a ++ b) p.
  Proof. unfold repeated. rewrite filter_app, app_length. lia. Qed.
  Lemma repeated_app_r a b p : repeated sc b p -> repeated sc (a ++ b) p.
  Proof. unfold repeated. rewrite filter_app, app_length. lia. Qed.

  Lemma repeated_nodup l p : NoDup (map pk l) -> ~ repeated sc l p.
  Proof.
    intros ND R. unfold repeated in R. induction l as [|r l IH]; cbn [filter map length] in *; [lia|].
    apply NoDup_cons_iff in ND as [N ND]. destruct (beqb (pk r) p) eqn:B; auto. cbn [length] in R.
    apply beqb_eq in B. destruct (filter _ l) as [|y ys] eqn:E; cbn in R; [lia|].
    assert (In y (filter (fun r => beqb (pk r) p) l)) as Y by (rewrite E; left; auto).
    apply filter_In in Y as [Y1 Y2]. apply beqb_eq in Y2. apply N. rewrite B, <- Y2. apply in_map; auto.
  Qed.

  Lemma not_nodup_repeated l : (exists p, repeated sc l p) -> ~ NoDup (map pk l).
  Proof. intros [p R] ND. apply (repeated_nodup l p ND R). Qed.

  Lemma insert_rows_why snap lo trs : kv_ok snap ->
    forall rs os prev s s' e,
    Forall2 (fun o r => nth_error trs o = Some r) os rs ->
    Forall (fun r => ble lo (dk r)) rs ->
    insert_rows tb ev (new_iter snap lo hi) trs prev (combine (map dk rs) os) s = (s', Err e) ->
    (e = ECtx /\ exists i, w_tick s <= i < w_tick s + length rs /\ e_ctx ev i = true) \/
    (e = ESerialize /\ exists r, In r rs /\ t_ser tb r = None) \/
    (exists r, In r rs /\ e = EExists (after_split (dk r)) /\
       (kv_get snap (dk r) <> None \/ repeated sc rs (pk r) \/ prev = Some (dk r))).
  Proof.
    intros KS. induction rs as [|r rs IH]; intros os prev s s' e F2 LO RUN.
    - inversion F2; subst. easy.
    - inversion F2 as [|o r' os' rs' Ho F2']; subst. cbn [map combine insert_rows] in RUN.
      inversion LO as [|? ? LO1 LO2]; subst.
      destruct (e_ctx ev (w_tick s)) eqn:EC.
      { left. split; [congruence|]. exists (w_tick s). cbn. split; [lia|auto]. }
      rewrite exist_key_eq in RUN by auto.
      destruct (match prev with Some p => beqb (dk r) p | None => false end) eqn:EP.
      { right; right. exists r. split; [left; auto|]. split; [cbn [orb] in RUN; congruence|].
        right; right. destruct prev as [p|]; [|easy]. apply beqb_eq in EP. congruence. }
      cbn [orb] in RUN.
      destruct (kv_get snap (dk r)) as [v0|] eqn:G.
      { destruct (flt_may tb (w_flt (tick s)) (dk r)) eqn:M; cbn [andb] in RUN.
        - right; right. exists r. split; [left; auto|]. split; [congruence|]. left. congruence.
        - rewrite Ho in RUN. destruct (t_ser tb r) as [v|] eqn:ES.
          2: { right; left. split; [congruence|]. exists r. split; [left|]; auto. }
          apply IH in RUN; auto.
          destruct RUN as [[E [i [I1 I2]]]|[[E [x [X1 X2]]]|[x [X1 [X2 X3]]]]].
          + left. split; auto. exists i. rewrite flt_add_tick in I1. cbn in I1 |- *. split; [lia|auto].
          + right; left. split; auto. exists x. split; [right|]; auto.
          + right; right. exists x. split; [right; auto|]. split; auto.
            destruct X3 as [X3|[X3|X3]]; [left; auto|right; left; apply repeated_cons; auto|right; left].
            apply repeated_hd; auto. injection X3 as X3. apply dk_inj; auto. }
      rewrite andb_false_r, Ho in RUN. destruct (t_ser tb r) as [v|] eqn:ES.
      2: { right; left. split; [congruence|]. exists r. split; [left|]; auto. }
      apply IH in RUN; auto.
      destruct RUN as [[E [i [I1 I2]]]|[[E [x [X1 X2]]]|[x [X1 [X2 X3]]]]].
      + left. split; auto. exists i. rewrite flt_add_tick in I1. cbn in I1 |- *. split; [lia|auto].
      + right; left. split; auto. exists x. split; [right|]; auto.
      + right; right. exists x. split; [right; auto|]. split; auto.
        destruct X3 as [X3|[X3|X3]]; [left; auto|right; left; apply repeated_cons; auto|right; left].
        apply repeated_hd; auto. injection X3 as X3. apply dk_inj; auto.
  Qed.

  Lemma insert_chunk_tick db rw c s s' : insert_chunk tb ev db rw c s = (s', Ok tt) -> w_tick s' = w_tick s + length c.
  Proof.
    destruct c as [|d c'].
    { unfold insert_chunk. destruct (sort_keys_rows (tb:=tb) (ev:=ev) []) as [keys [order [rs [E1 [E2 [P [S F2]]]]]]]. rewrite E1.
      apply Permutation_sym, Permutation_nil in P. subst. easy. }
    set (c := d :: c'). intro RUN.
    destruct (insert_chunk_unfold (tb:=tb) (ev:=ev) db rw c s ltac:(easy)) as [order [rs [P [S [F2 E]]]]]. rewrite E in RUN.
    rewrite <- (Permutation_length P). clear E S. revert RUN. 
    generalize (new_iter (chunk_snapshot db rw (w_ops s)) (hd [] (map dk rs)) hi) as it.
    intro it. generalize (@None bytes) as prev. generalize dependent order. clear P. generalize dependent s.
    induction rs as [|r rs IH]; intros s order F2 prev RUN.
    - inversion F2; subst. cbn in *. injection RUN as <-. lia.
    - inversion F2 as [|o r' os' rs' Ho F2']; subst. cbn [map combine insert_rows] in RUN.
      destruct (e_ctx ev (w_tick s)); [easy|]. destruct (_ || _); [easy|]. rewrite Ho in RUN.
      destruct (t_ser tb r); [|easy]. apply IH in RUN; auto. rewrite RUN, flt_add_tick. cbn. lia.
  Qed.

  (** Without an external batch every chunk reads the database. *)
  Lemma insert_run_any db : kv_ok db -> filter_ok tb -> forall cs s s' res,
    Forall (fun c => c <> []) cs -> covers tb (w_flt s) db ->
    run_chunks (insert_chunk tb ev db false) cs s = (s', res) ->
    (res = Ok tt /\ Forall (fun c => NoDup (map pk c)) cs /\ (forall r, In r (concat cs) -> insertable tb db r) /\
      live ev s (length (concat cs))) \/
    exists e, res = Err e /\
     ((e = ECtx /\ exists i, w_tick s <= i < w_tick s + length (concat cs) /\ e_ctx ev i = true) \/
      (e = ESerialize /\ exists r, In r (concat cs) /\ t_ser tb r = None) \/
      (exists r, In r (concat cs) /\ e = EExists ([x00; x00; x00; x00] ++ pk r) /\
        (kv_get db (dk r) <> None \/ repeated sc (concat cs) (pk r)))).
  Proof.
    intros K FO. induction cs as [|c cs IH]; intros s s' res NE CV RUN.
    - cbn in RUN. injection RUN as <- <-. left. repeat split; auto; cbn; try easy. intros i Hi; cbn in Hi; lia.
    - inversion NE as [|? ? NE1 NE2]; subst. cbn [run_chunks] in RUN. cbn [concat].
      destruct (insert_chunk tb ev db false c s) as [s1 r1] eqn:E1.
      assert (CV1 : covers tb (w_flt s1) db).
      { eapply covers_le; [|exact CV]. pose proof E1 as E1'.
        destruct (insert_chunk_unfold (tb:=tb) (ev:=ev) db false c s NE1) as [order [rs [P [S [F2 E]]]]]. rewrite E in E1'.
        match type of E1' with ?X = _ => replace s1 with (fst X) by (rewrite E1'; auto) end.
        apply insert_rows_mono; auto. }
      pose proof (insert_chunk_err (tb:=tb) (ev:=ev) db false c s NE1) as ERR. rewrite E1 in ERR. cbn in ERR.
      destruct ERR as [[[] ->]|[e ->]].
      + destruct (insert_chunk_inv (tb:=tb) (ev:=ev) db false c s s1 K FO NE1 CV E1) as [I1 [I2 I3]].
        pose proof (insert_chunk_tick _ _ _ _ _ E1) as TK.
        destruct (IH s1 s' res NE2 CV1 RUN) as [[-> [J1 [J2 J3]]]|[e [-> J]]].
        * left. split; auto. split; [constructor; auto|]. split.
          -- intros r Hr. apply in_app_or in Hr as [Hr|Hr]; [apply I2; auto|auto].
          -- intros i Hi. rewrite app_length in Hi. destruct (Nat.lt_ge_cases i (w_tick s + length c)); [apply I3; lia|apply J3; lia].
        * right. exists e. split; auto. destruct J as [[E [i [J1 J2]]]|[[E [x [X1 X2]]]|[x [X1 [X2 X3]]]]].
          -- left. split; auto. exists i. rewrite app_length. split; [lia|auto].
          -- right; left. split; auto. exists x. split; auto. apply in_or_app; auto.
          -- right; right. exists x. split; [apply in_or_app; auto|]. split; auto. destruct X3; [left; auto|right].
             apply repeated_app_r; auto.
      + injection RUN as <- <-. right. exists e. split; auto.
        destruct (insert_chunk_unfold (tb:=tb) (ev:=ev) db false c s NE1) as [order [rs [P [S [F2 E]]]]]. rewrite E in E1.
        assert (INr : forall r, In r rs -> In r c) by (intros; eapply Permutation_in; eauto).
        apply insert_rows_why in E1; [|auto|auto|apply (hd_le rs S)].
        destruct E1 as [[E0 [i [J1 J2]]]|[[E0 [x [X1 X2]]]|[x [X1 [X2 X3]]]]].
        * left. split; auto. exists i. rewrite app_length. rewrite (Permutation_length P) in J1. split; [lia|auto].
        * right; left. split; auto. exists x. split; auto. apply in_or_app; auto.
        * right; right. exists x. split; [apply in_or_app; auto|]. split; [rewrite X2, after_split_dk; auto|].
          destruct X3 as [X3|[X3|X3]]; [left; auto|right|easy].
          apply repeated_app_l. eapply repeated_perm; eauto.
  Qed.

  (** ** Update *)

  Lemma update_rows_why snap lo trs : kv_ok snap ->
    forall rs os s s' e,
    Forall2 (fun o r => nth_error trs o = Some r) os rs ->
    Forall (fun r => ble lo (dk r)) rs ->
    (forall r v prior, In r rs -> kv_get snap (dk r) = Some v -> t_deser tb v prior <> None) ->
    update_rows tb ev (new_iter snap lo hi) trs (combine (map dk rs) os) s = (s', Err e) ->
    (e = ECtx /\ exists i, w_tick s <= i < w_tick s + length rs /\ e_ctx ev i = true) \/
    (e = ESerialize /\ exists r, In r rs /\ t_ser tb r = None) \/
    (exists r, In r rs /\ e = EMissing (after_split (dk r)) /\ kv_get snap (dk r) = None).
  Proof.
    intros KS. induction rs as [|r rs IH]; intros os s s' e F2 LO DS RUN.
    - inversion F2; subst. easy.
    - inversion F2 as [|o r' os' rs' Ho F2']; subst. cbn [map combine update_rows] in RUN.
      inversion LO as [|? ? LO1 LO2]; subst.
      assert (DS' : forall x v prior, In x rs -> kv_get snap (dk x) = Some v -> t_deser tb v prior <> None).
      { intros; eapply DS; eauto. right; auto. }
      assert (LIFT : forall s1, w_tick s1 = S (w_tick s) ->
        update_rows tb ev (new_iter snap lo hi) trs (combine (map dk rs) os') s1 = (s', Err e) ->
        (e = ECtx /\ exists i, w_tick s <= i < w_tick s + length (r :: rs) /\ e_ctx ev i = true) \/
        (e = ESerialize /\ exists x, In x (r :: rs) /\ t_ser tb x = None) \/
        (exists x, In x (r :: rs) /\ e = EMissing (after_split (dk x)) /\ kv_get snap (dk x) = None)).
      { intros s1 T1 R1. apply IH in R1; auto.
        destruct R1 as [[E [i [I1 I2]]]|[[E [x [X1 X2]]]|[x [X1 [X2 X3]]]]].
        - left. split; auto. exists i. cbn [length]. split; [lia|auto].
        - right; left. split; auto. exists x. split; [right|]; auto.
        - right; right. exists x. split; [right; auto|]. auto. }
      destruct (e_ctx ev (w_tick s)) eqn:EC.
      { left. split; [congruence|]. exists (w_tick s). cbn. split; [lia|auto]. }
      destruct (match combine _ _ with [] => false | _ => _ end); [apply (LIFT (tick s)); auto|].
      cbn zeta in RUN. pose proof (probe snap lo r KS LO1) as P. cbn zeta in P.
      destruct (kv_get snap (dk r)) as [v|] eqn:G.
      + destruct P as [P1 [P2 P3]]. rewrite P1, P2, P3, beqb_refl in RUN. cbn [negb orb] in RUN.
        destruct (t_deser tb v (w_old (tick s))) as [old|] eqn:ED; [|exfalso; eapply DS; eauto; left; auto].
        rewrite Ho in RUN. destruct (t_ser tb r) as [d|] eqn:ES.
        * eapply LIFT; [|exact RUN]. reflexivity.
        * right; left. split; [congruence|]. exists r. split; [left|]; auto.
      + rewrite <- negb_andb, P in RUN. cbn [negb] in RUN. right; right. exists r. split; [left; auto|]. split; [congruence|auto].
  Qed.

  Lemma update_chunk_tick db rw c s s' : update_chunk tb ev db rw c s = (s', Ok tt) -> w_tick s' = w_tick s + length c.
  Proof.
    destruct c as [|d c'].
    { unfold update_chunk. destruct (sort_keys_rows (tb:=tb) (ev:=ev) []) as [keys [order [rs [E1 [E2 [P [S F2]]]]]]]. rewrite E1.
      apply Permutation_sym, Permutation_nil in P. subst. easy. }
    set (c := d :: c'). intro RUN.
    destruct (update_chunk_unfold (tb:=tb) (ev:=ev) db rw c s ltac:(easy)) as [order [rs [P [S [F2 E]]]]]. rewrite E in RUN.
    rewrite <- (Permutation_length P). clear E S. revert RUN. 
    generalize (new_iter (chunk_snapshot db rw (w_ops s)) (hd [] (map dk rs)) hi) as it.
    intro it. generalize dependent order. clear P. generalize dependent s.
    induction rs as [|r rs IH]; intros s order F2 RUN.
    - inversion F2; subst. cbn in *. injection RUN as <-. lia.
    - inversion F2 as [|o r' os' rs' Ho F2']; subst. cbn [map combine update_rows] in RUN.
      destruct (e_ctx ev (w_tick s)); [easy|].
      destruct (match combine _ _ with [] => false | _ => _ end).
      { apply IH in RUN; auto. rewrite RUN. cbn. lia. }
      cbn zeta in RUN. destruct (_ || _); [easy|]. destruct (t_deser tb _ _); [|easy]. rewrite Ho in RUN.
      destruct (t_ser tb r); [|easy]. apply IH in RUN; auto. rewrite RUN. cbn. lia.
  Qed.

  Lemma update_run_any db : kv_ok db ->
    (forall r v prior, kv_get db (dk r) = Some v -> t_deser tb v prior <> None) ->
    forall cs s s' res, Forall (fun c => c <> []) cs ->
    run_chunks (update_chunk tb ev db false) cs s = (s', res) ->
    (res = Ok tt /\ (forall r, In r (concat cs) -> kv_get db (dk r) <> None) /\ live ev s (length (concat cs))) \/
    exists e, res = Err e /\
     ((e = ECtx /\ exists i, w_tick s <= i < w_tick s + length (concat cs) /\ e_ctx ev i = true) \/
      (e = ESerialize /\ exists r, In r (concat cs) /\ t_ser tb r = None) \/
      (exists r, In r (concat cs) /\ e = EMissing ([x00; x00; x00; x00] ++ pk r) /\ kv_get db (dk r) = None)).
  Proof.
    intros K DS. induction cs as [|c cs IH]; intros s s' res NE RUN.
    - cbn in RUN. injection RUN as <- <-. left. repeat split; auto; cbn; try easy. intros i Hi; cbn in Hi; lia.
    - inversion NE as [|? ? NE1 NE2]; subst. cbn [run_chunks] in RUN. cbn [concat].
      destruct (update_chunk tb ev db false c s) as [s1 r1] eqn:E1.
      pose proof (update_chunk_err (tb:=tb) (ev:=ev) db false c s NE1) as ERR. rewrite E1 in ERR. cbn in ERR.
      destruct ERR as [[[] ->]|[e ->]].
      + destruct (update_chunk_inv (tb:=tb) (ev:=ev) db false c s s1 K NE1 E1) as [I1 [I2 _]].
        pose proof (update_chunk_tick _ _ _ _ _ E1) as TK.
        destruct (IH s1 s' res NE2 RUN) as [[-> [J2 J3]]|[e [-> J]]].
        * left. split; auto. split.
          -- intros r Hr. apply in_app_or in Hr as [Hr|Hr]; auto. apply I1; auto.
          -- intros i Hi. rewrite app_length in Hi. destruct (Nat.lt_ge_cases i (w_tick s + length c)); [apply I2; lia|apply J3; lia].
        * right. exists e. split; auto. destruct J as [[E [i [J1 J2]]]|[[E [x [X1 X2]]]|[x [X1 [X2 X3]]]]].
          -- left. split; auto. exists i. rewrite app_length. split; [lia|auto].
          -- right; left. split; auto. exists x. split; auto. apply in_or_app; auto.
          -- right; right. exists x. split; [apply in_or_app; auto|]. auto.
      + injection RUN as <- <-. right. exists e. split; auto.
        destruct (update_chunk_unfold (tb:=tb) (ev:=ev) db false c s NE1) as [order [rs [P [S [F2 E]]]]]. rewrite E in E1.
        assert (INr : forall r, In r rs -> In r c) by (intros; eapply Permutation_in; eauto).
        apply update_rows_why in E1; auto; [|apply (hd_le rs S)|intros; eapply DS; eauto].
        destruct E1 as [[E0 [i [J1 J2]]]|[[E0 [x [X1 X2]]]|[x [X1 [X2 X3]]]]].
        * left. split; auto. exists i. rewrite app_length. rewrite (Permutation_length P) in J1. split; [lia|auto].
        * right; left. split; auto. exists x. split; auto. apply in_or_app; auto.
        * right; right. exists x. split; [apply in_or_app; auto|]. split; [rewrite X2, after_split_dk; auto|]. auto.
  Qed.
End Why.
