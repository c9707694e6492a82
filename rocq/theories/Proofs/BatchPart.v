(** Where calls stop, why, and what they have done by then. *)

From Coq Require Import List NArith Lia Bool Sorting.Sorted Sorting.Permutation Arith.
From Verif.Model Require Import Bytes Go Keys Pebble Index Table.
From Verif.Spec Require Import KeySpec StoreSpec TableSpec HistSpec PartSpec.
From Verif.Proofs Require Import BytesFacts KeysFacts PebbleFacts TableFacts WriteFacts UpdateFacts UpsertFacts CallFacts ErrFacts HistFacts.
Import ListNotations.

Section Part.
  Context {T F : Type} {tb : table T F} {ev : env T} {LAW : lawful tb} {EV : env_ok ev}.
  Notation sc := (schema_of tb).
  Notation dk := (data_key tb).
  Notation pk := (s_pk (schema_of tb)).

  (** From [s] to [s'] the rows [ws] have been written, with all that belongs to them. *)
  Definition did (db : kv) (s s' : wst T F) (m : tmap T) (ws : list T) : Prop :=
    Rep sc (V db s') (puts sc m ws) /\ same_outside sc (V db s) (V db s') /\ flt_le tb (w_flt s) (w_flt s') /\
    (forall r, In r ws -> flt_may tb (w_flt s') (dk r) = true) /\ length (w_ops s) + length ws <= length (w_ops s').

  Lemma did_nil db s s' m : w_ops s' = w_ops s -> w_flt s' = w_flt s -> Rep sc (V db s) m -> did db s s' m [].
  Proof.
    intros E1 E2 R. unfold did, V. rewrite E1, E2. split; [exact R|]. split; [apply same_outside_refl|]. split; [apply flt_le_refl|].
    split; [intros r []|cbn; lia].
  Qed.

  Lemma did_app db s s1 s' m a b : did db s s1 m a -> did db s1 s' (puts sc m a) b -> did db s s' m (a ++ b).
  Proof.
    intros (A1 & A2 & A3 & A4 & A5) (B1 & B2 & B3 & B4 & B5). split; [rewrite puts_app; exact B1|]. split; [eapply same_outside_trans; eauto|].
    split; [eapply flt_le_trans; eauto|]. split; [|rewrite app_length; lia]. intros r I. apply in_app_or in I as [I|I]; auto.
  Qed.

  (** A row the call can write. *)
  Definition fine (m : tmap T) (c : call T) (r : T) : Prop :=
    match c with
    | CInsert _ => m (pk r) = None /\ s_val sc r <> None
    | CUpdate _ => m (pk r) <> None /\ s_val sc r <> None
    | CUpsert _ _ => s_val sc (stored_row sc m c r) <> None
    | CDelete _ => True
    end.

  Lemma fine_succeeds m c l : succeeds sc m (with_rows c l) <-> Forall (fine m c) l.
  Proof. clear ev EV LAW. rewrite Forall_forall. destruct c as [l0|l0|f l0|l0]; cbn; firstorder. Qed.

  Lemma row_ext c m m' r : m (pk r) = m' (pk r) ->
    stored_row sc m c r = stored_row sc m' c r /\ (fine m c r -> fine m' c r) /\ (forall e, fault sc m c r e -> fault sc m' c r e).
  Proof. intro E. destruct c as [l0|l0|f l0|l0]; unfold fine, fault, stored_row; rewrite ?E; auto. Qed.

  (** Handling the rows [rs]: [pre] were done, and why the rest was not. *)
  Definition ended (c : call T) (db : kv) (s : wst T F) (m : tmap T) (rs : list T) (s' : wst T F) (res : res unit) : Prop :=
    exists pre post, rs = pre ++ post /\ did db s s' m (map (stored_row sc m c) pre) /\ Forall (fine m c) pre /\
      (forall i, w_tick s <= i < w_tick s + length pre -> e_ctx ev i = false) /\
      (res = Ok tt /\ post = [] /\ w_tick s' = w_tick s + length pre \/
       exists x post' e, post = x :: post' /\ res = Err e /\
         (e_ctx ev (w_tick s + length pre) = true /\ e = ECtx \/ e_ctx ev (w_tick s + length pre) = false /\ fault sc m c x e)).

  Lemma ended_nil c db s m : Rep sc (V db s) m -> ended c db s m [] s (Ok tt).
  Proof.
    intro R. exists [], []. split; [reflexivity|]. split; [apply did_nil; auto|]. split; [constructor|]. split; [cbn; intros; lia|].
    left. split; [reflexivity|]. split; [reflexivity|]. cbn. lia.
  Qed.

  Lemma ended_stop c db s m r rs s' e : Rep sc (V db s) m -> w_ops s' = w_ops s -> w_flt s' = w_flt s ->
    e_ctx ev (w_tick s) = true /\ e = ECtx \/ e_ctx ev (w_tick s) = false /\ fault sc m c r e ->
    ended c db s m (r :: rs) s' (Err e).
  Proof.
    intros R E1 E2 W. exists [], (r :: rs). split; [reflexivity|]. split; [apply did_nil; auto|]. split; [constructor|].
    split; [cbn; intros; lia|]. right. exists r, rs, e. cbn [length]. rewrite Nat.add_0_r. auto.
  Qed.

  Lemma ended_more c db s m a b s' e : ended c db s m a s' (Err e) -> ended c db s m (a ++ b) s' (Err e).
  Proof.
    intros (pre & post & -> & D & FI & CX & [(X & _)|(x & post' & e' & -> & W)]); [discriminate|].
    exists pre, ((x :: post') ++ b). rewrite app_assoc. split; [reflexivity|]. split; [exact D|]. split; [exact FI|]. split; [exact CX|].
    right. exists x, (post' ++ b), e'. split; [reflexivity|exact W].
  Qed.

  Lemma ended_app c db s m a b s1 s' res :
    (forall x, In x a -> pk (stored_row sc m c x) = pk x) -> (forall x y, In x a -> In y b -> pk x <> pk y) ->
    ended c db s m a s1 (Ok tt) -> ended c db s1 (puts sc m (map (stored_row sc m c) a)) b s' res ->
    ended c db s m (a ++ b) s' res.
  Proof.
    intros PK DIS (pre & post & -> & D & FI & CX & W) (pre2 & post2 & -> & D2 & FI2 & CX2 & W2).
    destruct W as [(_ & -> & TK)|(x & post' & e & _ & X & _)]; [|discriminate]. rewrite app_nil_r in *.
    assert (SAME : forall y, In y (pre2 ++ post2) -> m (pk y) = puts sc m (map (stored_row sc m c) pre) (pk y)).
    { intros y Y. rewrite puts_notin; [reflexivity|]. intros z Z. apply in_map_iff in Z as [x [<- X]]. rewrite PK by auto. auto. }
    exists (pre ++ pre2), post2. split; [apply app_assoc|]. split; [|split; [|split]].
    - rewrite map_app. apply (did_app db s s1 s' m _ _ D).
      rewrite (map_ext_in (stored_row sc m c) (stored_row sc (puts sc m (map (stored_row sc m c) pre)) c) pre2); [exact D2|].
      intros y Y. apply row_ext. apply SAME, in_or_app; auto.
    - apply Forall_app. split; [exact FI|]. rewrite Forall_forall in *. intros y Y. specialize (FI2 y Y). revert FI2.
      apply row_ext. symmetry. apply SAME, in_or_app; auto.
    - rewrite app_length. intros i Hi. destruct (Nat.lt_ge_cases i (w_tick s1)); [apply CX|apply CX2]; lia.
    - rewrite app_length, Nat.add_assoc, <- TK. destruct W2 as [W2|(y & post' & e & -> & E & W2)]; [left; exact W2|right].
      exists y, post', e. split; [reflexivity|]. split; [exact E|]. destruct W2 as [W2|[W2 W3]]; [left; exact W2|right; split; [exact W2|]].
      revert W3. apply row_ext. symmetry. apply SAME, in_or_app. right. left. reflexivity.
  Qed.

  Lemma ended_cons c db s m r rs s1 s' res :
    pk (stored_row sc m c r) = pk r -> (forall y, In y rs -> pk y <> pk r) ->
    did db s s1 m [stored_row sc m c r] -> fine m c r -> e_ctx ev (w_tick s) = false -> w_tick s1 = S (w_tick s) ->
    ended c db s1 (puts sc m [stored_row sc m c r]) rs s' res -> ended c db s m (r :: rs) s' res.
  Proof.
    intros PK DIS D FI CX TK E. apply (ended_app c db s m [r] rs s1 s' res); [intros x [<-|[]]; exact PK| |  |exact E].
    - intros x y [<-|[]] Y X. apply (DIS y Y). auto.
    - exists [r], []. split; [reflexivity|]. split; [exact D|]. split; [auto|]. split.
      + cbn. intros i Hi. replace i with (w_tick s) by lia. exact CX.
      + left. split; [reflexivity|]. split; [reflexivity|]. cbn. lia.
  Qed.

  (** ** Insert *)

  Lemma insert_part l0 snap lo trs db : kv_ok snap -> kv_ok db -> filter_ok tb ->
    forall rs os prev s m s' res,
    Forall2 (fun o r => nth_error trs o = Some r) os rs -> Forall (fun r => ble lo (dk r)) rs -> NoDup (map pk rs) ->
    (forall r, In r rs -> prev <> Some (dk r)) ->
    Forall (row_ok sc) rs -> covers tb (w_flt s) snap -> Rep sc (V db s) m ->
    (forall r, In r rs -> kv_get snap (dk r) = kv_get (V db s) (dk r)) ->
    insert_rows tb ev (new_iter snap lo (data_key_space_end tb)) trs prev (combine (map dk rs) os) s = (s', res) ->
    ended (CInsert l0) db s m rs s' res.
  Proof.
    intros KS KD FO. induction rs as [|r rs IH]; intros os prev s m s' res F2 LO ND PV OK CV R AG RUN.
    - cbn in RUN. injection RUN as <- <-. apply ended_nil, R.
    - inversion F2 as [|o r' os' rs' Ho F2']; subst. cbn [map combine insert_rows] in RUN.
      inversion LO as [|? ? LO1 LO2]; subst. inversion OK as [|? ? OK1 OK2]; subst. cbn [map] in ND. apply NoDup_cons_iff in ND as [ND1 ND2].
      destruct (e_ctx ev (w_tick s)) eqn:CX.
      { injection RUN as <- <-. apply ended_stop; auto. }
      replace (match prev with Some p => beqb (dk r) p | None => false end) with false in RUN.
      2: { symmetry. destruct prev as [p|]; [|reflexivity]. apply beqb_neq. intro E. apply (PV r); [left; reflexivity|]. congruence. }
      cbn [orb] in RUN.
      rewrite exist_key_eq in RUN by auto. change (w_flt (tick s)) with (w_flt s) in RUN.
      destruct (kv_get snap (dk r)) as [v|] eqn:G.
      { rewrite (covers_may _ _ _ _ CV G) in RUN. injection RUN as <- <-. apply ended_stop; auto. right. split; [exact CX|]. left.
        split; [rewrite after_split_dk; reflexivity|]. intro X. apply (rep_none _ _ _ R) in X. rewrite <- AG in X by (left; auto). congruence. }
      assert (AB : m (pk r) = None). { apply (rep_none _ _ _ R). rewrite <- AG by (left; auto). exact G. }
      rewrite andb_false_r, Ho in RUN. destruct (t_ser tb r) as [v|] eqn:ES.
      2: { injection RUN as <- <-. apply ended_stop; auto. right. split; [exact CX|]. right. auto. }
      set (s1 := flt_add tb (dk r) _) in RUN.
      assert (V1 : V db s1 = apply_ops (V db s) (insert_ops tb (e_map ev (w_tick s) (t_indexes tb)) r v)).
      { unfold s1. rewrite V_flt, V_add, V_tick. reflexivity. }
      assert (VK : kv_ok (V db s)) by (apply V_ok; auto).
      assert (D1 : did db s s1 m [r]).
      { split; [rewrite V1; apply insert_ops_rep; auto; apply (env_map_perm _ EV)|].
        split; [rewrite V1; apply insert_ops_outside; auto; apply (env_map_perm _ EV)|].
        split; [unfold s1; apply (flt_add_le (add_ops (tick s) _)); auto|]. split.
        - intros x [<-|[]]. unfold s1. apply flt_add_has; auto.
        - unfold s1, flt_add. destruct (t_filter tb); cbn; rewrite app_length; cbn; lia. }
      pose proof D1 as (R1 & _ & L1 & _).
      assert (T1 : w_tick s1 = S (w_tick s)) by (unfold s1, flt_add; destruct (t_filter tb); reflexivity).
      assert (GT : forall x, In x rs -> pk x <> pk r). { intros x Hx E. apply ND1. rewrite <- E. apply in_map, Hx. }
      apply (ended_cons _ db s m r rs s1); auto.
      { split; [exact AB|]. cbn. rewrite ES. discriminate. }
      apply (IH os' (Some (dk r)) s1 (puts sc m [r]) s' res); auto.
      + intros x Hx E. injection E as E. apply (GT x Hx). apply dk_inj. auto.
      + eapply covers_le; eauto.
      + intros x Hx. rewrite AG by (right; auto). symmetry. apply (puts_snapshot_keep m [r] db s s1 x); auto.
        intros y [<-|[]] E. apply (GT x Hx). auto.
  Qed.

  (** ** Update *)

  Lemma update_part l0 snap lo trs db : kv_ok snap -> kv_ok db -> ser_over tb ->
    forall rs os s m s' res,
    Forall2 (fun o r => nth_error trs o = Some r) os rs -> Forall (fun r => ble lo (dk r)) rs -> NoDup (map pk rs) ->
    Forall (row_ok sc) rs -> covers tb (w_flt s) snap -> Rep sc (V db s) m ->
    (forall r, In r rs -> kv_get snap (dk r) = kv_get (V db s) (dk r)) ->
    update_rows tb ev (new_iter snap lo (data_key_space_end tb)) trs (combine (map dk rs) os) s = (s', res) ->
    ended (CUpdate l0) db s m rs s' res.
  Proof.
    intros KS KD SO. induction rs as [|r rs IH]; intros os s m s' res F2 LO ND OK CV R AG RUN.
    - cbn in RUN. injection RUN as <- <-. apply ended_nil, R.
    - inversion F2 as [|o r' os' rs' Ho F2']; subst. cbn [map combine update_rows] in RUN.
      inversion LO as [|? ? LO1 LO2]; subst. inversion OK as [|? ? OK1 OK2]; subst. cbn [map] in ND. apply NoDup_cons_iff in ND as [ND1 ND2].
      destruct (e_ctx ev (w_tick s)) eqn:CX.
      { injection RUN as <- <-. apply ended_stop; auto. }
      assert (LA : match combine (map dk rs) os' with (k2, _) :: _ => beqb k2 (dk r) | [] => false end = false).
      { destruct rs as [|x rs]; [reflexivity|]. destruct os' as [|o2 os']; [reflexivity|]. cbn [map combine]. apply beqb_neq. intro E.
        apply dk_inj in E. apply ND1. left. exact E. }
      rewrite LA in RUN. pose proof (probe snap lo r KS LO1) as P. cbn zeta in P.
      set (it' := it_seek_ge _ _) in *. destruct (kv_get snap (dk r)) as [vo|] eqn:G.
      2: { assert (RUN' : (tick s, Err (EMissing (after_split (dk r)))) = (s', res)).
           { destruct (it_valid it') eqn:EV1; cbn [negb orb andb] in *; [|exact RUN].
             destruct (beqb (it_key it') (dk r)) eqn:EK; [discriminate P|exact RUN]. }
           injection RUN' as <- <-. apply ended_stop; auto. right. split; [exact CX|]. left.
           split; [rewrite after_split_dk; reflexivity|]. apply (rep_none _ _ _ R). rewrite <- AG by (left; auto). exact G. }
      destruct P as (P1 & P2 & P3). rewrite P1, P2 in RUN.
      replace (beqb (dk r) (dk r)) with true in RUN by (symmetry; apply beqb_refl). cbn [negb orb] in RUN.
      assert (GV : kv_get (V db s) (dk r) = Some vo) by (rewrite <- AG by (left; auto); exact G).
      destruct (m (pk r)) as [old|] eqn:EM.
      2: { apply (rep_none _ _ _ R) in EM. rewrite EM in GV. discriminate. }
      destruct (rep_some _ _ _ _ R EM) as (v0 & ES0 & EG). rewrite GV in EG. injection EG as <-.
      rewrite P3, (SO _ _ (w_old (tick s)) ES0), Ho in RUN.
      destruct (t_ser tb r) as [v|] eqn:ES.
      2: { injection RUN as <- <-. apply ended_stop; auto. right. split; [exact CX|]. right. split; [reflexivity|]. split; [congruence|exact ES]. }
      set (s1 := add_ops _ _) in RUN.
      assert (V1 : V db s1 = apply_ops (V db s) (update_ops tb (e_map ev (w_tick s) (t_indexes tb)) old r v)).
      { unfold s1. rewrite V_add, V_old, V_tick. reflexivity. }
      assert (VK : kv_ok (V db s)) by (apply V_ok; auto).
      assert (D1 : did db s s1 m [r]).
      { split; [rewrite V1; apply (update_ops_rep tb LAW (e_map ev (w_tick s) (t_indexes tb))); auto; apply (env_map_perm _ EV)|].
        split; [rewrite V1; apply (update_ops_outside tb LAW (e_map ev (w_tick s) (t_indexes tb))); auto; apply (env_map_perm _ EV)|].
        split; [apply flt_le_refl|]. split; [intros x [<-|[]]; exact (covers_may _ _ _ _ CV G)|].
        unfold s1. cbn. rewrite app_length. cbn. lia. }
      pose proof D1 as (R1 & _ & L1 & _).
      assert (GT : forall x, In x rs -> pk x <> pk r). { intros x Hx E. apply ND1. rewrite <- E. apply in_map, Hx. }
      apply (ended_cons _ db s m r rs s1); auto.
      { split; [congruence|]. cbn. rewrite ES. discriminate. }
      apply (IH os' s1 (puts sc m [r]) s' res); auto.
      intros x Hx. rewrite AG by (right; auto). symmetry. apply (puts_snapshot_keep m [r] db s s1 x); auto.
      intros y [<-|[]] E. apply (GT x Hx). auto.
  Qed.

  (** ** Upsert *)

  Lemma upsert_part l0 f snap lo trs db : kv_ok snap -> kv_ok db -> ser_over tb -> filter_ok tb -> conflict_ok tb f ->
    forall rs os done odone fuel s m s' res,
    Forall2 (fun o r => nth_error trs o = Some r) os rs -> length odone = length done -> Forall (fun r => ble lo (dk r)) rs ->
    StronglySorted blt (map dk (done ++ rs)) -> Forall (row_ok sc) rs -> length rs <= fuel ->
    covers tb (w_flt s) snap -> Rep sc (V db s) m ->
    (forall r, In r rs -> kv_get snap (dk r) = kv_get (V db s) (dk r)) ->
    upsert_rows tb ev f fuel (new_iter snap lo (data_key_space_end tb)) trs (map dk (done ++ rs)) (odone ++ os) (length done) s = (s', res) ->
    ended (CUpsert f l0) db s m rs s' res.
  Proof.
    intros KS KD SO FO CF. induction rs as [|r rs IH]; intros os dn odn fuel s m s' res F2 LEN LO SS OK FU CV R AG RUN.
    - rewrite app_nil_r in RUN.
      assert ((s', res) = (s, Ok tt)) as E. { destruct fuel; cbn [upsert_rows] in RUN; rewrite map_length, Nat.ltb_irrefl in RUN; congruence. }
      injection E as -> ->. apply ended_nil, R.
    - inversion F2 as [|o r' os' rs' Ho F2']; subst. destruct fuel as [|fuel]; [cbn in FU; lia|].
      inversion LO as [|? ? LO1 LO2]; subst. inversion OK as [|? ? OK1 OK2]; subst. cbn [upsert_rows] in RUN.
      assert (L : Nat.ltb (length dn) (length (map dk (dn ++ r :: rs))) = true).
      { apply Nat.ltb_lt. rewrite map_length, app_length. cbn. lia. }
      assert (N1 : nth (length dn) (odn ++ o :: os') 0 = o).
      { rewrite app_nth2 by lia. rewrite LEN, Nat.sub_diag. reflexivity. }
      assert (N2 : nth (length dn) (map dk (dn ++ r :: rs)) [] = dk r).
      { rewrite map_app, app_nth2; rewrite map_length; [|lia]. rewrite Nat.sub_diag. reflexivity. }
      rewrite L, N1, N2, Ho in RUN.
      destruct (e_ctx ev (w_tick s)) eqn:CX.
      { injection RUN as <- <-. apply ended_stop; auto. }
      rewrite exist_key_eq in RUN by auto. change (w_flt (tick s)) with (w_flt s) in RUN.
      assert (GT : forall x, In x rs -> pk x <> pk r).
      { intros x Hx Epk. apply dk_inj in Epk. rewrite map_app in SS. apply strict_nodup in SS.
        apply nodup_app_iff in SS as [_ [SS _]]. inversion SS; subst. apply H1. rewrite <- Epk. apply in_map; auto. }
      destruct (merged_pk f m r _ CF R OK1) as [Q1 Q2]. 
      change (merged tb f m r) with (stored_row sc m (CUpsert f l0) r) in Q1, Q2.
      set (q := stored_row sc m (CUpsert f l0) r) in *.
      assert (dkq : dk q = dk r) by (apply dk_inj; auto).
      assert (TAIL : forall s1, did db s s1 m [q] -> t_ser tb q <> None -> w_tick s1 = S (w_tick s) ->
        upsert_rows tb ev f fuel (new_iter snap lo (data_key_space_end tb)) trs (map dk (dn ++ r :: rs)) (odn ++ o :: os') (S (length dn)) s1 = (s', res) ->
        ended (CUpsert f l0) db s m (r :: rs) s' res).
      { intros s1 D1 SQ TK RUN1. pose proof D1 as (R1 & _ & L1 & _).
        apply (ended_cons _ db s m r rs s1); auto.
        apply (IH os' (dn ++ [r]) (odn ++ [o]) fuel s1 (puts sc m [q]) s' res); auto.
        - rewrite !app_length. cbn. lia.
        - rewrite <- app_assoc. exact SS.
        - cbn in FU. lia.
        - eapply covers_le; eauto.
        - intros x Hx. rewrite AG by (right; auto). symmetry.
          apply (puts_snapshot_keep m [q] db s s1 x); auto. intros y [<-|[]]. rewrite Q1. intro E. apply (GT x Hx). auto.
        - rewrite <- RUN1. rewrite <- !app_assoc, app_length. cbn [app length]. rewrite Nat.add_1_r. reflexivity. }
      assert (VK : kv_ok (V db s)) by (apply V_ok; auto).
      destruct (m (pk r)) as [old|] eqn:EM.
      + destruct (rep_some _ _ _ _ R EM) as [vo [EVo EG]].
        assert (EG' : kv_get snap (dk r) = Some vo) by (rewrite AG by (left; auto); exact EG).
        rewrite EG', (covers_may _ _ _ _ CV EG') in RUN. cbn [andb] in RUN.
        pose proof (probe snap lo r KS LO1) as P. cbn zeta in P. rewrite EG' in P. destruct P as [P1 [P2 P3]].
        rewrite P3, (SO _ _ (w_old (tick s)) EVo) in RUN.
        assert (Eq : f old r = q) by (unfold q, stored_row; rewrite EM; auto). rewrite Eq, upsert_dups_distinct in RUN by auto.
        destruct (t_ser tb q) as [v|] eqn:ES.
        2: { injection RUN as <- <-. apply ended_stop; auto. right. split; [exact CX|]. split; [reflexivity|exact ES]. }
        rewrite <- dkq in RUN. refine (TAIL _ _ _ _ RUN); [|discriminate|reflexivity]. split; [|split; [|split; [|split]]].
        * rewrite V_add, V_old, V_tick. apply (update_ops_rep tb LAW (e_map ev (w_tick s) (t_indexes tb))); auto.
          -- apply (env_map_perm _ EV).
          -- rewrite Q1. exact EM.
        * rewrite V_add, V_old, V_tick. apply (update_ops_outside tb LAW (e_map ev (w_tick s) (t_indexes tb))); auto.
          apply (env_map_perm _ EV).
        * apply flt_le_refl.
        * intros x [<-|[]]. rewrite dkq. apply (covers_may _ _ _ _ CV EG').
        * cbn. rewrite app_length. cbn. lia.
      + assert (EG : kv_get snap (dk r) = None).
        { rewrite AG by (left; auto). apply (rep_none _ _ _ R). exact EM. }
        rewrite EG, andb_false_r in RUN.
        assert (Eq : r = q) by (unfold q, stored_row; rewrite EM; auto).
        rewrite upsert_dups_distinct in RUN by auto.
        destruct (t_ser tb r) as [v|] eqn:ES.
        2: { injection RUN as <- <-. apply ended_stop; auto. right. split; [exact CX|]. split; [reflexivity|]. fold q. rewrite <- Eq. exact ES. }
        refine (TAIL _ _ _ _ RUN); [|rewrite <- Eq, ES; discriminate|unfold flt_add; destruct (t_filter tb); reflexivity]. split; [|split; [|split; [|split]]].
        * rewrite V_flt, V_add, V_old, V_tick. rewrite <- Eq.
          apply (insert_ops_rep tb LAW (e_map ev (w_tick s) (t_indexes tb))); auto. apply (env_map_perm _ EV).
        * rewrite V_flt, V_add, V_old, V_tick.
          apply (insert_ops_outside tb LAW (e_map ev (w_tick s) (t_indexes tb))); auto. apply (env_map_perm _ EV).
        * apply (flt_add_le (add_ops (set_old (tick s) (w_old (tick s))) _)); auto.
        * intros x [<-|[]]. rewrite <- Eq. apply flt_add_has; auto.
        * unfold flt_add. destruct (t_filter tb); cbn; rewrite app_length; cbn; lia.
  Qed.

  (** ** Pieces *)

  Definition ascending (l : list T) : Prop := StronglySorted (fun x y => blt (row_key sc (pk x)) (row_key sc (pk y))) l.

  Lemma ascending_rows rs : StronglySorted ble (map dk rs) -> NoDup (map pk rs) -> ascending rs.
  Proof.
    intros S N. assert (SS : StronglySorted blt (map dk rs)) by (apply sorted_nodup_strict; auto; apply nodup_dk; auto).
    clear S N. induction rs as [|r rs IH]; [constructor|]. cbn [map] in SS. inversion SS as [|? ? S1 S2]; subst. constructor; [exact (IH S1)|].
    rewrite Forall_forall in *. intros y Y. rewrite <- !(data_key_eq _ LAW). apply S2, in_map, Y.
  Qed.

  (** What the pieces read: the store with the batch, or the database, which has the same rows there. *)
  Definition looks (db : kv) (rw : bool) (s : wst T F) (l : list T) : Prop :=
    covers tb (w_flt s) (chunk_snapshot db rw (w_ops s)) /\
    forall r, In r l -> kv_get (chunk_snapshot db rw (w_ops s)) (dk r) = kv_get (V db s) (dk r).

  Definition chunk_of (c : call T) (db : kv) (rw : bool) : list T -> wst T F -> wst T F * res unit :=
    match c with
    | CInsert _ => insert_chunk tb ev db rw
    | CUpdate _ => update_chunk tb ev db rw
    | CUpsert f _ => upsert_chunk tb ev f db rw
    | CDelete _ => fun _ s => (s, Panic)
    end.

  Definition conflict_of (c : call T) : Prop :=
    match c with CUpsert f _ => conflict_ok tb f | CDelete _ => False | _ => True end.

  Lemma chunk_part c db rw l s m s' res : kv_ok db -> ser_over tb -> filter_ok tb -> conflict_of c ->
    l <> [] -> NoDup (map pk l) -> Forall (row_ok sc) l -> looks db rw s l -> Rep sc (V db s) m ->
    chunk_of c db rw l s = (s', res) -> exists rs, Permutation l rs /\ ascending rs /\ ended c db s m rs s' res.
  Proof.
    intros K SO FO CF NE ND OK [CV AG] R RUN. destruct c as [l0|l0|f l0|l0]; cbn [chunk_of conflict_of] in *; [| | |contradiction].
    - destruct (insert_chunk_unfold (tb:=tb) (ev:=ev) (EV:=EV) db rw l s NE) as [order [rs [P [S [F2 E]]]]]. rewrite E in RUN. symmetry in P.
      assert (NDr : NoDup (map pk rs)) by (eapply Permutation_NoDup; [apply Permutation_map; exact P|auto]).
      exists rs. split; [exact P|]. split; [apply ascending_rows; auto|].
      eapply (insert_part l0 (chunk_snapshot db rw (w_ops s)) (hd [] (map dk rs)) l db (snapshot_ok db rw s K) K FO); eauto.
      + apply hd_le; auto.
      + intros; discriminate.
      + eapply Forall_perm; eauto.
      + intros r Hr. apply AG. eapply Permutation_in; [symmetry; exact P|exact Hr].
    - destruct (update_chunk_unfold (tb:=tb) (ev:=ev) (EV:=EV) db rw l s NE) as [order [rs [P [S [F2 E]]]]]. rewrite E in RUN. symmetry in P.
      assert (NDr : NoDup (map pk rs)) by (eapply Permutation_NoDup; [apply Permutation_map; exact P|auto]).
      exists rs. split; [exact P|]. split; [apply ascending_rows; auto|].
      eapply (update_part l0 (chunk_snapshot db rw (w_ops s)) (hd [] (map dk rs)) l db (snapshot_ok db rw s K) K SO); eauto.
      + apply hd_le; auto.
      + eapply Forall_perm; eauto.
      + intros r Hr. apply AG. eapply Permutation_in; [symmetry; exact P|exact Hr].
    - destruct (upsert_chunk_unfold (tb:=tb) (ev:=ev) (EV:=EV) f db rw l s NE) as [order [rs [P [S [F2 E]]]]]. rewrite E in RUN. symmetry in P.
      assert (NDr : NoDup (map pk rs)) by (eapply Permutation_NoDup; [apply Permutation_map; exact P|auto]).
      exists rs. split; [exact P|]. split; [apply ascending_rows; auto|].
      apply (upsert_part l0 f (chunk_snapshot db rw (w_ops s)) (hd [] (map dk rs)) l db (snapshot_ok db rw s K) K SO FO CF
               rs order [] [] (length rs) s m s' res); auto.
      + apply hd_le; auto.
      + apply sorted_nodup_strict; auto. apply nodup_dk; auto.
      + eapply Forall_perm; eauto.
      + intros r Hr. apply AG. eapply Permutation_in; [symmetry; exact P|exact Hr].
  Qed.

  Lemma stored_pk c db m r : conflict_of c -> Rep sc db m -> row_ok sc r -> pk (stored_row sc m c r) = pk r.
  Proof. intros CF R O. destruct c as [l0|l0|f l0|l0]; try reflexivity. apply (merged_pk f m r db CF R O). Qed.

  Lemma did_covers db s s' m l : Rep sc (V db s) m -> covers tb (w_flt s) (V db s) ->
    did db s s' m l -> covers tb (w_flt s') (V db s').
  Proof. intros R CV (D1 & _ & D3 & D4 & _). exact (covers_puts db s s' m _ R D1 D3 D4 CV). Qed.

  (** Pieces not yet begun have an order too. *)
  Lemma sorted_pieces cs : NoDup (map pk (concat cs)) -> exists ss, Forall2 (fun a b => Permutation a b /\ ascending b) cs ss.
  Proof.
    induction cs as [|c cs IH]; intro ND; [exists []; constructor|]. cbn [concat] in ND. apply nodup_map_app in ND as [ND1 [ND2 _]].
    destruct (IH ND2) as [ss F2]. destruct (sort_keys_rows (tb:=tb) (ev:=ev) (EV:=EV) c) as (keys & order & rs & _ & _ & P & S & _).
    exists (rs :: ss). constructor; [|exact F2]. split; [symmetry; exact P|]. apply ascending_rows; [exact S|].
    eapply Permutation_NoDup; [apply Permutation_map; symmetry; exact P|exact ND1].
  Qed.

  Lemma looks_next c db rw s s1 m a b :
    (forall x, In x a -> pk (stored_row sc m c x) = pk x) -> (forall x y, In x a -> In y b -> pk x <> pk y) ->
    Rep sc (V db s) m -> looks db rw s (a ++ b) -> did db s s1 m (map (stored_row sc m c) a) -> looks db rw s1 b.
  Proof.
    intros PK DIS R [CV AG] D. pose proof D as (R1 & _ & L1 & _). unfold looks in *. destruct rw; cbn [chunk_snapshot] in *.
    - split; [exact (did_covers db s s1 m _ R CV D)|]. reflexivity.
    - split; [eapply covers_le; eauto|]. intros r Hr. rewrite AG by (apply in_or_app; auto). symmetry.
      apply (puts_snapshot_keep m (map (stored_row sc m c) a) db s s1 r R R1).
      intros y Y. apply in_map_iff in Y as [z [<- Z]]. rewrite PK by auto. auto.
  Qed.

  Lemma chunks_part c db rw : kv_ok db -> ser_over tb -> filter_ok tb -> conflict_of c ->
    forall cs s m s' res, Forall (fun c => c <> []) cs -> NoDup (map pk (concat cs)) -> Forall (row_ok sc) (concat cs) ->
    looks db rw s (concat cs) -> Rep sc (V db s) m -> run_chunks (chunk_of c db rw) cs s = (s', res) ->
    exists ss, Forall2 (fun a b => Permutation a b /\ ascending b) cs ss /\ ended c db s m (concat ss) s' res.
  Proof.
    intros K SO FO CF. induction cs as [|a cs IH]; intros s m s' res NE ND OK LK R RUN.
    - cbn in RUN. injection RUN as <- <-. exists []. split; [constructor|]. apply ended_nil, R.
    - inversion NE as [|? ? NE1 NE2]; subst. cbn [concat] in *.
      apply nodup_map_app in ND as [ND1 [ND2 DIS]]. apply Forall_app in OK as [OK1 OK2].
      assert (LK1 : looks db rw s a). { destruct LK as [L1 L2]. split; [exact L1|]. intros r Hr. apply L2, in_or_app; auto. }
      cbn [run_chunks] in RUN. destruct (chunk_of c db rw a s) as [s1 res1] eqn:E1.
      destruct (chunk_part c db rw a s m s1 res1 K SO FO CF NE1 ND1 OK1 LK1 R E1) as (rs & P & AS & EN).
      assert (INr : forall x, In x rs -> In x a) by (intros x X; eapply Permutation_in; [symmetry; exact P|exact X]).
      assert (PK : forall x, In x rs -> pk (stored_row sc m c x) = pk x).
      { intros x X. rewrite Forall_forall in OK1. apply (stored_pk c _ m x CF R). auto. }
      destruct res1 as [[]|e| |].
      + pose proof EN as (pre & post & E & D1 & _ & _ & [(_ & -> & _)|(x & post' & e & _ & X & _)]); [|discriminate].
        rewrite app_nil_r in E. subst pre. pose proof D1 as (R1 & _).
        assert (LK2 : looks db rw s1 (concat cs)).
        { apply (looks_next c db rw s s1 m rs (concat cs)); auto.
          destruct LK as [L1 L2]. split; [exact L1|]. intros r Hr. apply L2. apply in_app_or in Hr as [Hr|Hr]; apply in_or_app; auto. }
        destruct (IH s1 _ s' res NE2 ND2 OK2 LK2 R1 RUN) as (ss & F2 & EN2).
        exists (rs :: ss). split; [constructor; auto|]. cbn [concat]. apply (ended_app c db s m rs (concat ss) s1); auto.
        intros x y X Y. apply DIS; [auto|]. clear -F2 Y. induction F2 as [|u v us vs [Q _] F2 IH]; [exact Y|]. cbn [concat] in *.
        apply in_app_or in Y as [Y|Y]; apply in_or_app; [left|right; auto]. eapply Permutation_in; [symmetry; exact Q|exact Y].
      + injection RUN as <- <-. destruct (sorted_pieces cs ND2) as [ss F2]. exists (rs :: ss). split; [constructor; auto|].
        cbn [concat]. apply ended_more, EN.
      + exfalso. destruct EN as (pre & post & _ & _ & _ & _ & [(X & _)|(x & post' & e & _ & X & _)]); discriminate.
      + exfalso. destruct EN as (pre & post & _ & _ & _ & _ & [(X & _)|(x & post' & e & _ & X & _)]); discriminate.
  Qed.

  (** ** Delete *)

  Lemma delete_part db : kv_ok db -> forall trs s m s' res,
    Forall (row_ok sc) trs -> Rep sc (V db s) m -> (forall r o, In r trs -> m (pk r) = Some o -> same_entries tb r o) ->
    delete_rows tb ev trs s = (s', res) ->
    exists pre post, trs = pre ++ post /\ Rep sc (V db s') (removes sc m pre) /\
      same_outside sc (V db s) (V db s') /\ w_flt s' = w_flt s /\ length (w_ops s) + length pre <= length (w_ops s') /\
      (forall i, w_tick s <= i < w_tick s + length pre -> e_ctx ev i = false) /\
      (res = Ok tt /\ post = [] \/
       exists x post', post = x :: post' /\ res = Err ECtx /\ e_ctx ev (w_tick s + length pre) = true).
  Proof.
    intro K. induction trs as [|r trs IH]; intros s m s' res OK R SE RUN; cbn [delete_rows] in RUN.
    - injection RUN as <- <-. exists [], []. split; [reflexivity|]. split; [exact R|]. split; [apply same_outside_refl|]. split; [reflexivity|].
      split; [cbn; lia|]. split; [cbn; intros; lia|auto].
    - inversion OK as [|? ? OK1 OK2]; subst. destruct (e_ctx ev (w_tick s)) eqn:EC.
      { injection RUN as <- <-. exists [], (r :: trs). split; [reflexivity|]. split; [exact R|].
        split; [apply same_outside_refl|]. split; [reflexivity|]. split; [cbn; lia|]. split; [cbn; intros; lia|].
        right. exists r, trs. cbn [length]. rewrite Nat.add_0_r. auto. }
      set (s1 := add_ops _ _) in RUN.
      assert (VK : kv_ok (V db s)) by (apply V_ok; auto).
      assert (V1 : V db s1 = apply_ops (V db s) (delete_ops tb (e_map ev (w_tick s) (t_indexes tb)) r)).
      { unfold s1. rewrite V_add, V_tick. reflexivity. }
      assert (R1 : Rep sc (V db s1) (remove sc m r)).
      { rewrite V1. apply delete_ops_rep; auto. { apply (env_map_perm _ EV). } intros o Ho. apply SE; auto. left; auto. }
      assert (LN : S (length (w_ops s)) <= length (w_ops s1)) by (unfold s1; cbn; rewrite app_length; cbn; lia).
      assert (TK : w_tick s1 = S (w_tick s)) by reflexivity.
      apply (IH s1 (remove sc m r) s' res OK2 R1) in RUN.
      + destruct RUN as (pre & post & -> & D1 & D2 & D3 & D4 & D5 & D6). exists (r :: pre), post. split; [reflexivity|].
        split; [exact D1|]. split; [|split; [exact D3|split; [cbn [length]; lia|split]]].
        * eapply same_outside_trans; [|exact D2]. rewrite V1. apply delete_ops_outside; auto. apply (env_map_perm _ EV).
        * cbn [length]. intros i Hi. destruct (Nat.eq_dec i (w_tick s)) as [->|]; [exact EC|]. apply D5. lia.
        * cbn [length]. rewrite <- plus_n_Sm. rewrite TK in D6. exact D6.
      + intros x o Hx Ho. apply SE; [right; auto|]. eapply remove_le; eauto.
  Qed.

  Lemma removes_covers db (s s' : wst T F) m l : Rep sc (V db s) m -> Rep sc (V db s') (removes sc m l) -> w_flt s' = w_flt s ->
    covers tb (w_flt s) (V db s) -> covers tb (w_flt s') (V db s').
  Proof.
    intros R G1 E4 CV fn rest v Ef Hg. destruct (rep_data _ _ _ G1 rest v Hg) as [p Ep]. cbn [s_id schema_of] in Ep.
    rewrite Ep in *. rewrite (rep_get _ _ _ G1) in Hg. rewrite E4.
    destruct (removes sc m l p) as [o|] eqn:Er; [|easy]. apply removes_le in Er.
    pose proof (rep_get _ _ _ R p) as RG. rewrite Er in RG.
    assert (Hg' : kv_get (V db s) (row_key sc p) = Some v) by (rewrite RG; exact Hg). exact (CV fn _ v Ef Hg').
  Qed.

  (** ** Whole calls *)

  Lemma body_part c db rw s m s' res : kv_ok db -> ser_over tb -> filter_ok tb -> w_tick s = 0 -> reads_ok db rw s ->
    covers tb (w_flt s) (V db s) -> Rep sc (V db s) m -> admissible sc m c -> body (tb:=tb) (ev:=ev) c db rw s = (s', res) ->
    exists L l1, in_order sc (e_chunk ev) c L /\ handles sc (e_ctx ev) m c L l1 res /\
      Rep sc (V db s') (effect sc m (with_rows c l1)) /\ same_outside sc (V db s) (V db s') /\ covers tb (w_flt s') (V db s') /\
      length (w_ops s) + length l1 <= length (w_ops s').
  Proof.
    intros K SO FO TK RD CV R AD RUN.
    assert (CHUNKS : conflict_of c -> (forall l, c <> CDelete l) -> NoDup (map pk (rows_of c)) -> body (tb:=tb) (ev:=ev) c db rw s = batched (rows_of c) (e_chunk ev) (chunk_of c db rw) s ->
      exists L l1, in_order sc (e_chunk ev) c L /\ handles sc (e_ctx ev) m c L l1 res /\
        Rep sc (V db s') (effect sc m (with_rows c l1)) /\ same_outside sc (V db s) (V db s') /\ covers tb (w_flt s') (V db s') /\
        length (w_ops s) + length l1 <= length (w_ops s')).
    { intros CF ND0 ND EB. rewrite EB in RUN. destruct AD as [OK _].
      destruct (batched_chunks (St := wst T F) (e_chunk ev) (rows_of c) (env_chunk_pos _ EV)) as [cs [C1 C2]]. rewrite C2 in RUN.
      pose proof (is_chunks_nonempty _ _ _ (env_chunk_pos _ EV) C1) as NE. pose proof (is_chunks_concat _ _ _ C1) as EC. rewrite <- EC in ND, OK.
      assert (LK : looks db rw s (concat cs)).
      { split; [rewrite reads_snapshot by exact RD; exact CV|]. intros r _. rewrite reads_snapshot by exact RD. reflexivity. }
      destruct (chunks_part c db rw K SO FO CF cs s m s' res NE ND OK LK R RUN) as (ss & F2 & pre & post & E & D & FI & CX & W).
      assert (INC : forall x, In x (concat ss) -> In x (concat cs)).
      { clear -F2. induction F2 as [|u v us vs [Q _] F2 IH]; intros x Y; [exact Y|]. cbn [concat] in *.
        apply in_app_or in Y as [Y|Y]; apply in_or_app; [left|right; auto]. eapply Permutation_in; [symmetry; exact Q|exact Y]. }
      assert (NDs : NoDup (map pk (concat ss))).
      { eapply Permutation_NoDup; [apply Permutation_map|exact ND]. clear -F2. induction F2 as [|u v us vs [Q _] F2 IH]; [constructor|].
        cbn [concat]. apply Permutation_app; assumption. }
      exists (concat ss), pre. split.
      { assert (X : exists cs0 ss0, is_chunks (e_chunk ev) (rows_of c) cs0 /\
           Forall2 (fun a b => Permutation a b /\ ascending b) cs0 ss0 /\ concat ss = concat ss0).
        { exists cs, ss. split; [exact C1|]. split; [exact F2|reflexivity]. }
        destruct c as [l|l|f l|l]; [exact X..|]. elim (ND0 l). reflexivity. }
      split.
      { exists post. split; [exact E|]. split; [apply fine_succeeds; exact FI|]. rewrite TK in *. cbn [Nat.add] in *.
        split; [intros i Hi; apply CX; lia|]. destruct W as [(W1 & W2 & _)|W]; [left; auto|right; exact W]. }
      pose proof (did_covers db s s' m _ R CV D) as CV'. destruct D as (D1 & D2 & _ & _ & D5). rewrite map_length in D5.
      split; [|auto]. rewrite E in NDs. rewrite map_app in NDs. apply nodup_app_iff in NDs as [NDp _].
      destruct c as [l|l|f l|l]; cbn [effect with_rows stored_row] in *.
      - rewrite map_id in D1. exact D1.
      - rewrite map_id in D1. exact D1.
      - rewrite (merges_puts (tb:=tb)); auto. intros x X. apply (merged_pk f m x _ CF R). rewrite Forall_forall in OK. apply OK, INC.
        rewrite E. apply in_or_app; auto.
      - elim (ND0 l). reflexivity. }
    destruct c as [l|l|f l|l].
    - apply CHUNKS; try easy. apply AD.
    - apply CHUNKS; try easy. apply AD.
    - destruct AD as (_ & ND & CF). apply CHUNKS; try easy.
    - destruct AD as [OK AD]. clear CHUNKS.
      destruct (delete_part db K l s m s' res OK R AD RUN) as (pre & post & -> & D1 & D2 & D3 & D4 & D5 & D6).
      exists (pre ++ post), pre. split; [reflexivity|]. split.
      { exists post. split; [reflexivity|]. split; [exact I|]. rewrite TK in *. cbn [Nat.add] in *. split; [intros i Hi; apply D5; lia|].
        destruct D6 as [D6|(x & post' & E1 & E2 & E3)]; [left; exact D6|right]. exists x, post', ECtx. auto. }
      split; [exact D1|]. split; [exact D2|]. split; [exact (removes_covers db s s' m pre R D1 D3 CV)|exact D4].
  Qed.

  Lemma handles_part n c m L l1 res : in_order sc n c L -> handles sc (e_ctx ev) m c L l1 res -> part_of sc n c (ok_of res) l1.
  Proof.
    intros O (l2 & E & _ & _ & W). exists L, l2. split; [exact O|]. split; [exact E|].
    destruct W as [(_ & W)|(x & l3 & e & _ & -> & _)]; [auto|discriminate].
  Qed.

  Lemma in_order_perm n c L : in_order sc n c L -> Permutation L (rows_of c).
  Proof.
    assert (G : (exists cs ss, is_chunks n (rows_of c) cs /\ Forall2 (fun a b => Permutation a b /\ ascending b) cs ss /\ L = concat ss) ->
      Permutation L (rows_of c)).
    { intros (cs & ss & C & F2 & ->). apply is_chunks_concat in C. rewrite <- C. clear C.
      induction F2 as [|u v us vs [Q _] F2 IH]; [constructor|]. cbn [concat]. symmetry in Q. apply Permutation_app; assumption. }
    destruct c as [l|l|f l|l]; try exact G. cbn. intros ->. reflexivity.
  Qed.
End Part.

Section PartHist.
  Context {T F : Type} (tb : table T F) (G : good_table tb).
  Notation sc := (schema_of tb).

  Let LAW : lawful tb := good_lawful _ G.
  Local Existing Instance LAW.

  Lemma batch_call_part ev c db fl b m w res : env_ok ev -> kv_ok db -> b_rw b = true ->
    consistent tb (view db (Some b)) fl m -> admissible sc m c -> run_call tb ev db fl (Some b) c = (w, res) ->
    exists b' L l1, r_batch w = Some b' /\ b_rw b' = true /\ r_db w = db /\
      in_order sc (e_chunk ev) c L /\ handles sc (e_ctx ev) m c L l1 res /\
      consistent tb (view db (Some b')) (r_flt w) (effect sc m (with_rows c l1)) /\
      same_outside sc (view db (Some b)) (view db (Some b')).
  Proof.
    intros EV K RW [KV R C] AD RUN. rewrite run_call_eq in RUN. unfold run_write in RUN. rewrite RW in RUN.
    destruct (body c db true (WSt (b_ops b) fl (t_nil tb) 0)) as [s' r0] eqn:E1. injection RUN as <- <-.
    destruct (body_part (EV:=EV) c db true (WSt (b_ops b) fl (t_nil tb) 0) m s' r0 K (good_ser _ G) (good_filter _ G) eq_refl (or_introl eq_refl) C R AD E1)
      as (L & l1 & O & H & D1 & D2 & D3 & _).
    exists (Batch true (w_ops s')), L, l1. split; [reflexivity|]. split; [reflexivity|]. split; [reflexivity|]. split; [exact O|]. split; [exact H|].
    split; [|exact D2]. constructor; [|exact D1|exact D3]. apply (V_ok db s'); auto.
  Qed.

  Lemma batch_hist_part : forall h db fl b m b' fl' oks,
    Forall (fun ec => env_ok (fst ec)) h -> kv_ok db -> b_rw b = true ->
    consistent tb (view db (Some b)) fl m -> fit sc m (map (fun ec => (e_chunk (fst ec), snd ec)) h) ->
    run_batch_hist tb db fl b h = (b', fl', oks) ->
    map fst oks = map snd h /\ b_rw b' = true /\
    exists m', parts sc (map (fun ec => e_chunk (fst ec)) h) m oks m' /\ consistent tb (view db (Some b')) fl' m' /\
      same_outside sc (view db (Some b)) (view db (Some b')).
  Proof.
    induction h as [|[ev c] h IH]; intros db fl b m b' fl' oks EVS K RW C FT RUN; cbn [run_batch_hist] in RUN.
    - injection RUN as <- <- <-. split; [reflexivity|]. split; [exact RW|]. exists m. split; [reflexivity|]. split; [exact C|apply same_outside_refl].
    - inversion EVS as [|? ? EV1 EV2]; subst. cbn [fst] in EV1. cbn [map fst snd fit] in FT. destruct FT as [AD FT].
      destruct (run_call tb ev db fl (Some b) c) as [w res] eqn:E.
      destruct (batch_call_part ev c db fl b m w res EV1 K RW C AD E) as (b1 & L & l1 & E1 & E2 & _ & P1 & P2 & C1 & O1).
      pose proof (handles_part _ _ _ _ _ _ P1 P2) as P.
      rewrite E1 in RUN. destruct (run_batch_hist tb db (r_flt w) b1 h) as [[b2 fl2] oks2] eqn:E3. injection RUN as <- <- <-.
      destruct (IH db (r_flt w) b1 _ b2 fl2 oks2 EV2 K E2 C1 (FT _ _ P) E3) as (Y1 & Y2 & m' & Y3 & Y4 & Y5).
      split; [cbn [map fst snd]; f_equal; exact Y1|]. split; [exact Y2|]. exists m'. split; [exists l1; auto|]. split; [exact Y4|].
      eapply same_outside_trans; eauto.
  Qed.

  Lemma committed_part h db fl m b' fl' oks :
    Forall (fun ec => env_ok (fst ec)) h -> consistent tb db fl m -> fit sc m (map (fun ec => (e_chunk (fst ec), snd ec)) h) ->
    run_batch_hist tb db fl (Batch true []) h = (b', fl', oks) ->
    exists m', parts sc (map (fun ec => e_chunk (fst ec)) h) m oks m' /\ consistent tb (apply_ops db (b_ops b')) fl' m' /\ same_outside sc db (apply_ops db (b_ops b')).
  Proof.
    intros EVS C FT RUN. pose proof C as [K _ _].
    destruct (batch_hist_part h db fl (Batch true []) m b' fl' oks EVS K eq_refl C FT RUN) as (_ & RW & m' & P & C' & O).
    exists m'. auto.
  Qed.

  (** ** Without a batch *)

  Lemma direct_call_part ev c db fl m w res : env_ok ev -> consistent tb db fl m -> admissible sc m c ->
    run_call tb ev db fl None c = (w, res) ->
    exists L l1 r0, in_order sc (e_chunk ev) c L /\ handles sc (e_ctx ev) m c L l1 r0 /\
      res = (match r0 with Ok _ => if e_commit ev then Ok tt else match rows_of c with [] => Ok tt | _ => Err ECommit end | _ => r0 end) /\
      consistent tb (r_db w) (r_flt w) (if ok_of res then effect sc m c else m) /\ (ok_of res = false -> r_db w = db) /\
      same_outside sc db (r_db w).
  Proof.
    intros EV C AD RUN. destruct (call_step tb G ev c db fl m EV C AD) as (w' & res' & E & X1 & X2 & X3 & _).
    rewrite RUN in E. injection E as <- <-. pose proof C as [K R CV].
    assert (DB : ok_of res = false -> r_db w = db) by (destruct X1 as [(e & _ & X1)|(-> & _)]; [auto|discriminate]). clear X1.
    rewrite run_call_eq in RUN. unfold run_write in RUN.
    destruct (body c db false (WSt [] fl (t_nil tb) 0)) as [s' r0] eqn:E1.
    destruct (body_part (EV:=EV) c db false (WSt [] fl (t_nil tb) 0) m s' r0 K (good_ser _ G) (good_filter _ G) eq_refl (or_intror eq_refl) CV R AD E1)
      as (L & l1 & O & H & D1 & _ & _ & D4).
    exists L, l1, r0. split; [exact O|]. split; [exact H|]. split; [|auto].
    destruct r0 as [[]|e| |]; try (injection RUN as _ <-; reflexivity).
    destruct H as (l2 & EL & _ & _ & [(_ & ->)|(x & l3 & e & _ & Y & _)]); [|discriminate]. rewrite app_nil_r in EL. subst l1.
    pose proof (in_order_perm (tb:=tb) _ _ _ O) as P. apply Permutation_length in P. cbn [w_ops length Nat.add] in D4.
    destruct (w_ops s') as [|o os] eqn:EO.
    - injection RUN as _ <-. destruct (rows_of c); [destruct (e_commit ev); reflexivity|]. cbn in P, D4. lia.
    - destruct (e_commit ev); injection RUN as _ <-; [reflexivity|].
      destruct (rows_of c) eqn:ER; [|reflexivity]. exfalso.
      assert (NIL : body (tb:=tb) (ev:=ev) c db false (WSt [] fl (t_nil tb) 0) = (WSt [] fl (t_nil tb) 0, Ok tt)).
      { destruct c; cbn [rows_of] in ER; subst; reflexivity. }
      rewrite NIL in E1. injection E1 as <-. discriminate EO.
  Qed.

  (** ** The answer does not depend on chance *)

  Lemma sorted_unique (lt : T -> T -> Prop) : (forall x, ~ lt x x) -> (forall x y z, lt x y -> lt y z -> lt x z) ->
    forall a b, StronglySorted lt a -> StronglySorted lt b -> Permutation a b -> a = b.
  Proof.
    intros IR TR. induction a as [|x a IH]; intros b SA SB P; [apply Permutation_nil in P; auto|].
    destruct b as [|y b]; [symmetry in P; apply Permutation_nil in P; discriminate|].
    inversion SA as [|? ? SA1 SA2]; subst. inversion SB as [|? ? SB1 SB2]; subst. rewrite Forall_forall in SA2, SB2.
    assert (x = y).
    { destruct (Permutation_in x P (or_introl eq_refl)) as [->|X]; [reflexivity|].
      symmetry in P. destruct (Permutation_in y P (or_introl eq_refl)) as [->|Y]; [reflexivity|].
      elim (IR x). eauto. }
    subst y. f_equal. apply IH; auto. eapply Permutation_cons_inv; eauto.
  Qed.

  Lemma chunks_unique {A} n : forall (l : list A) cs, 0 < n -> is_chunks n l cs -> forall cs', is_chunks n l cs' -> cs = cs'.
  Proof.
    intros l cs N H. induction H as [|l L|c l cs L NE H IH]; intros cs' H'.
    - inversion H' as [|? L|c l cs L NE H E]; subst; [reflexivity|cbn in L; lia|]. destruct c, l; cbn in *; try discriminate; lia.
    - inversion H' as [|? L'|c l' cs L' NE H E]; subst; [cbn in L; lia|reflexivity|]. rewrite app_length in L. destruct l'; [elim NE; reflexivity|cbn in L; lia].
    - inversion H' as [E|? L' E|c' l' cs1 L' NE' H1 E]; subst.
      + elim NE. destruct c; [|discriminate]. destruct l; [reflexivity|discriminate].
      + rewrite app_length in L'. destruct l; [elim NE; reflexivity|cbn in L'; lia].
      + assert (X : c' = c /\ l' = l).
        { apply (f_equal (firstn (length c))) in E as E1. apply (f_equal (skipn (length c))) in E as E2.
          rewrite <- L' in E1 at 1. rewrite <- L' in E2 at 1.
          rewrite !firstn_app, !Nat.sub_diag, !firstn_all, !firstn_O, !app_nil_r in E1.
          rewrite !skipn_app, !Nat.sub_diag, !skipn_all in E2. auto. }
        destruct X as [-> ->]. f_equal. auto.
  Qed.

  Lemma in_order_unique n c L L' : 0 < n -> in_order sc n c L -> in_order sc n c L' -> L = L'.
  Proof.
    intro N.
    assert (Q : (exists cs ss, is_chunks n (rows_of c) cs /\ Forall2 (fun a b => Permutation a b /\ ascending (tb:=tb) b) cs ss /\ L = concat ss) ->
      (exists cs ss, is_chunks n (rows_of c) cs /\ Forall2 (fun a b => Permutation a b /\ ascending (tb:=tb) b) cs ss /\ L' = concat ss) -> L = L').
    { intros (cs & ss & C & F2 & ->) (cs' & ss' & C' & F2' & ->). rewrite <- (chunks_unique n _ _ N C _ C') in F2'. clear C C' cs'. f_equal.
      revert ss' F2'. induction F2 as [|u v us vs [Q S] F2 IH]; intros ss' F2'; inversion F2' as [|? v' ? vs' [Q' S'] F2'']; subst; [reflexivity|].
      f_equal; [|auto]. eapply sorted_unique; [| |exact S|exact S'|rewrite <- Q; exact Q'].
      - intros x. apply blt_irrefl.
      - intros x y z. apply blt_trans. }
    destruct c as [l|l|f l|l]; try exact Q. cbn. congruence.
  Qed.

  Lemma fault_once m c x e e' : fault sc m c x e -> fault sc m c x e' -> e = e'.
  Proof. destruct c; cbn; intuition congruence. Qed.

  Lemma fault_not_fine m c x e : fault sc m c x e -> fine (tb:=tb) m c x -> False.
  Proof. destruct c; cbn; intuition congruence. Qed.

  Lemma handles_once ctx m c L l1 r l1' r' : handles sc ctx m c L l1 r -> handles sc ctx m c L l1' r' -> l1 = l1' /\ r = r'.
  Proof.
    assert (LE : forall l1 r l1' r', handles sc ctx m c L l1 r -> handles sc ctx m c L l1' r' -> length l1 <= length l1').
    { clear. intros l1 r l1' r' (l2 & E & S & CX & W) (l2' & E' & S' & CX' & W').
      destruct (Nat.le_gt_cases (length l1) (length l1')) as [|GT]; [assumption|exfalso].
      destruct W' as [(_ & ->)|(x & l3 & e & -> & _ & W')].
      - apply (f_equal (@length T)) in E'. rewrite app_nil_r in E'. rewrite E, app_length in E'. lia.
      - destruct W' as [(W' & _)|(_ & W')]; [rewrite (CX _ GT) in W'; discriminate|].
        apply (fault_not_fine _ _ _ _ W'). pose proof (proj1 (fine_succeeds (tb:=tb) m c l1) S) as FI. rewrite Forall_forall in FI. apply FI.
        assert (X : nth_error l1 (length l1') = Some x).
        { rewrite <- (nth_error_app1 l1 l2) by exact GT. rewrite <- E, E', nth_error_app2, Nat.sub_diag by lia. reflexivity. }
        eapply nth_error_In, X. }
    intros H H'. pose proof (LE _ _ _ _ H H') as A. pose proof (LE _ _ _ _ H' H) as B.
    destruct H as (l2 & E & S & CX & W), H' as (l2' & E' & S' & CX' & W').
    assert (X : l1 = l1' /\ l2 = l2').
    { assert (EL : length l1 = length l1') by lia. rewrite E' in E. 
      apply (f_equal (firstn (length l1))) in E as E1. apply (f_equal (skipn (length l1))) in E as E2.
      rewrite EL in E1 at 1. rewrite EL in E2 at 1.
      rewrite !firstn_app, !Nat.sub_diag, !firstn_all, !firstn_O, !app_nil_r in E1.
      rewrite !skipn_app, !Nat.sub_diag, !skipn_all in E2. auto. }
    destruct X as [-> ->]. split; [reflexivity|].
    destruct W as [(-> & ->)|(x & l3 & e & -> & -> & W)], W' as [(-> & W')|(x' & l3' & e' & W1 & -> & W')]; try congruence; try discriminate.
    injection W1 as <- <-. f_equal. destruct W as [(W & ->)|(W & W2)], W' as [(W' & ->)|(W' & W2')]; try congruence.
    eapply fault_once; eauto.
  Qed.

  Lemma handles_ctx ctx ctx' m c L l1 r : (forall i, ctx i = ctx' i) -> handles sc ctx m c L l1 r -> handles sc ctx' m c L l1 r.
  Proof.
    intros E (l2 & A & B & C & D). exists l2. split; [exact A|]. split; [exact B|]. split; [intros i Hi; rewrite <- E; auto|]. rewrite <- E. exact D.
  Qed.

  Lemma same_answer ev1 ev2 c db fl m w1 r1 w2 r2 : env_ok ev1 -> env_ok ev2 ->
    e_chunk ev1 = e_chunk ev2 -> (forall i, e_ctx ev1 i = e_ctx ev2 i) -> e_commit ev1 = e_commit ev2 ->
    consistent tb db fl m -> admissible sc m c ->
    run_call tb ev1 db fl None c = (w1, r1) -> run_call tb ev2 db fl None c = (w2, r2) -> r1 = r2 /\ r_db w1 = r_db w2.
  Proof.
    intros EV1 EV2 E1 E2 E3 C AD RUN1 RUN2.
    destruct (direct_call_part ev1 c db fl m w1 r1 EV1 C AD RUN1) as (L1 & p1 & x1 & O1 & H1 & R1 & C1 & D1 & S1).
    destruct (direct_call_part ev2 c db fl m w2 r2 EV2 C AD RUN2) as (L2 & p2 & x2 & O2 & H2 & R2 & C2 & D2 & S2).
    rewrite <- E1 in O2. pose proof (in_order_unique _ _ _ _ (env_chunk_pos _ EV1) O1 O2). subst L2.
    apply (handles_ctx _ _ _ _ _ _ _ E2) in H1. destruct (handles_once _ _ _ _ _ _ _ _ H1 H2) as [_ <-].
    assert (r1 = r2) as -> by (rewrite R1, R2, E3; reflexivity). split; [reflexivity|].
    destruct (ok_of r2) eqn:EO; [|rewrite D1, D2 by auto; reflexivity].
    destruct C1 as [K1 Q1 _], C2 as [K2 Q2 _]. apply (Rep_unique tb _ _ _ K1 K2 Q1 Q2). intros k N. rewrite (S1 k N), (S2 k N). reflexivity.
  Qed.

  Lemma same_answer_batch ev1 ev2 c db fl b m w1 r1 w2 r2 : env_ok ev1 -> env_ok ev2 -> kv_ok db -> b_rw b = true ->
    e_chunk ev1 = e_chunk ev2 -> (forall i, e_ctx ev1 i = e_ctx ev2 i) ->
    consistent tb (view db (Some b)) fl m -> admissible sc m c ->
    run_call tb ev1 db fl (Some b) c = (w1, r1) -> run_call tb ev2 db fl (Some b) c = (w2, r2) ->
    r1 = r2 /\ view db (r_batch w1) = view db (r_batch w2).
  Proof.
    intros EV1 EV2 K RW E1 E2 C AD RUN1 RUN2.
    destruct (batch_call_part ev1 c db fl b m w1 r1 EV1 K RW C AD RUN1) as (b1 & L1 & p1 & B1 & _ & _ & O1 & H1 & C1 & S1).
    destruct (batch_call_part ev2 c db fl b m w2 r2 EV2 K RW C AD RUN2) as (b2 & L2 & p2 & B2 & _ & _ & O2 & H2 & C2 & S2).
    rewrite <- E1 in O2. pose proof (in_order_unique _ _ _ _ (env_chunk_pos _ EV1) O1 O2). subst L2.
    apply (handles_ctx _ _ _ _ _ _ _ E2) in H1. destruct (handles_once _ _ _ _ _ _ _ _ H1 H2) as [<- <-]. split; [reflexivity|].
    rewrite B1, B2. destruct C1 as [K1 Q1 _], C2 as [K2 Q2 _]. apply (Rep_unique tb _ _ _ K1 K2 Q1 Q2). intros k N. rewrite (S1 k N), (S2 k N). reflexivity.
  Qed.
End PartHist.
