(** The rows after any history of calls, whatever the calls are given. *)

From Coq Require Import List NArith Lia Bool Sorting.Sorted Sorting.Permutation Arith.
From Verif.Model Require Import Bytes Go Keys Pebble Index Table.
From Verif.Spec Require Import KeySpec TableSpec HistSpec RowsSpec.
From Verif.Proofs Require Import BytesFacts KeysFacts PebbleFacts TableFacts WriteFacts UpdateFacts UpsertFacts FoldFacts UpsertAll CallFacts TableProps.
Import ListNotations.

Section AnyHist.
  Context {T F : Type} {tb : table T F} {ev : env T} (LAW : lawful tb) (EV : env_ok ev) (SO : ser_over tb) (FO : filter_ok tb).
  Notation sc := (schema_of tb).
  Notation dk := (data_key tb).
  Notation pk := (s_pk (schema_of tb)).
  Notation hi := (data_key_space_end tb).

  Lemma rows_none db m r : RowsAre sc db m -> (kv_get db (dk r) = None <-> m (pk r) = None).
  Proof.
    intro R. rewrite (data_key_eq _ LAW), (ra_get _ _ _ R). destruct (m (pk r)) as [o|] eqn:E; split; auto.
    - intro H. destruct (ra_some _ _ _ R _ _ E). exact H.
    - easy.
  Qed.

  Lemma rows_some db m r o : RowsAre sc db m -> m (pk r) = Some o -> exists v, t_ser tb o = Some v /\ kv_get db (dk r) = Some v.
  Proof.
    intros R H. pose proof (ra_some _ _ _ R _ _ H) as V. cbn in V.
    destruct (t_ser tb o) as [v|] eqn:E; [|easy]. exists v. split; auto.
    rewrite (data_key_eq _ LAW), (ra_get _ _ _ R), H. exact E.
  Qed.

  (** the operations of one row, seen from the row area *)
  Lemma row_written db (s s1 : wst T F) r v n (g : index T -> list bop) : kv_ok db ->
    (forall ix, In ix (t_indexes tb) -> Forall (op_key_under (t_id tb) (ix_id ix)) (g ix)) ->
    V db s1 = apply_ops (V db s) (BSet (dk r) v :: flat_map g (e_map ev n (t_indexes tb))) ->
    forall rest, kv_get (V db s1) (t_id tb :: x00 :: rest) =
      if beqb (t_id tb :: x00 :: rest) (dk r) then Some v else kv_get (V db s) (t_id tb :: x00 :: rest).
  Proof.
    intros K U E rest. rewrite E, kv_get_apply_ops by (apply V_ok; exact K).
    rewrite (row_ops_effect_data tb LAW _ (env_map_perm _ EV n _)) by exact U. cbn [op_touches op_result].
    destruct (beqb _ _); reflexivity.
  Qed.

  (** [s'] has what [s] has in the row area, but under the keys of [rs] the value of [g r] for one of the rows *)
  Definition wrote db (g : T -> T) (rs : list T) (s s' : wst T F) : Prop :=
    flt_le tb (w_flt s) (w_flt s') /\ (forall r, In r rs -> flt_may tb (w_flt s') (dk r) = true) /\
    forall rest, (exists r, In r rs /\ t_id tb :: x00 :: rest = dk r /\ t_ser tb (g r) <> None /\ kv_get (V db s') (t_id tb :: x00 :: rest) = t_ser tb (g r)) \/
                 (~ In (t_id tb :: x00 :: rest) (map dk rs) /\ kv_get (V db s') (t_id tb :: x00 :: rest) = kv_get (V db s) (t_id tb :: x00 :: rest)).

  Lemma wrote_nil db g s s' : w_flt s' = w_flt s -> V db s' = V db s -> wrote db g [] s s'.
  Proof. intros E1 E2. split; [rewrite E1; apply flt_le_refl|]. split; [intros r []|]. intro rest. right. split; [intros []|]. now rewrite E2. Qed.

  (** a run of rows with the same key, of which one is written, and then others *)
  Lemma wrote_cons db g r x v gs rs (s s1 s' : wst T F) : In x (r :: gs) -> (forall y, In y (r :: gs) -> dk y = dk r) -> t_ser tb (g x) = Some v ->
    flt_le tb (w_flt s) (w_flt s1) -> flt_may tb (w_flt s1) (dk r) = true ->
    (forall rest, kv_get (V db s1) (t_id tb :: x00 :: rest) =
      if beqb (t_id tb :: x00 :: rest) (dk r) then Some v else kv_get (V db s) (t_id tb :: x00 :: rest)) ->
    wrote db g rs s1 s' -> wrote db g (r :: gs ++ rs) s s'.
  Proof.
    intros IX SAME SV FL FM W1 (FL2 & FM2 & W2). split; [eapply flt_le_trans; eauto|]. split.
    - change (r :: gs ++ rs) with ((r :: gs) ++ rs). intros y Y. apply in_app_or in Y as [Y|Y]; [rewrite (SAME y Y); auto|auto].
    - intro rest. change (r :: gs ++ rs) with ((r :: gs) ++ rs). destruct (W2 rest) as [(y & Y & EK & NS & EG)|[NI EG]].
      + left. exists y. split; [apply in_or_app; auto|]. auto.
      + rewrite EG, W1. destruct (beqb _ (dk r)) eqn:B.
        * apply beqb_eq in B. left. exists x. split; [apply in_or_app; auto|]. split; [rewrite (SAME x IX); exact B|]. split; [congruence|auto].
        * apply beqb_neq in B. right. split; [|reflexivity]. rewrite map_app. intro X. apply in_app_or in X as [X|X]; [|auto].
          apply in_map_iff in X as [y [E Y]]. rewrite (SAME y Y) in E. auto.
  Qed.

  Lemma wrote_perm db g a b (s s' : wst T F) : Permutation a b -> wrote db g a s s' -> wrote db g b s s'.
  Proof.
    intros P (W1 & W2 & W3). split; [exact W1|]. split; [intros r I; apply W2; eapply Permutation_in; [symmetry; exact P|exact I]|].
    intro rest. destruct (W3 rest) as [(r & I & H)|[NI H]]; [left; exists r; split; [eapply Permutation_in; eauto|exact H]|right; split; [|exact H]].
    intro X. apply NI. eapply Permutation_in; [apply Permutation_map; symmetry; exact P|exact X].
  Qed.

  Section Loops.
    Context (db : kv) (m : tmap T) (K : kv_ok db) (R : RowsAre sc db m).

    Lemma insert_rows_wrote lo trs : forall rs os prev s s',
      Forall2 (fun o r => nth_error trs o = Some r) os rs -> Forall (fun r => ble lo (dk r)) rs -> covers tb (w_flt s) db ->
      insert_rows tb ev (new_iter db lo hi) trs prev (combine (map dk rs) os) s = (s', Ok tt) ->
      wrote db (fun r => r) rs s s' /\ forall r, In r rs -> m (pk r) = None.
    Proof.
      induction rs as [|r rs IH]; intros os prev s s' F2 LO CV RUN.
      - inversion F2; subst. cbn in RUN. injection RUN as <-. split; [apply wrote_nil; reflexivity|intros r []].
      - inversion F2 as [|o r' os' rs' Ho F2']; subst. cbn [map combine insert_rows] in RUN.
        inversion LO as [|? ? LO1 LO2]; subst. destruct (e_ctx ev (w_tick s)); [discriminate|].
        rewrite exist_key_eq in RUN by auto. change (w_flt (tick s)) with (w_flt s) in RUN.
        destruct (match prev with Some p => beqb (dk r) p | None => false end); [discriminate|]. cbn [orb] in RUN.
        assert (EM : kv_get db (dk r) = None).
        { destruct (kv_get db (dk r)) as [x|] eqn:EG; [|reflexivity]. rewrite (covers_may _ _ _ _ CV EG) in RUN. discriminate. }
        rewrite EM, andb_false_r in RUN. rewrite Ho in RUN. destruct (t_ser tb r) as [v|] eqn:SV; [|discriminate].
        set (s1 := flt_add tb (dk r) _) in RUN.
        assert (FL : flt_le tb (w_flt s) (w_flt s1)) by (unfold s1; apply (flt_add_le (add_ops (tick s) _)); exact FO).
        destruct (IH os' (Some (dk r)) s1 s' F2' LO2) as [A B]; auto; [eapply covers_le; eauto|]. split.
        + apply (wrote_cons db (fun x => x) r r v [] rs s s1 s'); auto; [now left|intros y [<-|[]]; reflexivity| |].
          * apply flt_add_has; auto.
          * apply (row_written db s s1 r v (w_tick s) (fun idx => on_insert (t_id tb) (t_pk tb) idx r)); auto;
              [intros; apply on_insert_under; auto|]. unfold s1. rewrite V_flt, V_add, V_tick. reflexivity.
        + intros x [<-|X]; [apply (rows_none db m r R); exact EM|auto].
    Qed.

    Lemma update_rows_wrote lo trs : forall rs os s s',
      Forall2 (fun o r => nth_error trs o = Some r) os rs -> Forall (fun r => ble lo (dk r)) rs -> covers tb (w_flt s) db ->
      update_rows tb ev (new_iter db lo hi) trs (combine (map dk rs) os) s = (s', Ok tt) ->
      wrote db (fun r => r) rs s s' /\ forall r, In r rs -> m (pk r) <> None.
    Proof.
      induction rs as [|r rs IH]; intros os s s' F2 LO CV RUN.
      - inversion F2; subst. cbn in RUN. injection RUN as <-. split; [apply wrote_nil; reflexivity|intros r []].
      - inversion F2 as [|o r' os' rs' Ho F2']; subst. cbn [map combine update_rows] in RUN.
        inversion LO as [|? ? LO1 LO2]; subst. destruct (e_ctx ev (w_tick s)); [discriminate|].
        destruct (match combine (map dk rs) os' with (k2, _) :: _ => beqb k2 (dk r) | [] => false end) eqn:SKIP.
        { destruct rs as [|r2 rs]; [inversion F2'; subst; discriminate|]. inversion F2'; subst. cbn [map combine] in SKIP. apply beqb_eq in SKIP.
          destruct (IH (x :: l) (tick s) s') as [(A1 & A2 & A3) B]; auto. split.
          - split; [exact A1|]. split; [intros y [<-|Y]; [rewrite <- SKIP; apply A2; now left|auto]|]. intro rest.
            destruct (A3 rest) as [(y & Y & H)|[NI EG]]; [left; exists y; split; [now right|exact H]|right; split; [|exact EG]].
            intros [E|X]; [|auto]. apply NI. left. congruence.
          - intros y [<-|Y]; [|auto]. apply (dk_inj (LAW:=LAW)) in SKIP. rewrite <- SKIP. apply B. now left. }
        pose proof (probe db lo r K LO1) as P. cbn zeta in P.
        destruct (kv_get db (dk r)) as [vo|] eqn:EG.
        2: { destruct (it_valid _); cbn [negb orb andb] in *; [rewrite P in RUN|]; discriminate. }
        destruct P as [P1 [P2 P3]]. rewrite P1, P2, P3, beqb_refl in RUN. cbn [negb orb] in RUN.
        assert (EM : m (pk r) <> None) by (intro E; apply (rows_none db m r R) in E; congruence).
        destruct (t_deser tb vo (w_old (tick s))) as [old|]; [|discriminate]. rewrite Ho in RUN.
        destruct (t_ser tb r) as [v|] eqn:SV; [|discriminate]. set (s1 := add_ops _ _) in RUN.
        destruct (IH os' s1 s' F2' LO2) as [A B]; auto. split.
        + apply (wrote_cons db (fun x => x) r r v [] rs s s1 s'); auto; [now left|intros y [<-|[]]; reflexivity|apply flt_le_refl| |].
          * exact (covers_may _ _ _ _ CV EG).
          * apply (row_written db s s1 r v (w_tick s) (fun idx => on_update (t_id tb) (t_pk tb) idx old r)); auto;
              [intros; apply on_update_under; auto|]. unfold s1. rewrite V_add, V_old, V_tick. reflexivity.
        + intros x [<-|X]; auto.
    Qed.

    Variable f : T -> T -> T.

    Lemma upsert_rows_wrote lo c rs order : Permutation rs c -> StronglySorted ble (map dk rs) -> Forall2 (fun o r => nth_error c o = Some r) order rs ->
      Forall (fun r => ble lo (dk r)) rs ->
      forall fuel rest dn s s', rs = dn ++ rest -> (forall x y, In x dn -> In y rest -> pk x <> pk y) -> covers tb (w_flt s) db ->
      upsert_rows tb ev f fuel (new_iter db lo hi) c (map dk rs) order (length dn) s = (s', Ok tt) ->
      wrote db (upserted sc f m c) rest s s'.
    Proof.
      intros PE SS F2 LO. induction fuel as [|fuel IH]; intros rest dn s s' El DI CV RUN; cbn [upsert_rows] in RUN.
      { destruct rest as [|r rest]; [|rewrite El in RUN; rewrite (proj2 (Nat.ltb_lt _ _)) in RUN by (rewrite map_length, app_length; cbn; lia); discriminate].
        rewrite El, app_nil_r, map_length, Nat.ltb_irrefl in RUN. injection RUN as <-. apply wrote_nil; reflexivity. }
      destruct rest as [|r rest].
      { rewrite El, app_nil_r, map_length, Nat.ltb_irrefl in RUN. injection RUN as <-. apply wrote_nil; reflexivity. }
      assert (L : Nat.ltb (length dn) (length (map dk rs)) = true).
      { apply Nat.ltb_lt. rewrite map_length, El, app_length. cbn. lia. }
      rewrite L in RUN.
      assert (NR : nth_error rs (length dn) = Some r) by (rewrite El; apply nth_mid_error).
      assert (NE : nth_error c (nth (length dn) order 0) = Some r).
      { clear - F2 NR. revert NR. generalize (length dn). induction F2 as [|o x os xs H F2 IH]; intros [|n] E; cbn in *; try easy; [congruence|apply IH; auto]. }
      rewrite NE in RUN. destruct (e_ctx ev (w_tick s)); [discriminate|].
      assert (NK : nth (length dn) (map dk rs) [] = dk r) by (rewrite El; apply nth_mid). rewrite NK in RUN.
      assert (SR : StronglySorted ble (map dk (r :: rest))).
      { rewrite El, map_app in SS. clear - SS. induction (map dk dn) as [|k ks IHk]; auto.
        apply IHk. apply StronglySorted_inv in SS. tauto. }
      destruct (take_run r rest SR) as [g [post [Er [G P]]]].
      assert (GPK : forall y, In y g -> pk y = pk r) by (intros; apply (dk_inj (LAW:=LAW)); apply G; auto).
      assert (PPK : forall y, In y post -> pk y <> pk r) by (intros y Hy E; apply (P y Hy); apply (dk_inj (LAW:=LAW)); auto).
      assert (ElG : rs = dn ++ r :: g ++ post) by (rewrite El, Er; reflexivity).
      assert (DR : forall y, In y dn -> pk y <> pk r) by (intros y Hy; apply DI; auto; left; auto).
      destruct (run_place (LAW:=LAW) c dn r g post) as [PB PT]; auto; try (rewrite <- ElG; auto; fail).
      assert (LOr : ble lo (dk r)) by (rewrite Forall_forall in LO; apply LO; rewrite El; apply in_or_app; right; left; auto).
      set (q := upserted sc f m c r) in *.
      assert (LC : length rs = length c) by (apply Permutation_length; auto).
      assert (FG : length g < length (map dk rs)).
      { rewrite map_length, ElG, app_length. cbn. rewrite app_length. lia. }
      assert (TAIL : forall s1 v, t_ser tb q = Some v -> flt_le tb (w_flt s) (w_flt s1) -> flt_may tb (w_flt s1) (dk r) = true ->
        (forall x, kv_get (V db s1) (t_id tb :: x00 :: x) = if beqb (t_id tb :: x00 :: x) (dk r) then Some v else kv_get (V db s) (t_id tb :: x00 :: x)) ->
        upsert_rows tb ev f fuel (new_iter db lo hi) c (map dk rs) order (S (length dn + length g)) s1 = (s', Ok tt) ->
        wrote db (upserted sc f m c) (r :: rest) s s').
      { intros s1 v SV FL FM W1 RUN1. rewrite Er.
        apply (wrote_cons db (upserted sc f m c) r r v g post s s1 s'); auto; [now left|intros y [<-|Y]; auto|].
        apply (IH post (dn ++ r :: g) s1 s').
        - rewrite ElG, <- app_assoc. reflexivity.
        - intros x y Hx Hy. apply in_app_or in Hx as [Hx|[->|Hx]].
          + apply DI; auto. right. rewrite Er. apply in_or_app; auto.
          + intro E. apply (PPK y Hy). auto.
          + rewrite (GPK x Hx). intro E. apply (PPK y Hy). auto.
        - eapply covers_le; eauto.
        - rewrite <- RUN1. rewrite app_length. cbn [length]. replace (length dn + S (length g)) with (S (length dn + length g)) by lia. reflexivity. }
      rewrite exist_key_eq in RUN by auto. change (w_flt (tick s)) with (w_flt s) in RUN.
      assert (QE : fold_left f (firstn (length g) (skipn (S (length dn)) c)) (merged tb f m r) = q).
      { unfold q, upserted, merged. rewrite PB, PT. cbn [Nat.sub]. rewrite Nat.sub_0_r. reflexivity. }
      unfold merged in QE.
      destruct (m (pk r)) as [old|] eqn:EM.
      - destruct (rows_some _ _ _ _ R EM) as [vo [EVo EG]].
        rewrite EG, (covers_may _ _ _ _ CV EG) in RUN. cbn [andb] in RUN.
        pose proof (probe db lo r K LOr) as PR. cbn zeta in PR. rewrite EG in PR. destruct PR as [P1 [P2 P3]].
        rewrite P3, (SO _ _ (w_old (tick s)) EVo) in RUN.
        destruct (dups_any (tb:=tb) f c post g r (length (map dk rs)) dn old (f old r)) as [old' [D1 _]]; auto; [rewrite <- ElG; auto|].
        rewrite <- ElG in D1. rewrite D1, QE in RUN. destruct (t_ser tb q) as [v|] eqn:ES; [|discriminate].
        refine (TAIL _ v eq_refl _ _ _ RUN); [apply flt_le_refl|exact (covers_may _ _ _ _ CV EG)|].
        apply (row_written db s _ r v (w_tick s) (fun idx => on_update (t_id tb) (t_pk tb) idx old' q)); auto;
          [intros; apply on_update_under; auto|]. rewrite V_add, V_old, V_tick. reflexivity.
      - assert (EG : kv_get db (dk r) = None) by (apply (rows_none _ _ _ R); exact EM).
        rewrite EG, andb_false_r in RUN.
        destruct (dups_any (tb:=tb) f c post g r (length (map dk rs)) dn (w_old (tick s)) r) as [old' [D1 _]]; auto; [rewrite <- ElG; auto|].
        rewrite <- ElG in D1. rewrite D1, QE in RUN. destruct (t_ser tb q) as [v|] eqn:ES; [|discriminate].
        refine (TAIL _ v eq_refl _ _ _ RUN); [apply (flt_add_le (add_ops (set_old (tick s) old') _)); auto|apply flt_add_has; auto|].
        apply (row_written db s _ r v (w_tick s) (fun idx => on_insert (t_id tb) (t_pk tb) idx q)); auto;
          [intros; apply on_insert_under; auto|]. rewrite V_flt, V_add, V_old, V_tick. reflexivity.
    Qed.
  End Loops.

  (** ** From the rows of a chunk to the table *)

  Definition is_val (a b : option bytes) : bool :=
    match a, b with Some x, Some y => beqb x y | _, _ => false end.

  (** what is under each key of [c] afterwards *)
  Definition found (d : kv) (g : T -> T) (c : list T) (m : tmap T) : tmap T := fun p =>
    match find (fun r => beqb (pk r) p && is_val (t_ser tb (g r)) (kv_get d (row_key sc p))) c with
    | Some r => Some (g r)
    | None => m p
    end.

  Lemma wrote_rows db g c (s s' : wst T F) m : RowsAre sc (V db s) m -> covers tb (w_flt s) (V db s) -> wrote db g c s s' ->
    one_of sc g c m (found (V db s') g c m) /\ RowsAre sc (V db s') (found (V db s') g c m) /\ covers tb (w_flt s') (V db s').
  Proof.
    intros R CV (FL & FM & W).
    assert (KEY : forall p, (exists r, In r c /\ pk r = p /\ found (V db s') g c m p = Some (g r) /\ t_ser tb (g r) <> None /\ kv_get (V db s') (row_key sc p) = t_ser tb (g r)) \/
      (~ In p (map pk c) /\ found (V db s') g c m p = m p /\ kv_get (V db s') (row_key sc p) = kv_get (V db s) (row_key sc p))).
    { intro p. unfold found. destruct (row_key_shape tb p) as [rest E]. specialize (W rest).
      destruct (find _ c) as [r|] eqn:FI.
      - left. apply find_some in FI as [I B]. apply andb_true_iff in B as [B1 B2]. apply beqb_eq in B1. exists r. split; [exact I|]. split; [exact B1|].
        split; [reflexivity|]. unfold is_val in B2. destruct (t_ser tb (g r)) as [a|]; [|discriminate]. split; [discriminate|].
        destruct (kv_get (V db s') (row_key sc p)) as [b|]; [|discriminate]. apply beqb_eq in B2. congruence.
      - right. destruct W as [(r & I & EK & NS & EG)|[NI EG]].
        + exfalso. pose proof (find_none _ _ FI r I) as N. cbn beta in N. cbn [s_id schema_of] in E.
          assert (EP : pk r = p). { rewrite <- E, (data_key_eq _ LAW) in EK. symmetry. apply (row_key_inj tb). exact EK. }
          rewrite EP, beqb_refl, E, EG in N. unfold is_val in N. destruct (t_ser tb (g r)); [|easy]. rewrite beqb_refl in N. discriminate.
        + cbn [s_id schema_of] in E. rewrite E. split; [|split; [reflexivity|exact EG]]. intro X. apply NI. apply in_map_iff in X as [r [<- I]].
          rewrite <- E, <- (data_key_eq _ LAW). apply in_map. exact I. }
    split; [|split; [constructor|]].
    - intro p. destruct (KEY p) as [(r & I & EP & FO' & _)|(NI & FO' & _)]; [left; exists r; auto|right; auto].
    - intros p x E. destruct (KEY p) as [(r & I & EP & FO' & NS & _)|(NI & FO' & _)]; rewrite FO' in E; [injection E as <-; exact NS|exact (ra_some _ _ _ R _ _ E)].
    - intro p. destruct (KEY p) as [(r & I & EP & -> & NS & EG)|(NI & -> & EG)]; rewrite EG; [reflexivity|apply (ra_get _ _ _ R)].
    - intros rest v E. cbn [s_id schema_of] in *. destruct (W rest) as [(r & I & EK & NS & EG)|[NI EG]].
      + exists (pk r). rewrite EK. apply (data_key_eq _ LAW).
      + rewrite EG in E. exact (ra_data _ _ _ R rest v E).
    - intros ff rest v Ef E. destruct (W rest) as [(r & I & EK & NS & EG)|[NI EG]].
      + specialize (FM r I). unfold flt_may in FM. rewrite Ef in FM. rewrite EK. exact FM.
      + rewrite EG in E. specialize (FL (t_id tb :: x00 :: rest)). unfold flt_may in FL. rewrite Ef in FL. apply FL. exact (CV ff rest v Ef E).
  Qed.

  Lemma run_wrote db (h : list T -> wst T F -> wst T F * res unit) (g : list T -> T -> T) (Q : list T -> Prop) :
    (forall c s s', c <> [] -> covers tb (w_flt s) db -> h c s = (s', Ok tt) -> wrote db (g c) c s s' /\ Q c) ->
    forall cs s s' m, Forall (fun c => c <> []) cs -> covers tb (w_flt s) db -> RowsAre sc (V db s) m -> covers tb (w_flt s) (V db s) ->
    run_chunks h cs s = (s', Ok tt) ->
    exists m', chunkwise sc g cs m m' /\ RowsAre sc (V db s') m' /\ covers tb (w_flt s') (V db s') /\ Forall Q cs.
  Proof.
    intro H. induction cs as [|c cs IH]; intros s s' m NE CV R CV2 RUN; cbn [run_chunks] in RUN.
    - injection RUN as <-. exists m. split; [intro p; reflexivity|]. auto.
    - inversion NE as [|? ? NE1 NE2]; subst. destruct (h c s) as [s1 r1] eqn:E. destruct r1 as [[]| | |]; try discriminate.
      destruct (H c s s1 NE1 CV E) as [W QC]. destruct (wrote_rows db (g c) c s s1 m R CV2 W) as (O & R1 & CV1).
      destruct (IH s1 s' _ NE2 (covers_le _ _ _ (proj1 W) CV) R1 CV1 RUN) as (m' & C1 & C2 & C3 & C4).
      exists m'. split; [|auto]. exists (found (V db s1) (g c) c m). auto.
  Qed.

  Lemma delete_rows_wrote db : kv_ok db -> forall trs (s s' : wst T F), delete_rows tb ev trs s = (s', Ok tt) ->
    forall rest, kv_get (V db s') (t_id tb :: x00 :: rest) =
      if existsb (fun r => beqb (t_id tb :: x00 :: rest) (dk r)) trs then None else kv_get (V db s) (t_id tb :: x00 :: rest).
  Proof.
    intro K. induction trs as [|r trs IH]; intros s s' RUN rest; cbn [delete_rows existsb] in *; [injection RUN as <-; reflexivity|].
    destruct (e_ctx ev (w_tick s)); [discriminate|]. rewrite (IH _ _ RUN rest). rewrite V_add, V_tick, kv_get_apply_ops by (apply V_ok; exact K).
    rewrite (row_ops_effect_data tb LAW _ (env_map_perm _ EV _ _)) by (intros; apply on_delete_under; auto). cbn [op_touches op_result].
    destruct (beqb _ (dk r)); cbn [orb]; [destruct (existsb _ trs); reflexivity|reflexivity].
  Qed.

  Lemma removes_eq l : forall (m : tmap T) p, removes sc m l p = if existsb (fun r => beqb p (pk r)) l then None else m p.
  Proof.
    induction l as [|r l IH]; intros m p; [reflexivity|]. cbn [existsb]. change (removes sc m (r :: l)) with (removes sc (remove sc m r) l).
    rewrite IH. unfold remove. destruct (beqb p (pk r)); cbn [orb]; [destruct (existsb _ l); reflexivity|reflexivity].
  Qed.

  (** ** Calls *)

  Lemma failed_keeps c db fl w res : run_call tb ev db fl None c = (w, res) -> ok_of res = false -> r_db w = db.
  Proof.
    rewrite (run_call_eq (tb:=tb)). unfold run_write. destruct (body c db false (WSt [] fl (t_nil tb) 0)) as [s r].
    destruct r as [[]|e| |]; try (intros [= <- <-]; reflexivity).
    destruct (w_ops s); [intros [= <- <-]; discriminate|]. destruct (e_commit ev); intros [= <- <-]; [discriminate|reflexivity].
  Qed.

  Lemma call_filter c db fl w res : run_call tb ev db fl None c = (w, res) -> flt_le tb fl (r_flt w).
  Proof.
    rewrite (run_call_eq (tb:=tb)). unfold run_write. pose proof (body_mono (tb:=tb) (ev:=ev) c db false (WSt [] fl (t_nil tb) 0) FO) as M.
    destruct (body c db false (WSt [] fl (t_nil tb) 0)) as [s r]. cbn [fst w_flt] in M.
    destruct r as [[]|e| |]; try (intros [= <- <-]; exact M).
    destruct (w_ops s); [intros [= <- <-]; exact M|]. destruct (e_commit ev); intros [= <- <-]; exact M.
  Qed.

  Lemma call_any c db fl m w : kv_ok db -> covers tb fl db -> RowsAre sc db m -> run_call tb ev db fl None c = (w, Ok tt) ->
    exists m', call_rows sc (e_chunk ev) c m m' /\ kv_ok (r_db w) /\ covers tb (r_flt w) (r_db w) /\ RowsAre sc (r_db w) m'.
  Proof.
    intros K CV R RUN. rewrite (run_call_eq (tb:=tb)) in RUN. unfold run_write in RUN.
    destruct (body c db false (WSt [] fl (t_nil tb) 0)) as [s r] eqn:E. destruct r as [[]|e| |]; try discriminate.
    assert (EW : r_db w = V db s /\ r_flt w = w_flt s).
    { unfold V. destruct (w_ops s); [injection RUN as <-; auto|]. destruct (e_commit ev); [injection RUN as <-; auto|discriminate]. }
    destruct EW as [-> ->].
    enough (X : exists m', call_rows sc (e_chunk ev) c m m' /\ RowsAre sc (V db s) m' /\ covers tb (w_flt s) (V db s)).
    { destruct X as (m' & X1 & X2 & X3). exists m'. split; [exact X1|]. split; [apply V_ok; exact K|]. auto. }
    destruct c as [l|l|f l|l]; cbn [body] in E.
    - destruct (batched_chunks (St := wst T F) (e_chunk ev) l (env_chunk_pos _ EV)) as [cs [C1 C2]]. rewrite C2 in E.
      pose proof (is_chunks_nonempty _ _ _ (env_chunk_pos _ EV) C1) as NE. pose proof (is_chunks_concat _ _ _ C1) as CC.
      destruct (run_wrote db (insert_chunk tb ev db false) (fun _ r => r) (fun c => NoDup (map pk c) /\ forall r, In r c -> m (pk r) = None)) with (6 := E) (m := m)
        as (m' & X1 & X2 & X3 & X4); auto.
      + intros c s0 s1 NC CV0 E0. destruct (insert_chunk_inv (LAW:=LAW) (EV:=EV) db false c s0 s1 K FO NC CV0 E0) as [ND _].
        destruct (insert_chunk_unfold (tb:=tb) (ev:=ev) (EV:=EV) db false c s0 NC) as [order [rs [P [S [F2 E']]]]]. rewrite E' in E0. cbn [chunk_snapshot] in E0.
        destruct (insert_rows_wrote db m K R (hd [] (map dk rs)) c rs order None s0 s1 F2 (hd_le rs S) CV0 E0) as [W N].
        split; [apply (wrote_perm db _ rs c); auto|]. split; [exact ND|]. intros r I. apply N. eapply Permutation_in; [symmetry; exact P|exact I].
      + exists m'. split; [|auto]. exists cs. split; [exact C1|]. rewrite Forall_forall in X4. split; [apply Forall_forall; intros c I; apply X4; exact I|].
        split; [|exact X1]. intros r I. rewrite <- CC in I. apply in_concat in I as [c [I1 I2]]. apply (X4 c I1). exact I2.
    - destruct (batched_chunks (St := wst T F) (e_chunk ev) l (env_chunk_pos _ EV)) as [cs [C1 C2]]. rewrite C2 in E.
      pose proof (is_chunks_nonempty _ _ _ (env_chunk_pos _ EV) C1) as NE. pose proof (is_chunks_concat _ _ _ C1) as CC.
      destruct (run_wrote db (update_chunk tb ev db false) (fun _ r => r) (fun c => forall r, In r c -> m (pk r) <> None)) with (6 := E) (m := m)
        as (m' & X1 & X2 & X3 & X4); auto.
      + intros c s0 s1 NC CV0 E0.
        destruct (update_chunk_unfold (tb:=tb) (ev:=ev) (EV:=EV) db false c s0 NC) as [order [rs [P [S [F2 E']]]]]. rewrite E' in E0. cbn [chunk_snapshot] in E0.
        destruct (update_rows_wrote db m K R (hd [] (map dk rs)) c rs order s0 s1 F2 (hd_le rs S) CV0 E0) as [W N].
        split; [apply (wrote_perm db _ rs c); auto|]. intros r I. apply N. eapply Permutation_in; [symmetry; exact P|exact I].
      + exists m'. split; [|auto]. exists cs. split; [exact C1|]. rewrite Forall_forall in X4.
        split; [|exact X1]. intros r I. rewrite <- CC in I. apply in_concat in I as [c [I1 I2]]. apply (X4 c I1). exact I2.
    - destruct (batched_chunks (St := wst T F) (e_chunk ev) l (env_chunk_pos _ EV)) as [cs [C1 C2]]. rewrite C2 in E.
      pose proof (is_chunks_nonempty _ _ _ (env_chunk_pos _ EV) C1) as NE.
      destruct (run_wrote db (upsert_chunk tb ev f db false) (fun c r => upserted sc f m c r) (fun _ => True)) with (6 := E) (m := m)
        as (m' & X1 & X2 & X3 & _); auto.
      + intros c s0 s1 NC CV0 E0. split; [|exact I].
        destruct (upsert_chunk_unfold (tb:=tb) (ev:=ev) (EV:=EV) f db false c s0 NC) as [order [rs [P [S [F2 E']]]]]. rewrite E' in E0. cbn [chunk_snapshot] in E0.
        apply (wrote_perm db _ rs c); auto.
        apply (upsert_rows_wrote db m K R f (hd [] (map dk rs)) c rs order P S F2 (hd_le rs S) (length rs) rs [] s0 s1); auto.
      + exists m'. split; [|auto]. exists cs. auto.
    - exists (removes sc m l). split; [intro p; reflexivity|]. pose proof (delete_rows_wrote db K l _ _ E) as W.
      change (V db (WSt [] fl (t_nil tb) 0)) with db in W.
      assert (FE : w_flt s = fl).
      { pose proof (delete_rows_mono (tb:=tb) (ev:=ev) l (WSt [] fl (t_nil tb) 0)) as X. rewrite E in X. exact X. }
      split; [constructor|].
      + intros p x X. rewrite removes_eq in X. destruct (existsb _ l); [discriminate|]. exact (ra_some _ _ _ R _ _ X).
      + intro p. destruct (row_key_shape tb p) as [rest EK]. cbn [s_id schema_of] in EK. pose proof (W rest) as WR. rewrite <- EK in WR. rewrite WR, removes_eq.
        assert (EX : existsb (fun r => beqb (row_key sc p) (dk r)) l = existsb (fun r => beqb p (pk r)) l).
        { clear - LAW. induction l as [|r l IH]; cbn [existsb]; [reflexivity|]. rewrite IH, (data_key_eq _ LAW), beqb_row_key. reflexivity. }
        rewrite EX. destruct (existsb (fun r => beqb p (pk r)) l); [reflexivity|apply (ra_get _ _ _ R)].
      + intros rest v X. cbn [s_id schema_of] in *. rewrite W in X. destruct (existsb _ l); [discriminate|]. exact (ra_data _ _ _ R rest v X).
      + rewrite FE. intros ff rest v Ef X. rewrite W in X. destruct (existsb _ l); [discriminate|]. exact (CV ff rest v Ef X).
  Qed.
End AnyHist.

Section Hist.
  Context {T F : Type} (tb : table T F) (G : good_table tb).
  Notation sc := (schema_of tb).
  Notation pk := (s_pk (schema_of tb)).

  Lemma hist_any_rows : forall h db fl m db' fl' oks, Forall (fun ec => env_ok (fst ec)) h ->
    kv_ok db -> covers tb fl db -> RowsAre sc db m -> run_hist tb db fl h = (db', fl', oks) ->
    exists m', hist_rows sc (map (fun ec => e_chunk (fst ec)) h) oks m m' /\ kv_ok db' /\ covers tb fl' db' /\ RowsAre sc db' m'.
  Proof.
    destruct G as [LAW SO FO].
    induction h as [|[ev c] h IH]; intros db fl m db' fl' oks EV K CV R RUN; cbn [run_hist] in RUN.
    - injection RUN as <- <- <-. exists m. split; [intro p; reflexivity|auto].
    - inversion EV as [|? ? EV1 EV2]; subst. cbn [fst] in EV1. destruct (run_call tb ev db fl None c) as [w r] eqn:EC.
      destruct (run_hist tb (r_db w) (r_flt w) h) as [[d1 f1] o1] eqn:EH. injection RUN as <- <- <-. cbn [map fst hist_rows].
      destruct (ok_of r) eqn:EO.
      + destruct r as [[]| | |]; try discriminate.
        destruct (call_any LAW EV1 SO FO c db fl m w K CV R EC) as (m1 & X1 & X2 & X3 & X4).
        destruct (IH _ _ _ _ _ _ EV2 X2 X3 X4 EH) as (m' & Y1 & Y2). exists m'. split; [exists m1; auto|exact Y2].
      + pose proof (failed_keeps c db fl w r EC EO) as ED. rewrite ED in EH.
        apply (IH db (r_flt w) m d1 f1 o1); auto. eapply covers_le; [eapply call_filter; eauto|exact CV].
  Qed.

  Lemma rows_reads db fl m r : covers tb fl db -> RowsAre sc db m ->
    get_point tb db fl None r = match m (pk r) with Some x => Ok x | None => Err ENotFound end /\
    exist tb db fl None r = match m (pk r) with Some _ => true | None => false end.
  Proof.
    intros CV R. pose proof (good_lawful _ G) as LAW. unfold get_point, get_one, exist, db_get.
    destruct (m (pk r)) as [x|] eqn:E.
    - destruct (rows_some LAW db m r x R E) as (v & SV & EG). rewrite (covers_may (LAW:=LAW) _ _ _ _ CV EG), EG. cbn [negb andb].
      rewrite (good_ser _ G _ _ (t_nil tb) SV). auto.
    - apply (rows_none LAW db m r R) in E. rewrite E, andb_false_r. destruct (negb _); auto.
  Qed.

  Lemma any_history_reads h fl0 db' fl' oks : Forall (fun ec => env_ok (fst ec)) h -> run_hist tb [] fl0 h = (db', fl', oks) ->
    exists m', hist_rows sc (map (fun ec => e_chunk (fst ec)) h) oks empty_map m' /\
      forall r, get_point tb db' fl' None r = match m' (pk r) with Some x => Ok x | None => Err ENotFound end /\
                exist tb db' fl' None r = match m' (pk r) with Some _ => true | None => false end.
  Proof.
    intros EV RUN. destruct (hist_any_rows h [] fl0 empty_map db' fl' oks EV) as (m' & X1 & X2 & X3 & X4); auto.
    - constructor.
    - intros f rest v _ X. discriminate.
    - constructor; [discriminate|reflexivity|discriminate].
    - exists m'. split; [exact X1|]. intro r. apply rows_reads; auto.
  Qed.
End Hist.
