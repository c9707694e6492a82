(** Upsert of one chunk with any rows, repeated or not, in any order. *)

From Coq Require Import List NArith Lia Bool Sorting.Sorted Sorting.Permutation Arith.
From Verif.Model Require Import Bytes Go Keys Pebble Index Table.
From Verif.Spec Require Import KeySpec TableSpec HistSpec.
From Verif.Proofs Require Import BytesFacts KeysFacts PebbleFacts TableFacts WriteFacts UpdateFacts UpsertFacts FoldFacts.
Import ListNotations.

Section All.
  Context {T F : Type} {tb : table T F} {ev : env T} {LAW : lawful tb} {EV : env_ok ev}.
  Variable f : T -> T -> T.
  Notation sc := (schema_of tb).
  Notation dk := (data_key tb).
  Notation pk := (s_pk (schema_of tb)).
  Notation hi := (data_key_space_end tb).

  Lemma dk_cmp r r' : bcmp (dk r) (dk r') = bcmp (pk r) (pk r').
  Proof.
    rewrite !(data_key_eq _ LAW). unfold row_key, spec_key. rewrite ?app_comm_cons, ?app_assoc. apply bcmp_app_l.
  Qed.

  Lemma filter_perm {A} (g : A -> bool) l l' : Permutation l l' -> length (filter g l) = length (filter g l').
  Proof.
    induction 1 as [|x l l' P IH|x y l|l l' l2 P1 IH1 P2 IH2]; cbn [filter]; auto; try congruence.
    - destruct (g x); cbn [length]; congruence.
    - destruct (g x), (g y); reflexivity.
  Qed.

  Lemma filter_all {A} (g : A -> bool) l : (forall x, In x l -> g x = true) -> filter g l = l.
  Proof. induction l as [|x l IH]; intro H; cbn; auto. rewrite (H x (or_introl eq_refl)), IH; auto. intros; apply H; right; auto. Qed.
  Lemma filter_no {A} (g : A -> bool) l : (forall x, In x l -> g x = false) -> filter g l = [].
  Proof. induction l as [|x l IH]; intro H; cbn; auto. rewrite (H x (or_introl eq_refl)), IH; auto. intros; apply H; right; auto. Qed.

  (** Where the run of [r]'s key lies in the sorted rows. *)
  Lemma run_place c dn r g post : Permutation (dn ++ r :: g ++ post) c -> StronglySorted ble (map dk (dn ++ r :: g ++ post)) ->
    (forall y, In y dn -> pk y <> pk r) -> (forall y, In y g -> pk y = pk r) -> (forall y, In y post -> pk y <> pk r) ->
    below sc (pk r) c = length dn /\ times sc (pk r) c = S (length g).
  Proof.
    intros P SS D G PO. unfold below, times. rewrite <- !(filter_perm _ _ _ P), !filter_app. cbn [filter]. rewrite !filter_app.
    assert (D2 : forall y, In y dn -> bltb (pk y) (pk r) = true).
    { intros y Hy. unfold bltb. rewrite <- dk_cmp. rewrite map_app in SS.
      assert (L : ble (dk y) (dk r)).
      { revert Hy SS. clear. induction dn as [|x dn IH]; [easy|]. cbn [map app]. intros [->|Hy] SS; apply StronglySorted_inv in SS as [S1 S2].
        - rewrite Forall_forall in S2. apply S2. apply in_or_app. right. left. auto.
        - apply IH; auto. }
      specialize (D y Hy). destruct (bcmp (dk y) (dk r)) eqn:B; auto; exfalso.
      apply D. apply dk_inj. apply bcmp_eq. exact B. }
    assert (P2 : forall y, In y post -> bltb (pk y) (pk r) = false).
    { intros y Hy. unfold bltb. rewrite <- dk_cmp. rewrite map_app in SS.
      assert (L : ble (dk r) (dk y)).
      { clear - Hy SS. induction (map dk dn) as [|x l IH]; cbn [map app] in SS; apply StronglySorted_inv in SS as [S1 S2]; auto.
        rewrite Forall_forall in S2. apply S2. apply in_map. apply in_or_app. right; auto. }
      destruct (bcmp (dk y) (dk r)) eqn:B; auto. exfalso. apply L. rewrite bcmp_antisym, B. reflexivity. }
    assert (R0 : bltb (pk r) (pk r) = false) by (unfold bltb; rewrite bcmp_refl; reflexivity).
    rewrite R0, beqb_refl.
    rewrite (filter_all _ dn D2), (filter_no _ g), (filter_no _ post P2).
    2:{ intros y Hy. rewrite (G y Hy). exact R0. }
    rewrite (filter_no _ dn), (filter_all _ g), (filter_no _ post).
    2:{ intros y Hy. apply beqb_neq. auto. }
    2:{ intros y Hy. apply beqb_eq. auto. }
    2:{ intros y Hy. apply beqb_neq. auto. }
    cbn [app length]. rewrite !app_nil_r. auto.
  Qed.

  (** The inner loop reads the given rows by position. *)
  Lemma dups_any c post : forall g r fuel dn old tr, length (dn ++ r :: g ++ post) = length c ->
    (forall y, In y g -> dk y = dk r) -> (forall y, In y post -> dk y <> dk r) -> length g < fuel ->
    exists old', upsert_dups f fuel (map dk (dn ++ r :: g ++ post)) c (length dn) old tr
      = Some (length dn + length g, old', fold_left f (firstn (length g) (skipn (S (length dn)) c)) tr) /\ (g = [] -> old' = old).
  Proof.
    induction g as [|y g IH]; intros r fuel dn old tr LC G P FU; (destruct fuel as [|fuel]; [cbn in FU; lia|]); cbn [upsert_dups].
    - exists old. split; [|auto]. rewrite Nat.add_0_r. cbn [length firstn fold_left app] in *.
      destruct (Nat.ltb (length dn) (length (map dk (dn ++ r :: post)) - 1)) eqn:L; auto. cbn [andb].
      rewrite map_length, app_length in L. apply Nat.ltb_lt in L. cbn in L.
      destruct post as [|z post]; [cbn in L; lia|].
      rewrite nth_mid. replace (dn ++ r :: z :: post) with ((dn ++ [r]) ++ z :: post) by (rewrite <- app_assoc; reflexivity).
      replace (S (length dn)) with (length (dn ++ [r])) by (rewrite app_length; cbn; lia). rewrite nth_mid.
      destruct (beqb (dk z) (dk r)) eqn:B; auto. apply beqb_eq in B. exfalso. apply (P z); [left|]; auto.
    - set (l := dn ++ r :: (y :: g) ++ post) in *.
      assert (L : Nat.ltb (length dn) (length (map dk l) - 1) = true).
      { apply Nat.ltb_lt. rewrite map_length. unfold l. rewrite app_length. cbn. lia. }
      rewrite L. cbn [andb].
      assert (N1 : nth (length dn) (map dk l) [] = dk r) by apply nth_mid.
      assert (El' : l = (dn ++ [r]) ++ y :: g ++ post) by (unfold l; rewrite <- app_assoc; reflexivity).
      assert (LD : S (length dn) = length (dn ++ [r])) by (rewrite app_length; cbn; lia).
      assert (N2 : nth (S (length dn)) (map dk l) [] = dk y) by (rewrite LD, El'; apply nth_mid).
      assert (EY : dk y = dk r) by (apply G; left; auto).
      destruct (nth_error c (S (length dn))) as [x|] eqn:NX.
      2:{ exfalso. apply nth_error_None in NX. rewrite <- LC in NX. unfold l in NX. rewrite app_length in NX. cbn in NX. lia. }
      rewrite N1, N2, EY, beqb_refl.
      assert (SK : skipn (S (length dn)) c = x :: skipn (S (S (length dn))) c).
      { clear - NX. revert NX. generalize (S (length dn)) as n. revert c. induction c as [|a c IH]; intros [|n] E; cbn in *; try easy; [congruence|apply IH; auto]. }
      destruct (IH y fuel (dn ++ [r]) tr (f tr x)) as [old' [E1 _]].
      { rewrite <- El'. exact LC. }
      { intros z Hz. rewrite EY. apply G. right; auto. }
      { intros z Hz. rewrite EY. auto. }
      { cbn in FU. lia. }
      exists old'. split; [|easy]. rewrite <- El', <- LD in E1. rewrite E1, SK. cbn [length firstn fold_left].
      replace (S (length dn) + length g) with (length dn + S (length g)) by lia. reflexivity.
  Qed.

  Lemma upsert_any snap lo db c m rs order : kv_ok snap -> kv_ok db -> ser_over tb -> filter_ok tb ->
    Permutation rs c -> StronglySorted ble (map dk rs) -> Forall2 (fun o r => nth_error c o = Some r) order rs ->
    Forall (fun r => ble lo (dk r)) rs -> (forall i, e_ctx ev i = false) ->
    Rep sc snap m -> (forall r, In r c -> t_ser tb (upserted sc f m c r) <> None) ->
    forall fuel rest dn s, rs = dn ++ rest -> length rest <= fuel -> (forall x y, In x dn -> In y rest -> pk x <> pk y) ->
    covers tb (w_flt s) snap ->
    exists s', upsert_rows tb ev f fuel (new_iter snap lo hi) c (map dk rs) order (length dn) s = (s', Ok tt) /\
      same_outside sc (V db s) (V db s') /\
      forall p, ((exists r, In r rest /\ pk r = p /\ kv_get (V db s') (row_key sc p) = t_ser tb (upserted sc f m c r)) \/
                 (~ In p (map pk rest) /\ kv_get (V db s') (row_key sc p) = kv_get (V db s) (row_key sc p))).
  Proof.
    intros KS KD SO FO PE SS F2 LO LV R SER. induction fuel as [|fuel IH]; intros rest dn s El FU DI CV.
    { destruct rest; [|cbn in FU; lia]. exists s. cbn [upsert_rows]. rewrite El, app_nil_r, map_length, Nat.ltb_irrefl.
      split; auto. split; [apply same_outside_refl|]. intro p. right. auto. }
    cbn [upsert_rows]. destruct rest as [|r rest].
    { exists s. rewrite El, app_nil_r, map_length, Nat.ltb_irrefl. split; auto. split; [apply same_outside_refl|]. intro p. right. auto. }
    assert (L : Nat.ltb (length dn) (length (map dk rs)) = true).
    { apply Nat.ltb_lt. rewrite map_length, El, app_length. cbn. lia. }
    rewrite L.
    assert (NR : nth_error rs (length dn) = Some r) by (rewrite El; apply nth_mid_error).
    assert (NE : nth_error c (nth (length dn) order 0) = Some r).
    { clear - F2 NR. revert NR. generalize (length dn). induction F2 as [|o x os xs H F2 IH]; intros [|n] E; cbn in *; try easy; [congruence|apply IH; auto]. }
    rewrite NE, LV.
    assert (NK : nth (length dn) (map dk rs) [] = dk r) by (rewrite El; apply nth_mid). rewrite NK.
    assert (SR : StronglySorted ble (map dk (r :: rest))).
    { rewrite El, map_app in SS. clear - SS. induction (map dk dn) as [|k ks IHk]; auto.
      apply IHk. apply StronglySorted_inv in SS. tauto. }
    destruct (take_run r rest SR) as [g [post [Er [G P]]]].
    assert (GPK : forall y, In y g -> pk y = pk r) by (intros; apply dk_inj; apply G; auto).
    assert (PPK : forall y, In y post -> pk y <> pk r) by (intros y Hy E; apply (P y Hy); apply dk_inj; auto).
    assert (ElG : rs = dn ++ r :: g ++ post) by (rewrite El, Er; reflexivity).
    assert (DR : forall y, In y dn -> pk y <> pk r) by (intros y Hy; apply DI; auto; left; auto).
    destruct (run_place c dn r g post) as [PB PT]; auto; try (rewrite <- ElG; auto; fail).
    assert (LOr : ble lo (dk r)) by (rewrite Forall_forall in LO; apply LO; rewrite El; apply in_or_app; right; left; auto).
    assert (INr : In r c) by (eapply Permutation_in; [exact PE|]; rewrite El; apply in_or_app; right; left; auto).
    set (q := upserted sc f m c r) in *. pose proof (SER r INr) as SQ. fold q in SQ.
    assert (LC : length rs = length c) by (apply Permutation_length; auto).
    assert (FG : length g < length (map dk rs)).
    { rewrite map_length, ElG, app_length. cbn. rewrite app_length. lia. }
    assert (TAIL : forall s1, same_outside sc (V db s) (V db s1) ->
      (forall p, kv_get (V db s1) (row_key sc p) = if beqb p (pk r) then t_ser tb q else kv_get (V db s) (row_key sc p)) -> flt_le tb (w_flt s) (w_flt s1) ->
      exists s', upsert_rows tb ev f fuel (new_iter snap lo hi) c (map dk rs) order (S (length dn + length g)) s1 = (s', Ok tt) /\
        same_outside sc (V db s) (V db s') /\
        forall p, ((exists x, In x (r :: rest) /\ pk x = p /\ kv_get (V db s') (row_key sc p) = t_ser tb (upserted sc f m c x)) \/
                 (~ In p (map pk (r :: rest)) /\ kv_get (V db s') (row_key sc p) = kv_get (V db s) (row_key sc p)))).
    { intros s1 O1 E1 FL. destruct (IH post (dn ++ r :: g) s1) as [s' [X1 [X2 X3]]].
      - rewrite ElG, <- app_assoc. reflexivity.
      - cbn in FU. rewrite Er, app_length in FU. lia.
      - intros x y Hx Hy. apply in_app_or in Hx as [Hx|[->|Hx]].
        + apply DI; auto. right. rewrite Er. apply in_or_app; auto.
        + intro E. apply (PPK y Hy). auto.
        + rewrite (GPK x Hx). intro E. apply (PPK y Hy). auto.
      - eapply covers_le; eauto.
      - exists s'. split.
        { rewrite <- X1. rewrite app_length. cbn [length]. replace (length dn + S (length g)) with (S (length dn + length g)) by lia. reflexivity. }
        split; [eapply same_outside_trans; eauto|]. intro p. destruct (X3 p) as [[x [Y1 [Y2 Y3]]]|[Y1 Y2]].
        + left. exists x. split; auto. right. rewrite Er. apply in_or_app; auto.
        + rewrite Y2, E1. destruct (beqb p (pk r)) eqn:B.
          * apply beqb_eq in B. left. exists r. split; [left; auto|]. auto.
          * apply beqb_neq in B. right. split; auto. cbn [map]. rewrite Er, map_app. intros [Z|Z]; [auto|]. apply in_app_or in Z as [Z|Z]; auto.
            apply in_map_iff in Z as [y [Z1 Z2]]. apply B. rewrite <- Z1. auto. }
    rewrite exist_key_eq by auto. change (w_flt (tick s)) with (w_flt s).
    assert (VK : kv_ok (V db s)) by (apply V_ok; auto).
    assert (QE : fold_left f (firstn (length g) (skipn (S (length dn)) c)) (merged tb f m r) = q).
    { unfold q, upserted, merged. rewrite PB, PT. cbn [Nat.sub]. rewrite Nat.sub_0_r. reflexivity. }
    unfold merged in QE.
    destruct (m (pk r)) as [old|] eqn:EM.
    - destruct (rep_some _ _ _ _ R EM) as [vo [EVo EG]].
      rewrite EG, (covers_may _ _ _ _ CV EG). cbn [andb].
      pose proof (probe snap lo r KS LOr) as PR. cbn zeta in PR. rewrite EG in PR. destruct PR as [P1 [P2 P3]].
      rewrite P3, (SO _ _ (w_old (tick s)) EVo).
      destruct (dups_any c post g r (length (map dk rs)) dn old (f old r)) as [old' [D1 _]]; auto; [rewrite <- ElG; auto|].
      rewrite <- ElG in D1. rewrite D1, QE. destruct (t_ser tb q) as [v|] eqn:ES; [|easy].
      apply TAIL; [| |apply flt_le_refl]; rewrite V_add, V_old, V_tick.
      + intros k NT. rewrite kv_get_apply_ops by auto.
        rewrite (row_ops_effect_outside tb (e_map ev (w_tick s) (t_indexes tb)) (env_map_perm _ EV _ _)); auto using set_under.
        intros; apply on_update_under; auto.
      + intro p. rewrite kv_get_apply_ops by auto.
        rewrite (row_ops_effect_row tb LAW (e_map ev (w_tick s) (t_indexes tb)) (env_map_perm _ EV _ _)); [|intros; apply on_update_under; auto].
        cbn [op_touches op_result]. rewrite (data_key_eq _ LAW), beqb_row_key by auto. destruct (beqb p (pk r)); auto.
    - assert (EG : kv_get snap (dk r) = None) by (apply (rep_none _ _ _ R); exact EM).
      rewrite EG, andb_false_r.
      destruct (dups_any c post g r (length (map dk rs)) dn (w_old (tick s)) r) as [old' [D1 _]]; auto; [rewrite <- ElG; auto|].
      rewrite <- ElG in D1. rewrite D1, QE. destruct (t_ser tb q) as [v|] eqn:ES; [|easy].
      set (s2 := add_ops (set_old (tick s) old') _).
      apply TAIL; [| |apply (flt_add_le s2); auto]; rewrite V_flt; unfold s2; rewrite V_add, V_old, V_tick.
      + intros k NT. rewrite kv_get_apply_ops by auto.
        rewrite (row_ops_effect_outside tb (e_map ev (w_tick s) (t_indexes tb)) (env_map_perm _ EV _ _)); auto using set_under.
        intros; apply on_insert_under; auto.
      + intro p. rewrite kv_get_apply_ops by auto.
        rewrite (row_ops_effect_row tb LAW (e_map ev (w_tick s) (t_indexes tb)) (env_map_perm _ EV _ _)); [|intros; apply on_insert_under; auto].
        cbn [op_touches op_result]. rewrite (data_key_eq _ LAW), beqb_row_key by auto. destruct (beqb p (pk r)); auto.
  Qed.

  Lemma upsert_all db fl ob m rows : kv_ok db -> ser_over tb -> filter_ok tb -> quiet ev -> readable ob ->
    Rep sc (view db ob) m -> covers tb fl (view db ob) -> length rows <= e_chunk ev ->
    (forall r, In r rows -> t_ser tb (upserted sc f m rows r) <> None) ->
    exists w, upsert tb ev f db fl ob rows = (w, Ok tt) /\ same_outside sc (view db ob) (view (r_db w) (r_batch w)) /\
      forall p, ((exists r, In r rows /\ pk r = p /\ kv_get (view (r_db w) (r_batch w)) (row_key sc p) = t_ser tb (upserted sc f m rows r)) \/
                 (~ In p (map pk rows) /\ kv_get (view (r_db w) (r_batch w)) (row_key sc p) = kv_get (view db ob) (row_key sc p))).
  Proof.
    intros K SO FO [Q1 Q2] RD R C LEN SER. unfold upsert, run_write.
    destruct rows as [|r0 l'] eqn:EL.
    { destruct ob as [b|]; rewrite batched_nil; eexists; (split; [reflexivity|]); cbn [r_db r_batch w_ops].
      - destruct b as [rw ops]. cbn. split; [apply same_outside_refl|]. intro p. right. auto.
      - split; [apply same_outside_refl|]. intro p. right. auto. }
    rewrite <- EL in *. assert (NE : rows <> []) by (rewrite EL; easy).
    destruct (batched_chunks (St := wst T F) (e_chunk ev) rows (env_chunk_pos _ EV)) as [cs [C1 C2]].
    set (s0 := match ob with Some b => WSt (b_ops b) fl (t_nil tb) 0 | None => WSt [] fl (t_nil tb) 0 end).
    set (rw := match ob with Some b => b_rw b | None => false end).
    assert (SN : chunk_snapshot db rw (w_ops s0) = view db ob).
    { destruct ob as [b|]; unfold rw, s0, chunk_snapshot; cbn [w_ops]; [|reflexivity]. cbn in RD. rewrite RD. reflexivity. }
    assert (VS : V db s0 = view db ob) by (destruct ob as [b|]; reflexivity).
    assert (FL : w_flt s0 = fl) by (destruct ob; reflexivity).
    destruct (upsert_chunk_unfold (tb := tb) (ev := ev) f db rw rows s0 NE) as [order [rs [P [S [F2 E]]]]]. rewrite SN in E.
    destruct (upsert_any (view db ob) (hd [] (map dk rs)) db rows m rs order (view_ok _ _ K) K SO FO P S F2 (hd_le rs S) Q1 R SER (length rs) rs [] s0)
      as [s' [E1 [E2 E3]]]; auto; [rewrite FL; auto|]. cbn [length] in E1.
    assert (EC : batched rows (e_chunk ev) (upsert_chunk tb ev f db rw) s0 = (s', Ok tt)).
    { rewrite C2, (is_chunks_small _ _ _ C1) by auto. cbn [run_chunks]. rewrite E, E1. reflexivity. }
    assert (FIN : forall w : wres (F:=F), view (r_db w) (r_batch w) = V db s' ->
      same_outside sc (view db ob) (view (r_db w) (r_batch w)) /\
      forall p, ((exists r, In r rows /\ pk r = p /\ kv_get (view (r_db w) (r_batch w)) (row_key sc p) = t_ser tb (upserted sc f m rows r)) \/
                 (~ In p (map pk rows) /\ kv_get (view (r_db w) (r_batch w)) (row_key sc p) = kv_get (view db ob) (row_key sc p)))).
    { intros w ->. rewrite <- VS. split; auto. intro p. destruct (E3 p) as [[r [H1 [H2 H3]]]|[H1 H2]].
      - left. exists r. split; auto. eapply Permutation_in; eauto.
      - right. split; auto. intro Z. apply H1. eapply Permutation_in; [apply Permutation_map; symmetry; exact P|exact Z]. }
    destruct ob as [b|]; unfold rw, s0 in EC; rewrite EC.
    - eexists. split; [reflexivity|]. apply FIN. cbn [r_db r_batch]. destruct b as [brw ops]. reflexivity.
    - destruct (w_ops s') as [|o os] eqn:EO.
      + eexists. split; [reflexivity|]. apply FIN. cbn [r_db r_batch]. unfold V. rewrite EO. reflexivity.
      + rewrite Q2. eexists. split; [reflexivity|]. apply FIN. cbn [r_db r_batch]. unfold V. rewrite EO. reflexivity.
  Qed.
End All.

Lemma upsert_all_good {T F} (tb : table T F) : good_table tb -> forall ev, env_ok ev ->
  forall f db fl ob m rows, quiet ev -> kv_ok db -> consistent tb (view db ob) fl m -> readable ob -> length rows <= e_chunk ev ->
  (forall r, In r rows -> s_val (schema_of tb) (upserted (schema_of tb) f m rows r) <> None) ->
  exists w, upsert tb ev f db fl ob rows = (w, Ok tt) /\ same_outside (schema_of tb) (view db ob) (view (r_db w) (r_batch w)) /\
    forall p,
      (exists r, In r rows /\ s_pk (schema_of tb) r = p /\
         kv_get (view (r_db w) (r_batch w)) (row_key (schema_of tb) p) = s_val (schema_of tb) (upserted (schema_of tb) f m rows r)) \/
      (~ In p (map (s_pk (schema_of tb)) rows) /\
         kv_get (view (r_db w) (r_batch w)) (row_key (schema_of tb) p) = kv_get (view db ob) (row_key (schema_of tb) p)).
Proof.
  intros [LAW SO FO] ev EV f db fl ob m rows Q K [_ R C] RD LEN SER.
  apply (upsert_all (LAW:=LAW) (EV:=EV)); auto.
Qed.
