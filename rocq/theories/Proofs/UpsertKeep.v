(** Upsert with an onConflict that keeps the key of its first argument. *)

From Coq Require Import List NArith Lia Bool Sorting.Sorted Sorting.Permutation Arith.
From Verif.Model Require Import Bytes Go Keys Pebble Index Table.
From Verif.Spec Require Import KeySpec TableSpec HistSpec.
From Verif.Proofs Require Import BytesFacts KeysFacts PebbleFacts TableFacts WriteFacts UpdateFacts UpsertFacts FoldFacts UpsertAll TableProps.
Import ListNotations.

Lemma in_cut {A} n m (l : list A) x : In x (firstn n (skipn m l)) -> In x l.
Proof.
  intro H. rewrite <- (firstn_skipn m l). apply in_or_app. right. rewrite <- (firstn_skipn n (skipn m l)). apply in_or_app. auto.
Qed.

Section Keep.
  Context {T F : Type} {tb : table T F} {ev : env T} {LAW : lawful tb} {EV : env_ok ev}.
  Variable f : T -> T -> T.
  Notation sc := (schema_of tb).
  Notation dk := (data_key tb).
  Notation pk := (s_pk (schema_of tb)).
  Notation hi := (data_key_space_end tb).
  Hypothesis KEEP : forall a b, row_ok sc a -> row_ok sc b -> pk (f a b) = pk a /\ row_ok sc (f a b).

  Lemma fold_keep l : forall a, row_ok sc a -> Forall (row_ok sc) l -> pk (fold_left f l a) = pk a /\ row_ok sc (fold_left f l a).
  Proof.
    induction l as [|x l IH]; intros a A L; cbn [fold_left]; auto. inversion L; subst.
    destruct (KEEP a x) as [K1 K2]; auto. destruct (IH (f a x)) as [I1 I2]; auto. split; auto. congruence.
  Qed.

  Lemma upserted_keep db m c r : Rep sc db m -> Forall (row_ok sc) c -> In r c ->
    pk (upserted sc f m c r) = pk r /\ row_ok sc (upserted sc f m c r).
  Proof.
    intros R C I. unfold upserted. rewrite Forall_forall in C.
    assert (X : pk (match m (pk r) with Some old => f old r | None => r end) = pk r /\
                row_ok sc (match m (pk r) with Some old => f old r | None => r end)).
    { destruct (m (pk r)) as [o|] eqn:E; auto. destruct (rep_rows _ _ _ R _ _ E) as [H1 [H2 _]].
      destruct (KEEP o r) as [K1 K2]; auto. split; auto. congruence. }
    destruct X as [X1 X2].
    match goal with |- context [fold_left f ?l ?a] => destruct (fold_keep l a X2) as [F1 F2] end.
    { apply Forall_forall. intros x Hx. apply C. eapply in_cut; eauto. }
    split; auto. congruence.
  Qed.

  (** What the call makes of a table content: [m'] holds under every key of [c] what was upserted, and [m] elsewhere. *)
  Definition turned (m : tmap T) (c : list T) (rest : list T) (mm m' : tmap T) : Prop :=
    forall p, (exists r, In r rest /\ pk r = p /\ m' p = Some (upserted sc f m c r)) \/ (~ In p (map pk rest) /\ m' p = mm p).

  Lemma rows_keep snap lo db c m rs order : kv_ok snap -> kv_ok db -> ser_over tb -> filter_ok tb ->
    Permutation rs c -> StronglySorted ble (map dk rs) -> Forall2 (fun o r => nth_error c o = Some r) order rs ->
    Forall (fun r => ble lo (dk r)) rs -> (forall i, e_ctx ev i = false) -> Forall (row_ok sc) c ->
    (forall r, In r c -> t_ser tb (upserted sc f m c r) <> None) ->
    (forall r, In r c -> m (pk r) <> None -> ~ repeated sc c (pk r)) ->
    forall fuel rest dn s mm, rs = dn ++ rest -> length rest <= fuel -> (forall x y, In x dn -> In y rest -> pk x <> pk y) ->
    covers tb (w_flt s) snap -> Rep sc (V db s) mm -> (forall r, In r rest -> mm (pk r) = m (pk r)) ->
    (forall r, In r rest -> kv_get snap (dk r) = kv_get (V db s) (dk r)) ->
    exists s' m', upsert_rows tb ev f fuel (new_iter snap lo hi) c (map dk rs) order (length dn) s = (s', Ok tt) /\
      same_outside sc (V db s) (V db s') /\ Rep sc (V db s') m' /\ flt_le tb (w_flt s) (w_flt s') /\
      (forall r, In r rest -> flt_may tb (w_flt s') (dk r) = true) /\ turned m c rest mm m'.
  Proof.
    intros KS KD SO FO PE SS F2 LO LV OKC SER ABS. induction fuel as [|fuel IH]; intros rest dn s mm El FU DI CV R MM AG.
    { destruct rest; [|cbn in FU; lia]. exists s, mm. cbn [upsert_rows]. rewrite El, app_nil_r, map_length, Nat.ltb_irrefl.
      split; auto. split; [apply same_outside_refl|]. split; auto. split; [apply flt_le_refl|]. split; [easy|]. intro p. right. auto. }
    cbn [upsert_rows]. destruct rest as [|r rest].
    { exists s, mm. rewrite El, app_nil_r, map_length, Nat.ltb_irrefl. split; auto. split; [apply same_outside_refl|]. split; auto.
      split; [apply flt_le_refl|]. split; [easy|]. intro p. right. auto. }
    assert (L : Nat.ltb (length dn) (length (map dk rs)) = true).
    { apply Nat.ltb_lt. rewrite map_length, El, app_length. cbn. lia. }
    rewrite L.
    assert (NR : nth_error rs (length dn) = Some r) by (rewrite El; apply nth_mid_error).
    assert (NE : nth_error c (nth (length dn) order 0) = Some r).
    { clear - F2 NR. revert NR. generalize (length dn). induction F2 as [|o x os xs H F2 IH]; intros [|n] E; cbn in *; try easy; [congruence|apply IH; auto]. }
    rewrite NE, LV.
    assert (NK : nth (length dn) (map dk rs) [] = dk r) by (rewrite El; apply nth_mid). rewrite NK.
    assert (SR : StronglySorted ble (map dk (r :: rest))).
    { rewrite El, map_app in SS. clear - SS. induction (map dk dn) as [|k ks IHk]; auto.
      apply IHk. apply StronglySorted_inv in SS. tauto. }
    destruct (take_run r rest SR) as [g [post [Er [G P]]]].
    assert (GPK : forall y, In y g -> pk y = pk r) by (intros; apply dk_inj; apply G; auto).
    assert (PPK : forall y, In y post -> pk y <> pk r) by (intros y Hy E; apply (P y Hy); apply dk_inj; auto).
    assert (ElG : rs = dn ++ r :: g ++ post) by (rewrite El, Er; reflexivity).
    assert (DR : forall y, In y dn -> pk y <> pk r) by (intros y Hy; apply DI; auto; left; auto).
    destruct (run_place (LAW := LAW) c dn r g post) as [PB PT]; auto; try (rewrite <- ElG; auto; fail).
    assert (LOr : ble lo (dk r)) by (rewrite Forall_forall in LO; apply LO; rewrite El; apply in_or_app; right; left; auto).
    assert (INr : In r c) by (eapply Permutation_in; [exact PE|]; rewrite El; apply in_or_app; right; left; auto).
    assert (UK : pk (upserted sc f m c r) = pk r /\ row_ok sc (upserted sc f m c r)).
    { assert (X : upserted sc f m c r = upserted sc f mm c r) by (unfold upserted; rewrite MM by (left; auto); reflexivity).
      rewrite X. eapply upserted_keep; eauto. }
    destruct UK as [Q1 Q2].
    set (q := upserted sc f m c r) in *. pose proof (SER r INr) as SQ. fold q in SQ.
    assert (dkq : dk q = dk r) by (apply dk_inj; auto).
    assert (LC : length rs = length c) by (apply Permutation_length; auto).
    assert (FG : length g < length (map dk rs)).
    { rewrite map_length, ElG, app_length. cbn. rewrite app_length. lia. }
    assert (TAIL : forall s1, same_outside sc (V db s) (V db s1) -> Rep sc (V db s1) (put sc mm q) ->
      flt_le tb (w_flt s) (w_flt s1) -> flt_may tb (w_flt s1) (dk r) = true ->
      exists s' m', upsert_rows tb ev f fuel (new_iter snap lo hi) c (map dk rs) order (S (length dn + length g)) s1 = (s', Ok tt) /\
        same_outside sc (V db s) (V db s') /\ Rep sc (V db s') m' /\ flt_le tb (w_flt s) (w_flt s') /\
        (forall x, In x (r :: rest) -> flt_may tb (w_flt s') (dk x) = true) /\ turned m c (r :: rest) mm m').
    { intros s1 O1 R1 FL FM. destruct (IH post (dn ++ r :: g) s1 (put sc mm q)) as [s' [m' [X1 [X2 [X3 [X4 [X5 X6]]]]]]]; auto.
      - rewrite ElG, <- app_assoc. reflexivity.
      - cbn in FU. rewrite Er, app_length in FU. lia.
      - intros x y Hx Hy. apply in_app_or in Hx as [Hx|[->|Hx]].
        + apply DI; auto. right. rewrite Er. apply in_or_app; auto.
        + intro E. apply (PPK y Hy). auto.
        + rewrite (GPK x Hx). intro E. apply (PPK y Hy). auto.
      - eapply covers_le; eauto.
      - intros x Hx. rewrite put_other; [|rewrite Q1; auto]. apply MM. right. rewrite Er. apply in_or_app; auto.
      - intros x Hx. rewrite AG by (right; rewrite Er; apply in_or_app; auto). symmetry.
        apply (puts_snapshot_keep (LAW := LAW) mm [q] db s s1 x); auto. intros y [<-|[]]. rewrite Q1. intro E. apply (PPK x Hx). auto.
      - exists s', m'. split.
        { rewrite <- X1. rewrite app_length. cbn [length]. replace (length dn + S (length g)) with (S (length dn + length g)) by lia. reflexivity. }
        split; [eapply same_outside_trans; eauto|]. split; auto. split; [eapply flt_le_trans; eauto|]. split.
        { intros x [<-|Hx]; auto. rewrite Er in Hx. apply in_app_or in Hx as [Hx|Hx]; auto. rewrite (G x Hx). auto. }
        intro p. destruct (X6 p) as [[x [Y1 [Y2 Y3]]]|[Y1 Y2]].
        + left. exists x. split; auto. right. rewrite Er. apply in_or_app; auto.
        + rewrite Y2. unfold put. rewrite Q1. destruct (beqb p (pk r)) eqn:B.
          * apply beqb_eq in B. left. exists r. split; [left; auto|]. auto.
          * apply beqb_neq in B. right. split; auto. cbn [map]. rewrite Er, map_app. intros [Z|Z]; [auto|]. apply in_app_or in Z as [Z|Z]; auto.
            apply in_map_iff in Z as [y [Z1 Z2]]. apply B. rewrite <- Z1. auto. }
    rewrite exist_key_eq by auto. change (w_flt (tick s)) with (w_flt s).
    assert (VK : kv_ok (V db s)) by (apply V_ok; auto).
    assert (QE : fold_left f (firstn (length g) (skipn (S (length dn)) c)) (merged tb f m r) = q).
    { unfold q, upserted, merged. rewrite PB, PT. cbn [Nat.sub]. rewrite Nat.sub_0_r. reflexivity. }
    unfold merged in QE. pose proof (MM r (or_introl eq_refl)) as MMr. pose proof (AG r (or_introl eq_refl)) as AGr.
    destruct (m (pk r)) as [old|] eqn:EM.
    - destruct (rep_some _ _ _ _ R MMr) as [vo [EVo EG']].
      assert (EG : kv_get snap (dk r) = Some vo) by (rewrite AGr; exact EG').
      assert (g0 : g = []).
      { destruct g as [|y g']; auto. exfalso. apply (ABS r INr); [rewrite EM; easy|]. unfold repeated. change (2 <= times sc (pk r) c).
        rewrite PT. cbn. lia. }
      rewrite EG, (covers_may _ _ _ _ CV EG). cbn [andb].
      pose proof (probe snap lo r KS LOr) as PR. cbn zeta in PR. rewrite EG in PR. destruct PR as [P1 [P2 P3]].
      rewrite P3, (SO _ _ (w_old (tick s)) EVo).
      destruct (dups_any (tb := tb) f c post g r (length (map dk rs)) dn old (f old r)) as [old' [D1 D2]]; auto; [rewrite <- ElG; auto|].
      rewrite <- ElG in D1. rewrite D1, QE. destruct (t_ser tb q) as [v|] eqn:ES; [|easy].
      rewrite (D2 g0) in *. rewrite <- dkq.
      apply TAIL; [| |apply flt_le_refl|apply (covers_may _ _ _ _ CV EG)]; rewrite V_add, V_old, V_tick.
      + apply (update_ops_outside tb LAW (e_map ev (w_tick s) (t_indexes tb))); auto. apply (env_map_perm _ EV).
      + apply (update_ops_rep tb LAW (e_map ev (w_tick s) (t_indexes tb))); auto.
        * apply (env_map_perm _ EV).
        * rewrite Q1. exact MMr.
    - assert (EG : kv_get snap (dk r) = None) by (rewrite AGr; apply (rep_none _ _ _ R); exact MMr).
      rewrite EG, andb_false_r.
      destruct (dups_any (tb := tb) f c post g r (length (map dk rs)) dn (w_old (tick s)) r) as [old' [D1 D2]]; auto; [rewrite <- ElG; auto|].
      rewrite <- ElG in D1. rewrite D1, QE. destruct (t_ser tb q) as [v|] eqn:ES; [|easy].
      rewrite <- dkq.
      set (s2 := add_ops (set_old (tick s) old') _).
      apply TAIL; [| |apply (flt_add_le s2); auto|rewrite <- dkq; apply flt_add_has; auto]; rewrite V_flt; unfold s2; rewrite V_add, V_old, V_tick.
      + apply (insert_ops_outside tb LAW (e_map ev (w_tick s) (t_indexes tb))); auto. apply (env_map_perm _ EV).
      + apply (insert_ops_rep tb LAW (e_map ev (w_tick s) (t_indexes tb))); auto.
        * apply (env_map_perm _ EV).
        * rewrite Q1. exact MMr.
  Qed.

  Lemma covers_turned db (s s' : wst T F) mm m' m c rest : Rep sc (V db s) mm -> Rep sc (V db s') m' -> turned m c rest mm m' ->
    flt_le tb (w_flt s) (w_flt s') -> (forall r, In r rest -> flt_may tb (w_flt s') (dk r) = true) ->
    covers tb (w_flt s) (V db s) -> covers tb (w_flt s') (V db s').
  Proof.
    intros R R' TU LE M C g rest' v Ef Hg.
    destruct (rep_data _ _ _ R' rest' v Hg) as [p Ep]. cbn [s_id schema_of] in Ep.
    rewrite Ep in *. rewrite (rep_get _ _ _ R') in Hg.
    destruct (TU p) as [[r [I1 [I2 I3]]]|[I1 I2]].
    - specialize (M r I1). rewrite (data_key_eq _ LAW), I2 in M. unfold flt_may in M. rewrite Ef in M. exact M.
    - rewrite I2 in Hg. specialize (LE (row_key sc p)). unfold flt_may in LE. rewrite Ef in LE.
      apply LE. rewrite <- (rep_get _ _ _ R) in Hg. eapply C; eauto.
  Qed.

  Lemma chunk_keep db rw c m mm s : kv_ok db -> ser_over tb -> filter_ok tb -> c <> [] -> (forall i, e_ctx ev i = false) ->
    Forall (row_ok sc) c -> (forall r, In r c -> t_ser tb (upserted sc f m c r) <> None) ->
    (forall r, In r c -> m (pk r) <> None -> ~ repeated sc c (pk r)) ->
    covers tb (w_flt s) (chunk_snapshot db rw (w_ops s)) -> Rep sc (V db s) mm -> (forall r, In r c -> mm (pk r) = m (pk r)) ->
    (rw = true \/ forall r, In r c -> kv_get db (dk r) = kv_get (V db s) (dk r)) ->
    exists s' m', upsert_chunk tb ev f db rw c s = (s', Ok tt) /\
      same_outside sc (V db s) (V db s') /\ Rep sc (V db s') m' /\ flt_le tb (w_flt s) (w_flt s') /\
      (forall r, In r c -> flt_may tb (w_flt s') (dk r) = true) /\ turned m c c mm m'.
  Proof.
    intros K SO FO NE LV OK SER ABS CV R MM AG.
    destruct (upsert_chunk_unfold (tb := tb) (ev := ev) f db rw c s NE) as [order [rs [P [S [F2 E]]]]]. rewrite E.
    assert (INr : forall r, In r rs -> In r c) by (intros; eapply Permutation_in; eauto).
    assert (INc : forall r, In r c -> In r rs) by (intros; eapply Permutation_in; [symmetry|]; eauto).
    destruct (rows_keep (chunk_snapshot db rw (w_ops s)) (hd [] (map dk rs)) db c m rs order (snapshot_ok db rw s K) K SO FO P S F2
                (hd_le rs S) LV OK SER ABS (length rs) rs [] s mm) as [s' [m' [E1 [E2 [E3 [E4 [E5 E6]]]]]]]; auto.
    - intros r Hr. unfold chunk_snapshot. destruct rw; [reflexivity|]. destruct AG as [|AG]; [easy|auto].
    - exists s', m'. split; [exact E1|]. repeat (split; [auto|]). intro p. destruct (E6 p) as [[r [I1 [I2 I3]]]|[I1 I2]].
      + left. exists r. auto.
      + right. split; auto. intro Z. apply I1. eapply Permutation_in; [apply Permutation_map; symmetry; exact P|exact Z].
  Qed.

  Lemma chunks_keep db rw m : kv_ok db -> ser_over tb -> filter_ok tb -> (forall i, e_ctx ev i = false) -> forall cs s mm,
    Forall (fun c => c <> []) cs -> Forall (Forall (row_ok sc)) cs ->
    ForallOrdPairs (fun c c' => forall x y, In x c -> In y c' -> pk x <> pk y) cs ->
    (forall c r, In c cs -> In r c -> t_ser tb (upserted sc f m c r) <> None) ->
    (forall c r, In c cs -> In r c -> m (pk r) <> None -> ~ repeated sc c (pk r)) ->
    covers tb (w_flt s) (chunk_snapshot db rw (w_ops s)) -> covers tb (w_flt s) (V db s) ->
    Rep sc (V db s) mm -> (forall r, In r (concat cs) -> mm (pk r) = m (pk r)) ->
    (rw = true \/ forall r, In r (concat cs) -> kv_get db (dk r) = kv_get (V db s) (dk r)) ->
    exists s' m', run_chunks (upsert_chunk tb ev f db rw) cs s = (s', Ok tt) /\
      same_outside sc (V db s) (V db s') /\ Rep sc (V db s') m' /\ covers tb (w_flt s') (V db s') /\
      forall p, (exists c r, In c cs /\ In r c /\ pk r = p /\ m' p = Some (upserted sc f m c r)) \/
                (~ In p (map pk (concat cs)) /\ m' p = mm p).
  Proof.
    intros K SO FO LV. induction cs as [|c cs IH]; intros s mm NE OK DJ SER ABS CV CV2 R MM AG.
    { exists s, mm. cbn. split; auto. split; [apply same_outside_refl|]. repeat (split; [auto|]). intro p. right. auto. }
    inversion NE as [|? ? N1 N2]; subst. inversion OK as [|? ? O1 O2]; subst. inversion DJ as [|? ? D1 D2]; subst.
    rewrite Forall_forall in D1.
    destruct (chunk_keep db rw c m mm s) as [s1 [m1 [E1 [E2 [E3 [E4 [E5 E6]]]]]]]; auto.
    { intros r Hr. apply SER; auto. left; auto. }
    { intros r Hr. apply ABS; auto. left; auto. }
    { intros r Hr. apply MM. cbn. apply in_or_app; auto. }
    { destruct AG as [|AG]; auto. right. intros r Hr. apply AG. cbn. apply in_or_app; auto. }
    assert (C1 : covers tb (w_flt s1) (V db s1)) by (apply (covers_turned db s s1 mm m1 m c c); auto).
    assert (DIS : forall r, In r (concat cs) -> ~ In (pk r) (map pk c)).
    { intros r Hr Z. apply in_concat in Hr as [c' [I1 I2]]. apply in_map_iff in Z as [x [Z1 Z2]]. apply (D1 c' I1 x r Z2 I2). auto. }
    assert (KEPT : forall r, In r (concat cs) -> m1 (pk r) = mm (pk r)).
    { intros r Hr. destruct (E6 (pk r)) as [[x [I1 [I2 I3]]]|[I1 I2]]; auto. exfalso. apply (DIS r Hr). rewrite <- I2. apply in_map; auto. }
    destruct (IH s1 m1) as [s' [m' [X1 [X2 [X3 [X4 X5]]]]]]; auto.
    { intros c' r I1 I2. apply SER; auto. right; auto. }
    { intros c' r I1 I2. apply ABS; auto. right; auto. }
    { destruct rw; [exact C1|]. eapply covers_le; [exact E4|exact CV]. }
    { intros r Hr. rewrite KEPT by auto. apply MM. cbn. apply in_or_app; auto. }
    { destruct AG as [|AG]; auto. right. intros r Hr. rewrite AG by (cbn; apply in_or_app; auto).
      rewrite (data_key_eq _ LAW), (rep_get _ _ _ R), (rep_get _ _ _ E3), KEPT; auto. }
    exists s', m'. cbn [run_chunks]. rewrite E1. split; [exact X1|]. split; [eapply same_outside_trans; eauto|]. repeat (split; [auto|]).
    intro p. destruct (X5 p) as [[c' [r [I1 [I2 [I3 I4]]]]]|[I1 I2]].
    - left. exists c', r. split; [right; auto|]. auto.
    - rewrite I2. destruct (E6 p) as [[r [J1 [J2 J3]]]|[J1 J2]].
      + left. exists c, r. split; [left; auto|]. auto.
      + right. split; auto. cbn [concat]. rewrite map_app. intro Z. apply in_app_or in Z as [Z|Z]; auto.
  Qed.

  Lemma upsert_keep db fl ob m rows cs : kv_ok db -> ser_over tb -> filter_ok tb -> quiet ev -> readable ob ->
    Rep sc (view db ob) m -> covers tb fl (view db ob) -> Forall (row_ok sc) rows -> is_chunks (e_chunk ev) rows cs ->
    ForallOrdPairs (fun c c' => forall x y, In x c -> In y c' -> pk x <> pk y) cs ->
    (forall c r, In c cs -> In r c -> t_ser tb (upserted sc f m c r) <> None) ->
    (forall c r, In c cs -> In r c -> m (pk r) <> None -> ~ repeated sc c (pk r)) ->
    exists w m', upsert tb ev f db fl ob rows = (w, Ok tt) /\ same_outside sc (view db ob) (view (r_db w) (r_batch w)) /\
      kv_ok (view (r_db w) (r_batch w)) /\ Rep sc (view (r_db w) (r_batch w)) m' /\ covers tb (r_flt w) (view (r_db w) (r_batch w)) /\
      forall p, (exists c r, In c cs /\ In r c /\ pk r = p /\ m' p = Some (upserted sc f m c r)) \/
                (~ In p (map pk rows) /\ m' p = m p).
  Proof.
    intros K SO FO [Q1 Q2] RD R C OK CH DJ SER ABS. unfold upsert, run_write.
    destruct (batched_chunks (St := wst T F) (e_chunk ev) rows (env_chunk_pos _ EV)) as [cs' [D1 D2]].
    assert (cs' = cs) by (exact (is_chunks_det _ _ _ _ (env_chunk_pos _ EV) D1 CH)). subst cs'.
    set (s0 := match ob with Some b => WSt (b_ops b) fl (t_nil tb) 0 | None => WSt [] fl (t_nil tb) 0 end).
    set (rw := match ob with Some b => b_rw b | None => false end).
    assert (SN : chunk_snapshot db rw (w_ops s0) = view db ob).
    { destruct ob as [b|]; unfold rw, s0, chunk_snapshot; cbn [w_ops]; [|reflexivity]. cbn in RD. rewrite RD. reflexivity. }
    assert (VS : V db s0 = view db ob) by (destruct ob as [b|]; reflexivity).
    assert (FL : w_flt s0 = fl) by (destruct ob; reflexivity).
    pose proof (is_chunks_concat _ _ _ CH) as CC.
    destruct (chunks_keep db rw m K SO FO Q1 cs s0 m) as [s' [m' [E1 [E2 [E3 [E4 E5]]]]]]; auto.
    { eapply is_chunks_nonempty; [|eauto]. apply (env_chunk_pos _ EV). }
    { apply Forall_forall. intros c Hc. apply Forall_forall. intros r Hr. rewrite Forall_forall in OK. apply OK. rewrite <- CC.
      apply in_concat. eauto. }
    { rewrite SN, FL. auto. } { rewrite VS, FL. auto. } { rewrite VS. auto. }
    { destruct ob as [b|]; [left; exact RD|right; reflexivity]. }
    rewrite CC in E5.
    assert (EC : batched rows (e_chunk ev) (upsert_chunk tb ev f db rw) s0 = (s', Ok tt)) by (rewrite D2; exact E1).
    assert (FIN : forall w : wres (F:=F), view (r_db w) (r_batch w) = V db s' -> r_flt w = w_flt s' ->
      same_outside sc (view db ob) (view (r_db w) (r_batch w)) /\
      kv_ok (view (r_db w) (r_batch w)) /\ Rep sc (view (r_db w) (r_batch w)) m' /\ covers tb (r_flt w) (view (r_db w) (r_batch w)) /\
      forall p, (exists c r, In c cs /\ In r c /\ pk r = p /\ m' p = Some (upserted sc f m c r)) \/
                (~ In p (map pk rows) /\ m' p = m p)).
    { intros w -> ->. rewrite <- VS. split; auto. split; [apply V_ok; auto|]. auto. }
    destruct ob as [b|]; unfold rw, s0 in EC; rewrite EC.
    - eexists _, m'. split; [reflexivity|]. apply FIN; [|reflexivity]. cbn [r_db r_batch]. destruct b as [brw ops]. reflexivity.
    - destruct (w_ops s') as [|o os] eqn:EO.
      + eexists _, m'. split; [reflexivity|]. apply FIN; [|reflexivity]. cbn [r_db r_batch]. unfold V. rewrite EO. reflexivity.
      + rewrite Q2. eexists _, m'. split; [reflexivity|]. apply FIN; [|reflexivity]. cbn [r_db r_batch]. unfold V. rewrite EO. reflexivity.
  Qed.
End Keep.

Lemma upsert_keep_good {T F} (tb : table T F) : good_table tb -> forall ev, env_ok ev ->
  forall f db fl ob m rows cs, quiet ev -> kv_ok db -> consistent tb (view db ob) fl m -> readable ob -> Forall (row_ok (schema_of tb)) rows ->
  (forall a b, row_ok (schema_of tb) a -> row_ok (schema_of tb) b ->
     s_pk (schema_of tb) (f a b) = s_pk (schema_of tb) a /\ row_ok (schema_of tb) (f a b)) ->
  is_chunks (e_chunk ev) rows cs ->
  ForallOrdPairs (fun c c' => forall x y, In x c -> In y c' -> s_pk (schema_of tb) x <> s_pk (schema_of tb) y) cs ->
  (forall c r, In c cs -> In r c -> m (s_pk (schema_of tb) r) <> None -> ~ repeated (schema_of tb) c (s_pk (schema_of tb) r)) ->
  (forall c r, In c cs -> In r c -> s_val (schema_of tb) (upserted (schema_of tb) f m c r) <> None) ->
  exists w m', upsert tb ev f db fl ob rows = (w, Ok tt) /\
    consistent tb (view (r_db w) (r_batch w)) (r_flt w) m' /\ same_outside (schema_of tb) (view db ob) (view (r_db w) (r_batch w)) /\
    forall p, (exists c r, In c cs /\ In r c /\ s_pk (schema_of tb) r = p /\ m' p = Some (upserted (schema_of tb) f m c r)) \/
              (~ In p (map (s_pk (schema_of tb)) rows) /\ m' p = m p).
Proof.
  intros [LAW SO FO] ev EV f db fl ob m rows cs Q K [_ R C] RD OK KEEP CH DJ ABS SER.
  destruct (upsert_keep (LAW:=LAW) (EV:=EV) f KEEP db fl ob m rows cs) as [w [m' [E1 [E2 [E3 [E4 [E5 E6]]]]]]]; auto.
  exists w, m'. split; auto. split; [constructor; auto|]. auto.
Qed.
