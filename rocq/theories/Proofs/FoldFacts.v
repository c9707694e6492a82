(** Upsert with repeated keys, when the rows come in key order and the sort leaves
    them in place. *)

From Coq Require Import List NArith Lia Bool Sorting.Sorted Sorting.Permutation Arith.
From Verif.Model Require Import Bytes Go Keys Pebble Index Table.
From Verif.Spec Require Import KeySpec TableSpec HistSpec.
From Verif.Proofs Require Import BytesFacts KeysFacts PebbleFacts TableFacts WriteFacts UpdateFacts UpsertFacts.
Import ListNotations.

Section Fold.
  Context {T F : Type} {tb : table T F} {ev : env T} {LAW : lawful tb} {EV : env_ok ev}.
  Variable f : T -> T -> T.
  Variable CF : conflict_ok tb f.
  Notation sc := (schema_of tb).
  Notation dk := (data_key tb).
  Notation pk := (s_pk (schema_of tb)).
  Notation hi := (data_key_space_end tb).

  Definition map_ok (m : tmap T) : Prop := forall p x, m p = Some x -> pk x = p /\ row_ok sc x.

  Lemma put_ok m x : map_ok m -> row_ok sc x -> map_ok (put sc m x).
  Proof.
    intros M OK p y. unfold put. destruct (beqb p (pk x)) eqn:B; [|apply M].
    apply beqb_eq in B. intro E. assert (y = x) by congruence. subst. split; [reflexivity|exact OK].
  Qed.

  Lemma merge_ext m m' r : (forall p, m p = m' p) -> forall p, merge sc f m r p = merge sc f m' r p.
  Proof. intros E p. unfold merge. rewrite E. apply put_ext; auto. Qed.

  Lemma merges_ext l : forall m m', (forall p, m p = m' p) -> forall p, merges sc f m l p = merges sc f m' l p.
  Proof.
    induction l as [|r l IH]; intros m m' E p; [apply E|].
    change (merges sc f (merge sc f m r) l p = merges sc f (merge sc f m' r) l p). apply IH. apply merge_ext; auto.
  Qed.

  Lemma merges_app m a b : merges sc f m (a ++ b) = merges sc f (merges sc f m a) b.
  Proof. apply fold_left_app. Qed.

  Lemma merged_ok m r : map_ok m -> row_ok sc r -> pk (merged tb f m r) = pk r /\ row_ok sc (merged tb f m r).
  Proof.
    intros M OK. unfold merged. destruct (m (pk r)) as [o|] eqn:E; [|split; [reflexivity|exact OK]].
    destruct (M _ _ E) as [H1 H2]. apply CF; auto.
  Qed.

  Lemma merges_notin l : forall m p, map_ok m -> Forall (row_ok sc) l -> (forall r, In r l -> pk r <> p) -> merges sc f m l p = m p.
  Proof.
    induction l as [|r l IH]; intros m p M OK N; auto. inversion OK as [|? ? O1 O2]; subst.
    change (merges sc f (put sc m (merged tb f m r)) l p = m p). destruct (merged_ok m r M O1) as [H1 H2].
    rewrite IH; auto using put_ok.
    - apply put_other. rewrite H1. intro E. apply (N r); [left|]; auto.
    - intros; apply N; right; auto.
  Qed.

  Lemma fold_ok g : forall x, row_ok sc x -> Forall (row_ok sc) g -> (forall y, In y g -> pk y = pk x) ->
    pk (fold_left f g x) = pk x /\ row_ok sc (fold_left f g x).
  Proof.
    induction g as [|y g IH]; intros x OK OKg E; [split; [reflexivity|exact OK]|]. inversion OKg as [|? ? O1 O2]; subst.
    cbn [fold_left]. assert (EY : pk y = pk x) by (apply E; left; auto).
    destruct (CF x y) as [C1 C2]; auto. destruct (IH (f x y)) as [I1 I2]; auto.
    - intros z Hz. rewrite C1, EY. apply E. right; auto.
    - split; [congruence|auto].
  Qed.

  Lemma merges_fold g : forall x m, row_ok sc x -> Forall (row_ok sc) g -> (forall y, In y g -> pk y = pk x) ->
    forall p, merges sc f (put sc m x) g p = put sc m (fold_left f g x) p.
  Proof.
    induction g as [|y g IH]; intros x m OK OKg E p; auto. inversion OKg as [|? ? O1 O2]; subst.
    assert (EY : pk y = pk x) by (apply E; left; auto). destruct (CF x y) as [C1 C2]; auto.
    change (merges sc f (merge sc f (put sc m x) y) g p = put sc m (fold_left f g (f x y)) p).
    rewrite <- IH; auto.
    - apply merges_ext. intro q. unfold merge. rewrite EY, put_same. unfold put. rewrite C1, EY.
      destruct (beqb q (pk x)); reflexivity.
    - intros z Hz. rewrite C1, EY. apply E. right; auto.
  Qed.

  (** Splitting off the rows with the key of the first one. *)
  Lemma take_run (r : T) : forall rest, StronglySorted ble (map dk (r :: rest)) ->
    exists g post, rest = g ++ post /\ (forall y, In y g -> dk y = dk r) /\ (forall y, In y post -> dk y <> dk r).
  Proof.
    induction rest as [|y rest IH]; intro S; [exists [], []; repeat split; easy|].
    assert (S' : StronglySorted ble (map dk (r :: rest))).
    { cbn [map] in *. apply StronglySorted_inv in S as [S1 S2]. apply StronglySorted_inv in S1 as [S3 _].
      inversion S2; subst. constructor; auto. }
    destruct (IH S') as [g [post [E [H1 H2]]]]. destruct (bytes_eq_dec (dk y) (dk r)) as [X|X].
    - exists (y :: g), post. split; [cbn; congruence|]. split; [intros z [<-|Hz]; auto|auto].
    - exists [], (y :: rest). split; auto. split; [easy|]. intros z [<-|Hz]; auto. intro Z. apply X.
      cbn [map] in S. apply StronglySorted_inv in S as [S1 S2]. apply StronglySorted_inv in S1 as [_ S3].
      rewrite Forall_forall in S3. inversion S2; subst. apply ble_antisym; auto.
      rewrite <- Z. apply S3. apply in_map; auto.
  Qed.

  Lemma nth_mid (dn : list T) x rest : nth (length dn) (map dk (dn ++ x :: rest)) [] = dk x.
  Proof. rewrite map_app, app_nth2; rewrite map_length; [|lia]. rewrite Nat.sub_diag. reflexivity. Qed.

  Lemma nth_mid_error (dn : list T) x rest : nth_error (dn ++ x :: rest) (length dn) = Some x.
  Proof. rewrite nth_error_app2 by lia. rewrite Nat.sub_diag. reflexivity. Qed.

  Lemma dups_run l post : forall g r fuel dn old tr, l = dn ++ r :: g ++ post ->
    (forall y, In y g -> dk y = dk r) -> (forall y, In y post -> dk y <> dk r) -> length g < fuel ->
    exists old', upsert_dups f fuel (map dk l) l (length dn) old tr = Some (length dn + length g, old', fold_left f g tr)
      /\ (g = [] -> old' = old).
  Proof.
    induction g as [|y g IH]; intros r fuel dn old tr El G P FU; (destruct fuel as [|fuel]; [cbn in FU; lia|]); cbn [upsert_dups].
    - exists old. split; auto. rewrite Nat.add_0_r. cbn [fold_left].
      destruct (Nat.ltb (length dn) (length (map dk l) - 1)) eqn:L; auto. cbn [andb].
      rewrite map_length in L. apply Nat.ltb_lt in L. subst l. cbn [app] in *. rewrite app_length in L. cbn in L.
      destruct post as [|z post]; [cbn in L; lia|].
      rewrite nth_mid. replace (dn ++ r :: z :: post) with ((dn ++ [r]) ++ z :: post) by (rewrite <- app_assoc; reflexivity).
      replace (S (length dn)) with (length (dn ++ [r])) by (rewrite app_length; cbn; lia). rewrite nth_mid.
      destruct (beqb (dk z) (dk r)) eqn:B; auto. apply beqb_eq in B. exfalso. apply (P z); [left|]; auto.
    - assert (L : Nat.ltb (length dn) (length (map dk l) - 1) = true).
      { apply Nat.ltb_lt. rewrite map_length. subst l. rewrite app_length. cbn. lia. }
      rewrite L. cbn [andb].
      assert (N1 : nth (length dn) (map dk l) [] = dk r) by (subst l; apply nth_mid).
      assert (El' : l = (dn ++ [r]) ++ y :: g ++ post) by (subst l; rewrite <- app_assoc; reflexivity).
      assert (LD : S (length dn) = length (dn ++ [r])) by (rewrite app_length; cbn; lia).
      assert (N2 : nth (S (length dn)) (map dk l) [] = dk y) by (rewrite LD, El'; apply nth_mid).
      assert (N3 : nth_error l (S (length dn)) = Some y) by (rewrite LD, El'; apply nth_mid_error).
      assert (EY : dk y = dk r) by (apply G; left; auto).
      rewrite N1, N2, N3, EY, beqb_refl. rewrite LD.
      destruct (IH y fuel (dn ++ [r]) tr (f tr y) El') as [old' [E1 E2]].
      { intros z Hz. rewrite EY. apply G. right; auto. }
      { intros z Hz. rewrite EY. auto. }
      { cbn in FU. lia. }
      exists old'. split; [|easy]. rewrite E1. rewrite <- LD. cbn [fold_left length].
      replace (S (length dn) + length g) with (length dn + S (length g)) by lia. reflexivity.
  Qed.

  Lemma upsert_fold snap lo db l : kv_ok snap -> kv_ok db -> ser_over tb -> filter_ok tb ->
    Forall (row_ok sc) l -> Forall (fun r => ble lo (dk r)) l ->
    StronglySorted ble (map dk l) -> (forall i, e_ctx ev i = false) ->
    forall fuel rs dn s m, l = dn ++ rs -> length rs <= fuel ->
    covers tb (w_flt s) snap -> Rep sc (V db s) m ->
    (forall r, In r rs -> kv_get snap (dk r) = kv_get (V db s) (dk r)) ->
    (forall r, In r rs -> m (pk r) <> None -> ~ repeated sc rs (pk r)) ->
    (forall p x, merges sc f m rs p = Some x -> t_ser tb x <> None) ->
    exists s', upsert_rows tb ev f fuel (new_iter snap lo hi) l (map dk l) (seq 0 (length l)) (length dn) s = (s', Ok tt)
      /\ Rep sc (V db s') (merges sc f m rs) /\ same_outside sc (V db s) (V db s').
  Proof.
    intros KS KD SO FO OKl LOl SS LV. induction fuel as [|fuel IH]; intros rs dn s m El FU CV R AG NR SER.
    { destruct rs; [|cbn in FU; lia]. exists s. cbn [upsert_rows]. subst l. rewrite app_nil_r, map_length, Nat.ltb_irrefl.
      split; auto. split; [exact R|apply same_outside_refl]. }
    cbn [upsert_rows]. destruct rs as [|r rest].
    { exists s. subst l. rewrite app_nil_r, map_length, Nat.ltb_irrefl. split; auto. split; [exact R|apply same_outside_refl]. }
    assert (L : Nat.ltb (length dn) (length (map dk l)) = true).
    { apply Nat.ltb_lt. rewrite map_length. subst l. rewrite app_length. cbn. lia. }
    rewrite L. assert (LL : length dn < length l) by (rewrite map_length in L; apply Nat.ltb_lt in L; auto).
    rewrite seq_nth by auto. cbn [Nat.add].
    assert (NE : nth_error l (length dn) = Some r) by (rewrite El; apply nth_mid_error). rewrite NE, LV.
    assert (NK : nth (length dn) (map dk l) [] = dk r) by (rewrite El; apply nth_mid). rewrite NK.
    assert (HIN : forall x, In x (r :: rest) -> In x l) by (intros; rewrite El; apply in_or_app; auto).
    assert (SR : StronglySorted ble (map dk (r :: rest))).
    { rewrite El, map_app in SS. clear - SS. induction (map dk dn) as [|k ks IHk]; auto.
      apply IHk. apply StronglySorted_inv in SS. tauto. }
    destruct (take_run r rest SR) as [g [post [Er [G P]]]].
    assert (OKr : forall x, In x (r :: rest) -> row_ok sc x) by (intros; rewrite Forall_forall in OKl; auto).
    assert (LOr : ble lo (dk r)) by (rewrite Forall_forall in LOl; apply LOl; apply HIN; left; auto).
    assert (MOK : map_ok m) by (intros p x E; destruct (rep_rows _ _ _ R _ _ E) as [A [B _]]; split; auto).
    set (q := fold_left f g (merged tb f m r)).
    destruct (merged_ok m r MOK) as [M1 M2]; [apply OKr; left; auto|].
    assert (GPK : forall y, In y g -> pk y = pk r) by (intros; apply dk_inj; apply G; auto).
    assert (OKg : Forall (row_ok sc) g).
    { rewrite Forall_forall. intros y Hy. apply OKr. right. rewrite Er. apply in_or_app; auto. }
    destruct (fold_ok g (merged tb f m r) M2 OKg) as [Q1 Q2]; [intros; rewrite M1; auto|]. fold q in Q1, Q2.
    assert (QPK : pk q = pk r) by congruence.
    assert (ME : forall p, merges sc f m (r :: g) p = put sc m q p).
    { intro p. change (merges sc f (put sc m (merged tb f m r)) g p = put sc m q p).
      apply merges_fold; auto. intros; rewrite M1; auto. }
    assert (PPK : forall y, In y post -> pk y <> pk r).
    { intros y Hy E. apply (P y Hy). apply dk_inj; auto. }
    assert (OKp : Forall (row_ok sc) post).
    { rewrite Forall_forall. intros y Hy. apply OKr. right. rewrite Er. apply in_or_app; auto. }
    assert (MA : forall p, merges sc f m (r :: rest) p = merges sc f (put sc m q) post p).
    { intro p. rewrite Er. change (r :: g ++ post) with ((r :: g) ++ post). rewrite merges_app. apply merges_ext; auto. }
    assert (SQ : t_ser tb q <> None).
    { apply (SER (pk r)). rewrite MA, merges_notin; auto using put_ok. rewrite <- QPK. apply put_same. }
    assert (MO : m (pk r) <> None -> g = []).
    { intro X. destruct g as [|y g']; auto. exfalso. apply (NR r (or_introl eq_refl) X). rewrite Er. unfold repeated. cbn [filter app].
      rewrite beqb_refl. assert (EY : pk y = pk r) by (apply GPK; left; auto). rewrite EY, beqb_refl. cbn. lia. }
    assert (FG : length g < length (map dk l)).
    { rewrite map_length, El, app_length. cbn. rewrite Er, app_length. lia. }
    assert (ElG : l = dn ++ r :: g ++ post) by (rewrite El, Er; reflexivity).
    assert (TAIL : forall s1, V db s1 = V db s1 -> Rep sc (V db s1) (put sc m q) -> same_outside sc (V db s) (V db s1) ->
      flt_le tb (w_flt s) (w_flt s1) ->
      exists s', upsert_rows tb ev f fuel (new_iter snap lo hi) l (map dk l) (seq 0 (length l)) (S (length dn + length g)) s1 = (s', Ok tt)
        /\ Rep sc (V db s') (merges sc f m (r :: rest)) /\ same_outside sc (V db s) (V db s')).
    { intros s1 _ R1 O1 FL.
      destruct (IH post (dn ++ r :: g) s1 (put sc m q)) as [s' [E1 [E2 E3]]].
      - rewrite ElG, <- app_assoc. reflexivity.
      - cbn in FU. rewrite Er, app_length in FU. lia.
      - eapply covers_le; eauto.
      - exact R1.
      - intros x Hx. rewrite AG by (right; rewrite Er; apply in_or_app; auto). symmetry.
        apply (puts_snapshot_keep m [q] db s s1 x); auto. intros y [<-|[]]. rewrite QPK. intro E. apply (PPK x Hx). auto.
      - intros x Hx MX. rewrite put_other in MX by (rewrite QPK; auto). intro RP. apply (NR x).
        + right. rewrite Er. apply in_or_app; auto.
        + exact MX.
        + rewrite Er. unfold repeated in RP |- *. change (r :: g ++ post) with ((r :: g) ++ post). rewrite filter_app, app_length. lia.
      - intros p x E. apply (SER p x). rewrite MA. exact E.
      - exists s'. split.
        + rewrite <- E1. rewrite app_length. cbn [length]. replace (length dn + S (length g)) with (S (length dn + length g)) by lia. reflexivity.
        + split; [eapply (Rep_ext tb); [exact E2|intro; symmetry; apply MA]|]. eapply same_outside_trans; eauto. }
    rewrite exist_key_eq by auto. change (w_flt (tick s)) with (w_flt s).
    assert (VK : kv_ok (V db s)) by (apply V_ok; auto).
    assert (dkq : dk q = dk r) by (apply dk_inj; auto).
    destruct (m (pk r)) as [old|] eqn:EM.
    - assert (g = []) by (apply MO; easy). subst g. clear MO.
      destruct (rep_some _ _ _ _ R EM) as [vo [EVo EG]].
      assert (EG' : kv_get snap (dk r) = Some vo) by (rewrite AG by (left; auto); exact EG).
      rewrite EG'. rewrite (covers_may _ _ _ _ CV EG'). cbn [andb].
      pose proof (probe snap lo r KS LOr) as PR. cbn zeta in PR. rewrite EG' in PR. destruct PR as [P1 [P2 P3]].
      rewrite P3. rewrite (SO _ _ (w_old (tick s)) EVo).
      destruct (dups_run l post [] r (length (map dk l)) dn old (f old r) ElG G P FG) as [old' [D1 D2]].
      rewrite D1, (D2 eq_refl). cbn [fold_left].
      assert (Eq : f old r = q) by (unfold q, merged; rewrite EM; auto). rewrite Eq.
      destruct (t_ser tb q) as [v|] eqn:ES; [|easy]. rewrite <- dkq.
      apply TAIL; [reflexivity| | |apply flt_le_refl]; rewrite V_add, V_old, V_tick.
      + apply (update_ops_rep tb LAW (e_map ev (w_tick s) (t_indexes tb))); auto; [apply (env_map_perm _ EV)|].
        rewrite QPK. exact EM.
      + apply (update_ops_outside tb LAW (e_map ev (w_tick s) (t_indexes tb))); auto. apply (env_map_perm _ EV).
    - assert (EG : kv_get snap (dk r) = None).
      { rewrite AG by (left; auto). apply (rep_none _ _ _ R). exact EM. }
      rewrite EG, andb_false_r.
      destruct (dups_run l post g r (length (map dk l)) dn (w_old (tick s)) r ElG G P FG) as [old' [D1 D2]].
      rewrite D1. assert (Eq : fold_left f g r = q) by (unfold q, merged; rewrite EM; auto). rewrite Eq.
      destruct (t_ser tb q) as [v|] eqn:ES; [|easy]. rewrite <- dkq.
      set (s2 := add_ops (set_old (tick s) old') _).
      apply TAIL; [reflexivity| | |].
      + rewrite V_flt. unfold s2. rewrite V_add, V_old, V_tick.
        apply (insert_ops_rep tb LAW (e_map ev (w_tick s) (t_indexes tb))); auto; [apply (env_map_perm _ EV)|].
        rewrite QPK. exact EM.
      + rewrite V_flt. unfold s2. rewrite V_add, V_old, V_tick.
        apply (insert_ops_outside tb LAW (e_map ev (w_tick s) (t_indexes tb))); auto. apply (env_map_perm _ EV).
      + apply (flt_add_le s2); auto.
  Qed.

  Lemma upsert_folds db fl m l : kv_ok db -> ser_over tb -> filter_ok tb -> quiet ev ->
    Rep sc db m -> covers tb fl db -> Forall (row_ok sc) l ->
    length l <= e_chunk ev -> e_sort ev (map dk l) = seq 0 (length l) ->
    (forall r, In r l -> m (pk r) <> None -> ~ repeated sc l (pk r)) ->
    (forall p x, merges sc f m l p = Some x -> t_ser tb x <> None) ->
    exists w, upsert tb ev f db fl None l = (w, Ok tt) /\ Rep sc (r_db w) (merges sc f m l) /\ same_outside sc db (r_db w).
  Proof.
    intros K SO FO [Q1 Q2] R C OK LEN ES NR SER. unfold upsert, run_write.
    destruct l as [|r0 l'] eqn:EL.
    { rewrite batched_nil. eexists. split; [reflexivity|]. cbn. split; [exact R|apply same_outside_refl]. }
    rewrite <- EL in *.
    destruct (batched_chunks (St := wst T F) (e_chunk ev) l (env_chunk_pos _ EV)) as [cs [C1 C2]]. rewrite C2.
    rewrite (is_chunks_small _ _ _ C1) by (auto; subst; easy). cbn [run_chunks].
    assert (SK : map (fun i => nth i (map dk l) []) (seq 0 (length l)) = map dk l).
    { rewrite <- (map_length dk l). apply map_nth_seq. }
    assert (SS : StronglySorted ble (map dk l)).
    { pose proof (env_sort_sorted _ EV (map dk l)) as S. rewrite ES in S. exact (eq_ind _ (StronglySorted ble) S _ SK). }
    destruct (upsert_fold db (hd [] (map dk l)) db l K K SO FO OK (hd_le l SS) SS Q1 (length l) l [] (WSt [] fl (t_nil tb) 0) m)
      as [s' [E1 [E2 E3]]]; auto.
    assert (E1' : upsert_chunk tb ev f db false l (WSt [] fl (t_nil tb) 0) = (s', Ok tt)).
    { unfold upsert_chunk, sort_keys. rewrite ES. cbv zeta.
      assert (SK' : map (fun i => nth i (map dk l) ([] : bytes)) (seq 0 (length l)) = map dk l) by exact SK.
      rewrite SK'. destruct (map dk l) as [|k0 ks] eqn:EK; [subst l; easy|]. rewrite <- EK in *. rewrite map_length. exact E1. }
    rewrite E1'.
    destruct (w_ops s') as [|o os] eqn:EO.
    - eexists. split; [reflexivity|]. cbn [r_db]. unfold V in E2, E3. rewrite EO in E2, E3. auto.
    - rewrite Q2. eexists. split; [reflexivity|]. cbn [r_db]. unfold V in E2, E3. rewrite EO in E2, E3. auto.
  Qed.
End Fold.
