(** The entries a selector ranges over are the selected rows. *)

From Coq Require Import List NArith Lia Bool Arith Sorting.Sorted Sorting.Permutation.
From Verif.Model Require Import Bytes Go Keys Pebble Index Table Scan.
From Verif.Spec Require Import KeySpec StoreSpec TableSpec ScanSpec.
From Verif.Proofs Require Import BytesFacts KeysFacts KeysProps PebbleFacts TableFacts WriteFacts ReadFacts IterFacts ScanFacts.
Import ListNotations.

Lemma between_shape t i a b k : ble (t :: i :: a) k -> blt k (t :: i :: b) -> exists rest, k = t :: i :: rest.
Proof.
  unfold ble, blt. intros H1 H2. destruct k as [|x k]; [exfalso; apply H1; reflexivity|]. cbn [bcmp] in *.
  destruct (N.compare_spec (b2n t) (b2n x)) as [E|E|E].
  - apply b2n_inj in E. subst x. rewrite N.compare_refl in H2. destruct k as [|y k]; [exfalso; apply H1; reflexivity|].
    cbn [bcmp] in *. destruct (N.compare_spec (b2n i) (b2n y)) as [E|E|E].
    + apply b2n_inj in E. subst y. eauto.
    + destruct (N.compare_spec (b2n y) (b2n i)); try easy; lia.
    + exfalso. apply H1. reflexivity.
  - destruct (N.compare_spec (b2n x) (b2n t)); try easy; lia.
  - exfalso. apply H1. reflexivity.
Qed.

Lemma sorted_map_inv {A B} (R : B -> B -> Prop) (g : A -> B) l :
  StronglySorted R (map g l) -> StronglySorted (fun a b => R (g a) (g b)) l.
Proof.
  induction l as [|a l IH]; intro H; [constructor|]. inversion H as [|? ? H1 H2]; subst. constructor; auto.
  rewrite Forall_forall in *. intros x Hx. apply H2. apply in_map; auto.
Qed.

Lemma choose_list {A B} (Q : A -> B -> Prop) l : (forall a, In a l -> exists b, Q a b) -> exists l', Forall2 Q l l'.
Proof.
  induction l as [|a l IH]; intro H; [exists []; constructor|].
  destruct (H a (or_introl eq_refl)) as [b Hb]. destruct IH as [l' F]; [intros; apply H; right; auto|]. exists (b :: l'). constructor; auto.
Qed.

Lemma sorted_weaken {A} (R R' : A -> A -> Prop) l : (forall a b, In a l -> In b l -> R a b -> R' a b) ->
  StronglySorted R l -> StronglySorted R' l.
Proof.
  intros H S. induction S as [|a l S IH F]; constructor.
  - apply IH. intros; apply H; auto; right; auto.
  - rewrite Forall_forall in *. intros x Hx. apply H; auto; [left; auto|right; auto].
Qed.

Lemma last_ff_cases (l : bytes) : l <> [] -> last l x00 <> xff -> last_not_ff l.
Proof.
  intros NE H. destruct (exists_last NE) as [p [b ->]]. rewrite last_last in H. exists p, b. split; auto.
  pose proof (b2n_lt b). destruct (N.eq_dec (b2n b) 255) as [E|E]; [|lia]. apply ff_byte in E. easy.
Qed.

Lemma succ_shape t i a b rest : last_not_ff (t :: i :: a :: b ++ rest) -> exists r, key_successor (t :: i :: a :: b ++ rest) = t :: i :: r.
Proof.
  intros [p [x [E H]]]. rewrite E, key_successor_last by auto.
  destruct p as [|p1 [|p2 p]]; [easy|destruct rest, b; easy|]. cbn [app] in *. injection E as -> -> _. eauto.
Qed.

Lemma succ_rev_app l x : ~ all_ff l -> succ_rev (l ++ x) = succ_rev l ++ x.
Proof.
  induction l as [|b l IH]; intro H; [exfalso; apply H; intros b []|]. cbn [app succ_rev].
  destruct (N.eqb_spec (b2n b) 255) as [E|E]; [|reflexivity]. rewrite IH; [reflexivity|].
  intro A. apply H. intros c [<-|Hc]; auto.
Qed.

Lemma succ_app a l : ~ all_ff l -> key_successor (a ++ l) = a ++ key_successor l.
Proof.
  intro H. unfold key_successor. rewrite rev_app_distr, succ_rev_app, rev_app_distr, rev_involutive; auto.
  intro A. apply H. intros b Hb. apply A. rewrite <- in_rev. auto.
Qed.

Lemma len_not_ff n : (n < 2 ^ 32 - 1)%N -> ~ all_ff (be_bytes 4 n).
Proof.
  intros H A. assert (X : forall l, length l = 4 -> all_ff l -> l = [xff; xff; xff; xff]).
  { intros l L B. destruct l as [|a [|b [|c [|d [|e l]]]]]; try discriminate L.
    rewrite (ff_byte a), (ff_byte b), (ff_byte c), (ff_byte d); auto; apply B; cbn; auto. }
  specialize (X _ (be_bytes_length 4 n) A). apply (f_equal be_val) in X.
  rewrite be_val_bytes_small in X.
  - change (be_val [xff; xff; xff; xff]) with (2 ^ 32 - 1)%N in X. lia.
  - change (256 ^ N.of_nat 4)%N with (2 ^ 32)%N. lia.
Qed.

Lemma all_ff_app a b : all_ff (a ++ b) -> all_ff a /\ all_ff b.
Proof. intro H. split; intros x Hx; apply H; apply in_or_app; auto. Qed.

Section Rows.
  Context {T F : Type}.
  Variable tb : table T F.
  Hypothesis LAW : lawful tb.
  Notation sc := (schema_of tb).
  Variable idx : index T.
  Hypothesis IDX : In idx (primary_index :: t_indexes tb).
  Notation ix := (sindex_of idx).
  Notation K := (entry_key sc ix).

  Definition prim : bool := Byte.eqb (ix_id idx) primary_index_id.

  Lemma prim_cases : (prim = true /\ idx = primary_index) \/ (prim = false /\ In idx (t_indexes tb)).
  Proof.
    unfold prim. destruct IDX as [<-|H]; [left; auto|]. right. split; auto.
    pose proof (law_nonzero _ LAW _ H) as N. destruct (Byte.eqb (ix_id idx) primary_index_id) eqn:E; auto.
    apply Byte.byte_dec_bl in E. easy.
  Qed.

  (** what is stored with the entry of row [r] *)
  Definition val_of (r : T) : bytes := if prim then match t_ser tb r with Some v => v | None => [] end else [].

  Lemma enc_eq r : encode_index_key (t_id tb) (t_pk tb) idx r [] = K r.
  Proof.
    destruct prim_cases as [[_ ->]|[_ H]]; [|apply encode_index_key_eq; auto].
    unfold encode_index_key.
    change (entry_key sc (sindex_of primary_index) r) with ([] ++ layout (t_id tb) x00 [] [] (s_pk sc r)).
    apply (key_encode_raw_full _ _ (Some _) (Some _) _ [] [] (s_pk sc r)).
    - intro b. symmetry. apply app_nil_r.
    - intro b. symmetry. apply app_nil_r.
    - intro b. apply (law_pk _ LAW).
  Qed.

  Lemma stored_fits st m r : Rep sc st m -> m (s_pk sc r) = Some r -> parts_fit ix r.
  Proof.
    intros R H. destruct prim_cases as [[_ ->]|[_ Hin]]; [split; cbn; lia|].
    destruct (rep_rows _ _ _ R _ _ H) as [_ [RO _]]. apply (RO ix). apply in_sc_index; auto.
  Qed.

  Lemma stored_get st m r : Rep sc st m -> m (s_pk sc r) = Some r -> si_filter ix r = true -> kv_get st (K r) = Some (val_of r).
  Proof.
    intros R H FI. unfold val_of. destruct prim_cases as [[-> ->]|[-> Hin]].
    - destruct (rep_some _ _ _ _ R H) as [v [EV' G]]. rewrite EV'. rewrite (data_key_eq tb LAW) in G. exact G.
    - apply (rep_index _ _ _ R ix _ [] (in_sc_index tb _ Hin)). split; auto. exists r. auto.
  Qed.

  Lemma get_stored st m rest v : Rep sc st m -> kv_get st (t_id tb :: ix_id idx :: rest) = Some v ->
    exists r, m (s_pk sc r) = Some r /\ si_filter ix r = true /\ t_id tb :: ix_id idx :: rest = K r /\ v = val_of r.
  Proof.
    intros R G. unfold val_of. destruct prim_cases as [[-> ->]|[-> Hin]].
    - change (ix_id primary_index) with x00 in *. destruct (rep_data _ _ _ R rest v G) as [pk Epk].
      pose proof G as G2. change (t_id tb) with (s_id sc) in G2. rewrite Epk, (rep_get _ _ _ R) in G2.
      destruct (m pk) as [r|] eqn:E; [|easy]. destruct (rep_rows _ _ _ R _ _ E) as [P [_ _]].
      exists r. rewrite P. split; auto. split; auto. split; [rewrite <- P in Epk; exact Epk|].
      cbn [s_val schema_of] in G2. rewrite G2. reflexivity.
    - apply (rep_index _ _ _ R ix _ _ (in_sc_index tb _ Hin)) in G as [-> [r [A [B C]]]]. exists r. auto.
  Qed.

  Lemma pos_cmp_eq a b : parts_fit ix a -> parts_fit ix b -> pos_cmp sc ix a b = bcmp (K a) (K b).
  Proof.
    intros [A1 A2] [B1 B2]. unfold pos_cmp. symmetry.
    change (bcmp (layout (t_id tb) (ix_id idx) (si_key ix a) (si_ord ix a) (s_pk sc a))
                 (layout (t_id tb) (ix_id idx) (si_key ix b) (si_ord ix b) (s_pk sc b)) =
            first_diff [shortlex (si_key ix a) (si_key ix b); shortlex (si_ord ix a) (si_ord ix b); bcmp (s_pk sc a) (s_pk sc b)]).
    rewrite layout_bcmp by assumption. rewrite !N.compare_refl. cbn [then_cmp].
    assert (SL : forall x y, lcmp x y = shortlex x y).
    { intros x y. unfold lcmp, shortlex, blen. rewrite <- Nat2N.inj_compare. reflexivity. }
    rewrite !SL. cbn [first_diff fold_right]. unfold then_cmp.
    destruct (shortlex (si_key ix a) (si_key ix b)); auto. destruct (shortlex (si_ord ix a) (si_ord ix b)); auto.
    destruct (bcmp (s_pk sc a) (s_pk sc b)); auto.
  Qed.

  Lemma pos_lt_iff a b : parts_fit ix a -> parts_fit ix b -> pos_lt sc ix a b <-> blt (K a) (K b).
  Proof. intros. unfold pos_lt, blt. rewrite pos_cmp_eq by auto. tauto. Qed.
  Lemma pos_le_iff a b : parts_fit ix a -> parts_fit ix b -> pos_le sc ix a b <-> ble (K a) (K b).
  Proof. intros. unfold pos_le, ble. rewrite pos_cmp_eq by auto. tauto. Qed.

  Definition between (lo hi : bytes) (r : T) : Prop := ble lo (K r) /\ blt (K r) hi.

  Lemma range_rows st m lo hi lo' hi' : kv_ok st -> Rep sc st m ->
    lo = t_id tb :: ix_id idx :: lo' -> hi = t_id tb :: ix_id idx :: hi' ->
    exists l, kv_range st lo hi = map (fun r => (K r, val_of r)) l /\ listing sc ix m (between lo hi) l.
  Proof.
    intros KV R EL EH.
    set (Q := fun (e : entry) r => e = (K r, val_of r) /\ m (s_pk sc r) = Some r /\ si_filter ix r = true /\ between lo hi r).
    destruct (choose_list Q (kv_range st lo hi)) as [l F2].
    { intros [k v] Hin. apply (kv_get_in _ k v (kv_range_ok st lo hi KV)) in Hin. rewrite kv_get_range in Hin by auto.
      destruct (in_range lo hi k) eqn:IR; [|easy]. unfold in_range in IR. apply andb_true_iff in IR as [I1 I2].
      apply bleb_le in I1. apply bltb_lt in I2. destruct (between_shape (t_id tb) (ix_id idx) lo' hi' k) as [rest ->]; [congruence|congruence|].
      destruct (get_stored _ _ _ _ R Hin) as [r [A [B [C D]]]]. exists r. unfold Q, between. rewrite <- C, <- D. auto. }
    exists l.
    assert (EM : kv_range st lo hi = map (fun r => (K r, val_of r)) l).
    { clear - F2. induction F2 as [|e r es rs H F2 IH]; auto. cbn [map]. rewrite IH. destruct H as [-> _]. reflexivity. }
    split; auto.
    assert (IN : forall r, In r l -> m (s_pk sc r) = Some r /\ si_filter ix r = true /\ between lo hi r).
    { intros r Hr. clear - F2 Hr. induction F2 as [|e x es rs H F2 IH]; [easy|]. destruct Hr as [->|Hr]; [apply H|auto]. }
    split.
    - pose proof (kv_range_ok st lo hi KV) as S. unfold kv_ok in S. rewrite EM in S. apply sorted_map_inv in S.
      revert S. apply sorted_weaken. intros a b Ha Hb H. apply pos_lt_iff; auto; eapply stored_fits; eauto; apply IN; auto.
    - intro r. split; [apply IN|]. intros [A [B C]].
      assert (G : In (K r, val_of r) (kv_range st lo hi)).
      { apply kv_get_in; [apply kv_range_ok; auto|]. rewrite kv_get_range by auto. unfold in_range.
        destruct C as [C1 C2]. apply bleb_le in C1. apply bltb_lt in C2. rewrite C1, C2. cbn. apply stored_get with (m := m); auto. }
      rewrite EM in G. apply in_map_iff in G as [r' [E Hr']]. apply (f_equal fst) in E. change (K r' = K r) in E.
      destruct (IN r' Hr') as [A' _].
      assert (X : s_pk sc r' = s_pk sc r).
      { apply layout_inj in E; [tauto|..]; eapply (stored_fits st m); eauto. }
      rewrite X in A'. congruence.
  Qed.

  Lemma listing_iff m (P P' : T -> Prop) l : (forall r, m (s_pk sc r) = Some r -> P r <-> P' r) ->
    listing sc ix m P l -> listing sc ix m P' l.
  Proof.
    intros H [S I]. split; auto. intro r. rewrite I. split; intros [A [B C]]; split; auto; split; auto; apply (H r A); auto.
  Qed.

  Lemma K_prefix r : K r = prefix_layout (t_id tb) (ix_id idx) (si_key ix r) ++ be_bytes 4 (blen (si_ord ix r)) ++ si_ord ix r ++ s_pk sc r.
  Proof. apply layout_prefix. Qed.

  Lemma prefix_not_ff t i k : last k x00 <> xff -> (N.of_nat (length k) < 2 ^ 32)%N -> last_not_ff (prefix_layout t i k).
  Proof.
    intros H L. unfold prefix_layout. destruct k as [|x k].
    - exists [t; i; x00; x00; x00], x00. split; [reflexivity|]. vm_compute. reflexivity.
    - assert (NE : x :: k <> []) by discriminate. destruct (last_ff_cases (x :: k) NE H) as [p [b [E Hb]]]. rewrite E.
      exists (t :: i :: be_bytes 4 (blen (p ++ [b])) ++ p), b. split; [|exact Hb].
      cbn [app]. rewrite <- app_assoc. reflexivity.
  Qed.

  Lemma point_between m p : exact_point ix p -> forall st r, Rep sc st m -> m (s_pk sc r) = Some r ->
    between (K p) (key_successor (prefix_layout (t_id tb) (ix_id idx) (si_key ix p))) r <-> from_point sc ix p r.
  Proof.
    intros [FP NF] st r R H. pose proof (stored_fits _ _ _ R H) as FR. unfold between, from_point.
    pose proof (prefix_not_ff (t_id tb) (ix_id idx) _ NF (proj1 FP)) as PN.
    rewrite (pos_le_iff p r FP FR). split.
    - intros [A B]. assert (C : ble (prefix_layout (t_id tb) (ix_id idx) (si_key ix p)) (K r)).
      { eapply ble_trans; [|exact A]. rewrite K_prefix. apply ble_app. }
      destruct (proj1 (key_successor_exact _ _ PN) (conj C B)) as [s E]. rewrite K_prefix in E.
      apply prefix_layout_inj_app in E; [|apply FR|apply FP]. destruct E as [_ [_ [E _]]]. auto.
    - intros [A B]. split; auto. apply (key_successor_exact _ (K r) PN). rewrite K_prefix, A. eauto.
  Qed.

  Lemma end_not_ff hi : last (K hi) x00 <> xff -> last_not_ff (K hi).
  Proof. apply last_ff_cases. rewrite K_prefix. unfold prefix_layout. easy. Qed.

  Lemma range_between m lo hi : parts_fit ix lo -> exact_end sc ix m hi -> forall st r, Rep sc st m -> m (s_pk sc r) = Some r ->
    between (K lo) (key_successor (K hi)) r <-> in_between sc ix lo hi r.
  Proof.
    intros FL [FH [NF EX]] st r R H. pose proof (stored_fits _ _ _ R H) as FR. unfold between, in_between.
    rewrite (pos_le_iff lo r FL FR), (pos_le_iff r hi FR FH). apply end_not_ff in NF. split.
    - intros [A B]. split; auto. destruct (ble_total (K r) (K hi)) as [C|C]; auto.
      destruct (proj1 (key_successor_exact _ _ NF) (conj C B)) as [s E].
      assert (X : layout (t_id tb) (ix_id idx) (si_key ix r) (si_ord ix r) (s_pk sc r) =
                  layout (t_id tb) (ix_id idx) (si_key ix hi) (si_ord ix hi) (s_pk sc hi ++ s)).
      { change (K r = t_id tb :: ix_id idx :: be_bytes 4 (blen (si_key ix hi)) ++ si_key ix hi ++ be_bytes 4 (blen (si_ord ix hi)) ++ si_ord ix hi ++ s_pk sc hi ++ s).
        rewrite E. change (K hi) with (layout (t_id tb) (ix_id idx) (si_key ix hi) (si_ord ix hi) (s_pk sc hi)). unfold layout.
        cbn [app]. rewrite <- !app_assoc. reflexivity. }
      apply layout_inj in X; [|apply FR|apply FR|apply FH|apply FH]. destruct X as [_ [_ [X1 [X2 X3]]]].
      rewrite (EX r s H X1 X2 X3) in E. rewrite app_nil_r in E. rewrite E. apply ble_refl.
    - intros [A B]. split; auto. eapply ble_lt_trans; [exact B|]. rewrite <- (app_nil_r (K hi)) at 1.
      apply key_successor_gt. apply last_not_ff_not_all. auto.
  Qed.

  Lemma point_at m p : prim = true -> exact_end sc ix m p -> forall st r, Rep sc st m -> m (s_pk sc r) = Some r ->
    between (K p) (key_successor (K p)) r <-> at_point sc p r.
  Proof.
    intros PR EX st r R H. rewrite (range_between m p p (proj1 EX) EX st r R H). unfold in_between, at_point.
    pose proof (stored_fits _ _ _ R H) as FR. rewrite (pos_le_iff p r (proj1 EX) FR), (pos_le_iff r p FR (proj1 EX)). split.
    - intros [A B]. assert (E : K r = K p) by (apply ble_antisym; auto).
      apply layout_inj in E; [tauto|..]; first [apply FR|apply (proj1 EX)].
    - intro E. assert (X : K r = K p).
      { destruct prim_cases as [[_ ->]|[N _]]; [|congruence].
        change (layout (t_id tb) x00 [] [] (s_pk sc r) = layout (t_id tb) x00 [] [] (s_pk sc p)). rewrite E. reflexivity. }
      rewrite X. split; apply ble_refl.
  Qed.

  (** ** Selectors *)

  Variable db : kv.
  Variable ob : optb.
  Variable m : tmap T.
  Notation st := (view db (batch_of ob)).
  Notation open := (db_iter db (batch_of ob)).
  Hypothesis KV : kv_ok db.
  Hypothesis RD : readable (batch_of ob).
  Hypothesis REP : Rep sc st m.

  Lemma open_eq lo hi : open lo hi = new_iter st lo hi.
  Proof. destruct ob as [| |b]; cbn in *; auto. rewrite RD. reflexivity. Qed.

  Lemma items_eq o : items open o = kv_range st (fst o) (snd o).
  Proof. unfold items. rewrite open_eq. reflexivity. Qed.

  Notation entries l := (map (fun r => (K r, val_of r)) l).

  (** bounds [o] hold exactly the rows of [P] *)
  Definition holds (o : bytes * bytes) (P : T -> Prop) : Prop :=
    exists l, kv_range st (fst o) (snd o) = entries l /\ listing sc ix m P l.

  Lemma point_holds p : exact_point ix p -> exists o, point_bounds tb idx false p = Ok o /\ holds o (from_point sc ix p).
  Proof.
    intros EP. unfold point_bounds. rewrite enc_eq, K_prefix, key_prefix_of_layout by apply EP. rewrite <- K_prefix.
    eexists. split; [reflexivity|]. destruct EP as [FP NF].
    pose proof (prefix_not_ff (t_id tb) (ix_id idx) _ NF (proj1 FP)) as PN.
    destruct (succ_shape (t_id tb) (ix_id idx) (nth 0 (be_bytes 4 (blen (si_key ix p))) x00)
                (skipn 1 (be_bytes 4 (blen (si_key ix p)))) (si_key ix p)) as [hi' EH].
    { exact PN. }
    assert (EH' : key_successor (prefix_layout (t_id tb) (ix_id idx) (si_key ix p)) = t_id tb :: ix_id idx :: hi') by exact EH.
    destruct (range_rows st m (K p) (key_successor (prefix_layout (t_id tb) (ix_id idx) (si_key ix p))) _ hi' (view_ok _ _ KV) REP eq_refl EH')
      as [l [E1 E2]].
    exists l. split; auto. revert E2. apply listing_iff. intros r H. apply (point_between m p (conj FP NF) st r REP H).
  Qed.

  Lemma range_holds lo hi : parts_fit ix lo -> exact_end sc ix m hi -> holds (range_bounds tb idx lo hi) (in_between sc ix lo hi).
  Proof.
    intros FL EX. unfold range_bounds. rewrite !enc_eq. pose proof EX as [FH [NF _]]. apply end_not_ff in NF.
    destruct (succ_shape (t_id tb) (ix_id idx) (nth 0 (be_bytes 4 (blen (si_key ix hi))) x00)
                (skipn 1 (be_bytes 4 (blen (si_key ix hi)))) (si_key ix hi ++ be_bytes 4 (blen (si_ord ix hi)) ++ si_ord ix hi ++ s_pk sc hi)) as [hi' EH].
    { exact NF. }
    assert (EH' : key_successor (K hi) = t_id tb :: ix_id idx :: hi') by exact EH.
    destruct (range_rows st m (K lo) (key_successor (K hi)) _ hi' (view_ok _ _ KV) REP eq_refl EH') as [l [E1 E2]].
    exists l. split; auto. revert E2. apply listing_iff. intros r H. apply (range_between m lo hi FL EX st r REP H).
  Qed.

  Lemma exact_holds p : prim = true -> exact_end sc ix m p -> exists o, point_bounds tb idx true p = Ok o /\ holds o (at_point sc p).
  Proof.
    intros PR EX. destruct (range_holds p p (proj1 EX) EX) as [l [E1 E2]].
    exists (range_bounds tb idx p p). split.
    - unfold point_bounds, range_bounds. rewrite enc_eq. rewrite K_prefix at 1. rewrite key_prefix_of_layout by apply (proj1 EX). reflexivity.
    - exists l. split; auto. revert E2. apply listing_iff. intros r H.
      rewrite <- (range_between m p p (proj1 EX) EX st r REP H). apply (point_at m p PR EX st r REP H).
  Qed.

  Lemma points_holds ps : (forall p, In p ps -> if prim then exact_end sc ix m p else exact_point ix p) ->
    exists os, points_bounds tb idx prim ps = Ok os /\ Forall2 holds os (map (if prim then at_point sc else from_point sc ix) ps).
  Proof.
    induction ps as [|p ps IH]; intro H; [exists []; split; [reflexivity|constructor]|].
    destruct IH as [os [E FA]]; [intros; apply H; right; auto|].
    assert (X : exists o, point_bounds tb idx prim p = Ok o /\ holds o ((if prim then at_point sc else from_point sc ix) p)).
    { specialize (H p (or_introl eq_refl)). destruct prim eqn:P; [apply exact_holds|apply point_holds]; auto. }
    destruct X as [o [Eo Ho]]. exists (o :: os). cbn [points_bounds map]. rewrite Eo, E. split; [reflexivity|]. constructor; auto.
  Qed.

  Lemma ranges_holds rs : (forall r, In r rs -> exists lo hi, r = [lo; hi] /\ parts_fit ix lo /\ exact_end sc ix m hi) ->
    exists os, ranges_bounds tb idx rs = Ok os /\
      Forall2 holds os (map (fun r => match r with [lo; hi] => in_between sc ix lo hi | _ => fun _ => False end) rs).
  Proof.
    induction rs as [|r rs IH]; intro H; [exists []; split; [reflexivity|constructor]|].
    destruct IH as [os [E FA]]; [intros; apply H; right; auto|].
    destruct (H r (or_introl eq_refl)) as [lo [hi [-> [A B]]]].
    exists (range_bounds tb idx lo hi :: os). cbn [ranges_bounds map]. rewrite E. split; [reflexivity|]. constructor; auto. apply range_holds; auto.
  Qed.

  Lemma flat_holds os Ps : Forall2 holds os Ps -> exists l, flat open os = entries l /\ listings sc ix m Ps l.
  Proof.
    induction 1 as [|o P os Ps [l [E1 E2]] F2 [ls [E3 E4]]]; [exists []; split; [reflexivity|constructor]|].
    exists (l ++ ls). split; [|constructor; auto]. cbn [flat flat_map]. rewrite items_eq, E1. rewrite map_app. f_equal. exact E3.
  Qed.

  (** ** Without exactness nothing is missed *)

  Lemma over_holds lo hi' : holds (K lo, t_id tb :: ix_id idx :: hi') (between (K lo) (t_id tb :: ix_id idx :: hi')).
  Proof. apply (range_rows st m (K lo) _ _ hi' (view_ok _ _ KV) REP eq_refl eq_refl). Qed.

  Notation short := (parts_short ix).

  Lemma short_fit r : short r -> parts_fit ix r.
  Proof. intros [A B]. split; auto. lia. Qed.

  Lemma tail_not_ff r rest : short r -> ~ all_ff (be_bytes 4 (blen (si_key ix r)) ++ rest).
  Proof. intros [A _] H. apply all_ff_app in H as [H _]. exact (len_not_ff _ A H). Qed.

  Lemma point_over p : short p -> exists o P', point_bounds tb idx false p = Ok o /\ holds o P' /\
    forall r, m (s_pk sc r) = Some r -> from_point sc ix p r -> P' r.
  Proof.
    intros SH. pose proof (short_fit p SH) as FP. unfold point_bounds. rewrite enc_eq.
    assert (EK : key_prefix_of (K p) = Ok (prefix_layout (t_id tb) (ix_id idx) (si_key ix p))) by (rewrite K_prefix; apply key_prefix_of_layout, FP).
    rewrite EK. pose proof (tail_not_ff p (si_key ix p) SH) as NA.
    assert (EH : key_successor (prefix_layout (t_id tb) (ix_id idx) (si_key ix p)) =
                 t_id tb :: ix_id idx :: key_successor (be_bytes 4 (blen (si_key ix p)) ++ si_key ix p)).
    { exact (succ_app [t_id tb; ix_id idx] _ NA). }
    eexists _, _. split; [reflexivity|]. split; [rewrite EH; apply over_holds|].
    intros r H [A B]. pose proof (stored_fits _ _ r REP H) as FR. apply (pos_le_iff p r FP FR) in B. split; auto. rewrite <- EH.
    rewrite (K_prefix r), A. apply key_successor_gt. intro X.
    apply (all_ff_app [t_id tb; ix_id idx] (be_bytes 4 (blen (si_key ix p)) ++ si_key ix p)) in X as [_ X]. exact (NA X).
  Qed.

  Lemma range_over lo hi : parts_fit ix lo -> short hi -> exists P', holds (range_bounds tb idx lo hi) P' /\
    forall r, m (s_pk sc r) = Some r -> in_between sc ix lo hi r -> P' r.
  Proof.
    intros FL SH. pose proof (short_fit hi SH) as FH. unfold range_bounds. rewrite !enc_eq.
    set (tl := be_bytes 4 (blen (si_key ix hi)) ++ si_key ix hi ++ be_bytes 4 (blen (si_ord ix hi)) ++ si_ord ix hi ++ s_pk sc hi).
    assert (NA : ~ all_ff tl) by (apply tail_not_ff; auto).
    assert (EH : key_successor (K hi) = t_id tb :: ix_id idx :: key_successor tl).
    { exact (succ_app [t_id tb; ix_id idx] _ NA). }
    eexists. split; [rewrite EH; apply over_holds|].
    intros r H [A B]. pose proof (stored_fits _ _ r REP H) as FR. apply (pos_le_iff lo r FL FR) in A. apply (pos_le_iff r hi FR FH) in B.
    split; auto. rewrite <- EH. eapply ble_lt_trans; [exact B|]. rewrite <- (app_nil_r (K hi)) at 1.
    apply key_successor_gt. intro X. apply (all_ff_app [t_id tb; ix_id idx] tl) in X as [_ X]. exact (NA X).
  Qed.

  Lemma exact_over p : prim = true -> short p -> exists o P', point_bounds tb idx true p = Ok o /\ holds o P' /\
    forall r, m (s_pk sc r) = Some r -> at_point sc p r -> P' r.
  Proof.
    intros PR SH. pose proof (short_fit p SH) as FP. destruct (range_over p p FP SH) as [P' [H1 H2]].
    exists (range_bounds tb idx p p), P'. split; [|split; auto].
    - unfold point_bounds, range_bounds. rewrite enc_eq. rewrite K_prefix at 1. rewrite key_prefix_of_layout by apply FP. reflexivity.
    - intros r H E. apply H2; auto. pose proof (stored_fits _ _ r REP H) as FR.
      assert (X : K r = K p).
      { destruct prim_cases as [[_ ->]|[N _]]; [|congruence].
        change (layout (t_id tb) x00 [] [] (s_pk sc r) = layout (t_id tb) x00 [] [] (s_pk sc p)). rewrite E. reflexivity. }
      split; apply pos_le_iff; auto; rewrite X; apply ble_refl.
  Qed.

  (** [Ps'] select at least what [Ps] select *)
  Definition wider (P P' : T -> Prop) : Prop := forall r, m (s_pk sc r) = Some r -> P r -> P' r.

  Lemma points_over ps : (forall p, In p ps -> short p) ->
    exists os Ps', points_bounds tb idx prim ps = Ok os /\ Forall2 holds os Ps' /\
      Forall2 wider (map (if prim then at_point sc else from_point sc ix) ps) Ps'.
  Proof.
    induction ps as [|p ps IH]; intro H; [exists [], []; split; [reflexivity|split; constructor]|].
    destruct IH as [os [Ps' [E [FA FB]]]]; [intros; apply H; right; auto|].
    assert (X : exists o P', point_bounds tb idx prim p = Ok o /\ holds o P' /\
                  forall r, m (s_pk sc r) = Some r -> (if prim then at_point sc else from_point sc ix) p r -> P' r).
    { specialize (H p (or_introl eq_refl)). destruct prim eqn:P; [apply exact_over|apply point_over]; auto. }
    destruct X as [o [P' [Eo [Ho W]]]]. exists (o :: os), (P' :: Ps'). cbn [points_bounds map]. rewrite Eo, E.
    split; [reflexivity|]. split; constructor; auto.
  Qed.

  Lemma ranges_over rs : (forall r, In r rs -> exists lo hi, r = [lo; hi] /\ parts_fit ix lo /\ short hi) ->
    exists os Ps', ranges_bounds tb idx rs = Ok os /\ Forall2 holds os Ps' /\
      Forall2 wider (map (fun r => match r with [lo; hi] => in_between sc ix lo hi | _ => fun _ => False end) rs) Ps'.
  Proof.
    induction rs as [|r rs IH]; intro H; [exists [], []; split; [reflexivity|split; constructor]|].
    destruct IH as [os [Ps' [E [FA FB]]]]; [intros; apply H; right; auto|].
    destruct (H r (or_introl eq_refl)) as [lo [hi [-> [A B]]]]. destruct (range_over lo hi A B) as [P' [H1 H2]].
    exists (range_bounds tb idx lo hi :: os), (P' :: Ps'). cbn [ranges_bounds map]. rewrite E. split; [reflexivity|]. split; constructor; auto.
  Qed.

  Notation short_sel := (short_sel ix).

  Lemma index_iter_over sel : ob <> NilBatch -> short_sel sel ->
    exists b l Ps', index_iter tb db ob idx sel = Ok b /\ fresh b /\
      contents open b = entries l /\ listings sc ix m Ps' l /\ Forall2 wider (selections sc ix prim sel) Ps'.
  Proof.
    intros NB EX. assert (CH : forall r : res biter, match ob with NilBatch => Panic | _ => r end = r) by (destruct ob; easy).
    unfold index_iter. fold prim. destruct sel as [p|ps|lo hi|rs|]; cbn [ScanSpec.short_sel selections] in *.
    - destruct (point_over p EX) as [[lo hi] [P' [E [[l [H1 H2]] W]]]]. rewrite E, CH.
      exists (BOne (open lo hi)), l, [P']. split; auto. split; [exact I|]. split; [cbn [contents]; rewrite open_eq; exact H1|].
      split; [rewrite <- (app_nil_r l); repeat (constructor; auto)|]. repeat (constructor; auto).
    - destruct EX as [NE EX]. destruct (points_over ps EX) as [os [Ps' [E [FA FB]]]]. rewrite E, CH.
      destruct (flat_holds _ _ FA) as [l [H1 H2]].
      destruct os as [|[lo hi] os]; [inversion FA; subst; inversion FB as [X|]; destruct ps; easy|]. cbn [new_multi].
      eexists _, l, Ps'. split; [reflexivity|]. split; [easy|]. split; auto.
    - destruct EX as [FL EX]. destruct (range_over lo hi (short_fit _ FL) EX) as [P' [[l [H1 H2]] W]].
      destruct (range_bounds tb idx lo hi) as [a b]. rewrite CH.
      exists (BOne (open a b)), l, [P']. split; auto. split; [exact I|]. split; [cbn [contents]; rewrite open_eq; exact H1|].
      split; [rewrite <- (app_nil_r l); repeat (constructor; auto)|]. repeat (constructor; auto).
    - destruct EX as [NE EX]. destruct (ranges_over rs) as [os [Ps' [E [FA FB]]]].
      { intros r Hr. destruct (EX r Hr) as [lo [hi [A [B C]]]]. exists lo, hi. auto using short_fit. }
      rewrite E, CH. destruct (flat_holds _ _ FA) as [l [H1 H2]].
      destruct os as [|[lo hi] os]; [inversion FA; subst; inversion FB as [X|]; destruct rs; easy|]. cbn [new_multi].
      eexists _, l, Ps'. split; [reflexivity|]. split; [easy|]. split; auto.
    - easy.
  Qed.

  Lemma index_iter_rows sel : ob <> NilBatch -> exact_sel sc ix m prim sel ->
    exists b l, index_iter tb db ob idx sel = Ok b /\ fresh b /\
      contents open b = entries l /\ listings sc ix m (selections sc ix prim sel) l.
  Proof.
    intros NB EX. assert (CH : forall r : res biter, match ob with NilBatch => Panic | _ => r end = r) by (destruct ob; easy).
    unfold index_iter. fold prim. destruct sel as [p|ps|lo hi|rs|]; cbn [exact_sel selections] in *.
    - destruct (point_holds p EX) as [[lo hi] [E [l [H1 H2]]]]. rewrite E, CH.
      exists (BOne (open lo hi)), l. split; auto. split; [exact I|]. split; [cbn [contents]; rewrite open_eq; exact H1|].
      rewrite <- (app_nil_r l). repeat (constructor; auto).
    - destruct EX as [NE EX]. destruct (points_holds ps EX) as [os [E FA]]. rewrite E, CH.
      destruct (flat_holds _ _ FA) as [l [H1 H2]].
      destruct os as [|[lo hi] os]; [destruct ps; [easy|inversion FA]|]. cbn [new_multi].
      eexists _, l. split; [reflexivity|]. split; [easy|]. split; auto.
    - destruct EX as [FL EX]. destruct (range_holds lo hi FL EX) as [l [H1 H2]].
      destruct (range_bounds tb idx lo hi) as [a b]. rewrite CH.
      exists (BOne (open a b)), l. split; auto. split; [exact I|]. split; [cbn [contents]; rewrite open_eq; exact H1|].
      rewrite <- (app_nil_r l). repeat (constructor; auto).
    - destruct EX as [NE EX]. destruct (ranges_holds rs EX) as [os [E FA]]. rewrite E, CH.
      destruct (flat_holds _ _ FA) as [l [H1 H2]].
      destruct os as [|[lo hi] os]; [destruct rs; [easy|inversion FA]|]. cbn [new_multi].
      eexists _, l. split; [reflexivity|]. split; [easy|]. split; auto.
    - easy.
  Qed.

  (** ** What a scan really visits *)

  Lemma bumped_succ k : ~ all_ff k -> forall k', bumped k k' <-> k' = key_successor k.
  Proof.
    intros NA k'. destruct (key_successor_split k) as [[Ha _]|[p [b [f [E [Hb ->]]]]]]; [easy|]. split.
    - intros [a [c [c' [n [E1 [-> EC]]]]]]. rewrite E in E1.
      assert (C : (b2n c < 255)%N) by (pose proof (b2n_lt c'); unfold b2n in *; lia).
      assert (X : forall (p a : bytes) b c f n, p ++ b :: repeat xff f = a ++ c :: repeat xff n -> (b2n b < 255)%N -> (b2n c < 255)%N -> p = a /\ b = c /\ f = n).
      { clear. intros p a b c f n E Hb Hc. assert (FN : f = n).
        { apply (f_equal (@rev byte)) in E. rewrite !rev_app_distr in E. cbn [rev] in E. rewrite !rev_repeat, <- !app_assoc in E. cbn [app] in E.
          clear - E Hb Hc. revert n E. induction f as [|f IH]; intros [|n] E; cbn [repeat app] in E; auto.
          - inversion E. subst. vm_compute in Hb. discriminate.
          - inversion E. subst. vm_compute in Hc. discriminate.
          - f_equal. apply IH. congruence. }
        subst n. change (b :: repeat xff f) with ([b] ++ repeat xff f) in E. change (c :: repeat xff f) with ([c] ++ repeat xff f) in E.
        rewrite !app_assoc in E. apply app_inv_tail in E. apply app_inj_tail in E as [-> ->]. auto. }
      destruct (X _ _ _ _ _ _ E1 Hb C) as [-> [-> ->]]. f_equal. f_equal. apply b2n_inj. rewrite b2n_succ by auto. exact EC.
    - intros ->. exists p, b, (n2b (b2n b + 1)), f. split; auto. split; auto. apply b2n_succ. auto.
  Qed.

  Lemma up_to_iff lo top : ~ all_ff top -> parts_fit ix lo -> forall r, m (s_pk sc r) = Some r ->
    between (K lo) (key_successor top) r <-> up_to sc ix lo top r.
  Proof.
    intros NA FL r H. pose proof (stored_fits _ _ r REP H) as FR. unfold between, up_to. rewrite (pos_le_iff lo r FL FR).
    split; intros [A B]; split; auto.
    - exists (key_successor top). split; [apply bumped_succ; auto|exact B].
    - destruct B as [t' [B C]]. apply (proj1 (bumped_succ top NA t')) in B. subst t'. exact C.
  Qed.

  Lemma start_eq p : entry_start sc ix p = prefix_layout (t_id tb) (ix_id idx) (si_key ix p).
  Proof. reflexivity. Qed.

  Lemma up_to_holds lo top rest : parts_fit ix lo -> top = t_id tb :: ix_id idx :: rest -> ~ all_ff rest ->
    holds (K lo, key_successor top) (up_to sc ix lo top).
  Proof.
    intros FL -> NA. assert (EH : key_successor (t_id tb :: ix_id idx :: rest) = t_id tb :: ix_id idx :: key_successor rest).
    { exact (succ_app [t_id tb; ix_id idx] rest NA). }
    assert (NB : ~ all_ff (t_id tb :: ix_id idx :: rest)).
    { intro X. apply (all_ff_app [t_id tb; ix_id idx] rest) in X as [_ X]. exact (NA X). }
    destruct (over_holds lo (key_successor rest)) as [l [H1 H2]]. rewrite <- EH in H1, H2. exists l. split; auto.
    revert H2. apply listing_iff. intros r H. apply up_to_iff; auto.
  Qed.

  Lemma point_really p : short p -> exists o, point_bounds tb idx false p = Ok o /\ holds o (up_to sc ix p (entry_start sc ix p)).
  Proof.
    intros SH. pose proof (short_fit p SH) as FP. unfold point_bounds. rewrite enc_eq.
    assert (EK : key_prefix_of (K p) = Ok (prefix_layout (t_id tb) (ix_id idx) (si_key ix p))) by (rewrite K_prefix; apply key_prefix_of_layout, FP).
    rewrite EK. eexists. split; [reflexivity|]. eapply up_to_holds; [exact FP|reflexivity|apply (tail_not_ff p (si_key ix p) SH)].
  Qed.

  Lemma range_really lo hi : parts_fit ix lo -> short hi -> holds (range_bounds tb idx lo hi) (up_to sc ix lo (K hi)).
  Proof.
    intros FL SH. unfold range_bounds. rewrite !enc_eq. eapply up_to_holds; [exact FL|reflexivity|].
    apply (tail_not_ff hi (si_key ix hi ++ be_bytes 4 (blen (si_ord ix hi)) ++ si_ord ix hi ++ s_pk sc hi) SH).
  Qed.

  Lemma exact_really p : short p -> exists o, point_bounds tb idx true p = Ok o /\ holds o (up_to sc ix p (K p)).
  Proof.
    intros SH. pose proof (short_fit p SH) as FP. exists (range_bounds tb idx p p). split; [|apply range_really; auto].
    unfold point_bounds, range_bounds. rewrite enc_eq. rewrite K_prefix at 1. rewrite key_prefix_of_layout by apply FP. reflexivity.
  Qed.

  Lemma points_really ps : (forall p, In p ps -> short p) ->
    exists os, points_bounds tb idx prim ps = Ok os /\
      Forall2 holds os (map (fun p => up_to sc ix p (if prim then K p else entry_start sc ix p)) ps).
  Proof.
    induction ps as [|p ps IH]; intro H; [exists []; split; [reflexivity|constructor]|].
    destruct IH as [os [E FA]]; [intros; apply H; right; auto|].
    assert (X : exists o, point_bounds tb idx prim p = Ok o /\ holds o (up_to sc ix p (if prim then K p else entry_start sc ix p))).
    { specialize (H p (or_introl eq_refl)). destruct prim; [apply exact_really|apply point_really]; auto. }
    destruct X as [o [Eo Ho]]. exists (o :: os). cbn [points_bounds map]. rewrite Eo, E. split; [reflexivity|]. constructor; auto.
  Qed.

  Lemma ranges_really rs : (forall r, In r rs -> exists lo hi, r = [lo; hi] /\ parts_fit ix lo /\ short hi) ->
    exists os, ranges_bounds tb idx rs = Ok os /\
      Forall2 holds os (map (fun r => match r with [lo; hi] => up_to sc ix lo (K hi) | _ => fun _ => False end) rs).
  Proof.
    induction rs as [|r rs IH]; intro H; [exists []; split; [reflexivity|constructor]|].
    destruct IH as [os [E FA]]; [intros; apply H; right; auto|].
    destruct (H r (or_introl eq_refl)) as [lo [hi [-> [A B]]]].
    exists (range_bounds tb idx lo hi :: os). cbn [ranges_bounds map]. rewrite E. split; [reflexivity|]. constructor; auto. apply range_really; auto.
  Qed.

  Lemma index_iter_really sel : ob <> NilBatch -> short_sel sel ->
    exists b l, index_iter tb db ob idx sel = Ok b /\ fresh b /\
      contents open b = entries l /\ listings sc ix m (really sc ix prim sel) l.
  Proof.
    intros NB EX. assert (CH : forall r : res biter, match ob with NilBatch => Panic | _ => r end = r) by (destruct ob; easy).
    unfold index_iter. fold prim. destruct sel as [p|ps|lo hi|rs|]; cbn [ScanSpec.short_sel really] in *.
    - destruct (point_really p EX) as [[lo hi] [E [l [H1 H2]]]]. rewrite E, CH.
      exists (BOne (open lo hi)), l. split; auto. split; [exact I|]. split; [cbn [contents]; rewrite open_eq; exact H1|].
      rewrite <- (app_nil_r l). repeat (constructor; auto).
    - destruct EX as [NE EX]. destruct (points_really ps EX) as [os [E FA]]. rewrite E, CH.
      destruct (flat_holds _ _ FA) as [l [H1 H2]].
      destruct os as [|[lo hi] os]; [destruct ps; [easy|inversion FA]|]. cbn [new_multi].
      eexists _, l. split; [reflexivity|]. split; [easy|]. split; auto.
    - destruct EX as [FL EX]. destruct (range_really lo hi (short_fit _ FL) EX) as [l [H1 H2]].
      destruct (range_bounds tb idx lo hi) as [a b]. rewrite CH.
      exists (BOne (open a b)), l. split; auto. split; [exact I|]. split; [cbn [contents]; rewrite open_eq; exact H1|].
      rewrite <- (app_nil_r l). repeat (constructor; auto).
    - destruct EX as [NE EX]. destruct (ranges_really rs) as [os [E FA]].
      { intros r Hr. destruct (EX r Hr) as [lo [hi [A [B C]]]]. exists lo, hi. auto using short_fit. }
      rewrite E, CH. destruct (flat_holds _ _ FA) as [l [H1 H2]].
      destruct os as [|[lo hi] os]; [destruct rs; [easy|inversion FA]|]. cbn [new_multi].
      eexists _, l. split; [reflexivity|]. split; [easy|]. split; auto.
    - easy.
  Qed.
End Rows.
