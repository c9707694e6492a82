(** Initialising a filter while the table is in use. *)

From Coq Require Import List NArith Lia Bool Sorting.Sorted Sorting.Permutation Arith.
From Verif.Model Require Import Bytes Go Keys Pebble Index Table Scan AnyScan Bloom Concur LiveFilter.
From Verif.Spec Require Import KeySpec TableSpec HistSpec ScanSpec ConcurSpec BloomSpec.
From Verif.Proofs Require Import BytesFacts KeysFacts PebbleFacts TableFacts WriteFacts UpdateFacts UpsertFacts CallFacts LocalFacts ReadFacts FilterSim BloomFacts ConcurFacts ScanFacts ScanRows ScanProps ScanTop AnyFacts FilterFacts.
Import ListNotations.

(** ** What one round adds to the filter *)
Section Rounds.
  Context {T F : Type} {tb : table T F} {LAW : lawful tb}.
  Variable fa : filt F.
  Variable B : F -> bytes -> bool.
  Variable on : F -> bool.
  Hypothesis TF : t_filter tb = Some fa.
  Hypothesis B_add : forall z k, B (f_add fa z k) k = true.
  Hypothesis B_keep : forall z k k', B z k = true -> B (f_add fa z k') k = true.
  Hypothesis on_add : forall z k, on (f_add fa z k) = on z.
  Notation dk := (data_key tb).
  Notation hi := (data_key_space_end tb).

  (** row keys set since [s] were added to the filter, or are in the database *)
  Definition tracked (snap : kv) (rows : list T) (s s' : wst T F) : Prop :=
    (forall k, B (w_flt s) k = true -> B (w_flt s') k = true) /\ on (w_flt s') = on (w_flt s) /\
    forall rest v, In (BSet (t_id tb :: x00 :: rest) v) (w_ops s') ->
      In (BSet (t_id tb :: x00 :: rest) v) (w_ops s) \/
      exists r, In r rows /\ dk r = t_id tb :: x00 :: rest /\ (B (w_flt s') (dk r) = true \/ kv_get snap (dk r) <> None).

  Lemma tracked_refl snap rows s s' : w_flt s' = w_flt s -> w_ops s' = w_ops s -> tracked snap rows s s'.
  Proof. intros E1 E2. unfold tracked. rewrite E1, E2. auto. Qed.

  Lemma tracked_trans snap rows a b c : tracked snap rows a b -> tracked snap rows b c -> tracked snap rows a c.
  Proof.
    intros [A1 [A2 A3]] [C1 [C2 C3]]. split; [auto|]. split; [congruence|]. intros rest v H.
    destruct (C3 rest v H) as [H1|H1]; [|right; exact H1].
    destruct (A3 rest v H1) as [H2|(r & R1 & R2 & R3)]; [left; exact H2|]. right. exists r. split; auto. split; auto.
    destruct R3; auto.
  Qed.

  Lemma index_ops_none ev (EV : env_ok ev) (g : index T -> list bop) n rest v :
    (forall ix, In ix (t_indexes tb) -> Forall (op_key_under (t_id tb) (ix_id ix)) (g ix)) ->
    ~ In (BSet (t_id tb :: x00 :: rest) v) (flat_map g (e_map ev n (t_indexes tb))).
  Proof.
    intros H Hin. apply in_flat_map in Hin as [ix [H1 H2]].
    apply (Permutation_in _ (env_map_perm _ EV n _)) in H1. specialize (H ix H1). rewrite Forall_forall in H.
    specialize (H _ H2). cbn [op_key_under] in H. destruct H as [rest' E].
    apply (law_nonzero _ LAW ix H1). congruence.
  Qed.

  (** a row key set and added, or set and known to be stored *)
  Lemma tracked_set ev (EV : env_ok ev) snap rows s r v g n (s' : wst T F) :
    In r rows -> (forall ix, In ix (t_indexes tb) -> Forall (op_key_under (t_id tb) (ix_id ix)) (g ix)) ->
    w_ops s' = w_ops s ++ BSet (dk r) v :: flat_map g (e_map ev n (t_indexes tb)) ->
    w_flt s' = f_add fa (w_flt s) (dk r) \/ (w_flt s' = w_flt s /\ kv_get snap (dk r) <> None) ->
    tracked snap rows s s'.
  Proof.
    intros IR HG EO EF. split; [|split].
    - intros k H. destruct EF as [->|[-> _]]; auto.
    - destruct EF as [->|[-> _]]; auto.
    - intros rest v' H. rewrite EO in H. apply in_app_or in H as [H|[H|H]]; [auto| |exfalso; eapply index_ops_none; eauto].
      injection H as H _. right. exists r. split; auto. split; auto. destruct EF as [->|[_ X]]; auto.
  Qed.

  Lemma exist_present snap lo fl r : kv_ok snap -> ble lo (dk r) ->
    exist_key tb fl (new_iter snap lo hi) (dk r) = true -> kv_get snap (dk r) <> None.
  Proof.
    intros K L E. unfold exist_key in E. apply andb_true_iff in E as [_ E]. pose proof (probe snap lo r K L) as P. cbn zeta in P, E.
    destruct (kv_get snap (dk r)); [easy|]. congruence.
  Qed.

  Lemma insert_rows_tracked ev (EV : env_ok ev) snap it trs all : forall rs os prev s,
    incl rs all -> Forall2 (fun o r => nth_error trs o = Some r) os rs ->
    tracked snap all s (fst (insert_rows tb ev it trs prev (combine (map dk rs) os) s)).
  Proof.
    induction rs as [|r rs IH]; intros os prev s IN F2; [now apply tracked_refl|].
    inversion F2 as [|o r' os' rs' Ho F2']; subst. cbn [map combine insert_rows].
    destruct (e_ctx ev (w_tick s)); [now apply tracked_refl|]. destruct (_ || _); [now apply tracked_refl|].
    rewrite Ho. destruct (t_ser tb r) as [v|]; [|now apply tracked_refl].
    eapply tracked_trans; [|apply IH; [intros x Hx; apply IN; now right|exact F2']].
    eapply (tracked_set ev EV snap all s r v (fun ix => on_insert (t_id tb) (t_pk tb) ix r) (w_tick s)); [apply IN; now left|intros; apply on_insert_under; auto| |].
    - unfold flt_add. rewrite TF. reflexivity.
    - left. unfold flt_add. rewrite TF. reflexivity.
  Qed.

  Lemma update_rows_tracked ev (EV : env_ok ev) snap lo trs all : kv_ok snap -> forall rs os s,
    incl rs all -> Forall2 (fun o r => nth_error trs o = Some r) os rs -> Forall (fun r => ble lo (dk r)) rs ->
    tracked snap all s (fst (update_rows tb ev (new_iter snap lo hi) trs (combine (map dk rs) os) s)).
  Proof.
    intro K. induction rs as [|r rs IH]; intros os s IN F2 LO; [now apply tracked_refl|].
    inversion F2 as [|o r' os' rs' Ho F2']; subst. inversion LO as [|? ? L1 L2]; subst. cbn [map combine update_rows].
    assert (IN' : incl rs all) by (intros x Hx; apply IN; now right).
    destruct (e_ctx ev (w_tick s)); [now apply tracked_refl|].
    destruct (match combine _ _ with [] => false | _ => _ end).
    { eapply tracked_trans; [|apply IH; auto]. now apply tracked_refl. }
    cbn zeta. pose proof (probe snap lo r K L1) as P. cbn zeta in P.
    destruct (kv_get snap (dk r)) as [vo|] eqn:Gk.
    2:{ rewrite <- negb_andb, P. cbn [negb]. now apply tracked_refl. }
    destruct P as [P1 [P2 P3]]. rewrite P1, P2, P3, beqb_refl. cbn [negb orb].
    destruct (t_deser tb vo (w_old (tick s))) as [old|]; [|now apply tracked_refl].
    rewrite Ho. destruct (t_ser tb r) as [v|]; [|now apply tracked_refl].
    eapply tracked_trans; [|apply IH; auto].
    eapply (tracked_set ev EV snap all s r v (fun ix => on_update (t_id tb) (t_pk tb) ix old r) (w_tick s));
      [apply IN; now left|intros; apply on_update_under; auto|reflexivity|].
    right. split; [reflexivity|]. congruence.
  Qed.

  Lemma upsert_rows_tracked ev (EV : env_ok ev) fc snap lo trs order rs all : kv_ok snap -> incl rs all ->
    Forall (fun r => ble lo (dk r)) rs -> forall fuel i s,
    tracked snap all s (fst (upsert_rows tb ev fc fuel (new_iter snap lo hi) trs (map dk rs) order i s)).
  Proof.
    intros K IN LO. induction fuel as [|fuel IH]; intros i s; cbn [upsert_rows]; [now apply tracked_refl|].
    destruct (Nat.ltb i (length (map dk rs))) eqn:L; [|now apply tracked_refl].
    destruct (nth_error trs (nth i order 0)) as [tr|]; [|now apply tracked_refl].
    destruct (e_ctx ev (w_tick s)); [now apply tracked_refl|].
    apply Nat.ltb_lt in L. rewrite map_length in L.
    destruct rs as [|d rs'] eqn:ER; [cbn in L; lia|]. rewrite <- ER in *.
    assert (EK : nth i (map dk rs) [] = dk (nth i rs d)).
    { rewrite (nth_indep _ [] (dk d)) by (rewrite map_length; auto). apply map_nth. }
    rewrite EK. set (r := nth i rs d) in *.
    assert (HR : In r rs) by (apply nth_In; auto).
    assert (LR : ble lo (dk r)) by (rewrite Forall_forall in LO; auto).
    destruct (exist_key tb (w_flt (tick s)) (new_iter snap lo hi) (dk r)) eqn:X.
    - apply exist_present in X; auto.
      destruct (t_deser tb _ _) as [old|]; [|now apply tracked_refl].
      destruct (upsert_dups _ _ _ _ _ _ _) as [[[i' old'] tr']|]; [|now apply tracked_refl].
      destruct (t_ser tb tr') as [v|]; [|now apply tracked_refl].
      eapply tracked_trans; [|apply IH].
      eapply (tracked_set ev EV snap all s r v (fun ix => on_update (t_id tb) (t_pk tb) ix old' tr') (w_tick s));
        [auto|intros; apply on_update_under; auto|reflexivity|]. right. split; [reflexivity|]. exact X.
    - destruct (upsert_dups _ _ _ _ _ _ _) as [[[i' old'] tr']|]; [|now apply tracked_refl].
      destruct (t_ser tb tr') as [v|]; [|now apply tracked_refl].
      eapply tracked_trans; [|apply IH].
      eapply (tracked_set ev EV snap all s r v (fun ix => on_insert (t_id tb) (t_pk tb) ix tr') (w_tick s));
        [auto|intros; apply on_insert_under; auto| |]; [|left]; unfold flt_add; rewrite TF; reflexivity.
  Qed.

  Lemma delete_rows_tracked ev (EV : env_ok ev) snap all : forall trs s, tracked snap all s (fst (delete_rows tb ev trs s)).
  Proof.
    induction trs as [|r trs IH]; intro s; cbn [delete_rows]; [now apply tracked_refl|].
    destruct (e_ctx ev (w_tick s)); [now apply tracked_refl|]. eapply tracked_trans; [|apply IH].
    split; [auto|]. split; [auto|]. intros rest v H. cbn [w_ops add_ops tick] in H.
    apply in_app_or in H as [H|[H|H]]; [auto|discriminate|exfalso; eapply index_ops_none; eauto].
    intros; apply on_delete_under; auto.
  Qed.

  Lemma round_tracked ev c db rows s : env_ok ev -> kv_ok db -> tracked db rows s (fst (round tb ev c db rows s)).
  Proof.
    intros EV K. destruct c as [l|l|fc l|l]; cbn [round]; [| | |now apply delete_rows_tracked].
    1,2,3: destruct (sort_keys_rows (tb := tb) (ev := ev) rows) as [keys [order [rs [E1 [E2 [P [S F2]]]]]]];
      assert (IN : incl rs rows) by (intros x Hx; eapply Permutation_in; eauto);
      unfold insert_chunk, update_chunk, upsert_chunk; rewrite E1; subst keys; destruct (map dk rs) as [|k ks] eqn:ER; [now apply tracked_refl|];
      rewrite <- ER in S |- *; unfold chunk_iter, chunk_snapshot.
    - apply insert_rows_tracked; auto.
    - apply update_rows_tracked; auto. apply hd_le; auto.
    - apply upsert_rows_tracked; auto. apply hd_le; auto.
  Qed.
End Rounds.

(** ** The scan of the table *)
Lemma list_visit {A : Type} (l : list (bytes * A)) : forall ks,
  visit_go (T:=A) list_cb l ks = inr (ks ++ map fst l).
Proof.
  induction l as [|[k r] l IH]; intros ks; cbn [visit_go answer list_cb map fst]; [now rewrite app_nil_r|].
  rewrite IH, <- app_assoc. reflexivity.
Qed.

Lemma in_order_nodup {T} (sc : schema T) ix (l : list T) : StronglySorted (pos_lt sc ix) l -> NoDup l.
Proof.
  induction 1 as [|r l S IH A]; constructor; auto. intro I. rewrite Forall_forall in A. specialize (A r I).
  unfold pos_lt, pos_cmp, shortlex in A. rewrite !Nat.compare_refl, !bcmp_refl in A. discriminate.
Qed.

Section OwnScan.
  Context {T FI : Type}.
  Notation F := (initializable FI).
  Variable tb : table T F.
  Variable db : kv.
  Variable m : tmap T.
  Hypothesis G : good_table tb.
  Hypothesis KO : kv_ok db.
  Hypothesis R : Rep (schema_of tb) db m.
  Notation sc := (schema_of tb).
  Notation pk := (s_pk (schema_of tb)).

  Lemma listed_bound (l : list T) : NoDup l -> (forall r, In r l -> m (pk r) = Some r) -> length l <= length db.
  Proof.
    intros N H. rewrite <- (map_length (fun r => row_key sc (pk r)) l).
    enough (X : length (map (fun r => row_key sc (pk r)) l) <= length (map fst db)) by (now rewrite (map_length fst db) in X).
    apply NoDup_incl_length.
    - induction N as [|r l NI N IH]; cbn [map]; constructor.
      + intro X. apply in_map_iff in X as (r' & E & I). unfold row_key, spec_key in E. cbn in E.
        injection E as E. apply NI. assert (r = r'); [|subst; auto].
        pose proof (H r (or_introl eq_refl)) as A. pose proof (H r' (or_intror I)) as A'. cbn in *. congruence.
      + apply IH. intros; apply H; now right.
    - intros k X. apply in_map_iff in X as (r & <- & I). pose proof (rep_get _ _ _ R (pk r)) as RG. rewrite (H r I) in RG.
      destruct (rep_rows _ _ _ R _ _ (H r I)) as (_ & _ & V). destruct (s_val sc r) as [v|]; [|easy].
      apply kv_get_in in RG; auto. apply (in_map fst) in RG. exact RG.
  Qed.

  Lemma own_scan {A} ev (inj : T -> A) z ks :
    (forall p r, m p = Some r -> bcmp (pk (t_empty tb)) p <> Gt) ->
    own_scanner tb ev inj db z = (ks, Ok tt) -> forall p r, m p = Some r -> In (row_key sc p) ks.
  Proof.
    intros Z E p r M.
    assert (G0 : good_table (no_filter tb)).
    { destruct G as [GL GS _]. constructor; [destruct GL; constructor; auto|exact GS|intros f0 E0; discriminate]. }
    assert (X : exact_selector (no_filter tb) primary_index m (SPoint (t_empty tb))).
    { cbn. unfold exact_point, parts_fit. cbn. repeat split; discriminate || reflexivity. }
    destruct (t_each_primary (no_filter tb) G0 ev db z NoBatch m (nf_reads tb db m KO R z) (SPoint (t_empty tb)) X) as (l & S & H).
    apply one_listing in S. destruct S as [S0 S].
    assert (IN : forall q, In q l <-> m (pk q) = Some q /\ bcmp (pk (t_empty tb)) (pk q) <> Gt).
    { intros q. rewrite S. cbn. unfold from_point, pos_le, pos_cmp. cbn.
      destruct (bcmp (t_pk tb (new_kb []) (t_empty tb)) (t_pk tb (new_kb []) q)) eqn:EQ; cbn; intuition congruence. }
    assert (LB : length l <= length db).
    { apply listed_bound; [|intros q Q; now apply IN in Q]. eapply in_order_nodup. exact S0. }
    assert (V : any_visited ev list_cb (injected inj (keyed sc sprimary l)) [] (own_scanner tb ev inj db z)).
    { apply visited_lift. unfold own_scanner, any_scan_for_each, scan_for_each.
      change (keyed sc sprimary l) with (keyed (schema_of (no_filter tb)) sprimary (dir false l)).
      change (scan_index_for_each tb ev (length db) db z primary_index (SPoint (t_empty tb)) (fun s k => lift_prog inj (list_cb s k)) false NoBatch [])
        with (scan_index_for_each (no_filter tb) ev (length db) db z primary_index (SPoint (t_empty tb)) (fun s k => lift_prog inj (list_cb s k)) false NoBatch []).
      apply H. left. unfold keyed, dir. now rewrite map_length. }
    destruct V as [_ [V|(k & s' & _ & _ & V)]]; rewrite E in V; [|discriminate].
    unfold visit in V. rewrite list_visit in V. injection V as ->. cbn [app].
    rewrite injected_keys. destruct (rep_rows _ _ _ R p r M) as [<- _]. apply in_map_iff. exists r. split; auto.
    apply IN. split; eauto.
  Qed.
End OwnScan.

(** ** Calls and initialisation together *)
Section Together.
  Context {T FI A : Type}.
  Notation F := (initializable FI).
  Variable tb : table T F.
  Variable f : filt FI.
  Hypothesis TF : t_filter tb = Some (iz_filt f).
  Hypothesis G : good_table tb.
  Hypothesis FO : filt_ok f.
  Variable load : FI -> FI * res unit.
  Variable clear : res unit.
  Variables (db0 : kv) (fl0 : FI) (m0 : tmap T) (h : list (env T * call T)) (evi : env T) (inj : T -> A) (scs0 : list (scanner (FI:=FI))).
  Hypothesis K0 : kv_ok db0.
  Hypothesis R0 : Rep (schema_of tb) db0 m0.
  Hypothesis EVS : Forall (fun ec => env_ok (fst ec)) h.
  Hypothesis AD0 : Forall (admissible (schema_of tb) m0) (map snd h).
  Hypothesis DJ0 : ForallOrdPairs (disjoint (schema_of tb)) (map snd h).
  Notation sc := (schema_of tb).
  Notation pk := (s_pk (schema_of tb)).
  Notation own := (own_scanner tb evi inj).
  Hypothesis LOAD_KEEPS : forall fl k, f_may f fl k = true -> f_may f (fst (load fl)) k = true.
  Hypothesis LOAD_KNOWS : forall fl p r, snd (load fl) = Ok tt -> m0 p = Some r -> f_may f (fst (load fl)) (row_key sc p) = true.
  Hypothesis OWN : In own scs0.
  Hypothesis ZERO0 : forall p r, m0 p = Some r -> bcmp (pk (t_empty tb)) p <> Gt.
  Hypothesis ZERO : forall ec r, In ec h -> In r (rows_of (snd ec)) -> bcmp (pk (t_empty tb)) (pk r) <> Gt.
  Let LAW := good_lawful _ G.
  Notation z0 := (Initz fl0 false).
  Notation bits := (fun (z : F) k => f_may f (iz_flt z) k).

  Lemma data_row db m rest v : Rep sc db m -> kv_get db (t_id tb :: x00 :: rest) = Some v ->
    exists p r, t_id tb :: x00 :: rest = row_key sc p /\ m p = Some r.
  Proof.
    intros R E. destruct (rep_data _ _ _ R rest v E) as [q Q]. change (t_id tb :: x00 :: rest = row_key sc q) in Q.
    rewrite Q in E. pose proof (rep_get _ _ _ R q) as RG. rewrite RG in E. destruct (m q) as [r|] eqn:M; [|discriminate].
    exists q, r. auto.
  Qed.

  Lemma cons0 : consistent tb db0 z0 m0.
  Proof. constructor; auto. intros f' rest v E _. rewrite TF in E. injection E as <-. reflexivity. Qed.

  Notation inv := (inv tb db0 z0 m0 h).

  (** what is still to be added *)
  Definition pending (p : phase (FI:=FI)) (k : bytes) : Prop :=
    match p with
    | PLoad scs | PClear scs => In own scs /\ kv_get db0 k <> None
    | POpen scs => In own scs
    | PAdd ks r scs => r <> Ok tt \/ In own scs \/ In k ks
    | PFlag => False
    | PEnd r => r <> Ok tt
    end.

  Record linv (y : lsys (T:=T) (FI:=FI)) : Prop := MkLinv {
    li_inv : inv (lv_sys y);
    li_on : iz_on (y_flt (lv_sys y)) = true <-> lv_init y = PEnd (Ok tt);
    li_db : forall rest v, kv_get (y_db (lv_sys y)) (t_id tb :: x00 :: rest) = Some v ->
      bits (y_flt (lv_sys y)) (t_id tb :: x00 :: rest) = true \/ pending (lv_init y) (t_id tb :: x00 :: rest);
    li_ops : forall th rest v, In th (y_threads (lv_sys y)) -> th_res th = None -> In (BSet (t_id tb :: x00 :: rest) v) (w_ops (th_st th)) ->
      exists r, In r (rows_of (th_call th)) /\ data_key tb r = t_id tb :: x00 :: rest /\
        (bits (y_flt (lv_sys y)) (data_key tb r) = true \/ kv_get db0 (data_key tb r) <> None)
  }.

  (** the rows of a call that has not returned are as at the beginning *)
  Lemma unfinished_rows y th r : inv y -> In th (y_threads y) -> th_res th = None -> In r (rows_of (th_call th)) ->
    kv_get (y_db y) (data_key tb r) = kv_get db0 (data_key tb r).
  Proof.
    intros I IN N Hr. apply in_split in IN as (a & b & E). pose proof (inv_h _ _ _ _ _ _ I) as H1. rewrite E in H1.
    destruct (inv_cons _ _ _ _ _ _ I) as [_ RN _]. rewrite E in RN.
    eapply (rep_agree tb G); [exact RN|exact R0| |exact Hr].
    intros p Hp. apply (now_unfinished tb db0 z0 m0 h cons0 EVS AD0 DJ0 a th b p H1 N Hp).
  Qed.

  (** another state of the filter that reports all it has to *)
  Lemma inv_flt db fl fl' ths : inv (Sys db fl ths) -> covers tb fl' db ->
    (forall th, In th ths -> th_res th = None -> ops_covered tb fl' (w_ops (th_st th))) -> inv (Sys db fl' ths).
  Proof.
    intros [I1 I2 I3 I4 I5] C O. constructor; cbn [y_db y_flt y_threads] in *; auto.
    - intros th H N. destruct (I3 th H N) as (s0 & X1 & X2 & X3). exists s0. auto.
    - destruct I4 as [X1 X2 X3]. constructor; auto.
  Qed.

  (** while the flag is off any state will do *)
  Lemma off_covers fl db : covers tb (Initz fl false) db.
  Proof. intros f' rest v E _. rewrite TF in E. injection E as <-. reflexivity. Qed.
  Lemma off_ops fl os : ops_covered tb (Initz fl false) os.
  Proof. intros f' rest v E _. rewrite TF in E. injection E as <-. reflexivity. Qed.

  Lemma zero_now y : inv y -> forall p r, now tb m0 (y_threads y) p = Some r -> bcmp (pk (t_empty tb)) p <> Gt.
  Proof.
    intros I p r N. pose proof (inv_h _ _ _ _ _ _ I) as H1.
    assert (DJ1 : ForallOrdPairs (disjoint sc) (map snd (map ec_of (y_threads y)))) by (rewrite H1; exact DJ0).
    destruct (outcome_at tb _ m0 (wf0 tb db0 z0 m0 cons0) (fin_adm tb m0 h AD0 _ H1) (fin_fop tb _ DJ1)) as (_ & I2 & _).
    destruct (existsb (fun ec => existsb (fun r => beqb (pk r) p) (rows_of (snd ec))) h) eqn:E.
    - apply existsb_exists in E as (ec & E1 & E2). apply existsb_exists in E2 as (q & E2 & E3). apply beqb_eq in E3 as <-. eauto.
    - unfold now in N. rewrite I2 in N; [eauto|]. intros c Hc (q & Q1 & <-).
      apply (in_map fst) in Hc. apply fin_calls in Hc. rewrite H1 in Hc. apply in_map_iff in Hc as (ec & EC & Hc). cbn [fst] in EC. subst c.
      enough (X : existsb (fun ec => existsb (fun r => beqb (pk r) (pk q)) (rows_of (snd ec))) h = true) by congruence.
      apply existsb_exists. exists ec. split; auto. apply existsb_exists. exists q. split; auto. apply beqb_refl.
  Qed.

  Lemma linv_start : linv (live_start tb db0 fl0 h scs0).
  Proof.
    constructor; cbn [live_start lv_sys lv_init].
    - apply inv_start. exact cons0.
    - cbn. split; discriminate.
    - cbn [start y_db pending]. intros rest v E. right. split; auto. congruence.
    - cbn [start y_threads]. intros th rest v H _. apply in_map_iff in H as (ec & <- & _). intros [].
  Qed.

  (** ** Steps of Initialize *)
  Lemma linv_init y : linv y -> linv (live_step tb f load clear y Init).
  Proof.
    destruct y as [[db [fl o] ths] p]. intros [I O D OP]. cbn [live_step lv_sys lv_init y_db y_flt y_threads iz_flt iz_on] in *.
    (* a step that leaves the flag off *)
    assert (OFF : forall fl' p', o = false -> p' <> PEnd (Ok tt) ->
      (forall k, f_may f fl k = true -> f_may f fl' k = true) ->
      (forall rest v, kv_get db (t_id tb :: x00 :: rest) = Some v -> f_may f fl' (t_id tb :: x00 :: rest) = true \/ pending p' (t_id tb :: x00 :: rest)) ->
      linv (Live (Sys db (Initz fl' o) ths) p')).
    { intros fl' p' -> NE M D'. constructor; cbn [lv_sys lv_init y_db y_flt y_threads iz_flt iz_on]; auto.
      - eapply inv_flt; [exact I|apply off_covers|]. intros; apply off_ops.
      - split; [discriminate|]. intro; contradiction.
      - intros th rest v H N HI. destruct (OP th rest v H N HI) as (r & X1 & X2 & X3). exists r. split; auto. split; auto.
        destruct X3; auto. }
    assert (OF : p <> PEnd (Ok tt) -> o = false).
    { intro NE. destruct o; auto. exfalso. apply NE, O. reflexivity. }
    destruct p as [scs|scs|[|s1 scs]|[|k ks] r scs| |r]; cbn [init_step iz_flt iz_on pending] in *.
    - pose proof (LOAD_KEEPS fl) as LK. pose proof (LOAD_KNOWS fl) as LN. destruct (load fl) as [fl' r] eqn:L. cbn [fst snd] in *.
      apply OFF; auto; [apply OF; discriminate|destruct r as [[]|e| |]; discriminate|].
      intros rest v E. destruct (D rest v E) as [B|[D1 D2]]; [left; auto|].
      destruct r as [[]|e| |]; cbn [pending]; auto; try (right; discriminate).
      left. destruct (kv_get db0 (t_id tb :: x00 :: rest)) as [v0|] eqn:E0; [|easy].
      destruct (data_row _ _ _ _ R0 E0) as (q & rq & Q & MQ). rewrite Q. apply (LN q rq); auto.
    - apply OFF; auto; [apply OF; discriminate|destruct clear as [[]|e| |]; discriminate|].
      intros rest v E. destruct (D rest v E) as [B|[D1 D2]]; auto. right.
      destruct clear as [[]|e| |]; cbn [pending]; auto; discriminate.
    - apply OFF; auto; [apply OF; discriminate|discriminate].
    - destruct (s1 db (Initz fl o)) as [ks r] eqn:E1. apply OFF; auto; [apply OF; discriminate|discriminate|].
      intros rest v E. destruct (D rest v E) as [B|[->|D1]]; auto; cbn [pending]; auto.
      right. destruct r as [[]|e| |]; try (left; discriminate). right. right.
      pose proof (inv_cons _ _ _ _ _ _ I) as [KN RN _]. cbn [y_db y_threads] in KN, RN.
      destruct (data_row _ _ _ _ RN E) as (q & rq & Q & MQ). rewrite Q.
      exact (own_scan tb db _ G KN RN evi inj _ ks (zero_now _ I) E1 q rq MQ).
    - destruct r as [[]|e| |]; cbn [pending]; (apply OFF; auto; [apply OF; discriminate|discriminate|]);
        intros rest v E; cbn [pending]; try (right; discriminate).
      destruct (D rest v E) as [B|[D1|[D1|[]]]]; auto.
    - apply OFF; auto; [apply OF; discriminate|discriminate|intros k'; apply (proj2 FO)|].
      intros rest v E. destruct (D rest v E) as [B|[D1|[D1|[->|D1]]]]; cbn [pending]; auto.
      + left. now apply (proj2 FO).
      + left. apply (proj1 FO).
    - assert (CV : forall rest v, kv_get db (t_id tb :: x00 :: rest) = Some v -> f_may f fl (t_id tb :: x00 :: rest) = true).
      { intros rest v E. destruct (D rest v E) as [B|[]]. exact B. }
      constructor; cbn [lv_sys lv_init y_db y_flt y_threads iz_flt iz_on pending]; auto.
      + eapply inv_flt; [exact I| |].
        * intros f' rest v E X. rewrite TF in E. injection E as <-. cbn. eauto.
        * intros th H N f' rest v E X. rewrite TF in E. injection E as <-. cbn [iz_filt f_may iz_on iz_flt].
          destruct (OP th rest v H N X) as (r & X1 & X2 & [X3|X3]); [now rewrite <- X2|].
          rewrite <- (unfinished_rows _ th r I H N X1), X2 in X3. cbn [y_db] in X3.
          destruct (kv_get db (t_id tb :: x00 :: rest)) as [vv|] eqn:EV; [eauto|easy].
      + split; auto.
      + intros rest v E. left. eauto.
    - constructor; auto.
  Qed.

  (** ** Steps of calls *)
  Lemma linv_call y i : linv y -> linv (live_step tb f load clear y (Call i)).
  Proof.
    destruct y as [y p]. intros [I O D OP]. cbn [live_step lv_sys lv_init] in *.
    pose proof (inv_step tb G db0 z0 m0 h cons0 EVS AD0 DJ0 y i I) as I'.
    pose proof (inv_h _ _ _ _ _ _ I) as IH.
    unfold step in *. destruct (nth_error (y_threads y) i) as [th|] eqn:NT; [|constructor; auto].
    destruct (set_nth_split _ _ _ NT) as [a [b [ET SET]]].
    destruct (step_thread tb (y_db y) (y_flt y) th) as [[db' z'] th'] eqn:ST. rewrite SET in *.
    assert (HIN : In th (y_threads y)) by (rewrite ET; apply in_or_app; right; left; auto).
    assert (OTHERS : forall x, In x (a ++ b) -> In x (y_threads y)).
    { intros x Hx. rewrite ET. apply in_app_or in Hx as [Hx|Hx]; apply in_or_app; [now left|right; now right]. }
    unfold step_thread in ST. destruct (th_res th) as [r|] eqn:RES.
    { injection ST as <- <- <-. constructor; cbn [lv_sys lv_init y_db y_flt y_threads]; auto.
      rewrite <- ET. auto. }
    assert (EV : env_ok (th_env th)).
    { rewrite Forall_forall in EVS. apply (in_map ec_of) in HIN. rewrite IH in HIN. apply (EVS _ HIN). }
    pose proof (inv_cons _ _ _ _ _ _ I) as [KN RN CN].
    destruct (part (th_env th) (th_call th) (th_num th)) as [rows|] eqn:PT.
    - pose proof (part_slice _ _ _ _ EV PT) as SUB.
      pose proof (round_tracked (tb:=tb) (LAW:=LAW) (iz_filt f) bits iz_on TF (fun z k => proj1 FO (iz_flt z) k) (fun z k k' => proj2 FO (iz_flt z) k k') (fun z k => eq_refl)
        (th_env th) (th_call th) (y_db y) rows (with_flt (th_st th) (y_flt y)) EV KN) as (M1 & M2 & M3).
      destruct (round tb (th_env th) (th_call th) (y_db y) rows (with_flt (th_st th) (y_flt y))) as [s1 r1].
      cbn [fst w_flt with_flt w_ops] in M1, M2, M3.
      assert (X : db' = y_db y /\ z' = w_flt s1 /\ th_st th' = s1 /\ th_call th' = th_call th).
      { destruct r1; injection ST as <- <- <-; auto. }
      destruct X as (-> & -> & X3 & X4).
      constructor; cbn [lv_sys lv_init y_db y_flt y_threads]; auto.
      + rewrite M2. exact O.
      + intros rest v E. destruct (D rest v E); auto.
      + intros x rest v Hx N HI.
        assert (KEEP : forall q, In q (y_threads y) -> th_res q = None -> In (BSet (t_id tb :: x00 :: rest) v) (w_ops (th_st q)) ->
          exists r, In r (rows_of (th_call q)) /\ data_key tb r = t_id tb :: x00 :: rest /\
            (f_may f (iz_flt (w_flt s1)) (data_key tb r) = true \/ kv_get db0 (data_key tb r) <> None)).
        { intros q Q1 Q2 Q3. destruct (OP q rest v Q1 Q2 Q3) as (r & Y1 & Y2 & Y3). exists r. split; auto. split; auto. destruct Y3; auto. }
        apply in_app_or in Hx as [Hx|[<-|Hx]].
        * apply KEEP; auto. apply OTHERS, in_or_app; auto.
        * rewrite X3 in HI. rewrite X4. destruct (M3 rest v HI) as [H1|(r & Y1 & Y2 & Y3)]; [now apply KEEP|].
          exists r. split; [auto|]. split; auto. destruct Y3 as [Y3|Y3]; auto. right.
          rewrite <- (unfinished_rows y th r I HIN RES (SUB r Y1)). exact Y3.
        * apply KEEP; auto. apply OTHERS, in_or_app; auto.
    - destruct (commit (th_env th) (y_db y) (w_ops (th_st th))) as [dbc rc] eqn:CM. injection ST as <- <- <-.
      assert (GET : forall k v, kv_get dbc k = Some v -> kv_get (y_db y) k = Some v \/ In (BSet k v) (w_ops (th_st th))).
      { intros k v E. unfold commit in CM. destruct (w_ops (th_st th)) as [|o1 os] eqn:WO; [injection CM as <- _; auto|].
        destruct (e_commit (th_env th)); injection CM as <- _; [|auto]. apply get_apply_set; auto. }
      constructor; cbn [lv_sys lv_init y_db y_flt y_threads]; auto.
      + intros rest v E. destruct (GET _ _ E) as [E'|E']; eauto.
        destruct (OP th rest v HIN RES E') as (r & Y1 & Y2 & [Y3|Y3]); [rewrite Y2 in Y3; auto|].
        rewrite <- (unfinished_rows y th r I HIN RES Y1), Y2 in Y3.
        destruct (kv_get (y_db y) (t_id tb :: x00 :: rest)) as [vv|] eqn:EE; [eauto|easy].
      + intros x rest v Hx N HI. apply in_app_or in Hx as [Hx|[<-|Hx]]; [|easy|]; (apply (OP x rest v); auto; apply OTHERS, in_or_app; auto).
  Qed.

  Lemma linv_run sch : forall y, linv y -> linv (run_live tb f load clear sch y).
  Proof.
    induction sch as [|w sch IH]; intros y I; auto. cbn. apply IH. destruct w; [now apply linv_call|now apply linv_init].
  Qed.

  Theorem any_live sch : let y := run_live tb f load clear sch (live_start tb db0 fl0 h scs0) in
    (forall ev c r, In (ev, c, r) (finished (lv_sys y)) -> In (ev, c) h /\ r = solo tb db0 z0 (ev, c)) /\
    (forall o, Permutation o (map fst (finished (lv_sys y))) ->
       exists fl', run_serial tb db0 z0 o = (y_db (lv_sys y), fl', map (solo tb db0 z0) o)) /\
    consistent tb (y_db (lv_sys y)) (y_flt (lv_sys y)) (outcome sc m0 (map (fun f => (snd (fst f), ok_of (snd f))) (finished (lv_sys y)))) /\
    (iz_on (y_flt (lv_sys y)) = true <-> lv_init y = PEnd (Ok tt)).
  Proof.
    intro y. assert (L : linv y) by apply linv_run, linv_start.
    destruct (inv_says tb G db0 z0 m0 h cons0 EVS AD0 DJ0 _ (li_inv _ L)) as (X1 & X2 & X3 & _).
    split; [exact X1|]. split; [exact X2|]. split; [exact X3|]. apply (li_on _ L).
  Qed.
End Together.

(** ** Bloom filters *)
Lemma load_result {S} (st : storer S) cd c s : forall bs bs' : list bucket, length bs = length bs' ->
  snd (bloom_load st cd c s bs) = snd (bloom_load st cd c s bs').
Proof.
  intros bs bs' L. unfold bloom_load. destruct (st_get st s (count_key c)) as [v|]; auto.
  destruct (Nat.ltb (length v) 8); auto. destruct (N.eqb _ _); auto. generalize 0.
  revert bs' L. induction bs as [|b bs IH]; intros [|b' bs'] L i; try discriminate; auto. cbn in L. injection L as L.
  cbn [load_buckets]. destruct (st_get st s (bucket_key c i)) as [d|]; auto. destruct (unpack cd d) as [[[m k] bits]|]; auto.
  destruct (_ && _)%bool; auto. specialize (IH bs' L (Datatypes.S i)).
  destruct (load_buckets st cd c s (Datatypes.S i) bs) as [x1 r1], (load_buckets st cd c s (Datatypes.S i) bs') as [x2 r2]. exact IH.
Qed.

Lemma load_disk {S} (st : storer S) cd h c : hashes_ok h -> 0 < c_n c -> forall s bs0 mem disk bs bs' k,
  BloomFacts.inv st cd h c s bs0 mem disk -> length bs = c_n c -> bloom_load st cd c s bs = (bs', Ok tt) -> disk k -> bloom_may h c bs' k = true.
Proof.
  intros HH CN s bs0 mem disk bs bs' k I L LD DK. destruct (load_spec c st cd _ _ _ _ LD) as [L' SP]. rewrite L in L'.
  destruct (bucket_there h c HH CN bs k L) as [b Y]. destruct (SP _ b Y) as (b' & Y' & [[_ N]|(d & bits & G1 & U & ->)]); [easy|].
  unfold bloom_may. rewrite Y'. cbn. eapply bl_test_incl; [|apply (inv_disk _ _ _ _ _ _ _ _ I k bits DK); exists d; auto].
  intros x X. apply in_or_app. auto.
Qed.

Theorem bloom_live : forall (S : Type) (st : storer S) cd hs c, storer_ok st c -> codec_ok cd -> hashes_ok hs -> 0 < c_n c ->
  forall (T A : Type) (tb : table T (initializable (bloom c))) db m h (evi : env T) (inj : T -> A) s0 os s1 bs1 rs scs load clear fl,
  t_filter tb = Some (iz_filt (bloom_filt hs c)) -> good_table tb -> kv_ok db -> Rep (schema_of tb) db m ->
  Forall (fun ec => env_ok (fst ec)) h -> Forall (admissible (schema_of tb) m) (map snd h) -> ForallOrdPairs (disjoint (schema_of tb)) (map snd h) ->
  bloom_run st cd hs c s0 (new_bloom c) os = (s1, bs1, rs) ->
  (forall b, (bl_bs (fst (load b)), snd (load b)) = bloom_load st cd c s1 (bl_bs b)) -> clear = snd (bloom_clear st c s1) ->
  (snd (bloom_load st cd c s1 (new_bloom c)) = Ok tt -> forall p r, m p = Some r -> snd (promises no_promise os rs) (row_key (schema_of tb) p)) ->
  In (own_scanner tb evi inj) scs ->
  (forall p r, m p = Some r -> bcmp (s_pk (schema_of tb) (t_empty tb)) p <> Gt) ->
  (forall ec r, In ec h -> In r (rows_of (snd ec)) -> bcmp (s_pk (schema_of tb) (t_empty tb)) (s_pk (schema_of tb) r) <> Gt) ->
  forall sch, let y := run_live tb (bloom_filt hs c) load clear sch (live_start tb db fl h scs) in
    (forall ev c r, In (ev, c, r) (finished (lv_sys y)) -> In (ev, c) h /\ r = solo (no_filter tb) db (Initz fl false) (ev, c)) /\
    (forall o, Permutation o (map fst (finished (lv_sys y))) ->
       exists fl', run_serial tb db (Initz fl false) o = (y_db (lv_sys y), fl', map (solo (no_filter tb) db (Initz fl false)) o)) /\
    consistent tb (y_db (lv_sys y)) (y_flt (lv_sys y)) (outcome (schema_of tb) m (map (fun f => (snd (fst f), ok_of (snd f))) (finished (lv_sys y)))) /\
    (iz_on (y_flt (lv_sys y)) = true <-> lv_init y = PEnd (Ok tt)).
Proof.
  intros S st cd hs c SO CO HH CN T A tb db m h evi inj s0 os s1 bs1 rs scs load clear fl TF G K R EVS AD DJ RUN LD CL VOUCH OWN Z0 Z sch y.
  pose proof (bloom_filt_ok hs c HH CN) as FO.
  pose proof (BloomFacts.inv_run st cd hs c SO CO HH CN os s0 (new_bloom c) no_promise s1 bs1 rs (BloomFacts.inv_start st cd hs c s0) RUN) as I.
  destruct (any_live tb (bloom_filt hs c) TF G FO load clear db fl m h evi inj scs K R EVS AD DJ) with (sch := sch) as (X1 & X2 & X3 & X4); auto.
  - intros b k M. cbn in *. specialize (LD b). destruct (bloom_load st cd c s1 (bl_bs b)) as [b' r'] eqn:L. injection LD as -> _.
    eapply grows_may; [eapply (load_grows c st cd); exact L|exact M].
  - intros b p r OK M. cbn. pose proof (LD b) as LB. destruct (bloom_load st cd c s1 (bl_bs b)) as [b' r'] eqn:L. injection LB as -> E. subst r'. rewrite OK in L.
    eapply (load_disk st cd hs c HH CN); [exact I|apply (bl_len b)|exact L|]. apply (VOUCH) with (r := r); auto.
    rewrite (load_result st cd c s1 (new_bloom c) (bl_bs b)), L; auto. now rewrite new_length, bl_len.
  - assert (SOLO : forall ec, In ec h -> solo tb db (Initz fl false) ec = solo (no_filter tb) db (Initz fl false) ec).
    { intros [ev c0] Hec. unfold solo. cbn [fst snd]. rewrite Forall_forall in EVS. specialize (EVS _ Hec). cbn in EVS.
      pose proof (call_sim (tb:=tb) (ev:=ev) (LAW:=good_lawful _ G) (EV:=EVS) (good_filter _ G) c0 db (Initz fl false) (Initz fl false) None K) as CS.
      destruct (run_call tb ev db (Initz fl false) None c0) as [w1 r1], (run_call (no_filter tb) ev db (Initz fl false) None c0) as [w2 r2].
      cbn [snd]. destruct CS as [CS _]; [intros f' rest v E _; rewrite TF in E; injection E as <-; reflexivity|easy|exact CS]. }
    split; [|split; [|split; auto]].
    + intros ev c0 r H. destruct (X1 ev c0 r H) as [H1 H2]. split; auto. rewrite H2. apply SOLO; auto.
    + intros o P. destruct (X2 o P) as [fl' E]. exists fl'. rewrite E. f_equal. apply map_ext_in. intros ec He.
      apply SOLO. apply (Permutation_in _ P) in He. apply in_map_iff in He as ([[ev c0] r] & <- & He). apply (X1 _ _ _ He).
Qed.

(** ** Initialize comes to an end *)
Lemma init_ends {T FI} (tb : table T (initializable FI)) f load clear : forall (y : lsys (T:=T) (FI:=FI)),
  exists n r, lv_init (run_live tb f load clear (repeat Init n) y) = PEnd r.
Proof.
  assert (FLAG : forall s : sys (T:=T) (F:=initializable FI), exists n r, lv_init (run_live tb f load clear (repeat Init n) (Live s PFlag)) = PEnd r)
    by (intro s; exists 1, (Ok tt); reflexivity).
  assert (OPEN : forall scs (s : sys (T:=T) (F:=initializable FI)), exists n r, lv_init (run_live tb f load clear (repeat Init n) (Live s (POpen scs))) = PEnd r).
  { induction scs as [|sc scs IH]; intro s.
    - destruct (FLAG s) as (n & r & E). exists (Datatypes.S n), r. destruct s. exact E.
    - assert (ADD : forall ks r0 (s : sys (T:=T) (F:=initializable FI)), exists n r, lv_init (run_live tb f load clear (repeat Init n) (Live s (PAdd ks r0 scs))) = PEnd r).
      { induction ks as [|k ks IHk]; intros r0 s'.
        - destruct r0 as [[]|e| |]; [destruct (IH s') as (n & r & E); exists (Datatypes.S n), r; destruct s'; exact E|..]; exists 1; eexists; reflexivity.
        - destruct s' as [db z ths]. destruct (IHk r0 (Sys db (Initz (f_add f (iz_flt z) k) (iz_on z)) ths)) as (n & r & E). exists (Datatypes.S n), r. exact E. }
      destruct s as [db z ths]. destruct (sc db z) as [ks r0] eqn:ES.
      destruct (ADD ks r0 (Sys db z ths)) as (n & r & E). exists (Datatypes.S n), r.
      cbn [repeat run_live fold_left live_step lv_sys lv_init init_step y_db y_flt y_threads]. rewrite ES. exact E. }
  intros [[db z ths] p]. destruct p as [scs|scs|scs|ks r0 scs| |r0].
  - assert (X : exists n r, lv_init (run_live tb f load clear (repeat Init n) (live_step tb f load clear (Live (Sys db z ths) (PLoad scs)) Init)) = PEnd r).
    { cbn [live_step lv_sys lv_init init_step y_db y_flt y_threads]. destruct (load (iz_flt z)) as [fl r1].
      destruct r1 as [[]|e| |]; [apply FLAG| |exists 0; eexists; reflexivity|exists 0; eexists; reflexivity].
      destruct clear as [[]|e'| |] eqn:C; try (exists 1; eexists; reflexivity).
      destruct (OPEN scs (Sys db (Initz fl (iz_on z)) ths)) as (n & r & E). exists (Datatypes.S n), r. exact E. }
    destruct X as (n & r & E). exists (Datatypes.S n), r. exact E.
  - destruct clear as [[]|e'| |] eqn:C; try (exists 1; eexists; reflexivity).
    destruct (OPEN scs (Sys db z ths)) as (n & r & E). exists (Datatypes.S n), r. exact E.
  - apply OPEN.
  - revert z. induction ks as [|k ks IHk]; intro z.
    + destruct r0 as [[]|e| |]; [destruct (OPEN scs (Sys db z ths)) as (n & r & E); exists (Datatypes.S n), r; exact E|..]; exists 1; eexists; reflexivity.
    + destruct (IHk (Initz (f_add f (iz_flt z) k) (iz_on z))) as (n & r & E). exists (Datatypes.S n), r. exact E.
  - apply FLAG.
  - exists 0, r0. reflexivity.
Qed.
