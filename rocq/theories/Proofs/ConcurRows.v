(** Concurrent calls on the same rows: the rows are those of the last call to return. *)

From Coq Require Import List NArith Lia Bool Sorting.Sorted Sorting.Permutation Arith.
From Verif.Model Require Import Bytes Go Keys Pebble Index Table Concur.
From Verif.Spec Require Import KeySpec TableSpec HistSpec ConcurSpec.
From Verif.Proofs Require Import BytesFacts KeysFacts PebbleFacts TableFacts WriteFacts UpdateFacts UpsertFacts CallFacts LocalFacts ConcurFacts.
Import ListNotations.

Section Rows.
  Context {T F : Type} (tb : table T F) (LAW : lawful tb).
  Notation sc := (schema_of tb).
  Notation dk := (data_key tb).
  Notation pk := (s_pk (schema_of tb)).

  (** what a call writes to the row under [p] when it has handled the rows [l] *)
  Definition eff (c : call T) (l : list T) (p : bytes) : option (option bytes) :=
    match find (fun r => beqb p (pk r)) l with
    | Some r => Some (match c with CDelete _ => None | _ => t_ser tb r end)
    | None => None
    end.

  Lemma eff_one c l r p : NoDup (map pk l) -> In r l -> pk r = p ->
    eff c l p = Some (match c with CDelete _ => None | _ => t_ser tb r end).
  Proof.
    intros N H <-. unfold eff. induction l as [|a l IH]; [easy|]. cbn [find]. inversion N as [|? ? N1 N2]; subst.
    destruct (beqb (pk r) (pk a)) eqn:B.
    - destruct H as [->|H]; auto. apply beqb_eq in B. exfalso. apply N1. change (In (pk a) (map pk l)). rewrite <- B. apply in_map; auto.
    - destruct H as [->|H]; [rewrite beqb_refl in B; easy|]. auto.
  Qed.

  Lemma eff_none c l p : (forall r, In r l -> pk r <> p) -> eff c l p = None.
  Proof.
    intro H. unfold eff. destruct (find _ l) as [r|] eqn:E; auto. apply find_some in E as [E1 E2]. apply beqb_eq in E2.
    exfalso. apply (H r E1). auto.
  Qed.

  Lemma eff_perm c l l' p : NoDup (map pk l) -> Permutation l l' -> eff c l p = eff c l' p.
  Proof.
    intros N P. destruct (in_pk_dec tb l p) as [[r [H1 H2]]|H].
    - rewrite (eff_one c l r p N H1 H2). symmetry. apply eff_one; auto.
      + eapply Permutation_NoDup; [apply Permutation_map|]; eauto.
      + eapply Permutation_in; eauto.
    - rewrite !eff_none; auto. intros r Hr. apply H. eapply Permutation_in; [apply Permutation_sym|]; eauto.
  Qed.

  Lemma eff_app c a b p : NoDup (map pk (a ++ b)) ->
    eff c (a ++ b) p = match eff c b p with Some x => Some x | None => eff c a p end.
  Proof.
    intro N. rewrite (eff_perm c _ _ p N (Permutation_app_comm a b)).
    clear N. unfold eff. induction b as [|x b IH]; cbn [app find]; [reflexivity|].
    destruct (beqb p (pk x)); auto.
  Qed.

  Lemma find_del_app (a b : list T) p :
    eff (CDelete []) (a ++ b) p = match eff (CDelete []) b p with Some x => Some x | None => eff (CDelete []) a p end.
  Proof.
    unfold eff. induction a as [|x a IH]; cbn [app find].
    - destruct (find _ b); auto.
    - destruct (beqb p (pk x)); auto. destruct (find _ b); auto.
  Qed.

  (** operations with a given effect on the rows *)
  Definition writes (os : list bop) (c : call T) (l : list T) : Prop :=
    forall p, ops_effect os (row_key sc p) = eff c l p.

  Lemma index_ops_rows (g : index T -> list bop) l p : (forall ix, In ix l -> In ix (t_indexes tb)) ->
    (forall ix, In ix (t_indexes tb) -> Forall (op_key_under (t_id tb) (ix_id ix)) (g ix)) ->
    ops_effect (flat_map g l) (row_key sc p) = None.
  Proof.
    intros SUB H. induction l as [|ix l IH]; auto. cbn [flat_map]. rewrite ops_effect_app.
    rewrite IH by (intros; apply SUB; right; auto).
    apply (ops_effect_under (t_id tb) (ix_id ix)); [apply H; apply SUB; left; auto|].
    intros [rest E]. cbn [row_key] in E. unfold row_key, spec_key in E. cbn in E.
    apply (law_nonzero _ LAW ix); [apply SUB; left; auto|]. congruence.
  Qed.

  Lemma emap_sub ev n : env_ok ev -> forall ix, In ix (e_map ev n (t_indexes tb)) -> In ix (t_indexes tb).
  Proof. intros EV ix H. eapply Permutation_in; [apply (env_map_perm _ EV)|]; eauto. Qed.

  Lemma row_op_writes c r v ixops rest l : (forall p, ops_effect ixops (row_key sc p) = None) ->
    match c with CDelete _ => True | _ => t_ser tb r = Some v end -> writes rest c l ->
    (match c with CDelete _ => True | _ => NoDup (map pk (r :: l)) end) ->
    writes ((match c with CDelete _ => BDel (dk r) | _ => BSet (dk r) v end :: ixops) ++ rest) c (r :: l).
  Proof.
    intros IX V W N p. rewrite ops_effect_app, W. cbn [ops_effect]. rewrite IX.
    assert (TO : op_touches (match c with CDelete _ => BDel (dk r) | _ => BSet (dk r) v end) (row_key sc p) = beqb p (pk r)).
    { rewrite (data_key_eq _ LAW). destruct (beqb p (pk r)) eqn:B.
      - apply beqb_eq in B. subst p. destruct c; cbn; apply beqb_refl.
      - apply beqb_neq in B. assert (X : beqb (row_key sc p) (row_key sc (pk r)) = false).
        { apply beqb_neq. intro E. apply B. eapply (row_key_inj tb); eauto. }
        destruct c; cbn; exact X. }
    rewrite TO. unfold eff at 2. cbn [find]. destruct (beqb p (pk r)) eqn:B.
    - apply beqb_eq in B. subst p. assert (E0 : eff c l (pk r) = None \/ (exists x, c = CDelete x)).
      { destruct c; eauto; left; apply eff_none; intros x Hx E; inversion N; subst; apply H1; change (In (pk r) (map pk l)); rewrite <- E; apply in_map; auto. }
      destruct E0 as [E0|[x ->]].
      + rewrite E0. destruct c; cbn; rewrite ?V; reflexivity.
      + unfold eff. destruct (find _ l); reflexivity.
    - unfold eff. destruct (find _ l); reflexivity.
  Qed.

  Lemma writes_nil c : writes [] c [].
  Proof. intro p. reflexivity. Qed.

  Lemma insert_rows_writes ev it trs c : env_ok ev -> match c with CDelete _ => False | _ => True end ->
    forall rs os prev s s', Forall2 (fun o r => nth_error trs o = Some r) os rs -> NoDup (map pk rs) ->
    insert_rows tb ev it trs prev (combine (map dk rs) os) s = (s', Ok tt) ->
    exists ops, w_ops s' = w_ops s ++ ops /\ writes ops c rs.
  Proof.
    intros EV NC. induction rs as [|r rs IH]; intros os prev s s' F2 N H.
    - inversion F2; subst. cbn in H. injection H as <-. exists []. rewrite app_nil_r. split; auto. apply writes_nil.
    - inversion F2 as [|o r' os' rs' Ho F2']; subst. cbn [map combine insert_rows] in H.
      destruct (e_ctx ev (w_tick s)); [easy|]. destruct (_ || _); [easy|]. rewrite Ho in H.
      destruct (t_ser tb r) as [v|] eqn:V; [|easy]. inversion N as [|? ? N1 N2]; subst.
      apply IH in H; auto. destruct H as [ops [E W]]. rewrite flt_add_ops in E. cbn [w_ops add_ops tick] in E.
      rewrite <- app_assoc in E. eexists. split; [exact E|].
      pose proof (row_op_writes c r v (flat_map (fun idx => on_insert (t_id tb) (t_pk tb) idx r) (e_map ev (w_tick s) (t_indexes tb))) ops rs) as X.
      destruct c; try easy; (apply X; auto; intro p; (apply index_ops_rows; [intros ix Hix; exact (emap_sub ev _ EV ix Hix)|]); intros; apply on_insert_under; auto).
  Qed.

  Lemma update_rows_writes ev it trs c : env_ok ev -> match c with CDelete _ => False | _ => True end ->
    forall rs os s s', Forall2 (fun o r => nth_error trs o = Some r) os rs -> NoDup (map pk rs) ->
    update_rows tb ev it trs (combine (map dk rs) os) s = (s', Ok tt) ->
    exists ops, w_ops s' = w_ops s ++ ops /\ writes ops c rs.
  Proof.
    intros EV NC. induction rs as [|r rs IH]; intros os s s' F2 N H.
    - inversion F2; subst. cbn in H. injection H as <-. exists []. rewrite app_nil_r. split; auto. apply writes_nil.
    - inversion F2 as [|o r' os' rs' Ho F2']; subst. cbn [map combine update_rows] in H.
      destruct (e_ctx ev (w_tick s)); [easy|]. inversion N as [|? ? N1 N2]; subst.
      assert (ND : (match combine (map dk rs) os' with [] => false | (k2, _) :: _ => beqb k2 (dk r) end) = false).
      { destruct rs as [|r2 rs2]; [reflexivity|]. inversion F2'; subst. cbn. apply beqb_neq. intro E. apply N1. cbn. left.
        apply (dk_inj (tb:=tb)); auto. }
      rewrite ND in H. cbn zeta in H. destruct (_ || _); [easy|]. destruct (t_deser tb _ _) as [old|]; [|easy]. rewrite Ho in H.
      destruct (t_ser tb r) as [v|] eqn:V; [|easy].
      apply IH in H; auto. destruct H as [ops [E W]]. cbn [w_ops add_ops tick set_old] in E.
      rewrite <- app_assoc in E. eexists. split; [exact E|].
      pose proof (row_op_writes c r v (flat_map (fun idx => on_update (t_id tb) (t_pk tb) idx old r) (e_map ev (w_tick s) (t_indexes tb))) ops rs) as X.
      destruct c; try easy; (apply X; auto; intro p; (apply index_ops_rows; [intros ix Hix; exact (emap_sub ev _ EV ix Hix)|]); intros; apply on_update_under; auto).
  Qed.

  Lemma delete_rows_writes ev x : env_ok ev -> forall trs s s', delete_rows tb ev trs s = (s', Ok tt) ->
    exists ops, w_ops s' = w_ops s ++ ops /\ writes ops (CDelete x) trs.
  Proof.
    intros EV. induction trs as [|r trs IH]; intros s s' H; cbn [delete_rows] in H.
    - injection H as <-. exists []. rewrite app_nil_r. split; auto. apply writes_nil.
    - destruct (e_ctx ev (w_tick s)); [easy|]. apply IH in H. destruct H as [ops [E W]]. cbn [w_ops add_ops tick] in E.
      rewrite <- app_assoc in E. eexists. split; [exact E|].
      apply (row_op_writes (CDelete x) r []); auto. intro p. apply index_ops_rows; [intros ix Hix; exact (emap_sub ev _ EV ix Hix)|]. intros; apply on_delete_under; auto.
  Qed.

  Lemma round_writes ev c db rows s s' : env_ok ev -> blind c ->
    (match c with CDelete _ => True | _ => NoDup (map pk rows) end) ->
    round tb ev c db rows s = (s', Ok tt) -> exists ops, w_ops s' = w_ops s ++ ops /\ writes ops c rows.
  Proof.
    intros EV B N H. destruct c as [l|l|f l|l]; cbn [round] in H; [| |easy|eapply delete_rows_writes; eauto].
    - destruct (sort_keys_rows (tb := tb) (ev := ev) rows) as [keys [order [rs [E1 [E2 [P [S F2]]]]]]].
      unfold insert_chunk in H. rewrite E1 in H. subst keys.
      assert (NR : NoDup (map pk rs)) by (eapply Permutation_NoDup; [apply Permutation_map, Permutation_sym, P|auto]).
      destruct (map dk rs) as [|k ks] eqn:ER; [easy|]. rewrite <- ER in H.
      eapply (insert_rows_writes ev _ _ (CInsert l)) in H; eauto. destruct H as [ops [H1 H2]]. exists ops. split; auto.
      intro p. rewrite H2. apply eff_perm; auto.
    - destruct (sort_keys_rows (tb := tb) (ev := ev) rows) as [keys [order [rs [E1 [E2 [P [S F2]]]]]]].
      unfold update_chunk in H. rewrite E1 in H. subst keys.
      assert (NR : NoDup (map pk rs)) by (eapply Permutation_NoDup; [apply Permutation_map, Permutation_sym, P|auto]).
      destruct (map dk rs) as [|k ks] eqn:ER; [easy|]. rewrite <- ER in H.
      eapply (update_rows_writes ev _ _ (CUpdate l)) in H; eauto. destruct H as [ops [H1 H2]]. exists ops. split; auto.
      intro p. rewrite H2. apply eff_perm; auto.
  Qed.

  (** ** The rows handled so far *)

  Definition handled (ev : env T) (c : call T) (n : nat) : list T :=
    match c with
    | CDelete l => match n with O => [] | _ => l end
    | _ => firstn (n * e_chunk ev) (rows_of c)
    end.

  Lemma slice_handled (l : list T) bs n rows : 0 < bs -> slice l bs n = Some rows ->
    firstn (S n * bs) l = firstn (n * bs) l ++ rows.
  Proof.
    intros P H. unfold slice in H. destruct (Nat.ltb (n * bs) (length l)) eqn:L; [|easy]. apply Nat.ltb_lt in L. cbv zeta in H. injection H as <-.
    replace (S n * bs) with (n * bs + bs) by lia.
    assert (FS : forall k, firstn (n * bs + k) l = firstn (n * bs) l ++ firstn k (skipn (n * bs) l)).
    { intro k. rewrite <- (firstn_skipn (n * bs) l) at 1. rewrite firstn_app, firstn_firstn, firstn_length.
      rewrite Nat.min_r by lia. f_equal. f_equal. lia. }
    rewrite FS. f_equal. destruct (Nat.ltb (length l) (n * bs + bs)) eqn:Q.
    - apply Nat.ltb_lt in Q. assert (M : length l mod bs = length l - n * bs).
      { symmetry. apply (Nat.mod_unique _ _ n); lia. }
      rewrite M. rewrite !firstn_all2; auto; rewrite skipn_length; lia.
    - f_equal. lia.
  Qed.

  Lemma part_handled ev c n rows : env_ok ev -> part ev c n = Some rows -> handled ev c (S n) = handled ev c n ++ rows.
  Proof.
    intros EV H. pose proof (env_chunk_pos _ EV) as P. destruct c as [l|l|f l|l]; cbn [part handled rows_of] in *;
      [apply slice_handled; auto ..|]. destruct n; [|easy]. injection H as <-. reflexivity.
  Qed.

  Lemma none_handled ev c n : env_ok ev -> part ev c n = None -> handled ev c n = rows_of c.
  Proof.
    intros EV H. destruct c as [l|l|f l|l]; cbn [part handled rows_of] in *.
    1,2,3: unfold slice in H; destruct (Nat.ltb _ _) eqn:L; [easy|]; apply Nat.ltb_ge in L; apply firstn_all2; auto.
    destruct n; easy.
  Qed.

  Lemma handled_0 ev c : handled ev c 0 = [].
  Proof. destruct c; reflexivity. Qed.

  Notation once := (ConcurSpec.once sc).

  Lemma nodup_firstn {A} (l : list A) k : NoDup l -> NoDup (firstn k l).
  Proof. intro N. rewrite <- (firstn_skipn k l) in N. apply nodup_app_iff in N. tauto. Qed.

  Lemma handled_nodup ev c n : once c -> match c with CDelete _ => True | _ => NoDup (map pk (handled ev c n)) end.
  Proof.
    intro N. destruct c; auto; cbn [handled ConcurSpec.once] in *; rewrite <- firstn_map; apply nodup_firstn; auto.
  Qed.

  (** the effect of a call that commits, as an operation on the map *)
  Lemma effect_rows db m c ops : kv_ok db -> blind c -> once c -> rows_are sc db m -> writes ops c (rows_of c) ->
    rows_are sc (apply_ops db ops) (effect sc m c).
  Proof.
    intros K B N R W p. rewrite kv_get_apply_ops by auto. rewrite W.
    destruct (in_pk_dec tb (rows_of c) p) as [[r [H1 H2]]|H].
    - destruct c as [l|l|f l|l]; cbn [effect rows_of ConcurSpec.once] in *; [| |easy|].
      + rewrite (eff_one _ l r p N H1 H2). subst p. rewrite (puts_in (tb:=tb) l m r N H1). reflexivity.
      + rewrite (eff_one _ l r p N H1 H2). subst p. rewrite (puts_in (tb:=tb) l m r N H1). reflexivity.
      + assert (E : eff (CDelete l) l p = Some None).
        { unfold eff. destruct (find _ l) eqn:X; auto. apply (find_none _ _ X) in H1. subst p. rewrite beqb_refl in H1. easy. }
        rewrite E. assert (D : removes sc m l p = None).
        { clear - H1 H2. revert m. induction l as [|x l IH]; intro m; [easy|]. cbn.
          change (removes sc (remove sc m x) l p = None). destruct H1 as [->|H1]; [|auto].
          destruct (removes sc (remove sc m r) l p) as [o|] eqn:E; auto. apply removes_le in E. unfold remove in E.
          subst p. rewrite beqb_refl in E. easy. }
        rewrite D. reflexivity.
    - rewrite eff_none by auto. rewrite R.
      assert (E : effect sc m c p = m p); [|rewrite E; reflexivity].
      destruct c as [l|l|f l|l]; cbn [effect rows_of] in *; [apply puts_notin; auto|apply puts_notin; auto|easy|].
      clear - H. revert m. induction l as [|x l IH]; intro m; auto. cbn. change (removes sc (remove sc m x) l p = m p).
      rewrite IH by (intros; apply H; right; auto). unfold remove. destruct (beqb p (pk x)) eqn:B; auto.
      apply beqb_eq in B. exfalso. apply (H x); [left; auto|auto].
  Qed.

  (** ** Any schedule *)

  Definition good_thread (th : @thread T F) : Prop :=
    env_ok (th_env th) /\ blind (th_call th) /\ once (th_call th) /\
    (th_res th = None -> writes (w_ops (th_st th)) (th_call th) (handled (th_env th) (th_call th) (th_num th))).

  Lemma step_rows db fl th db' fl' th' m : kv_ok db -> rows_are sc db m -> good_thread th ->
    step_thread tb db fl th = (db', fl', th') ->
    kv_ok db' /\ good_thread th' /\
    match th_res th, th_res th' with
    | None, Some r => rows_are sc db' (if ok_of r then effect sc m (th_call th) else m)
    | _, _ => rows_are sc db' m
    end.
  Proof.
    intros K R [EV [B [N W]]] H. unfold step_thread in H. destruct (th_res th) as [r|] eqn:RES.
    { injection H as <- <- <-. split; auto. split; [|auto]. split; auto. split; auto. split; auto. congruence. }
    specialize (W eq_refl).
    destruct (part (th_env th) (th_call th) (th_num th)) as [rows|] eqn:P.
    - destruct (round tb (th_env th) (th_call th) db rows (with_flt (th_st th) fl)) as [s1 r1] eqn:E1.
      destruct r1 as [[]|e| |]; injection H as <- <- <-; cbn [th_res]; (split; [auto|split; [|auto]]);
        (split; [auto|split; [auto|split; [auto|]]]); try easy.
      intros _. cbn [th_st th_call th_num th_env]. rewrite (part_handled _ _ _ _ EV P).
      pose proof (handled_nodup (th_env th) (th_call th) (S (th_num th)) N) as HN. rewrite (part_handled _ _ _ _ EV P) in HN.
      apply round_writes in E1; auto.
      + destruct E1 as [ops [E2 E3]]. cbn [w_ops with_flt] in E2. rewrite E2. intro p. rewrite ops_effect_app, E3, W.
        symmetry. destruct (th_call th) as [l|l|f l|l]; try (apply eff_app; exact HN). apply (find_del_app).
      + destruct (th_call th); auto; rewrite map_app in HN; apply nodup_app_iff in HN; tauto.
    - rewrite (none_handled _ _ _ EV P) in W.
      destruct (commit (th_env th) db (w_ops (th_st th))) as [dbc rc] eqn:CM. injection H as <- <- <-. cbn [th_res].
      unfold commit in CM.
      assert (GT : good_thread (Thread (th_env th) (th_call th) (S (th_num th)) (th_st th) (Some rc))).
      { split; auto. split; auto. split; auto. easy. }
      assert (NIL : w_ops (th_st th) = [] -> rows_are sc db (effect sc m (th_call th))).
      { intro Z. rewrite Z in W. change db with (apply_ops db []). apply effect_rows; auto. }
      destruct (w_ops (th_st th)) as [|o os] eqn:WO.
      + injection CM as <- <-. split; auto; split; auto; cbn; auto.
      + destruct (e_commit (th_env th)); injection CM as <- <-; cbn [ok_of].
        * change (apply_ops (apply_op db o) os) with (apply_ops db (o :: os)).
          split; [apply apply_ops_ok; auto|]. split; [auto|]. change (rows_are sc (apply_ops db (o :: os)) (effect sc m (th_call th))).
          apply effect_rows; auto.
        * split; auto.
  Qed.

  Lemma last_commit_wins sch : forall y m, kv_ok (y_db y) -> rows_are sc (y_db y) m -> Forall good_thread (y_threads y) ->
    rows_are sc (y_db (run_sched tb sch y)) (outcome sc m (map (fun f => (snd (fst f), ok_of (snd f))) (returned tb y sch))).
  Proof.
    induction sch as [|i sch IH]; intros y m K R GT; [exact R|].
    cbn [run_sched fold_left returned]. change (fold_left (step tb) sch (step tb y i)) with (run_sched tb sch (step tb y i)).
    destruct (nth_error (y_threads y) i) as [th|] eqn:E.
    2:{ assert (ST : step tb y i = y) by (unfold step; rewrite E; reflexivity). rewrite ST. cbn [app]. apply IH; auto. }
    destruct (step_thread tb (y_db y) (y_flt y) th) as [[db' fl'] th'] eqn:ST.
    assert (EY : step tb y i = Sys db' fl' (set_nth (y_threads y) i th')) by (unfold step; rewrite E, ST; reflexivity).
    rewrite EY. cbn [y_threads]. rewrite (set_nth_same _ _ _ _ E).
    assert (G1 : good_thread th) by (rewrite Forall_forall in GT; apply GT; eapply nth_error_In; eauto).
    destruct (step_rows _ _ _ _ _ _ m K R G1 ST) as [K' [G' R']].
    assert (GT' : Forall good_thread (set_nth (y_threads y) i th')).
    { destruct (set_nth_split _ _ _ E) as [a [b [E1 E2]]]. rewrite E2. rewrite E1 in GT.
      apply Forall_app in GT as [GA GB]. inversion GB; subst. apply Forall_app. split; auto. }
    destruct (th_res th) as [r0|]; [cbn [app map]; apply IH; auto|].
    destruct (th_res th') as [r|]; [|cbn [app map]; apply IH; auto]. cbn [app map fst snd outcome].
    destruct (ok_of r); apply IH; auto.
  Qed.

  Lemma start_good db fl h : Forall (fun ec => env_ok (fst ec) /\ blind (snd ec) /\ once (snd ec)) h ->
    Forall good_thread (y_threads (start tb db fl h)).
  Proof.
    intro H. cbn [start y_threads]. apply Forall_forall. intros th Hth. apply in_map_iff in Hth as [ec [<- He]].
    rewrite Forall_forall in H. destruct (H _ He) as [A [B C]]. split; auto. split; auto. split; auto.
    intros _. cbn. rewrite handled_0. apply writes_nil.
  Qed.

  (** the calls returned are the calls finished *)
  Lemma returned_finished sch : forall y, Permutation (finished (run_sched tb sch y)) (finished y ++ returned tb y sch).
  Proof.
    induction sch as [|i sch IH]; intro y; [cbn; rewrite app_nil_r; auto|].
    cbn [run_sched fold_left returned]. change (fold_left (step tb) sch (step tb y i)) with (run_sched tb sch (step tb y i)).
    eapply Permutation_trans; [apply IH|]. rewrite app_assoc. apply Permutation_app_tail.
    destruct (nth_error (y_threads y) i) as [th|] eqn:E.
    2:{ assert (ST : step tb y i = y) by (unfold step; rewrite E; reflexivity). rewrite ST, app_nil_r. auto. }
    destruct (step_thread tb (y_db y) (y_flt y) th) as [[db' fl'] th'] eqn:ST.
    assert (EY : step tb y i = Sys db' fl' (set_nth (y_threads y) i th')) by (unfold step; rewrite E, ST; reflexivity).
    rewrite EY. cbn [y_threads]. rewrite (set_nth_same _ _ _ _ E).
    destruct (set_nth_split _ _ _ E) as [a [b [E1 E2]]]. unfold finished. cbn [y_threads]. rewrite E2, E1.
    rewrite !flat_map_app. cbn [flat_map]. rewrite <- !app_assoc. apply Permutation_app_head.
    assert (SAME : th_env th' = th_env th /\ th_call th' = th_call th /\ (forall r, th_res th = Some r -> th' = th)).
    { unfold step_thread in ST. destruct (th_res th); [injection ST as <- <- <-; auto|].
      destruct (part _ _ _); [destruct (round _ _ _ _ _ _) as [s r]; destruct r|destruct (commit _ _ _)]; injection ST as <- <- <-; auto; (split; [|split]; auto; easy). }
    destruct SAME as [S1 [S2 S3]]. destruct (th_res th) as [r0|] eqn:R0.
    - rewrite (S3 r0 eq_refl), R0, app_nil_r. auto.
    - destruct (th_res th') as [r|]; cbn [app]; [|rewrite app_nil_r; auto]. rewrite S1, S2. apply Permutation_cons_append.
  Qed.

  Theorem rows_last_commit db fl m h sch : kv_ok db -> rows_are sc db m ->
    Forall (fun ec => env_ok (fst ec) /\ blind (snd ec) /\ once (snd ec)) h ->
    let y := run_sched tb sch (start tb db fl h) in
    let o := returned tb (start tb db fl h) sch in
    Permutation (finished y) o /\
    rows_are sc (y_db y) (outcome sc m (map (fun f => (snd (fst f), ok_of (snd f))) o)).
  Proof.
    intros K R H y o. split.
    - pose proof (returned_finished sch (start tb db fl h)) as P. replace (finished (start tb db fl h)) with (@nil (env T * call T * res unit)) in P; auto.
      unfold finished. cbn. clear. induction h; auto.
    - apply last_commit_wins; auto. apply start_good; auto.
  Qed.
End Rows.
