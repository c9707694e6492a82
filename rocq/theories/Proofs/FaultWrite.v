(** Writes, point reads and loops over everything when reads fail. *)

From Coq Require Import List NArith ZArith Lia Bool Arith Sorting.Permutation.
From Verif.Model Require Import Bytes Go Keys Pebble Index Table Scan ReIndex Backup LiveScan Faults.
From Verif.Spec Require Import KeySpec StoreSpec TableSpec ScanSpec ReIndexSpec FaultSpec.
From Verif.Proofs Require Import BytesFacts KeysFacts PebbleFacts TableFacts WriteFacts TableProps ReadFacts ReIndexFacts.
Import ListNotations.

(** ** Two bodies side by side *)

Section Bodies.
  Context {A St : Type}.

  Definition gives_error (out : St * res unit) : Prop := exists s e, out = (s, Err e).

  Lemma batched_or_error (f g : list A -> St -> St * res unit) items bs :
    (forall c s, f c s = g c s \/ gives_error (f c s)) -> forall s, batched items bs f s = batched items bs g s \/ gives_error (batched items bs f s).
  Proof.
    intros H s. unfold batched. generalize (Datatypes.S (length items)) as fuel. intro fuel. generalize 0 as num. revert s.
    induction fuel as [|fuel IH]; intros s num; cbn [batched_loop]; auto.
    destruct (num * bs <? length items); auto.
    match goal with |- context [f ?c s] => destruct (H c s) as [E|[s1 [e E]]]; rewrite E end; [|right; exists s1, e; auto].
    destruct (g _ s) as [s1 [u|e| |]]; auto.
  Qed.

  Lemma batched_ok_same (f g : list A -> St -> St * res unit) items bs :
    (forall c s s', g c s = (s', Ok tt) -> f c s = (s', Ok tt)) -> forall s s', batched items bs g s = (s', Ok tt) -> batched items bs f s = (s', Ok tt).
  Proof.
    intros H s. unfold batched. generalize (Datatypes.S (length items)) as fuel. intro fuel. generalize 0 as num. revert s.
    induction fuel as [|fuel IH]; intros s num s' E; cbn [batched_loop] in *; [discriminate|].
    destruct (num * bs <? length items); auto.
    destruct (g _ s) as [s1 [[]|e| |]] eqn:EG; try discriminate. rewrite (H _ _ _ EG). apply IH. exact E.
  Qed.

  Lemma chunks_same (f g : list A -> St -> St * res unit) cs : (forall c s, In c cs -> f c s = g c s) -> forall s, run_chunks f cs s = run_chunks g cs s.
  Proof.
    induction cs as [|c cs IH]; intros H s; auto. cbn [run_chunks]. rewrite H by (left; auto). destruct (g c s) as [s1 [[]|e| |]]; auto.
    apply IH. intros. apply H. right; auto.
  Qed.
End Bodies.

Lemma seek_in p k : it_valid (it_seek_ge p k) && beqb (it_key (it_seek_ge p k)) k = true -> exists v, In (k, v) (pi_items p).
Proof.
  intro H. apply andb_true_iff in H as [V K]. unfold it_valid, it_seek_ge in V. cbn [pi_pos] in V.
  unfold it_key, it_item, it_seek_ge in K. cbn [pi_pos pi_items] in K. pose proof (find_ge_spec (pi_items p) k 0) as FS.
  destruct (find_ge (pi_items p) k 0) as [n|]; [|discriminate]. destruct FS as [i [[k' v] [-> [E _]]]]. cbn [Nat.add] in K. rewrite E in K.
  apply beqb_eq in K. cbn [fst] in K. subst k'. exists v. eapply nth_error_In; eauto.
Qed.

Section Writes.
  Context {T F : Type}.
  Variable tb : table T F.
  Variable ev : env T.
  Variable io : faults.
  Notation dk := (data_key tb).

  Lemma absent_key fl db lo key : kv_ok db -> kv_get db key = None -> exist_key tb fl (new_iter db lo (data_key_space_end tb)) key = false.
  Proof.
    intros K N. unfold exist_key. cbn zeta. destruct (it_valid _ && beqb _ key) eqn:E; [|apply andb_false_r].
    apply seek_in in E as [v H]. cbn [new_iter pi_items] in H. unfold kv_range in H. apply filter_In in H as [H _]. apply (kv_get_in _ _ _ K) in H. congruence.
  Qed.

  Lemma fexist_false fl it key n : exist_key tb fl it key = false -> fexist_key io tb fl it key n = false.
  Proof. unfold fexist_key. intros ->. apply andb_false_r. Qed.

  (** ** Update *)

  Lemma fupdate_rows_or it trs rows : forall s, fupdate_rows io tb ev it trs rows s = update_rows tb ev it trs rows s \/ gives_error (fupdate_rows io tb ev it trs rows s).
  Proof.
    induction rows as [|[key o] rows IH]; intro s; cbn [fupdate_rows update_rows]; auto.
    destruct (e_ctx ev (w_tick s)); auto.
    destruct (match rows with (k2, _) :: _ => beqb k2 key | [] => false end); [apply IH|].
    destruct (ft_move io (w_tick s)); cbn [orb]; [right; eexists _, _; reflexivity|].
    destruct (negb (it_valid (it_seek_ge it key)) || negb (beqb (it_key (it_seek_ge it key)) key)); auto.
    destruct (t_deser tb _ _); auto. destruct (nth_error trs o); auto. destruct (t_ser tb _); auto.
  Qed.

  Lemma fupdate_chunk_or db rw c s : fupdate_chunk io tb ev db rw c s = update_chunk tb ev db rw c s \/ gives_error (fupdate_chunk io tb ev db rw c s).
  Proof. unfold fupdate_chunk, update_chunk. destruct (sort_keys ev _) as [keys order]. destruct keys; auto. apply fupdate_rows_or. Qed.

  Theorem update_safe db fl ob trs :
    fupdate io tb ev db fl ob trs = update tb ev db fl ob trs \/
    (exists e, snd (fupdate io tb ev db fl ob trs) = Err e) /\ r_db (fst (fupdate io tb ev db fl ob trs)) = db.
  Proof.
    unfold fupdate, update, run_write. destruct ob as [b|].
    - destruct (batched_or_error (fupdate_chunk io tb ev db (b_rw b)) (update_chunk tb ev db (b_rw b)) trs (e_chunk ev) (fupdate_chunk_or db (b_rw b)) (WSt (b_ops b) fl (t_nil tb) 0)) as [->|[s [e ->]]]; auto.
      right. split; [exists e|]; reflexivity.
    - destruct (batched_or_error (fupdate_chunk io tb ev db false) (update_chunk tb ev db false) trs (e_chunk ev) (fupdate_chunk_or db false) (WSt [] fl (t_nil tb) 0)) as [->|[s [e ->]]]; auto.
      right. split; [exists e|]; reflexivity.
  Qed.

  (** ** Insert *)

  Lemma finsert_rows_ok it trs rows : forall prev s s', insert_rows tb ev it trs prev rows s = (s', Ok tt) -> finsert_rows io tb ev it trs prev rows s = (s', Ok tt).
  Proof.
    induction rows as [|[key o] rows IH]; intros prev s s' E; cbn [finsert_rows insert_rows] in *; auto.
    destruct (e_ctx ev (w_tick s)); [discriminate|].
    destruct (match prev with Some p => beqb key p | None => false end); [discriminate|]. cbn [orb] in *.
    destruct (exist_key tb (w_flt (tick s)) it key) eqn:EX; [discriminate|]. rewrite (fexist_false _ _ _ _ EX).
    destruct (nth_error trs o); [|discriminate]. destruct (t_ser tb _); [|discriminate]. apply IH. exact E.
  Qed.

  Lemma finsert_chunk_ok db rw c s s' : insert_chunk tb ev db rw c s = (s', Ok tt) -> finsert_chunk io tb ev db rw c s = (s', Ok tt).
  Proof. unfold finsert_chunk, insert_chunk. destruct (sort_keys ev _) as [keys order]. destruct keys; [discriminate|]. apply finsert_rows_ok. Qed.

  Theorem insert_new db fl ob trs : snd (insert tb ev db fl ob trs) = Ok tt -> finsert io tb ev db fl ob trs = insert tb ev db fl ob trs.
  Proof.
    unfold finsert, insert, run_write. destruct ob as [b|]; intro H.
    - destruct (batched trs (e_chunk ev) (insert_chunk tb ev db (b_rw b)) _) as [s r] eqn:E. cbn [snd] in H. subst r.
      rewrite (batched_ok_same (finsert_chunk io tb ev db (b_rw b)) _ _ _ (finsert_chunk_ok db (b_rw b)) _ _ E). reflexivity.
    - destruct (batched trs (e_chunk ev) (insert_chunk tb ev db false) _) as [s r] eqn:E.
      destruct r as [[]|e| |]; try discriminate.
      rewrite (batched_ok_same (finsert_chunk io tb ev db false) _ _ _ (finsert_chunk_ok db false) _ _ E). reflexivity.
  Qed.

  (** whatever fails, an error leaves the database alone *)
  Lemma run_write_error (body : bool -> wst T F -> wst T F * res unit) db fl ob : snd (run_write tb ev db fl ob body) <> Ok tt -> r_db (fst (run_write tb ev db fl ob body)) = db.
  Proof.
    unfold run_write. destruct ob as [b|].
    - destruct (body _ _). reflexivity.
    - destruct (body _ _) as [s [[]|e| |]]; try reflexivity. destruct (w_ops s); [reflexivity|]. destruct (e_commit ev); [|reflexivity]. cbn. congruence.
  Qed.

  (** ** Upsert *)
  Variable oc : T -> T -> T.

  Lemma fupsert_rows_eq it trs keys order : (forall key fl, In key keys -> exist_key tb fl it key = false) ->
    forall fuel i s, fupsert_rows io tb ev oc fuel it trs keys order i s = upsert_rows tb ev oc fuel it trs keys order i s.
  Proof.
    intro AB. induction fuel as [|fuel IH]; intros i s; cbn [fupsert_rows upsert_rows]; auto.
    destruct (i <? length keys) eqn:LI; auto. destruct (nth_error trs (nth i order 0)); auto. destruct (e_ctx ev (w_tick s)); auto.
    assert (IN : In (nth i keys []) keys) by (apply nth_In; apply Nat.ltb_lt; exact LI).
    rewrite (fexist_false _ _ _ (w_tick s) (AB _ (w_flt (tick s)) IN)), (AB _ (w_flt (tick s)) IN).
    destruct (upsert_dups oc (length keys) keys trs i (w_old (tick s)) t) as [[[i' old'] tr']|]; auto. destruct (t_ser tb tr'); auto.
  Qed.

  Hypothesis EV : env_ok ev.

  Lemma fupsert_chunk_eq db c s : kv_ok db -> (forall r, In r c -> kv_get db (dk r) = None) ->
    fupsert_chunk io tb ev oc db false c s = upsert_chunk tb ev oc db false c s.
  Proof.
    intros K AB. unfold fupsert_chunk, upsert_chunk. destruct (sort_keys_rows (tb:=tb) (ev:=ev) (EV:=EV) c) as [keys [order [rs [E1 [E2 [E3 _]]]]]]. rewrite E1.
    destruct keys as [|k ks] eqn:EK; auto. rewrite <- EK in *. apply fupsert_rows_eq. intros key fl IN. unfold chunk_iter, chunk_snapshot. apply absent_key; auto.
    rewrite E2 in IN. apply in_map_iff in IN as [r [<- IN]]. apply AB. eapply Permutation_in; eauto.
  Qed.

  Theorem upsert_new db fl ob trs : kv_ok db -> match ob with Some b => b_rw b = false | None => True end -> (forall r, In r trs -> kv_get db (dk r) = None) ->
    fupsert io tb ev oc db fl ob trs = upsert tb ev oc db fl ob trs.
  Proof.
    intros K WO AB.
    assert (X : forall s, batched trs (e_chunk ev) (fupsert_chunk io tb ev oc db false) s = batched trs (e_chunk ev) (upsert_chunk tb ev oc db false) s).
    { intro s. destruct (batched_spec (St := wst T F) (e_chunk ev) trs (env_chunk_pos _ EV)) as [cs [_ [CC [_ [_ H]]]]]. rewrite !H. apply chunks_same.
      intros c s0 Hc. apply fupsert_chunk_eq; auto. intros r Hr. apply AB. rewrite <- CC. apply in_concat. eauto. }
    unfold fupsert, upsert, run_write. destruct ob as [b|]; [rewrite WO|]; rewrite X; reflexivity.
  Qed.
End Writes.

(** ** Get of points: nothing is found, nothing is reported *)

Lemma blind_values {T F} io (tb : table T F) fl keys : (forall n, ft_move io n = true) -> forall it n, pi_err (fp_it it) = None ->
  exists n', fget_values io tb fl it keys false n = (Ok (map (fun _ => []) keys), n').
Proof.
  intro BAD. induction keys as [|k keys IH]; intros it n PE; cbn [fget_values map]; [eauto|].
  destruct (negb (flt_may tb fl k)).
  - destruct (IH it n PE) as [n' ->]. eauto.
  - unfold fp_move. rewrite PE, BAD. cbn [negb andb]. rewrite andb_false_r. cbn [fp_valid fp_it it_valid pi_pos negb orb].
    destruct (IH (FP (PIter (pi_items (fp_it it)) PNone None) true) (S n) eq_refl) as [n' ->]. eauto.
Qed.

Lemma blind_reorder (vs : list bytes) order : (forall v, In v vs -> v = []) -> reorder_values vs order = map (fun _ => []) vs.
Proof.
  intro H. unfold reorder_values.
  assert (X : forall i, match index_of i order with Some j => nth j vs [] | None => [] end = @nil Byte.byte).
  { intro i. destruct (index_of i order) as [j|]; auto. destruct (nth_in_or_default j vs []) as [I|E]; auto. }
  rewrite (map_ext _ (fun _ => []) X). generalize 0. clear H X. induction vs as [|v vs IH]; intro k; cbn [length seq map]; f_equal; auto.
Qed.

Theorem blind_points {T F} io (tb : table T F) ev db fl ob pts : env_ok ev -> readable ob -> (forall n, ft_open io n = false) -> (forall n, ft_move io n = true) ->
  fget_points io tb ev db fl ob pts = Ok (map (fun _ => t_nil tb) pts).
Proof.
  intros EV RD OPEN BAD. unfold fget_points, fget_keys. destruct pts as [|p pts]; auto. cbn [map].
  destruct (sort_keys ev (data_key tb p :: map (data_key tb) pts)) as [sk od] eqn:ES. unfold fp_open. rewrite OPEN.
  assert (LN : length sk = length (p :: pts)).
  { change (data_key tb p :: map (data_key tb) pts) with (map (data_key tb) (p :: pts)) in ES. unfold sort_keys in ES. injection ES as <- <-.
    rewrite map_length. pose proof (env_sort_perm _ EV (map (data_key tb) (p :: pts))) as P. apply Permutation_length in P. rewrite seq_length, map_length in P. exact P. }
  assert (PE : pi_err (fp_it (FP (db_iter db ob (hd [] sk) (data_key_space_end tb)) false)) = None) by (cbn [fp_it]; unfold db_iter; destruct ob as [b|]; [rewrite RD|]; reflexivity).
  destruct (blind_values io tb fl sk BAD _ 1 PE) as [n' ->]. rewrite blind_reorder.
  2:{ intros v H. apply in_map_iff in H as [? [<- _]]. reflexivity. }
  rewrite map_map. change (t_nil tb :: map (fun _ => t_nil tb) pts) with (map (fun _ => t_nil tb) (p :: pts)). clear - LN. revert LN. generalize (p :: pts) as l. induction sk as [|k sk IH]; intros [|x l] LN; try discriminate; cbn [map decode_values]; auto.
  rewrite (IH l) by (injection LN; auto). reflexivity.
Qed.

(** ** Scans whose iterator cannot be made *)

Theorem blind_scan {T F} io (tb : table T F) ev fuel db fl idx sel W (f : W -> bytes -> prog W) rv ob s : ft_open io 0 = true -> one_selection sel ->
  (forall p, sel = SPoint p -> exists o, point_bounds tb idx false p = Ok o) ->
  fscan_index_for_each io tb ev fuel db fl idx sel f rv ob s = (s, Ok tt).
Proof.
  intros BAD ONE PB. unfold fscan_index_for_each.
  assert (E : iter_by tb (fun lo hi => fp_it (fst (fp_open io (db_iter db ob) lo hi 0))) idx sel = Ok (BOne (err_iter EOther))).
  { unfold fp_open. rewrite BAD. cbn [fst fp_it]. destruct sel as [p|ps|lo hi|rs|]; cbn [one_selection] in ONE; try contradiction; cbn [iter_by].
    - destruct (PB p eq_refl) as [[lo hi] ->]. reflexivity.
    - destruct (range_bounds tb idx lo hi). reflexivity. }
  rewrite E. cbn [fb_of fscan_first]. unfold fp_move. cbn [fp_it err_iter pi_err].
  destruct (Byte.eqb (ix_id idx) primary_index_id); destruct fuel; destruct rv; reflexivity.
Qed.

(** ** Loops over everything *)

Lemma met_prefix io : forall items n, exists rest, items = met io n items ++ rest.
Proof.
  induction items as [|e items IH]; intro n; cbn [met]; destruct (ft_move io n); try (exists []; reflexivity); [exists (e :: items); reflexivity|].
  destruct (IH (S n)) as [rest E]. exists rest. cbn [app]. congruence.
Qed.

Lemma met_all io : (forall n, ft_move io n = false) -> forall items n, met io n items = items.
Proof. intros H. induction items as [|e items IH]; intro n; cbn [met]; rewrite H; [reflexivity|]. rewrite IH. reflexivity. Qed.

Lemma blind_dump io full snap tables : forall d, (forall t n, ft_move (io t) n = true) ->
  fdump_tables io full snap tables d = fdump_tables (fun _ => Faults (fun _ => false) (fun _ => false)) full [] tables d.
Proof.
  induction tables as [|t tables IH]; intros d H; cbn [fdump_tables]; auto.
  assert (E1 : forall l, met (io t) 0 l = []) by (intros [|e l]; cbn [met]; rewrite H; reflexivity).
  assert (E2 : kv_range [] (fst (row_bounds t)) (snd (row_bounds t)) = []) by reflexivity. rewrite E1, E2. cbn [met ft_move].
  destruct (dump_dir full d (table_dir t) []); auto.
Qed.

Section Rebuild.
  Context {T F : Type}.
  Variable tb : table T F.
  Variable idxs : list (index T).
  Notation tbx := (with_indexes tb idxs).
  Hypothesis LAW : lawful tbx.
  Notation sc := (schema_of tbx).
  Variable io : faults.

  Theorem rebuild_kept ev db (m : tmap T) : kv_ok db -> ser_fresh tb -> Rep (schema0 tb) db m -> (forall n, r_write ev n = true) ->
    (forall ix, In ix idxs -> ix_id ix <> xff) ->
    exists db' kept left, fre_index io ev tb db idxs = (db', Ok tt) /\ (forall r, In r (kept ++ left) <-> m (s_pk sc r) = Some r) /\
    (ft_move io 0 = true -> kept = []) /\ ((forall n, ft_move io n = false) -> left = []) /\
    forall ix rest v, In ix idxs ->
      kv_get db' (t_id tb :: ix_id ix :: rest) = Some v <->
      v = [] /\ exists r, In r kept /\ ix_filter ix r = true /\ t_id tb :: ix_id ix :: rest = entry_key sc (sindex_of ix) r.
  Proof.
    intros K SF R Q NF. unfold fre_index. destruct (re_delete_quiet tb ev idxs Q 0 db) as (db1 & n & E). rewrite E.
    destruct (re_delete_inv tb ev idxs 0 db K _ _ _ E) as (K1 & B & C & D).
    assert (Z : forall rest, ~ index_area (t_id tb) idxs (t_id tb :: x00 :: rest)).
    { intros rest (j & rest' & J & [= N _]). apply (law_nonzero _ LAW j J). auto. }
    assert (R' : Rep (schema0 tb) db1 m).
    { destruct R as [R1 R2 R3 R4]. constructor; auto.
      - intros pk. rewrite <- R2. apply B. apply Z.
      - intros rest v H. apply (R3 rest v). rewrite <- B; [exact H|apply Z].
      - intros ix rest v []. }
    destruct (items_rows tb idxs db1 m K1 SF R') as (rows & E1 & IN). cbv zeta in *.
    set (its := items_from _ _) in *. destruct (met_prefix io its 0) as [more EM].
    assert (SP : exists kept left, rows = kept ++ left /\ map (fun e => t_deser tb (snd e) (t_nil tb)) (met io 0 its) = map Some kept /\ length left = length more).
    { rewrite EM in E1. rewrite map_app in E1. symmetry in E1. apply map_eq_app in E1 as [kept [left [-> [A1 A2]]]]. exists kept, left. split; auto. split; auto.
      apply (f_equal (@length _)) in A2. rewrite !map_length in A2. exact A2. }
    destruct SP as (kept & left & -> & E2 & LL).
    rewrite (re_rows_quiet tb ev idxs _ Q kept E2). cbn [apply_ops fold_left].
    change (fold_left apply_op (flat_map (row_sets tb idxs) kept) db1) with (apply_ops db1 (flat_map (row_sets tb idxs) kept)).
    eexists _, kept, left. split; [reflexivity|]. split; [exact IN|]. split.
    { intro BAD. assert (M0 : met io 0 its = []) by (destruct its; cbn [met]; rewrite BAD; reflexivity). rewrite M0 in E2. destruct kept; [reflexivity|discriminate]. }
    split.
    { intro FINE. rewrite (met_all io FINE) in EM. assert (more = []). { apply (f_equal (@length _)) in EM. rewrite app_length in EM. destruct more; auto. cbn in EM. lia. }
      subst more. destruct left; [reflexivity|discriminate]. }
    intros ix rest v I. rewrite kv_get_apply_ops by auto. rewrite (row_sets_effect tb idxs LAW) by auto.
    assert (X : existsb (fun r => ix_filter ix r && beqb (t_id tb :: ix_id ix :: rest) (entry_key sc (sindex_of ix) r)) kept = true <->
      exists r, In r kept /\ ix_filter ix r = true /\ t_id tb :: ix_id ix :: rest = entry_key sc (sindex_of ix) r).
    { rewrite existsb_exists. split.
      - intros (r & A1 & A2). apply andb_true_iff in A2 as [A2 A3]. apply beqb_eq in A3. exists r. auto.
      - intros (r & A1 & A2 & A3). exists r. split; auto. rewrite A2, A3. apply beqb_refl. }
    destruct (existsb _ kept) eqn:EX.
    - split; [intros [= <-]|intros [-> _]]; [split; [reflexivity|apply X; reflexivity]|reflexivity].
    - rewrite (C eq_refl _ ix rest I (NF ix I) eq_refl). split; [discriminate|]. intros [_ H]. apply X in H. discriminate.
  Qed.
End Rebuild.
