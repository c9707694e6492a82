(** Lemmas behind the property theorems about tables. *)

From Coq Require Import List NArith Lia Bool Sorting.Sorted Sorting.Permutation Arith.
From Verif.Model Require Import Bytes Go Keys Pebble Index Table.
From Verif.Spec Require Import KeySpec TableSpec HistSpec.
From Verif.Proofs Require Import BytesFacts KeysFacts PebbleFacts TableFacts WriteFacts UpdateFacts UpsertFacts CallFacts
  LocalFacts ErrFacts ReadFacts HistFacts FilterSim BugFacts FoldFacts UnsafeFacts Witness.
Import ListNotations.

Lemma is_chunks_det {A} n (l : list A) cs cs' : 0 < n -> is_chunks n l cs -> is_chunks n l cs' -> cs = cs'.
Proof.
  intros P H. revert cs'. induction H as [|l Hl|c l cs Hc Hl H IH]; intros cs' H'.
  - inversion H'; subst; auto.
    + cbn in *; lia.
    + destruct c; [cbn in *; lia|discriminate].
  - symmetry. apply (is_chunks_small _ _ _ H'); [lia|]. destruct l; [cbn in Hl; lia|easy].
  - remember (c ++ l) as cl eqn:E. destruct H' as [|l0 L|c0 l0 cs0 L N X].
    + destruct l; [easy|]. destruct c; discriminate.
    + subst l0. rewrite app_length in L. destruct l; [easy|cbn in L; lia].
    + assert (LL : length c0 = length c) by congruence. apply app_inj_len in E as [-> ->]; auto. f_equal. apply IH; auto.
Qed.

Section P.
  Context {T F : Type} (tb : table T F) (G : good_table tb) (ev : env T) (EV : env_ok ev).
  Notation sc := (schema_of tb).
  Notation dk := (data_key tb).
  Notation pk := (s_pk (schema_of tb)).
  Let LAW : lawful tb := good_lawful _ G.
  Let SO : ser_over tb := good_ser _ G.
  Let FO : filter_ok tb := good_filter _ G.

  (** ** C12 *)

  Lemma insert_ok db fl m rows : quiet ev -> consistent tb db fl m ->
    Forall (row_ok sc) rows -> NoDup (map pk rows) -> (forall r, In r rows -> m (pk r) = None /\ s_val sc r <> None) ->
    exists w, insert tb ev db fl None rows = (w, Ok tt) /\ consistent tb (r_db w) (r_flt w) (puts sc m rows)
      /\ same_outside sc db (r_db w).
  Proof.
    intros Q C OK ND AB. destruct (call_step tb G ev (CInsert rows) db fl m EV C) as [w [res [E1 [E2 [E3 [E4 E5]]]]]].
    { split; auto. }
    assert (res = Ok tt) by (apply E5; auto). subst res. exists w. split; [exact E1|]. split; [exact E4|exact E3].
  Qed.

  Lemma run_none_err db fl g w e : run_write tb ev db fl None g = (w, Err e) -> r_db w = db.
  Proof.
    unfold run_write. destruct (g false _) as [s r]. destruct r as [[]|e'| |]; try (intros [= <- _]; reflexivity).
    destruct (w_ops s); [easy|]. destruct (e_commit ev); [easy|]. intros [= <- _]. reflexivity.
  Qed.

  (** Every outcome of Insert without a batch, for any rows, any schedule of cancellation. *)
  Lemma insert_any db fl m rows w res : consistent tb db fl m ->
    insert tb ev db fl None rows = (w, res) ->
    (res = Ok tt /\ (forall r, In r rows -> m (pk r) = None /\ s_val sc r <> None) /\
       (forall i, i < length rows -> e_ctx ev i = false) /\
       (forall cs, is_chunks (e_chunk ev) rows cs -> Forall (fun c => NoDup (map pk c)) cs)) \/
    (exists e, res = Err e /\ r_db w = db /\
      (e = ECtx /\ (exists i, i < length rows /\ e_ctx ev i = true) \/
       e = ESerialize /\ (exists r, In r rows /\ s_val sc r = None) \/
       e = ECommit /\ e_commit ev = false \/
       exists r, In r rows /\ e = EExists ([x00; x00; x00; x00] ++ pk r) /\ (m (pk r) <> None \/ repeated sc rows (pk r)))).
  Proof.
    intros [K R CV] RUN. pose proof RUN as RUN0. unfold insert, run_write in RUN.
    destruct (batched_chunks (St := wst T F) (e_chunk ev) rows (env_chunk_pos _ EV)) as [cs [C1 C2]]. rewrite C2 in RUN.
    pose proof (is_chunks_nonempty _ _ _ (env_chunk_pos _ EV) C1) as NE.
    pose proof (is_chunks_concat _ _ _ C1) as CC.
    destruct (run_chunks _ cs _) as [s' r'] eqn:E.
    apply (insert_run_any (LAW:=LAW) (EV:=EV) db K FO) in E; auto. rewrite CC in E.
    destruct E as [[-> [H1 [H2 H3]]]|[e [-> H]]].
    - assert (AB : forall r, In r rows -> m (pk r) = None /\ s_val sc r <> None).
      { intros r Hr. destruct (H2 r Hr) as [A B]. split; auto. apply (rep_none (LAW:=LAW) _ _ _ R); auto. }
      assert (LV : forall i, i < length rows -> e_ctx ev i = false).
      { intros i Hi. apply H3. cbn. lia. }
      assert (CH : forall cs0, is_chunks (e_chunk ev) rows cs0 -> Forall (fun c => NoDup (map pk c)) cs0).
      { intros cs0 X. rewrite (is_chunks_det _ _ _ _ (env_chunk_pos _ EV) X C1). auto. }
      destruct (w_ops s'); [injection RUN as <- <-; left; auto|].
      destruct (e_commit ev) eqn:EC; [injection RUN as <- <-; left; auto|].
      right. exists ECommit. split; [congruence|]. split; [injection RUN as <- _; reflexivity|]. auto.
    - right. exists e. split; [congruence|]. split; [injection RUN as <- _; reflexivity|].
      destruct H as [[-> [i [I1 I2]]]|[[-> H]|[r [H1 [-> H2]]]]].
      + left. split; auto. exists i. cbn in I1. split; [lia|auto].
      + right; left. auto.
      + right; right; right. exists r. split; auto. split; auto. destruct H2 as [H2|H2]; auto. left.
        intro X. apply H2. apply (rep_none (LAW:=LAW) _ _ _ R); auto.
  Qed.

  Lemma insert_present db fl m rows r0 : quiet ev -> consistent tb db fl m ->
    (forall r, In r rows -> s_val sc r <> None) -> In r0 rows -> m (pk r0) <> None ->
    exists w r, insert tb ev db fl None rows = (w, Err (EExists ([x00; x00; x00; x00] ++ pk r))) /\ r_db w = db /\
      In r rows /\ (m (pk r) <> None \/ repeated sc rows (pk r)).
  Proof.
    intros [Q1 Q2] C SE IN PR. destruct (insert tb ev db fl None rows) as [w res] eqn:E.
    destruct (insert_any _ _ _ _ _ _ C E) as [[_ [H _]]|[e [-> [H1 H]]]].
    - exfalso. apply PR. apply H; auto.
    - destruct H as [[_ [i [_ X]]]|[[_ [r [X1 X2]]]|[[_ X]|[r [X1 [-> X2]]]]]].
      + rewrite Q1 in X. easy.
      + exfalso. apply (SE r); auto.
      + congruence.
      + exists w, r. auto.
  Qed.

  (** ** C13 *)

  Lemma run_none_failed db fl g w res : run_write tb ev db fl None g = (w, res) -> res <> Ok tt -> r_db w = db.
  Proof.
    unfold run_write. destruct (g false _) as [s r]. destruct r as [[]|e'| |]; try (intros [= <- _]; reflexivity).
    destruct (w_ops s); [intros [= <- <-]; easy|]. destruct (e_commit ev); [intros [= <- <-]; easy|]. intros [= <- _]. reflexivity.
  Qed.

  (** ** C13: cancellation *)

  Lemma insert_cancelled db fl ob rows w i : i < length rows -> e_ctx ev i = true -> insert tb ev db fl ob rows <> (w, Ok tt).
  Proof.
    apply cancelled. intros rw s s'. apply (batched_done (EV:=EV)). intros c s0 s1. apply (insert_chunk_done (EV:=EV)).
  Qed.
  Lemma update_cancelled db fl ob rows w i : i < length rows -> e_ctx ev i = true -> update tb ev db fl ob rows <> (w, Ok tt).
  Proof.
    apply cancelled. intros rw s s'. apply (batched_done (EV:=EV)). intros c s0 s1. apply (update_chunk_done (EV:=EV)).
  Qed.
  Lemma delete_cancelled db fl ob rows w i : i < length rows -> e_ctx ev i = true -> delete tb ev db fl ob rows <> (w, Ok tt).
  Proof. apply cancelled. intros rw s s'. apply delete_rows_done. Qed.
  Lemma unsafe_insert_cancelled db fl ob rows w i : i < length rows -> e_ctx ev i = true -> unsafe_insert tb ev db fl ob rows <> (w, Ok tt).
  Proof.
    apply cancelled. intros rw s s'. apply (batched_done (EV:=EV)). intros c s0 s1. apply unsafe_insert_rows_done.
  Qed.
  Lemma unsafe_update_cancelled db fl ob rows olds w i : i < length rows -> e_ctx ev i = true -> unsafe_update tb ev db fl ob rows olds <> (w, Ok tt).
  Proof.
    intros Hi C. unfold unsafe_update. destruct (Nat.eqb (length rows) (length olds)) eqn:E; [|easy]. apply Nat.eqb_eq in E.
    eapply cancelled; eauto. intros rw s s'. apply unsafe_update_rows_done; auto.
  Qed.
  Lemma upsert_cancelled f db fl m rows w i : consistent tb db fl m -> admissible sc m (CUpsert f rows) ->
    i < length rows -> e_ctx ev i = true -> upsert tb ev f db fl None rows <> (w, Ok tt).
  Proof.
    intros [K R C] AD Hi X E.
    change (upsert tb ev f db fl None rows) with (run_call tb ev db fl None (CUpsert f rows)) in E. rewrite run_call_eq in E. unfold run_write in E.
    destruct (body_run (LAW:=LAW) (EV:=EV) (CUpsert f rows) db false (WSt [] fl (t_nil tb) 0) m K SO FO) as [s' [res [E1 [E2 _]]]]; auto.
    { right. reflexivity. }
    rewrite E1 in E. destruct E2 as [[e ->]|[-> [_ [_ [_ [_ [L _]]]]]]]; [easy|].
    rewrite L in X; [easy|cbn; lia].
  Qed.

  (** ** C14 *)

  Lemma insert_repeated_in_chunk db fl m rows cs c : consistent tb db fl m ->
    is_chunks (e_chunk ev) rows cs -> In c cs -> ~ NoDup (map pk c) ->
    exists w e, insert tb ev db fl None rows = (w, Err e) /\ r_db w = db.
  Proof.
    intros C IC IN ND. destruct (insert tb ev db fl None rows) as [w res] eqn:E.
    destruct (insert_any _ _ _ _ _ _ C E) as [[_ [_ [_ H]]]|[e [-> [H1 H]]]].
    - exfalso. apply ND. specialize (H cs IC). rewrite Forall_forall in H. auto.
    - eauto.
  Qed.

  Lemma insert_repeated_batch db fl m rows b : kv_ok db -> b_rw b = true -> consistent tb (view db (Some b)) fl m ->
    Forall (row_ok sc) rows -> ~ NoDup (map pk rows) ->
    exists w e, insert tb ev db fl (Some b) rows = (w, Err e) /\ r_db w = db.
  Proof.
    intros K RW [KV R CV] OK ND. unfold insert, run_write. rewrite RW.
    destruct (batched_chunks (St := wst T F) (e_chunk ev) rows (env_chunk_pos _ EV)) as [cs [C1 C2]]. rewrite C2.
    pose proof (is_chunks_nonempty _ _ _ (env_chunk_pos _ EV) C1) as NE.
    pose proof (is_chunks_concat _ _ _ C1) as CC. subst rows.
    destruct (run_chunks _ cs _) as [s' r'] eqn:E.
    pose proof (run_chunks_err (insert_chunk tb ev db true) cs) as X.
    assert (ERR : forall c s, In c cs -> err_only (snd (insert_chunk tb ev db true c s))).
    { intros c s Hc. apply (insert_chunk_err (EV:=EV)). rewrite Forall_forall in NE. auto. }
    specialize (X ERR (WSt (b_ops b) fl (t_nil tb) 0)). rewrite E in X. cbn [snd] in X.
    destruct X as [[[] ->]|[e ->]]; [|eauto].
    exfalso. apply ND.
    eapply (insert_run_inv (LAW:=LAW) (EV:=EV) db true K FO cs (WSt (b_ops b) fl (t_nil tb) 0) m s'); auto.
  Qed.

  (** ** C15 *)

  Lemma update_ok db fl m rows : quiet ev -> consistent tb db fl m ->
    Forall (row_ok sc) rows -> NoDup (map pk rows) -> (forall r, In r rows -> m (pk r) <> None /\ s_val sc r <> None) ->
    exists w, update tb ev db fl None rows = (w, Ok tt) /\ consistent tb (r_db w) (r_flt w) (puts sc m rows)
      /\ same_outside sc db (r_db w).
  Proof.
    intros Q C OK ND AB. destruct (call_step tb G ev (CUpdate rows) db fl m EV C) as [w [res [E1 [E2 [E3 [E4 E5]]]]]].
    { split; auto. }
    assert (res = Ok tt) by (apply E5; auto). subst res. exists w. split; [exact E1|]. split; [exact E4|exact E3].
  Qed.

  (** repeated keys within one chunk: one of the given versions wins *)
  Lemma update_repeated db fl m rows : quiet ev -> consistent tb db fl m ->
    Forall (row_ok sc) rows -> length rows <= e_chunk ev -> (forall r, In r rows -> m (pk r) <> None /\ s_val sc r <> None) ->
    exists w m', update tb ev db fl None rows = (w, Ok tt) /\ consistent tb (r_db w) (r_flt w) m' /\
      (forall p, (exists r, In r rows /\ pk r = p /\ m' p = Some r) \/ ((forall r, In r rows -> pk r <> p) /\ m' p = m p)) /\
      same_outside sc db (r_db w).
  Proof.
    intros [Q1 Q2] [K R CV] OK LEN AB. unfold update, run_write. destruct rows as [|r0 rows'] eqn:ER.
    { rewrite batched_nil. exists (WRes db fl None), m. cbn. split; auto. split; [constructor; auto|].
      split; [|apply same_outside_refl]. intro p. right. split; [easy|auto]. }
    rewrite <- ER in *. assert (NE : rows <> []) by (subst; easy).
    destruct (batched_chunks (St := wst T F) (e_chunk ev) rows (env_chunk_pos _ EV)) as [cs [C1 C2]]. rewrite C2.
    rewrite (is_chunks_small _ _ _ C1) by auto. cbn [run_chunks].
    destruct (update_chunk_fwd (LAW:=LAW) (EV:=EV) db false rows (WSt [] fl (t_nil tb) 0) m) as [s1 [sel [E1 [I1 [I2 [R1 [R2 [R3 _]]]]]]]]; auto.
    { intros; apply AB; auto. }
    { intros i _. apply Q1. }
    { intros; apply AB; auto. }
    rewrite E1.
    assert (CV1 : covers tb (w_flt s1) (V db s1)).
    { apply (covers_puts (LAW:=LAW) db (WSt [] fl (t_nil tb) 0) s1 m sel); [exact R|exact R1| | |exact CV].
      - rewrite R3. apply flt_le_refl.
      - intros r Hr. apply I1 in Hr. rewrite R3. cbn [w_flt]. destruct (m (pk r)) as [o|] eqn:EM; [|destruct (AB r Hr); contradiction].
        destruct (rep_some (LAW:=LAW) _ _ _ _ R EM) as [v [_ GV]]. apply (covers_may (LAW:=LAW) _ _ _ _ CV GV). }
    assert (KV : kv_ok (V db s1)) by (apply V_ok; auto).
    assert (WR := puts_wrote (tb:=tb) m rows sel I1 I2). unfold wrote in WR. unfold V in *.
    destruct (w_ops s1) as [|o os] eqn:EO; [|rewrite Q2]; eexists _, (puts sc m sel); (split; [reflexivity|]); cbn [r_db r_flt];
      (split; [constructor|]); auto.
  Qed.

  (** The same through a read-write batch: no bound on the number of rows. *)
  Lemma update_repeated_batch db fl m rows b : kv_ok db -> b_rw b = true -> quiet ev -> consistent tb (view db (Some b)) fl m ->
    Forall (row_ok sc) rows -> (forall r, In r rows -> m (pk r) <> None /\ s_val sc r <> None) ->
    exists w b' m', update tb ev db fl (Some b) rows = (w, Ok tt) /\ r_db w = db /\ r_batch w = Some b' /\
      consistent tb (view db (Some b')) (r_flt w) m' /\
      (forall p, (exists r, In r rows /\ pk r = p /\ m' p = Some r) \/ ((forall r, In r rows -> pk r <> p) /\ m' p = m p)).
  Proof.
    intros K RW [Q1 Q2] [KV R CV] OK AB. unfold update, run_write. rewrite RW.
    destruct (batched_chunks (St := wst T F) (e_chunk ev) rows (env_chunk_pos _ EV)) as [cs [C1 C2]]. rewrite C2.
    pose proof (is_chunks_nonempty _ _ _ (env_chunk_pos _ EV) C1) as NE.
    pose proof (is_chunks_concat _ _ _ C1) as CC. subst rows.
    destruct (update_run_fwd (LAW:=LAW) (EV:=EV) db true K SO cs (WSt (b_ops b) fl (t_nil tb) 0) m NE OK) as [s1 [sel [E1 [I1 [I2 [R1 [R2 R3]]]]]]]; auto.
    { intros; apply AB; auto. }
    { intros i _. apply Q1. }
    { intros; apply AB; auto. }
    rewrite E1. eexists _, (Batch true (w_ops s1)), (puts sc m sel). split; [reflexivity|]. cbn [r_db r_batch r_flt].
    split; auto. split; auto. split; [|exact (puts_wrote (tb:=tb) m _ sel I1 I2)].
    constructor; [apply (V_ok db s1); auto|exact R1|].
    apply (covers_puts (LAW:=LAW) db (WSt (b_ops b) fl (t_nil tb) 0) s1 m sel); [exact R|exact R1| | |exact CV].
    - rewrite R3. apply flt_le_refl.
    - intros r Hr. apply I1 in Hr. rewrite R3. cbn [w_flt]. destruct (m (pk r)) as [o|] eqn:EM; [|destruct (AB r Hr); contradiction].
      destruct (rep_some (LAW:=LAW) _ _ _ _ R EM) as [v [_ GV]]. apply (covers_may (LAW:=LAW) _ _ _ _ CV GV).
  Qed.

  Lemma update_any db fl m rows w res : consistent tb db fl m ->
    update tb ev db fl None rows = (w, res) ->
    (res = Ok tt /\ (forall r, In r rows -> m (pk r) <> None) /\ (forall i, i < length rows -> e_ctx ev i = false)) \/
    (exists e, res = Err e /\ r_db w = db /\
      (e = ECtx /\ (exists i, i < length rows /\ e_ctx ev i = true) \/
       e = ESerialize /\ (exists r, In r rows /\ s_val sc r = None) \/
       e = ECommit /\ e_commit ev = false \/
       exists r, In r rows /\ e = EMissing ([x00; x00; x00; x00] ++ pk r) /\ m (pk r) = None)).
  Proof.
    intros [K R CV] RUN. unfold update, run_write in RUN.
    destruct (batched_chunks (St := wst T F) (e_chunk ev) rows (env_chunk_pos _ EV)) as [cs [C1 C2]]. rewrite C2 in RUN.
    pose proof (is_chunks_nonempty _ _ _ (env_chunk_pos _ EV) C1) as NE.
    pose proof (is_chunks_concat _ _ _ C1) as CC.
    destruct (run_chunks _ cs _) as [s' r'] eqn:E.
    apply (update_run_any (LAW:=LAW) (EV:=EV) db K) in E; auto.
    2: { intros r v prior Hg. destruct (m (pk r)) as [o|] eqn:EM.
         - destruct (rep_some (LAW:=LAW) _ _ _ _ R EM) as [v' [S' G']]. rewrite G' in Hg. injection Hg as ->. rewrite (SO _ _ prior S'). easy.
         - apply (rep_none (LAW:=LAW) _ _ _ R) in EM. congruence. }
    rewrite CC in E.
    destruct E as [[-> [H2 H3]]|[e [-> H]]].
    - assert (AB : forall r, In r rows -> m (pk r) <> None).
      { intros r Hr X. apply (H2 r Hr). apply (rep_none (LAW:=LAW) _ _ _ R); auto. }
      assert (LV : forall i, i < length rows -> e_ctx ev i = false).
      { intros i Hi. apply H3. cbn. lia. }
      destruct (w_ops s'); [injection RUN as <- <-; left; auto|].
      destruct (e_commit ev) eqn:EC; [injection RUN as <- <-; left; auto|].
      right. exists ECommit. split; [congruence|]. split; [injection RUN as <- _; reflexivity|]. auto.
    - right. exists e. split; [congruence|]. split; [injection RUN as <- _; reflexivity|].
      destruct H as [[-> [i [I1 I2]]]|[[-> H]|[r [H1 [-> H2]]]]].
      + left. split; auto. exists i. cbn in I1. split; [lia|auto].
      + right; left. auto.
      + right; right; right. exists r. split; auto. split; auto.
        apply (rep_none (LAW:=LAW) _ _ _ R); auto.
  Qed.

  Lemma update_missing db fl m rows r0 : quiet ev -> consistent tb db fl m ->
    (forall r, In r rows -> s_val sc r <> None) -> In r0 rows -> m (pk r0) = None ->
    exists w r, update tb ev db fl None rows = (w, Err (EMissing ([x00; x00; x00; x00] ++ pk r))) /\ r_db w = db /\
      In r rows /\ m (pk r) = None.
  Proof.
    intros [Q1 Q2] C SE IN PR. destruct (update tb ev db fl None rows) as [w res] eqn:E.
    destruct (update_any _ _ _ _ _ _ C E) as [[_ [H _]]|[e [-> [H1 H]]]].
    - exfalso. apply (H r0); auto.
    - destruct H as [[_ [i [_ X]]]|[[_ [r [X1 X2]]]|[[_ X]|[r [X1 [-> X2]]]]]].
      + rewrite Q1 in X. easy.
      + exfalso. apply (SE r); auto.
      + congruence.
      + exists w, r. auto.
  Qed.

  (** ** C16 *)

  Lemma upsert_ok f db fl m rows : quiet ev -> consistent tb db fl m ->
    Forall (row_ok sc) rows -> NoDup (map pk rows) ->
    (forall old r, pk old = pk r -> row_ok sc old -> row_ok sc r -> pk (f old r) = pk r /\ row_ok sc (f old r)) ->
    (forall r, In r rows -> s_val sc (match m (pk r) with Some old => f old r | None => r end) <> None) ->
    exists w, upsert tb ev f db fl None rows = (w, Ok tt) /\ consistent tb (r_db w) (r_flt w) (merges sc f m rows)
      /\ same_outside sc db (r_db w).
  Proof.
    intros Q C OK ND CF SE. destruct (call_step tb G ev (CUpsert f rows) db fl m EV C) as [w [res [E1 [E2 [E3 [E4 E5]]]]]].
    { split; [exact OK|]. split; auto. }
    assert (res = Ok tt) by (apply E5; auto). subst res. exists w. split; [exact E1|]. split; [exact E4|exact E3].
  Qed.

  (** ** C18 *)

  Lemma delete_ok db fl m rows : quiet ev -> consistent tb db fl m -> Forall (row_ok sc) rows ->
    (forall r o, In r rows -> m (pk r) = Some o -> same_index_entries sc r o) ->
    exists w, delete tb ev db fl None rows = (w, Ok tt) /\ consistent tb (r_db w) (r_flt w) (removes sc m rows)
      /\ same_outside sc db (r_db w).
  Proof.
    intros Q C OK SE. destruct (call_step tb G ev (CDelete rows) db fl m EV C) as [w [res [E1 [E2 [E3 [E4 E5]]]]]].
    { split; auto. }
    assert (res = Ok tt) by (apply E5; auto; exact I). subst res. exists w. split; [exact E1|]. split; [exact E4|exact E3].
  Qed.

  (** ** C20 *)

  Lemma reads_after_hist h db' fl' oks : Forall (fun ec => env_ok (fst ec)) h ->
    forall fl0, run_hist tb [] fl0 h = (db', fl', oks) -> admissible_hist sc empty_map oks ->
    forall r, get_point tb db' fl' None r = match outcome sc empty_map oks (pk r) with Some x => Ok x | None => Err ENotFound end
      /\ exist tb db' fl' None r = match outcome sc empty_map oks (pk r) with Some _ => true | None => false end.
  Proof.
    intros EH fl0 RUN AD r.
    destruct (hist_run tb G h [] fl0 empty_map db' fl' oks EH) as [[K R C] _]; auto.
    { constructor; [apply kv_ok_nil|apply Rep_empty|apply covers_empty]. }
    split.
    - apply (get_point_eq (LAW:=LAW) db' fl' None _ r); auto; [intros x v; apply SO|exact I].
    - apply (exist_eq (LAW:=LAW) db' fl' None _ r); auto. exact I.
  Qed.

  (** ** C31 *)

  Lemma call_frame db fl ob c w res : kv_ok db -> run_call tb ev db fl ob c = (w, res) ->
    same_outside sc db (r_db w) /\
    match ob with
    | Some b => r_db w = db /\ exists os, r_batch w = Some (Batch (b_rw b) (b_ops b ++ os)) /\
                  forall st, kv_ok st -> same_outside sc st (apply_ops st os)
    | None => r_batch w = None
    end.
  Proof.
    intros K E. rewrite run_call_eq in E.
    pose proof (run_write_frame (tb:=tb) (ev:=ev) db fl ob _ w res K (fun rw s => body_ext (LAW:=LAW) (EV:=EV) c db rw s) E) as [H1 H2].
    split; auto. destruct ob as [b|]; auto. destruct H2 as [H2 [os [H3 H4]]]. split; auto. exists os. split; auto.
    intros st KS. apply (ops_in_outside (tb:=tb)); auto.
  Qed.

  Lemma unsafe_frame db fl ob rows olds w res : kv_ok db ->
    (unsafe_insert tb ev db fl ob rows = (w, res) \/ unsafe_update tb ev db fl ob rows olds = (w, res)) ->
    same_outside sc db (r_db w).
  Proof.
    intros K [E|E].
    - eapply (run_write_frame (tb:=tb) (ev:=ev) db fl ob); [exact K| |exact E].
      intros rw s. apply (batched_ext (EV:=EV)). intros c s'. apply (unsafe_insert_rows_ext (LAW:=LAW) (EV:=EV)).
    - unfold unsafe_update in E. destruct (Nat.eqb _ _).
      + eapply (run_write_frame (tb:=tb) (ev:=ev) db fl ob); [exact K| |exact E].
        intros rw s. apply (unsafe_update_rows_ext (LAW:=LAW) (EV:=EV)).
      + injection E as <- _. apply same_outside_refl.
  Qed.

  Lemma call_local db1 db2 fl ob c w1 r1 w2 r2 : kv_ok db1 -> kv_ok db2 ->
    (forall k, in_table sc k -> kv_get db1 k = kv_get db2 k) ->
    run_call tb ev db1 fl ob c = (w1, r1) -> run_call tb ev db2 fl ob c = (w2, r2) ->
    r1 = r2 /\ r_batch w1 = r_batch w2 /\ r_flt w1 = r_flt w2 /\
    (forall k, in_table sc k -> kv_get (r_db w1) k = kv_get (r_db w2) k).
  Proof.
    intros K1 K2 A E1 E2. rewrite run_call_eq in E1, E2.
    assert (L : forall rw s, body (tb:=tb) (ev:=ev) c db1 rw s = body (tb:=tb) (ev:=ev) c db2 rw s).
    { intros. apply (body_local (LAW:=LAW) (EV:=EV)); auto. intros r _. apply A. apply (dk_in_table (LAW:=LAW)). }
    unfold run_write in E1, E2. destruct ob as [b|].
    - rewrite L in E1. destruct (body c db2 (b_rw b) _) as [s r]. injection E1 as <- <-. injection E2 as <- <-. cbn. auto.
    - rewrite L in E1. destruct (body c db2 false _) as [s r]. 
      assert (AP : forall os k, in_table sc k -> kv_get (apply_ops db1 os) k = kv_get (apply_ops db2 os) k).
      { intros os k Hk. rewrite !kv_get_apply_ops by auto. rewrite A; auto. }
      assert (Z : forall d1 d2 rr, (d1 = db1 /\ d2 = db2 \/ exists os, d1 = apply_ops db1 os /\ d2 = apply_ops db2 os) ->
        (WRes d1 (w_flt s) None, rr) = (w1, r1) -> (WRes d2 (w_flt s) None, rr) = (w2, r2) ->
        r1 = r2 /\ r_batch w1 = r_batch w2 /\ r_flt w1 = r_flt w2 /\
        (forall k, in_table sc k -> kv_get (r_db w1) k = kv_get (r_db w2) k)).
      { intros d1 d2 rr D X1 X2. injection X1 as <- <-. injection X2 as <- <-. cbn [r_db r_flt r_batch].
        split; auto. split; auto. split; auto. destruct D as [[-> ->]|[os [-> ->]]]; auto. }
      destruct r as [[]| | |]; try (eapply Z; [left; split; reflexivity|exact E1|exact E2]).
      destruct (w_ops s) as [|o os]; [eapply Z; [left; split; reflexivity|exact E1|exact E2]|].
      destruct (e_commit ev); [|eapply Z; [left; split; reflexivity|exact E1|exact E2]].
      eapply Z; [right; exists (o :: os); split; reflexivity|exact E1|exact E2].
  Qed.

  Lemma other_table_key t k : t <> t_id tb -> ~ in_table sc (t :: k).
  Proof. intros N [i [rest [E _]]]. cbn [s_id schema_of] in E. congruence. Qed.

  Lemma read_local db1 db2 fl ob r : kv_ok db1 -> kv_ok db2 -> kv_get db1 (dk r) = kv_get db2 (dk r) ->
    get_point tb db1 fl ob r = get_point tb db2 fl ob r /\ exist tb db1 fl ob r = exist tb db2 fl ob r.
  Proof.
    intros K1 K2 E.
    assert (D : db_get db1 ob (dk r) = db_get db2 ob (dk r)).
    { unfold db_get, view. destruct ob as [b|]; [destruct (b_rw b)|]; auto.
      - rewrite !kv_get_apply_ops by auto. rewrite E. reflexivity.
      - rewrite E. reflexivity. }
    unfold get_point, get_one, exist. rewrite D. auto.
  Qed.

  (** ** C57 *)

  Lemma entry_after m db ix x : Rep sc db m -> In ix (s_indexes sc) -> row_ok sc x ->
    kv_get db (entry_key sc ix x) = match m (pk x) with
      | Some r => if si_filter ix r && beqb (entry_key sc ix r) (entry_key sc ix x) then Some [] else None
      | None => None end.
  Proof.
    intros R I OK. destruct (entry_key_shape tb ix x) as [rest E].
    assert (IFF : forall v, kv_get db (entry_key sc ix x) = Some v <-> v = [] /\ exists r, m (pk x) = Some r /\ si_filter ix r = true /\ entry_key sc ix x = entry_key sc ix r).
    { intro v. rewrite E. change (t_id tb) with (s_id sc). rewrite (rep_index _ _ _ R ix rest v I).
      change (s_id sc :: si_id ix :: rest) with (t_id tb :: si_id ix :: rest). rewrite <- E.
      split; intros [H1 [r [H2 [H3 H4]]]]; split; auto; exists r.
      - destruct (rep_rows _ _ _ R _ _ H2) as [_ [OKr _]]. destruct (entry_key_inj tb ix x r I OK OKr H4) as [_ [_ P]]. rewrite P. auto.
      - destruct (rep_rows _ _ _ R _ _ H2) as [P _]. rewrite P. auto. }
    destruct (kv_get db (entry_key sc ix x)) as [v|] eqn:EG.
    - destruct (proj1 (IFF v) eq_refl) as [-> [r [H2 [H3 H4]]]]. rewrite H2, H3, <- H4, beqb_refl. reflexivity.
    - destruct (m (pk x)) as [r|] eqn:EM; auto. destruct (si_filter ix r) eqn:EF; auto. cbn [andb].
      destruct (beqb _ _) eqn:B; auto. apply beqb_eq in B.
      assert (None = Some []) by (apply IFF; split; auto; exists r; auto). easy.
  Qed.

  Lemma update_independent db1 fl1 m1 rows1 db2 fl2 m2 rows2 r : quiet ev ->
    consistent tb db1 fl1 m1 -> consistent tb db2 fl2 m2 ->
    Forall (row_ok sc) rows1 -> Forall (row_ok sc) rows2 -> NoDup (map pk rows1) -> NoDup (map pk rows2) ->
    (forall x, In x rows1 -> m1 (pk x) <> None /\ s_val sc x <> None) ->
    (forall x, In x rows2 -> m2 (pk x) <> None /\ s_val sc x <> None) ->
    In r rows1 -> In r rows2 ->
    exists w1 w2, update tb ev db1 fl1 None rows1 = (w1, Ok tt) /\ update tb ev db2 fl2 None rows2 = (w2, Ok tt) /\
      forall ix x, In ix (s_indexes sc) -> row_ok sc x -> pk x = pk r ->
        kv_get (r_db w1) (entry_key sc ix x) = kv_get (r_db w2) (entry_key sc ix x).
  Proof.
    intros Q C1 C2 O1 O2 N1 N2 A1 A2 I1 I2.
    destruct (update_ok db1 fl1 m1 rows1 Q C1 O1 N1 A1) as [w1 [E1 [[_ R1 _] _]]].
    destruct (update_ok db2 fl2 m2 rows2 Q C2 O2 N2 A2) as [w2 [E2 [[_ R2 _] _]]].
    exists w1, w2. split; auto. split; auto. intros ix x HI OK PX.
    rewrite (entry_after _ _ ix x R1 HI OK), (entry_after _ _ ix x R2 HI OK), PX.
    rewrite (puts_in (tb:=tb) rows1 m1 r N1 I1), (puts_in (tb:=tb) rows2 m2 r N2 I2). reflexivity.
  Qed.

  Lemma merges_in f l : forall m r, (forall p x, m p = Some x -> pk x = p /\ row_ok sc x) -> Forall (row_ok sc) l -> NoDup (map pk l) ->
    (forall old r, pk old = pk r -> row_ok sc old -> row_ok sc r -> pk (f old r) = pk r /\ row_ok sc (f old r)) -> In r l ->
    merges sc f m l (pk r) = Some (match m (pk r) with Some old => f old r | None => r end).
  Proof.
    intros m r MO OK ND CF I.
    assert (PK : forall x, In x l -> pk (merged tb f m x) = pk x).
    { intros x J. unfold merged. destruct (m (pk x)) as [o|] eqn:E; auto. destruct (MO _ _ E) as [P O]. apply CF; auto. eapply Forall_forall in OK; eauto. }
    rewrite merges_puts; auto. rewrite <- (PK r I). rewrite (puts_in (tb:=tb)); [|rewrite map_map; rewrite (map_ext_in _ pk); auto|now apply in_map].
    rewrite (PK r I). reflexivity.
  Qed.

  Lemma upsert_independent f db1 fl1 m1 rows1 db2 fl2 m2 rows2 r : quiet ev ->
    consistent tb db1 fl1 m1 -> consistent tb db2 fl2 m2 ->
    Forall (row_ok sc) rows1 -> Forall (row_ok sc) rows2 -> NoDup (map pk rows1) -> NoDup (map pk rows2) ->
    (forall old r, pk old = pk r -> row_ok sc old -> row_ok sc r -> pk (f old r) = pk r /\ row_ok sc (f old r)) ->
    (forall x, In x rows1 -> s_val sc (match m1 (pk x) with Some old => f old x | None => x end) <> None) ->
    (forall x, In x rows2 -> s_val sc (match m2 (pk x) with Some old => f old x | None => x end) <> None) ->
    In r rows1 -> In r rows2 -> m1 (pk r) = m2 (pk r) ->
    exists w1 w2, upsert tb ev f db1 fl1 None rows1 = (w1, Ok tt) /\ upsert tb ev f db2 fl2 None rows2 = (w2, Ok tt) /\
      kv_get (r_db w1) (data_key tb r) = kv_get (r_db w2) (data_key tb r) /\
      forall ix x, In ix (s_indexes sc) -> row_ok sc x -> pk x = pk r ->
        kv_get (r_db w1) (entry_key sc ix x) = kv_get (r_db w2) (entry_key sc ix x).
  Proof.
    intros Q C1 C2 O1 O2 N1 N2 CF A1 A2 I1 I2 EM.
    destruct (upsert_ok f db1 fl1 m1 rows1 Q C1 O1 N1 CF A1) as [w1 [E1 [[_ R1 _] _]]].
    destruct (upsert_ok f db2 fl2 m2 rows2 Q C2 O2 N2 CF A2) as [w2 [E2 [[_ R2 _] _]]].
    assert (MO : forall db fl m, consistent tb db fl m -> forall p x, m p = Some x -> pk x = p /\ row_ok sc x).
    { intros db fl m [_ R _] p x E. destruct (rep_rows _ _ _ R _ _ E) as [P [O _]]. auto. }
    pose proof (merges_in f rows1 m1 r (MO _ _ _ C1) O1 N1 CF I1) as M1. pose proof (merges_in f rows2 m2 r (MO _ _ _ C2) O2 N2 CF I2) as M2.
    rewrite <- EM in M2.
    exists w1, w2. split; auto. split; auto. split.
    - destruct (rep_some (tb:=tb) (LAW:=LAW) _ _ r _ R1 M1) as (v & S1 & ->). destruct (rep_some (tb:=tb) (LAW:=LAW) _ _ r _ R2 M2) as (v2 & S2 & ->). congruence.
    - intros ix x HI OK PX. rewrite (entry_after _ _ ix x R1 HI OK), (entry_after _ _ ix x R2 HI OK), PX, M1, M2. reflexivity.
  Qed.
End P.

Lemma failed_call {T F} (tb : table T F) ev db fl c w res :
  run_call tb ev db fl None c = (w, res) -> res <> Ok tt -> r_db w = db.
Proof. rewrite run_call_eq. apply run_none_failed. Qed.

Lemma failed_unsafe {T F} (tb : table T F) ev db fl rows olds w res :
  unsafe_insert tb ev db fl None rows = (w, res) \/ unsafe_update tb ev db fl None rows olds = (w, res) ->
  res <> Ok tt -> r_db w = db.
Proof.
  intros [E|E] N.
  - apply (run_none_failed tb ev _ _ _ _ _ E N).
  - unfold unsafe_update in E. destruct (Nat.eqb _ _); [apply (run_none_failed tb ev _ _ _ _ _ E N)|]. injection E as <- _. reflexivity.
Qed.

Lemma calls_cancelled {T F} (tb : table T F) ev : env_ok ev ->
  forall db fl ob rows olds w i, i < length rows -> e_ctx ev i = true ->
  insert tb ev db fl ob rows <> (w, Ok tt) /\ update tb ev db fl ob rows <> (w, Ok tt) /\
  delete tb ev db fl ob rows <> (w, Ok tt) /\ unsafe_insert tb ev db fl ob rows <> (w, Ok tt) /\
  unsafe_update tb ev db fl ob rows olds <> (w, Ok tt).
Proof.
  intros EV db fl ob rows olds w i Hi C.
  repeat split; [eapply insert_cancelled|eapply update_cancelled|eapply delete_cancelled|eapply unsafe_insert_cancelled|eapply unsafe_update_cancelled]; eauto.
Qed.

Lemma upsert_folds_good {T F} (tb : table T F) : good_table tb -> forall ev, env_ok ev ->
  forall f db fl m rows, quiet ev -> consistent tb db fl m -> Forall (row_ok (schema_of tb)) rows ->
  (forall old r, s_pk (schema_of tb) old = s_pk (schema_of tb) r -> row_ok (schema_of tb) old -> row_ok (schema_of tb) r ->
     s_pk (schema_of tb) (f old r) = s_pk (schema_of tb) r /\ row_ok (schema_of tb) (f old r)) ->
  length rows <= e_chunk ev -> e_sort ev (map (data_key tb) rows) = seq 0 (length rows) ->
  (forall r, In r rows -> m (s_pk (schema_of tb) r) <> None -> ~ repeated (schema_of tb) rows (s_pk (schema_of tb) r)) ->
  (forall p x, merges (schema_of tb) f m rows p = Some x -> s_val (schema_of tb) x <> None) ->
  exists w, upsert tb ev f db fl None rows = (w, Ok tt) /\
    Rep (schema_of tb) (r_db w) (merges (schema_of tb) f m rows) /\ same_outside (schema_of tb) db (r_db w).
Proof.
  intros [LAW SO FO] ev EV f db fl m rows Q [K R C] OK CF LEN ES NR SER.
  eapply (upsert_folds (LAW:=LAW) (EV:=EV)); eauto.
Qed.

Lemma points_positional {T F} (tb : table T F) : good_table tb -> forall ev, env_ok ev ->
  forall db fl ob m pts, kv_ok db -> consistent tb (view db ob) fl m -> readable ob ->
  (forall p x, m p = Some x -> s_val (schema_of tb) x <> Some []) ->
  get_points tb ev db fl ob pts
  = Ok (map (fun p => match m (s_pk (schema_of tb) p) with Some x => x | None => t_nil tb end) pts).
Proof.
  intros [LAW SO FO] ev EV db fl ob m pts K [_ R C] RD NE.
  apply (get_points_eq (LAW:=LAW) (EV:=EV)); auto. intros x v. apply SO.
Qed.

Lemma filter_calls {T F} (tb : table T F) : good_table tb -> forall ev, env_ok ev ->
  forall c db fl fl0 ob, kv_ok db -> covers tb fl db ->
  (forall b, ob = Some b -> ops_covered tb fl (b_ops b)) ->
  let '(w, r) := run_call tb ev db fl ob c in
  let '(w0, r0) := run_call (no_filter tb) ev db fl0 ob c in
  r = r0 /\ r_db w = r_db w0 /\ r_batch w = r_batch w0 /\ covers tb (r_flt w) (r_db w) /\
  (forall b, r_batch w = Some b -> ops_covered tb (r_flt w) (b_ops b)).
Proof. intros [LAW SO FO] ev EV. apply (call_sim (LAW:=LAW) (EV:=EV) FO). Qed.

Lemma filter_reads {T F} (tb : table T F) : good_table tb -> forall ev, env_ok ev ->
  forall db fl fl0 ob r pts, kv_ok db -> covers tb fl db ->
  (forall b, ob = Some b -> ops_covered tb fl (b_ops b)) ->
  exist tb db fl ob r = exist (no_filter tb) db fl0 ob r /\
  get_point tb db fl ob r = get_point (no_filter tb) db fl0 ob r /\
  get_points tb ev db fl ob pts = get_points (no_filter tb) ev db fl0 ob pts.
Proof.
  intros [LAW SO FO] ev EV db fl fl0 ob r pts K C CB. split; [|split].
  - apply (exist_sim (LAW:=LAW)); auto.
  - apply (get_point_sim (LAW:=LAW)); auto.
  - apply (get_points_sim (LAW:=LAW) (EV:=EV)); auto.
Qed.

Lemma is_chunks_le {A} n (l : list A) cs : is_chunks n l cs -> Forall (fun c => length c <= n) cs.
Proof. induction 1; constructor; auto; lia. Qed.

Lemma batched_spec {A St} bs (items : list A) : 0 < bs ->
  exists cs, is_chunks bs items cs /\ concat cs = items /\ Forall (fun c => c <> []) cs /\ Forall (fun c => length c <= bs) cs /\
    forall (f : list A -> St -> St * res unit) s, batched items bs f s = run_chunks f cs s.
Proof.
  intro P. destruct (batched_chunks (St:=St) bs items P) as [cs [C1 C2]]. exists cs. split; auto.
  split; [apply (is_chunks_concat _ _ _ C1)|]. split; [apply (is_chunks_nonempty _ _ _ P C1)|]. split; [apply (is_chunks_le _ _ _ C1)|auto].
Qed.

Lemma unsafe_insert_good {T F} (tb : table T F) : good_table tb -> forall ev, env_ok ev ->
  forall db fl m rows, quiet ev -> consistent tb db fl m ->
  Forall (row_ok (schema_of tb)) rows -> NoDup (map (s_pk (schema_of tb)) rows) ->
  (forall r, In r rows -> m (s_pk (schema_of tb) r) = None /\ s_val (schema_of tb) r <> None) ->
  exists w, unsafe_insert tb ev db fl None rows = (w, Ok tt) /\
    consistent tb (r_db w) (r_flt w) (puts (schema_of tb) m rows) /\ same_outside (schema_of tb) db (r_db w).
Proof.
  intros [LAW SO FO] ev EV db fl m rows Q [K R C] OK ND AB. eapply (unsafe_insert_fwd (LAW:=LAW) (EV:=EV)); eauto.
Qed.

Lemma unsafe_update_good {T F} (tb : table T F) : good_table tb -> forall ev, env_ok ev ->
  forall db fl m rows olds, quiet ev -> consistent tb db fl m ->
  Forall (row_ok (schema_of tb)) rows -> NoDup (map (s_pk (schema_of tb)) rows) ->
  Forall2 (fun r o => m (s_pk (schema_of tb) r) = Some o) rows olds ->
  (forall r, In r rows -> s_val (schema_of tb) r <> None) ->
  exists w, unsafe_update tb ev db fl None rows olds = (w, Ok tt) /\
    consistent tb (r_db w) (r_flt w) (puts (schema_of tb) m rows) /\ same_outside (schema_of tb) db (r_db w).
Proof.
  intros [LAW SO FO] ev EV db fl m rows olds Q [K R C] OK ND F2 SE. eapply (unsafe_update_fwd (LAW:=LAW) (EV:=EV)); eauto.
Qed.
