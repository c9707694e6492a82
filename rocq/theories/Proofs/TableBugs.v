(** Concrete states and calls on which unguarded claims about tables fail. *)

From Coq Require Import List NArith Lia Bool Sorting.Sorted Sorting.Permutation Arith.
From Verif.Model Require Import Bytes Go Keys Pebble Index Table.
From Verif.Spec Require Import KeySpec TableSpec HistSpec.
From Verif.Proofs Require Import BytesFacts KeysFacts PebbleFacts TableFacts WriteFacts UpdateFacts UpsertFacts CallFacts
  LocalFacts ErrFacts ReadFacts HistFacts FilterSim BugFacts FoldFacts UnsafeFacts Witness TableProps.
Import ListNotations.

Notation asc := (schema_of accts).

Lemma acct_good {F} fo : filter_ok (@acct_table F fo) -> good_table (@acct_table F fo).
Proof. intro H. constructor; auto using acct_lawful, acct_ser_over. Qed.
Lemma accts_good : good_table accts.
Proof. apply acct_good. apply filter_ok_none. reflexivity. Qed.
Lemma accts_fresh : ser_fresh accts.
Proof. intros r v. apply acct_ser_over. Qed.
Lemma accts_empty : consistent accts [] tt empty_map.
Proof. constructor; [apply kv_ok_nil|apply Rep_empty|apply covers_empty]. Qed.

Lemma acct_pk_inj r r' : (a_id r < 256 ^ 8)%N -> (a_id r' < 256 ^ 8)%N -> s_pk asc r = s_pk asc r' -> a_id r = a_id r'.
Proof.
  intros H1 H2 E. cbn [s_pk schema_of accts acct_table t_pk] in E. unfold acct_pk, add_uint64, kb_append, put_field_id in E.
  cbn [kb_buff new_kb kb_fid app] in E. apply (f_equal (@tl byte)) in E. cbn [tl] in E.
  rewrite <- (be_val_bytes_small 8 (a_id r)) by auto. rewrite <- (be_val_bytes_small 8 (a_id r')) by auto. rewrite E. reflexivity.
Qed.

Lemma nodup_map_on {A B} (f : A -> B) l : (forall x y, In x l -> In y l -> f x = f y -> x = y) -> NoDup l -> NoDup (map f l).
Proof.
  induction l as [|a l IH]; intros H N; cbn; [constructor|]. inversion N; subst. constructor.
  - intro X. apply in_map_iff in X as [y [E Hy]]. apply H in E; [subst; auto|right; auto|left; auto].
  - apply IH; auto. intros; apply H; auto; right; auto.
Qed.

Definition many (n : nat) (kind : N) : list acct := map (fun i => Acct (N.of_nat i) kind 0 true) (seq 0 n).

Lemma many_nodup n kind : (N.of_nat n < 2 ^ 64)%N -> NoDup (map (s_pk asc) (many n kind)).
Proof.
  intro B. unfold many. rewrite map_map. apply nodup_map_on; [|apply seq_NoDup].
  intros i j Hi Hj E. apply in_seq in Hi, Hj. change (2 ^ 64)%N with (256 ^ 8)%N in B.
  apply acct_pk_inj in E; cbn [a_id] in *; lia.
Qed.

Lemma many_ser n kind r : (N.of_nat n < 2 ^ 64)%N -> (kind < 256 ^ 4)%N -> In r (many n kind) -> s_val asc r <> None.
Proof.
  intros B HK H. apply in_map_iff in H as [i [<- Hi]]. apply in_seq in Hi. change (2 ^ 64)%N with (256 ^ 8)%N in B.
  cbn [s_val schema_of accts acct_table t_ser]. unfold acct_ser. cbn [a_id a_kind a_score].
  rewrite (proj2 (N.ltb_lt (N.of_nat i) (256 ^ 8))) by lia. rewrite (proj2 (N.ltb_lt kind (256 ^ 4))) by lia.
  cbn [andb]. rewrite (proj2 (N.ltb_lt 0 (256 ^ 8))) by lia. discriminate.
Qed.

Lemma many_length n k : length (many n k) = n.
Proof. unfold many. rewrite map_length, seq_length. reflexivity. Qed.

Lemma many_first n k : 1 <= n -> In (Acct 0 k 0 true) (many n k).
Proof. intro H. apply in_map_iff. exists 0. split; auto. apply in_seq. lia. Qed.

Lemma kinds_differ k k' : (k < 256 ^ 4)%N -> (k' < 256 ^ 4)%N -> k <> k' ->
  entry_key asc (sindex_of acct_by_kind) (Acct 0 k 0 true) <> entry_key asc (sindex_of acct_by_kind) (Acct 0 k' 0 true).
Proof.
  intros H H' N E. apply entry_key_inj in E; [|left; reflexivity|apply acct_row_ok|apply acct_row_ok].
  destruct E as [E _]. cbn [si_key sindex_of acct_by_kind new_index ix_key] in E. unfold add_uint32, kb_append, put_field_id in E.
  cbn [kb_buff new_kb kb_fid app a_kind] in E. apply (f_equal (@tl byte)) in E. cbn [tl] in E. apply N.
  rewrite <- (be_val_bytes_small 4 k) by auto. rewrite <- (be_val_bytes_small 4 k') by auto. rewrite E. reflexivity.
Qed.

(** C14: for every chunk size, one more row than a chunk, first key repeated. *)
Lemma insert_repeated_accepted n : 1 <= n -> (N.of_nat n < 2 ^ 64)%N ->
  exists rows w, length rows = S n /\ repeated asc rows (s_pk asc (Acct 0 0 0 true)) /\
    insert accts (demo_env n) [] tt None rows = (w, Ok tt) /\ (forall m', ~ Rep asc (r_db w) m').
Proof.
  intros P B. destruct (insert_across_chunks (tb:=accts) (ev:=demo_env n) (LAW:=acct_lawful None) (EV:=demo_env_ok n P)
    [] tt empty_map (many n 0) (Acct 0 0 0 true) (Acct 0 1 0 true) (sindex_of acct_by_kind)) as [w [E1 E2]].
  - apply kv_ok_nil.
  - apply filter_ok_none; reflexivity.
  - exact accts_fresh.
  - apply demo_env_quiet.
  - apply Rep_empty.
  - apply many_length.
  - apply acct_rows_ok.
  - apply many_nodup; auto.
  - intros x [<-|Hx]; (split; [reflexivity|]); [vm_compute; discriminate|]. apply (many_ser n 0 x); auto. lia.
  - apply many_first; auto.
  - reflexivity.
  - left; reflexivity.
  - reflexivity.
  - right. apply kinds_differ; lia.
  - exists (many n 0 ++ [Acct 0 1 0 true]), w. split; [rewrite app_length, many_length; cbn; lia|]. split; auto.
    unfold repeated. rewrite filter_app, app_length. cbn [filter].
    change (s_pk asc (Acct 0 1 0 true)) with (s_pk asc (Acct 0 0 0 true)). rewrite beqb_refl. cbn [length].
    pose proof (many_first n 0 P) as IN. apply in_split in IN as [l1 [l2 ->]]. rewrite filter_app, app_length. cbn [filter].
    rewrite beqb_refl. cbn [length]. lia.
Qed.

(** C15: for every chunk size, an update of one more row than a chunk. *)
Lemma update_repeated_breaks n : 1 <= n -> (N.of_nat n < 2 ^ 64)%N ->
  exists db m rows w, consistent accts db tt m /\ length rows = S n /\
    (forall r, In r rows -> m (s_pk asc r) <> None /\ s_val asc r <> None) /\
    update accts (demo_env n) db tt None rows = (w, Ok tt) /\ (forall m', ~ Rep asc (r_db w) m').
Proof.
  intros P B.
  destruct (insert_ok accts accts_good (demo_env n) (demo_env_ok n P) [] tt empty_map (many n 0)) as [w [E [C _]]].
  - apply demo_env_quiet.
  - apply accts_empty.
  - apply acct_rows_ok.
  - apply many_nodup; auto.
  - intros r Hr. split; [reflexivity|]. apply (many_ser n 0 r); auto. lia.
  - assert (PR : forall r, In r (Acct 0 2 0 true :: many n 1) -> puts asc empty_map (many n 0) (s_pk asc r) <> None /\ s_val asc r <> None).
    { intros r Hr. assert (exists i, i < n /\ s_pk asc r = s_pk asc (Acct (N.of_nat i) 0 0 true)) as [i [Hi EP]].
      { destruct Hr as [<-|Hr]; [exists 0; split; [lia|reflexivity]|]. apply in_map_iff in Hr as [i [<- Hi]]. exists i.
        apply in_seq in Hi. split; [lia|reflexivity]. }
      split.
      - rewrite EP, (puts_in (tb:=accts) (many n 0) empty_map (Acct (N.of_nat i) 0 0 true)); [discriminate|apply many_nodup; auto|].
        apply in_map_iff. exists i. split; auto. apply in_seq. lia.
      - destruct Hr as [<-|Hr]; [vm_compute; discriminate|]. apply (many_ser n 1 r); auto. lia. }
    pose proof C as C0. destruct C as [K R CV].
    destruct (update_across_chunks (tb:=accts) (ev:=demo_env n) (LAW:=acct_lawful None) (EV:=demo_env_ok n P)
      (r_db w) tt (puts asc empty_map (many n 0)) (many n 1) (Acct 0 1 0 true) (Acct 0 2 0 true) (Acct 0 0 0 true) (sindex_of acct_by_kind)) as [w' [E1 E2]]; auto.
    + apply filter_ok_none; reflexivity.
    + apply acct_ser_over.
    + apply demo_env_quiet.
    + apply many_length.
    + apply acct_rows_ok.
    + apply many_nodup; auto.
    + apply many_first; auto.
    + change (s_pk asc (Acct 0 1 0 true)) with (s_pk asc (Acct 0 0 0 true)). apply (puts_in (tb:=accts)); [apply many_nodup; auto|apply many_first; auto].
    + left; reflexivity.
    + right. apply kinds_differ; lia.
    + apply kinds_differ; lia.
    + exists (r_db w), (puts asc empty_map (many n 0)), (many n 1 ++ [Acct 0 2 0 true]), w'.
      destruct w as [d [] ob]. split; [exact C0|]. split; [rewrite app_length, many_length; cbn; lia|]. split; [|auto].
      intros r Hr. apply PR. apply in_app_or in Hr as [Hr|[<-|[]]]; [right; auto|left; auto].
Qed.

(** An entry of [r0] although no row, or a row with another entry, is stored under its key. *)
Lemma stale_gone db r0 w : kv_get db (entry_key asc (sindex_of acct_by_kind) r0) = Some w ->
  kv_get db (row_key asc (s_pk asc r0)) = None -> forall m', ~ Rep asc db m'.
Proof.
  intros E N m' R. pose proof (dangling (tb:=accts) _ _ (sindex_of acct_by_kind) r0 w R accts_fresh ltac:(left; reflexivity) (acct_row_ok None _) E) as D.
  rewrite N in D. exact D.
Qed.

Lemma stale_other db r0 x v w : kv_get db (entry_key asc (sindex_of acct_by_kind) r0) = Some w ->
  kv_get db (row_key asc (s_pk asc r0)) = Some v -> acct_ser x = Some v ->
  beqb (entry_key asc (sindex_of acct_by_kind) x) (entry_key asc (sindex_of acct_by_kind) r0) = false -> forall m', ~ Rep asc db m'.
Proof.
  intros E N S X m' R. pose proof (dangling (tb:=accts) _ _ (sindex_of acct_by_kind) r0 w R accts_fresh ltac:(left; reflexivity) (acct_row_ok None _) E) as D.
  rewrite N in D. destruct (D x S) as [_ D']. rewrite D', beqb_refl in X. discriminate.
Qed.

(** C17: a repeated key makes Upsert read another row of the call. *)
Definition newest (old new : acct) : acct := new.

Lemma upsert_wrong_row : exists rows a b w,
  (forall old r, s_pk asc (newest old r) = s_pk asc r) /\ In a rows /\
  upsert accts (demo_env 10) newest [] tt None rows = (w, Ok tt) /\
  get_point accts (r_db w) tt None a = Ok b /\ a_id b <> a_id a.
Proof.
  exists [Acct 1 10 0 true; Acct 2 20 0 true; Acct 1 11 0 true], (Acct 1 10 0 true), (Acct 2 20 0 true).
  eexists. split; [reflexivity|]. split; [left; reflexivity|]. split; [vm_compute; reflexivity|]. split; [vm_compute; reflexivity|]. discriminate.
Qed.

Definition one_stored : kv := r_db (fst (insert accts (demo_env 10) [] tt None [Acct 1 10 0 true])).

Lemma one_stored_consistent : consistent accts one_stored tt (put asc empty_map (Acct 1 10 0 true)).
Proof.
  destruct (insert_ok accts accts_good (demo_env 10) (demo_env_ok 10 ltac:(lia)) [] tt empty_map [Acct 1 10 0 true]) as [w [E [C _]]].
  - apply demo_env_quiet.
  - apply accts_empty.
  - apply acct_rows_ok.
  - cbn [map]. constructor; [easy|constructor].
  - intros r [<-|[]]. split; [reflexivity|vm_compute; discriminate].
  - unfold one_stored. rewrite E. cbn [fst]. destruct w as [d [] ob]. exact C.
Qed.

(** adjacent repeats of a stored key: the entry of the stored version stays behind *)
Lemma upsert_stale_entry : exists m rows w, consistent accts one_stored tt m /\
  upsert accts (demo_env 10) newest one_stored tt None rows = (w, Ok tt) /\ (forall m', ~ Rep asc (r_db w) m').
Proof.
  exists (put asc empty_map (Acct 1 10 0 true)), [Acct 1 11 0 true; Acct 1 12 0 true].
  eexists. split; [exact one_stored_consistent|]. split; [vm_compute; reflexivity|].
  eapply (stale_other _ (Acct 1 10 0 true) (Acct 1 12 0 true)); vm_compute; reflexivity.
Qed.

(** C18: deleting with a record that differs from the stored one in an indexed field *)
Lemma delete_stale_entry : exists m r w, consistent accts one_stored tt m /\ m (s_pk asc r) <> None /\
  delete accts (demo_env 10) one_stored tt None [r] = (w, Ok tt) /\ (forall m', ~ Rep asc (r_db w) m').
Proof.
  exists (put asc empty_map (Acct 1 10 0 true)), (Acct 1 11 0 true).
  eexists. split; [exact one_stored_consistent|]. split; [vm_compute; discriminate|]. split; [vm_compute; reflexivity|].
  eapply (stale_gone _ (Acct 1 10 0 true)); vm_compute; reflexivity.
Qed.

(** C19: a history of two successful calls after which the index is wrong *)
Lemma hist_stale_entry : exists h db fl oks, Forall (fun ec => env_ok (fst ec) /\ quiet (fst ec)) h /\
  run_hist accts [] tt h = (db, fl, oks) /\ Forall (fun co => snd co = true) oks /\ (forall m', ~ Rep asc db m').
Proof.
  exists [(demo_env 10, CInsert [Acct 1 10 0 true]); (demo_env 10, CDelete [Acct 1 11 0 true])].
  eexists _, _, _. split; [repeat constructor; try (apply demo_env_ok; lia)|]. 
  split; [vm_compute; reflexivity|]. split; [repeat constructor|].
  eapply (stale_gone _ (Acct 1 10 0 true)); vm_compute; reflexivity.
Qed.

(** ** C57: a serializer that leaves omitted fields of the target untouched *)

Record tagged := Tagged { g_id : N; g_tag : N }.

Definition tagged_ser (r : tagged) : option bytes :=
  if ((g_id r <? 256 ^ 8) && (g_tag r <? 256 ^ 8))%N
  then Some (be_bytes 8 (g_id r) ++ (if N.eqb (g_tag r) 0 then [] else be_bytes 8 (g_tag r)))
  else None.
(** a missing tag keeps the value the variable had before *)
Definition tagged_deser (v : bytes) (prior : tagged) : option tagged :=
  if Nat.eqb (length v) 8 then Some (Tagged (be_val v) (g_tag prior))
  else if Nat.eqb (length v) 16 then Some (Tagged (be_val (firstn 8 v)) (be_val (skipn 8 v)))
  else None.

Definition by_tag : index tagged := new_index x01 (fun b r => kb_buff (add_uint64 b (g_tag r))) None None.

Definition tags : table tagged unit :=
  MkTable x08 (fun b r => kb_buff (add_uint64 b (g_id r))) [by_tag] tagged_ser tagged_deser (Tagged 0 0) (Tagged 0 0) 3 None.

Lemma tags_lawful : lawful tags.
Proof.
  constructor.
  - intros b r. cbn [t_pk tags]. unfold add_uint64, kb_append, put_field_id. cbn [kb_buff new_kb kb_fid].
    rewrite <- !app_assoc. reflexivity.
  - intros ix b r [<-|[]]; cbn [ix_key by_tag new_index];
      unfold add_uint64, kb_append, put_field_id; cbn [kb_buff new_kb kb_fid]; rewrite <- !app_assoc; reflexivity.
  - intros ix b r [<-|[]]; cbn [ix_order by_tag new_index];
      unfold index_order_default; cbn [kb_buff new_kb]; rewrite app_nil_r; reflexivity.
  - cbn. repeat constructor; cbn; intuition discriminate.
  - intros ix [<-|[]]; discriminate.
Qed.

Lemma tags_fresh : ser_fresh tags.
Proof.
  intros [i t] v. cbn [tags t_ser t_deser t_nil]. unfold tagged_ser. cbn [g_id g_tag].
  destruct (_ && _) eqn:E; [|easy]. apply andb_true_iff in E as [E1 E2]. apply N.ltb_lt in E1, E2. intro H.
  assert (V : v = be_bytes 8 i ++ (if N.eqb t 0 then [] else be_bytes 8 t)) by congruence. clear H. subst v.
  unfold tagged_deser. rewrite app_length, be_bytes_length. destruct (N.eqb t 0) eqn:ET.
  - apply N.eqb_eq in ET. subst t. cbn [length Nat.add Nat.eqb]. rewrite app_nil_r, be_val_bytes_small by auto. reflexivity.
  - rewrite be_bytes_length. cbn [Nat.add Nat.eqb]. rewrite firstn_be, skipn_be, !be_val_bytes_small by auto. reflexivity.
Qed.

Lemma tags_row_ok r : row_ok (schema_of tags) r.
Proof.
  intros ix H. cbn in H. destruct H as [<-|[]]; cbn [si_key si_ord sindex_of by_tag new_index ix_key ix_order];
    unfold index_order_default, add_uint64, kb_append, put_field_id; cbn [kb_buff new_kb];
    split; rewrite ?app_length, ?be_bytes_length; cbn; lia.
Qed.

Definition two_tags : kv := r_db (fst (insert tags (demo_env 10) [] tt None [Tagged 1 5; Tagged 2 0])).

Lemma two_tags_rep : Rep (schema_of tags) two_tags (puts (schema_of tags) empty_map [Tagged 1 5; Tagged 2 0]).
Proof.
  destruct (unsafe_insert_fwd (tb:=tags) (ev:=demo_env 10) (LAW:=tags_lawful) (EV:=demo_env_ok 10 ltac:(lia)) [] tt empty_map [Tagged 1 5; Tagged 2 0])
    as [w [E [[_ R _] _]]].
  - apply kv_ok_nil.
  - apply filter_ok_none; reflexivity.
  - apply demo_env_quiet.
  - apply Rep_empty.
  - apply covers_empty.
  - constructor; [|constructor; [easy|constructor]]. intros [X|[]]. apply (f_equal (fun k => beqb k (s_pk (schema_of tags) (Tagged 1 5)))) in X. vm_compute in X. discriminate.
  - constructor; [apply tags_row_ok|constructor; [apply tags_row_ok|constructor]].
  - intros r [<-|[<-|[]]]; (split; [reflexivity|vm_compute; discriminate]).
  - assert (X : fst (unsafe_insert tags (demo_env 10) [] tt None [Tagged 1 5; Tagged 2 0]) = fst (insert tags (demo_env 10) [] tt None [Tagged 1 5; Tagged 2 0]))
      by (vm_compute; reflexivity).
    unfold two_tags. rewrite <- X, E. exact R.
Qed.

Lemma update_depends_on_others : exists rows w,
  Rep (schema_of tags) two_tags (puts (schema_of tags) empty_map [Tagged 1 5; Tagged 2 0]) /\
  rows = [Tagged 1 5; Tagged 2 7] /\
  update tags (demo_env 10) two_tags tt None rows = (w, Ok tt) /\ (forall m', ~ Rep (schema_of tags) (r_db w) m').
Proof.
  eexists _, _. split; [exact two_tags_rep|]. split; [reflexivity|]. split; [vm_compute; reflexivity|].
  intros m' R.
  pose proof (dangling (tb:=tags) _ _ (sindex_of by_tag) (Tagged 2 0) [] R tags_fresh ltac:(left; reflexivity) (tags_row_ok _) ltac:(vm_compute; reflexivity)) as D.
  match type of D with match ?x with _ => _ end => assert (V : x = tagged_ser (Tagged 2 7)) by (vm_compute; reflexivity); rewrite V in D end.
  assert (S7 : exists v, tagged_ser (Tagged 2 7) = Some v) by (eexists; vm_compute; reflexivity). destruct S7 as [v7 S7].
  rewrite S7 in D. destruct (D (Tagged 2 7) S7) as [_ D']. apply (f_equal (fun k => beqb k (entry_key (schema_of tags) (sindex_of by_tag) (Tagged 2 0)))) in D'.
  rewrite beqb_refl in D'. vm_compute in D'. discriminate.
Qed.

Lemma upsert_depends_on_others : exists rows w,
  Rep (schema_of tags) two_tags (puts (schema_of tags) empty_map [Tagged 1 5; Tagged 2 0]) /\
  rows = [Tagged 1 5; Tagged 2 7] /\
  upsert tags (demo_env 10) (fun _ new => new) two_tags tt None rows = (w, Ok tt) /\ (forall m', ~ Rep (schema_of tags) (r_db w) m').
Proof.
  eexists _, _. split; [exact two_tags_rep|]. split; [reflexivity|]. split; [vm_compute; reflexivity|].
  intros m' R.
  pose proof (dangling (tb:=tags) _ _ (sindex_of by_tag) (Tagged 2 0) [] R tags_fresh ltac:(left; reflexivity) (tags_row_ok _) ltac:(vm_compute; reflexivity)) as D.
  match type of D with match ?x with _ => _ end => assert (V : x = tagged_ser (Tagged 2 7)) by (vm_compute; reflexivity); rewrite V in D end.
  assert (S7 : exists v, tagged_ser (Tagged 2 7) = Some v) by (eexists; vm_compute; reflexivity). destruct S7 as [v7 S7].
  rewrite S7 in D. destruct (D (Tagged 2 7) S7) as [_ D']. apply (f_equal (fun k => beqb k (entry_key (schema_of tags) (sindex_of by_tag) (Tagged 2 0)))) in D'.
  rewrite beqb_refl in D'. vm_compute in D'. discriminate.
Qed.

(** the second row updated alone: no dangling entry *)
Lemma update_alone_fine : exists w,
  update tags (demo_env 10) two_tags tt None [Tagged 2 7] = (w, Ok tt) /\
  kv_get (r_db w) (entry_key (schema_of tags) (sindex_of by_tag) (Tagged 2 0)) = None /\
  kv_get (r_db w) (entry_key (schema_of tags) (sindex_of by_tag) (Tagged 2 7)) = Some [].
Proof. eexists. split; [vm_compute; reflexivity|]. split; vm_compute; reflexivity. Qed.

(** ** C21: rows whose encoding has no bytes (all fields default, protobuf style) *)

Definition ptr_ser (r : option N) : option bytes :=
  match r with
  | None => None
  | Some n => if (n <? 256 ^ 8)%N then Some (if N.eqb n 0 then [] else be_bytes 8 n) else None
  end.
Definition ptr_deser (v : bytes) (_ : option N) : option (option N) :=
  match v with
  | [] => Some (Some 0%N)
  | _ => if Nat.eqb (length v) 8 then Some (Some (be_val v)) else None
  end.
Definition ptrs : table (option N) unit :=
  MkTable x09 (fun b r => kb_buff (add_uint64 b (match r with Some n => n | None => 0%N end))) [] ptr_ser ptr_deser None (Some 0%N) 3 None.

Lemma ptrs_good : good_table ptrs.
Proof.
  constructor.
  - constructor; [|intros ix b r []|intros ix b r []|constructor|intros ix []].
    intros b r. cbn [t_pk ptrs]. unfold add_uint64, kb_append, put_field_id. cbn [kb_buff new_kb kb_fid].
    rewrite <- !app_assoc. reflexivity.
  - intros [n|] v prior; cbn [ptrs t_ser t_deser ptr_ser]; [|easy].
    destruct (n <? 256 ^ 8)%N eqn:E; [|easy]. apply N.ltb_lt in E. destruct (N.eqb n 0) eqn:EN.
    + apply N.eqb_eq in EN. intros [= <-]. subst n. reflexivity.
    + intro H. assert (V : v = be_bytes 8 n) by congruence. clear H. subst v. unfold ptr_deser.
      destruct (be_bytes 8 n) as [|b l] eqn:EB; [apply (f_equal (@length byte)) in EB; rewrite be_bytes_length in EB; easy|].
      rewrite <- EB, be_bytes_length. cbn [Nat.eqb]. rewrite be_val_bytes_small by auto. reflexivity.
  - apply filter_ok_none. reflexivity.
Qed.

Lemma empty_value_lost : exists db m p,
  consistent ptrs db tt m /\ m (s_pk (schema_of ptrs) p) = Some p /\
  get_point ptrs db tt None p = Ok p /\ get_points ptrs (demo_env 10) db tt None [p] = Ok [t_nil ptrs] /\ t_nil ptrs <> p.
Proof.
  destruct (insert_ok ptrs ptrs_good (demo_env 10) (demo_env_ok 10 ltac:(lia)) [] tt empty_map [Some 0%N]) as [w [E [C _]]].
  - apply demo_env_quiet.
  - constructor; [apply kv_ok_nil|apply Rep_empty|apply covers_empty].
  - constructor; [intros ix []|constructor].
  - cbn [map]. constructor; [easy|constructor].
  - intros r [<-|[]]. split; [reflexivity|vm_compute; discriminate].
  - destruct w as [d [] ob]. exists d, (puts (schema_of ptrs) empty_map [Some 0%N]), (Some 0%N). split; [exact C|].
    split; [reflexivity|]. assert (ED : d = r_db (fst (insert ptrs (demo_env 10) [] tt None [Some 0%N]))) by (rewrite E; reflexivity).
    rewrite ED. split; [vm_compute; reflexivity|]. split; [vm_compute; reflexivity|discriminate].
Qed.

(** ** Material for the examples *)

Definition abc : list acct := [Acct 3 10 5 true; Acct 1 10 6 true; Acct 2 11 0 false].

Lemma ids_nodup rows : Forall (fun r => (a_id r < 256 ^ 8)%N) rows -> NoDup (map a_id rows) -> NoDup (map (s_pk asc) rows).
Proof.
  intros B N. induction rows as [|r rows IH]; cbn [map]; [constructor|]. inversion B; subst. cbn [map] in N. inversion N; subst.
  constructor; [|apply IH; auto]. intro X. apply in_map_iff in X as [y [E Hy]].
  rewrite Forall_forall in H2. apply acct_pk_inj in E; auto. apply H3. apply in_map_iff. exists y. auto.
Qed.

Lemma abc_nodup : NoDup (map (s_pk asc) abc).
Proof. apply ids_nodup; [repeat constructor|repeat constructor; cbn; intuition discriminate]. Qed.

Lemma abc_new r : In r abc -> (empty_map : tmap acct) (s_pk asc r) = None /\ s_val asc r <> None.
Proof. intros [<-|[<-|[<-|[]]]]; (split; [reflexivity|vm_compute; discriminate]). Qed.

(** the rows of [abc], inserted in chunks of two *)
Definition abc_db : kv := r_db (fst (insert accts (demo_env 2) [] tt None abc)).

Lemma abc_stored : consistent accts abc_db tt (puts asc empty_map abc).
Proof.
  destruct (insert_ok accts accts_good (demo_env 2) (demo_env_ok 2 ltac:(lia)) [] tt empty_map abc) as [w [E [C _]]].
  - apply demo_env_quiet.
  - apply accts_empty.
  - apply acct_rows_ok.
  - apply abc_nodup.
  - apply abc_new.
  - unfold abc_db. rewrite E. cbn [fst]. destruct w as [d [] ob]. exact C.
Qed.

Lemma abc_present r : In r abc -> puts asc empty_map abc (s_pk asc r) = Some r.
Proof. intro H. apply (puts_in (tb:=accts)); auto. apply abc_nodup. Qed.

(** a filter that remembers exactly what was added *)
Definition seen : filt (list bytes) := Filt (fun s k => k :: s) (fun s k => existsb (beqb k) s).
Lemma seen_ok : filt_ok seen.
Proof.
  split; cbn; intros.
  - rewrite beqb_refl. reflexivity.
  - rewrite H. apply orb_true_r.
Qed.
Definition seen_accts : table acct (list bytes) := acct_table (Some seen).
Lemma seen_accts_good : good_table seen_accts.
Proof. apply acct_good. intros f [= <-]. exact seen_ok. Qed.

(** an environment cancelled at one check *)
Definition cancel_at (i : nat) : env acct := Env sort_pos (Nat.eqb i) (fun _ l => l) 2 true.
Lemma cancel_at_ok i : env_ok (cancel_at i).
Proof. constructor; cbn; auto using sort_pos_perm, sort_pos_sorted. Qed.
