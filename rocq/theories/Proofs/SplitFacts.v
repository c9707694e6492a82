(** Every key that bond stores can be split by pebble's comparer; property C89. *)

From Coq Require Import List NArith ZArith Lia Bool Arith Sorting.Permutation.
From Verif.Model Require Import Bytes Go Keys Pebble Index Table ReIndex Bloom Backup Version.
From Verif.Spec Require Import KeySpec StoreSpec TableSpec HistSpec SplitSpec.
From Verif.Proofs Require Import BytesFacts KeysFacts KeysProps PebbleFacts TableFacts WriteFacts UpdateFacts UpsertFacts CallFacts.
Import ListNotations.

(** ** The comparer *)

Lemma splittable_layout k : splittable k -> exists t i ix rest, fits32 ix /\ k = prefix_layout t i ix ++ rest.
Proof.
  intros [L S]. destruct k as [|t [|i k]]; [cbn in L; lia|cbn in L; lia|]. cbn [length] in L. cbn [skipn] in S.
  assert (L4 : length (firstn 4 k) = 4) by (rewrite firstn_length; lia).
  set (n := be_val (firstn 4 k)) in *.
  assert (B : (n < 2 ^ 32)%N) by (pose proof (be_val_lt (firstn 4 k)) as B; rewrite L4 in B; exact B).
  set (rest := skipn 4 k). assert (E : k = firstn 4 k ++ rest) by (symmetry; apply firstn_skipn).
  assert (LR : N.to_nat n <= length rest). { unfold rest. rewrite skipn_length. cbn [length] in S. lia. }
  assert (LI : length (firstn (N.to_nat n) rest) = N.to_nat n) by (rewrite firstn_length; lia).
  exists t, i, (firstn (N.to_nat n) rest), (skipn (N.to_nat n) rest). split.
  - unfold fits32, blen. rewrite LI, N2Nat.id. exact B.
  - unfold prefix_layout, blen. rewrite LI, N2Nat.id. rewrite <- !app_comm_cons, <- app_assoc, firstn_skipn. do 2 f_equal.
    rewrite E at 1. f_equal. pose proof (be_bytes_val (firstn 4 k)) as V. rewrite L4 in V. symmetry. exact V.
Qed.

Lemma layout_splittable t i ix rest : fits32 ix -> splittable (prefix_layout t i ix ++ rest).
Proof.
  intros H. unfold prefix_layout. rewrite <- !app_comm_cons, <- app_assoc. split.
  - cbn [length]. rewrite app_length, be_bytes_length. lia.
  - cbn [skipn length]. rewrite firstn_app, be_bytes_length, Nat.sub_diag, firstn_O, app_nil_r.
    rewrite (firstn_all2 (be_bytes 4 (blen ix))) by (rewrite be_bytes_length; lia). rewrite be_val_len4 by exact H.
    rewrite !app_length, be_bytes_length. unfold blen. lia.
Qed.

Lemma unsplittable k : ~ splittable k -> key_prefix_of k = Panic.
Proof.
  intros H. unfold key_prefix_of, split_index, slice. destruct ((2 <=? 6) && (6 <=? blen k))%N eqn:E; [|reflexivity].
  apply andb_true_iff in E as [_ E]. apply N.leb_le in E. unfold blen in E.
  change (N.to_nat 6 - N.to_nat 2) with 4. change (N.to_nat 2) with 2.
  destruct ((0 <=? 6 + be_val (firstn 4 (skipn 2 k))) && (6 + be_val (firstn 4 (skipn 2 k)) <=? blen k))%N eqn:E2; [|reflexivity].
  apply andb_true_iff in E2 as [_ E2]. apply N.leb_le in E2. exfalso. apply H. split; [lia|exact E2].
Qed.

Lemma bcmp_app_self p s : s <> [] -> bcmp p (p ++ s) = Lt.
Proof. intros H. induction p as [|x p IH]; [destruct s; [easy|reflexivity]|]. cbn [app]. rewrite bcmp_cons, N.compare_refl. exact IH. Qed.

Lemma comparer a b : splittable a -> splittable b ->
  exists pa sa pb sb, key_prefix_of a = Ok pa /\ key_prefix_of b = Ok pb /\ a = pa ++ sa /\ b = pb ++ sb /\
    key_prefix_of pa = Ok pa /\ (sa <> [] -> bcmp pa a = Lt) /\
    (bcmp a b <> Gt -> bcmp pa pb <> Gt) /\ (pa = pb -> bcmp a b = bcmp sa sb).
Proof.
  intros A B. destruct (splittable_layout _ A) as (t & i & ix & r & FA & ->). destruct (splittable_layout _ B) as (t' & i' & ix' & r' & FB & ->).
  exists (prefix_layout t i ix), r, (prefix_layout t' i' ix'), r'. rewrite !key_prefix_of_layout by auto.
  split; [reflexivity|]. split; [reflexivity|]. split; [reflexivity|]. split; [reflexivity|]. split.
  { rewrite <- (app_nil_r (prefix_layout t i ix)) at 1. now apply key_prefix_of_layout. }
  split; [intros N; now apply bcmp_app_self|]. rewrite prefix_layout_bcmp by auto. split.
  - intros H E. rewrite E in H. now apply H.
  - intros ->. rewrite bcmp_refl. reflexivity.
Qed.

(** ** Keys *)

Lemma spec_splittable t i ix ord pk : fits32 ix -> splittable (spec_key t i ix ord pk).
Proof.
  intros H. change (spec_key t i ix ord pk) with (layout t i ix ord pk). rewrite layout_prefix. now apply layout_splittable.
Qed.

Lemma user_splittable k : splittable (new_user_key k).
Proof.
  destruct k as [|x k]; [split; vm_compute; [lia|discriminate]|].
  unfold new_user_key. rewrite key_encode_full by discriminate. apply (spec_splittable _ _ [] []). reflexivity.
Qed.

Lemma version_splittable : splittable data_version_key.
Proof. split; vm_compute; [lia|discriminate]. Qed.

Lemma bloom_splittable rest : splittable (bloom_prefix ++ rest).
Proof. apply (layout_splittable x00 x00 [] ([x00; x00; x00; x00; x62; x66; x5f] ++ rest)). reflexivity. Qed.

(** ** Databases *)

Definition fine (s : kv) : Prop := Forall (fun e => splittable (fst e)) s.
Definition fine_op (D : bytes -> Prop) (o : bop) : Prop := match o with BSet k _ => splittable k | BDel k => D k | _ => True end.
Definition anyk (k : bytes) : Prop := True.

Lemma fine_set s k v : fine s -> splittable k -> fine (kv_set s k v).
Proof.
  intros F S. induction F as [|[k' v'] s F1 F2 IH]; cbn [kv_set]; [constructor; [exact S|constructor]|].
  destruct (bcmp k k'); [constructor; [exact S|exact F2]|constructor; [exact S|constructor; [exact F1|exact F2]]|constructor; [exact F1|exact IH]].
Qed.

Lemma fine_filter f s : fine s -> fine (filter f s).
Proof. intros F. apply Forall_forall. intros e I. apply filter_In in I as [I _]. exact (proj1 (Forall_forall _ _) F e I). Qed.

Lemma weaken D os : Forall (fine_op D) os -> Forall (fine_op anyk) os.
Proof. apply Forall_impl. intros [k v|k|lo hi]; cbn; auto; now unfold anyk. Qed.

Lemma fine_ops os : forall s, fine s -> Forall (fine_op anyk) os -> fine (apply_ops s os).
Proof.
  induction os as [|o os IH]; intros s F H; [exact F|]. inversion H as [|? ? H1 H2]; subst. apply IH; auto.
  destruct o as [k v|k|lo hi]; cbn [apply_op]; [now apply fine_set|now apply fine_filter|now apply fine_filter].
Qed.

Lemma fine_get s k v : fine s -> kv_get s k = Some v -> splittable k.
Proof.
  induction 1 as [|[k' v'] s F1 F2 IH]; cbn [kv_get]; [discriminate|]. destruct (beqb k k') eqn:E; auto. apply beqb_eq in E as ->. auto.
Qed.

(** ** Calls *)

Section Calls.
  Context {T F : Type} {tb : table T F} {ev : env T} {FIT : fit tb} {EV : env_ok ev}.
  Context {D : bytes -> Prop} {DS : forall k, splittable k -> D k}.
  Notation sc := (schema_of tb).
  Notation dk := (data_key tb).

  Lemma dk_splittable r : splittable (dk r).
  Proof. rewrite (data_key_eq _ (proj1 FIT)). apply spec_splittable. reflexivity. Qed.

  Lemma entry_splittable ix r : In ix (t_indexes tb) -> splittable (encode_index_key (t_id tb) (t_pk tb) ix r []).
  Proof.
    intros I. rewrite (encode_index_key_eq _ (proj1 FIT)) by exact I. apply spec_splittable.
    apply (proj2 FIT r (sindex_of ix)). apply in_sc_index. exact I.
  Qed.

  Lemma on_insert_fine ix r : In ix (t_indexes tb) -> Forall (fine_op D) (on_insert (t_id tb) (t_pk tb) ix r).
  Proof. intros I. unfold on_insert. destruct (ix_filter ix r); [|constructor]. constructor; [now apply entry_splittable|constructor]. Qed.
  Lemma on_update_fine ix o r : In ix (t_indexes tb) -> Forall (fine_op D) (on_update (t_id tb) (t_pk tb) ix o r).
  Proof.
    intros I. unfold on_update. destruct (ix_filter ix o), (ix_filter ix r); try (destruct (beqb _ _));
      repeat first [apply Forall_nil|apply Forall_cons; [first [now apply entry_splittable|now apply DS, entry_splittable]|]].
  Qed.
  Lemma on_delete_fine ix r : In ix (t_indexes tb) -> Forall (fine_op D) (on_delete (t_id tb) (t_pk tb) ix r).
  Proof. intros I. unfold on_delete. destruct (ix_filter ix r); [|constructor]. constructor; [now apply DS, entry_splittable|constructor]. Qed.

  Lemma each_fine (g : index T -> list bop) n : (forall ix, In ix (t_indexes tb) -> Forall (fine_op D) (g ix)) -> Forall (fine_op D) (flat_map g (e_map ev n (t_indexes tb))).
  Proof.
    intros H. apply Forall_forall. intros o Ho. apply in_flat_map in Ho as [ix [H1 H2]].
    apply (Permutation_in _ (env_map_perm _ EV n _)) in H1. exact (proj1 (Forall_forall _ _) (H ix H1) o H2).
  Qed.

  Definition sound (s : wst T F) : Prop := Forall (fine_op D) (w_ops s).

  Lemma sound_add s os : sound s -> Forall (fine_op D) os -> sound (add_ops s os).
  Proof. intros H1 H2. apply Forall_app. split; assumption. Qed.

  Lemma insert_rows_fine it trs : forall rows prev s, Forall (fun kr => splittable (fst kr)) rows -> sound s ->
    sound (fst (insert_rows tb ev it trs prev rows s)).
  Proof.
    induction rows as [|[k o] rows IH]; intros prev s H S; cbn [insert_rows]; [exact S|].
    inversion H as [|? ? H1 H2]; subst. cbn [fst] in H1.
    destruct (e_ctx ev (w_tick s)); [exact S|]. destruct (_ || _); [exact S|]. destruct (nth_error trs o); [|exact S].
    destruct (t_ser tb t); [|exact S]. apply IH; auto. unfold sound. rewrite flt_add_ops. apply (sound_add (tick s)); [exact S|].
    constructor; [exact H1|apply each_fine; intros ix I; now apply on_insert_fine].
  Qed.

  Lemma update_rows_fine it trs : forall rows s, Forall (fun kr => splittable (fst kr)) rows -> sound s ->
    sound (fst (update_rows tb ev it trs rows s)).
  Proof.
    induction rows as [|[k o] rows IH]; intros s H S; cbn [update_rows]; [exact S|].
    inversion H as [|? ? H1 H2]; subst. cbn [fst] in H1.
    destruct (e_ctx ev (w_tick s)); [exact S|].
    destruct (match rows with [] => false | _ => _ end); [apply (IH (tick s)); auto|].
    cbn zeta. destruct (_ || _); [exact S|]. destruct (t_deser tb _ _) as [old|]; [|exact S].
    destruct (nth_error trs o); [|exact S]. destruct (t_ser tb t); [|exact S].
    apply IH; auto. apply (sound_add (set_old (tick s) old)); [exact S|]. constructor; [exact H1|apply each_fine; intros ix I; now apply on_update_fine].
  Qed.

  Lemma upsert_rows_fine f it trs keys order : Forall splittable keys -> forall fuel i s, sound s ->
    sound (fst (upsert_rows tb ev f fuel it trs keys order i s)).
  Proof.
    intro KH. induction fuel as [|fuel IH]; intros i s S; cbn [upsert_rows]; [exact S|].
    destruct (Nat.ltb i (length keys)) eqn:L; [|exact S]. apply Nat.ltb_lt in L.
    assert (KI : splittable (nth i keys [])) by (apply (proj1 (Forall_forall _ _) KH), nth_In; exact L).
    destruct (nth_error trs _); [|exact S]. destruct (e_ctx ev (w_tick s)); [exact S|].
    destruct (if exist_key _ _ _ _ then _ else _); [|exact S].
    destruct (upsert_dups _ _ _ _ _ _ _) as [[[i' old'] tr']|]; [|exact S].
    destruct (t_ser tb tr'); [|exact S]. apply IH. destruct (exist_key _ _ _ _).
    - apply (sound_add (set_old (tick s) old')); [exact S|]. constructor; [exact KI|apply each_fine; intros ix I; now apply on_update_fine].
    - unfold sound. rewrite flt_add_ops. apply (sound_add (set_old (tick s) old')); [exact S|]. constructor; [exact KI|apply each_fine; intros ix I; now apply on_insert_fine].
  Qed.

  Lemma delete_rows_fine : forall trs s, sound s -> sound (fst (delete_rows tb ev trs s)).
  Proof.
    induction trs as [|r trs IH]; intros s S; cbn [delete_rows]; [exact S|]. destruct (e_ctx ev (w_tick s)); [exact S|].
    apply IH. apply (sound_add (tick s)); [exact S|]. constructor; [apply DS, dk_splittable|apply each_fine; intros ix I; now apply on_delete_fine].
  Qed.

  Lemma unsafe_insert_rows_fine : forall trs s, sound s -> sound (fst (unsafe_insert_rows tb ev trs s)).
  Proof.
    induction trs as [|r trs IH]; intros s S; cbn [unsafe_insert_rows]; [exact S|].
    destruct (e_ctx ev (w_tick s)); [exact S|]. destruct (t_ser tb r); [|exact S]. apply IH. unfold sound. rewrite flt_add_ops.
    apply (sound_add (tick s)); [exact S|]. constructor; [apply dk_splittable|apply each_fine; intros ix I; now apply on_insert_fine].
  Qed.

  Lemma unsafe_update_rows_fine : forall trs olds s, sound s -> sound (fst (unsafe_update_rows tb ev trs olds s)).
  Proof.
    induction trs as [|r trs IH]; intros olds s S; cbn [unsafe_update_rows]; [exact S|]. destruct olds as [|o olds]; [exact S|].
    destruct (e_ctx ev (w_tick s)); [exact S|]. destruct (t_ser tb r); [|exact S]. apply IH.
    apply (sound_add (tick s)); [exact S|]. constructor; [apply dk_splittable|apply each_fine; intros ix I; now apply on_update_fine].
  Qed.

  Lemma batched_fine {A} (l : list A) (g : list A -> wst T F -> wst T F * res unit) s :
    (forall c s, sound s -> sound (fst (g c s))) -> sound s -> sound (fst (batched l (e_chunk ev) g s)).
  Proof.
    intros H. destruct (batched_chunks (St := wst T F) (e_chunk ev) l (env_chunk_pos _ EV)) as [cs [_ C2]]. rewrite C2. clear C2. revert s.
    induction cs as [|c cs IH]; intros s S; cbn [run_chunks]; [exact S|].
    pose proof (H c s S) as H1. destruct (g c s) as [s' r]. cbn [fst] in H1. destruct r; auto.
  Qed.

  Lemma sorted_splittable (c : list T) keys order : sort_keys ev (map dk c) = (keys, order) -> Forall splittable keys.
  Proof.
    intro E. destruct (sort_keys_rows (tb := tb) (ev := ev) c) as [keys' [order' [rs [E1 [E2 _]]]]].
    assert (keys = map dk rs) as -> by congruence. apply Forall_forall. intros k Hk. apply in_map_iff in Hk as [r [<- _]]. apply dk_splittable.
  Qed.

  Lemma paired (keys : list bytes) (order : list nat) : Forall splittable keys -> Forall (fun kr => splittable (fst kr)) (combine keys order).
  Proof. intro H. apply Forall_forall. intros [k o] Hk. apply in_combine_l in Hk. exact (proj1 (Forall_forall _ _) H k Hk). Qed.

  Lemma body_fine c db rw s : sound s -> sound (fst (body (tb:=tb) (ev:=ev) c db rw s)).
  Proof.
    destruct c as [l|l|f l|l]; cbn [body]; [apply batched_fine ..|apply delete_rows_fine]; intros c s0 S0.
    - unfold insert_chunk. destruct (sort_keys _ _) as [keys order] eqn:E. apply sorted_splittable in E.
      destruct keys as [|k ks]; [exact S0|]. apply insert_rows_fine; [now apply paired|exact S0].
    - unfold update_chunk. destruct (sort_keys _ _) as [keys order] eqn:E. apply sorted_splittable in E.
      destruct keys as [|k ks]; [exact S0|]. apply update_rows_fine; [now apply paired|exact S0].
    - unfold upsert_chunk. destruct (sort_keys _ _) as [keys order] eqn:E. apply sorted_splittable in E.
      destruct keys as [|k ks]; [exact S0|]. apply upsert_rows_fine; assumption.
  Qed.

  (** What a write leaves: a fine database, and fine operations in the batch. *)
  Definition leaves_fine (db : kv) (ob : option batch) (w : wres (F:=F)) : Prop :=
    (fine db -> fine (r_db w)) /\ match ob, Table.r_batch w with
                                  | Some b, Some b' => Forall (fine_op D) (b_ops b) -> Forall (fine_op D) (b_ops b')
                                  | _, _ => True
                                  end.

  Lemma run_write_fine db fl ob g w r : (forall rw s, sound s -> sound (fst (g rw s))) -> run_write tb ev db fl ob g = (w, r) ->
    leaves_fine db ob w.
  Proof.
    intros X. unfold run_write. destruct ob as [b|].
    - pose proof (X (b_rw b) (WSt (b_ops b) fl (t_nil tb) 0)) as S. destruct (g (b_rw b) _) as [s r']. cbn [fst] in S.
      intros [= <- <-]. split; [auto|]. exact S.
    - pose proof (X false (WSt [] fl (t_nil tb) 0) (Forall_nil _)) as S. destruct (g false _) as [s r']. cbn [fst] in S.
      destruct r' as [[]|e| |]; [|intros [= <- <-]; split; auto ..].
      unfold sound in S. destruct (w_ops s) as [|o os]; [intros [= <- <-]; split; auto|].
      destruct (e_commit ev); intros [= <- <-]; split; auto. cbn [r_db]. intros K. apply (fine_ops (o :: os)); [exact K|]. now apply (weaken D).
  Qed.

  Lemma call_fine db fl ob c w r : run_call tb ev db fl ob c = (w, r) -> leaves_fine db ob w.
  Proof. intros E. rewrite run_call_eq in E. eapply run_write_fine; [|exact E]. intros rw s. apply body_fine. Qed.

  Lemma unsafe_fine db fl ob rows olds w r : unsafe_insert tb ev db fl ob rows = (w, r) \/ unsafe_update tb ev db fl ob rows olds = (w, r) ->
    leaves_fine db ob w.
  Proof.
    intros [E|E].
    - eapply run_write_fine; [|exact E]. intros rw s. apply batched_fine. intros c s'. apply unsafe_insert_rows_fine.
    - unfold unsafe_update in E. destruct (Nat.eqb _ _); [eapply run_write_fine; [|exact E]; intros rw s; apply unsafe_update_rows_fine|].
      injection E as <- <-. split; auto. cbn [Table.r_batch]. destruct ob; auto.
  Qed.
End Calls.

(** ** ReIndex *)

Lemma re_rows_fine {T F} (tb : table T F) idxs ev : fit (with_indexes tb idxs) -> forall items db n ops counter, fine db -> Forall (fine_op anyk) ops ->
  fine (fst (re_rows ev tb idxs items db n ops counter)).
Proof.
  intros FIT. induction items as [|[k v] items IH]; intros db n ops counter K O; cbn [re_rows].
  - destruct (r_write ev n); [|exact K]. now apply fine_ops.
  - destruct (t_deser tb v (t_nil tb)) as [tr|]; [|exact K]. cbv zeta.
    assert (O' : Forall (fine_op anyk) (ops ++ flat_map (fun ix => on_insert (t_id tb) (t_pk tb) ix tr) idxs)).
    { apply Forall_app. split; [exact O|]. apply Forall_forall. intros o Ho. apply in_flat_map in Ho as [ix [H1 H2]].
      exact (proj1 (Forall_forall _ _) (on_insert_fine (D:=anyk) (tb:=with_indexes tb idxs) (FIT:=FIT) ix tr H1) o H2). }
    destruct (Nat.leb _ _); [|apply IH; assumption]. destruct (r_write ev n); [|exact K]. apply IH; [now apply fine_ops|constructor].
Qed.

Lemma re_delete_fine {T} ev t (idxs : list (index T)) : forall n db, fine db -> fine (fst (fst (re_delete ev t idxs n db))).
Proof.
  induction idxs as [|ix idxs IH]; intros n db K; cbn [re_delete]; [exact K|]. destruct (r_write ev n); [|exact K]. apply IH. now apply fine_filter.
Qed.

Lemma re_index_fine_keys {T F} (tb : table T F) ev db idxs : fit (with_indexes tb idxs) -> fine db -> fine (fst (re_index ev tb db idxs)).
Proof.
  intros FIT K. unfold re_index. pose proof (re_delete_fine ev (t_id tb) idxs 0 db K) as D.
  destruct (re_delete ev (t_id tb) idxs 0 db) as [[db' n] [|]]; [|exact D]. apply re_rows_fine; auto.
Qed.

(** ** Open, filters *)

Lemma init_fine s : fine s -> fine (init_version s).
Proof. intros K. unfold init_version. destruct (0 <? version s)%Z; [exact K|]. apply fine_set; [exact K|exact version_splittable]. Qed.

Lemma open_pebble_fine peb d v d' : fine (d_kv d) -> In d' (fst (open_pebble peb d v)) -> fine (d_kv d').
Proof.
  intros K. unfold open_pebble. destruct (peb (d_fmv d) v) as [f|]; [|easy]. cbv zeta.
  destruct (version _ =? 0)%Z; [intros [<-|[<-|[]]]; [exact K|apply init_fine; exact K]|].
  destruct (negb _); intros [<-|[]]; exact K.
Qed.

Lemma open_fine peb d v d' : fine (d_kv d) -> In d' (fst (open_db peb d v)) -> fine (d_kv d').
Proof.
  intros K. unfold open_db. cbv zeta. destruct (d_file (make_dir d)) as [s|].
  - destruct (parse_uint max_u64 s) as [n| |]; try (intros [<-|[]]; exact K). destruct (n =? v)%N; [|intros [<-|[]]; exact K].
    destruct (open_pebble peb (make_dir d) v) as [l r] eqn:E. intros [<-|I]; [exact K|].
    apply (open_pebble_fine peb (make_dir d) v); [exact K|]. rewrite E. exact I.
  - destruct (open_pebble peb (set_file (make_dir d) (dec v)) v) as [l r] eqn:E. intros [<-|I]; [exact K|].
    apply in_app_or in I as [I|I]; [apply in_map_iff in I as (n & <- & _); exact K|].
    apply (open_pebble_fine peb (set_file (make_dir d) (dec v)) v); [exact K|]. rewrite E. exact I.
Qed.

Lemma save_buckets_fine cd c stop : c_prefix c = bloom_prefix -> forall bs n s i, fine s ->
  fine (fst (fst (save_buckets db_storer cd c stop n s i bs))).
Proof.
  intros P. induction bs as [|b bs IH]; intros n s i K; cbn [save_buckets]; [exact K|].
  destruct (negb (bk_changes b) && bk_written b).
  - pose proof (IH n s (Datatypes.S i) K) as H. destruct (save_buckets db_storer cd c stop n s (Datatypes.S i) bs) as [[s' bs2] r]. exact H.
  - assert (KS : fine (kv_set s (bucket_key c i) (pack cd (c_m c, c_k c, bk_bits b)))).
    { apply fine_set; [exact K|]. unfold bucket_key. rewrite P. apply bloom_splittable. }
    destruct (save_set db_storer stop n s (bucket_key c i) _) as [s1 ok] eqn:E.
    assert (K1 : fine s1). { unfold save_set in E. destruct stop as [[n0 j]|]; [destruct (Nat.eqb n n0)|]; injection E as <- <-; assumption. }
    destruct ok; [|exact K1]. pose proof (IH (Datatypes.S n) s1 (Datatypes.S i) K1) as H.
    destruct (save_buckets db_storer cd c stop (Datatypes.S n) s1 (Datatypes.S i) bs) as [[s' bs2] r]. exact H.
Qed.

Lemma filter_fine cd h c s bs o : c_prefix c = bloom_prefix -> fine s -> fine (fst (fst (bloom_step db_storer cd h c s bs o))).
Proof.
  intros P K. destruct o as [k|stop| | |]; cbn [bloom_step]; try exact K.
  - unfold bloom_save. assert (KS : fine (kv_set s (count_key c) (be_bytes 8 (N.of_nat (c_n c))))).
    { apply fine_set; [exact K|]. unfold count_key. rewrite P. apply bloom_splittable. }
    destruct (save_set db_storer stop 0 s (count_key c) _) as [s1 ok] eqn:E.
    assert (K1 : fine s1). { unfold save_set in E. destruct stop as [[n0 j]|]; [destruct (Nat.eqb 0 n0)|]; injection E as <- <-; assumption. }
    destruct ok; [|exact K1]. now apply save_buckets_fine.
  - destruct (bloom_load db_storer cd c s bs) as [bs' r]. exact K.
  - unfold bloom_clear. rewrite P. cbn [bloom_prefix st_del_range db_storer fst snd]. now apply fine_filter.
Qed.

(** ** Dump and Restore *)

Definition fine_tree (d : tree) : Prop := forall p f, In (p, NSst f) d -> fine f.

Lemma split_fine full : forall items cur, fine items -> fine cur -> Forall fine (sst_split full items cur).
Proof.
  induction items as [|e items IH]; intros cur KI KC; cbn [sst_split]; [constructor; [exact KC|constructor]|].
  inversion KI as [|? ? K1 K2]; subst. assert (KC' : fine (cur ++ [e])) by (apply Forall_app; split; [exact KC|constructor; [exact K1|constructor]]).
  destruct (full (cur ++ [e])); [constructor; [exact KC'|apply IH; [exact K2|constructor]]|now apply IH].
Qed.

Lemma files_fine dir : forall l n, Forall fine l -> fine_tree (sst_files dir n l).
Proof.
  induction l as [|f l IH]; intros n H p g; cbn [sst_files]; [easy|]. inversion H as [|? ? H1 H2]; subst.
  intros [[= <- <-]|I]; [exact H1|exact (IH _ H2 p g I)].
Qed.

Lemma dump_dir_fine full d dir items d' : fine_tree d -> fine items -> dump_dir full d dir items = Some d' -> fine_tree d'.
Proof.
  intros KD KI. unfold dump_dir. destruct (tree_get d [dir]); [discriminate|]. intros [= <-] p f I.
  apply in_app_or in I as [I|[I|I]]; [exact (KD p f I)|discriminate|]. exact (files_fine dir _ _ (split_fine full items [] KI (Forall_nil _)) p f I).
Qed.

Lemma dump_indexes_fine full snap t : fine snap -> forall ids d, fine_tree d -> fine_tree (fst (dump_indexes full snap t ids d)).
Proof.
  intros K. induction ids as [|i ids IH]; intros d KD; cbn [dump_indexes]; [exact KD|].
  destruct (dump_dir full d _ _) as [d'|] eqn:E; [|exact KD]. apply IH. eapply dump_dir_fine; [exact KD| |exact E]. now apply fine_filter.
Qed.

Lemma dump_tables_fine full snap live wi : fine snap -> forall tables n d, fine_tree d -> fine_tree (fst (dump_tables full snap live n wi tables d)).
Proof.
  intros K. induction tables as [|t tables IH]; intros n d KD; cbn [dump_tables]; [exact KD|].
  destruct (dump_dir full d _ _) as [d'|] eqn:E; [|exact KD].
  assert (KD' : fine_tree d') by (eapply dump_dir_fine; [exact KD| |exact E]; now apply fine_filter).
  destruct wi; [|now apply IH]. destruct (get_index_ids (live n) t) as [ids|e| |]; [|exact KD' ..].
  pose proof (dump_indexes_fine full snap t K ids d' KD') as H. destruct (dump_indexes full snap t ids d') as [d'' [[]|e| |]]; [now apply IH|exact H ..].
Qed.

Lemma dump_fine full snap live ex wi tables : fine snap -> fine_tree (fst (dump full snap live ex wi tables)).
Proof.
  intros K. unfold dump. destruct ex; [intros p f []|]. apply dump_tables_fine; [exact K|]. intros p f [I|[]]. discriminate.
Qed.

Lemma picked_fine root tables wi d : fine_tree d -> Forall fine (pick_ssts root tables wi d).
Proof.
  induction d as [|[p [|x|f]] d IH]; intros KD; cbn [pick_ssts]; [constructor| | |].
  - apply IH. intros q g I. exact (KD q g (or_intror I)).
  - apply IH. intros q g I. exact (KD q g (or_intror I)).
  - assert (H : Forall fine (pick_ssts root tables wi d)) by (apply IH; intros q g I; exact (KD q g (or_intror I))).
    destruct (picked _ _ _); [constructor; [exact (KD p f (or_introl eq_refl))|exact H]|exact H].
Qed.

Lemma restore_fine root d db want wi : fine_tree d -> fine db -> fine (fst (restore root d db want wi)).
Proof.
  intros KD K. unfold restore. destruct (tree_get d _) as [[|buf|f]|]; try exact K. destruct (Nat.ltb _ _); [exact K|]. destruct (negb _); [exact K|].
  destruct (forallb _ _); [|exact K]. unfold ingest. destruct (overlapping _); [exact K|]. cbn [fst]. apply fine_ops; [exact K|].
  apply Forall_forall. intros o Ho. apply in_flat_map in Ho as (f & I & Ho). apply in_map_iff in Ho as (e & <- & Ie).
  exact (proj1 (Forall_forall _ _) (proj1 (Forall_forall _ _) (picked_fine root want wi d KD) f I) e Ie).
Qed.

(** ** Together *)

Lemma contents_fine os : contents os -> Forall (fine_op anyk) os.
Proof.
  induction 1 as [|T F tb ev db fl b c w r b' FIT EV C IH E B|T F tb ev db fl b rows olds w r b' FIT EV C IH E B|os k v C IH|os k C IH|os lo hi C IH|a b CA IA CB IB].
  - constructor.
  - pose proof (proj2 (call_fine (D:=anyk) (DS:=fun _ _ => Logic.I) (FIT:=FIT) (EV:=EV) db fl (Some b) c w r E)) as H. rewrite B in H. exact (H IH).
  - pose proof (proj2 (unsafe_fine (D:=anyk) (DS:=fun _ _ => Logic.I) (FIT:=FIT) (EV:=EV) db fl (Some b) rows olds w r E)) as H. rewrite B in H. exact (H IH).
  - apply Forall_app. split; [exact IH|]. constructor; [apply user_splittable|constructor].
  - apply Forall_app. split; [exact IH|]. repeat constructor.
  - apply Forall_app. split; [exact IH|]. repeat constructor.
  - apply Forall_app. split; assumption.
Qed.

Lemma reached_fine db : reached db -> fine db.
Proof.
  induction 1 as [|T F tb ev db fl c w r FIT EV R IH E|T F tb ev db fl rows olds w r FIT EV R IH E|db os R IH C|T F tb ev db idxs FIT R IH|db k v R IH|db k R IH|db lo hi R IH
    |peb d v d' R IH I|cd h c db bs o P R IH|full snap live wiD tables root db want wiR RS IS R IH].
  - constructor.
  - exact (proj1 (call_fine (D:=anyk) (DS:=fun _ _ => Logic.I) (FIT:=FIT) (EV:=EV) db fl None c w r E) IH).
  - exact (proj1 (unsafe_fine (D:=anyk) (DS:=fun _ _ => Logic.I) (FIT:=FIT) (EV:=EV) db fl None rows olds w r E) IH).
  - apply fine_ops; [exact IH|now apply contents_fine].
  - now apply re_index_fine_keys.
  - apply fine_set; [exact IH|apply user_splittable].
  - now apply fine_filter.
  - now apply fine_filter.
  - exact (open_fine peb d v d' IH I).
  - now apply filter_fine.
  - apply restore_fine; [now apply dump_fine|exact IH].
Qed.

Lemma stored_keys db k v : reached db -> kv_get db k = Some v -> splittable k.
Proof. intros R. apply fine_get. now apply reached_fine. Qed.

Lemma touched_fine os : Forall (fine_op splittable) os <-> forall o k, In o os -> touched o = Some k -> splittable k.
Proof.
  rewrite Forall_forall. split.
  - intros H o k I E. pose proof (H o I) as S. destruct o; cbn in *; try discriminate; injection E as <-; exact S.
  - intros H o I. pose proof (H o) as S. destruct o; cbn in *; auto.
Qed.

Lemma call_touches {T F} (tb : table T F) ev db fl b c rows olds w r b' : fit tb -> env_ok ev ->
  run_call tb ev db fl (Some b) c = (w, r) \/ unsafe_insert tb ev db fl (Some b) rows = (w, r) \/ unsafe_update tb ev db fl (Some b) rows olds = (w, r) ->
  Table.r_batch w = Some b' -> (forall o k, In o (b_ops b) -> touched o = Some k -> splittable k) ->
  forall o k, In o (b_ops b') -> touched o = Some k -> splittable k.
Proof.
  intros FIT EV E B H. apply touched_fine. apply touched_fine in H. destruct E as [E|E].
  - pose proof (proj2 (call_fine (D:=splittable) (DS:=fun _ s => s) (FIT:=FIT) (EV:=EV) db fl (Some b) c w r E)) as L. rewrite B in L. exact (L H).
  - pose proof (proj2 (unsafe_fine (D:=splittable) (DS:=fun _ s => s) (FIT:=FIT) (EV:=EV) db fl (Some b) rows olds w r E)) as L. rewrite B in L. exact (L H).
Qed.
