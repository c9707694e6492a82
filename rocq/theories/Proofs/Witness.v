(** A concrete table and environment, used by the examples beside the theorems
    and by the refutations. *)

From Coq Require Import List NArith Lia Bool Sorting.Sorted Sorting.Permutation Arith.
From Verif.Model Require Import Bytes Go Keys Pebble Index Table.
From Verif.Spec Require Import KeySpec TableSpec.
From Verif.Proofs Require Import BytesFacts KeysFacts PebbleFacts.
Import ListNotations.

(** ** A sort: insertion sort of positions by key (stable). *)

Fixpoint ins_pos (keys : list bytes) (i : nat) (l : list nat) : list nat :=
  match l with
  | [] => [i]
  | j :: l' => if bleb (nth i keys []) (nth j keys []) then i :: l else j :: ins_pos keys i l'
  end.

Definition sort_pos (keys : list bytes) : list nat :=
  fold_right (ins_pos keys) [] (seq 0 (length keys)).

Lemma ins_pos_perm (keys : list bytes) i l : Permutation (ins_pos keys i l) (i :: l).
Proof.
  induction l as [|j l IH]; cbn; auto. destruct (bleb _ _); auto.
  rewrite IH. apply perm_swap.
Qed.

Lemma ins_pos_sorted (keys : list bytes) i l :
  StronglySorted ble (map (fun i => nth i keys []) l) ->
  StronglySorted ble (map (fun i => nth i keys []) (ins_pos keys i l)).
Proof.
  induction l as [|j l IH]; intro S; cbn; [repeat constructor|].
  cbn in S. apply StronglySorted_inv in S as [S1 S2].
  destruct (bleb _ _) eqn:B; cbn.
  - apply bleb_le in B. constructor; [constructor; auto|]. constructor; auto.
    eapply Forall_impl; [|exact S2]. cbn. intros a Ha. eapply ble_trans; eauto.
  - apply bleb_gt in B. constructor; auto.
    assert (P : Permutation (map (fun i => nth i keys []) (ins_pos keys i l)) (nth i keys [] :: map (fun i => nth i keys []) l)).
    { change (nth i keys [] :: map (fun i => nth i keys []) l) with (map (fun i => nth i keys []) (i :: l)).
      apply Permutation_map. apply ins_pos_perm. }
    rewrite Forall_forall in S2 |- *. intros x Hx. apply (Permutation_in _ P) in Hx.
    destruct Hx as [<-|Hx]; auto. apply blt_le; auto.
Qed.

Lemma sort_pos_perm (keys : list bytes) : Permutation (sort_pos keys) (seq 0 (length keys)).
Proof.
  unfold sort_pos. generalize (seq 0 (length keys)) as l.
  induction l as [|i l IH]; cbn; auto.
  rewrite ins_pos_perm. constructor. exact IH.
Qed.

Lemma sort_pos_sorted (keys : list bytes) : StronglySorted ble (map (fun i => nth i keys []) (sort_pos keys)).
Proof.
  unfold sort_pos. generalize (seq 0 (length keys)) as l.
  induction l as [|i l IH]; cbn; [constructor|].
  apply ins_pos_sorted; auto.
Qed.

(** An environment without cancellation and with a given chunk size. *)
Definition demo_env {T} (chunk : nat) : env T := Env sort_pos (fun _ => false) (fun _ l => l) chunk true.

Lemma demo_env_ok {T} chunk : 0 < chunk -> env_ok (@demo_env T chunk).
Proof.
  intro H. constructor; cbn; auto using sort_pos_perm, sort_pos_sorted.
Qed.
Lemma demo_env_quiet {T} chunk : quiet (@demo_env T chunk).
Proof. split; reflexivity. Qed.

(** ** A table: accounts with a 64-bit id, a kind, a score and a flag *)

Record acct := Acct { a_id : N; a_kind : N; a_score : N; a_on : bool }.

Definition acct_pk (b : key_builder) (r : acct) : bytes := kb_buff (add_uint64 b (a_id r)).

(** by kind, best score first, only accounts that are on *)
Definition acct_by_kind : index acct :=
  new_index x01 (fun b r => kb_buff (add_uint32 b (a_kind r)))
    (Some (fun o r => order_uint64 o (a_score r) true)) (Some a_on).
(** by score, all accounts *)
Definition acct_by_score : index acct :=
  new_index x02 (fun b r => kb_buff (add_uint64 b (a_score r))) None None.

Definition acct_ser (r : acct) : option bytes :=
  if ((a_id r <? 256 ^ 8) && (a_kind r <? 256 ^ 4) && (a_score r <? 256 ^ 8))%N
  then Some (be_bytes 8 (a_id r) ++ be_bytes 4 (a_kind r) ++ be_bytes 8 (a_score r) ++ [if a_on r then x01 else x00])
  else None.

Definition acct_deser (v : bytes) (_ : acct) : option acct :=
  if Nat.eqb (length v) 21 then
    Some (Acct (be_val (firstn 8 v)) (be_val (firstn 4 (skipn 8 v))) (be_val (firstn 8 (skipn 12 v)))
               (match nth 20 v x00 with x01 => true | _ => false end))
  else None.

Definition acct_zero : acct := Acct 0 0 0 false.

Definition acct_table {F} (fo : option (filt F)) : table acct F :=
  MkTable x07 acct_pk [acct_by_kind; acct_by_score] acct_ser acct_deser acct_zero acct_zero 3 fo.

(** the same table without a filter *)
Definition accts : table acct unit := acct_table None.

Lemma firstn_be w n r : firstn w (be_bytes w n ++ r) = be_bytes w n.
Proof. rewrite firstn_app, be_bytes_length, Nat.sub_diag. cbn. rewrite app_nil_r. apply firstn_all2. rewrite be_bytes_length; auto. Qed.
Lemma skipn_be w n r : skipn w (be_bytes w n ++ r) = r.
Proof. rewrite skipn_app, be_bytes_length, Nat.sub_diag. rewrite skipn_all2; auto. rewrite be_bytes_length; auto. Qed.

Lemma acct_ser_over {F} fo : ser_over (@acct_table F fo).
Proof.
  intros r v prior. unfold acct_table; cbn [t_ser t_deser]. unfold acct_ser.
  destruct (_ && _) eqn:E; [|easy]. intro HV.
  assert (HV' : v = be_bytes 8 (a_id r) ++ be_bytes 4 (a_kind r) ++ be_bytes 8 (a_score r) ++ [if a_on r then x01 else x00]) by congruence.
  clear HV. subst v.
  apply andb_true_iff in E as [E E3]. apply andb_true_iff in E as [E1 E2].
  apply N.ltb_lt in E1, E2, E3. unfold acct_deser.
  set (fl := [if a_on r then x01 else x00]).
  assert (L : length (be_bytes 8 (a_id r) ++ be_bytes 4 (a_kind r) ++ be_bytes 8 (a_score r) ++ fl) = 21).
  { rewrite !app_length, !be_bytes_length. reflexivity. }
  rewrite L. cbn [Nat.eqb].
  rewrite firstn_be, be_val_bytes_small by auto.
  rewrite skipn_be, firstn_be, be_val_bytes_small by auto.
  assert (S12 : skipn 12 (be_bytes 8 (a_id r) ++ be_bytes 4 (a_kind r) ++ be_bytes 8 (a_score r) ++ fl) = be_bytes 8 (a_score r) ++ fl).
  { rewrite app_assoc, skipn_app, app_length, !be_bytes_length. rewrite skipn_all2; [reflexivity|].
    rewrite app_length, !be_bytes_length. auto. }
  rewrite S12, firstn_be, be_val_bytes_small by auto.
  assert (N20 : nth 20 (be_bytes 8 (a_id r) ++ be_bytes 4 (a_kind r) ++ be_bytes 8 (a_score r) ++ fl) x00 = if a_on r then x01 else x00).
  { rewrite !app_assoc. rewrite app_nth2; rewrite !app_length, !be_bytes_length; [reflexivity|auto]. }
  rewrite N20. destruct r as [i k s o]. cbn. destruct o; reflexivity.
Qed.

Lemma acct_lawful {F} fo : lawful (@acct_table F fo).
Proof.
  constructor.
  - intros b r. cbn [t_pk acct_table]. unfold acct_pk, add_uint64, kb_append, put_field_id. cbn [kb_buff new_kb kb_fid].
    rewrite <- !app_assoc. reflexivity.
  - intros ix b r [<-|[<-|[]]]; cbn [ix_key acct_by_kind acct_by_score new_index];
      unfold add_uint32, add_uint64, kb_append, put_field_id; cbn [kb_buff new_kb kb_fid]; rewrite <- !app_assoc; reflexivity.
  - intros ix b r [<-|[<-|[]]]; cbn [ix_order acct_by_kind acct_by_score new_index];
      unfold index_order_default, order_uint64, add_uint64, kb_append, put_field_id; cbn [kb_buff new_kb kb_fid]; rewrite ?app_nil_r, <- ?app_assoc; reflexivity.
  - cbn. repeat constructor; cbn; intuition discriminate.
  - intros ix [<-|[<-|[]]]; discriminate.
Qed.

Lemma acct_row_ok {F} fo r : row_ok (schema_of (@acct_table F fo)) r.
Proof.
  intros ix H. cbn in H. destruct H as [<-|[<-|[]]]; cbn [si_key si_ord sindex_of acct_by_kind acct_by_score new_index ix_key ix_order];
    unfold index_order_default, order_uint64, add_uint64, add_uint32, kb_append, put_field_id; cbn [kb_buff new_kb];
    split; rewrite ?app_length, ?be_bytes_length; cbn; lia.
Qed.

Lemma acct_rows_ok {F} fo l : Forall (row_ok (schema_of (@acct_table F fo))) l.
Proof. rewrite Forall_forall. intros; apply acct_row_ok. Qed.

Lemma Rep_empty {T} (sc : schema T) : Rep sc [] (fun _ => None).
Proof.
  constructor; cbn; try easy. intros ix rest v _. split; [easy|]. intros [_ [r [H _]]]. easy.
Qed.

Lemma covers_empty {T F} (tb : table T F) fl : covers tb fl [].
Proof. intros f rest v _ H. easy. Qed.

Lemma filter_ok_none {T F} (tb : table T F) : t_filter tb = None -> filter_ok tb.
Proof. intros E f H. congruence. Qed.
Lemma covers_none {T F} (tb : table T F) fl db : t_filter tb = None -> covers tb fl db.
Proof. intros E f rest v H. congruence. Qed.
