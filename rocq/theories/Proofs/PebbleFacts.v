(** Facts about the ordered store, batches and iterators. *)

From Coq Require Import List NArith Lia Bool Sorting.Sorted Arith.
From Verif.Model Require Import Bytes Go Pebble.
From Verif.Proofs Require Import BytesFacts.
From Verif.Spec Require Export StoreSpec.
Import ListNotations.

(** Keys strictly increase. *)

Lemma kv_ok_nil : kv_ok [].
Proof. constructor. Qed.

Lemma kv_ok_cons e s : kv_ok (e :: s) <-> kv_ok s /\ Forall (elt e) s.
Proof. split; intro H; [inversion H; auto | destruct H; constructor; auto]. Qed.

Lemma kv_get_in s k v : kv_ok s -> kv_get s k = Some v <-> In (k, v) s.
Proof.
  intro H. induction s as [|[k' v'] s IH]; cbn [kv_get].
  - split; easy.
  - apply kv_ok_cons in H as [H1 H2]. destruct (beqb k k') eqn:E.
    + apply beqb_eq in E; subst. split.
      * intros [= ->]. left; auto.
      * intros [[= ->]|Hin]; auto. exfalso.
        rewrite Forall_forall in H2. apply H2 in Hin. apply (blt_irrefl k'). exact Hin.
    + apply beqb_neq in E. rewrite IH by auto. split; [right; auto|].
      intros [[= -> ->]|]; [easy|auto].
Qed.

Lemma kv_get_none s k : kv_get s k = None <-> ~ In k (map fst s).
Proof.
  induction s as [|[k' v'] s IH]; cbn [kv_get map In].
  - split; auto.
  - destruct (beqb k k') eqn:E.
    + apply beqb_eq in E; subst. split; [easy|]. intro H. exfalso. apply H. left; auto.
    + apply beqb_neq in E. rewrite IH. cbn. split; intro H.
      * intros [H'|H']; [congruence|auto].
      * intro H'. apply H. right; auto.
Qed.

Lemma kv_ok_keys_nodup s : kv_ok s -> NoDup (map fst s).
Proof.
  induction s as [|e s IH]; intro H; cbn; constructor.
  - apply kv_ok_cons in H as [H1 H2]. rewrite in_map_iff. intros [e' [E Hin]].
    rewrite Forall_forall in H2. apply H2 in Hin. unfold elt in Hin. rewrite E in Hin.
    apply (blt_irrefl _ Hin).
  - apply kv_ok_cons in H as [H1 H2]. auto.
Qed.

Lemma Forall_elt_trans e e' s : elt e e' -> Forall (elt e') s -> Forall (elt e) s.
Proof. intros H. apply Forall_impl. intros a Ha. unfold elt in *. eapply blt_trans; eauto. Qed.

Lemma kv_set_Forall e k v s : blt (fst e) k -> Forall (elt e) s -> Forall (elt e) (kv_set s k v).
Proof.
  intros H. induction s as [|[k' v'] s IH]; intro F; cbn [kv_set].
  - constructor; auto.
  - inversion F; subst. destruct (bcmp k k') eqn:E; constructor; auto.
Qed.

Lemma kv_set_ok s k v : kv_ok s -> kv_ok (kv_set s k v).
Proof.
  induction s as [|[k' v'] s IH]; intro H; cbn [kv_set].
  - repeat constructor.
  - pose proof H as H0. apply kv_ok_cons in H as [H1 H2]. destruct (bcmp k k') eqn:E.
    + apply bcmp_eq in E; subst. apply kv_ok_cons; split; auto.
    + apply kv_ok_cons; split; auto. constructor; [exact E|].
      eapply Forall_elt_trans; [|exact H2]. exact E.
    + apply kv_ok_cons; split; auto. apply kv_set_Forall; auto.
      cbn. unfold blt. rewrite bcmp_antisym, E. reflexivity.
Qed.

Lemma kv_filter_ok (f : entry -> bool) s : kv_ok s -> kv_ok (filter f s).
Proof.
  induction s as [|e s IH]; intro H; cbn [filter]; auto.
  apply kv_ok_cons in H as [H1 H2]. destruct (f e); auto.
  apply kv_ok_cons; split; auto. rewrite Forall_forall in *. intros x Hx.
  apply filter_In in Hx as [Hx _]. auto.
Qed.

Lemma kv_del_ok s k : kv_ok s -> kv_ok (kv_del s k).
Proof. apply kv_filter_ok. Qed.
Lemma kv_del_range_ok s lo hi : kv_ok s -> kv_ok (kv_del_range s lo hi).
Proof. apply kv_filter_ok. Qed.
Lemma kv_range_ok s lo hi : kv_ok s -> kv_ok (kv_range s lo hi).
Proof. apply kv_filter_ok. Qed.

Lemma kv_get_set s k v k' :
  kv_get (kv_set s k v) k' = if beqb k' k then Some v else kv_get s k'.
Proof.
  induction s as [|[k0 v0] s IH]; cbn [kv_set kv_get].
  - reflexivity.
  - destruct (bcmp k k0) eqn:E; cbn [kv_get].
    + apply bcmp_eq in E; subst. destruct (beqb k' k0) eqn:E'; auto.
    + reflexivity.
    + rewrite IH. destruct (beqb k' k0) eqn:E0; destruct (beqb k' k) eqn:E1; auto.
      apply beqb_eq in E0, E1. subst. rewrite bcmp_refl in E. easy.
Qed.

Lemma kv_get_filter (f : entry -> bool) s k : kv_ok s ->
  kv_get (filter f s) k = match kv_get s k with Some v => if f (k, v) then Some v else None | None => None end.
Proof.
  induction s as [|[k0 v0] s IH]; intro H; cbn [filter kv_get]; auto.
  apply kv_ok_cons in H as [H1 H2]. destruct (beqb k k0) eqn:E.
  - apply beqb_eq in E; subst. destruct (f (k0, v0)) eqn:F; cbn [kv_get].
    + rewrite beqb_refl. reflexivity.
    + rewrite IH by auto. destruct (kv_get s k0) eqn:G; auto.
      apply kv_get_in in G; auto. rewrite Forall_forall in H2. apply H2 in G.
      exfalso. apply (blt_irrefl _ G).
  - destruct (f (k0, v0)); cbn [kv_get]; rewrite ?E; auto.
Qed.

Lemma kv_get_del s k k' : kv_ok s ->
  kv_get (kv_del s k) k' = if beqb k' k then None else kv_get s k'.
Proof.
  intro H. unfold kv_del. rewrite kv_get_filter by auto. cbn [fst].
  assert (S : beqb k k' = beqb k' k).
  { unfold beqb. rewrite (bcmp_antisym k k'). destruct (bcmp k k'); reflexivity. }
  rewrite S. destruct (kv_get s k'); destruct (beqb k' k); reflexivity.
Qed.

Lemma kv_get_del_range s lo hi k : kv_ok s ->
  kv_get (kv_del_range s lo hi) k = if in_range lo hi k then None else kv_get s k.
Proof.
  intro H. unfold kv_del_range. rewrite kv_get_filter by auto. cbn [fst].
  destruct (kv_get s k); destruct (in_range lo hi k); reflexivity.
Qed.

Lemma kv_get_range s lo hi k : kv_ok s ->
  kv_get (kv_range s lo hi) k = if in_range lo hi k then kv_get s k else None.
Proof.
  intro H. unfold kv_range. rewrite kv_get_filter by auto. cbn [fst].
  destruct (kv_get s k); destruct (in_range lo hi k); reflexivity.
Qed.

(** The store is determined by its lookups. *)
Lemma kv_ext s : forall t, kv_ok s -> kv_ok t -> (forall k, kv_get s k = kv_get t k) -> s = t.
Proof.
  induction s as [|[k v] s IH]; intros [|[k' v'] t] Hs Ht E; auto.
  - specialize (E k'). cbn in E. rewrite beqb_refl in E. easy.
  - specialize (E k). cbn in E. rewrite beqb_refl in E. easy.
  - apply kv_ok_cons in Hs as [Hs1 Hs2], Ht as [Ht1 Ht2].
    assert (Hin : In (k, v) ((k', v') :: t)).
    { apply kv_get_in. { apply kv_ok_cons; auto. }
      rewrite <- E. cbn. rewrite beqb_refl. auto. }
    assert (Hin' : In (k', v') ((k, v) :: s)).
    { apply kv_get_in. { apply kv_ok_cons; auto. }
      rewrite E. cbn. rewrite beqb_refl. auto. }
    assert (K : (k, v) = (k', v')).
    { destruct Hin as [Hin|Hin]; auto. destruct Hin' as [Hin'|Hin']; auto.
      rewrite Forall_forall in Hs2, Ht2. apply Ht2 in Hin. apply Hs2 in Hin'.
      exfalso. eapply blt_asym; eauto. }
    injection K as <- <-. f_equal. apply IH; auto. intro q.
    destruct (beqb q k) eqn:Q.
    + apply beqb_eq in Q; subst.
      assert (N1 : kv_get s k = None).
      { apply kv_get_none. rewrite in_map_iff. intros [e [Ee He]].
        rewrite Forall_forall in Hs2. apply Hs2 in He. unfold elt in He. rewrite Ee in He.
        apply (blt_irrefl _ He). }
      assert (N2 : kv_get t k = None).
      { apply kv_get_none. rewrite in_map_iff. intros [e [Ee He]].
        rewrite Forall_forall in Ht2. apply Ht2 in He. unfold elt in He. rewrite Ee in He.
        apply (blt_irrefl _ He). }
      congruence.
    + specialize (E q). cbn in E. rewrite Q in E. exact E.
Qed.

(** ** Batches *)

(** Does an operation touch key [k]? *)
Definition op_touches (o : bop) (k : bytes) : bool :=
  match o with
  | BSet k' _ => beqb k k'
  | BDel k' => beqb k k'
  | BDelRange lo hi => in_range lo hi k
  end.

Definition op_result (o : bop) : option bytes :=
  match o with BSet _ v => Some v | _ => None end.

Lemma apply_op_ok s o : kv_ok s -> kv_ok (apply_op s o).
Proof. destruct o; cbn; auto using kv_set_ok, kv_del_ok, kv_del_range_ok. Qed.

Lemma apply_ops_ok os : forall s, kv_ok s -> kv_ok (apply_ops s os).
Proof. induction os; intros s H; cbn; auto. apply IHos, apply_op_ok, H. Qed.

Lemma kv_get_apply_op s o k : kv_ok s ->
  kv_get (apply_op s o) k = if op_touches o k then op_result o else kv_get s k.
Proof.
  intro H. destruct o; cbn [apply_op op_touches op_result].
  - apply kv_get_set.
  - apply kv_get_del; auto.
  - apply kv_get_del_range; auto.
Qed.

Lemma apply_ops_app s a b : apply_ops s (a ++ b) = apply_ops (apply_ops s a) b.
Proof. apply fold_left_app. Qed.

(** effect of a list of operations on one key: [None] = untouched *)
Fixpoint ops_effect (os : list bop) (k : bytes) : option (option bytes) :=
  match os with
  | [] => None
  | o :: os' =>
      match ops_effect os' k with
      | Some r => Some r
      | None => if op_touches o k then Some (op_result o) else None
      end
  end.

Lemma kv_get_apply_ops os : forall s k, kv_ok s ->
  kv_get (apply_ops s os) k = match ops_effect os k with Some r => r | None => kv_get s k end.
Proof.
  induction os as [|o os IH]; intros s k H; cbn [apply_ops fold_left ops_effect]; auto.
  change (fold_left apply_op os (apply_op s o)) with (apply_ops (apply_op s o) os).
  rewrite IH by (apply apply_op_ok; auto).
  destruct (ops_effect os k); auto.
  rewrite kv_get_apply_op by auto. destruct (op_touches o k); reflexivity.
Qed.

Lemma ops_effect_app a b k :
  ops_effect (a ++ b) k = match ops_effect b k with Some r => Some r | None => ops_effect a k end.
Proof.
  induction a as [|o a IH]; cbn [app ops_effect].
  - destruct (ops_effect b k); reflexivity.
  - rewrite IH. destruct (ops_effect b k); reflexivity.
Qed.

Lemma ops_effect_none os k : (forall o, In o os -> op_touches o k = false) <-> ops_effect os k = None.
Proof.
  induction os as [|o os IH]; cbn [ops_effect]; split.
  - auto.
  - intros _ o [].
  - intro H. destruct IH as [IH _]. rewrite IH by (intros; apply H; right; auto).
    rewrite H; auto. left; auto.
  - intro H. destruct (ops_effect os k) eqn:E; [easy|]. destruct (op_touches o k) eqn:T; [easy|].
    intros o' [<-|Hin]; auto. apply IH; auto.
Qed.

Lemma apply_ops_same_effect s a b : kv_ok s ->
  (forall k, ops_effect a k = ops_effect b k) -> apply_ops s a = apply_ops s b.
Proof.
  intros H E. apply kv_ext; auto using apply_ops_ok. intro k.
  rewrite !kv_get_apply_ops by auto. rewrite E. reflexivity.
Qed.

Lemma view_ok db ob : kv_ok db -> kv_ok (view db ob).
Proof. intro H. destruct ob; cbn; auto. apply apply_ops_ok; auto. Qed.

(** ** Iterators *)

Lemma find_ge_spec l k : forall n,
  match find_ge l k n with
  | Some m => exists i e, m = (n + i)%nat /\ nth_error l i = Some e /\ ble k (fst e) /\
                (forall j e', (j < i)%nat -> nth_error l j = Some e' -> blt (fst e') k)
  | None => forall e, In e l -> blt (fst e) k
  end.
Proof.
  induction l as [|[k' v] l IH]; intro n; cbn [find_ge].
  - intros e [].
  - destruct (bleb k k') eqn:E.
    + exists O, (k', v). rewrite Nat.add_0_r. repeat split; auto.
      * apply bleb_le; auto.
      * intros j e' Hj. lia.
    + apply bleb_gt in E. specialize (IH (S n)). destruct (find_ge l k (S n)).
      * destruct IH as [i [e [-> [H1 [H2 H3]]]]]. exists (S i), e. repeat split; auto; try lia.
        intros [|j] e' Hj Hn; cbn in Hn. { injection Hn as <-. exact E. }
        apply (H3 j); auto. lia.
      * intros e [<-|Hin]; auto.
Qed.

(** SeekGE followed by an equality test is a lookup. *)
Lemma seek_ge_lookup v lo hi k : kv_ok v -> ble lo k -> blt k hi ->
  let i := it_seek_ge (new_iter v lo hi) k in
  match kv_get v k with
  | Some x => it_valid i = true /\ it_key i = k /\ it_value i = x
  | None => it_valid i && beqb (it_key i) k = false
  end.
Proof.
  intros Hok Hlo Hhi i.
  assert (R : kv_get (kv_range v lo hi) k = kv_get v k).
  { rewrite kv_get_range by auto. unfold in_range.
    apply bleb_le in Hlo. apply bltb_lt in Hhi. rewrite Hlo, Hhi. reflexivity. }
  pose proof (kv_range_ok v lo hi Hok) as Hr.
  subst i. unfold it_seek_ge, new_iter. cbn [pi_items pi_err].
  pose proof (find_ge_spec (kv_range v lo hi) k 0) as F.
  destruct (find_ge (kv_range v lo hi) k 0) as [m|] eqn:E.
  - destruct F as [i [e [-> [H1 [H2 H3]]]]].
    unfold it_valid, it_key, it_value, it_item. cbn [pi_pos pi_items Nat.add].
    rewrite H1. destruct (kv_get v k) as [x|] eqn:G.
    + assert (Hin : In (k, x) (kv_range v lo hi)) by (apply kv_get_in; auto).
      apply In_nth_error in Hin as [j Hj].
      destruct (Nat.lt_trichotomy j i) as [L|[L|L]].
      * specialize (H3 j _ L Hj). exfalso. apply (blt_irrefl _ H3).
      * subst j. assert (X : Some e = Some (k, x)) by (rewrite <- H1; exact Hj). injection X as ->. auto.
      * exfalso.
        assert (S : forall (l : kv) a b ea eb, kv_ok l -> (a < b)%nat -> nth_error l a = Some ea ->
                  nth_error l b = Some eb -> elt ea eb).
        { clear. induction l as [|x l IH]; intros a b ea eb Hk Hab Ha Hb.
          - destruct a; easy.
          - apply kv_ok_cons in Hk as [Hk1 Hk2]. destruct b as [|b]; [lia|]. destruct a as [|a]; cbn in Ha, Hb.
            + injection Ha as <-. rewrite Forall_forall in Hk2. apply Hk2. eapply nth_error_In; eauto.
            + eapply (IH a b); eauto. lia. }
        specialize (S _ _ _ _ _ Hr L H1 Hj). unfold elt in S. cbn in S.
        apply blt_not_le in S. contradiction.
    + cbn. apply beqb_neq. intro Hk.
      assert (G' : kv_get (kv_range v lo hi) k = None) by congruence.
      apply kv_get_none in G'. apply G'.
      rewrite <- Hk. apply in_map. eapply nth_error_In; eauto.
  - destruct (kv_get v k) as [x|] eqn:G; [|reflexivity].
    assert (Hin : In (k, x) (kv_range v lo hi)) by (apply kv_get_in; auto).
    apply F in Hin. exfalso. apply (blt_irrefl _ Hin).
Qed.
