(** Facts about buffer pools. *)

From Coq Require Import List Bool Arith Lia Permutation.
From Verif.Model Require Import Go Pool.
Import ListNotations.

(** All buffers there are, free or in use. *)
Definition everything (s : pst) : list nat :=
  p_items (ps_pool s) ++ p_sync (ps_pool s) ++ ps_out s ++ concat (ps_iters s).

Definition inv (s : pst) : Prop :=
  NoDup (everything s) /\ (forall x, In x (everything s) -> x < p_next (ps_pool s)) /\
  length (p_items (ps_pool s)) <= p_size (ps_pool s).

Lemma remove_nth_perm i l x : nth_error l i = Some x -> Permutation l (x :: remove_nth i l).
Proof.
  unfold remove_nth. revert i. induction l as [|y l IH]; intros [|i] E; cbn in *; try discriminate.
  - injection E as <-. reflexivity.
  - rewrite (IH i E) at 1. cbn. apply perm_swap.
Qed.

Lemma remove_nth_incl i l : exists k, Permutation l (k ++ remove_nth i l).
Proof.
  destruct (nth_error l i) as [x|] eqn:E.
  - exists [x]. now apply remove_nth_perm.
  - exists []. apply nth_error_None in E. unfold remove_nth. rewrite firstn_all2, skipn_all2, app_nil_r by lia. reflexivity.
Qed.

Lemma last_split (l : list nat) x r : rev l = x :: r -> l = firstn (length l - 1) l ++ [x].
Proof.
  intros E. assert (E' : l = rev r ++ [x]) by (rewrite <- (rev_involutive l), E; reflexivity).
  subst l. rewrite app_length; cbn [length]. rewrite Nat.add_sub.
  rewrite firstn_app, firstn_all, Nat.sub_diag. cbn. now rewrite app_nil_r.
Qed.

(** A buffer handed out was free or is new. *)
Lemma get_perm pick p x p' rest : pool_get pick p = (x, p') ->
  NoDup (p_items p ++ p_sync p ++ rest) -> (forall y, In y (p_items p ++ p_sync p ++ rest) -> y < p_next p) ->
  NoDup (p_items p' ++ p_sync p' ++ x :: rest) /\
  (forall y, In y (p_items p' ++ p_sync p' ++ x :: rest) -> y < p_next p') /\
  length (p_items p') <= length (p_items p) /\ p_size p' = p_size p.
Proof.
  unfold pool_get, sync_get. destruct (rev (p_items p)) as [|y r] eqn:R.
  - assert (I : p_items p = []) by (rewrite <- (rev_involutive (p_items p)), R; reflexivity).
    destruct (nth_error (p_sync p) pick) as [z|] eqn:N; intros [= <- <-] D B; cbn [p_items p_sync p_next p_size].
    + apply remove_nth_perm in N. rewrite I in *. cbn [app] in *.
      assert (P : Permutation (p_sync p ++ rest) (remove_nth pick (p_sync p) ++ z :: rest)).
      { rewrite N at 1. cbn. apply Permutation_middle. }
      repeat split; auto.
      * now rewrite <- P.
      * intros y J. apply B. now rewrite P.
    + rewrite I in *. cbn [app] in *.
      assert (P : Permutation (p_sync p ++ p_next p :: rest) (p_next p :: p_sync p ++ rest)) by (symmetry; apply Permutation_middle).
      repeat split; auto.
      * rewrite P. constructor; auto. intros J. apply B in J. lia.
      * intros y J. rewrite P in J. destruct J as [<-|J]; [lia|]. apply B in J. lia.
  - apply last_split in R. intros [= <- <-] D B; cbn [p_items p_sync p_next p_size].
    set (fr := firstn (length (p_items p) - 1) (p_items p)) in *.
    assert (P : Permutation (p_items p ++ p_sync p ++ rest) (fr ++ p_sync p ++ y :: rest)).
    { rewrite R. rewrite <- app_assoc. apply Permutation_app_head. cbn [app]. apply (Permutation_middle (p_sync p) rest y). }
    repeat split; auto.
    + now rewrite <- P.
    + intros z J. apply B. now rewrite P.
    + rewrite R. rewrite app_length. lia.
Qed.

Lemma put_perm x p rest : Permutation (p_items (pool_put x p) ++ p_sync (pool_put x p) ++ rest) (p_items p ++ p_sync p ++ x :: rest).
Proof.
  unfold pool_put. destruct (length (p_items p) <? p_size p); cbn.
  - rewrite <- app_assoc. apply Permutation_app_head. cbn. apply Permutation_middle.
  - apply Permutation_app_head. apply Permutation_middle.
Qed.

Lemma put_bound x p : p_next (pool_put x p) = p_next p /\ p_size (pool_put x p) = p_size p /\
  (length (p_items p) <= p_size p -> length (p_items (pool_put x p)) <= p_size p).
Proof.
  unfold pool_put. destruct (Nat.ltb_spec (length (p_items p)) (p_size p)); cbn; auto.
  rewrite app_length; cbn. repeat split; lia.
Qed.

Lemma gets_perm n : forall picks p l p' rest, pool_gets n picks p = (l, p') ->
  NoDup (p_items p ++ p_sync p ++ rest) -> (forall y, In y (p_items p ++ p_sync p ++ rest) -> y < p_next p) ->
  NoDup (p_items p' ++ p_sync p' ++ l ++ rest) /\
  (forall y, In y (p_items p' ++ p_sync p' ++ l ++ rest) -> y < p_next p') /\
  length (p_items p') <= length (p_items p) /\ p_size p' = p_size p /\ length l = n.
Proof.
  induction n as [|n IH]; intros picks p l p' rest E D B; cbn in E.
  - injection E as <- <-. auto.
  - destruct (pool_get (hd 0 picks) p) as [x p1] eqn:E1, (pool_gets n (tl picks) p1) as [l2 p2] eqn:E2.
    injection E as <- <-. destruct (get_perm _ _ _ _ _ E1 D B) as (D1 & B1 & L1 & S1).
    destruct (IH _ _ _ _ (x :: rest) E2 D1 B1) as (D2 & B2 & L2 & S2 & N2).
    assert (P : Permutation (p_items p2 ++ p_sync p2 ++ (x :: l2) ++ rest) (p_items p2 ++ p_sync p2 ++ l2 ++ x :: rest)).
    { do 2 apply Permutation_app_head. cbn. apply Permutation_middle. }
    repeat split; try lia; try congruence.
    + now rewrite P.
    + intros y J. apply B2. now rewrite <- P.
    + cbn. lia.
Qed.

Lemma puts_perm l : forall p rest, Permutation (p_items (pool_puts l p) ++ p_sync (pool_puts l p) ++ rest) (p_items p ++ p_sync p ++ l ++ rest).
Proof.
  induction l as [|x l IH]; intros p rest; cbn [pool_puts fold_left]; auto.
  fold (pool_puts l (pool_put x p)). rewrite IH. rewrite put_perm. do 2 apply Permutation_app_head. reflexivity.
Qed.

Lemma puts_bound l : forall p, p_next (pool_puts l p) = p_next p /\ p_size (pool_puts l p) = p_size p /\
  (length (p_items p) <= p_size p -> length (p_items (pool_puts l p)) <= p_size p).
Proof.
  induction l as [|x l IH]; intros p; cbn [pool_puts fold_left]; auto. fold (pool_puts l (pool_put x p)).
  destruct (IH (pool_put x p)) as (A & B & C), (put_bound x p) as (D & E & F). rewrite A, B, D, E in *. auto.
Qed.

Lemma concat_nth (l : list (list nat)) h x : nth_error l h = Some x ->
  Permutation (concat l) (x ++ concat (firstn h l ++ [] :: skipn (S h) l)).
Proof.
  revert h. induction l as [|y l IH]; intros [|h] E; cbn in *; try discriminate.
  - injection E as <-. reflexivity.
  - rewrite (IH h E) at 1. rewrite !app_assoc. apply Permutation_app_tail. apply Permutation_app_comm.
Qed.

Lemma step_inv s o : inv s -> inv (pool_step s o).
Proof.
  intros (D & B & L). unfold everything in *. destruct o as [pick|i|n picks|h|i]; cbn [pool_step].
  - destruct (pool_get pick (ps_pool s)) as [x p] eqn:E.
    destruct (get_perm _ _ _ _ _ E D B) as (D1 & B1 & L1 & S1). unfold inv, everything; cbn [ps_pool ps_out ps_iters app].
    repeat split; auto. lia.
  - destruct (nth_error (ps_out s) i) as [x|] eqn:N; [|exact (conj D (conj B L))].
    apply remove_nth_perm in N. destruct (put_bound x (ps_pool s)) as (E1 & E2 & E3).
    assert (P : Permutation (p_items (ps_pool s) ++ p_sync (ps_pool s) ++ ps_out s ++ concat (ps_iters s))
      (p_items (pool_put x (ps_pool s)) ++ p_sync (pool_put x (ps_pool s)) ++ remove_nth i (ps_out s) ++ concat (ps_iters s))).
    { rewrite put_perm. do 2 apply Permutation_app_head. rewrite N at 1. reflexivity. }
    unfold inv, everything; cbn [ps_pool ps_out ps_iters]. rewrite E1, E2. repeat split; auto.
    + now rewrite <- P.
    + intros y J. apply B. now rewrite P.
  - destruct (pool_gets (2 * n) picks (ps_pool s)) as [l p] eqn:E.
    destruct (gets_perm _ _ _ _ _ _ E D B) as (D1 & B1 & L1 & S1 & _).
    assert (P : Permutation (p_items p ++ p_sync p ++ ps_out s ++ concat (ps_iters s ++ [l])) (p_items p ++ p_sync p ++ l ++ ps_out s ++ concat (ps_iters s))).
    { do 2 apply Permutation_app_head. rewrite concat_app; cbn. rewrite app_nil_r. rewrite app_assoc. apply Permutation_app_comm. }
    unfold inv, everything; cbn [ps_pool ps_out ps_iters]. repeat split.
    + now rewrite P.
    + intros y J. apply B1. now rewrite <- P.
    + lia.
  - destruct (nth_error (ps_iters s) h) as [l|] eqn:N; [|exact (conj D (conj B L))].
    apply concat_nth in N. destruct (puts_bound l (ps_pool s)) as (E1 & E2 & E3).
    set (its := firstn h (ps_iters s) ++ [] :: skipn (S h) (ps_iters s)) in *.
    assert (P : Permutation (p_items (ps_pool s) ++ p_sync (ps_pool s) ++ ps_out s ++ concat (ps_iters s))
      (p_items (pool_puts l (ps_pool s)) ++ p_sync (pool_puts l (ps_pool s)) ++ ps_out s ++ concat its)).
    { rewrite puts_perm. do 2 apply Permutation_app_head. rewrite N. rewrite !app_assoc. apply Permutation_app_tail. apply Permutation_app_comm. }
    unfold inv, everything; cbn [ps_pool ps_out ps_iters]. rewrite E1, E2. repeat split; auto.
    + now rewrite <- P.
    + intros y J. apply B. now rewrite P.
  - destruct (remove_nth_incl i (p_sync (ps_pool s))) as (k & K).
    assert (P : Permutation (p_items (ps_pool s) ++ p_sync (ps_pool s) ++ ps_out s ++ concat (ps_iters s))
      (k ++ p_items (ps_pool s) ++ remove_nth i (p_sync (ps_pool s)) ++ ps_out s ++ concat (ps_iters s))).
    { set (r := remove_nth i (p_sync (ps_pool s))) in *. rewrite K. rewrite !app_assoc. do 3 apply Permutation_app_tail. apply Permutation_app_comm. }
    unfold inv, everything; cbn [ps_pool ps_out ps_iters p_items p_sync p_next p_size]. repeat split; auto.
    + rewrite P in D. clear - D. induction k as [|a k IH]; auto. inversion D; auto.
    + intros y J. apply B. rewrite P. apply in_or_app. auto.
Qed.

Lemma fill_eq n : forall p, p_sync p = [] ->
  pool_fill n p = Pool (p_items p ++ seq (p_next p) n) (p_size p) [] (p_next p + n).
Proof.
  induction n as [|n IH]; intros p E; cbn [pool_fill seq].
  - rewrite app_nil_r, Nat.add_0_r. destruct p; cbn in *; now subst.
  - unfold sync_get. rewrite E. cbn [nth_error]. rewrite IH by reflexivity. cbn [p_items p_size p_next].
    rewrite <- app_assoc. cbn [app]. f_equal. lia.
Qed.

Lemma new_inv size : inv (PSt (new_pool size) [] []).
Proof.
  unfold new_pool. rewrite fill_eq by reflexivity. unfold inv, everything; cbn [ps_pool ps_out ps_iters p_items p_sync p_next p_size concat app].
  rewrite !app_nil_r. repeat split.
  - apply seq_NoDup.
  - intros x I. apply in_seq in I. lia.
  - rewrite seq_length. lia.
Qed.

Lemma run_inv os : forall s, inv s -> inv (pool_run s os).
Proof. induction os as [|o os IH]; intros s I; cbn; auto. apply IH. now apply step_inv. Qed.

(** ** What callers rely on *)

Lemma nodup_app_r (a b : list nat) : NoDup (a ++ b) -> NoDup b.
Proof. induction a as [|x a IH]; cbn; auto. intros H; inversion H; auto. Qed.

Lemma one_owner size os : let s := pool_run (PSt (new_pool size) [] []) os in
  NoDup (ps_out s ++ concat (ps_iters s)).
Proof.
  intros s. destruct (run_inv os _ (new_inv size)) as (D & _). fold s in D. unfold everything in D.
  now apply nodup_app_r, nodup_app_r in D.
Qed.

Lemma size_kept os : forall s, p_size (ps_pool (pool_run s os)) = p_size (ps_pool s).
Proof.
  induction os as [|o os IH]; intros s; cbn; auto. fold (pool_run (pool_step s o) os). rewrite IH.
  destruct o as [pick|i|n picks|h|i]; cbn [pool_step].
  - unfold pool_get, sync_get. destruct (rev (p_items (ps_pool s))); [destruct (nth_error (p_sync (ps_pool s)) pick)|]; reflexivity.
  - destruct (nth_error (ps_out s) i); auto. apply put_bound.
  - assert (G : forall n picks p, p_size (snd (pool_gets n picks p)) = p_size p).
    { clear. induction n as [|n IH]; intros picks p; cbn; auto.
      destruct (pool_get (hd 0 picks) p) as [x p1] eqn:E1, (pool_gets n (tl picks) p1) as [l2 p2] eqn:E2.
      specialize (IH (tl picks) p1). rewrite E2 in IH. cbn in *. rewrite IH.
      unfold pool_get, sync_get in E1. destruct (rev (p_items p)); [destruct (nth_error (p_sync p) (hd 0 picks))|]; injection E1 as <- <-; reflexivity. }
    specialize (G (2 * n) picks (ps_pool s)). destruct (pool_gets (2 * n) picks (ps_pool s)) as [l p]. exact G.
  - destruct (nth_error (ps_iters s) h); auto. apply puts_bound.
  - reflexivity.
Qed.

Lemma size_bound size os : let s := pool_run (PSt (new_pool size) [] []) os in length (p_items (ps_pool s)) <= size.
Proof.
  intros s. destruct (run_inv os _ (new_inv size)) as (_ & _ & L). fold s in L. unfold s in *. rewrite size_kept in L.
  assert (Z : p_size (ps_pool (PSt (new_pool size) [] [])) = size) by (cbn [ps_pool]; unfold new_pool; now rewrite fill_eq by reflexivity).
  lia.
Qed.

Lemma get_is_free size os pick : let s := pool_run (PSt (new_pool size) [] []) os in
  let x := fst (pool_get pick (ps_pool s)) in ~ In x (ps_out s) /\ ~ In x (concat (ps_iters s)).
Proof.
  intros s x. pose proof (one_owner size (os ++ [OGet pick])) as H. cbn zeta in H.
  unfold pool_run in H. rewrite fold_left_app in H. fold (pool_run (PSt (new_pool size) [] []) os) in H. fold s in H.
  cbn [fold_left pool_step] in H. unfold x. destruct (pool_get pick (ps_pool s)) as [y p]. cbn [ps_out ps_iters fst app] in *.
  inversion H as [|? ? N _]; subst. split; intros I; apply N; apply in_or_app; auto.
Qed.

Lemma iter_get_is_free size os n picks : let s := pool_run (PSt (new_pool size) [] []) os in
  let l := fst (pool_gets (2 * n) picks (ps_pool s)) in
  NoDup l /\ length l = 2 * n /\ forall x, In x l -> ~ In x (ps_out s) /\ ~ In x (concat (ps_iters s)).
Proof.
  intros s l. destruct (run_inv os _ (new_inv size)) as (D & B & L). fold s in D, B. unfold everything in *.
  unfold l. destruct (pool_gets (2 * n) picks (ps_pool s)) as [l' p] eqn:E. cbn [fst].
  destruct (gets_perm _ _ _ _ _ _ E D B) as (D1 & _ & _ & _ & N).
  apply nodup_app_r, nodup_app_r in D1.
  assert (Dis : forall a b : list nat, NoDup (a ++ b) -> forall x, In x a -> ~ In x b).
  { clear. induction a as [|y a IH]; intros b H x I J; [destruct I|]. inversion H as [|? ? N H']; subst.
    destruct I as [->|I]; [apply N; apply in_or_app; auto|exact (IH b H' x I J)]. }
  split; [|split; auto].
  - clear - D1. induction l' as [|y l IH]; [constructor|]. inversion D1 as [|? ? N H']; subst. constructor; auto. intros I; apply N; apply in_or_app; auto.
  - intros x I. pose proof (Dis _ _ D1 x I). split; intros J; apply H; apply in_or_app; auto.
Qed.

(** Closing again puts nothing back. *)
Lemma close_again s h : h < length (ps_iters s) -> pool_step (pool_step s (OClose h)) (OClose h) = pool_step s (OClose h).
Proof.
  intros L. cbn [pool_step]. destruct (nth_error (ps_iters s) h) as [l|] eqn:N; [|apply nth_error_None in N; lia].
  cbn [ps_iters]. assert (FL : length (firstn h (ps_iters s)) = h) by (rewrite firstn_length; lia).
  rewrite nth_error_app2, FL, Nat.sub_diag by lia. cbn [nth_error ps_pool ps_out]. unfold pool_puts. cbn [fold_left].
  f_equal. rewrite firstn_app, FL, Nat.sub_diag, firstn_O, app_nil_r. rewrite firstn_firstn, Nat.min_id.
  f_equal. f_equal. rewrite skipn_app, FL. rewrite skipn_all2 by lia. replace (S h - h) with 1 by lia. reflexivity.
Qed.

(** Putting a buffer back twice gives it to two callers. *)
Lemma double_put : exists p0 x, pool_get 0 (new_pool 1) = (x, p0) /\
  let p := pool_put x (pool_put x p0) in fst (pool_get 0 p) = x /\ fst (pool_get 0 (snd (pool_get 0 p))) = x.
Proof. do 2 eexists. split; [reflexivity|]. split; reflexivity. Qed.
