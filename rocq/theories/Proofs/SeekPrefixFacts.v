(** SeekPrefixGE shows exactly the keys with the prefix of the key given; property C83. *)

From Coq Require Import List NArith Lia Bool Arith Sorting.Sorted.
From Verif.Model Require Import Bytes Go Keys Pebble Index Table Scan Iter SeekPrefix.
From Verif.Spec Require Import KeySpec StoreSpec TableSpec IterSpec SplitSpec.
From Verif.Proofs Require Import BytesFacts KeysFacts PebbleFacts IterFacts ReadFacts IterApi SplitFacts.
Import ListNotations.

Definition has_prefix (p : bytes) (e : entry) : bool := match key_prefix_of (fst e) with Ok q => beqb q p | _ => false end.

Lemma split_ok k : splittable k -> exists p, key_prefix_of k = Ok p.
Proof. intros S. destruct (comparer k k S S) as (p & _ & _ & _ & H & _). eauto. Qed.

Lemma split_mono a b p q : splittable a -> splittable b -> key_prefix_of a = Ok p -> key_prefix_of b = Ok q -> ble a b -> ble p q.
Proof.
  intros A B HA HB L. destruct (comparer a b A B) as (pa & sa & pb & sb & E1 & E2 & _ & _ & _ & _ & M & _).
  rewrite HA in E1. rewrite HB in E2. injection E1 as <-. injection E2 as <-. exact (M L).
Qed.

(** From [k] on, the keys with its prefix come first. *)
Lemma block k p : splittable k -> key_prefix_of k = Ok p -> forall D : kv, kv_ok D -> fine D -> Forall (fun e => ble k (fst e)) D ->
  exists m, m <= length D /\ filter (has_prefix p) D = firstn m D /\
    (forall i e, nth_error D i = Some e -> i < m -> has_prefix p e = true) /\ (forall e, nth_error D m = Some e -> has_prefix p e = false).
Proof.
  intros SK KP. induction D as [|[a v] D IH]; intros OK FI GE.
  - exists 0. split; [auto|]. split; [reflexivity|]. split; [intros [|i] e H; discriminate|]. intros e H. discriminate.
  - inversion FI as [|? ? F1 F2]; subst. inversion GE as [|? ? G1 G2]; subst. cbn [fst] in F1, G1. cbn [filter].
    destruct (has_prefix p (a, v)) eqn:E.
    + destruct (IH (kv_ok_tail _ _ OK) F2 G2) as (m & LE & FE & H1 & H2). exists (S m). split; [cbn [length]; lia|].
      split; [cbn [firstn]; now rewrite FE|]. split; [|exact H2]. intros [|i] e H L; [injection H as <-; exact E|]. apply (H1 i e H). lia.
    + exists 0. split; [lia|]. split; [|split; [intros; lia|intros e H; injection H as <-; exact E]].
      cbn [firstn].
      assert (Z : forall e, In e D -> has_prefix p e = false).
      { intros [b w] I. unfold has_prefix in *. cbn [fst] in *.
        assert (SB : splittable b) by exact (proj1 (Forall_forall _ _) F2 _ I).
        destruct (split_ok a F1) as [pa PA]. destruct (split_ok b SB) as [pb PB]. rewrite PA in E. rewrite PB.
        destruct (beqb pb p) eqn:EQ; auto. apply beqb_eq in EQ. subst pb.
        assert (L1 : ble p pa) by exact (split_mono k a p pa SK F1 KP PA G1).
        assert (L2 : ble pa p) by (apply (split_mono a b pa p F1 SB PA PB), blt_le; eapply kv_ok_head; eauto).
        assert (pa = p) by now apply ble_antisym. subst pa. rewrite beqb_refl in E. discriminate. }
      clear -Z. induction D as [|e D IH]; auto. cbn [filter]. rewrite (Z e) by (left; reflexivity). apply IH. intros x I. apply Z. now right.
Qed.

(** Everything from the place that SeekGE finds. *)
Lemma find_ge_tail l k : kv_ok l -> match find_ge l k 0 with
  | Some j => j < length l /\ skipn j l = filter (fun e => bleb k (fst e)) l
  | None => filter (fun e => bleb k (fst e)) l = []
  end.
Proof.
  assert (X : forall n, kv_ok l -> match find_ge l k n with
    | Some j => n <= j /\ j - n < length l /\ skipn (j - n) l = filter (fun e => bleb k (fst e)) l
    | None => filter (fun e => bleb k (fst e)) l = [] end).
  { induction l as [|[a v] l IH]; intros n OK; cbn [find_ge filter]; [reflexivity|]. cbn [fst]. destruct (bleb k a) eqn:B.
    - split; [lia|]. rewrite Nat.sub_diag. split; [cbn [length]; lia|]. cbn [skipn]. f_equal.
      assert (Z : forall e, In e l -> bleb k (fst e) = true).
      { intros [b w] I. apply bleb_le. apply bleb_le in B. eapply ble_trans; [exact B|]. apply blt_le. eapply kv_ok_head; eauto. }
      clear -Z. induction l as [|e l IH]; auto. cbn [filter]. rewrite (Z e) by (left; reflexivity). f_equal. apply IH. intros x I. apply Z. now right.
    - specialize (IH (S n) (kv_ok_tail _ _ OK)). destruct (find_ge l k (S n)) as [j|]; [|exact IH]. destruct IH as (H1 & H2 & H3).
      split; [lia|]. split; [cbn [length]; lia|]. replace (j - n) with (S (j - S n)) by lia. exact H3. }
  intros OK. specialize (X 0 OK). destruct (find_ge l k 0) as [j|]; auto. rewrite Nat.sub_0_r in X. tauto.
Qed.

(** ** The walk *)
Section Walk.
  Context {lo hi k p : bytes} {L : kv} {OK : kv_ok L} {FI : fine L} {SK : splittable k} {KP : key_prefix_of k = Ok p}.
  Notation D := (filter (fun e => bleb k (fst e)) L).
  Notation V := (filter (has_prefix p) D).

  (** The iterator is on the [n]-th key of the prefix, or behind them. *)
  Definition on_nth (x : xiter) (n : nat) : Prop :=
    pi_items (x_it x) = L /\ pi_err (x_it x) = None /\ x_pre x = Some p /\ x_bad x = None /\
    (n < length V -> exists j, pi_pos (x_it x) = PAt j /\ skipn j L = skipn n D) /\ (length V <= n -> pi_pos (x_it x) = PEnd).

  Lemma D_block : exists m, m <= length D /\ V = firstn m D /\
    (forall i e, nth_error D i = Some e -> i < m -> has_prefix p e = true) /\ (forall e, nth_error D m = Some e -> has_prefix p e = false).
  Proof.
    apply (block k p SK KP).
    - now apply kv_filter_ok.
    - now apply fine_filter.
    - apply Forall_forall. intros e I. apply filter_In in I as [_ I]. now apply bleb_le.
  Qed.

  Lemma head_of {A} (l : list A) j : nth_error l j = hd_error (skipn j l).
  Proof. revert j. induction l as [|a l IH]; intros [|j]; auto. exact (IH j). Qed.

  Lemma skip_tl {A} (l : list A) j : skipn (S j) l = tl (skipn j l).
  Proof. revert j. induction l as [|a l IH]; intros [|j]; auto. exact (IH j). Qed.

  Lemma nth_V n : n < length V -> nth_error V n = nth_error D n.
  Proof.
    destruct D_block as (m & LE & E & _ & _). rewrite E. intros H. rewrite firstn_length in H.
    assert (G : forall (l : kv) i, n < i -> nth_error (firstn i l) n = nth_error l n).
    { clear. intros l i. revert l n. induction i as [|i IH]; intros l n H; [lia|]. destruct l as [|a l]; auto. destruct n as [|n]; auto. cbn. apply IH. lia. }
    apply G. lia.
  Qed.

  (** Arriving at place [j] of all keys, which is place [n] of those from [k] on, when all in front were of the prefix. *)
  Lemma arrive q n : n <= length V -> match q with PAt j => j < length L /\ skipn j L = skipn n D | PEnd => length D <= n | _ => False end ->
    exists i, x_check p (PIter L q None) = Ok i /\ on_nth (XIter i (Some p) None) n.
  Proof.
    intros LN H. destruct D_block as (m & LE & E & H1 & H2).
    assert (LV : length V = m) by (rewrite E, firstn_length; lia).
    unfold x_check, it_item. cbn [pi_pos pi_items]. destruct q as [|j| |]; try easy.
    - destruct H as [LJ H]. destruct (nth_error L j) as [[a v]|] eqn:N; [|apply nth_error_None in N; lia].
      assert (ND : nth_error D n = Some (a, v)).
      { rewrite head_of, <- H, <- head_of. exact N. }
      assert (SA : splittable a) by (apply nth_error_In in N; exact (proj1 (Forall_forall _ _) FI _ N)).
      destruct (split_ok a SA) as [pa PA]. rewrite PA. eexists. split; [reflexivity|].
      destruct (Nat.eq_dec n m) as [->|NE].
      + pose proof (H2 _ ND) as HP. unfold has_prefix in HP. cbn [fst] in HP. rewrite PA in HP. rewrite HP.
        split; [reflexivity|]. split; [reflexivity|]. split; [reflexivity|]. split; [reflexivity|]. split; [intros; lia|reflexivity].
      + pose proof (H1 n _ ND ltac:(lia)) as HP. unfold has_prefix in HP. cbn [fst] in HP. rewrite PA in HP. rewrite HP.
        split; [reflexivity|]. split; [reflexivity|]. split; [reflexivity|]. split; [reflexivity|]. split; [|intros; lia].
        intros _. exists j. split; [reflexivity|exact H].
    - eexists. split; [reflexivity|]. split; [reflexivity|]. split; [reflexivity|]. split; [reflexivity|]. split; [reflexivity|].
      split; [intros; lia|reflexivity].
  Qed.

  Lemma to_arrives i k' : pi_items i = L -> pi_err i = None -> (forall e, In e L -> bleb k' (fst e) = bleb k (fst e)) ->
    exists x, x_to p k' i = Ok x /\ on_nth x 0.
  Proof.
    intros I E H. unfold x_to, it_seek_ge. rewrite I, E. pose proof (find_ge_tail L k' OK) as F.
    assert (X : filter (fun e => bleb k' (fst e)) L = D) by (apply filter_ext_in; exact H).
    destruct (arrive (match find_ge L k' 0 with Some n => PAt n | None => PEnd end) 0) as (i' & -> & A); [lia| |eauto].
    destruct (find_ge L k' 0) as [j|]; [split; [exact (proj1 F)|exact (eq_trans (proj2 F) X)]|]. assert (Z : D = []) by exact (eq_trans (eq_sym X) F). rewrite Z. auto.
  Qed.

  Lemma seek_arrives i : pi_items i = L -> pi_err i = None -> Forall (fun e => ble lo (fst e) /\ blt (fst e) hi) L ->
    ble lo k \/ key_prefix_of lo = Ok p -> ble k hi \/ key_prefix_of hi = Ok p -> exists x, x_seek lo hi k i = Ok x /\ on_nth x 0.
  Proof.
    intros I E BD B1 B2. unfold x_seek. rewrite E, KP.
    destruct (bltb k lo) eqn:KL.
    - apply bltb_lt in KL. destruct B1 as [B1|B1]; [apply blt_not_le in KL; contradiction|]. rewrite B1, beqb_refl.
      apply to_arrives; auto. intros e Ie. destruct (proj1 (Forall_forall _ _) BD e Ie) as [G _].
      assert (bleb lo (fst e) = true) as -> by now apply bleb_le. symmetry. apply bleb_le. eapply ble_trans; [apply blt_le; exact KL|exact G].
    - destruct (bltb hi k) eqn:KH; [|apply to_arrives; auto].
      apply bltb_lt in KH. destruct B2 as [B2|B2]; [apply blt_not_le in KH; contradiction|]. rewrite B2, beqb_refl.
      apply to_arrives; auto. intros e Ie. destruct (proj1 (Forall_forall _ _) BD e Ie) as [_ G].
      assert (bleb hi (fst e) = false) as -> by now apply bleb_gt. symmetry. apply bleb_gt. eapply blt_trans; eauto.
  Qed.

  Lemma next_arrives x n : on_nth x n -> exists x', x_call lo hi (XCall INext) x = Ok x' /\ on_nth x' (S n).
  Proof.
    intros (I & E & P & B & H1 & H2). cbn [x_call]. rewrite B, P. destruct x as [[items q e] pre bad]. cbn [x_it pi_items pi_err pi_pos x_pre x_bad] in *. subst.
    destruct (le_lt_dec (length V) n) as [G|G].
    - rewrite (H2 G). cbn [it_next pi_pos]. unfold x_check, it_item. cbn [pi_pos]. eexists. split; [reflexivity|].
      split; [reflexivity|]. split; [reflexivity|]. split; [reflexivity|]. split; [reflexivity|]. split; [intros; lia|reflexivity].
    - destruct (H1 G) as (j & -> & HS). unfold it_next. cbn [pi_pos pi_items pi_err].
      assert (SS : skipn (S j) L = skipn (S n) D).
      { rewrite !skip_tl, HS. reflexivity. }
      destruct (arrive (if Nat.ltb (S j) (length L) then PAt (S j) else PEnd) (S n)) as (i' & -> & H); [lia| |eauto].
      destruct (Nat.ltb_spec (S j) (length L)); [split; [lia|exact SS]|].
      rewrite (skipn_all2 L) in SS by lia. symmetry in SS. apply (f_equal (@length _)) in SS. rewrite skipn_length in SS. cbn [length] in SS. lia.
  Qed.

  Lemma shows x n : on_nth x n -> it_item (x_it x) = nth_error V n /\ it_valid (x_it x) = Nat.ltb n (length V) /\ x_error x = None.
  Proof.
    intros (I & E & P & B & H1 & H2). unfold it_item, it_valid, x_error. rewrite I, E. destruct (Nat.ltb_spec n (length V)) as [G|G].
    - destruct (H1 G) as (j & -> & HS). rewrite nth_V by exact G. rewrite (head_of L), HS, <- head_of. auto.
    - rewrite (H2 G). split; [symmetry; now apply nth_error_None|auto].
  Qed.

  Lemma nexts n : forall x c, on_nth x c -> exists x', x_run lo hi (repeat (XCall INext) n) x = Ok (x', map (fun i => Nat.ltb i (length V)) (seq (S c) n)) /\
    on_nth x' (c + n).
  Proof.
    induction n as [|n IH]; intros x c H.
    - exists x. rewrite Nat.add_0_r. auto.
    - destruct (next_arrives x c H) as (x1 & E1 & H1). destruct (IH x1 (S c) H1) as (x2 & E2 & H2). exists x2.
      change (repeat (XCall INext) (S n)) with (XCall INext :: repeat (XCall INext) n). cbn [x_run]. rewrite E1, E2. cbn [seq map].
      destruct (shows x1 (S c) H1) as (_ & -> & _). split; [reflexivity|]. now rewrite Nat.add_succ_r.
  Qed.
End Walk.

(** ** All calls *)
Lemma check_items p i i' : x_check p i = Ok i' -> pi_items i' = pi_items i /\ pi_err i' = pi_err i.
Proof.
  unfold x_check. destruct (it_item i) as [[k v]|]; [|intros [= <-]; auto]. destruct (key_prefix_of k) as [q| | |]; try discriminate.
  intros [= <-]. destruct (beqb q p); auto.
Qed.

Lemma plain_items c i : pi_items (x_plain c i) = pi_items i /\ pi_err (x_plain c i) = pi_err i.
Proof. destruct i as [l [| | |] e], c; split; reflexivity. Qed.

Lemma to_items p k i x : x_to p k i = Ok x -> pi_items (x_it x) = pi_items i /\ pi_err (x_it x) = pi_err i.
Proof. unfold x_to. destruct (x_check p _) as [i'| | |] eqn:E; try discriminate. intros [= <-]. apply check_items in E. exact E. Qed.

Lemma call_items lo hi c x x' : x_call lo hi c x = Ok x' -> pi_items (x_it x') = pi_items (x_it x) /\ pi_err (x_it x') = pi_err (x_it x).
Proof.
  destruct c as [c|k]; cbn [x_call].
  - destruct c as [| | | |k|k]; [intros [= <-]; exact (plain_items IFirst (x_it x))|intros [= <-]; exact (plain_items ILast (x_it x))| |
      |intros [= <-]; exact (plain_items (ISeekGE k) (x_it x))|intros [= <-]; exact (plain_items (ISeekLT k) (x_it x))].
    + destruct (x_bad x); [intros [= <-]; auto|]. destruct (x_pre x) as [p|]; [|intros [= <-]; exact (plain_items INext (x_it x))].
      destruct (x_check p _) as [i| | |] eqn:E; try discriminate. intros [= <-]. apply check_items in E. cbn [x_it].
      destruct (plain_items INext (x_it x)) as [P1 P2]. cbn [x_plain] in P1, P2. rewrite P1, P2 in E. exact E.
    + destruct (x_bad x); [intros [= <-]; auto|]. destruct (x_pre x) as [p|]; [intros [= <-]; auto|intros [= <-]; exact (plain_items IPrev (x_it x))].
  - unfold x_seek. destruct (pi_err (x_it x)) eqn:EE; [intros [= <-]; auto|]. rewrite <- EE. destruct (key_prefix_of k) as [p| | |]; try discriminate.
    destruct (bltb k lo); [destruct (key_prefix_of lo) as [q| | |]; try discriminate; destruct (beqb p q); [apply to_items|intros [= <-]; auto]|].
    destruct (bltb hi k); [destruct (key_prefix_of hi) as [q| | |]; try discriminate; destruct (beqb p q); [apply to_items|intros [= <-]; auto]|]. apply to_items.
Qed.

Lemma run_items lo hi cs : forall x x' rs, x_run lo hi cs x = Ok (x', rs) -> pi_items (x_it x') = pi_items (x_it x) /\ pi_err (x_it x') = pi_err (x_it x).
Proof.
  induction cs as [|c cs IH]; intros x x' rs; cbn [x_run]; [intros [= <- <-]; auto|].
  destruct (x_call lo hi c x) as [x1| | |] eqn:E; try discriminate. destruct (x_run lo hi cs x1) as [[x2 rs2]| | |] eqn:R; try discriminate.
  intros [= <- <-]. apply call_items in E as [E1 E2]. apply IH in R as [R1 R2]. split; congruence.
Qed.

Lemma run_app lo hi cs ds : forall x x1 rs, x_run lo hi cs x = Ok (x1, rs) -> forall x2 rs2, x_run lo hi ds x1 = Ok (x2, rs2) ->
  x_run lo hi (cs ++ ds) x = Ok (x2, rs ++ rs2).
Proof.
  induction cs as [|c cs IH]; intros x x1 rs; cbn [x_run app]; [intros [= <- <-]; auto|].
  destruct (x_call lo hi c x) as [y| | |]; try discriminate. destruct (x_run lo hi cs y) as [[z zs]| | |] eqn:R; try discriminate.
  intros [= <- <-] x2 rs2 R2. rewrite (IH _ _ _ R _ _ R2). reflexivity.
Qed.

Definition keys_fine (c : xcall) : Prop := match c with XPrefix k => splittable k | XCall _ => True end.

Lemma check_runs p i : fine (pi_items i) -> exists i', x_check p i = Ok i'.
Proof.
  intros FI. unfold x_check. destruct (it_item i) as [[k v]|] eqn:E; [|eauto].
  assert (I : In (k, v) (pi_items i)) by (unfold it_item in E; destruct (pi_pos i); try discriminate; eapply nth_error_In; eauto).
  destruct (split_ok k (proj1 (Forall_forall _ _) FI _ I)) as [q ->]. eauto.
Qed.

Lemma to_runs p k i : fine (pi_items i) -> exists x, x_to p k i = Ok x.
Proof. intros FI. unfold x_to. destruct (check_runs p (it_seek_ge i k) FI) as [i' ->]. eauto. Qed.

Lemma call_runs lo hi c x : splittable lo -> splittable hi -> keys_fine c -> fine (pi_items (x_it x)) -> exists x', x_call lo hi c x = Ok x'.
Proof.
  intros SL SH K FI. destruct c as [c|k]; cbn [x_call keys_fine] in *.
  - destruct c; eauto.
    + destruct (x_bad x); eauto. destruct (x_pre x) as [p|]; eauto. destruct (check_runs p (it_next (x_it x))) as [i' ->]; eauto.
      destruct (plain_items INext (x_it x)) as [P1 _]. cbn [x_plain] in P1. now rewrite P1.
    + destruct (x_bad x); eauto. destruct (x_pre x); eauto.
  - unfold x_seek. destruct (pi_err (x_it x)); eauto. destruct (split_ok k K) as [p ->]. destruct (split_ok lo SL) as [pl ->]. destruct (split_ok hi SH) as [ph ->].
    destruct (bltb k lo); [destruct (beqb p pl); eauto using to_runs|]. destruct (bltb hi k); [destruct (beqb p ph); eauto using to_runs|]. now apply to_runs.
Qed.

Lemma run_runs lo hi cs : splittable lo -> splittable hi -> forall x, Forall keys_fine cs -> fine (pi_items (x_it x)) -> exists x' rs, x_run lo hi cs x = Ok (x', rs).
Proof.
  intros SL SH. induction cs as [|c cs IH]; intros x K FI; cbn [x_run]; [eauto|]. inversion K as [|? ? K1 K2]; subst.
  destruct (call_runs lo hi c x SL SH K1 FI) as [x1 E]. rewrite E. destruct (call_items _ _ _ _ _ E) as [I _].
  destruct (IH x1 K2) as (x2 & rs & ->); [now rewrite I|eauto].
Qed.

Lemma view_fine db ob : kv_ok db -> (forall k v, kv_get (view db ob) k = Some v -> splittable k) -> fine (view db ob).
Proof.
  intros OK H. apply Forall_forall. intros [k v] I. apply (H k v). apply kv_get_in; [now apply view_ok|exact I].
Qed.

Lemma prefix_never_panics db ob lo hi cs : kv_ok db -> readable ob -> (forall k v, kv_get (view db ob) k = Some v -> splittable k) ->
  splittable lo -> splittable hi -> (forall k, In (XPrefix k) cs -> splittable k) -> exists x rs, x_run lo hi cs (x_new (db_iter db ob lo hi)) = Ok (x, rs).
Proof.
  intros OK RD FI SL SH K. apply run_runs; auto.
  - apply Forall_forall. intros [c|k] I; cbn [keys_fine]; auto.
  - cbn [x_new x_it]. rewrite open_items by exact RD. apply fine_filter. now apply view_fine.
Qed.

Lemma seek_prefix db ob lo hi k : kv_ok db -> readable ob -> (forall k' v, kv_get (view db ob) k' = Some v -> splittable k') ->
  splittable k -> bcmp lo k <> Gt \/ key_prefix_of lo = key_prefix_of k -> bcmp k hi <> Gt \/ key_prefix_of hi = key_prefix_of k ->
  exists (p : bytes) (l : kv), key_prefix_of k = Ok p /\ StronglySorted (fun a b => bcmp (fst a) (fst b) = Lt) l /\
    (forall k' v, In (k', v) l <-> kv_get (view db ob) k' = Some v /\ bcmp lo k' <> Gt /\ bcmp k' hi = Lt /\ bcmp k k' <> Gt /\ key_prefix_of k' = Ok p) /\
    forall cs x0 rs0 n, x_run lo hi cs (x_new (db_iter db ob lo hi)) = Ok (x0, rs0) ->
      exists x, x_run lo hi (cs ++ XPrefix k :: repeat (XCall INext) n) (x_new (db_iter db ob lo hi)) =
                Ok (x, rs0 ++ map (fun i => Nat.ltb i (length l)) (seq 0 (S n))) /\
        it_item (x_it x) = nth_error l n /\ x_error x = None.
Proof.
  intros OK RD FI SK B1 B2. destruct (split_ok k SK) as [p KP]. rewrite KP in B1, B2. set (L := kv_range (view db ob) lo hi).
  assert (OV : kv_ok (view db ob)) by now apply view_ok.
  assert (OL : kv_ok L) by now apply kv_range_ok. assert (FL : fine L) by (apply fine_filter; now apply view_fine).
  assert (BD : Forall (fun e => ble lo (fst e) /\ blt (fst e) hi) L).
  { apply Forall_forall. intros e I. apply filter_In in I as [_ I]. unfold in_range in I. apply andb_true_iff in I as [I1 I2]. apply bleb_le in I1. apply bltb_lt in I2. auto. }
  exists p, (filter (has_prefix p) (filter (fun e => bleb k (fst e)) L)). split; [exact KP|].
  split; [apply kv_filter_ok, kv_filter_ok; exact OL|]. split.
  - intros k' v. rewrite !filter_In. unfold L, kv_range. rewrite filter_In. unfold has_prefix. cbn [fst].
    rewrite <- (kv_get_in _ k' v OV). unfold in_range. rewrite andb_true_iff, !bleb_le, bltb_lt. unfold ble, blt. split.
    + intros [[[H1 [H2 H3]] H4] H5]. destruct (split_ok k' (FI _ _ H1)) as [q Q]. rewrite Q in *. apply beqb_eq in H5 as ->. auto.
    + intros (H1 & H2 & H3 & H4 & H5). rewrite H5. rewrite beqb_refl. auto.
  - intros cs x0 rs0 n R. destruct (run_items _ _ _ _ _ _ R) as [I E]. cbn [x_new x_it] in I, E. rewrite open_items in I by exact RD. rewrite open_clean in E by exact RD.
    destruct (seek_arrives (lo:=lo) (hi:=hi) (OK:=OL) (FI:=FL) (SK:=SK) (KP:=KP) (x_it x0) I E BD B1 B2) as (x1 & E1 & H1).
    destruct (nexts (lo:=lo) (hi:=hi) (OK:=OL) (FI:=FL) (SK:=SK) (KP:=KP) n x1 0 H1) as (x2 & E2 & H2).
    destruct (shows (OK:=OL) (FI:=FL) (SK:=SK) (KP:=KP) x1 0 H1) as (_ & V1 & _). destruct (shows (OK:=OL) (FI:=FL) (SK:=SK) (KP:=KP) x2 _ H2) as (I2 & _ & N2).
    exists x2. split; [|split; [exact I2|exact N2]]. apply (run_app _ _ _ _ _ _ _ R). cbn [x_run x_call]. rewrite E1, E2, V1. reflexivity.
Qed.

(** ** Back to all keys *)
Lemma plain_call open c p : bi_call open c (BOne p) = Ok (BOne (x_plain c p), it_valid (x_plain c p)).
Proof. destruct c; reflexivity. Qed.

Lemma plain_run lo hi open cs : forall p, exists p', run_calls open cs (BOne p) = Ok (BOne p', snd (match x_run lo hi (map XCall cs) (x_new p) with Ok r => r | _ => (x_new p, []) end)) /\
  exists rs, x_run lo hi (map XCall cs) (x_new p) = Ok (x_new p', rs).
Proof.
  induction cs as [|c cs IH]; intros p; [exists p; cbn; eauto|]. destruct (IH (x_plain c p)) as (p' & R & rs & X). exists p'.
  cbn [run_calls map x_run]. rewrite plain_call, R, X. cbn [snd].
  assert (C : x_call lo hi (XCall c) (x_new p) = Ok (x_new (x_plain c p))) by (destruct c; reflexivity).
  rewrite C, X. cbn [snd x_new x_it]. eauto.
Qed.

Lemma plain_again lo hi open i cs x0 rs0 : x_run lo hi cs (x_new i) = Ok (x0, rs0) -> forall c ds, positions c = true ->
  exists i' rs, run_calls open (c :: ds) (BOne i) = Ok (BOne i', rs) /\
    x_run lo hi (cs ++ map XCall (c :: ds)) (x_new i) = Ok (x_new i', rs0 ++ rs).
Proof.
  intros R c ds P. destruct (run_items _ _ _ _ _ _ R) as [I E]. cbn [x_new x_it] in I, E.
  destruct (plain_run lo hi open ds (x_plain c i)) as (i' & R2 & rs & X). rewrite X in R2. cbn [snd] in R2.
  exists i', (it_valid (x_plain c i) :: rs). split; [cbn [run_calls]; now rewrite plain_call, R2|].
  apply (run_app _ _ _ _ _ _ _ R). cbn [map x_run].
  assert (C : x_call lo hi (XCall c) x0 = Ok (x_new (x_plain c i))).
  { destruct c; try discriminate P; cbn [x_call]; unfold x_new; destruct i as [l1 q1 e1], (x_it x0) as [l0 q0 e0]; cbn [pi_items pi_err] in I, E; subst; reflexivity. }
  rewrite C, X. reflexivity.
Qed.

(** Prev in prefix mode. *)
Lemma prefix_prev lo hi k i x : pi_err i = None -> x_seek lo hi k i = Ok x -> x_bad x = None ->
  exists x', x_call lo hi (XCall IPrev) x = Ok x' /\ it_valid (x_it x') = false /\ x_error x' <> None /\
    forall n, exists rs, x_run lo hi (repeat (XCall INext) n) x' = Ok (x', rs) /\ forall r, In r rs -> r = false.
Proof.
  intros E SE B. assert (P : exists p, x_pre x = Some p).
  { unfold x_seek in SE. rewrite E in SE. destruct (key_prefix_of k) as [p| | |]; try discriminate.
    assert (T : forall q, x_to p q i = Ok x -> exists p, x_pre x = Some p).
    { intros q. unfold x_to. destruct (x_check p _); try discriminate. intros [= <-]. cbn. eauto. }
    destruct (bltb k lo); [destruct (key_prefix_of lo) as [q| | |]; try discriminate; destruct (beqb p q); [eauto|injection SE as <-; cbn; eauto]|].
    destruct (bltb hi k); [destruct (key_prefix_of hi) as [q| | |]; try discriminate; destruct (beqb p q); [eauto|injection SE as <-; cbn; eauto]|]. eauto. }
  destruct P as [p P]. cbn [x_call]. rewrite B, P. eexists. split; [reflexivity|]. split; [reflexivity|]. split.
  - unfold x_error, x_fail. cbn. destruct (pi_err (x_it x)); discriminate.
  - induction n as [|n (rs & R & H)]; [exists []; split; [reflexivity|intros r []]|]. exists (false :: rs).
    change (repeat (XCall INext) (S n)) with (XCall INext :: repeat (XCall INext) n). cbn [x_run]. cbn [x_call x_fail x_bad]. fold (x_fail (x_it x) p). rewrite R.
    split; [reflexivity|]. intros r [<-|I]; auto.
Qed.

(** A key outside of the bounds that the bound does not share its prefix with. *)
Lemma prefix_outside lo hi k p q i : pi_err i = None -> key_prefix_of k = Ok p -> q <> p ->
  (bcmp k lo = Lt /\ key_prefix_of lo = Ok q) \/ (bcmp lo k <> Gt /\ bcmp hi k = Lt /\ key_prefix_of hi = Ok q) ->
  exists x, x_seek lo hi k i = Ok x /\ it_valid (x_it x) = false /\ x_error x <> None /\
    forall n, exists rs, x_run lo hi (repeat (XCall INext) n) x = Ok (x, rs) /\ forall r, In r rs -> r = false.
Proof.
  intros E K N H. exists (x_fail i p). split; [|split; [reflexivity|split]].
  - unfold x_seek. rewrite E, K. assert (NE : beqb p q = false) by (destruct (beqb p q) eqn:B; auto; apply beqb_eq in B; congruence).
    destruct H as [[B L]|[A [B L]]].
    + apply bltb_lt in B. now rewrite B, L, NE.
    + assert (bltb k lo = false) as -> by now apply bltb_ge. apply bltb_lt in B. now rewrite B, L, NE.
  - unfold x_error, x_fail. cbn. destruct (pi_err i); discriminate.
  - induction n as [|n (rs & R & Z)]; [exists []; split; [reflexivity|intros r []]|]. exists (false :: rs).
    change (repeat (XCall INext) (S n)) with (XCall INext :: repeat (XCall INext) n). cbn [x_run]. cbn [x_call x_fail x_bad]. fold (x_fail i p). rewrite R.
    split; [reflexivity|]. intros r [<-|I]; auto.
Qed.

(** A failed iterator. *)
Lemma prefix_failed lo hi e cs : exists x, x_run lo hi cs (x_new (err_iter e)) = Ok (x, map (fun _ => false) cs) /\ x_error x = Some e.
Proof.
  assert (X : forall cs q, (forall n, q <> PAt n) -> exists x, x_run lo hi cs (x_new (PIter [] q (Some e))) = Ok (x, map (fun _ => false) cs) /\ x_error x = Some e).
  { clear cs. induction cs as [|c cs IH]; intros q N; [eexists; split; reflexivity|].
    assert (C : exists q', x_call lo hi c (x_new (PIter [] q (Some e))) = Ok (x_new (PIter [] q' (Some e))) /\ forall n, q' <> PAt n).
    { destruct c as [[| | | |k|k]|k]; cbn [x_call x_new x_it x_plain x_bad x_pre]; unfold x_seek; cbn [pi_err];
        try (eexists; split; [reflexivity|discriminate]); [..|exists q; split; [reflexivity|exact N]];
        destruct q as [|n| |]; try (contradiction (N n eq_refl)); eexists; (split; [reflexivity|discriminate]). }
    destruct C as (q' & C & N'). destruct (IH q' N') as (x & R & E). exists x. cbn [x_run map]. rewrite C, R. split; [|exact E].
    destruct q' as [|n| |]; try reflexivity. contradiction (N' n eq_refl). }
  apply X. discriminate.
Qed.
