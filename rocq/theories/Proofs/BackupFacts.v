(** Dump, Restore and getIndexIDS. *)

From Coq Require Import List NArith Lia Bool Arith Sorting.Sorted Strings.String Strings.Byte Decimal DecimalN DecimalFacts.
From Verif.Model Require Import Bytes Go Keys Pebble Bloom Backup.
From Verif.Spec Require Import StoreSpec BackupSpec.
From Verif.Proofs Require Import BytesFacts PebbleFacts.
Import ListNotations.
Local Open Scope list_scope.

Lemma byte_eqb_eq a b : Byte.eqb a b = true <-> a = b.
Proof. split; [apply Byte.byte_dec_bl|apply Byte.byte_dec_lb]. Qed.

Lemma byte_eqb_neq a b : Byte.eqb a b = false <-> a <> b.
Proof. rewrite <- byte_eqb_eq. destruct (Byte.eqb a b); split; congruence. Qed.

(** Comparing the first two bytes. *)
Lemma ble2 t i a b r : ble [t; i] (a :: b :: r) <-> (b2n t < b2n a \/ b2n t = b2n a /\ b2n i <= b2n b)%N.
Proof.
  unfold ble. rewrite bcmp_cons. destruct (N.compare_spec (b2n t) (b2n a)) as [C|C|C].
  - rewrite bcmp_cons. destruct (N.compare_spec (b2n i) (b2n b)) as [D|D|D].
    + split; [lia|]. intros _. destruct r; cbn; congruence.
    + split; [lia|congruence].
    + split; [congruence|lia].
  - split; [lia|congruence].
  - split; [congruence|lia].
Qed.

Lemma ble_short t i a : ble [t; i] [a] <-> (b2n t < b2n a)%N.
Proof.
  unfold ble. rewrite bcmp_cons. destruct (N.compare_spec (b2n t) (b2n a)) as [C|C|C]; cbn; (split; [congruence || lia|lia || congruence]).
Qed.

(** ** getIndexIDS *)
Lemma seek_first (db : kv) pos e k : kv_ok db ->
  let it := it_seek_ge (PIter db pos e) k in
  (it_valid it = true /\ (exists v, kv_get db (it_key it) = Some v) /\ ble k (it_key it) /\
   forall k' v', kv_get db k' = Some v' -> ble k k' -> ble (it_key it) k') \/
  (it_valid it = false /\ forall k' v', kv_get db k' = Some v' -> ~ ble k k').
Proof.
  intros K. unfold it_seek_ge. cbn [pi_items pi_err]. pose proof (find_ge_spec db k 0) as F. destruct (find_ge db k 0) as [n|].
  - left. destruct F as (i & e' & -> & N & L & B). unfold it_valid, it_key, it_item. cbn [pi_pos pi_items Nat.add]. rewrite N. split; [reflexivity|].
    split; [|split; [exact L|]].
    + exists (snd e'). apply (kv_get_in db _ _ K). destruct e'. eapply nth_error_In; eauto.
    + intros k' v' G KL. apply (kv_get_in db _ _ K) in G. apply In_nth_error in G as [j J].
      destruct (lt_dec j i) as [X|X]; [exfalso; specialize (B j _ X J); cbn in B; apply (blt_not_le k' k); auto|].
      destruct (Nat.eq_dec j i) as [->|NE]; [assert (X' : Some e' = Some (k', v')) by (rewrite <- N; exact J); injection X' as ->; apply ble_refl|].
      apply blt_le. assert (LT : i < j) by lia. clear - K N J LT. revert i j N J LT. induction db as [|x l IH]; intros i j N J LT; [destruct i; easy|].
      apply kv_ok_cons in K as [K1 K2]. destruct i as [|i]; cbn in N.
      * injection N as ->. destruct j as [|j]; [lia|]. cbn in J. rewrite Forall_forall in K2. apply (K2 (k', v')). eapply nth_error_In; eauto.
      * destruct j as [|j]; [lia|]. apply (IH K1 i j); auto. lia.
  - right. split; [reflexivity|]. intros k' v' G L. apply (kv_get_in db _ _ K) in G. specialize (F _ G). cbn in F. apply (blt_not_le k' k); auto.
Qed.

Lemma seek_items it k : pi_items (it_seek_ge it k) = pi_items it.
Proof. reflexivity. Qed.

Lemma ids_loop_ok (db : kv) t : kv_ok db -> (forall k v, kv_get db k = Some v -> 2 <= List.length k) ->
  forall fuel it i, pi_items it = db -> (256 <= b2n i + N.of_nat fuel)%N ->
  exists l, ids_loop fuel it t i = Ok l /\ StronglySorted (fun i j => (b2n i < b2n j)%N) l /\
  (forall j, In j l <-> (b2n i <= b2n j)%N /\ exists rest v, kv_get db (t :: j :: rest) = Some v).
Proof.
  intros K LEN. induction fuel as [|fuel IH]; intros it i IT FU.
  - pose proof (b2n_lt i). lia.
  - cbn [ids_loop]. destruct it as [items pos e]. cbn [pi_items] in IT. subst items.
    destruct (seek_first db pos e [t; i] K) as [(V & [v G] & L & MIN)|(V & NONE)]; rewrite V.
    2: { exists []. split; [reflexivity|]. split; [constructor|]. intros j. split; [easy|]. intros (I & rest & v & G). exfalso.
         apply (NONE _ _ G). apply ble2. lia. }
    set (it := it_seek_ge (PIter db pos e) [t; i]) in *. pose proof (LEN _ _ G) as LN.
    destruct (it_key it) as [|a [|b rest]] eqn:KEY; cbn [List.length] in LN; try lia.
    destruct (Byte.eqb a t) eqn:AT.
    + apply byte_eqb_eq in AT. subst a. apply ble2 in L as [L|[_ L]]; [lia|].
      assert (M : forall j, (b2n i <= b2n j)%N -> (exists rest v, kv_get db (t :: j :: rest) = Some v) -> (b2n b <= b2n j)%N).
      { intros j I (rest' & v' & G'). assert (H : ble [t; i] (t :: j :: rest')) by (apply ble2; lia). specialize (MIN _ _ G' H).
        unfold ble in MIN. rewrite bcmp_cons, N.compare_refl, bcmp_cons in MIN. destruct (N.compare_spec (b2n b) (b2n j)); try lia; congruence. }
      destruct (Byte.eqb b xff) eqn:BF.
      * apply byte_eqb_eq in BF. subst b. exists [xff]. split; [reflexivity|]. split; [repeat constructor|]. intros j. split.
        -- intros [<-|[]]. split; [exact L|eauto].
        -- intros (I & H). specialize (M j I H). left. apply b2n_inj. pose proof (b2n_lt j). cbn in *. lia.
      * apply byte_eqb_neq in BF. assert (BB : (b2n b + 1 < 256)%N).
        { pose proof (b2n_lt b). assert (b2n b <> 255%N); [|lia]. intros E. apply BF. apply b2n_inj. rewrite E. reflexivity. }
        assert (SB : b2n (n2b (b2n b + 1)) = (b2n b + 1)%N) by (rewrite b2n_n2b; apply N.mod_small; auto).
        destruct (IH it (n2b (b2n b + 1)) (eq_refl : pi_items it = db)) as (l & E & S & IN); [rewrite SB; lia|].
        rewrite E. exists (b :: l). split; [reflexivity|]. split.
        -- constructor; auto. apply Forall_forall. intros j J. apply IN in J as [J _]. lia.
        -- intros j. cbn [In]. rewrite IN, SB. split.
           ++ intros [<-|[J H]]; [split; [lia|eauto]|]. split; [lia|exact H].
           ++ intros (I & H). specialize (M j I H). destruct (N.eq_dec (b2n b) (b2n j)) as [Q|Q]; [left; now apply b2n_inj|right; split; [lia|exact H]].
    + apply byte_eqb_neq in AT. exists []. split; [reflexivity|]. split; [constructor|]. intros j. split; [easy|]. intros (I & rest' & v' & G'). exfalso.
      apply ble2 in L. assert (TA : (b2n t < b2n a)%N).
      { destruct L as [L|[L _]]; [exact L|]. exfalso. apply AT. now apply b2n_inj. }
      assert (H : ble [t; i] (t :: j :: rest')) by (apply ble2; lia). specialize (MIN _ _ G' H).
      unfold ble in MIN. rewrite bcmp_cons in MIN. destruct (N.compare_spec (b2n a) (b2n t)); try lia. congruence.
Qed.

Lemma get_index_ids_ok db t : kv_ok db -> (forall k v, kv_get db k = Some v -> 2 <= List.length k) ->
  exists l, get_index_ids db t = Ok l /\ indexes_in_use db t l.
Proof.
  intros K LEN. destruct (ids_loop_ok db t K LEN 256 (PIter db PNone None) x01 eq_refl) as (l & E & S & IN); [cbn; lia|].
  exists l. split; [exact E|]. split; [exact S|]. intros i. rewrite IN. split.
  - intros [A B]. split; [|exact B]. intros ->. cbn in A. lia.
  - intros [A B]. split; [|exact B]. assert (b2n i <> 0%N); [intros Q; apply A; apply b2n_inj; rewrite Q; reflexivity|]. change (b2n x01) with 1%N. lia.
Qed.
