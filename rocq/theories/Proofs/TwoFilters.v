(** Two filters in one store. *)

From Coq Require Import List NArith Bool Arith Lia.
From Verif.Model Require Import Bytes Go Pebble Bloom.
From Verif.Spec Require Import BloomSpec.
From Verif.Proofs Require Import BytesFacts PebbleFacts BloomFacts.
Import ListNotations.

Lemma range_prefix p k : in_range p (bump p) k = true -> exists x, k = p ++ x.
Proof.
  unfold in_range. rewrite andb_true_iff, bleb_le, bltb_lt. intros [LO HI].
  destruct p as [|p0 p1] using rev_ind; [exists k; reflexivity|]. clear IHp1.
  unfold bump in HI. rewrite rev_app_distr in HI. cbn [List.rev app] in HI. rewrite rev_involutive in HI.
  revert k LO HI. induction p1 as [|y p1 IH]; intros [|z k] LO HI; unfold ble, blt in *; cbn [bcmp app] in *.
  - now destruct LO.
  - assert (E : b2n z = b2n p0).
    { pose proof (b2n_lt p0) as B0. pose proof (b2n_lt z) as Bz.
      destruct (N.compare_spec (b2n p0) (b2n z)) as [E|E|E]; [congruence| |now destruct LO].
      rewrite b2n_n2b in HI. repeat rewrite N.mod_mod in HI by discriminate.
      destruct (N.eq_dec (b2n p0) 255) as [E5|N5]; [lia|]. rewrite N.mod_small in HI by lia.
      destruct (N.compare_spec (b2n z) (b2n p0 + 1)); [|lia|discriminate]. destruct k; discriminate. }
    apply b2n_inj in E. subst z. exists k. reflexivity.
  - now destruct LO.
  - destruct (N.compare_spec (b2n y) (b2n z)) as [E|E|E]; [|rewrite (proj2 (N.compare_gt_iff _ _)) in HI by lia; discriminate|now destruct LO].
    apply b2n_inj in E. subst z. rewrite N.compare_refl in HI. destruct (IH k LO HI) as [x ->]. exists x. reflexivity.
Qed.

Lemma own_prefix c k : own_key c k -> exists x, k = c_prefix c ++ x.
Proof. intros [->|(i & _ & ->)]; eexists; reflexivity. Qed.

Lemma app_prefix {A} (p q : list A) : forall x y, p ++ x = q ++ y -> (exists z, p = q ++ z) \/ exists z, q = p ++ z.
Proof.
  revert q. induction p as [|a p IH]; intros [|b q] x y E; cbn in E.
  - left. exists []. reflexivity.
  - right. exists (b :: q). reflexivity.
  - left. exists (a :: p). reflexivity.
  - injection E as -> E. destruct (IH q x y E) as [[z ->]|[z ->]]; [left|right]; exists z; reflexivity.
Qed.

Lemma apart_keys p q x y : prefixes_apart p q -> p ++ x <> q ++ y.
Proof. intros [A B] E. destruct (app_prefix p q x y E) as [[z Z]|[z Z]]; [now apply (A z)|now apply (B z)]. Qed.

Section Two.
  Variable cd : codec.
  Variable h : hashes.

  (** What a filter does leaves keys without its prefix alone. *)
  Lemma save_set_frame stop n s k v k' : k <> k' -> kv_get (fst (save_set db_storer stop n s k v)) k' = kv_get s k'.
  Proof.
    intros N. assert (E : kv_get (kv_set s k v) k' = kv_get s k').
    { rewrite kv_get_set. destruct (beqb k' k) eqn:E; auto. apply beqb_eq in E. congruence. }
    unfold save_set. destruct stop as [[n0 j]|]; [destruct (Nat.eqb n n0)|]; cbn; auto.
  Qed.

  Lemma save_buckets_frame c stop k bs : (forall x, k <> c_prefix c ++ x) -> forall n i s,
    kv_get (fst (fst (save_buckets db_storer cd c stop n s i bs))) k = kv_get s k.
  Proof.
    intros N. induction bs as [|b bs IH]; intros n i s; cbn [save_buckets fst]; auto.
    destruct (negb (bk_changes b) && bk_written b)%bool.
    - specialize (IH n (S i) s). destruct (save_buckets db_storer cd c stop n s (S i) bs) as [[s2 b2] r2]. exact IH.
    - pose proof (save_set_frame stop n s (bucket_key c i) (pack cd (c_m c, c_k c, bk_bits b)) k) as F.
      destruct (save_set _ _ _ _ _ _) as [s1 []]; cbn [fst] in *.
      + rewrite <- F by (intros E; symmetry in E; now apply N in E). specialize (IH (S n) (S i) s1).
        destruct (save_buckets db_storer cd c stop (S n) s1 (S i) bs) as [[s2 b2] r2]. exact IH.
      + apply F. intros E. symmetry in E. now apply N in E.
  Qed.

  Lemma step_frame c s bs o k : (forall x, k <> c_prefix c ++ x) ->
    kv_get (fst (fst (bloom_step db_storer cd h c s bs o))) k = kv_get s k.
  Proof.
    intros N. destruct o as [a|stop| | |]; cbn [bloom_step fst]; auto.
    - unfold bloom_save. pose proof (save_set_frame stop 0 s (count_key c) (be_bytes 8 (N.of_nat (c_n c))) k) as F.
      destruct (save_set db_storer stop 0 s (count_key c) (be_bytes 8 (N.of_nat (c_n c)))) as [s1 []]; cbn [fst] in *.
      2:{ apply F. intros E. symmetry in E. now apply N in E. }
      rewrite <- F by (intros E; symmetry in E; now apply N in E). apply save_buckets_frame, N.
    - destruct (bloom_load _ _ _ _ _). reflexivity.
    - unfold bloom_clear. destruct (c_prefix c) as [|p0 p] eqn:P; [reflexivity|]. rewrite <- P in *. cbn [db_storer st_del_range fst].
      unfold kv_del_range. rewrite (kv_get_filter_key (fun k => negb (in_range (c_prefix c) (bump (c_prefix c)) k))).
      destruct (in_range (c_prefix c) (bump (c_prefix c)) k) eqn:E; auto. apply range_prefix in E. destruct E as [x E]. now apply N in E.
  Qed.

  (** Two stores that agree on a filter's keys. *)
  Definition agree (c : config) (s t : kv) : Prop := forall k, own_key c k -> kv_get s k = kv_get t k.

  Lemma save_set_agree c stop n s t k v : agree c s t -> 
    agree c (fst (save_set db_storer stop n s k v)) (fst (save_set db_storer stop n t k v)) /\
    snd (save_set db_storer stop n s k v) = snd (save_set db_storer stop n t k v).
  Proof.
    intros A. assert (E : agree c (kv_set s k v) (kv_set t k v)).
    { intros x O. rewrite !kv_get_set. destruct (beqb x k); auto. }
    unfold save_set. destruct stop as [[n0 j]|]; [destruct (Nat.eqb n n0)|]; cbn; auto.
  Qed.

  Lemma save_buckets_agree c stop bs : forall n i s t, agree c s t ->
    agree c (fst (fst (save_buckets db_storer cd c stop n s i bs))) (fst (fst (save_buckets db_storer cd c stop n t i bs))) /\
    snd (fst (save_buckets db_storer cd c stop n s i bs)) = snd (fst (save_buckets db_storer cd c stop n t i bs)) /\
    snd (save_buckets db_storer cd c stop n s i bs) = snd (save_buckets db_storer cd c stop n t i bs).
  Proof.
    induction bs as [|b bs IH]; intros n i s t A; cbn [save_buckets fst snd]; auto.
    destruct (negb (bk_changes b) && bk_written b)%bool.
    - destruct (IH n (S i) s t A) as (X & Y & Z). destruct (save_buckets db_storer cd c stop n s (S i) bs) as [[s2 b2] r2], (save_buckets db_storer cd c stop n t (S i) bs) as [[t2 d2] q2].
      cbn [fst snd] in *. subst. auto.
    - pose proof (save_set_agree c stop n s t (bucket_key c i) (pack cd (c_m c, c_k c, bk_bits b)) A) as [A1 R1].
      destruct (save_set db_storer stop n s _ _) as [s1 o1], (save_set db_storer stop n t _ _) as [t1 o2]. cbn [fst snd] in *. subst o2.
      destruct o1; cbn [fst snd]; auto.
      destruct (IH (S n) (S i) s1 t1 A1) as (X & Y & Z).
      destruct (save_buckets db_storer cd c stop (S n) s1 (S i) bs) as [[s2 b2] r2], (save_buckets db_storer cd c stop (S n) t1 (S i) bs) as [[t2 d2] q2].
      cbn [fst snd] in *. subst. auto.
  Qed.

  Lemma step_agree c s t bs o : length bs = c_n c -> agree c s t ->
    agree c (fst (fst (bloom_step db_storer cd h c s bs o))) (fst (fst (bloom_step db_storer cd h c t bs o))) /\
    snd (fst (bloom_step db_storer cd h c s bs o)) = snd (fst (bloom_step db_storer cd h c t bs o)) /\
    snd (bloom_step db_storer cd h c s bs o) = snd (bloom_step db_storer cd h c t bs o).
  Proof.
    intros L A. destruct o as [a|stop| | |]; cbn [bloom_step fst snd]; auto.
    - unfold bloom_save. pose proof (save_set_agree c stop 0 s t (count_key c) (be_bytes 8 (N.of_nat (c_n c))) A) as [A1 R1].
      destruct (save_set db_storer stop 0 s _ _) as [s1 o1], (save_set db_storer stop 0 t _ _) as [t1 o2]. cbn [fst snd] in *. subst o2.
      destruct o1; cbn [fst snd]; auto. apply save_buckets_agree, A1.
    - assert (LD : bloom_load db_storer cd c s bs = bloom_load db_storer cd c t bs).
      { unfold bloom_load. change (st_get db_storer) with kv_get. rewrite (A (count_key c) (or_introl eq_refl)).
        destruct (kv_get t (count_key c)) as [v|]; auto. destruct (Nat.ltb _ _); auto. destruct (N.eqb _ _); auto.
        assert (G : forall bs i, i + length bs <= c_n c -> load_buckets db_storer cd c s i bs = load_buckets db_storer cd c t i bs).
        { clear bs L. induction bs as [|b bs IH]; intros i LI; cbn [load_buckets]; auto. cbn [length] in LI.
          change (st_get db_storer) with kv_get. rewrite (A (bucket_key c i)) by (right; exists i; split; [lia|auto]).
          destruct (kv_get t (bucket_key c i)); auto. destruct (unpack cd b0) as [[[m k] bits]|]; auto. destruct (_ && _)%bool; auto.
          rewrite IH by lia. reflexivity. }
        apply G. lia. }
      rewrite LD. destruct (bloom_load db_storer cd c t bs). auto.
    - unfold bloom_clear. destruct (c_prefix c) as [|p0 p] eqn:P; [auto|]. cbn [db_storer st_del_range fst snd]. split; auto.
      intros k O. unfold kv_del_range. rewrite !(kv_get_filter_key (fun k => negb (in_range (p0 :: p) (bump (p0 :: p)) k))). now rewrite (A k O).
  Qed.

  Lemma agree_trans c a b d : agree c a b -> agree c b d -> agree c a d.
  Proof. intros X Y k O. now rewrite (X k O), (Y k O). Qed.

  Lemma frame_agree c c' s bs o : prefixes_apart (c_prefix c) (c_prefix c') -> agree c' (fst (fst (bloom_step db_storer cd h c s bs o))) s.
  Proof.
    intros P k O. apply step_frame. intros x E. destruct (own_prefix c' k O) as [y ->]. symmetry in E. now apply (apart_keys _ _ _ _ P) in E.
  Qed.

  Lemma apart_sym p q : prefixes_apart p q -> prefixes_apart q p.
  Proof. intros [A B]. split; auto. Qed.

  Lemma two_apart c1 c2 : prefixes_apart (c_prefix c1) (c_prefix c2) -> forall os s s1 s2 b1 b2,
    length b1 = c_n c1 -> length b2 = c_n c2 -> agree c1 s s1 -> agree c2 s s2 ->
    let '(_, x1, x2) := two_run db_storer cd h c1 c2 s b1 b2 os in
    let '(_, y1, z1) := bloom_run db_storer cd h c1 s1 b1 (of_one true os) in
    let '(_, y2, z2) := bloom_run db_storer cd h c2 s2 b2 (of_one false os) in
    x1 = (y1, z1) /\ x2 = (y2, z2).
  Proof.
    intros P. induction os as [|[[] o] os IH]; intros s s1 s2 b1 b2 L1 L2 A1 A2.
    - cbn. auto.
    - cbn [two_run of_one filter fst Bool.eqb map snd bloom_run].
      destruct (step_agree c1 s s1 b1 o L1 A1) as (X & Y & Z). pose proof (frame_agree c1 c2 s b1 o P) as FR.
      pose proof (fun s' b' r' => step_length h c1 db_storer cd s b1 o s' b' r' L1) as SL.
      destruct (bloom_step db_storer cd h c1 s b1 o) as [[t bt] rt], (bloom_step db_storer cd h c1 s1 b1 o) as [[u bu] ru].
      cbn [fst snd] in *. subst bu ru. specialize (IH t u s2 bt b2 (SL t bt rt eq_refl) L2 X (agree_trans _ _ _ _ FR A2)).
      fold (of_one true os). fold (of_one false os).
      destruct (two_run db_storer cd h c1 c2 t bt b2 os) as [[w [x1 r1]] x2].
      destruct (bloom_run db_storer cd h c1 u bt (of_one true os)) as [[q1 y1] z1].
      destruct (bloom_run db_storer cd h c2 s2 b2 (of_one false os)) as [[q2 y2] z2].
      destruct IH as [E1 E2]. injection E1 as -> ->. auto.
    - cbn [two_run of_one filter fst Bool.eqb map snd bloom_run].
      destruct (step_agree c2 s s2 b2 o L2 A2) as (X & Y & Z). pose proof (frame_agree c2 c1 s b2 o (apart_sym _ _ P)) as FR.
      pose proof (fun s' b' r' => step_length h c2 db_storer cd s b2 o s' b' r' L2) as SL.
      destruct (bloom_step db_storer cd h c2 s b2 o) as [[t bt] rt], (bloom_step db_storer cd h c2 s2 b2 o) as [[u bu] ru].
      cbn [fst snd] in *. subst bu ru. specialize (IH t s1 u b1 bt L1 (SL t bt rt eq_refl) (agree_trans _ _ _ _ FR A1) X).
      fold (of_one true os). fold (of_one false os).
      destruct (two_run db_storer cd h c1 c2 t b1 bt os) as [[w x1] [x2 r2]].
      destruct (bloom_run db_storer cd h c1 s1 b1 (of_one true os)) as [[q1 y1] z1].
      destruct (bloom_run db_storer cd h c2 u bt (of_one false os)) as [[q2 y2] z2].
      destruct IH as [E1 E2]. injection E2 as -> ->. auto.
  Qed.

  (** A filter stored in the database never touches the rows and entries of tables. *)
  Lemma tables_untouched c s bs o t rest : c_prefix c = bloom_prefix -> t <> x00 ->
    kv_get (fst (fst (bloom_step db_storer cd h c s bs o))) (t :: rest) = kv_get s (t :: rest).
  Proof. intros P N. apply step_frame. intros x E. rewrite P in E. cbn in E. injection E as E _. congruence. Qed.
End Two.
