(** Facts about bloom filters and what they store. *)

From Coq Require Import List NArith Bool Arith Lia DecimalNat.
From Verif.Model Require Import Bytes Go Keys Pebble Table Bloom.
From Verif.Spec Require Import TableSpec BloomSpec.
From Verif.Proofs Require Import BytesFacts PebbleFacts.
Import ListNotations.

(** ** Bits *)
Lemma bit_test_in p bits : bit_test p bits = true <-> In p bits.
Proof.
  unfold bit_test. rewrite existsb_exists. split.
  - intros (x & I & E). apply N.eqb_eq in E. now subst.
  - intros I. exists p. split; auto. apply N.eqb_refl.
Qed.

Lemma bl_test_spec h m k bits key : bl_test h m k bits key = true <-> forall i, i < k -> In (location h m key i) bits.
Proof.
  unfold bl_test. rewrite forallb_forall. split.
  - intros H i L. apply bit_test_in, H, in_seq. lia.
  - intros H i I. apply in_seq in I. apply bit_test_in, H. lia.
Qed.

Lemma bl_test_incl h m k a b key : incl a b -> bl_test h m k a key = true -> bl_test h m k b key = true.
Proof. rewrite !bl_test_spec. intros I H i L. apply I, H, L. Qed.

Definition toa_step (h : hashes) (m : N) (key : bytes) : list N * bool -> nat -> list N * bool :=
  fun '(bits, present) i => let p := location h m key i in if bit_test p bits then (bits, present) else (p :: bits, false).

Lemma toa_fold h m key l : forall bits p bits' p', fold_left (toa_step h m key) l (bits, p) = (bits', p') ->
  incl bits bits' /\ (forall i, In i l -> In (location h m key i) bits') /\ (p' = true -> p = true /\ bits' = bits).
Proof.
  induction l as [|i l IH]; intros bits p bits' p' E.
  - cbn in E. injection E as <- <-. repeat split; auto using incl_refl. intros i [].
  - cbn [fold_left] in E. unfold toa_step at 2 in E. destruct (bit_test (location h m key i) bits) eqn:B.
    + destruct (IH _ _ _ _ E) as (I & L & P). split; auto. split; auto.
      intros j [<-|J]; auto. apply I. now apply bit_test_in.
    + destruct (IH _ _ _ _ E) as (I & L & P). split; [intros x X; apply I; now right|]. split.
      * intros j [<-|J]; auto. apply I. now left.
      * intros X. destruct (P X) as [X1 _]. discriminate X1.
Qed.

Lemma toa_spec h m k bits key bits' p : bl_test_or_add h m k bits key = (bits', p) ->
  incl bits bits' /\ bl_test h m k bits' key = true /\ (p = true -> bits' = bits).
Proof.
  intros E. destruct (toa_fold h m key (seq 0 k) bits true bits' p E) as (I & L & P). split; auto. split.
  - apply bl_test_spec. intros i Hi. apply L, in_seq. lia.
  - intros X. apply P, X.
Qed.

(** ** Buckets *)
Lemma set_bucket_length bs i b x : nth_error bs i = Some x -> length (set_bucket bs i b) = length bs.
Proof.
  intros E. assert (i < length bs) by (apply nth_error_Some; congruence).
  unfold set_bucket. rewrite app_length, firstn_length. cbn [length]. rewrite skipn_length. lia.
Qed.

Lemma set_bucket_nth bs : forall i b x j, nth_error bs i = Some x ->
  nth_error (set_bucket bs i b) j = if Nat.eqb j i then Some b else nth_error bs j.
Proof.
  induction bs as [|c bs IH]; intros [|i] b x [|j] E; cbn in E; try discriminate; cbn [Nat.eqb]; auto.
  change (set_bucket (c :: bs) (S i) b) with (c :: set_bucket bs i b). cbn. now apply IH with x.
Qed.

Section B.
  Variable h : hashes.
  Variable c : config.
  Hypothesis HH : hashes_ok h.
  Hypothesis CN : 0 < c_n c.

  Lemma new_length : length (new_bloom c) = c_n c.
  Proof. apply repeat_length. Qed.

  Lemma add_length bs k : length (bloom_add h c bs k) = length bs.
  Proof.
    unfold bloom_add. destruct (nth_error bs (h_bucket h k (c_n c))) eqn:E; auto. destruct (bl_test_or_add _ _ _ _ _).
    eapply set_bucket_length; eauto.
  Qed.

  Lemma bucket_there (bs : list bucket) k : length bs = c_n c -> exists b, nth_error bs (h_bucket h k (c_n c)) = Some b.
  Proof.
    intros L. destruct (nth_error bs (h_bucket h k (c_n c))) eqn:E; eauto. apply nth_error_None in E. pose proof (HH k (c_n c) CN). lia.
  Qed.

  Lemma add_may bs k : length bs = c_n c -> bloom_may h c (bloom_add h c bs k) k = true.
  Proof.
    intros L. destruct (bucket_there bs k L) as [b E]. unfold bloom_may, bloom_add. rewrite E.
    destruct (bl_test_or_add _ _ _ _ _) as [bits p] eqn:T. rewrite (set_bucket_nth _ _ _ _ _ E), Nat.eqb_refl.
    now apply toa_spec in T.
  Qed.

  (** Every bucket keeps its bits. *)
  Definition grows (bs bs' : list bucket) : Prop :=
    length bs' = length bs /\
    forall i b, nth_error bs i = Some b -> exists b', nth_error bs' i = Some b' /\ incl (bk_bits b) (bk_bits b').

  Lemma grows_refl bs : grows bs bs.
  Proof. split; auto. intros i b E. exists b. split; auto. apply incl_refl. Qed.

  Lemma grows_may bs bs' k : grows bs bs' -> bloom_may h c bs k = true -> bloom_may h c bs' k = true.
  Proof.
    intros [_ G]. unfold bloom_may. destruct (nth_error bs (h_bucket h k (c_n c))) as [b|] eqn:E; [|discriminate].
    destruct (G _ _ E) as (b' & E' & I). rewrite E'. now apply bl_test_incl.
  Qed.

  Lemma add_grows bs k : grows bs (bloom_add h c bs k).
  Proof.
    split; [apply add_length|]. intros i b E. unfold bloom_add. destruct (nth_error bs (h_bucket h k (c_n c))) as [b0|] eqn:E0.
    - destruct (bl_test_or_add _ _ _ _ _) as [bits p] eqn:T. rewrite (set_bucket_nth _ _ _ _ _ E0).
      destruct (Nat.eqb_spec i (h_bucket h k (c_n c))) as [->|]; eauto using incl_refl.
      eexists. split; eauto. cbn. rewrite E in E0. injection E0 as ->. now apply toa_spec in T.
    - exists b. split; auto. apply incl_refl.
  Qed.

  (** A bloom filter is a filter for tables as long as it has its buckets. *)
  Lemma may_new k : 0 < c_k c -> bloom_may h c (new_bloom c) k = false.
  Proof.
    intros K. unfold bloom_may, new_bloom. destruct (bucket_there (new_bloom c) k new_length) as [b E].
    unfold new_bloom in E. rewrite E. apply nth_error_In, repeat_spec in E. subst. cbn.
    destruct (bl_test h (c_m c) (c_k c) [] k) eqn:T; auto. rewrite bl_test_spec in T. destruct (T 0 K).
  Qed.

  (** ** Load and Save, whatever the store does *)
  Section Any.
    Context {S : Type}.
    Variable st : storer S.
    Variable cd : codec.

    Lemma load_go bs : forall s i bs' r, load_buckets st cd c s i bs = (bs', r) ->
      length bs' = length bs /\ r <> Panic /\
      forall j b, nth_error bs j = Some b -> exists b', nth_error bs' j = Some b' /\
        ((b' = b /\ r <> Ok tt) \/
         exists data bits, st_get st s (bucket_key c (i + j)) = Some data /\ unpack cd data = Some (c_m c, c_k c, bits) /\
           b' = Bucket (bk_changes b) true (bits ++ bk_bits b)).
    Proof.
      induction bs as [|b bs IH]; intros s i bs' r E; cbn in E.
      - injection E as <- <-. repeat split; auto; try discriminate. intros [|j] b E; discriminate.
      - assert (BAD : forall e, (b :: bs, Err e) = (bs', r) -> length bs' = length (b :: bs) /\ r <> Panic /\
          forall j b0, nth_error (b :: bs) j = Some b0 -> exists b', nth_error bs' j = Some b' /\
            ((b' = b0 /\ r <> Ok tt) \/
             exists data bits, st_get st s (bucket_key c (i + j)) = Some data /\ unpack cd data = Some (c_m c, c_k c, bits) /\
               b' = Bucket (bk_changes b0) true (bits ++ bk_bits b0))).
        { intros e X. injection X as <- <-. repeat split; try discriminate. intros j b0 X. exists b0. split; auto. left. split; auto. discriminate. }
        destruct (st_get st s (bucket_key c i)) as [data|] eqn:G; [|eapply BAD; eauto].
        destruct (unpack cd data) as [[[m k] bits]|] eqn:U; [|eapply BAD; eauto].
        destruct ((m =? c_m c)%N && Nat.eqb k (c_k c))%bool eqn:C; [|eapply BAD; eauto].
        apply andb_prop in C. destruct C as [C1 C2]. apply N.eqb_eq in C1. apply Nat.eqb_eq in C2. subst m k.
        destruct (load_buckets st cd c s (Datatypes.S i) bs) as [bs2 r2] eqn:L. injection E as <- <-.
        destruct (IH _ _ _ _ L) as (LE & NP & N). split; [cbn; now rewrite LE|]. split; auto.
        intros [|j] b0 X; cbn in X.
        + injection X as <-. eexists. split; [reflexivity|]. right. rewrite Nat.add_0_r. eauto.
        + destruct (N j b0 X) as (b' & X' & D). exists b'. split; auto. rewrite Nat.add_succ_r. exact D.
    Qed.

    Lemma load_spec s bs bs' r : bloom_load st cd c s bs = (bs', r) ->
      length bs' = length bs /\
      forall j b, nth_error bs j = Some b -> exists b', nth_error bs' j = Some b' /\
        ((b' = b /\ r <> Ok tt) \/
         exists data bits, st_get st s (bucket_key c j) = Some data /\ unpack cd data = Some (c_m c, c_k c, bits) /\
           b' = Bucket (bk_changes b) true (bits ++ bk_bits b)).
    Proof.
      unfold bloom_load. intros E.
      assert (BAD : forall x, x <> Ok tt -> (bs, x) = (bs', r) -> length bs' = length bs /\
        forall j b, nth_error bs j = Some b -> exists b', nth_error bs' j = Some b' /\
        ((b' = b /\ r <> Ok tt) \/
         exists data bits, st_get st s (bucket_key c j) = Some data /\ unpack cd data = Some (c_m c, c_k c, bits) /\
           b' = Bucket (bk_changes b) true (bits ++ bk_bits b))).
      { intros x NX X. injection X as <- <-. split; auto. intros j b X. exists b. auto. }
      destruct (st_get st s (count_key c)) as [v|]; [|eapply BAD; [|eauto]; discriminate].
      destruct (Nat.ltb _ _); [eapply BAD; [|eauto]; discriminate|].
      destruct (N.eqb _ _); [|eapply BAD; [|eauto]; discriminate].
      destruct (load_go _ _ _ _ _ E) as (A & _ & B). auto.
    Qed.

    Lemma load_grows s bs bs' r : bloom_load st cd c s bs = (bs', r) -> grows bs bs'.
    Proof.
      intros E. destruct (load_spec _ _ _ _ E) as [L N]. split; auto. intros i b X.
      destruct (N i b X) as (b' & X' & [[-> _]|(d & bits & _ & _ & ->)]); eexists; split; eauto using incl_refl. cbn.
      intros x I. apply in_or_app. auto.
    Qed.

    Lemma save_bits stop bs : forall n s i s' bs' r, save_buckets st cd c stop n s i bs = (s', bs', r) -> map bk_bits bs' = map bk_bits bs.
    Proof.
      induction bs as [|b bs IH]; intros n s i s' bs' r E; cbn in E.
      - injection E as <- <- <-. reflexivity.
      - destruct (negb (bk_changes b) && bk_written b)%bool.
        + destruct (save_buckets _ _ _ _ _ _ _ _) as [[s1 b1] r1] eqn:X. injection E as <- <- <-. cbn. f_equal. eauto.
        + destruct (save_set _ _ _ _ _ _) as [s1 []].
          * destruct (save_buckets _ _ _ _ _ _ _ _) as [[s2 b1] r1] eqn:X. injection E as <- <- <-. cbn. f_equal. eauto.
          * injection E as <- <- <-. reflexivity.
    Qed.

    Lemma bits_grows bs bs' : map bk_bits bs' = map bk_bits bs -> grows bs bs'.
    Proof.
      intros E. split.
      - apply (f_equal (@length _)) in E. now rewrite !map_length in E.
      - intros i b X. assert (Y : nth_error (map bk_bits bs') i = Some (bk_bits b)) by (rewrite E; now apply map_nth_error).
        destruct (nth_error bs' i) as [b'|] eqn:Z.
        + exists b'. split; auto. rewrite (map_nth_error _ _ _ Z) in Y. injection Y as ->. apply incl_refl.
        + apply nth_error_None in Z. assert (nth_error (map bk_bits bs') i = None) by (apply nth_error_None; now rewrite map_length). congruence.
    Qed.

    Lemma save_grows stop s bs s' bs' r : bloom_save st cd c stop s bs = (s', bs', r) -> grows bs bs'.
    Proof.
      unfold bloom_save. destruct (save_set _ _ _ _ _ _) as [s1 []]; intros E.
      - apply bits_grows. eapply save_bits; eauto.
      - injection E as <- <- <-. apply grows_refl.
    Qed.

    Lemma step_grows s bs o s' bs' r : o <> FNew -> bloom_step st cd h c s bs o = (s', bs', r) -> grows bs bs'.
    Proof.
      intros NN E. destruct o; cbn in E.
      - injection E as <- <- <-. apply add_grows.
      - eapply save_grows; eauto.
      - destruct (bloom_load _ _ _ _ _) as [b1 r1] eqn:L. injection E as <- <- <-. eapply load_grows; eauto.
      - destruct (bloom_clear _ _ _) as [s1 r1]. injection E as <- <- <-. apply grows_refl.
      - congruence.
    Qed.

    Lemma step_length s bs o s' bs' r : length bs = c_n c -> bloom_step st cd h c s bs o = (s', bs', r) -> length bs' = c_n c.
    Proof.
      intros L E. destruct o; try (rewrite <- L; eapply step_grows; [|exact E]; discriminate).
      cbn in E. injection E as <- <- <-. apply new_length.
    Qed.

    Lemma run_may os : forall s bs s' bs' rs k, length bs = c_n c -> bloom_run st cd h c s bs os = (s', bs', rs) ->
      (added os k \/ (~ In FNew os /\ bloom_may h c bs k = true)) -> bloom_may h c bs' k = true.
    Proof.
      induction os as [|o os IH]; intros s bs s' bs' rs k L E H; cbn in E.
      - injection E as <- <- <-. destruct H as [(a & b & X & _)|[_ H]]; auto. destruct a; discriminate.
      - destruct (bloom_step st cd h c s bs o) as [[s1 bs1] r1] eqn:ST.
        destruct (bloom_run st cd h c s1 bs1 os) as [[s2 bs2] rs2] eqn:RN. injection E as <- <- <-.
        apply (IH _ _ _ _ _ k (step_length _ _ _ _ _ _ L ST) RN).
        destruct H as [(a & b & X & NB)|[NI H]].
        + destruct a as [|o0 a]; cbn in X; injection X as -> ->.
          * right. split; auto. cbn in ST. injection ST as <- <- <-. now apply add_may.
          * left. exists a, b. auto.
        + right. split; [intro; apply NI; now right|]. eapply grows_may; eauto. eapply step_grows; [|exact ST].
          intros ->. apply NI. now left.
    Qed.
  End Any.
End B.

(** ** The keys of a stored filter *)
Lemma digits_inj u : forall v, digits u = digits v -> u = v.
Proof. induction u; intros []; cbn; intro H; try discriminate H; try reflexivity; injection H as H; f_equal; auto. Qed.

Lemma bucket_key_inj c i j : bucket_key c i = bucket_key c j -> i = j.
Proof. intros H. apply app_inv_head, digits_inj in H. now apply Unsigned.to_uint_inj. Qed.

Lemma count_not_bucket c i : count_key c <> bucket_key c i.
Proof. intros H. apply app_inv_head in H. destruct (Nat.to_uint i); discriminate. Qed.

(** ** Load and Save with a store that keeps keys apart *)
Section Store.
  Context {S : Type}.
  Variable st : storer S.
  Variable cd : codec.
  Variable h : hashes.
  Variable c : config.
  Hypothesis SO : storer_ok st c.
  Hypothesis CO : codec_ok cd.
  Hypothesis HH : hashes_ok h.
  Hypothesis CN : 0 < c_n c.

  Definition image_of (b : bucket) : bytes := pack cd (c_m c, c_k c, bk_bits b).

  Lemma own_bucket i : i < c_n c -> own_key c (bucket_key c i).
  Proof. right. eauto. Qed.
  Lemma own_count : own_key c (count_key c).
  Proof. now left. Qed.

  (** What a Save does to the bucket at [j]. *)
  Definition saved (r : res unit) (get get' : option bytes) (b b' : bucket) : Prop :=
    (b' = b /\ get' = get /\ (r = Ok tt -> bk_changes b = false /\ bk_written b = true)) \/
    (b' = Bucket false true (bk_bits b) /\ get' = Some (image_of b)) \/
    (b' = b /\ (bk_changes b = true \/ bk_written b = false) /\ r <> Ok tt /\ exists x, get' = Some (firstn x (image_of b))).

  Lemma save_go stop bs : forall n s i s' bs' r, i + length bs <= c_n c -> save_buckets st cd c stop n s i bs = (s', bs', r) ->
    (forall k, own_key c k -> (forall j, j < length bs -> k <> bucket_key c (i + j)) -> st_get st s' k = st_get st s k) /\
    (stop = None -> r = Ok tt) /\
    forall j b, nth_error bs j = Some b -> exists b', nth_error bs' j = Some b' /\
      saved r (st_get st s (bucket_key c (i + j))) (st_get st s' (bucket_key c (i + j))) b b'.
  Proof.
    induction bs as [|b bs IH]; intros n s i s' bs' r L E; cbn in E.
    - injection E as <- <- <-. repeat split; auto. intros [|j] b E; discriminate.
    - cbn [length] in L. assert (LI : i < c_n c) by lia.
      destruct (negb (bk_changes b) && bk_written b)%bool eqn:SK.
      + destruct (save_buckets _ _ _ _ _ _ _ _) as [[s1 b1] r1] eqn:X. injection E as <- <- <-.
        destruct (IH n s (Datatypes.S i) s1 b1 r1 ltac:(lia) X) as (FR & OKR & EA). split; [|split; auto].
        * intros k K N. apply FR; auto. intros j J. rewrite Nat.add_succ_comm. apply N. cbn [length]. lia.
        * apply andb_prop in SK. destruct SK as [C W]. apply negb_true_iff in C.
          intros [|j] b0 Y; cbn in Y.
          -- injection Y as <-. exists b. split; auto. left. rewrite Nat.add_0_r. repeat split; auto.
             apply FR; [now apply own_bucket|]. intros j J Q. apply bucket_key_inj in Q. lia.
          -- rewrite <- Nat.add_succ_comm. now apply EA.
      + destruct (save_set st stop n s (bucket_key c i) (image_of b)) as [s1 ok] eqn:SS. unfold image_of in SS. rewrite SS in E.
        fold (image_of b) in SS. unfold save_set in SS.
        assert (TODO : bk_changes b = true \/ bk_written b = false) by (destruct (bk_changes b), (bk_written b); auto; discriminate).
        assert (WR : (s1, ok) = (st_set st s (bucket_key c i) (image_of b), true) \/
                     exists x, (s1, ok) = (st_torn st s (bucket_key c i) (image_of b) x, false) /\ stop <> None).
        { destruct stop as [[n0 x]|]; [|now left]. destruct (Nat.eqb n n0); [right; exists x; split; [easy|discriminate]|now left]. }
        destruct WR as [WR|(x & WR & NS)]; injection WR as -> ->.
        * destruct (save_buckets _ _ _ _ _ _ _ _) as [[s2 b1] r1] eqn:X. injection E as <- <- <-.
          destruct (IH (Datatypes.S n) _ (Datatypes.S i) s2 b1 r1 ltac:(lia) X) as (FR & OKR & EA). split; [|split; auto].
          -- intros k K N. rewrite FR; auto.
             ++ apply (so_other _ _ SO); auto using own_bucket. specialize (N 0). rewrite Nat.add_0_r in N. intro Q. apply N; [cbn; lia|now symmetry].
             ++ intros j J. rewrite Nat.add_succ_comm. apply N. cbn [length]. lia.
          -- intros [|j] b0 Y; cbn in Y.
             ++ injection Y as <-. eexists. split; [reflexivity|]. right. left. split; auto. rewrite Nat.add_0_r.
                rewrite FR; [apply (so_same _ _ SO); now apply own_bucket|now apply own_bucket|].
                intros j J Q. apply bucket_key_inj in Q. lia.
             ++ destruct (EA j b0 Y) as (b' & Y' & D). exists b'. split; auto. rewrite <- Nat.add_succ_comm.
                assert (LJ : j < length bs) by (apply nth_error_Some; congruence).
                rewrite (so_other _ _ SO) in D; [exact D|now apply own_bucket|apply own_bucket; lia|].
                intros Q. apply bucket_key_inj in Q. lia.
        * injection E as <- <- <-. split; [|split].
          -- intros k K N. apply (so_torn_other _ _ SO); auto using own_bucket. specialize (N 0). rewrite Nat.add_0_r in N. intro Q. apply N; [cbn; lia|now symmetry].
          -- congruence.
          -- intros j b0 Y. exists b0. split; auto. destruct j as [|j]; cbn in Y.
             ++ injection Y as <-. rewrite Nat.add_0_r.
                destruct (so_torn _ _ SO s (bucket_key c i) (image_of b) x (own_bucket i LI)) as [Q|(y & Q)].
                ** left. repeat split; auto; discriminate.
                ** right. right. repeat split; auto; [discriminate|eauto].
             ++ left. split; auto. split; [|discriminate]. assert (LJ : j < length bs) by (apply nth_error_Some; congruence).
                apply (so_torn_other _ _ SO); [now apply own_bucket|apply own_bucket; lia|].
                intros Q. apply bucket_key_inj in Q. lia.
  Qed.

  Lemma save_spec stop s bs s' bs' r : length bs = c_n c -> bloom_save st cd c stop s bs = (s', bs', r) ->
    length bs' = length bs /\
    (stop = None -> r = Ok tt) /\
    (r = Ok tt -> st_get st s' (count_key c) = Some (be_bytes 8 (N.of_nat (c_n c)))) /\
    forall j b, nth_error bs j = Some b -> exists b', nth_error bs' j = Some b' /\
      saved r (st_get st s (bucket_key c j)) (st_get st s' (bucket_key c j)) b b'.
  Proof.
    intros L E. split; [eapply (save_grows c st cd); eauto|]. unfold bloom_save in E.
    destruct (save_set st stop 0 s (count_key c) (be_bytes 8 (N.of_nat (c_n c)))) as [s1 ok] eqn:SS. unfold save_set in SS.
    assert (WR : (s1, ok) = (st_set st s (count_key c) (be_bytes 8 (N.of_nat (c_n c))), true) \/
                 exists x, (s1, ok) = (st_torn st s (count_key c) (be_bytes 8 (N.of_nat (c_n c))) x, false) /\ stop <> None).
    { destruct stop as [[n0 x]|]; [|now left]. destruct (Nat.eqb 0 n0); [right; exists x; split; [easy|discriminate]|now left]. }
    destruct WR as [WR|(x & WR & NS)]; injection WR as -> ->.
    - destruct (save_go stop bs 1 _ 0 s' bs' r ltac:(cbn; lia) E) as (FR & OKR & EA). split; auto. split.
      + intros _. rewrite FR; [apply (so_same _ _ SO), own_count|apply own_count|]. intros j _. apply count_not_bucket.
      + intros j b Y. destruct (EA j b Y) as (b' & Y' & D). exists b'. split; auto. cbn [Nat.add] in D.
        assert (LJ : j < length bs) by (apply nth_error_Some; congruence).
        rewrite (so_other _ _ SO) in D; [exact D|apply own_count|apply own_bucket; lia|apply count_not_bucket].
    - injection E as <- <- <-. split; [congruence|]. split; [discriminate|]. intros j b Y. exists b. split; auto. left. split; auto.
      assert (LJ : j < length bs) by (apply nth_error_Some; congruence).
      split; [|discriminate]. apply (so_torn_other _ _ SO); [apply own_count|apply own_bucket; lia|apply count_not_bucket].
  Qed.

  (** What is stored for the bucket [i], if it can be loaded. *)
  Definition held (s : S) (i : nat) (bits : list N) : Prop :=
    exists data, st_get st s (bucket_key c i) = Some data /\ unpack cd data = Some (c_m c, c_k c, bits).

  (** Everything promised holds. *)
  Record inv (s : S) (bs : list bucket) (mem disk : bytes -> Prop) : Prop := {
    inv_len : length bs = c_n c;
    inv_mem : forall k, mem k -> bloom_may h c bs k = true;
    inv_disk : forall k bits, disk k -> held s (h_bucket h k (c_n c)) bits -> bl_test h (c_m c) (c_k c) bits k = true;
    inv_clean : forall i b bits, nth_error bs i = Some b -> bk_changes b = false -> bk_written b = true -> held s i bits -> incl (bk_bits b) bits;
    inv_fresh : forall i b, nth_error bs i = Some b -> bk_changes b = false -> bk_written b = false -> bk_bits b = []
  }.

  Lemma inv_new s mem disk bs : inv s bs mem disk -> inv s (new_bloom c) (fun _ => False) disk.
  Proof.
    intros I. constructor; try apply I.
    - apply new_length.
    - intros k [].
    - intros i b bits E. apply nth_error_In, repeat_spec in E. subst. discriminate.
    - intros i b E. apply nth_error_In, repeat_spec in E. now subst.
  Qed.

  Lemma inv_start s : inv s (new_bloom c) (fun _ => False) (fun _ => False).
  Proof.
    constructor.
    - apply new_length.
    - intros k [].
    - intros k bits [].
    - intros i b bits E. apply nth_error_In, repeat_spec in E. subst. discriminate.
    - intros i b E. apply nth_error_In, repeat_spec in E. now subst.
  Qed.

  Lemma held_image s i b bits : st_get st s (bucket_key c i) = Some (image_of b) -> held s i bits -> bits = bk_bits b.
  Proof.
    intros G (data & G' & U). rewrite G in G'. injection G' as <-. unfold image_of in U. rewrite (proj1 CO) in U.
    now injection U as <-.
  Qed.

  Lemma held_torn s i b bits x : st_get st s (bucket_key c i) = Some (firstn x (image_of b)) -> held s i bits -> bits = bk_bits b.
  Proof.
    intros G (data & G' & U). rewrite G in G'. injection G' as <-.
    destruct (Nat.lt_ge_cases x (length (image_of b))) as [LT|GE].
    - unfold image_of in *. rewrite (proj2 CO) in U by auto. discriminate.
    - rewrite firstn_all2 in U by lia. apply (held_image s i b bits); [rewrite G; now rewrite firstn_all2 by lia|].
      exists (image_of b). split; [|exact U]. rewrite G. now rewrite firstn_all2 by lia.
  Qed.

  Lemma mem_bucket bs k b : bloom_may h c bs k = true -> nth_error bs (h_bucket h k (c_n c)) = Some b ->
    bl_test h (c_m c) (c_k c) (bk_bits b) k = true.
  Proof. unfold bloom_may. intros H E. now rewrite E in H. Qed.

  Lemma inv_step s bs mem disk o s' bs' r : inv s bs mem disk -> bloom_step st cd h c s bs o = (s', bs', r) ->
    inv s' bs' (fst (promise (mem, disk) o r)) (snd (promise (mem, disk) o r)).
  Proof.
    intros I E. pose proof (inv_len _ _ _ _ I) as L.
    pose proof (step_length h c st cd s bs o s' bs' r L E) as L'.
    destruct o as [k|stop| | |]; cbn in E.
    - (* Add *)
      injection E as <- <- <-. cbn. constructor; auto.
      + intros x [X| ->]; [|now apply add_may]. eapply grows_may; [apply add_grows|]. now apply I.
      + apply I.
      + intros i b bits. unfold bloom_add. destruct (nth_error bs (h_bucket h k (c_n c))) as [b0|] eqn:E0; [|apply I].
        destruct (bl_test_or_add _ _ _ _ _) as [nb p] eqn:T. rewrite (set_bucket_nth _ _ _ _ _ E0).
        destruct (Nat.eqb_spec i (h_bucket h k (c_n c))) as [->|]; [|apply I].
        intros X. injection X as <-. cbn. intros C W. apply orb_false_iff in C. destruct C as [C1 C2]. apply negb_false_iff in C1.
        apply toa_spec in T. destruct T as (_ & _ & T). rewrite (T C1). now apply (inv_clean _ _ _ _ I).
      + intros i b. unfold bloom_add. destruct (nth_error bs (h_bucket h k (c_n c))) as [b0|] eqn:E0; [|apply I].
        destruct (bl_test_or_add _ _ _ _ _) as [nb p] eqn:T. rewrite (set_bucket_nth _ _ _ _ _ E0).
        destruct (Nat.eqb_spec i (h_bucket h k (c_n c))) as [->|]; [|apply I].
        intros X. injection X as <-. cbn. intros C W. apply orb_false_iff in C. destruct C as [C1 C2]. apply negb_false_iff in C1.
        apply toa_spec in T. destruct T as (_ & _ & T). rewrite (T C1). now apply (inv_fresh _ _ _ _ I _ _ E0).
    - (* Save *)
      destruct (save_spec _ _ _ _ _ _ L E) as (_ & _ & _ & SV).
      assert (M : forall k, mem k -> bloom_may h c bs' k = true).
      { intros k K. eapply grows_may; [eapply (save_grows c st cd); exact E|]. now apply I. }
      assert (CL : forall i b bits, nth_error bs' i = Some b -> bk_changes b = false -> bk_written b = true -> held s' i bits -> incl (bk_bits b) bits).
      { intros i b' bits X C W SD. destruct (nth_error bs i) as [b|] eqn:Y.
        2:{ apply nth_error_None in Y. assert (i < length bs') by (apply nth_error_Some; congruence). lia. }
        destruct (SV i b Y) as (b2 & X2 & D). rewrite X in X2. injection X2 as <-.
        destruct D as [(-> & G & _)|[(-> & G)|(-> & T & _ & x & G)]].
        - apply (inv_clean _ _ _ _ I i b); auto. unfold held in *. now rewrite <- G.
        - cbn. rewrite (held_image _ _ _ _ G SD). apply incl_refl.
        - destruct T; congruence. }
      assert (FR : forall i b, nth_error bs' i = Some b -> bk_changes b = false -> bk_written b = false -> bk_bits b = []).
      { intros i b' X C W. destruct (nth_error bs i) as [b|] eqn:Y.
        2:{ apply nth_error_None in Y. assert (i < length bs') by (apply nth_error_Some; congruence). lia. }
        destruct (SV i b Y) as (b2 & X2 & D). rewrite X in X2. injection X2 as <-.
        destruct D as [(-> & G & _)|[(-> & G)|(-> & T & _ & x & G)]]; try discriminate; now apply (inv_fresh _ _ _ _ I i). }
      (* a key of the filter, or of both, is covered by what is stored *)
      assert (ST : forall k bits, mem k -> (r = Ok tt \/ disk k) -> held s' (h_bucket h k (c_n c)) bits -> bl_test h (c_m c) (c_k c) bits k = true).
      { intros k bits K RD SD. destruct (bucket_there h c HH CN bs k L) as [b Y]. destruct (SV _ b Y) as (b' & Y' & D).
        pose proof (mem_bucket bs k b (inv_mem _ _ _ _ I k K) Y) as T.
        destruct D as [(-> & G & U)|[(-> & G)|(-> & _ & _ & x & G)]].
        - assert (SO' : held s (h_bucket h k (c_n c)) bits) by (unfold held in *; now rewrite <- G).
          destruct RD as [RO|DK]; [|now apply (inv_disk _ _ _ _ I)]. destruct (U RO) as [C W].
          eapply bl_test_incl; [|exact T]. eapply (inv_clean _ _ _ _ I _ b); eauto.
        - now rewrite (held_image _ _ _ _ G SD).
        - now rewrite (held_torn _ _ _ _ _ G SD). }
      destruct r as [[]|e| |]; cbn; constructor; auto; intros k bits; try (intros [K D]); eauto.
    - (* Load *)
      destruct (bloom_load st cd c s bs) as [b1 r1] eqn:LD. injection E as <- <- <-.
      destruct (load_spec c st cd _ _ _ _ LD) as [_ SP].
      assert (M : forall k, mem k -> bloom_may h c b1 k = true).
      { intros k K. eapply grows_may; [eapply load_grows; exact LD|]. now apply I. }
      assert (BK : forall i b', nth_error b1 i = Some b' -> exists b, nth_error bs i = Some b /\
        ((b' = b /\ r1 <> Ok tt) \/ exists bits, held s i bits /\ b' = Bucket (bk_changes b) true (bits ++ bk_bits b))).
      { intros i b' X. destruct (nth_error bs i) as [b|] eqn:Y.
        2:{ apply nth_error_None in Y. assert (i < length b1) by (apply nth_error_Some; congruence). lia. }
        exists b. split; auto. destruct (SP i b Y) as (b2 & X2 & D). rewrite X in X2. injection X2 as <-.
        destruct D as [D|(data & bits & G & U & EQ)]; auto. right. exists bits. split; auto. exists data. auto. }
      assert (CL : forall i b bits, nth_error b1 i = Some b -> bk_changes b = false -> bk_written b = true -> held s i bits -> incl (bk_bits b) bits).
      { intros i b' bits X C W SD. destruct (BK i b' X) as (b & Y & [[-> _]|(bits' & SD' & ->)]).
        - now apply (inv_clean _ _ _ _ I i b).
        - cbn in *. assert (bits' = bits) as ->.
          { destruct SD as (d1 & G1 & U1), SD' as (d2 & G2 & U2). congruence. }
          apply incl_app; [apply incl_refl|]. destruct (bk_written b) eqn:WB.
          + now apply (inv_clean _ _ _ _ I i b).
          + rewrite (inv_fresh _ _ _ _ I i b) by auto. apply incl_nil_l. }
      assert (FR : forall i b, nth_error b1 i = Some b -> bk_changes b = false -> bk_written b = false -> bk_bits b = []).
      { intros i b' X C W. destruct (BK i b' X) as (b & Y & [[-> _]|(bits' & SD' & ->)]); [|discriminate].
        now apply (inv_fresh _ _ _ _ I i). }
      assert (ND : r1 = Ok tt -> forall k, disk k -> bloom_may h c b1 k = true).
      { intros RO k DK. destruct (bucket_there h c HH CN b1 k L') as [b' Y']. unfold bloom_may. rewrite Y'.
        destruct (BK _ _ Y') as (b & Y & [[_ N]|(bits & SD & ->)]); [congruence|]. cbn.
        eapply bl_test_incl; [|apply (inv_disk _ _ _ _ I k bits DK SD)]. intros x X. apply in_or_app. auto. }
      destruct r1 as [[]|e| |]; cbn; constructor; auto; try apply I. intros k [K|K]; auto.
    - (* Clear *)
      destruct (bloom_clear st c s) as [s1 r1] eqn:CLR. injection E as <- <- <-.
      assert (G : forall i bits, i < c_n c -> held s1 i bits -> held s i bits).
      { intros i bits LI. unfold bloom_clear in CLR. destruct (c_prefix c) as [|p0 p]; [injection CLR as <- <-; auto|].
        destruct (st_del_range st s (p0 :: p) (bump (p0 :: p))) as [s2 ok] eqn:DR. injection CLR as <- <-.
        intros (data & GG & U). exists data. split; auto.
        destruct (so_del _ _ SO s (p0 :: p) (bump (p0 :: p)) (bucket_key c i) (own_bucket i LI)) as [Q|Q]; rewrite DR in Q; cbn in Q; congruence. }
      cbn. constructor; try apply I.
      + intros k bits DK SD. apply (inv_disk _ _ _ _ I k); auto.
      + intros i b bits X C W SD. apply (inv_clean _ _ _ _ I i b); auto. apply G; auto.
        rewrite <- L. apply nth_error_Some. congruence.
    - injection E as <- <- <-. cbn. eapply inv_new; eauto.
  Qed.

  Lemma inv_run os : forall s bs p s' bs' rs, inv s bs (fst p) (snd p) -> bloom_run st cd h c s bs os = (s', bs', rs) ->
    inv s' bs' (fst (promises p os rs)) (snd (promises p os rs)).
  Proof.
    induction os as [|o os IH]; intros s bs [mem disk] s' bs' rs I E; cbn in E.
    - injection E as <- <- <-. exact I.
    - destruct (bloom_step st cd h c s bs o) as [[s1 bs1] r1] eqn:ST.
      destruct (bloom_run st cd h c s1 bs1 os) as [[s2 bs2] rs2] eqn:RN. injection E as <- <- <-.
      cbn [promises]. eapply IH; [|exact RN]. eapply inv_step; eauto.
  Qed.

  Lemma kept_promises s os s' bs' rs k : bloom_run st cd h c s (new_bloom c) os = (s', bs', rs) ->
    fst (promises no_promise os rs) k -> bloom_may h c bs' k = true.
  Proof. intros E. apply (inv_run os s (new_bloom c) no_promise s' bs' rs (inv_start s) E). Qed.

  (** ** A completed Save can be loaded *)
  Definition loadable (s : S) (i : nat) : Prop := exists bits, held s i bits.

  Definition intact (s : S) (bs : list bucket) : Prop :=
    length bs = c_n c /\ forall i b, nth_error bs i = Some b -> bk_written b = true -> loadable s i.

  Lemma image_loadable s i b : st_get st s (bucket_key c i) = Some (image_of b) -> loadable s i.
  Proof. intros G. exists (bk_bits b), (image_of b). split; auto. apply (proj1 CO). Qed.

  Lemma intact_step s bs o s' bs' r : undisturbed o -> intact s bs -> bloom_step st cd h c s bs o = (s', bs', r) -> intact s' bs'.
  Proof.
    intros U [L IN] E. pose proof (step_length h c st cd s bs o s' bs' r L E) as L'. split; auto.
    destruct o as [k|[stop|]| | |]; cbn [bloom_step] in E; cbn in U; try contradiction.
    - injection E as <- <- <-. intros i b. unfold bloom_add. destruct (nth_error bs (h_bucket h k (c_n c))) as [b0|] eqn:E0; [|apply IN].
      destruct (bl_test_or_add _ _ _ _ _) as [nb p] eqn:T. rewrite (set_bucket_nth _ _ _ _ _ E0).
      destruct (Nat.eqb_spec i (h_bucket h k (c_n c))) as [->|]; [|apply IN]. intros X. injection X as <-. cbn. now apply IN.
    - destruct (save_spec _ _ _ _ _ _ L E) as (_ & OKR & _ & SV). intros i b' X W.
      destruct (nth_error bs i) as [b|] eqn:Y.
      2:{ apply nth_error_None in Y. assert (i < length bs') by (apply nth_error_Some; congruence). lia. }
      destruct (SV i b Y) as (b2 & X2 & D). rewrite X in X2. injection X2 as <-.
      destruct D as [(-> & G & _)|[(-> & G)|(_ & _ & N & _)]].
      + destruct (IN i b Y W) as (bits & SD). exists bits. unfold held in *. now rewrite G.
      + eapply image_loadable; eauto.
      + destruct (N (OKR eq_refl)).
    - destruct (bloom_load st cd c s bs) as [b1 r1] eqn:LD. injection E as <- <- <-.
      destruct (load_spec c st cd _ _ _ _ LD) as [_ SP]. intros i b' X W.
      destruct (nth_error bs i) as [b|] eqn:Y.
      2:{ apply nth_error_None in Y. assert (i < length b1) by (apply nth_error_Some; congruence). lia. }
      destruct (SP i b Y) as (b2 & X2 & D). rewrite X in X2. injection X2 as <-.
      destruct D as [[-> _]|(data & bits & G & UP & _)]; [now apply (IN i b)|]. exists bits, data. auto.
    - injection E as <- <- <-. intros i b X. apply nth_error_In, repeat_spec in X. now subst.
  Qed.

  Lemma intact_run os : forall s bs s' bs' rs, Forall undisturbed os -> intact s bs ->
    bloom_run st cd h c s bs os = (s', bs', rs) -> intact s' bs'.
  Proof.
    induction os as [|o os IH]; intros s bs s' bs' rs U I E; cbn in E.
    - injection E as <- <- <-. exact I.
    - destruct (bloom_step st cd h c s bs o) as [[s1 bs1] r1] eqn:ST.
      destruct (bloom_run st cd h c s1 bs1 os) as [[s2 bs2] rs2] eqn:RN. injection E as <- <- <-.
      inversion U; subst. eapply IH; [eauto| |exact RN]. eapply intact_step; eauto.
  Qed.

  Lemma load_succeeds bs : forall s i, (forall j, j < length bs -> loadable s (i + j)) -> snd (load_buckets st cd c s i bs) = Ok tt.
  Proof.
    induction bs as [|b bs IH]; intros s i H; cbn; auto.
    destruct (H 0 ltac:(cbn; lia)) as (bits & data & G & U). rewrite Nat.add_0_r in G. rewrite G, U, N.eqb_refl, Nat.eqb_refl. cbn [andb].
    specialize (IH s (Datatypes.S i)). destruct (load_buckets st cd c s (Datatypes.S i) bs) as [b2 r2]. cbn in *. apply IH.
    intros j J. specialize (H (Datatypes.S j)). rewrite Nat.add_succ_r in H. apply H. lia.
  Qed.

  Lemma save_load s bs s' bs' r bs2 : (N.of_nat (c_n c) < 2 ^ 64)%N -> intact s bs -> bloom_save st cd c None s bs = (s', bs', r) ->
    length bs2 = c_n c -> r = Ok tt /\ snd (bloom_load st cd c s' bs2) = Ok tt.
  Proof.
    intros BIG [L IN] E L2. destruct (save_spec _ _ _ _ _ _ L E) as (_ & OKR & CT & SV). specialize (OKR eq_refl). split; auto.
    unfold bloom_load. rewrite (CT OKR). rewrite be_bytes_length. cbn [Nat.ltb Nat.leb].
    rewrite firstn_all2 by (rewrite be_bytes_length; lia).
    rewrite be_val_bytes_small by (change (256 ^ N.of_nat 8)%N with (2 ^ 64)%N; exact BIG).
    rewrite N.eqb_refl. apply load_succeeds. rewrite L2. intros j J. cbn [Nat.add].
    destruct (nth_error bs j) as [b|] eqn:Y; [|apply nth_error_None in Y; lia].
    destruct (SV j b Y) as (b' & Y' & D). destruct D as [(_ & G & U)|[(_ & G)|(_ & _ & N & _)]].
    - destruct (U OKR) as [_ W]. destruct (IN j b Y W) as (bits & SD). exists bits. unfold held in *. now rewrite G.
    - eapply image_loadable; eauto.
    - destruct (N OKR).
  Qed.

  (** ** What makes Load fail *)
  Lemma load_needs s bs bs' : bloom_load st cd c s bs = (bs', Ok tt) ->
    (exists v, st_get st s (count_key c) = Some v /\ 8 <= length v /\ be_val (firstn 8 v) = N.of_nat (c_n c)) /\
    forall i, i < length bs -> loadable s i.
  Proof.
    clear CN. intros E. split.
    - unfold bloom_load in E. destruct (st_get st s (count_key c)) as [v|]; [|discriminate].
      destruct (Nat.ltb_spec (length v) 8) as [LT|GE]; [discriminate|].
      destruct (N.eqb_spec (be_val (firstn 8 v)) (N.of_nat (c_n c))) as [EQ|]; [|discriminate]. eauto.
    - intros i LI. destruct (load_spec c st cd _ _ _ _ E) as [_ SP].
      destruct (nth_error bs i) as [b|] eqn:Y; [|apply nth_error_None in Y; lia].
      destruct (SP i b Y) as (b' & _ & [[_ N]|(data & bits & G & U & _)]); [congruence|]. exists bits, data. auto.
  Qed.
  (** ** Added, saved, loaded *)
  Lemma run_app a b : forall s bs, bloom_run st cd h c s bs (a ++ b) =
    let '(s1, b1, r1) := bloom_run st cd h c s bs a in let '(s2, b2, r2) := bloom_run st cd h c s1 b1 b in (s2, b2, r1 ++ r2).
  Proof.
    induction a as [|o a IH]; intros s bs; cbn [app bloom_run].
    - destruct (bloom_run st cd h c s bs b) as [[s2 b2] r2]. reflexivity.
    - destruct (bloom_step st cd h c s bs o) as [[s1 b1] r1]. rewrite IH.
      destruct (bloom_run st cd h c s1 b1 a) as [[s2 b2] r2]. destruct (bloom_run st cd h c s2 b2 b) as [[s3 b3] r3]. reflexivity.
  Qed.

  Lemma mem_kept mid : forall (p : (bytes -> Prop) * (bytes -> Prop)) rs k, ~ In FNew mid -> fst p k -> fst (promises p mid rs) k.
  Proof.
    induction mid as [|o mid IH]; intros [mem disk] [|r rs] k N H; cbn [promises]; auto.
    apply IH; [intros I; apply N; now right|]. destruct o, r; cbn in *; auto. all: destruct N; now left.
  Qed.

  Lemma disk_kept post : forall (p : (bytes -> Prop) * (bytes -> Prop)) rs k, Forall not_save post -> snd p k -> snd (promises p post rs) k.
  Proof.
    induction post as [|o post IH]; intros [mem disk] [|r rs] k N H; cbn [promises]; auto. inversion N; subst.
    apply IH; auto. destruct o, r; cbn in *; auto; contradiction.
  Qed.

  Lemma saved_loaded s pre k mid post s' bs' rs : ~ In FNew mid -> Forall not_save post ->
    bloom_run st cd h c s (new_bloom c) (pre ++ (FAdd k :: mid) ++ [FSave None] ++ post ++ [FLoad]) = (s', bs', rs ++ [Ok tt]) ->
    bloom_may h c bs' k = true.
  Proof.
    intros NN NS E. rewrite run_app in E. destruct (bloom_run st cd h c s (new_bloom c) pre) as [[s1 b1] r1] eqn:E1.
    pose proof (inv_run pre _ _ no_promise _ _ _ (inv_start s) E1) as I1. set (p1 := promises no_promise pre r1) in *. clearbody p1.
    rewrite run_app in E. destruct (bloom_run st cd h c s1 b1 (FAdd k :: mid)) as [[s2 b2] r2] eqn:E2.
    pose proof (inv_run _ _ _ p1 _ _ _ I1 E2) as I2.
    assert (M2 : fst (promises p1 (FAdd k :: mid) r2) k).
    { cbn [bloom_run bloom_step] in E2. destruct (bloom_run st cd h c s1 (bloom_add h c b1 k) mid) as [[s3 b3] r3]. injection E2 as <- <- <-.
      cbn [promises]. apply mem_kept; auto. destruct p1. cbn. auto. }
    set (p2 := promises p1 (FAdd k :: mid) r2) in *. clearbody p2. clear E1 E2 I1.
    rewrite run_app in E. destruct (bloom_run st cd h c s2 b2 [FSave None]) as [[s3 b3] r3] eqn:E3.
    pose proof (inv_run _ _ _ p2 _ _ _ I2 E3) as I3.
    assert (D3 : snd (promises p2 [FSave None] r3) k).
    { cbn [bloom_run bloom_step] in E3. destruct (bloom_save st cd c None s2 b2) as [[s4 b4] r4] eqn:SV. injection E3 as <- <- <-.
      pose proof (inv_len _ _ _ _ I2) as L2. destruct (save_spec _ _ _ _ _ _ L2 SV) as (_ & OKR & _). rewrite (OKR eq_refl). destruct p2. exact M2. }
    set (p3 := promises p2 [FSave None] r3) in *. clearbody p3. clear E3 I2 M2.
    rewrite run_app in E. destruct (bloom_run st cd h c s3 b3 post) as [[s4 b4] r4] eqn:E4.
    pose proof (inv_run _ _ _ p3 _ _ _ I3 E4) as I4. pose proof (disk_kept post p3 r4 k NS D3) as D4.
    set (p4 := promises p3 post r4) in *. clearbody p4.
    destruct (bloom_run st cd h c s4 b4 [FLoad]) as [[s5 b5] r5] eqn:E5. injection E as <- <- ER.
    pose proof (inv_run _ _ _ p4 _ _ _ I4 E5) as I5.
    cbn [bloom_run bloom_step] in E5. destruct (bloom_load st cd c s4 b4) as [b6 r6]. injection E5 as <- <- <-.
    assert (R6 : r6 = Ok tt).
    { rewrite !app_assoc in ER. apply app_inj_tail in ER. tauto. }
    subst r6. apply (inv_mem _ _ _ _ I5). destruct p4. cbn. auto.
  Qed.

  (** Without Clear and interruptions a Save can be loaded by every later process. *)
  Lemma undisturbed_loads s os s1 bs1 rs s2 bs2 r : (N.of_nat (c_n c) < 2 ^ 64)%N -> Forall undisturbed os ->
    bloom_run st cd h c s (new_bloom c) os = (s1, bs1, rs) -> bloom_save st cd c None s1 bs1 = (s2, bs2, r) ->
    r = Ok tt /\ snd (bloom_load st cd c s2 (new_bloom c)) = Ok tt.
  Proof.
    intros B U E SV. eapply save_load; eauto; [|apply new_length]. eapply intact_run; eauto.
    split; [apply new_length|]. intros i b X. apply nth_error_In, repeat_spec in X. now subst.
  Qed.
End Store.

(** ** The database as a store *)
Lemma kv_get_filter_key (g : bytes -> bool) s k : kv_get (filter (fun e => g (fst e)) s) k = if g k then kv_get s k else None.
Proof.
  induction s as [|[k' v] s IH]; cbn [filter kv_get fst]; [now destruct (g k)|].
  destruct (beqb k k') eqn:K.
  - apply beqb_eq in K. subst k'. destruct (g k); cbn [kv_get]; [now rewrite beqb_refl|exact IH].
  - destruct (g k'); cbn [kv_get]; rewrite ?K; exact IH.
Qed.

Lemma db_storer_ok c : storer_ok db_storer c.
Proof.
  constructor; cbn; intros.
  - now rewrite kv_get_set, beqb_refl.
  - rewrite kv_get_set. destruct (beqb k' k) eqn:E; auto. apply beqb_eq in E. congruence.
  - now left.
  - reflexivity.
  - unfold kv_del_range. rewrite (kv_get_filter_key (fun k => negb (in_range lo hi k))). destruct (negb _); auto.
Qed.
