(** Facts about concurrent Adds. *)

From Coq Require Import List NArith Bool Arith Lia.
From Verif.Model Require Import Bytes Go Bloom BloomRace.
From Verif.Spec Require Import BloomSpec.
From Verif.Proofs Require Import BytesFacts BloomFacts.
Import ListNotations.

Lemma same_test p a b : same_bits a b -> bit_test p a = bit_test p b.
Proof.
  intros S. destruct (bit_test p a) eqn:A, (bit_test p b) eqn:B; auto.
  - apply bit_test_in, S, bit_test_in in A. congruence.
  - apply bit_test_in, S, bit_test_in in B. congruence.
Qed.

Lemma same_refl a : same_bits a a.
Proof. intros x. reflexivity. Qed.

Lemma same_may h c a b k : same_filter a b -> bloom_may h c a k = bloom_may h c b k.
Proof.
  intros S. unfold bloom_may. generalize (h_bucket h k (c_n c)). induction S as [|x y a b X S IH]; intros [|i]; cbn; auto.
  destruct X as (_ & _ & X). unfold bl_test.
  assert (E : forall l, forallb (fun i => bit_test (location h (c_m c) k i) (bk_bits x)) l = forallb (fun i => bit_test (location h (c_m c) k i) (bk_bits y)) l).
  { induction l as [|i l IHl]; cbn; auto. now rewrite IHl, (same_test _ _ _ X). }
  apply E.
Qed.

Lemma put_word_same p bits : same_bits (put_word p (p :: word_of p bits) bits) (p :: bits).
Proof.
  intros x. unfold put_word, word_of. cbn. rewrite in_app_iff, !filter_In. destruct (x / 64 =? p / 64)%N; cbn; intuition congruence.
Qed.

Lemma put_word_from p bits0 bits : same_bits bits0 bits -> same_bits (p :: bits0) (put_word p (p :: word_of p bits) bits).
Proof. intros S x. rewrite (put_word_same p bits x). cbn [In]. now rewrite (S x). Qed.

Section One.
  Variable h : hashes.
  Variable m : N.
  Variable k : nat.
  Variable key : bytes.

  Fixpoint go (n : nat) (x : bucket * apc) : bucket * apc :=
    match n with O => x | S n' => go n' (astep h m k key (fst x) (snd x)) end.

  Lemma go_add a b x : go (a + b) x = go b (go a x).
  Proof. revert x. induction a as [|a IH]; intros x; cbn; auto. Qed.

  Lemma go_done n b : go n (b, ADone) = (b, ADone).
  Proof. induction n as [|n IH]; cbn; auto. Qed.

  (** Left alone, the call ends with this bucket. *)
  Definition ends (b : bucket) (pc : apc) (b' : bucket) : Prop := exists n, go n (b, pc) = (b', ADone).

  Lemma ends_step b pc b' : ends b pc b' -> ends (fst (astep h m k key b pc)) (snd (astep h m k key b pc)) b'.
  Proof.
    intros (n & E). exists n. rewrite <- surjective_pairing.
    assert (X : go (S n) (b, pc) = (b', ADone)) by (replace (S n) with (n + 1) by lia; rewrite go_add, E; reflexivity).
    exact X.
  Qed.

  Lemma ends_done b b' : ends b ADone b' -> b = b'.
  Proof. intros (n & E). rewrite go_done in E. congruence. Qed.

  Lemma loop_ends n : forall i b present bits0, i + S n = k -> same_bits bits0 (bk_bits b) ->
    exists steps bits, let '(bits', p') := fold_left (toa_step h m key) (seq i (S n)) (bits0, present) in
      go steps (b, ATest i present) = (Bucket (bk_changes b) (bk_written b) bits, AFlag p') /\ same_bits bits' bits.
  Proof.
    induction n as [|n IH]; intros i b present bits0 L S.
    - cbn [seq fold_left]. unfold toa_step. rewrite (same_test _ _ _ S).
      assert (NX : forall p, anext k i p = AFlag p) by (intros p; unfold anext; destruct (Nat.ltb_spec (Datatypes.S i) k); auto; lia).
      destruct (bit_test (location h m key i) (bk_bits b)) eqn:T.
      + exists 1, (bk_bits b). cbn. rewrite T, NX. destruct b; auto.
      + exists 3, (put_word (location h m key i) (location h m key i :: word_of (location h m key i) (bk_bits b)) (bk_bits b)).
        cbn [go fst snd astep]. rewrite T. cbn [go fst snd astep]. rewrite NX. split; auto. now apply put_word_from.
    - change (seq i (Datatypes.S (Datatypes.S n))) with (i :: seq (Datatypes.S i) (Datatypes.S n)). cbn [fold_left]. unfold toa_step at 2. rewrite (same_test _ _ _ S).
      assert (NX : forall p, anext k i p = ATest (Datatypes.S i) p) by (intros p; unfold anext; destruct (Nat.ltb_spec (Datatypes.S i) k); auto; lia).
      destruct (bit_test (location h m key i) (bk_bits b)) eqn:T.
      + destruct (IH (Datatypes.S i) b present bits0 ltac:(lia) S) as (st & bits & H).
        exists (1 + st), bits. rewrite go_add. cbn [go fst snd astep]. rewrite T, NX. exact H.
      + set (b2 := Bucket (bk_changes b) (bk_written b) (put_word (location h m key i) (location h m key i :: word_of (location h m key i) (bk_bits b)) (bk_bits b))).
        destruct (IH (Datatypes.S i) b2 false (location h m key i :: bits0) ltac:(lia)) as (st & bits & H).
        { now apply put_word_from. }
        exists (3 + st), bits. rewrite go_add. cbn [go fst snd astep]. rewrite T. cbn [fst snd astep]. rewrite NX. exact H.
  Qed.

  (** Alone, the steps are the whole Add. *)
  Lemma start_ends b : exists b', ends b (astart k) b' /\
    let '(bits, present) := bl_test_or_add h m k (bk_bits b) key in same_bucket (Bucket (negb present || bk_changes b) (bk_written b) bits) b'.
  Proof.
    assert (FL : forall b p, go 2 (b, AFlag p) = (Bucket (negb p || bk_changes b) (bk_written b) (bk_bits b), ADone)).
    { intros b0 []; reflexivity. }
    assert (KC : k = 0 \/ exists n, k = S n) by (destruct k; eauto). destruct KC as [K|[n K]].
    - assert (AS : astart k = AFlag true) by (now rewrite K).
      assert (TA : bl_test_or_add h m k (bk_bits b) key = (bk_bits b, true)) by (now rewrite K). rewrite AS, TA.
      exists (Bucket (bk_changes b) (bk_written b) (bk_bits b)). split; [exists 2; apply (FL b true)|]. cbn. repeat split; auto.
    - assert (AS : astart k = ATest 0 true) by (now rewrite K).
      assert (TA : bl_test_or_add h m k (bk_bits b) key = fold_left (toa_step h m key) (seq 0 (S n)) (bk_bits b, true)) by (now rewrite K).
      destruct (loop_ends n 0 b true (bk_bits b) ltac:(lia) (same_refl _)) as (st & bits & H). rewrite AS, TA.
      destruct (fold_left (toa_step h m key) (seq 0 (S n)) (bk_bits b, true)) as [bits' p']. destruct H as [H1 H2].
      exists (Bucket (negb p' || bk_changes b) (bk_written b) bits). split.
      + exists (st + 2). rewrite go_add, H1. apply FL.
      + split; [reflexivity|]. split; [reflexivity|exact H2].
  Qed.
End One.

Lemma replace_nth {A} (l : list A) g x y j : nth_error l g = Some y ->
  nth_error (firstn g l ++ x :: skipn (S g) l) j = if Nat.eqb j g then Some x else nth_error l j.
Proof.
  revert g j. induction l as [|a l IH]; intros [|g] [|j] E; cbn in E; try discriminate; cbn [Nat.eqb]; auto.
  cbn. now apply IH.
Qed.

Section Race.
  Variable h : hashes.
  Variable c : config.
  Variable keys : list bytes.
  Hypothesis HH : hashes_ok h.
  Hypothesis CN : 0 < c_n c.
  Hypothesis ND : NoDup (map (fun k => h_bucket h k (c_n c)) keys).
  Notation buck k := (h_bucket h k (c_n c)).

  Lemma buck_inj g g' k k' : nth_error keys g = Some k -> nth_error keys g' = Some k' -> buck k = buck k' -> g = g'.
  Proof.
    intros E E' B. assert (L : g < length (map (fun k => buck k) keys)) by (rewrite map_length; apply nth_error_Some; congruence).
    apply (proj1 (NoDup_nth_error _) ND g g' L). now rewrite (map_nth_error _ _ _ E), (map_nth_error _ _ _ E'), B.
  Qed.

  (** Each call is on its way to its result; the other buckets are as before. *)
  Definition on_way (bs0 bs : list bucket) (pcs : list apc) : Prop :=
    length bs = c_n c /\ length pcs = length keys /\
    (forall g key, nth_error keys g = Some key -> exists b0 b pc b', nth_error bs0 (buck key) = Some b0 /\ nth_error bs (buck key) = Some b /\
        nth_error pcs g = Some pc /\ ends h (c_m c) (c_k c) key b pc b' /\
        let '(bits, present) := bl_test_or_add h (c_m c) (c_k c) (bk_bits b0) key in same_bucket (Bucket (negb present || bk_changes b0) (bk_written b0) bits) b') /\
    (forall i, (forall key, In key keys -> buck key <> i) -> nth_error bs i = nth_error bs0 i).

  Lemma way_start bs : length bs = c_n c -> on_way bs bs (map (fun _ => astart (c_k c)) keys).
  Proof.
    intros L. split; auto. split; [apply map_length|]. split; auto. intros g key E.
    destruct (bucket_there h c HH CN bs key L) as [b B]. destruct (start_ends h (c_m c) (c_k c) key b) as (b' & X & Y).
    exists b, b, (astart (c_k c)), b'. repeat split; auto. now apply map_nth_error with (f := fun _ => astart (c_k c)) in E.
  Qed.

  Lemma way_step bs0 bs pcs g : on_way bs0 bs pcs -> on_way bs0 (fst (race_step h c keys (bs, pcs) g)) (snd (race_step h c keys (bs, pcs) g)).
  Proof.
    intros W. pose proof W as (L & LP & K & O). unfold race_step. destruct (nth_error keys g) as [key|] eqn:E; [|exact W].
    destruct (K g key E) as (b0 & b & pc & b' & B0 & B & P & X & Y). rewrite P, B.
    pose proof (ends_step _ _ _ _ _ _ _ X) as X'. destruct (astep h (c_m c) (c_k c) key b pc) as [b2 pc2]. cbn [fst snd] in *.
    split; [erewrite set_bucket_length by eauto; auto|]. split.
    { assert (g < length pcs) by (apply nth_error_Some; congruence). rewrite app_length, firstn_length. cbn [length]. rewrite skipn_length. lia. }
    split.
    - intros g' key' E'. rewrite (set_bucket_nth _ _ _ _ _ B), (replace_nth _ _ _ _ _ P).
      destruct (Nat.eqb_spec g' g) as [->|NE].
      + rewrite E in E'. injection E' as <-. rewrite Nat.eqb_refl. exists b0, b2, pc2, b'. auto.
      + destruct (Nat.eqb_spec (buck key') (buck key)) as [BE|BN].
        * destruct NE. eapply buck_inj; eauto.
        * destruct (K g' key' E') as (c0 & c1 & pc' & c' & C0 & C1 & P' & Z). exists c0, c1, pc', c'. auto.
    - intros i N. rewrite (set_bucket_nth _ _ _ _ _ B). destruct (Nat.eqb_spec i (buck key)) as [->|]; [|now apply O].
      destruct (N key); auto. eapply nth_error_In; eauto.
  Qed.

  Lemma way_run sched : forall bs0 bs pcs, on_way bs0 bs pcs ->
    on_way bs0 (fst (fold_left (race_step h c keys) sched (bs, pcs))) (snd (fold_left (race_step h c keys) sched (bs, pcs))).
  Proof.
    induction sched as [|g sched IH]; intros bs0 bs pcs W; cbn [fold_left]; auto.
    rewrite (surjective_pairing (race_step h c keys (bs, pcs) g)). apply IH. now apply way_step.
  Qed.
End Race.

(** Adding keys of other buckets leaves a bucket alone. *)
Lemma fold_add_other h c ks : forall bs i, (forall k, In k ks -> h_bucket h k (c_n c) <> i) ->
  nth_error (fold_left (bloom_add h c) ks bs) i = nth_error bs i.
Proof.
  induction ks as [|k ks IH]; intros bs i N; cbn; auto. rewrite IH by (intros; apply N; now right).
  unfold bloom_add. destruct (nth_error bs (h_bucket h k (c_n c))) as [b|] eqn:E; auto.
  destruct (bl_test_or_add _ _ _ _ _) as [bits p]. rewrite (set_bucket_nth _ _ _ _ _ E).
  destruct (Nat.eqb_spec i (h_bucket h k (c_n c))) as [->|]; auto. destruct (N k); auto. now left.
Qed.

Lemma fold_add_length h c ks : forall bs, length (fold_left (bloom_add h c) ks bs) = length bs.
Proof. induction ks as [|k ks IH]; intros bs; cbn; auto. now rewrite IH, bloom_add_length. Qed.

Lemma fold_add_own h c ks : NoDup (map (fun k => h_bucket h k (c_n c)) ks) -> forall bs k b, In k ks -> nth_error bs (h_bucket h k (c_n c)) = Some b ->
  nth_error (fold_left (bloom_add h c) ks bs) (h_bucket h k (c_n c)) =
  let '(bits, present) := bl_test_or_add h (c_m c) (c_k c) (bk_bits b) k in Some (Bucket (negb present || bk_changes b) (bk_written b) bits).
Proof.
  induction ks as [|x ks IH]; intros ND bs k b I E; [destruct I|]. cbn in ND. inversion ND as [|y l NI ND' EQ]; subst. cbn [fold_left].
  destruct I as [->|I].
  - rewrite fold_add_other.
    + unfold bloom_add. rewrite E. destruct (bl_test_or_add _ _ _ _ _) as [bits p]. now rewrite (set_bucket_nth _ _ _ _ _ E), Nat.eqb_refl.
    + intros z Z Q. apply NI. rewrite <- Q. now apply in_map with (f := fun k => h_bucket h k (c_n c)) in Z.
  - apply IH; auto. unfold bloom_add. destruct (nth_error bs (h_bucket h x (c_n c))) as [b0|] eqn:E0; auto.
    destruct (bl_test_or_add _ _ _ _ _) as [bits p]. rewrite (set_bucket_nth _ _ _ _ _ E0).
    destruct (Nat.eqb_spec (h_bucket h k (c_n c)) (h_bucket h x (c_n c))) as [Q|]; auto.
    destruct NI. rewrite <- Q. now apply in_map with (f := fun k => h_bucket h k (c_n c)) in I.
Qed.

Lemma same_filter_nth a : forall b, length a = length b ->
  (forall i x y, nth_error a i = Some x -> nth_error b i = Some y -> same_bucket x y) -> same_filter a b.
Proof.
  induction a as [|x a IH]; intros [|y b] L H; try discriminate; constructor.
  - now apply (H 0).
  - apply IH; [now injection L|]. intros i. apply (H (S i)).
Qed.

Lemma apart_adds h c keys bs sched bs' pcs : hashes_ok h -> 0 < c_n c -> length bs = c_n c ->
  NoDup (map (fun k => h_bucket h k (c_n c)) keys) -> race_run h c keys bs sched = (bs', pcs) -> all_done pcs ->
  same_filter (fold_left (bloom_add h c) keys bs) bs' /\ forall k, In k keys -> bloom_may h c bs' k = true.
Proof.
  intros HH CN L ND RN AD. unfold race_run in RN.
  pose proof (way_run h c keys CN ND sched bs bs _ (way_start h c keys HH CN bs L)) as (L' & LP & K & O).
  rewrite RN in *. cbn [fst snd] in *.
  assert (SF : same_filter (fold_left (bloom_add h c) keys bs) bs').
  { apply same_filter_nth; [now rewrite fold_add_length, L, L'|]. intros i x y X Y.
    destruct (in_dec Nat.eq_dec i (map (fun k => h_bucket h k (c_n c)) keys)) as [I|NI].
    - apply in_map_iff in I. destruct I as (k & <- & I). destruct (In_nth_error _ _ I) as [g E].
      destruct (K g k E) as (b0 & b & pc & b' & B0 & B & P & EN & SB). rewrite B in Y. injection Y as <-.
      rewrite (AD pc (nth_error_In _ _ P)) in EN. apply ends_done in EN. subst b'.
      rewrite (fold_add_own h c keys ND bs k b0 I B0) in X. destruct (bl_test_or_add _ _ _ _ _) as [bits p]. injection X as <-. exact SB.
    - assert (N : forall k, In k keys -> h_bucket h k (c_n c) <> i).
      { intros k I <-. apply NI. now apply in_map with (f := fun k => h_bucket h k (c_n c)) in I. }
      rewrite fold_add_other in X by auto. rewrite O in Y by auto. rewrite X in Y. injection Y as <-. repeat split; auto. }
  split; auto. intros k I. rewrite <- (same_may h c _ _ k SF).
  destruct (in_split _ _ I) as (a & b & ->). rewrite fold_left_app. cbn [fold_left].
  clear - HH CN L. assert (G : forall ks x, grows x (fold_left (bloom_add h c) ks x)).
  { induction ks as [|y ks IH]; intros x; cbn; [apply grows_refl|]. destruct (IH (bloom_add h c x y)) as [A1 A2], (add_grows h c x y) as [B1 B2].
    split; [congruence|]. intros i z Z. destruct (B2 i z Z) as (z1 & Z1 & I1). destruct (A2 i z1 Z1) as (z2 & Z2 & I2). exists z2. split; auto. eapply incl_tran; eauto. }
  eapply grows_may; [apply G|]. apply add_may; auto. now rewrite fold_add_length.
Qed.
