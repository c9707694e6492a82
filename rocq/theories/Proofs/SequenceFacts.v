(** Facts about number sequences. *)

From Coq Require Import List NArith ZArith Bool Arith Lia.
From Verif.Model Require Import Bytes Go Sequence.
From Verif.Spec Require Import SequenceSpec.
Import ListNotations.
Local Open Scope N_scope.

Lemma land_number p c : c < 2 ^ 24 -> N.land (p * 2 ^ 24 + c) seq_number_mask = c.
Proof.
  intros H. change seq_number_mask with (N.ones 24). rewrite N.land_ones.
  rewrite N.add_comm, N.mod_add by (vm_compute; discriminate). now apply N.mod_small.
Qed.

Lemma land_stamp x : x < 2 ^ 64 -> N.land x seq_timestamp_mask = N.shiftl (N.shiftr x 24) 24.
Proof.
  intros H. change seq_timestamp_mask with (N.shiftl (N.ones 40) 24).
  apply N.bits_inj. intros n. rewrite N.land_spec.
  destruct (N.lt_ge_cases n 24) as [L|G].
  - rewrite !N.shiftl_spec_low by auto. apply andb_false_r.
  - rewrite !N.shiftl_spec_high' by auto. rewrite N.shiftr_spec'.
    replace (n - 24 + 24) with n by lia.
    destruct (N.lt_ge_cases n 64) as [L|G2].
    + rewrite N.ones_spec_low by lia. apply andb_true_r.
    + destruct (N.eq_dec x 0) as [->|N0]; [now rewrite N.bits_0|].
      rewrite (N.bits_above_log2 x n); auto. apply N.log2_lt_pow2 in H; lia.
Qed.

Lemma shiftr_stamp p c : c < 2 ^ 24 -> N.shiftr (p * 2 ^ 24 + c) 24 = p.
Proof.
  intros H. rewrite N.shiftr_div_pow2, N.add_comm, N.div_add by (vm_compute; discriminate).
  rewrite (N.div_small c) by auto. reflexivity.
Qed.

Lemma next_id_small sec : (0 <= sec < 2 ^ 40)%Z -> Z.to_N ((sec * 2 ^ 24) mod 2 ^ 64)%Z = Z.to_N sec * 2 ^ 24.
Proof.
  intros H. rewrite Z.mod_small by lia. change (2 ^ 24) with (Z.to_N (2 ^ 24)). rewrite <- Z2N.inj_mul by lia. reflexivity.
Qed.

Lemma seq_next_eq p c sec : p < 2 ^ 40 -> c < 2 ^ 24 -> (0 <= sec < 2 ^ 40)%Z ->
  seq_next (p * 2 ^ 24 + c) sec =
    (if Z.to_N sec =? p then
       if c =? 2 ^ 24 - 1 then (p * 2 ^ 24 + c, max_uint64, true)
       else (p * 2 ^ 24 + (c + 1), p * 2 ^ 24 + (c + 1), false)
     else (Z.to_N sec * 2 ^ 24, Z.to_N sec * 2 ^ 24, false)).
Proof.
  intros P C S. unfold seq_next. rewrite next_id_small by auto.
  assert (SL : Z.to_N sec < 2 ^ 40) by lia.
  rewrite !land_stamp by lia. rewrite shiftr_stamp by auto.
  replace (Z.to_N sec * 2 ^ 24) with (Z.to_N sec * 2 ^ 24 + 0) at 1 by lia. rewrite shiftr_stamp by lia.
  rewrite land_number by auto. rewrite !N.shiftl_mul_pow2.
  replace (p * 2 ^ 24 =? Z.to_N sec * 2 ^ 24) with (Z.to_N sec =? p).
  2:{ apply Bool.eq_iff_eq_true. rewrite !N.eqb_eq. lia. }
  destruct (N.eqb_spec (Z.to_N sec) p) as [E|N]; [|reflexivity].
  change seq_number_mask with (2 ^ 24 - 1).
  destruct (N.eqb_spec c (2 ^ 24 - 1)) as [E2|N2]; [reflexivity|].
  rewrite N.mod_small by lia. replace (p * 2 ^ 24 + c + 1) with (p * 2 ^ 24 + (c + 1)) by lia. reflexivity.
Qed.

(** [c] is the number of the last result within second [p], counting from 0. *)
Lemma seq_calls_eq secs : forall p c, p < 2 ^ 40 -> c < 2 ^ 24 -> steady_clock (Z.of_N p) secs ->
  forall i sec, nth_error secs i = Some sec ->
  let k := (if (sec =? Z.of_N p)%Z then c + 1 else 0) + in_second sec (firstn i secs) in
  nth_error (seq_calls (p * 2 ^ 24 + c) secs) i =
    Some (if k <? 2 ^ 24 then Some (Z.to_N sec * 2 ^ 24 + k) else None).
Proof.
  induction secs as [|s secs IH]; intros p c P C S i sec E; [destruct i; discriminate|]. destruct S as [S1 S2].
  cbn [seq_calls]. rewrite seq_next_eq by lia. destruct i as [|i]; cbn [nth_error firstn in_second] in *.
  - injection E as ->.
    destruct (N.eqb_spec (Z.to_N sec) p) as [E|N].
    + replace (sec =? Z.of_N p)%Z with true by (symmetry; apply Z.eqb_eq; lia). rewrite E.
      destruct (N.eqb_spec c (2 ^ 24 - 1)) as [E2|N2]; cbn [nth_error].
      * replace (c + 1 + 0 <? 2 ^ 24) with false; auto. symmetry; apply N.ltb_ge; lia.
      * replace (c + 1 + 0 <? 2 ^ 24) with true; [do 2 f_equal; lia|]. symmetry; apply N.ltb_lt; lia.
    + replace (sec =? Z.of_N p)%Z with false by (symmetry; apply Z.eqb_neq; lia). cbn [nth_error].
      replace (0 + 0 <? 2 ^ 24) with true by reflexivity. do 2 f_equal; lia.
  - assert (SP : (Z.of_N p <= sec)%Z).
    { clear - S1 S2 E. assert (forall l f j x, steady_clock f l -> nth_error l j = Some x -> (f <= x)%Z) as K.
      { induction l as [|y l IH]; intros f [|j] x H J; cbn in *; try discriminate.
        - injection J as <-. lia.
        - destruct H as [H1 H2]. specialize (IH _ _ _ H2 J). lia. }
      specialize (K _ _ _ _ S2 E). lia. }
    assert (SS : (s <= sec)%Z).
    { clear - S2 E. revert s i S2 E. induction secs as [|y l IH]; intros f [|j] H J; cbn in *; try discriminate.
      - injection J as <-. lia.
      - destruct H as [H1 H2]. specialize (IH _ _ H2 J). lia. }
    destruct (N.eqb_spec (Z.to_N s) p) as [E1|N1].
    + assert (s = Z.of_N p) by lia. subst s.
      destruct (N.eqb_spec c (2 ^ 24 - 1)) as [E2|N2]; cbn [nth_error].
      * rewrite (IH p c P C S2 i sec E).
        destruct (Z.eqb_spec sec (Z.of_N p)) as [E3|N3]; [|reflexivity].
        replace (c + 1 + in_second sec (firstn i secs) <? 2 ^ 24) with false by (symmetry; apply N.ltb_ge; lia).
        replace (c + 1 + (1 + in_second sec (firstn i secs)) <? 2 ^ 24) with false by (symmetry; apply N.ltb_ge; lia). reflexivity.
      * rewrite (IH p (c + 1) P ltac:(lia) S2 i sec E).
        destruct (Z.eqb_spec sec (Z.of_N p)) as [E3|N3]; [|reflexivity].
        replace (c + 1 + (1 + in_second sec (firstn i secs))) with (c + 1 + 1 + in_second sec (firstn i secs)) by lia. reflexivity.
    + cbn [nth_error]. replace (Z.to_N s * 2 ^ 24) with (Z.to_N s * 2 ^ 24 + 0) by lia.
      rewrite (IH (Z.to_N s) 0 ltac:(lia) ltac:(lia) ltac:(rewrite Z2N.id by lia; auto) i sec E).
      rewrite Z2N.id by lia. replace (sec =? Z.of_N p)%Z with false by (symmetry; apply Z.eqb_neq; lia).
      destruct (Z.eqb_spec sec s) as [E3|N3]; reflexivity.
Qed.

Lemma calls_exact secs : steady_clock 1 secs -> forall i sec, nth_error secs i = Some sec ->
  let k := in_second sec (firstn i secs) in
  nth_error (seq_calls 0 secs) i = Some (if k <? 2 ^ 24 then Some (Z.to_N sec * 2 ^ 24 + k) else None).
Proof.
  intros S i sec E k.
  assert (S0 : steady_clock (Z.of_N 0) secs) by (destruct secs; cbn in *; auto; split; [lia|tauto]).
  pose proof (seq_calls_eq secs 0 0 ltac:(reflexivity) ltac:(reflexivity) S0 i sec E) as K.
  cbn [N.mul N.add] in K. cbn zeta in K. change (0 * 2 ^ 24 + 0) with 0 in K.
  assert (P : (1 <= sec)%Z).
  { clear - S E. assert (forall l f j x, steady_clock f l -> nth_error l j = Some x -> (f <= x)%Z) as K.
    { induction l as [|y l IH]; intros f [|j] x H J; cbn in *; try discriminate.
      - injection J as <-. lia.
      - destruct H as [H1 H2]. specialize (IH _ _ _ H2 J). lia. }
    exact (K _ _ _ _ S E). }
  replace (sec =? Z.of_N 0)%Z with false in K by (symmetry; apply Z.eqb_neq; lia).
  exact K.
Qed.

Lemma clock_range secs : forall f, steady_clock f secs -> forall i sec, nth_error secs i = Some sec -> (f <= sec < 2 ^ 40)%Z.
Proof.
  induction secs as [|y l IH]; intros f H [|j] x J; cbn in *; try discriminate.
  - injection J as <-. tauto.
  - destruct H as [H1 H2]. specialize (IH _ H2 _ _ J). lia.
Qed.

Lemma clock_mono secs : forall f, steady_clock f secs -> forall i j a b, (i < j)%nat ->
  nth_error secs i = Some a -> nth_error secs j = Some b -> (a <= b)%Z.
Proof.
  induction secs as [|y l IH]; intros f H [|i] [|j] a b L I J; cbn in *; try discriminate; try lia.
  - injection I as <-. destruct H as [_ H]. apply (clock_range _ _ H) in J. lia.
  - destruct H as [_ H]. eapply IH; [exact H| |exact I|exact J]. lia.
Qed.

Lemma in_second_mono s secs : forall i j, (i < j)%nat -> nth_error secs i = Some s ->
  in_second s (firstn i secs) < in_second s (firstn j secs).
Proof.
  induction secs as [|y l IH]; intros [|i] [|j] L I; cbn in *; try discriminate; try lia.
  - injection I as ->. rewrite Z.eqb_refl. lia.
  - specialize (IH i j ltac:(lia) I). lia.
Qed.

Lemma calls_increase secs : steady_clock 1 secs -> forall i j a b, (i < j)%nat ->
  nth_error (seq_calls 0 secs) i = Some (Some a) -> nth_error (seq_calls 0 secs) j = Some (Some b) -> a < b.
Proof.
  intros S i j a b L I J.
  assert (LEN : forall l x, length (seq_calls x l) = length l).
  { induction l as [|y l IH]; intros x; cbn; auto. destruct (seq_next x y) as [[? ?] ?]. cbn. now rewrite IH. }
  assert (exists x, nth_error secs i = Some x) as (x & X).
  { destruct (nth_error secs i) eqn:N; eauto. apply nth_error_None in N. apply nth_error_Some_bound_index_lt in I || (assert (i < length (seq_calls 0 secs))%nat by (apply nth_error_Some; congruence); rewrite LEN in *; lia). }
  assert (exists y, nth_error secs j = Some y) as (y & Y).
  { destruct (nth_error secs j) eqn:N; eauto. apply nth_error_None in N. assert (j < length (seq_calls 0 secs))%nat by (apply nth_error_Some; congruence). rewrite LEN in *; lia. }
  rewrite (calls_exact secs S i x X) in I. rewrite (calls_exact secs S j y Y) in J. cbn zeta in *.
  destruct (in_second x (firstn i secs) <? 2 ^ 24) eqn:K1; [|discriminate].
  destruct (in_second y (firstn j secs) <? 2 ^ 24) eqn:K2; [|discriminate].
  apply N.ltb_lt in K1, K2. injection I as <-. injection J as <-.
  pose proof (clock_mono _ _ S _ _ _ _ L X Y). pose proof (clock_range _ _ S _ _ X). pose proof (clock_range _ _ S _ _ Y).
  destruct (Z.eq_dec x y) as [<-|N]; [|nia].
  pose proof (in_second_mono x secs i j L X). lia.
Qed.

Lemma calls_parts secs : steady_clock 1 secs -> forall i sec n, nth_error secs i = Some sec ->
  nth_error (seq_calls 0 secs) i = Some (Some n) ->
  Z.of_N (seq_timestamp n) = sec /\ seq_number n = in_second sec (firstn i secs).
Proof.
  intros S i sec n X I. rewrite (calls_exact secs S i sec X) in I. cbn zeta in I.
  destruct (in_second sec (firstn i secs) <? 2 ^ 24) eqn:K1; [|discriminate]. apply N.ltb_lt in K1.
  injection I as <-. pose proof (clock_range _ _ S _ _ X). unfold seq_timestamp, seq_number.
  change seq_bit_shift with 24. rewrite shiftr_stamp, land_number by auto. split; lia.
Qed.

Lemma calls_overflow secs : steady_clock 1 secs -> forall i sec, nth_error secs i = Some sec ->
  (nth_error (seq_calls 0 secs) i = Some None <-> 2 ^ 24 <= in_second sec (firstn i secs)).
Proof.
  intros S i sec X. rewrite (calls_exact secs S i sec X). cbn zeta.
  destruct (in_second sec (firstn i secs) <? 2 ^ 24) eqn:K1.
  - apply N.ltb_lt in K1. split; [discriminate|lia].
  - apply N.ltb_ge in K1. split; auto.
Qed.

(** ** Batch ids *)

Lemma ids_calls secs : forall last i, nth_error (batch_ids last secs) i =
  match nth_error (seq_calls last secs) i with
  | Some (Some n) => Some n
  | Some None => Some max_uint64
  | None => None
  end.
Proof.
  induction secs as [|s secs IH]; intros last [|i]; cbn; auto.
  - destruct (seq_next last s) as [[l n] ov] eqn:E. cbn. destruct ov; auto.
    unfold seq_next in E; cbn zeta in E. repeat match type of E with context [if ?c then _ else _] => destruct c end; try discriminate; injection E as _ <-; reflexivity.
  - destruct (seq_next last s) as [[l n] ov] eqn:E. cbn. apply IH.
Qed.

Lemma steady_repeat s n : (1 <= s < 2 ^ 40)%Z -> steady_clock 1 (repeat s n).
Proof.
  intros H. destruct n as [|n]; cbn; auto. split; auto.
  induction n as [|n IH]; cbn; auto. split; auto. lia.
Qed.

Lemma in_second_repeat s n : in_second s (repeat s n) = N.of_nat n.
Proof. induction n as [|n IH]; cbn [repeat in_second]; auto. rewrite Z.eqb_refl, IH. lia. Qed.

Lemma firstn_repeat {A} (a : A) n : forall i, (i <= n)%nat -> firstn i (repeat a n) = repeat a i.
Proof. induction n as [|n IH]; intros [|i] L; cbn; auto; try lia. now rewrite IH by lia. Qed.

(** More than 2^24 batches in one second share an id. *)
Lemma ids_repeat : exists secs i j, steady_clock 1 secs /\ i <> j /\
  nth_error (batch_ids 0 secs) i = Some max_uint64 /\ nth_error (batch_ids 0 secs) j = Some max_uint64.
Proof.
  pose proof (conj (Z.le_refl 1) eq_refl : (1 <= 1 < 2 ^ 40)%Z) as H. set (s := 1%Z) in *.
  set (m := N.to_nat (2 ^ 24)). exists (repeat s (m + 2)), m, (S m).
  assert (M : N.of_nat m = 2 ^ 24) by (unfold m; lia). clearbody m.
  assert (S0 := steady_repeat s (m + 2) H). split; auto. split; [auto|].
  assert (K : forall i, (m <= i < m + 2)%nat -> nth_error (batch_ids 0 (repeat s (m + 2))) i = Some max_uint64).
  { intros i I. rewrite ids_calls. pose proof (nth_error_repeat s (n := i) (m := m + 2) ltac:(lia)) as X.
    apply (proj2 (calls_overflow _ S0 _ _ X)) || idtac.
    assert (C : nth_error (seq_calls 0 (repeat s (m + 2))) i = Some None).
    { apply (calls_overflow _ S0 i s X). rewrite firstn_repeat, in_second_repeat by lia. lia. }
    now rewrite C. }
  split; apply K; lia.
Qed.

(** Without a steady clock a number is returned twice. *)
Lemma clock_back : exists secs i j n, i <> j /\
  nth_error (seq_calls 0 secs) i = Some (Some n) /\ nth_error (seq_calls 0 secs) j = Some (Some n).
Proof. exists [5; 6; 5]%Z, 0%nat, 2%nat, 83886080. repeat split. discriminate. Qed.

Lemma ids_increase secs : steady_clock 1 secs ->
  (forall i sec, nth_error secs i = Some sec -> in_second sec (firstn i secs) < 2 ^ 24) ->
  forall i j a b, (i < j)%nat -> nth_error (batch_ids 0 secs) i = Some a -> nth_error (batch_ids 0 secs) j = Some b -> a < b.
Proof.
  intros S L i j a b IJ A B. rewrite ids_calls in A, B.
  assert (LEN : forall l x, length (seq_calls x l) = length l).
  { induction l as [|y l IH]; intros x; cbn; auto. destruct (seq_next x y) as [[? ?] ?]. cbn. now rewrite IH. }
  assert (K : forall k c, nth_error (seq_calls 0 secs) k = Some c -> c <> None).
  { intros k c Ck ->. assert (k < length (seq_calls 0 secs))%nat as KL by (apply nth_error_Some; congruence). rewrite LEN in KL.
    destruct (nth_error secs k) as [sec|] eqn:X; [|apply nth_error_None in X; lia].
    apply (calls_overflow secs S k sec X) in Ck. specialize (L _ _ X). lia. }
  destruct (nth_error (seq_calls 0 secs) i) as [[x|]|] eqn:I; try discriminate; [|exfalso; exact (K _ _ I eq_refl)].
  destruct (nth_error (seq_calls 0 secs) j) as [[y|]|] eqn:J; try discriminate; [|exfalso; exact (K _ _ J eq_refl)].
  injection A as <-. injection B as <-. exact (calls_increase secs S i j _ _ IJ I J).
Qed.
