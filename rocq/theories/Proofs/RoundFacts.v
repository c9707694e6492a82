(** How integers are rounded on their way through JSON. *)

From Coq Require Import ZArith Lia Bool.
From Verif.Model Require Import Inspect.
From Verif.Spec Require Import RoundSpec.
Local Open Scope Z_scope.

Definition half_up (P q r : Z) : Z := if ((r <? P / 2) || ((r =? P / 2) && Z.even q))%bool then q else q + 1.

Lemma between P e q m k : P = 2 ^ e -> 0 <= e -> 2 ^ 52 <= q -> Z.abs m <= 2 ^ 53 -> 0 <= k -> m * 2 ^ k <= q * P \/ (q + 1) * P <= m * 2 ^ k.
Proof.
  intros HP HE HQ HM HK. assert (PP : 0 < P) by (subst; apply Z.pow_pos_nonneg; lia).
  destruct (Z.lt_ge_cases k e) as [H|H].
  - left. assert (P2 : 2 * 2 ^ k <= P).
    { subst. rewrite <- Z.pow_succ_r by lia. apply Z.pow_le_mono_r; lia. }
    assert (0 < 2 ^ k) by (apply Z.pow_pos_nonneg; lia). assert (m <= 2 ^ 53) by lia. change (2 ^ 53) with (2 * 2 ^ 52) in *.
    assert (m * 2 ^ k <= 2 * 2 ^ 52 * 2 ^ k) by (apply Z.mul_le_mono_nonneg_r; lia).
    assert (2 ^ 52 * P <= q * P) by (apply Z.mul_le_mono_nonneg_r; lia). nia.
  - assert (E : 2 ^ k = 2 ^ (k - e) * P) by (subst; rewrite <- Z.pow_add_r by lia; f_equal; lia).
    rewrite E, Z.mul_assoc. set (n := m * 2 ^ (k - e)). destruct (Z.le_gt_cases n q); [left|right]; apply Z.mul_le_mono_nonneg_r; lia.
Qed.

Lemma half_near P q r : 0 < P -> P mod 2 = 0 -> 0 <= r < P -> forall f, f <= q * P \/ (q + 1) * P <= f ->
  Z.abs (q * P + r - half_up P q r * P) <= Z.abs (q * P + r - f) /\
  (Z.abs (q * P + r - f) = Z.abs (q * P + r - half_up P q r * P) -> f <> half_up P q r * P -> Z.even (half_up P q r) = true).
Proof.
  intros HP H2 HR f HF. pose proof (Z.div_mod P 2 ltac:(lia)) as D. unfold half_up.
  destruct (r <? P / 2) eqn:E1; cbn [orb].
  - apply Z.ltb_lt in E1. split; [lia|]. intros A B. exfalso. lia.
  - apply Z.ltb_ge in E1. destruct (r =? P / 2) eqn:E2; cbn [andb].
    + apply Z.eqb_eq in E2. destruct (Z.even q) eqn:EV.
      * split; [lia|auto].
      * split; [lia|]. intros _ _. rewrite Z.even_add, EV. reflexivity.
    + apply Z.eqb_neq in E2. split; [lia|]. intros A B. exfalso. lia.
Qed.

Lemma parts a : 2 ^ 53 <= a -> let e := Z.log2 a - 52 in
  1 <= e /\ 2 ^ 52 <= a / 2 ^ e < 2 ^ 53 /\ a = (a / 2 ^ e) * 2 ^ e + a mod 2 ^ e /\ 0 <= a mod 2 ^ e < 2 ^ e.
Proof.
  intros H e. assert (L : 53 <= Z.log2 a) by (change 53 with (Z.log2 (2 ^ 53)); apply Z.log2_le_mono; auto).
  assert (HE : 1 <= e) by (unfold e; lia). assert (P : 0 < 2 ^ e) by (apply Z.pow_pos_nonneg; lia).
  pose proof (Z.log2_spec a ltac:(lia)) as [A B]. split; auto.
  replace (Z.log2 a) with (52 + e) in A by (unfold e; lia). replace (Z.succ (Z.log2 a)) with (53 + e) in B by (unfold e; lia).
  rewrite Z.pow_add_r in A, B by lia. split.
  - split; [apply Z.div_le_lower_bound; lia|apply Z.div_lt_upper_bound; lia].
  - split; [rewrite Z.mul_comm; apply Z.div_mod; lia|apply Z.mod_pos_bound; lia].
Qed.

Lemma round53_parts z : 2 ^ 53 <= Z.abs z -> let e := Z.log2 (Z.abs z) - 52 in
  round53 z = Z.sgn z * (half_up (2 ^ e) (Z.abs z / 2 ^ e) (Z.abs z mod 2 ^ e) * 2 ^ e).
Proof.
  intros H e. unfold round53. replace (Z.abs z <? 2 ^ 53) with false by (symmetry; apply Z.ltb_ge; auto). fold e. unfold half_up.
  destruct (parts _ H) as [HE _]. fold e in HE. replace (2 ^ e / 2) with (2 ^ (e - 1)); auto.
  replace (2 ^ e) with (2 ^ (e - 1) * 2); [rewrite Z.div_mul; lia|]. rewrite Z.mul_comm, <- Z.pow_succ_r by lia. f_equal. lia.
Qed.

Lemma half_up_bound P q r : q <= half_up P q r <= q + 1.
Proof. unfold half_up. destruct (_ || _)%bool; lia. Qed.

Lemma round53_float z : float_int (round53 z).
Proof.
  destruct (Z.lt_ge_cases (Z.abs z) (2 ^ 53)) as [H|H].
  - exists z, 0. unfold round53. replace (Z.abs z <? 2 ^ 53) with true by (symmetry; apply Z.ltb_lt; auto). rewrite Z.mul_1_r. lia.
  - rewrite round53_parts by auto. destruct (parts _ H) as [HE [HQ _]]. set (e := Z.log2 (Z.abs z) - 52) in *.
    pose proof (half_up_bound (2 ^ e) (Z.abs z / 2 ^ e) (Z.abs z mod 2 ^ e)). set (h := half_up _ _ _) in *.
    exists (Z.sgn z * h), e. split; [destruct z; cbn [Z.sgn Z.abs] in *; lia|]. split; [lia|ring].
Qed.

Lemma round53_near z f : float_int f -> Z.abs (z - round53 z) <= Z.abs (z - f) /\
  (Z.abs (z - f) = Z.abs (z - round53 z) -> f <> round53 z -> even_float (round53 z)).
Proof.
  intros [m [k [HM [HK ->]]]]. destruct (Z.lt_ge_cases (Z.abs z) (2 ^ 53)) as [H|H].
  - assert (E : round53 z = z) by (unfold round53; replace (Z.abs z <? 2 ^ 53) with true by (symmetry; apply Z.ltb_lt; auto); auto).
    rewrite E. split; [lia|]. intros A B. exfalso. lia.
  - rewrite round53_parts by auto. destruct (parts _ H) as [HE [HQ [DM HR]]]. set (e := Z.log2 (Z.abs z) - 52) in *.
    set (q := Z.abs z / 2 ^ e) in *. set (r := Z.abs z mod 2 ^ e) in *. set (P := 2 ^ e) in *.
    assert (PP : 0 < P) by (apply Z.pow_pos_nonneg; lia).
    assert (P2 : P mod 2 = 0).
    { unfold P. replace e with (Z.succ (e - 1)) by lia. rewrite Z.pow_succ_r, Z.mul_comm by lia. apply Z.mod_mul. lia. }
    pose proof (half_up_bound P q r) as HB.
    destruct (half_near P q r PP P2 HR (Z.sgn z * m * 2 ^ k)) as [A B].
    { apply (between P e); auto; try lia. }
    assert (S : forall x, Z.abs (z - Z.sgn z * x) = Z.abs (q * P + r - x)).
    { intro x. rewrite <- DM. destruct z; cbn [Z.sgn Z.abs] in *; lia. }
    assert (F : m * 2 ^ k = Z.sgn z * (Z.sgn z * m * 2 ^ k)) by (destruct z; cbn [Z.sgn Z.abs] in *; try lia; ring).
    rewrite F, !S. split; auto. intros E1 E2. specialize (B E1 ltac:(intro X; apply E2; rewrite X; reflexivity)).
    set (h := half_up P q r) in *. destruct (Z.eq_dec h (2 ^ 53)) as [E|E].
    + exists (Z.sgn z * 2 ^ 52), (e + 1). split; [destruct z; cbn [Z.sgn Z.abs] in *; lia|]. split; [lia|]. split.
      * unfold P in *. rewrite E, Z.pow_add_r by lia. change (2 ^ 53) with (2 ^ 52 * 2 ^ 1). ring.
      * rewrite Z.even_mul. apply orb_true_r.
    + exists (Z.sgn z * h), e. split; [destruct z; cbn [Z.sgn Z.abs] in *; lia|]. split; [lia|]. split; [unfold P; ring|].
      rewrite Z.even_mul, B. apply orb_true_r.
Qed.

Lemma json_rounds clean v z : gv_data v = DInt z -> exists v' f, json_val clean v = Some v' /\ gv_data v' = DFlt (FNum f 0) /\ float_int f /\
  forall g, float_int g -> Z.abs (z - f) <= Z.abs (z - g) /\ (Z.abs (z - g) = Z.abs (z - f) -> g <> f -> even_float f).
Proof.
  intro E. unfold json_val. rewrite E. do 2 eexists. split; [reflexivity|]. split; [reflexivity|]. split; [apply round53_float|].
  intros g HG. apply round53_near. auto.
Qed.
