(** Values and records of the inspector: C67, C68. *)

From Coq Require Import List NArith ZArith Lia Bool Arith.
From Verif.Model Require Import Bytes Go Keys Pebble Index Table Scan Query Inspect.
From Verif.Spec Require Import KeySpec TableSpec ScanSpec InspectSpec.
From Verif.Proofs Require Import BytesFacts KeysFacts.
Import ListNotations.

(** ** Numbers *)

Lemma pow_add2 a b : (0 <= a -> 0 <= b -> 2 ^ (a + b) = 2 ^ a * 2 ^ b)%Z.
Proof. intros. apply Z.pow_add_r; auto. Qed.

Lemma pow2_pos a : (0 <= a -> 0 < 2 ^ a)%Z.
Proof. intro. apply Z.pow_pos_nonneg; lia. Qed.

(** at any common exponent *)
Lemma same_num_at m1 e1 m2 e2 c : (c <= e1 -> c <= e2 -> (same_num (m1, e1) (m2, e2) <-> m1 * 2 ^ (e1 - c) = m2 * 2 ^ (e2 - c)))%Z.
Proof.
  intros H1 H2. unfold same_num. cbn [fst snd].
  set (d := (Z.min e1 e2 - c)%Z). assert (D : (0 <= d)%Z) by lia.
  replace (e1 - c)%Z with (Z.max 0 (e1 - e2) + d)%Z by lia. replace (e2 - c)%Z with (Z.max 0 (e2 - e1) + d)%Z by lia.
  rewrite !pow_add2, !Z.mul_assoc by lia. pose proof (pow2_pos d D). split; intro E; [rewrite E; reflexivity|].
  apply Z.mul_reg_r in E; lia.
Qed.

Lemma same_num_refl x : same_num x x.
Proof. unfold same_num. reflexivity. Qed.
Lemma same_num_sym x y : same_num x y -> same_num y x.
Proof. unfold same_num. intro. symmetry. auto. Qed.
Lemma same_num_trans x y z : same_num x y -> same_num y z -> same_num x z.
Proof.
  destruct x as [m1 e1], y as [m2 e2], z as [m3 e3]. set (c := Z.min e1 (Z.min e2 e3)).
  rewrite (same_num_at m1 e1 m2 e2 c), (same_num_at m2 e2 m3 e3 c), (same_num_at m1 e1 m3 e3 c) by lia. congruence.
Qed.

Lemma same_num_int a b : same_num (a, 0%Z) (b, 0%Z) <-> a = b.
Proof. unfold same_num. cbn [fst snd]. change (2 ^ Z.max 0 (0 - 0))%Z with 1%Z. lia. Qed.

Lemma flt_eqb_num m1 e1 m2 e2 : flt_eqb (FNum m1 e1) (FNum m2 e2) = true <-> same_num (m1, e1) (m2, e2).
Proof. cbn. rewrite Z.eqb_eq. symmetry. apply same_num_at; lia. Qed.

Lemma trunc_exact m e z : same_num (m, e) (z, 0%Z) -> flt_trunc m e = z.
Proof.
  unfold same_num, flt_trunc. cbn [fst snd]. intro H. destruct (0 <=? e)%Z eqn:E.
  - apply Z.leb_le in E. replace (Z.max 0 (e - 0)) with e in H by lia. replace (Z.max 0 (0 - e)) with 0%Z in H by lia. lia.
  - apply Z.leb_gt in E. replace (Z.max 0 (e - 0)) with 0%Z in H by lia. replace (Z.max 0 (0 - e)) with (- e)%Z in H by lia.
    rewrite Z.mul_1_r in H. subst m. apply Z.quot_mul. pose proof (pow2_pos (- e)). lia.
Qed.

Lemma round53_exact m e z : (Z.abs m < 2 ^ 53)%Z -> same_num (z, 0%Z) (m, e) -> round53 z = z.
Proof.
  intros HM H. unfold round53. destruct (Z.abs z <? 2 ^ 53)%Z eqn:L; auto. apply Z.ltb_ge in L.
  set (a := Z.abs z) in *. set (k := (Z.log2 a - 52)%Z).
  assert (P53 : (0 < 2 ^ 53)%Z) by reflexivity.
  assert (A : (0 < a)%Z) by lia.
  assert (K1 : (1 <= k)%Z).
  { unfold k. assert (53 <= Z.log2 a)%Z; [|lia]. apply Z.log2_le_pow2; auto. }
  assert (DV : (a mod 2 ^ k = 0)%Z).
  { unfold same_num in H. cbn [fst snd] in H.
    assert (E : (a * 2 ^ Z.max 0 (0 - e) = Z.abs m * 2 ^ Z.max 0 (e - 0))%Z).
    { unfold a. pose proof (pow2_pos (Z.max 0 (0 - e))). pose proof (pow2_pos (Z.max 0 (e - 0))).
      assert (X : Z.abs (z * 2 ^ Z.max 0 (0 - e)) = Z.abs (m * 2 ^ Z.max 0 (e - 0))) by congruence.
      rewrite !Z.abs_mul in X. rewrite (Z.abs_eq (2 ^ _)) in X by lia. rewrite (Z.abs_eq (2 ^ _)) in X by lia. exact X. }
    destruct (Z.le_gt_cases e 0) as [E0|E0].
    - replace (Z.max 0 (e - 0)) with 0%Z in E by lia. rewrite Z.mul_1_r in E. pose proof (pow2_pos (Z.max 0 (0 - e))). nia.
    - replace (Z.max 0 (e - 0)) with e in E by lia. replace (Z.max 0 (0 - e)) with 0%Z in E by lia. rewrite Z.mul_1_r in E.
      assert (LM : (Z.log2 a < 53 + e)%Z).
      { apply Z.log2_lt_pow2; auto. rewrite pow_add2 by lia. rewrite E. pose proof (pow2_pos e). nia. }
      assert (KE : (k <= e)%Z) by (unfold k; lia).
      rewrite E. replace e with ((e - k) + k)%Z by lia. rewrite pow_add2, Z.mul_assoc by lia.
      apply Z.mod_mul. pose proof (pow2_pos k). lia. }
  rewrite DV. assert (T : (0 <? 2 ^ (k - 1))%Z = true) by (apply Z.ltb_lt, pow2_pos; lia).
  rewrite T. cbn [orb]. pose proof (pow2_pos k).
  assert (Q : (a / 2 ^ k * 2 ^ k = a)%Z) by (rewrite (Z.div_mod a (2 ^ k)) at 2 by lia; lia).
  rewrite Q. unfold a. rewrite Z.mul_comm. apply Z.abs_sgn.
Qed.

(** ** Ranges *)

Lemma width_pos w : In w [0; 1; 2; 4; 8] -> 0 < width w <= 8.
Proof. cbn. intuition; subst; cbn; lia. Qed.

Lemma to_signed_in w z : 0 < w -> int_range w z -> to_signed w z = z.
Proof.
  intros W [H1 H2]. unfold to_signed. pose proof (pow256Z_pos w) as P.
  set (M := (256 ^ Z.of_nat w)%Z) in *.
  assert (E : M = (2 * (M / 2))%Z).
  { unfold M. destruct w; [lia|]. rewrite Nat2Z.inj_succ, Z.pow_succ_r by lia.
    replace (256 * 256 ^ Z.of_nat w)%Z with ((128 * 256 ^ Z.of_nat w) * 2)%Z by lia. rewrite Z.div_mul by lia. lia. }
  destruct (Z.le_gt_cases 0 z).
  - rewrite Z.mod_small by lia. destruct (z <? M / 2)%Z eqn:L; auto. apply Z.ltb_ge in L. lia.
  - assert (MZ : (z mod M = z + M)%Z) by (symmetry; apply Z.mod_unique with (-1)%Z; lia). rewrite MZ.
    destruct (z + M <? M / 2)%Z eqn:L; [apply Z.ltb_lt in L; lia|lia].
Qed.

Lemma to_unsigned_in w z : (0 <= z < 256 ^ Z.of_nat w)%Z -> Z.of_N (to_unsigned w z) = z.
Proof. intro H. unfold to_unsigned. rewrite Z.mod_small by auto. apply Z2N.id. lia. Qed.

Lemma pow256_le w : w <= 8 -> (256 ^ Z.of_nat w <= 2 ^ 64)%Z.
Proof. intro. change (2 ^ 64)%Z with (256 ^ Z.of_nat 8)%Z. apply Z.pow_le_mono_r; lia. Qed.

Lemma int_range_64 w z : w <= 8 -> int_range w z -> (- 2 ^ 63 <= z < 2 ^ 63)%Z.
Proof.
  intros W [H1 H2]. pose proof (pow256_le w W). assert (256 ^ Z.of_nat w / 2 <= 2 ^ 63)%Z.
  { change (2 ^ 63)%Z with (2 ^ 64 / 2)%Z. apply Z.div_le_mono; lia. }
  lia.
Qed.

(** ** Same values *)

Lemma num_same a b x y : num a = Some x -> num b = Some y -> (same_data a b <-> same_num x y).
Proof.
  intros HA HB. destruct a as [|z|[m e|s|]|], b as [|z'|[m' e'|s'|]|]; try discriminate; cbn [same_data]; rewrite HA, HB;
    (split; [intros [u [v [U [V S]]]]; inversion U; inversion V; subst; auto|intro S; exists x, y; auto]).
Qed.

Lemma same_data_trans a b c : same_data a b -> same_data b c -> same_data a c.
Proof.
  destruct (num a) eqn:NA; [destruct (num b) eqn:NB; [destruct (num c) eqn:NC|]|].
  - rewrite (num_same _ _ _ _ NA NB), (num_same _ _ _ _ NB NC), (num_same _ _ _ _ NA NC). apply same_num_trans.
  - intros _. destruct b as [|z'|[m' e'|s'|]|]; try discriminate; destruct c as [|z|[m e|s|]|]; cbn [same_data];
      intros [u [v [U [V S]]]]; try discriminate; exfalso; cbn in V, NC; congruence.
  - destruct a as [|z|[m e|s|]|]; try discriminate; destruct b as [|z'|[m' e'|s'|]|]; try discriminate; cbn [same_data];
      intros [u [v [U [V S]]]]; try discriminate.
  - destruct a as [|z|[m e|s|]|]; try discriminate; destruct b as [|z'|[m' e'|s'|]|]; try discriminate; cbn [same_data];
      try (intros [u [v [U [V S]]]]; discriminate); destruct c as [|z2|[m2 e2|s2|]|]; cbn [same_data];
      try congruence; intros _ [u [v [U [V S]]]]; discriminate.
Qed.

Lemma same_data_sym a b : same_data a b -> same_data b a.
Proof.
  destruct a as [|z|[m e|s|]|], b as [|z'|[m' e'|s'|]|]; cbn [same_data]; auto;
    intros [u [v [U [V S]]]]; exists v, u; repeat split; auto; apply same_num_sym; auto.
Qed.

Lemma kind_eqb_eq a b : kind_eqb a b = true <-> a = b.
Proof. unfold kind_eqb. destruct (kind_eq_dec a b); split; easy. Qed.
Lemma gtype_eqb_eq a b : gtype_eqb a b = true <-> a = b.
Proof.
  unfold gtype_eqb. rewrite andb_true_iff, Nat.eqb_eq, kind_eqb_eq. destruct a, b; cbn. split; [intros [-> ->]; auto|].
  intro H. inversion H. auto.
Qed.

(** DeepEqual of two values of one type *)
Lemma deep_equal_same a b : gv_type a = gv_type b -> well_typed a -> well_typed b ->
  (deep_equal a b = true <-> same_data (gv_data a) (gv_data b)).
Proof.
  intros E WA WB. unfold deep_equal. rewrite (proj2 (gtype_eqb_eq _ _) E). cbn [andb].
  unfold well_typed in WA, WB. rewrite <- E in WB. destruct (gt_kind (gv_type a));
    destruct (gv_data a) as [x|x|[m e|s|]|x], (gv_data b) as [y|y|[m' e'|s'|]|y]; try contradiction; cbn [same_data].
  all: try (rewrite flt_eqb_num; rewrite <- (num_same (DFlt (FNum m e)) (DFlt (FNum m' e')) (m, e) (m', e')) by reflexivity; cbn [same_data]; reflexivity).
  all: try (cbn [flt_eqb]; split; [discriminate|intros [u [v [U [V S]]]]; discriminate]).
  - apply Bool.eqb_true_iff.
  - rewrite Z.eqb_eq, <- same_num_int, <- (num_same (DInt x) (DInt y)) by reflexivity. reflexivity.
  - rewrite Z.eqb_eq, <- same_num_int, <- (num_same (DInt x) (DInt y)) by reflexivity. reflexivity.
  - cbn [flt_eqb]. apply Bool.eqb_true_iff.
  - apply beqb_eq.
  - apply beqb_eq.
Qed.

Section Out.
  Variable outside : flt64 -> Z.

  Lemma flt_int_exact lo hi m e z : same_num (m, e) (z, 0%Z) -> (lo <= z < hi)%Z -> flt_int outside lo hi (FNum m e) = z.
  Proof.
    intros S H. unfold flt_int. rewrite (trunc_exact _ _ _ S).
    rewrite (proj2 (Z.leb_le _ _)), (proj2 (Z.ltb_lt _ _)) by lia. reflexivity.
  Qed.

  Lemma int_same x y : same_data (DInt x) (DInt y) <-> x = y.
  Proof. rewrite (num_same (DInt x) (DInt y) (x, 0%Z) (y, 0%Z)) by reflexivity. apply same_num_int. Qed.
  Lemma flt_int_same m e x : same_data (DFlt (FNum m e)) (DInt x) <-> same_num (m, e) (x, 0%Z).
  Proof. apply num_same; reflexivity. Qed.
  Lemma int_flt_same m e x : same_data (DInt x) (DFlt (FNum m e)) <-> same_num (x, 0%Z) (m, e).
  Proof. apply num_same; reflexivity. Qed.

  (** converting a value that fits *)
  Lemma convert_fits v t : val_fits v t -> exists d, convert outside v t = Some (GVal t d) /\ well_typed (GVal t d) /\ same_data (gv_data v) d.
  Proof.
    intros [WV [_ [d [WT S]]]].
    destruct t as [nm k]. pose proof WT as WT'. unfold well_typed in WT. cbn [gv_type gv_data gt_kind] in WT.
    unfold convert. cbn [gt_kind].
    destruct k as [|w|w| | |]; destruct d as [x|x|[m e|s|]|x]; try contradiction.
    - destruct (gv_data v) as [y|y|[m' e'|s'|]|y]; cbn [same_data] in S; try (let H := fresh in destruct S as [u1 [u2 [U1 [U2 H]]]]; discriminate). subst. exists (DBool x). repeat split; auto.
    - destruct WT as [W R]. pose proof (width_pos w W) as WP. exists (DInt x). split; [|split; auto].
      destruct (gv_data v) as [y|y|[m' e'|s'|]|y] eqn:EV; try (let H := fresh in destruct S as [u1 [u2 [U1 [U2 H]]]]; discriminate).
      + apply (proj1 (int_same _ _)) in S. rewrite S. rewrite to_signed_in by (auto; lia). auto.
      + apply (proj1 (flt_int_same _ _ _)) in S.
        rewrite (flt_int_exact _ _ m' e' x) by (auto; apply (int_range_64 (width w)); auto; lia).
        rewrite to_signed_in by (auto; lia). auto.
    - destruct WT as [W R]. pose proof (width_pos w W) as WP. exists (DInt x). split; [|split; auto].
      destruct (gv_data v) as [y|y|[m' e'|s'|]|y] eqn:EV; try (let H := fresh in destruct S as [u1 [u2 [U1 [U2 H]]]]; discriminate).
      + apply (proj1 (int_same _ _)) in S. rewrite S. rewrite to_unsigned_in by auto. auto.
      + apply (proj1 (flt_int_same _ _ _)) in S. pose proof (pow256_le (width w) ltac:(lia)).
        rewrite (flt_int_exact _ _ m' e' x) by (auto; lia). rewrite to_unsigned_in by auto. auto.
    - destruct (gv_data v) as [y|y|[m' e'|s'|]|y] eqn:EV; try (let H := fresh in destruct S as [u1 [u2 [U1 [U2 H]]]]; discriminate).
      + apply (proj1 (int_flt_same _ _ _)) in S. exists (DFlt (FNum (round53 y) 0)).
        destruct WT as [m1 [e1 [WT1 WT2]]]. pose proof (same_num_trans _ _ _ S WT2) as S'.
        rewrite (round53_exact m1 e1 y WT1 S'). split; auto. split; [exists m1, e1; auto|].
        apply int_flt_same. apply same_num_refl.
      + exists (DFlt (FNum m' e')). repeat split; auto.
        * unfold well_typed in *. destruct (gt_kind (gv_type v)); rewrite EV in WV; auto; contradiction.
        * apply (num_same (DFlt (FNum m' e')) (DFlt (FNum m' e')) (m', e') (m', e')); auto. apply same_num_refl.
    - destruct (gv_data v) as [y|y|[m' e'|s'|]|y] eqn:EV; cbn [same_data] in S; try (let H := fresh in destruct S as [u1 [u2 [U1 [U2 H]]]]; discriminate).
      subst. exists (DFlt (FInf s)). repeat split; auto.
    - destruct (gv_data v) as [y|y|[m' e'|s'|]|y] eqn:EV; cbn [same_data] in S; try (let H := fresh in destruct S as [u1 [u2 [U1 [U2 H]]]]; discriminate).
    - destruct (gv_data v) as [y|y|[m' e'|s'|]|y] eqn:EV; cbn [same_data] in S; try (let H := fresh in destruct S as [u1 [u2 [U1 [U2 H]]]]; discriminate).
      subst. exists (DBytes x). repeat split; auto.
    - destruct (gv_data v) as [y|y|[m' e'|s'|]|y] eqn:EV; cbn [same_data] in S; try (let H := fresh in destruct S as [u1 [u2 [U1 [U2 H]]]]; discriminate).
      subst. exists (DBytes x). repeat split; auto.
  Qed.

  (** a value that fits, converted or not *)
  Lemma matches_fits n v r w : field r n = Some w -> well_typed w -> val_fits v (gv_type w) ->
    (field_matches outside r (n, v) = true <-> same_data (gv_data v) (gv_data w)).
  Proof.
    intros HF WW FT. unfold field_matches. cbn [fst snd]. rewrite HF.
    destruct (kind_eqb _ _) eqn:K.
    - apply kind_eqb_eq in K. destruct FT as [WV [ST _]]. apply deep_equal_same; auto.
    - destruct (convert_fits _ _ FT) as [d [C [WD S]]]. rewrite C.
      rewrite (deep_equal_same (GVal (gv_type w) d) w) by auto. cbn [gv_data]. split; intro H.
      + eapply same_data_trans; eauto.
      + eapply same_data_trans; [apply same_data_sym|]; eauto.
  Qed.

  Lemma matches_foreign n v r w : field r n = Some w -> well_typed w -> foreign v (gv_type w) ->
    field_matches outside r (n, v) = false /\ ~ same_data (gv_data v) (gv_data w).
  Proof.
    intros HF WW FO. unfold field_matches. cbn [fst snd]. rewrite HF. unfold foreign in FO. unfold well_typed in WW. split.
    - destruct (kind_eqb _ _) eqn:K.
      + unfold deep_equal. destruct (gtype_eqb _ _); auto. cbn [andb].
        destruct (gt_kind (gv_type w)), (gv_data v), (gv_data w); auto; contradiction.
      + unfold convert. destruct (gt_kind (gv_type w)), (gv_data v); auto; contradiction.
    - destruct (gt_kind (gv_type w)), (gv_data v) as [y|y|[m e|s|]|y], (gv_data w) as [x|x|[m' e'|s'|]|x]; cbn [same_data]; try contradiction;
        intros [u1 [u2 [U [V S]]]]; discriminate.
  Qed.

  Lemma field_in r n w : NoDup (map fst r) -> (field r n = Some w <-> In (n, w) r).
  Proof.
    induction r as [|[x u] r IH]; cbn [map fst field]; intro ND; [easy|]. apply NoDup_cons_iff in ND as [N1 N2].
    destruct (beqb x n) eqn:B.
    - apply beqb_eq in B. subst x. split; [intro H; inversion H; left; auto|].
      intros [H|H]; [inversion H; auto|]. exfalso. apply N1. apply (in_map fst) in H. exact H.
    - apply beqb_neq in B. rewrite (IH N2). cbn [In]. split; auto. intros [H|H]; auto. inversion H. contradiction.
  Qed.

  Lemma filter_meets r fs : NoDup (map fst r) -> (forall n v, In (n, v) r -> well_typed v) -> fair_filter r fs ->
    (filter_row outside fs r = true <-> meets r fs).
  Proof.
    intros ND WT FR. unfold filter_row. rewrite forallb_forall. split.
    - intros H n v I. specialize (H _ I). destruct (field r n) as [w|] eqn:E.
      + pose proof (proj1 (field_in _ _ _ ND) E) as IW. exists w. split; auto.
        destruct (FR n v w I IW) as [FT|FO].
        * apply (proj1 (matches_fits n v r w E (WT _ _ IW) FT) H).
        * destruct (matches_foreign n v r w E (WT _ _ IW) FO) as [X _]. congruence.
      + unfold field_matches in H. cbn [fst] in H. rewrite E in H. discriminate.
    - intros H [n v] I. destruct (H n v I) as [w [IW S]]. pose proof (proj2 (field_in _ _ _ ND) IW) as E.
      destruct (FR n v w I IW) as [FT|FO].
      + apply (matches_fits n v r w E (WT _ _ IW) FT). auto.
      + destruct (matches_foreign n v r w E (WT _ _ IW) FO) as [_ X]. contradiction.
  Qed.

  (** ** Setting fields *)

  Lemma shape_fst (r r' : row) : shape r = shape r' -> map fst r = map fst r'.
  Proof.
    intro H. assert (X : map fst (shape r) = map fst (shape r')) by congruence. unfold shape in X. rewrite !map_map in X.
    cbn [fst] in X. exact X.
  Qed.

  Lemma put_shape r n v w : field r n = Some w -> gv_type v = gv_type w -> shape (put_field r n v) = shape r.
  Proof.
    unfold shape. induction r as [|[x u] r IH]; cbn [field put_field map]; auto. destruct (beqb x n) eqn:B; cbn [map fst snd].
    - intros H E. inversion H. subst. rewrite E. reflexivity.
    - intros H E. rewrite IH; auto.
  Qed.

  Lemma put_in r n v x u : NoDup (map fst r) -> (In (x, u) (put_field r n v) <-> (x = n /\ u = v /\ In n (map fst r)) \/ (x <> n /\ In (x, u) r)).
  Proof.
    induction r as [|[y z] r IH]; cbn [put_field map fst In]; intro ND; [tauto|]. apply NoDup_cons_iff in ND as [N1 N2].
    destruct (beqb y n) eqn:B; cbn [In].
    - apply beqb_eq in B. subst y. split.
      + intros [H|H]; [inversion H; auto|]. right. split; auto. intro X. subst x. apply N1. apply (in_map fst) in H. exact H.
      + intros [[-> [-> _]]|[H1 [H2|H2]]]; auto. inversion H2. congruence.
    - apply beqb_neq in B. rewrite (IH N2). split.
      + intros [H|[[H1 [H2 H3]]|[H1 H2]]]; auto. inversion H. subst. auto.
      + intros [[-> [-> [H|H]]]|[H1 [H2|H2]]]; auto. congruence.
  Qed.

  Lemma set_one r n v w : field r n = Some w -> val_fits v (gv_type w) ->
    exists u, set_field outside r n (Some v) = Ok (put_field r n u) /\ gv_type u = gv_type w /\ well_typed u /\ same_data (gv_data v) (gv_data u) /\
      (gt_kind (gv_type v) = gt_kind (gv_type w) -> u = v).
  Proof.
    intros HF FT. unfold set_field. rewrite HF. destruct (kind_eqb _ _) eqn:K.
    - apply kind_eqb_eq in K. destruct FT as [WV [ST [d [WD S]]]]. pose proof (ST K) as E.
      unfold assignable. rewrite (proj2 (gtype_eqb_eq _ _) E). cbn [orb]. exists v.
      assert (EV : GVal (gv_type w) (gv_data v) = v) by (rewrite <- E; destruct v; reflexivity).
      rewrite EV. repeat split; auto.
      eapply same_data_trans; [exact S|apply same_data_sym; exact S].
    - destruct (convert_fits _ _ FT) as [d [C [WD S]]]. rewrite C. exists (GVal (gv_type w) d). repeat split; auto.
      intro X. apply kind_eqb_eq in X. congruence.
  Qed.

  Lemma shape_type r r' n w w' : NoDup (map fst r) -> shape r = shape r' -> In (n, w) r -> In (n, w') r' -> gv_type w = gv_type w'.
  Proof.
    intros ND E I I'. assert (NS : NoDup (map fst (shape r))) by (unfold shape; rewrite map_map; exact ND).
    assert (J : In (n, gv_type w) (shape r)) by (apply (in_map (fun nv => (fst nv, gv_type (snd nv))) _ _ I)).
    assert (J' : In (n, gv_type w') (shape r)) by (rewrite E; apply (in_map (fun nv => (fst nv, gv_type (snd nv))) _ _ I')).
    clear - NS J J'. induction (shape r) as [|[a b] l IH]; [easy|]. cbn [map fst] in NS. apply NoDup_cons_iff in NS as [N1 N2].
    destruct J as [J|J], J' as [J'|J']; auto.
    - congruence.
    - inversion J. subst. exfalso. apply N1. apply (in_map fst) in J'. exact J'.
    - inversion J'. subst. exfalso. apply N1. apply (in_map fst) in J. exact J.
  Qed.

  Lemma shape_has r r' n w : shape r = shape r' -> In (n, w) r -> exists w', In (n, w') r'.
  Proof.
    intros E I. assert (J : In (n, gv_type w) (shape r')) by (rewrite <- E; apply (in_map (fun nv => (fst nv, gv_type (snd nv))) _ _ I)).
    apply in_map_iff in J as [[a b] [H J]]. inversion H. subst. exists b. auto.
  Qed.

  Lemma set_fields_given vs : forall r, NoDup (map fst r) -> (forall n v, In (n, v) r -> well_typed v) -> settable r vs ->
    exists r', set_fields outside r vs = Ok r' /\ given r vs r' /\ (forall n v, In (n, v) r' -> well_typed v).
  Proof.
    induction vs as [|[n ov] vs IH]; intros r ND WT [NV SV].
    - exists r. split; [reflexivity|]. split; [|auto]. split; [reflexivity|]. intros n w I. right. split; auto.
    - cbn [map fst] in NV. apply NoDup_cons_iff in NV as [NV1 NV2].
      destruct (SV n ov (or_introl eq_refl)) as [v [w [-> [IW FT]]]].
      pose proof (proj2 (field_in _ _ _ ND) IW) as HF.
      destruct (set_one r n v w HF FT) as [u [E [TU [WU [SU _]]]]]. cbn [set_fields]. rewrite E.
      pose proof (put_shape r n u w HF TU) as SH.
      assert (ND' : NoDup (map fst (put_field r n u))) by (rewrite (shape_fst _ _ SH); auto).
      assert (WT' : forall x y, In (x, y) (put_field r n u) -> well_typed y).
      { intros x y I. apply put_in in I as [[_ [-> _]]|[_ I]]; eauto. }
      destruct (IH (put_field r n u) ND' WT') as [r' [E' [[G1 G2] G3]]].
      { split; auto. intros x ox I. destruct (SV x ox (or_intror I)) as [v' [w' [-> [IW' FT']]]]. exists v', w'. split; auto. split; auto.
        apply put_in; auto. right. split; auto. intro X. subst x. apply NV1. apply (in_map fst) in I. exact I. }
      exists r'. split; auto. split; auto. split; [congruence|].
      intros x y I. destruct (G2 x y I) as [[v' [I1 S1]]|[I1 I2]].
      + left. exists v'. split; auto. right. auto.
      + apply put_in in I2 as [[-> [-> _]]|[I2 I3]]; auto.
        * left. exists v. split; auto. left. auto.
        * right. split; auto. cbn [map fst]. intros [X|X]; auto.
  Qed.
End Out.
