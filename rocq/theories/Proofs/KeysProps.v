(** Lemmas behind the key properties C01-C11. *)

From Coq Require Import List NArith ZArith Lia Bool.
From Verif.Model Require Import Bytes Go Keys.
From Verif.Spec Require Import KeySpec.
From Verif.Proofs Require Import BytesFacts KeysFacts.
Import ListNotations.

(** ** Single fields *)

Lemma kb_field_bcmp b la lb fid :
  bcmp (kb_buff (kb_append (put_field_id b) la)) (kb_buff (kb_append (KB (kb_buff (put_field_id b)) fid) lb)) = bcmp la lb.
Proof. unfold kb_append; cbn [kb_buff]. apply bcmp_app_l. Qed.

Lemma kb_field_cmp b la lb :
  bcmp (kb_buff (kb_append (put_field_id b) la)) (kb_buff (kb_append (put_field_id b) lb)) = bcmp la lb.
Proof. unfold kb_append; cbn [kb_buff]. apply bcmp_app_l. Qed.

(** comparison with arbitrary bytes following, for same-length fields *)
Lemma kb_field_cmp_ext b la lb s t : length la = length lb ->
  bcmp (kb_buff (kb_append (put_field_id b) la) ++ s) (kb_buff (kb_append (put_field_id b) lb) ++ t)
  = match bcmp la lb with Eq => bcmp s t | c => c end.
Proof.
  intro H. unfold kb_append; cbn [kb_buff]. rewrite <- !app_assoc, bcmp_app_l.
  apply bcmp_app_same_len; auto.
Qed.

Lemma int_range_8 i : (- 2 ^ 63 <= i < 2 ^ 63)%Z -> int_range 8 i.
Proof. unfold int_range. intro H. exact H. Qed.
Lemma int_range_4 i : (- 2 ^ 31 <= i < 2 ^ 31)%Z -> int_range 4 i.
Proof. unfold int_range. intro H. exact H. Qed.
Lemma int_range_2 i : (- 2 ^ 15 <= i < 2 ^ 15)%Z -> int_range 2 i.
Proof. unfold int_range. intro H. exact H. Qed.

Lemma be_bytes_cmp_ext w b i j s t : (i < 256 ^ N.of_nat w)%N -> (j < 256 ^ N.of_nat w)%N ->
  bcmp (kb_buff (kb_append (put_field_id b) (be_bytes w i)) ++ s)
       (kb_buff (kb_append (put_field_id b) (be_bytes w j)) ++ t)
  = match N.compare i j with Eq => bcmp s t | c => c end.
Proof.
  intros Hi Hj. rewrite kb_field_cmp_ext by (rewrite !be_bytes_length; auto).
  rewrite bcmp_be_bytes by auto. reflexivity.
Qed.

Lemma int_cmp_ext w b i j s t : (0 < w)%nat -> int_range w i -> int_range w j ->
  bcmp (kb_buff (kb_append (put_field_id b) (int_field_bytes w i)) ++ s)
       (kb_buff (kb_append (put_field_id b) (int_field_bytes w j)) ++ t)
  = match Z.compare i j with Eq => bcmp s t | c => c end.
Proof.
  intros Hw Hi Hj. rewrite kb_field_cmp_ext by (rewrite !int_field_bytes_length; auto).
  rewrite int_field_bcmp by auto. reflexivity.
Qed.

Lemma add_int64_cmp b i j s t : (- 2 ^ 63 <= i < 2 ^ 63)%Z -> (- 2 ^ 63 <= j < 2 ^ 63)%Z ->
  bcmp (kb_buff (add_int64 b i) ++ s) (kb_buff (add_int64 b j) ++ t)
  = match Z.compare i j with Eq => bcmp s t | c => c end.
Proof. intros. apply int_cmp_ext; auto using int_range_8; lia. Qed.

Lemma add_int32_cmp b i j s t : (- 2 ^ 31 <= i < 2 ^ 31)%Z -> (- 2 ^ 31 <= j < 2 ^ 31)%Z ->
  bcmp (kb_buff (add_int32 b i) ++ s) (kb_buff (add_int32 b j) ++ t)
  = match Z.compare i j with Eq => bcmp s t | c => c end.
Proof. intros. apply int_cmp_ext; auto using int_range_4; lia. Qed.

Lemma add_int16_cmp b i j s t : (- 2 ^ 15 <= i < 2 ^ 15)%Z -> (- 2 ^ 15 <= j < 2 ^ 15)%Z ->
  bcmp (kb_buff (add_int16 b i) ++ s) (kb_buff (add_int16 b j) ++ t)
  = match Z.compare i j with Eq => bcmp s t | c => c end.
Proof. intros. apply int_cmp_ext; auto using int_range_2; lia. Qed.

Lemma add_uint64_cmp b i j s t : (i < 2 ^ 64)%N -> (j < 2 ^ 64)%N ->
  bcmp (kb_buff (add_uint64 b i) ++ s) (kb_buff (add_uint64 b j) ++ t)
  = match N.compare i j with Eq => bcmp s t | c => c end.
Proof. intros. apply be_bytes_cmp_ext; auto. Qed.

Lemma add_uint32_cmp b i j s t : (i < 2 ^ 32)%N -> (j < 2 ^ 32)%N ->
  bcmp (kb_buff (add_uint32 b i) ++ s) (kb_buff (add_uint32 b j) ++ t)
  = match N.compare i j with Eq => bcmp s t | c => c end.
Proof. intros. apply be_bytes_cmp_ext; auto. Qed.

Lemma add_uint16_cmp b i j s t : (i < 2 ^ 16)%N -> (j < 2 ^ 16)%N ->
  bcmp (kb_buff (add_uint16 b i) ++ s) (kb_buff (add_uint16 b j) ++ t)
  = match N.compare i j with Eq => bcmp s t | c => c end.
Proof. intros. apply be_bytes_cmp_ext; auto. Qed.

Lemma add_byte_cmp b x y s t :
  bcmp (kb_buff (add_byte b x) ++ s) (kb_buff (add_byte b y) ++ t)
  = match N.compare (Byte.to_N x) (Byte.to_N y) with Eq => bcmp s t | c => c end.
Proof.
  unfold add_byte. rewrite kb_field_cmp_ext by reflexivity. cbn [bcmp]. unfold b2n.
  destruct (N.compare (Byte.to_N x) (Byte.to_N y)); reflexivity.
Qed.

Lemma big_fits_iff bits i : big_fits bits i <-> (Z.abs i < 256 ^ Z.of_N (bits / 8))%Z.
Proof.
  unfold big_fits. rewrite N2Z.inj_lt, Z2N.id by lia. rewrite N2Z.inj_pow. reflexivity.
Qed.

Lemma add_big_int_ok b i bits : (Z.abs i < 256 ^ Z.of_N (bits / 8))%Z ->
  exists k, add_big_int b i bits = Ok k.
Proof.
  intro H. apply big_fits_iff in H. destruct (big_int_field_some i bits H) as [l [E _]].
  unfold add_big_int. rewrite E. eauto.
Qed.

Lemma add_big_int_panics b i bits : (256 ^ Z.of_N (bits / 8) <= Z.abs i)%Z ->
  add_big_int b i bits = Panic.
Proof.
  intro H. unfold add_big_int. rewrite big_int_field_none; auto.
  rewrite big_fits_iff. lia.
Qed.

Lemma add_big_int_inv b i bits k : add_big_int b i bits = Ok k ->
  exists l, big_int_field_bytes i bits = Some l /\ k = kb_append (put_field_id b) l
            /\ length l = S (N.to_nat (bits / 8)).
Proof.
  unfold add_big_int. intro H. destruct (big_int_field_bytes i bits) as [l|] eqn:E; [|easy].
  injection H as <-. exists l. repeat split.
  unfold big_int_field_bytes in E. destruct (_ <? _)%N; [|easy]. injection E as <-.
  cbn [length]. destruct (i <? 0)%Z; rewrite ?map_length, be_bytes_length; reflexivity.
Qed.

Lemma add_big_int_cmp b i j bits ki kj s t :
  add_big_int b i bits = Ok ki -> add_big_int b j bits = Ok kj ->
  bcmp (kb_buff ki ++ s) (kb_buff kj ++ t) = match Z.compare i j with Eq => bcmp s t | c => c end.
Proof.
  intros Hi Hj. apply add_big_int_inv in Hi as [li [Ei [-> Li]]].
  apply add_big_int_inv in Hj as [lj [Ej [-> Lj]]].
  rewrite kb_field_cmp_ext by congruence.
  rewrite (big_int_field_bcmp _ _ _ _ _ Ei Ej). reflexivity.
Qed.

(** ** Descending order *)

Lemma order_int64_desc b i j : (- 2 ^ 63 < i < 2 ^ 63)%Z -> (- 2 ^ 63 < j < 2 ^ 63)%Z ->
  bcmp (kb_buff (order_int64 b i true)) (kb_buff (order_int64 b j true)) = Z.compare j i.
Proof.
  intros Hi Hj. unfold order_int64, add_int64.
  rewrite kb_field_cmp.
  rewrite !to_signed_neg_small by (unfold int_range in *; change (256 ^ Z.of_nat 8 / 2)%Z with (2 ^ 63)%Z in *; lia).
  rewrite int_field_bcmp by (unfold int_range in *; change (256 ^ Z.of_nat 8 / 2)%Z with (2 ^ 63)%Z in *; lia).
  symmetry. rewrite <- Z.compare_opp. reflexivity.
Qed.

Lemma order_int32_desc b i j : (- 2 ^ 31 < i < 2 ^ 31)%Z -> (- 2 ^ 31 < j < 2 ^ 31)%Z ->
  bcmp (kb_buff (order_int32 b i true)) (kb_buff (order_int32 b j true)) = Z.compare j i.
Proof.
  intros Hi Hj. unfold order_int32, add_int32.
  rewrite kb_field_cmp.
  rewrite !to_signed_neg_small by (unfold int_range in *; change (256 ^ Z.of_nat 4 / 2)%Z with (2 ^ 31)%Z in *; lia).
  rewrite int_field_bcmp by (unfold int_range in *; change (256 ^ Z.of_nat 4 / 2)%Z with (2 ^ 31)%Z in *; lia).
  symmetry. rewrite <- Z.compare_opp. reflexivity.
Qed.

Lemma order_int16_desc b i j : (- 2 ^ 15 < i < 2 ^ 15)%Z -> (- 2 ^ 15 < j < 2 ^ 15)%Z ->
  bcmp (kb_buff (order_int16 b i true)) (kb_buff (order_int16 b j true)) = Z.compare j i.
Proof.
  intros Hi Hj. unfold order_int16, add_int16.
  rewrite kb_field_cmp.
  rewrite !to_signed_neg_small by (unfold int_range in *; change (256 ^ Z.of_nat 2 / 2)%Z with (2 ^ 15)%Z in *; lia).
  rewrite int_field_bcmp by (unfold int_range in *; change (256 ^ Z.of_nat 2 / 2)%Z with (2 ^ 15)%Z in *; lia).
  symmetry. rewrite <- Z.compare_opp. reflexivity.
Qed.

Lemma uint_desc w b i j : (i < 256 ^ N.of_nat w)%N -> (j < 256 ^ N.of_nat w)%N ->
  bcmp (kb_buff (kb_append (put_field_id b) (be_bytes w (uint_not w i))))
       (kb_buff (kb_append (put_field_id b) (be_bytes w (uint_not w j)))) = N.compare j i.
Proof.
  intros Hi Hj. rewrite kb_field_cmp. unfold uint_not. rewrite bcmp_be_bytes by lia.
  destruct (N.compare_spec j i);
  [apply N.compare_eq_iff | apply N.compare_lt_iff | apply N.compare_gt_iff]; lia.
Qed.

Lemma order_uint64_desc b i j : (i < 2 ^ 64)%N -> (j < 2 ^ 64)%N ->
  bcmp (kb_buff (order_uint64 b i true)) (kb_buff (order_uint64 b j true)) = N.compare j i.
Proof. intros. apply uint_desc; auto. Qed.
Lemma order_uint32_desc b i j : (i < 2 ^ 32)%N -> (j < 2 ^ 32)%N ->
  bcmp (kb_buff (order_uint32 b i true)) (kb_buff (order_uint32 b j true)) = N.compare j i.
Proof. intros. apply uint_desc; auto. Qed.
Lemma order_uint16_desc b i j : (i < 2 ^ 16)%N -> (j < 2 ^ 16)%N ->
  bcmp (kb_buff (order_uint16 b i true)) (kb_buff (order_uint16 b j true)) = N.compare j i.
Proof. intros. apply uint_desc; auto. Qed.

Lemma order_byte_desc b x y :
  bcmp (kb_buff (order_byte b x true)) (kb_buff (order_byte b y true)) = N.compare (Byte.to_N y) (Byte.to_N x).
Proof.
  unfold order_byte, add_byte. rewrite kb_field_cmp.
  change [byte_not x] with (map byte_not [x]). change [byte_not y] with (map byte_not [y]).
  rewrite bcmp_map_not by reflexivity. cbn [bcmp]. unfold b2n.
  destruct (N.compare (Byte.to_N y) (Byte.to_N x)); reflexivity.
Qed.

Lemma order_bytes_desc b x y : length x = length y ->
  bcmp (kb_buff (fst (order_bytes b x true))) (kb_buff (fst (order_bytes b y true))) = bcmp y x.
Proof.
  intro H. unfold order_bytes, add_bytes. cbn [fst]. rewrite kb_field_cmp.
  apply bcmp_map_not; auto.
Qed.

Lemma order_big_int_desc b i j bits ki kj :
  order_big_int b i bits true = Ok ki -> order_big_int b j bits true = Ok kj ->
  bcmp (kb_buff ki) (kb_buff kj) = Z.compare j i.
Proof.
  unfold order_big_int. intros Hi Hj.
  pose proof (add_big_int_cmp _ _ _ _ _ _ [] [] Hi Hj) as H. rewrite !app_nil_r in H. rewrite H.
  destruct (Z.compare_spec (- i) (- j)); symmetry;
  [apply Z.compare_eq_iff | apply Z.compare_lt_iff | apply Z.compare_gt_iff]; lia.
Qed.

(** ** Composite keys *)

Definition ftype_width (ty : ftype) : nat :=
  match ty with
  | TInt64 => 9 | TInt32 => 5 | TInt16 => 3 | TUint64 => 8 | TUint32 => 4 | TUint16 => 2
  | TByte => 1 | TBytes => 0 | TBigInt bits => S (N.to_nat (bits / 8))
  end.

Lemma field_bytes_some ty f : has_type ty f -> exists l, field_bytes f = Some l /\
  (is_var ty = false -> length l = ftype_width ty).
Proof.
  intro H. destruct ty, f; cbn [has_type] in H; try contradiction; cbn [field_bytes];
  try (eexists; split; [reflexivity|]; intros _; cbn [ftype_width];
       rewrite ?int_field_bytes_length, ?be_bytes_length; reflexivity).
  - eexists; split; [reflexivity|]. cbn. easy.
  - destruct H as [-> H]. apply big_fits_iff in H.
    destruct (big_int_field_some _ _ H) as [l [-> Hl]]. exists l. auto.
Qed.

Lemma field_bytes_cmp ty f g lf lg : has_type ty f -> has_type ty g ->
  field_bytes f = Some lf -> field_bytes g = Some lg -> bcmp lf lg = field_cmp f g.
Proof.
  intros Hf Hg. destruct ty, f, g; cbn [has_type] in Hf, Hg; try contradiction; cbn [field_bytes field_cmp];
  intros E1 E2; try (injection E1 as <-; injection E2 as <-).
  - apply int_field_bcmp; [lia|apply int_range_8; auto|apply int_range_8; auto].
  - apply int_field_bcmp; [lia|apply int_range_4; auto|apply int_range_4; auto].
  - apply int_field_bcmp; [lia|apply int_range_2; auto|apply int_range_2; auto].
  - apply (bcmp_be_bytes 8); auto.
  - apply (bcmp_be_bytes 4); auto.
  - apply (bcmp_be_bytes 2); auto.
  - cbn [bcmp]. unfold b2n. destruct (N.compare (Byte.to_N b) (Byte.to_N b0)); reflexivity.
  - reflexivity.
  - destruct Hf as [-> _], Hg as [-> _]. eapply big_int_field_bcmp; eauto.
Qed.

Lemma field_cmp_eq ty f g : has_type ty f -> has_type ty g -> field_cmp f g = Eq -> f = g.
Proof.
  intros Hf Hg. destruct ty, f, g; cbn [has_type] in Hf, Hg; try contradiction; cbn [field_cmp]; intro E;
  try (apply Z.compare_eq in E; subst; auto); try (apply N.compare_eq in E; subst; auto).
  - f_equal. apply b2n_inj. exact E.
  - apply bcmp_eq in E. subst; auto.
  - destruct Hf as [-> _], Hg as [-> _]. reflexivity.
Qed.

Lemma fields_bytes_some s fs : Forall2 has_type s fs -> forall fid, exists l, fields_bytes fid fs = Some l.
Proof.
  induction 1 as [|ty f s fs Hf _ IH]; intros fid; cbn [fields_bytes].
  - eauto.
  - destruct (field_bytes_some _ _ Hf) as [l [-> _]]. destruct (IH (next_fid fid)) as [r ->]. eauto.
Qed.

Lemma fields_bytes_fixed_length s : var_count s = O ->
  forall fs gs fid lf lg, Forall2 has_type s fs -> Forall2 has_type s gs ->
  fields_bytes fid fs = Some lf -> fields_bytes fid gs = Some lg -> length lf = length lg.
Proof.
  induction s as [|ty s IH]; intros Hc fs gs fid lf lg Hf Hg E1 E2.
  - inversion Hf; inversion Hg; subst. cbn in E1, E2. congruence.
  - inversion Hf as [|? f ? fs' Hf1 Hf2]; inversion Hg as [|? g ? gs' Hg1 Hg2]; subst.
    cbn [fields_bytes] in E1, E2. cbn [var_count] in Hc.
    assert (V : is_var ty = false) by (destruct (is_var ty); [lia|auto]).
    destruct (field_bytes_some _ _ Hf1) as [a [Ea La]], (field_bytes_some _ _ Hg1) as [b [Eb Lb]].
    rewrite Ea in E1. rewrite Eb in E2.
    destruct (fields_bytes (next_fid fid) fs') as [r1|] eqn:R1; [|easy].
    destruct (fields_bytes (next_fid fid) gs') as [r2|] eqn:R2; [|easy].
    injection E1 as <-. injection E2 as <-. cbn [length]. rewrite !app_length.
    rewrite La, Lb by auto. rewrite V in Hc. erewrite (IH Hc fs' gs'); eauto.
Qed.

Lemma fields_bytes_inj s : (var_count s <= 1)%nat ->
  forall fs gs fid l, Forall2 has_type s fs -> Forall2 has_type s gs ->
  fields_bytes fid fs = Some l -> fields_bytes fid gs = Some l -> fs = gs.
Proof.
  induction s as [|ty s IH]; intros Hc fs gs fid l Hf Hg E1 E2.
  - inversion Hf; inversion Hg; auto.
  - inversion Hf as [|? f ? fs' Hf1 Hf2]; inversion Hg as [|? g ? gs' Hg1 Hg2]; subst.
    cbn [fields_bytes] in E1, E2. cbn [var_count] in Hc.
    destruct (field_bytes_some _ _ Hf1) as [a [Ea La]], (field_bytes_some _ _ Hg1) as [b [Eb Lb]].
    rewrite Ea in E1. rewrite Eb in E2.
    destruct (fields_bytes (next_fid fid) fs') as [r1|] eqn:R1; [|easy].
    destruct (fields_bytes (next_fid fid) gs') as [r2|] eqn:R2; [|easy].
    injection E1 as <-. injection E2 as E2.
    assert (K : a = b /\ r1 = r2).
    { destruct (is_var ty) eqn:V.
      - apply app_inj_len_r; auto.
        apply (fields_bytes_fixed_length s ltac:(lia) fs' gs' (next_fid fid)); auto.
      - apply app_inj_len; auto. rewrite La, Lb; auto. }
    destruct K as [-> ->]. f_equal.
    + eapply field_cmp_eq; eauto. rewrite <- (field_bytes_cmp _ _ _ _ _ Hf1 Hg1 Ea Eb). apply bcmp_refl.
    + eapply IH; eauto. destruct (is_var ty); lia.
Qed.

Lemma fields_bytes_cmp s : var_only_last s ->
  forall fs gs fid lf lg, Forall2 has_type s fs -> Forall2 has_type s gs ->
  fields_bytes fid fs = Some lf -> fields_bytes fid gs = Some lg -> bcmp lf lg = tuple_cmp fs gs.
Proof.
  induction s as [|ty s IH]; intros Hc fs gs fid lf lg Hf Hg E1 E2.
  - inversion Hf; inversion Hg; subst. cbn in *. injection E1 as <-. injection E2 as <-. reflexivity.
  - inversion Hf as [|? f ? fs' Hf1 Hf2]; inversion Hg as [|? g ? gs' Hg1 Hg2]; subst.
    cbn [fields_bytes] in E1, E2. cbn [tuple_cmp].
    destruct (field_bytes_some _ _ Hf1) as [a [Ea La]], (field_bytes_some _ _ Hg1) as [b [Eb Lb]].
    rewrite Ea in E1. rewrite Eb in E2.
    destruct (fields_bytes (next_fid fid) fs') as [r1|] eqn:R1; [|easy].
    destruct (fields_bytes (next_fid fid) gs') as [r2|] eqn:R2; [|easy].
    injection E1 as <-. injection E2 as <-.
    rewrite bcmp_cons, N.compare_refl.
    destruct s as [|ty' s].
    + inversion Hf2; inversion Hg2; subst. cbn in R1, R2. injection R1 as <-. injection R2 as <-.
      rewrite !app_nil_r, (field_bytes_cmp _ _ _ _ _ Hf1 Hg1 Ea Eb).
      cbn [tuple_cmp]. destruct (field_cmp f g); reflexivity.
    + destruct Hc as [V Hc].
      rewrite bcmp_app_same_len by (rewrite La, Lb; auto).
      rewrite (field_bytes_cmp _ _ _ _ _ Hf1 Hg1 Ea Eb).
      destruct (field_cmp f g); auto. eapply IH; eauto.
Qed.

Lemma add_fields_total s fs b : Forall2 has_type s fs -> exists k, add_fields b fs = Ok k.
Proof.
  intro H. destruct (fields_bytes_some _ _ H (kb_fid b)) as [l E].
  pose proof (add_fields_eq fs b) as A. rewrite E in A. destruct A as [fid A]. eauto.
Qed.

Lemma add_fields_inj s fs gs b kf kg : (var_count s <= 1)%nat ->
  Forall2 has_type s fs -> Forall2 has_type s gs ->
  add_fields b fs = Ok kf -> add_fields b gs = Ok kg -> kb_buff kf = kb_buff kg -> fs = gs.
Proof.
  intros Hc Hf Hg Ef Eg E.
  destruct (fields_bytes_some _ _ Hf (kb_fid b)) as [lf Lf].
  destruct (fields_bytes_some _ _ Hg (kb_fid b)) as [lg Lg].
  pose proof (add_fields_eq fs b) as Af. rewrite Lf in Af. destruct Af as [? Af].
  pose proof (add_fields_eq gs b) as Ag. rewrite Lg in Ag. destruct Ag as [? Ag].
  rewrite Af in Ef. rewrite Ag in Eg. injection Ef as <-. injection Eg as <-.
  cbn [kb_buff] in E. apply app_inv_head in E. subst lg.
  eapply fields_bytes_inj; eauto.
Qed.

Lemma add_fields_cmp s fs gs b kf kg : var_only_last s ->
  Forall2 has_type s fs -> Forall2 has_type s gs ->
  add_fields b fs = Ok kf -> add_fields b gs = Ok kg ->
  bcmp (kb_buff kf) (kb_buff kg) = tuple_cmp fs gs.
Proof.
  intros Hc Hf Hg Ef Eg.
  destruct (fields_bytes_some _ _ Hf (kb_fid b)) as [lf Lf].
  destruct (fields_bytes_some _ _ Hg (kb_fid b)) as [lg Lg].
  pose proof (add_fields_eq fs b) as Af. rewrite Lf in Af. destruct Af as [? Af].
  pose proof (add_fields_eq gs b) as Ag. rewrite Lg in Ag. destruct Ag as [? Ag].
  rewrite Af in Ef. rewrite Ag in Eg. injection Ef as <-. injection Eg as <-.
  cbn [kb_buff]. rewrite bcmp_app_l. eapply fields_bytes_cmp; eauto.
Qed.

Lemma add_fields_appends fs b k : add_fields (new_kb b) fs = Ok k ->
  exists l, (forall b', exists k', add_fields (new_kb b') fs = Ok k' /\ kb_buff k' = b' ++ l).
Proof.
  intro H. pose proof (add_fields_eq fs (new_kb b)) as A. cbn [new_kb kb_fid] in A.
  destruct (fields_bytes x00 fs) as [l|] eqn:E.
  - exists l. intro b'. pose proof (add_fields_eq fs (new_kb b')) as A'. cbn [new_kb kb_fid] in A'.
    rewrite E in A'. destruct A' as [fid A']. eexists; split; [exact A'|]. reflexivity.
  - rewrite A in H. easy.
Qed.

(** ** Keys *)

Lemma spec_key_layout t i ix ord pk : spec_key t i ix ord pk = layout t i ix ord pk.
Proof. reflexivity. Qed.

Lemma fits32_of_nat l : (N.of_nat (length l) < 2 ^ 32)%N -> fits32 l.
Proof. auto. Qed.

Lemma shortlex_lcmp a b : shortlex a b = lcmp a b.
Proof.
  unfold shortlex, lcmp, blen. rewrite <- Nat2N.inj_compare. reflexivity.
Qed.

(** ** Statements used verbatim by Props/Keys.v *)

Lemma key_roundtrip k : k_pk k <> [] ->
  (N.of_nat (length (k_index k)) < 2 ^ 32)%N -> (N.of_nat (length (k_order k)) < 2 ^ 32)%N ->
  key_decode (key_encode k []) = Ok k.
Proof.
  intros Hp Hi Ho. rewrite key_encode_full by auto. cbn [app].
  rewrite key_decode_layout by auto. destruct k; reflexivity.
Qed.

Lemma key_prefix_panics k : k_pk k = [] -> (N.of_nat (length (k_index k)) < 2 ^ 32)%N ->
  key_decode (key_encode k []) = Panic.
Proof.
  intros Hp Hi. unfold key_encode, is_key_prefix. rewrite Hp. rewrite app_nil_r.
  apply key_decode_prefix_panics. exact Hi.
Qed.

Lemma key_encode_spec k raw : k_pk k <> [] ->
  key_encode k raw = raw ++ spec_key (k_table k) (k_index_id k) (k_index k) (k_order k) (k_pk k).
Proof. apply key_encode_full. Qed.

Lemma key_encode_raw_spec t i (fi fo fp : bytes -> bytes) (ix ord pk buff : bytes) :
  (forall b, fi b = b ++ ix) -> (forall b, fo b = b ++ ord) -> (forall b, fp b = b ++ pk) ->
  key_encode_raw t i (Some fi) (Some fo) (Some fp) buff = buff ++ spec_key t i ix ord pk
  /\ (pk <> [] -> key_encode_raw t i (Some fi) (Some fo) (Some fp) buff
                  = buff ++ key_encode (MkKey t i ix ord pk) [])
  /\ key_encode_raw t i None None (Some fp) buff = buff ++ spec_key t i [] [] pk
  /\ key_encode_raw t i (Some fi) None None buff = buff ++ key_encode (to_key_prefix (MkKey t i ix ord pk)) [].
Proof.
  intros Hi Ho Hp. split; [|split; [|split]].
  - apply key_encode_raw_full; auto.
  - intro Hpk. rewrite key_encode_full by auto. cbn [k_table k_index_id k_index k_order k_pk].
    apply key_encode_raw_full; auto.
  - apply key_encode_raw_full; auto.
  - rewrite (key_encode_raw_prefix t i fi ix buff) by auto.
    unfold key_encode, to_key_prefix, is_key_prefix, len4. cbn [k_table k_index_id k_index k_order k_pk app].
    rewrite app_nil_r. reflexivity.
Qed.

Lemma spec_key_readback t i ix ord pk raw :
  (N.of_nat (length ix) < 2 ^ 32 - 6)%N -> (N.of_nat (length ord) < 2 ^ 32)%N ->
  let k := spec_key t i ix ord pk in
  kb_table_id k = Ok t /\ kb_index_id k = Ok i /\ kb_index k = Ok ix /\
  to_data_key_bytes k raw = Ok (raw ++ spec_key t x00 [] [] pk) /\
  (pk <> [] -> to_data_key_bytes k raw = Ok (key_encode (to_data_key (MkKey t i ix ord pk)) raw)).
Proof.
  intros Hi Ho k. subst k.
  assert (Hi' : fits32 ix) by (unfold fits32, blen; lia).
  assert (E : to_data_key_bytes (spec_key t i ix ord pk) raw = Ok (raw ++ spec_key t x00 [] [] pk)).
  { apply to_data_key_bytes_layout; auto. }
  repeat split; auto.
  - apply kb_index_layout. exact Hi.
  - intro Hp. rewrite E. rewrite key_encode_full by auto. reflexivity.
Qed.

Lemma spec_key_cmp t i ix ord pk t' i' ix' ord' pk' :
  (N.of_nat (length ix) < 2 ^ 32)%N -> (N.of_nat (length ord) < 2 ^ 32)%N ->
  (N.of_nat (length ix') < 2 ^ 32)%N -> (N.of_nat (length ord') < 2 ^ 32)%N ->
  bcmp (spec_key t i ix ord pk) (spec_key t' i' ix' ord' pk') =
  first_diff [N.compare (Byte.to_N t) (Byte.to_N t'); N.compare (Byte.to_N i) (Byte.to_N i');
              shortlex ix ix'; shortlex ord ord'; bcmp pk pk'].
Proof.
  intros H1 H2 H3 H4.
  etransitivity; [apply (layout_bcmp t i ix ord pk t' i' ix' ord' pk'); auto|].
  rewrite !shortlex_lcmp. unfold first_diff, then_cmp, b2n. cbn [fold_right].
  destruct (bcmp pk pk'); reflexivity.
Qed.

Lemma spec_key_inj t i ix ord pk t' i' ix' ord' pk' :
  (N.of_nat (length ix) < 2 ^ 32)%N -> (N.of_nat (length ord) < 2 ^ 32)%N ->
  (N.of_nat (length ix') < 2 ^ 32)%N -> (N.of_nat (length ord') < 2 ^ 32)%N ->
  spec_key t i ix ord pk = spec_key t' i' ix' ord' pk' ->
  (t, i, ix, ord, pk) = (t', i', ix', ord', pk').
Proof.
  intros H1 H2 H3 H4 H.
  destruct (layout_inj t i ix ord pk t' i' ix' ord' pk') as [-> [-> [-> [-> ->]]]]; auto.
Qed.

Lemma user_key_apart k t i ix ord pk : t <> x00 \/ i <> xff -> k <> [] ->
  new_user_key k <> spec_key t i ix ord pk.
Proof.
  intros Ht Hk. unfold new_user_key. rewrite key_encode_full by exact Hk. cbn [app k_table].
  unfold layout, spec_key. cbn [k_index_id k_table]. intro E.
  apply (app_inj_len [bond_table_id; bond_user_index_id] [t; i] _ _ eq_refl) in E as [E _].
  injection E as <- <-. destruct Ht as [Ht|Ht]; apply Ht; reflexivity.
Qed.

Lemma user_key_inj k k' : k <> [] -> k' <> [] -> new_user_key k = new_user_key k' -> k = k'.
Proof.
  intros H H' E. unfold new_user_key in E. rewrite !key_encode_full in E by auto.
  cbn [app k_table k_index_id k_index k_order k_pk] in E.
  apply layout_inj in E; [tauto|..]; unfold fits32, blen; cbn; lia.
Qed.

(** a key that has at least a complete prefix: any row key, index key or bound *)
Definition wf_key (k : bytes) : Prop :=
  exists t i ix rest, (N.of_nat (length ix) < 2 ^ 32)%N /\
    k = [t; i] ++ be_bytes 4 (N.of_nat (length ix)) ++ ix ++ rest.

Lemma wf_key_prefix_layout t i ix rest :
  [t; i] ++ be_bytes 4 (N.of_nat (length ix)) ++ ix ++ rest = prefix_layout t i ix ++ rest.
Proof. unfold prefix_layout, blen. rewrite <- !app_comm_cons, <- app_assoc. reflexivity. Qed.

Lemma split_contract a b : wf_key a -> wf_key b ->
  exists pa pb, key_prefix_of a = Ok pa /\ key_prefix_of b = Ok pb /\
    (ble a b -> ble pa pb) /\ has_prefix pa a = true /\ has_prefix pb b = true /\
    key_prefix_of pa = Ok pa.
Proof.
  intros [t [i [ix [r [H1 ->]]]]] [t' [i' [ix' [r' [H2 ->]]]]].
  rewrite !wf_key_prefix_layout.
  exists (prefix_layout t i ix), (prefix_layout t' i' ix').
  rewrite !key_prefix_of_layout by auto. repeat split.
  - unfold ble. rewrite prefix_layout_bcmp by auto.
    destruct (bcmp (prefix_layout t i ix) (prefix_layout t' i' ix')); cbn [then_cmp]; easy.
  - apply has_prefix_app.
  - apply has_prefix_app.
  - rewrite <- (app_nil_r (prefix_layout t i ix)) at 1. apply key_prefix_of_layout; auto.
Qed.

Lemma split_same_prefix t i ix ord pk t' i' ix' ord' pk' :
  (N.of_nat (length ix) < 2 ^ 32)%N -> (N.of_nat (length ix') < 2 ^ 32)%N ->
  key_prefix_of (spec_key t i ix ord pk) = key_prefix_of (spec_key t' i' ix' ord' pk')
  <-> (t, i, ix) = (t', i', ix').
Proof.
  intros H1 H2.
  replace (spec_key t i ix ord pk) with (prefix_layout t i ix ++ be_bytes 4 (blen ord) ++ ord ++ pk)
    by (symmetry; apply layout_prefix).
  replace (spec_key t' i' ix' ord' pk') with (prefix_layout t' i' ix' ++ be_bytes 4 (blen ord') ++ ord' ++ pk')
    by (symmetry; apply layout_prefix).
  rewrite !key_prefix_of_layout by auto. split; intro E.
  - injection E as E. 
    pose proof (prefix_layout_inj_app t i ix [] t' i' ix' [] H1 H2) as J. rewrite !app_nil_r in J.
    assert (E2 : prefix_layout t i ix = prefix_layout t' i' ix').
    { pose proof (key_prefix_of_layout t i ix [] H1). pose proof (key_prefix_of_layout t' i' ix' [] H2).
      unfold prefix_layout. congruence. }
    destruct (J E2) as [-> [-> [-> _]]]. reflexivity.
  - injection E as -> -> ->. reflexivity.
Qed.

Lemma desc_min_int_refuted :
  let b := new_kb [] in
  (exists i j, (- 2 ^ 63 <= i < 2 ^ 63)%Z /\ (- 2 ^ 63 <= j < 2 ^ 63)%Z /\ (i < j)%Z /\
    ~ blt (kb_buff (order_int64 b j true)) (kb_buff (order_int64 b i true))) /\
  (exists i j, (- 2 ^ 31 <= i < 2 ^ 31)%Z /\ (- 2 ^ 31 <= j < 2 ^ 31)%Z /\ (i < j)%Z /\
    ~ blt (kb_buff (order_int32 b j true)) (kb_buff (order_int32 b i true))) /\
  (exists i j, (- 2 ^ 15 <= i < 2 ^ 15)%Z /\ (- 2 ^ 15 <= j < 2 ^ 15)%Z /\ (i < j)%Z /\
    ~ blt (kb_buff (order_int16 b j true)) (kb_buff (order_int16 b i true))).
Proof.
  intro b. split; [|split].
  - exists (- 2 ^ 63)%Z, 5%Z. repeat split; try lia. vm_compute. discriminate.
  - exists (- 2 ^ 31)%Z, 5%Z. repeat split; try lia. vm_compute. discriminate.
  - exists (- 2 ^ 15)%Z, 5%Z. repeat split; try lia. vm_compute. discriminate.
Qed.

Lemma desc_bytes_refuted : exists x y, blt x y /\
  ~ blt (kb_buff (fst (order_bytes (new_kb []) y true))) (kb_buff (fst (order_bytes (new_kb []) x true))).
Proof. exists [x61], [x61; x62]. split; vm_compute; [reflexivity|discriminate]. Qed.

Lemma two_strings_refuted : exists fs gs kf kg,
  Forall2 has_type [TBytes; TBytes] fs /\ Forall2 has_type [TBytes; TBytes] gs /\ fs <> gs /\
  add_fields (new_kb []) fs = Ok kf /\ add_fields (new_kb []) gs = Ok kg /\ kb_buff kf = kb_buff kg.
Proof.
  exists [FBytes [x61; x02; x62]; FBytes [x63]], [FBytes [x61]; FBytes [x62; x02; x63]].
  eexists. eexists. split; [repeat constructor|]. split; [repeat constructor|].
  split; [discriminate|]. split; [reflexivity|]. split; reflexivity.
Qed.

Lemma inner_string_refuted : exists fs gs kf kg,
  Forall2 has_type [TBytes; TByte] fs /\ Forall2 has_type [TBytes; TByte] gs /\
  add_fields (new_kb []) fs = Ok kf /\ add_fields (new_kb []) gs = Ok kg /\
  tuple_cmp fs gs = Lt /\ bcmp (kb_buff kf) (kb_buff kg) = Gt.
Proof.
  exists [FBytes [x61]; FByte x00], [FBytes [x61; x01]; FByte x00].
  eexists. eexists. split; [repeat constructor|]. split; [repeat constructor|].
  split; [reflexivity|]. split; [reflexivity|]. split; reflexivity.
Qed.

(** ** Rows and entries told apart *)
Lemma bytes_class t i ix ord pk : let k := spec_key t i ix ord pk in
  (kb_is_data_key k = Ok true <-> i = x00) /\ (kb_is_index_key k = Ok true <-> i <> x00) /\
  exists d, kb_is_data_key k = Ok d /\ kb_is_index_key k = Ok (negb d).
Proof.
  cbv zeta. unfold kb_is_data_key, kb_is_index_key, spec_key. cbn [app kb_index_id]. split; [|split].
  - split; [intros E|intros ->; reflexivity]. injection E as E. apply N.eqb_eq in E. destruct i; (reflexivity || discriminate).
  - split; [intros E ->; discriminate|]. intros N. destruct i; (reflexivity || now destruct N).
  - eexists. split; reflexivity.
Qed.

Lemma row_class t pk : exists k, key_decode (spec_key t x00 [] [] pk) = Ok k /\ is_data_key k = true /\ is_index_key k = false.
Proof. eexists. split; [change (spec_key t x00 [] [] pk) with (layout t x00 [] [] pk); apply key_decode_layout; unfold fits32; vm_compute; reflexivity|]. split; reflexivity. Qed.

Lemma entry_class t i ix ord pk : (N.of_nat (length ix) < 2 ^ 32)%N -> (N.of_nat (length ord) < 2 ^ 32)%N -> i <> x00 ->
  exists k, key_decode (spec_key t i ix ord pk) = Ok k /\ is_data_key k = false /\
  (is_index_key k = true <-> ix <> []).
Proof.
  intros LI LO N. eexists. split; [change (spec_key t i ix ord pk) with (layout t i ix ord pk); apply (key_decode_layout t i ix ord pk LI LO)|]. unfold is_data_key, is_index_key. cbn [k_index_id k_index].
  assert (Z : (b2n i =? 0)%N = false) by (destruct i; (reflexivity || now destruct N)). rewrite Z. cbn [negb andb]. split; auto.
  unfold blen. clear LI LO. destruct ix as [|x ix].
  - split; [intros E; discriminate E|intros E; now destruct E].
  - split; [intros _; discriminate|intros _]. reflexivity.
Qed.
