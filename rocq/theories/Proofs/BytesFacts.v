(** Facts about byte strings, their order and big-endian numbers. *)

From Coq Require Import List NArith ZArith Lia Bool.
From Coq Require Import Strings.Byte.
From Verif.Model Require Import Bytes.
Import ListNotations.
Local Open Scope N_scope.

Lemma b2n_lt b : b2n b < 256.
Proof. unfold b2n. pose proof (Byte.to_N_bounded b). lia. Qed.

Lemma b2n_n2b n : b2n (n2b n) = n mod 256.
Proof.
  unfold n2b, b2n. destruct (Byte.of_N (n mod 256)) eqn:E.
  - apply Byte.to_of_N. exact E.
  - apply Byte.of_N_None_iff in E.
    pose proof (N.mod_upper_bound n 256 ltac:(lia)). lia.
Qed.

Lemma n2b_b2n b : n2b (b2n b) = b.
Proof.
  unfold n2b. rewrite N.mod_small by apply b2n_lt.
  unfold b2n. rewrite Byte.of_to_N. reflexivity.
Qed.

Lemma b2n_inj a b : b2n a = b2n b -> a = b.
Proof. intro H. rewrite <- (n2b_b2n a), <- (n2b_b2n b), H. reflexivity. Qed.

Lemma n2b_inj_small a b : a < 256 -> b < 256 -> n2b a = n2b b -> a = b.
Proof.
  intros Ha Hb H. apply (f_equal b2n) in H. rewrite !b2n_n2b in H.
  rewrite !N.mod_small in H; auto.
Qed.

Lemma byte_eq_dec (a b : byte) : {a = b} + {a <> b}.
Proof.
  destruct (N.eq_dec (b2n a) (b2n b)) as [E|E].
  - left. apply b2n_inj; exact E.
  - right. intro; subst; auto.
Qed.

Lemma bytes_eq_dec (a b : bytes) : {a = b} + {a <> b}.
Proof. apply list_eq_dec, byte_eq_dec. Qed.

(** ** Lexicographic order *)

Lemma bcmp_refl a : bcmp a a = Eq.
Proof. induction a; simpl; auto. rewrite N.compare_refl; auto. Qed.

Lemma bcmp_eq a : forall b, bcmp a b = Eq <-> a = b.
Proof.
  induction a as [|x a IH]; intros [|y b]; simpl; split; intro H; try easy.
  - destruct (N.compare_spec (b2n x) (b2n y)) as [E|E|E]; try easy.
    apply b2n_inj in E; subst. apply IH in H; subst; auto.
  - inversion H; subst. rewrite N.compare_refl. apply IH; auto.
Qed.

Lemma bcmp_antisym a : forall b, bcmp b a = CompOpp (bcmp a b).
Proof.
  induction a as [|x a IH]; intros [|y b]; simpl; auto.
  rewrite (N.compare_antisym (b2n x) (b2n y)).
  destruct (N.compare (b2n x) (b2n y)); simpl; auto.
Qed.

Lemma bcmp_cons x a y b :
  bcmp (x :: a) (y :: b) = match N.compare (b2n x) (b2n y) with Eq => bcmp a b | c => c end.
Proof. reflexivity. Qed.

Lemma blt_trans a : forall b c, blt a b -> blt b c -> blt a c.
Proof.
  unfold blt.
  induction a as [|x a IH]; intros [|y b] [|z c]; simpl; intros H1 H2; try easy.
  destruct (N.compare_spec (b2n x) (b2n y)) as [E1|E1|E1];
  destruct (N.compare_spec (b2n y) (b2n z)) as [E2|E2|E2]; try easy.
  - rewrite E1, E2, N.compare_refl. eapply IH; eauto.
  - rewrite E1. apply N.compare_lt_iff in E2; rewrite E2; auto.
  - rewrite <- E2. apply N.compare_lt_iff in E1; rewrite E1; auto.
  - assert (E : b2n x < b2n z) by lia. apply N.compare_lt_iff in E; rewrite E; auto.
Qed.

Lemma blt_irrefl a : ~ blt a a.
Proof. unfold blt. rewrite bcmp_refl. easy. Qed.

Lemma blt_asym a b : blt a b -> ~ blt b a.
Proof. intros H1 H2. apply (blt_irrefl a). eapply blt_trans; eauto. Qed.

Lemma ble_refl a : ble a a.
Proof. unfold ble. rewrite bcmp_refl. easy. Qed.

Lemma ble_lteq a b : ble a b <-> blt a b \/ a = b.
Proof.
  unfold ble, blt. rewrite <- bcmp_eq. destruct (bcmp a b); split; intro H;
   try easy; try tauto; destruct H; easy.
Qed.

Lemma blt_le a b : blt a b -> ble a b.
Proof. rewrite ble_lteq; auto. Qed.

Lemma ble_trans a b c : ble a b -> ble b c -> ble a c.
Proof.
  rewrite !ble_lteq. intros [H|H] [H'|H']; subst; auto. left; eapply blt_trans; eauto.
Qed.

Lemma blt_le_trans a b c : blt a b -> ble b c -> blt a c.
Proof. rewrite ble_lteq. intros H [H'|H']; subst; auto. eapply blt_trans; eauto. Qed.

Lemma ble_lt_trans a b c : ble a b -> blt b c -> blt a c.
Proof. rewrite ble_lteq. intros [H|H] H'; subst; auto. eapply blt_trans; eauto. Qed.

Lemma blt_not_le a b : blt a b <-> ~ ble b a.
Proof.
  unfold blt, ble. rewrite (bcmp_antisym a b). destruct (bcmp a b); simpl; split; intro H;
  try easy; try (exfalso; apply H; easy).
Qed.

Lemma ble_not_lt a b : ble a b <-> ~ blt b a.
Proof.
  unfold blt, ble. rewrite (bcmp_antisym a b).
  destruct (bcmp a b); simpl; split; intro H; easy.
Qed.

Lemma blt_total a b : blt a b \/ a = b \/ blt b a.
Proof.
  unfold blt. rewrite (bcmp_antisym a b), <- bcmp_eq.
  destruct (bcmp a b); simpl; auto.
Qed.

Lemma ble_total a b : ble a b \/ ble b a.
Proof. destruct (blt_total a b) as [H|[H|H]]; [left|left|right]; rewrite ble_lteq; auto. Qed.

Lemma ble_antisym a b : ble a b -> ble b a -> a = b.
Proof.
  rewrite !ble_lteq. intros [H|H] [H'|H']; auto. exfalso; eapply blt_asym; eauto.
Qed.

Lemma bltb_lt a b : bltb a b = true <-> blt a b.
Proof. unfold bltb, blt. destruct (bcmp a b); split; easy. Qed.

Lemma bltb_ge a b : bltb a b = false <-> ble b a.
Proof.
  unfold bltb, ble. rewrite (bcmp_antisym a b). destruct (bcmp a b); simpl; split; intro H; try easy.
  all: try (exfalso; apply H; auto).
Qed.

Lemma bleb_le a b : bleb a b = true <-> ble a b.
Proof. unfold bleb, ble. destruct (bcmp a b); split; intro H; try easy. all: try (exfalso; apply H; auto). Qed.

Lemma bleb_gt a b : bleb a b = false <-> blt b a.
Proof.
  unfold bleb, blt. rewrite (bcmp_antisym a b). destruct (bcmp a b); simpl; split; easy.
Qed.

Lemma beqb_eq a b : beqb a b = true <-> a = b.
Proof. unfold beqb. rewrite <- bcmp_eq. destruct (bcmp a b); split; easy. Qed.

Lemma beqb_neq a b : beqb a b = false <-> a <> b.
Proof. unfold beqb. rewrite <- bcmp_eq. destruct (bcmp a b); split; easy. Qed.

Lemma beqb_refl a : beqb a a = true.
Proof. apply beqb_eq; auto. Qed.

Lemma bltb_irrefl a : bltb a a = false.
Proof. apply bltb_ge, ble_refl. Qed.

Lemma bcmp_app_l p : forall a b, bcmp (p ++ a) (p ++ b) = bcmp a b.
Proof. induction p; intros; simpl; auto. rewrite N.compare_refl; auto. Qed.

Lemma blt_app_l p a b : blt (p ++ a) (p ++ b) <-> blt a b.
Proof. unfold blt. rewrite bcmp_app_l. tauto. Qed.

Lemma ble_app_l p a b : ble (p ++ a) (p ++ b) <-> ble a b.
Proof. unfold ble. rewrite bcmp_app_l. tauto. Qed.

Lemma bcmp_nil_l b : ble [] b.
Proof. unfold ble. destruct b; simpl; easy. Qed.

Lemma ble_app p a : ble p (p ++ a).
Proof. rewrite <- (app_nil_r p) at 1. apply ble_app_l, bcmp_nil_l. Qed.

(** same-length heads decide unless equal *)
Lemma bcmp_app_same_len a : forall b x y, length a = length b ->
  bcmp (a ++ x) (b ++ y) = match bcmp a b with Eq => bcmp x y | c => c end.
Proof.
  induction a as [|h a IH]; intros [|k b] x y H; simpl in *; try easy.
  destruct (N.compare (b2n h) (b2n k)); auto.
Qed.

Lemma blt_app_same_len a b x y : length a = length b ->
  blt (a ++ x) (b ++ y) <-> blt a b \/ (a = b /\ blt x y).
Proof.
  intros H. unfold blt. rewrite bcmp_app_same_len by auto.
  rewrite <- (bcmp_eq a b). destruct (bcmp a b); split; intro H'; auto; try easy;
  try (destruct H' as [H'|[H' H'']]; easy).
Qed.

Lemma blt_app_r_weak a b x y : blt a b -> ~ has_prefix a b = true -> blt (a ++ x) (b ++ y).
Proof.
  revert b. induction a as [|h a IH]; intros [|k b]; simpl; intros H Hp; try easy.
  unfold blt in *; simpl in *.
  destruct (N.compare_spec (b2n h) (b2n k)) as [E|E|E]; try easy.
  apply IH; auto. intro Hq. apply Hp. rewrite E, N.eqb_refl. auto.
Qed.

Lemma has_prefix_app p l : has_prefix p (p ++ l) = true.
Proof. induction p; simpl; auto. rewrite N.eqb_refl; auto. Qed.

Lemma has_prefix_spec p l : has_prefix p l = true <-> exists s, l = p ++ s.
Proof.
  split.
  - revert l. induction p as [|x p IH]; intros l H; simpl in *.
    + exists l; auto.
    + destruct l as [|y l]; try easy. apply andb_true_iff in H as [H1 H2].
      apply N.eqb_eq, b2n_inj in H1; subst. apply IH in H2 as [s ->]. exists s; auto.
  - intros [s ->]. apply has_prefix_app.
Qed.

(** ** Big-endian numbers *)

Lemma be_bytes_length w n : length (be_bytes w n) = w.
Proof. induction w; simpl; auto. Qed.

Lemma pow256_pos w : 0 < 256 ^ N.of_nat w.
Proof. apply N.neq_0_lt_0, N.pow_nonzero. lia. Qed.

Lemma pow256_S w : 256 ^ N.of_nat (S w) = 256 * 256 ^ N.of_nat w.
Proof. rewrite Nat2N.inj_succ, N.pow_succ_r'. reflexivity. Qed.

Lemma be_bytes_mod w : forall n, be_bytes w (n mod 256 ^ N.of_nat w) = be_bytes w n.
Proof.
  cut (forall w' n k, be_bytes w' (n mod (256 ^ N.of_nat (w' + k))) = be_bytes w' n).
  { intros H n. specialize (H w n O). rewrite Nat.add_0_r in H. exact H. }
  induction w' as [|w' IH]; intros n k; [reflexivity|].
  cbn [be_bytes]. f_equal.
  2:{ replace (S w' + k)%nat with (w' + S k)%nat by lia. apply IH. }
  apply b2n_inj. rewrite !b2n_n2b.
  set (P := 256 ^ N.of_nat w').
  assert (HP : P <> 0) by (unfold P; pose proof (pow256_pos w'); lia).
  set (Q := 256 ^ N.of_nat k).
  assert (HQ : Q <> 0) by (unfold Q; pose proof (pow256_pos k); lia).
  replace (256 ^ N.of_nat (S w' + k)) with (P * (256 * Q)).
  2:{ unfold P, Q. replace (S w' + k)%nat with (S (w' + k)) by lia.
      rewrite pow256_S, Nat2N.inj_add, N.pow_add_r. lia. }
  rewrite N.mod_mul_r by lia.
  rewrite (N.mul_comm P ((n / P) mod (256 * Q))), N.div_add by lia.
  rewrite (N.div_small (n mod P) P) by (apply N.mod_upper_bound; lia).
  rewrite N.add_0_l.
  rewrite N.mod_mul_r by lia.
  rewrite (N.mul_comm 256 _), N.mod_add by lia.
  rewrite N.mod_mod by lia. reflexivity.
Qed.

Lemma be_val_acc_app l : forall acc l', be_val_acc acc (l ++ l') = be_val_acc (be_val_acc acc l) l'.
Proof. induction l; simpl; auto. Qed.

Lemma be_val_acc_shift l : forall acc, be_val_acc acc l = acc * 256 ^ N.of_nat (length l) + be_val l.
Proof.
  unfold be_val. induction l as [|b l IH]; intros acc.
  - simpl. lia.
  - cbn [be_val_acc length]. rewrite IH, (IH (0 * 256 + b2n b)), pow256_S. lia.
Qed.

Lemma be_val_cons b l : be_val (b :: l) = b2n b * 256 ^ N.of_nat (length l) + be_val l.
Proof. unfold be_val at 1. cbn [be_val_acc]. rewrite be_val_acc_shift. lia. Qed.

Lemma be_val_lt l : be_val l < 256 ^ N.of_nat (length l).
Proof.
  induction l as [|b l IH].
  - simpl. unfold be_val; simpl. lia.
  - rewrite be_val_cons. cbn [length]. rewrite pow256_S. pose proof (b2n_lt b). nia.
Qed.

Lemma be_val_bytes w n : be_val (be_bytes w n) = n mod 256 ^ N.of_nat w.
Proof.
  induction w as [|w IH].
  - change (256 ^ N.of_nat 0) with 1. rewrite N.mod_1_r. reflexivity.
  - cbn [be_bytes]. rewrite be_val_cons, be_bytes_length, IH, b2n_n2b, pow256_S.
    set (P := 256 ^ N.of_nat w).
    assert (P <> 0) by (unfold P; pose proof (pow256_pos w); lia).
    rewrite (N.mul_comm 256 P), N.mod_mul_r by lia. lia.
Qed.

Lemma be_val_bytes_small w n : n < 256 ^ N.of_nat w -> be_val (be_bytes w n) = n.
Proof. intro H. rewrite be_val_bytes, N.mod_small; auto. Qed.

Lemma be_val_inj a b : length a = length b -> be_val a = be_val b -> a = b.
Proof.
  revert b. induction a as [|x a IH]; intros [|y b] Hl Hv; simpl in Hl; try easy.
  rewrite !be_val_cons in Hv. injection Hl as Hl. rewrite Hl in Hv.
  pose proof (be_val_lt a) as La. pose proof (be_val_lt b) as Lb. rewrite Hl in La.
  assert (b2n x = b2n y) by nia.
  f_equal. { apply b2n_inj; auto. }
  apply IH; auto. nia.
Qed.

Lemma be_bytes_val l : be_bytes (length l) (be_val l) = l.
Proof.
  apply be_val_inj. { apply be_bytes_length. }
  apply be_val_bytes_small, be_val_lt.
Qed.

Lemma bcmp_be_val a : forall b, length a = length b -> bcmp a b = N.compare (be_val a) (be_val b).
Proof.
  induction a as [|x a IH]; intros [|y b] Hl; simpl in Hl; try easy.
  injection Hl as Hl. cbn [bcmp]. rewrite !be_val_cons, IH by auto. rewrite Hl.
  pose proof (be_val_lt a) as La. pose proof (be_val_lt b) as Lb. rewrite Hl in La.
  set (P := 256 ^ N.of_nat (length b)) in *.
  destruct (N.compare_spec (b2n x) (b2n y)) as [E|E|E].
  - rewrite E. destruct (N.compare_spec (be_val a) (be_val b)) as [F|F|F]; symmetry.
    + apply N.compare_eq_iff. nia.
    + apply N.compare_lt_iff. nia.
    + apply N.compare_gt_iff. nia.
  - symmetry. apply N.compare_lt_iff. nia.
  - symmetry. apply N.compare_gt_iff. nia.
Qed.

Lemma bcmp_be_bytes w a b : a < 256 ^ N.of_nat w -> b < 256 ^ N.of_nat w ->
  bcmp (be_bytes w a) (be_bytes w b) = N.compare a b.
Proof.
  intros Ha Hb. rewrite bcmp_be_val by (rewrite !be_bytes_length; auto).
  rewrite !be_val_bytes_small; auto.
Qed.

Lemma be_bytes_inj w a b : a < 256 ^ N.of_nat w -> b < 256 ^ N.of_nat w ->
  be_bytes w a = be_bytes w b -> a = b.
Proof.
  intros Ha Hb H. apply (f_equal be_val) in H. rewrite !be_val_bytes_small in H; auto.
Qed.

Lemma app_inj_len {A} (a b x y : list A) : length a = length b -> a ++ x = b ++ y -> a = b /\ x = y.
Proof.
  revert b. induction a as [|h a IH]; intros [|k b] Hl H; simpl in *; try easy.
  injection H as -> H. injection Hl as Hl. destruct (IH _ Hl H); subst; auto.
Qed.

Lemma app_inj_len_r {A} (a b x y : list A) : length x = length y -> a ++ x = b ++ y -> a = b /\ x = y.
Proof.
  intros Hl H. apply app_inj_len; auto.
  apply (f_equal (@length A)) in H. rewrite !app_length in H. lia.
Qed.
