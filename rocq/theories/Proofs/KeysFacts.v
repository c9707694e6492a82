(** Facts about field encodings, key layout and prefix successors. *)

From Coq Require Import List NArith ZArith Lia Bool.
From Verif.Model Require Import Bytes Go Keys.
From Verif.Proofs Require Import BytesFacts.
Import ListNotations.
Local Open Scope Z_scope.

(** ** Integers *)

Lemma pow256Z_pos w : 0 < 256 ^ Z.of_nat w.
Proof. apply Z.pow_pos_nonneg; lia. Qed.

Lemma pow256Z_even w : (0 < w)%nat -> exists h, 256 ^ Z.of_nat w = 2 * h /\ 1 < h.
Proof.
  intro H. destruct w as [|w]; [lia|].
  exists (128 * 256 ^ Z.of_nat w). pose proof (pow256Z_pos w). split; [|lia].
  rewrite Nat2Z.inj_succ, Z.pow_succ_r by lia. lia.
Qed.

Lemma to_signed_mod w z : to_signed w z mod 256 ^ Z.of_nat w = z mod 256 ^ Z.of_nat w.
Proof.
  unfold to_signed. pose proof (pow256Z_pos w) as Hp.
  destruct (z mod 256 ^ Z.of_nat w <? 256 ^ Z.of_nat w / 2).
  - apply Z.mod_mod; lia.
  - rewrite <- Zminus_mod_idemp_r, Z.mod_same, Z.sub_0_r, Z.mod_mod by lia. reflexivity.
Qed.

Lemma z_not_mod m a b : 0 < m -> a mod m = b mod m -> z_not a mod m = z_not b mod m.
Proof.
  intros Hm H. unfold z_not.
  rewrite (Zminus_mod (-a)), (Zminus_mod (-b)).
  assert (E : (-a) mod m = (-b) mod m).
  { replace (-a) with (0 - a) by lia. replace (-b) with (0 - b) by lia.
    rewrite (Zminus_mod 0 a), (Zminus_mod 0 b), H. reflexivity. }
  rewrite E. reflexivity.
Qed.

Lemma to_unsigned_neg w i : (0 < w)%nat -> int_range w i -> i < 0 ->
  to_unsigned w (z_not (to_signed w (- i))) = Z.to_N (i - 1 + 256 ^ Z.of_nat w).
Proof.
  intros Hw Hr Hi. destruct (pow256Z_even w Hw) as [h [Eh Hh]].
  unfold to_unsigned, int_range in *. rewrite Eh in *.
  replace (2 * h / 2) with h in Hr by (rewrite Z.mul_comm, Z.div_mul; lia).
  f_equal.
  rewrite (z_not_mod (2 * h) _ (- i)); [|lia|].
  2:{ rewrite <- Eh. apply to_signed_mod. }
  unfold z_not. replace (- - i - 1) with (i - 1) by lia.
  symmetry. apply (Z.mod_unique_pos _ _ (-1)); lia.
Qed.

Lemma to_unsigned_nonneg w i : int_range w i -> 0 <= i -> to_unsigned w i = Z.to_N i.
Proof.
  intros Hr Hi. unfold to_unsigned, int_range in *. pose proof (pow256Z_pos w).
  rewrite Z.mod_small; auto.
  assert (256 ^ Z.of_nat w / 2 <= 256 ^ Z.of_nat w) by (apply Z.div_le_upper_bound; lia). lia.
Qed.

Lemma to_unsigned_lt w z : (to_unsigned w z < 256 ^ N.of_nat w)%N.
Proof.
  unfold to_unsigned. pose proof (pow256Z_pos w).
  pose proof (Z.mod_pos_bound z (256 ^ Z.of_nat w) ltac:(lia)).
  apply N2Z.inj_lt. rewrite Z2N.id by lia. rewrite N2Z.inj_pow, nat_N_Z. simpl Z.of_N. lia.
Qed.

Lemma int_field_bytes_length w i : length (int_field_bytes w i) = S w.
Proof. unfold int_field_bytes. cbn [length]. rewrite be_bytes_length. reflexivity. Qed.

Lemma int_field_bcmp w i j : (0 < w)%nat -> int_range w i -> int_range w j ->
  bcmp (int_field_bytes w i) (int_field_bytes w j) = Z.compare i j.
Proof.
  intros Hw Hi Hj. unfold int_field_bytes. rewrite bcmp_cons.
  rewrite bcmp_be_bytes by apply to_unsigned_lt.
  destruct (Z.ltb_spec 0 i) as [I1|I1]; destruct (Z.ltb_spec 0 j) as [J1|J1];
  destruct (Z.ltb_spec i 0) as [I2|I2]; destruct (Z.ltb_spec j 0) as [J2|J2]; try lia;
  repeat match goal with |- context [?a =? 0] => destruct (Z.eqb_spec a 0); try lia end;
  subst;
  change (b2n x02) with 2%N; change (b2n x01) with 1%N; change (b2n x00) with 0%N;
  cbn [N.compare Pos.compare Pos.compare_cont];
  try (symmetry; apply Z.compare_gt_iff; lia);
  try (symmetry; apply Z.compare_lt_iff; lia).
  - rewrite !to_unsigned_nonneg by (auto; lia).
    destruct (Z.compare_spec i j); subst;
    [apply N.compare_eq_iff | apply N.compare_lt_iff | apply N.compare_gt_iff]; lia.
  - rewrite !to_unsigned_neg by auto.
    pose proof (pow256Z_pos w).
    destruct (pow256Z_even w Hw) as [h [Eh Hh]].
    assert (- h <= i < h /\ - h <= j < h).
    { unfold int_range in *. rewrite Eh in *. rewrite Z.mul_comm, Z.div_mul in * by lia. lia. }
    rewrite Eh.
    destruct (Z.compare_spec i j); subst;
    [apply N.compare_eq_iff | apply N.compare_lt_iff | apply N.compare_gt_iff]; lia.
  - rewrite N.compare_refl. reflexivity.
Qed.

Lemma to_signed_neg_small w i : (0 < w)%nat -> int_range w i -> i <> - (256 ^ Z.of_nat w / 2) ->
  to_signed w (- i) = - i.
Proof.
  intros Hw Hr Hn. destruct (pow256Z_even w Hw) as [h [Eh Hh]].
  unfold int_range, to_signed in *. rewrite Eh in *.
  assert (Eh2 : 2 * h / 2 = h) by (rewrite Z.mul_comm, Z.div_mul; lia).
  rewrite Eh2 in *.
  destruct (Z_lt_dec 0 i).
  - replace (- i mod (2 * h)) with (- i + 2 * h) by (apply (Z.mod_unique_pos _ _ (-1)); lia).
    destruct (Z.ltb_spec (- i + 2 * h) h); lia.
  - rewrite Z.mod_small by lia. destruct (Z.ltb_spec (- i) h); lia.
Qed.

Lemma int_range_opp w i : (0 < w)%nat -> int_range w i -> i <> - (256 ^ Z.of_nat w / 2) ->
  int_range w (- i).
Proof. unfold int_range. lia. Qed.

Lemma to_signed_min w : (0 < w)%nat ->
  to_signed w (- - (256 ^ Z.of_nat w / 2)) = - (256 ^ Z.of_nat w / 2).
Proof.
  intro Hw. destruct (pow256Z_even w Hw) as [h [Eh Hh]].
  unfold to_signed. rewrite Eh. rewrite Z.mul_comm, Z.div_mul by lia.
  rewrite Z.opp_involutive. rewrite Z.mod_small by lia.
  destruct (Z.ltb_spec h h); lia.
Qed.

(** ** Byte complement *)

Lemma b2n_byte_not x : b2n (byte_not x) = (255 - b2n x)%N.
Proof.
  unfold byte_not. rewrite b2n_n2b. apply N.mod_small. pose proof (b2n_lt x). lia.
Qed.

Lemma bcmp_map_not a : forall b, length a = length b ->
  bcmp (map byte_not a) (map byte_not b) = bcmp b a.
Proof.
  induction a as [|x a IH]; intros [|y b] H; simpl in *; try easy.
  rewrite !b2n_byte_not. pose proof (b2n_lt x). pose proof (b2n_lt y).
  rewrite IH by lia.
  assert (E : N.compare (255 - b2n x) (255 - b2n y) = N.compare (b2n y) (b2n x)).
  { destruct (N.compare_spec (b2n y) (b2n x));
    [apply N.compare_eq_iff | apply N.compare_lt_iff | apply N.compare_gt_iff]; lia. }
  rewrite E. reflexivity.
Qed.

Lemma byte_not_invol x : byte_not (byte_not x) = x.
Proof. apply b2n_inj. rewrite !b2n_byte_not. pose proof (b2n_lt x). lia. Qed.

(** ** Big integers *)

Definition big_fits (bits : N) (i : Z) : Prop :=
  (Z.to_N (Z.abs i) < 256 ^ (bits / 8))%N.

Lemma big_int_field_some i bits : big_fits bits i ->
  exists l, big_int_field_bytes i bits = Some l /\ length l = S (N.to_nat (bits / 8)).
Proof.
  unfold big_fits, big_int_field_bytes. intro H. rewrite N2Nat.id.
  apply N.ltb_lt in H. rewrite H. eexists; split; [reflexivity|].
  cbn [length]. destruct (i <? 0); rewrite ?map_length, be_bytes_length; reflexivity.
Qed.

Lemma big_int_field_none i bits : ~ big_fits bits i -> big_int_field_bytes i bits = None.
Proof.
  unfold big_fits, big_int_field_bytes. intro H. rewrite N2Nat.id.
  destruct (N.ltb_spec (Z.to_N (Z.abs i)) (256 ^ (bits / 8))); [contradiction|reflexivity].
Qed.

Lemma big_int_field_bcmp i j bits li lj :
  big_int_field_bytes i bits = Some li -> big_int_field_bytes j bits = Some lj ->
  bcmp li lj = Z.compare i j.
Proof.
  unfold big_int_field_bytes. rewrite N2Nat.id.
  destruct (N.ltb_spec (Z.to_N (Z.abs i)) (256 ^ (bits / 8))) as [Li|Li]; [|easy].
  destruct (N.ltb_spec (Z.to_N (Z.abs j)) (256 ^ (bits / 8))) as [Lj|Lj]; [|easy].
  intros Hi Hj. injection Hi as <-. injection Hj as <-.
  assert (Li' : (Z.to_N (Z.abs i) < 256 ^ N.of_nat (N.to_nat (bits / 8)))%N) by (rewrite N2Nat.id; auto).
  assert (Lj' : (Z.to_N (Z.abs j) < 256 ^ N.of_nat (N.to_nat (bits / 8)))%N) by (rewrite N2Nat.id; auto).
  set (w := N.to_nat (bits / 8)) in *.
  rewrite bcmp_cons.
  destruct (Z.ltb_spec 0 i) as [I1|I1]; destruct (Z.ltb_spec 0 j) as [J1|J1];
  destruct (Z.ltb_spec i 0) as [I2|I2]; destruct (Z.ltb_spec j 0) as [J2|J2]; try lia;
  repeat match goal with |- context [?a =? 0] => destruct (Z.eqb_spec a 0); try lia end;
  subst;
  change (b2n x02) with 2%N; change (b2n x01) with 1%N; change (b2n x00) with 0%N;
  cbn [N.compare Pos.compare Pos.compare_cont];
  try (symmetry; apply Z.compare_gt_iff; lia);
  try (symmetry; apply Z.compare_lt_iff; lia).
  - rewrite bcmp_be_bytes by auto.
    destruct (Z.compare_spec i j); subst;
    [apply N.compare_eq_iff | apply N.compare_lt_iff | apply N.compare_gt_iff]; lia.
  - rewrite bcmp_map_not by (rewrite !be_bytes_length; reflexivity).
    rewrite bcmp_be_bytes by auto.
    destruct (Z.compare_spec i j); subst;
    [apply N.compare_eq_iff | apply N.compare_lt_iff | apply N.compare_gt_iff]; lia.
  - apply bcmp_refl.
Qed.

(** ** Fields *)

(** The bytes of one field after its field id. *)
Definition field_bytes (f : field) : option bytes :=
  match f with
  | FInt64 i => Some (int_field_bytes 8 i)
  | FInt32 i => Some (int_field_bytes 4 i)
  | FInt16 i => Some (int_field_bytes 2 i)
  | FUint64 i => Some (be_bytes 8 i)
  | FUint32 i => Some (be_bytes 4 i)
  | FUint16 i => Some (be_bytes 2 i)
  | FByte x => Some [x]
  | FBytes l => Some l
  | FBigInt i bits => big_int_field_bytes i bits
  end.

Definition next_fid (f : byte) : byte := n2b (b2n f + 1).

Lemma add_field_eq b f :
  add_field b f = match field_bytes f with
                  | Some l => Ok (KB (kb_buff b ++ next_fid (kb_fid b) :: l) (next_fid (kb_fid b)))
                  | None => Panic
                  end.
Proof.
  destruct f; cbn [add_field field_bytes];
   unfold add_int64, add_int32, add_int16, add_uint64, add_uint32, add_uint16, add_byte, add_bytes,
     add_big_int, kb_append, put_field_id, next_fid; cbn [kb_buff kb_fid];
   try (rewrite <- app_assoc; reflexivity).
  destruct (big_int_field_bytes i bits); auto. rewrite <- app_assoc. reflexivity.
Qed.

(** Bytes appended by a whole program, starting after field id [f]. *)
Fixpoint fields_bytes (fid : byte) (fs : list field) : option bytes :=
  match fs with
  | [] => Some []
  | f :: fs' =>
      match field_bytes f, fields_bytes (next_fid fid) fs' with
      | Some l, Some r => Some (next_fid fid :: l ++ r)
      | _, _ => None
      end
  end.

Lemma add_fields_eq fs : forall b,
  match fields_bytes (kb_fid b) fs with
  | Some l => exists fid, add_fields b fs = Ok (KB (kb_buff b ++ l) fid)
  | None => add_fields b fs = Panic
  end.
Proof.
  induction fs as [|f fs IH]; intros b; cbn [add_fields fields_bytes].
  - exists (kb_fid b). rewrite app_nil_r. destruct b; reflexivity.
  - rewrite add_field_eq. destruct (field_bytes f) as [l|]; [|reflexivity].
    specialize (IH (KB (kb_buff b ++ next_fid (kb_fid b) :: l) (next_fid (kb_fid b)))).
    cbn [kb_fid kb_buff] in IH.
    destruct (fields_bytes (next_fid (kb_fid b)) fs) as [r|].
    + destruct IH as [fid E]. exists fid. rewrite E. rewrite <- app_assoc. simpl. reflexivity.
    + exact IH.
Qed.

(** ** Key layout *)

(** The layout of a full key, written out. *)
Definition layout (t i : byte) (ix ord pk : bytes) : bytes :=
  t :: i :: be_bytes 4 (blen ix) ++ ix ++ be_bytes 4 (blen ord) ++ ord ++ pk.

Lemma key_encode_full k raw : k_pk k <> [] ->
  key_encode k raw = raw ++ layout (k_table k) (k_index_id k) (k_index k) (k_order k) (k_pk k).
Proof.
  intro H. unfold key_encode, layout, is_key_prefix, len4. destruct (k_pk k); [easy|]. reflexivity.
Qed.

Lemma put_u32_at_app a b v : length b = 4%nat ->
  forall c, put_u32_at (a ++ b ++ c) (length a) v = a ++ be_bytes 4 v ++ c.
Proof.
  intros H c. unfold put_u32_at.
  rewrite firstn_app, Nat.sub_diag, firstn_all. cbn [firstn]. rewrite app_nil_r.
  f_equal. f_equal.
  rewrite skipn_app. rewrite skipn_all2 by lia. cbn [app].
  replace (length a + 4 - length a)%nat with (length b) by lia.
  rewrite skipn_app, skipn_all, Nat.sub_diag. reflexivity.
Qed.

(** appending functions *)
Definition appends (f : bytes -> bytes) (x : bytes) : Prop := forall b, f b = b ++ x.

Lemma key_encode_raw_full t i fi fo fp ix ord pk buff :
  match fi with Some f => appends f ix | None => ix = [] end ->
  match fo with Some f => appends f ord | None => ord = [] end ->
  appends fp pk ->
  key_encode_raw t i fi fo (Some fp) buff = buff ++ layout t i ix ord pk.
Proof.
  intros Hi Ho Hp. unfold key_encode_raw.
  set (b0 := (buff ++ [t]) ++ [i]).
  assert (E1 : forall z c, length (b0 ++ [z; z; z; z]) = (length b0 + 4)%nat /\ (b0 ++ [z;z;z;z]) ++ c = b0 ++ [z;z;z;z] ++ c).
  { intros z c. rewrite app_length, <- app_assoc. split; auto. }
  assert (E2 : (match fi with
     | Some f =>
         put_u32_at (f (b0 ++ [x00; x00; x00; x00])) (length (b0 ++ [x00; x00; x00; x00]) - 4)
           (N.of_nat (length (f (b0 ++ [x00; x00; x00; x00])) - (length (b0 ++ [x00; x00; x00; x00]) - 4 + 4)))
     | None => b0 ++ [x00; x00; x00; x00]
     end) = b0 ++ be_bytes 4 (blen ix) ++ ix).
  { destruct fi as [f|].
    - rewrite Hi. rewrite app_length. cbn [length].
      replace (length b0 + 4 - 4)%nat with (length b0) by lia.
      rewrite <- app_assoc, put_u32_at_app by reflexivity.
      unfold blen. f_equal. f_equal. f_equal. f_equal. rewrite !app_length. cbn [length]. lia.
    - subst ix. rewrite app_nil_r. reflexivity. }
  rewrite E2. clear E2 E1.
  set (b1 := b0 ++ be_bytes 4 (blen ix) ++ ix).
  assert (E2 : (match fo with
     | Some f =>
         put_u32_at (f (b1 ++ [x00; x00; x00; x00])) (length (b1 ++ [x00; x00; x00; x00]) - 4)
           (N.of_nat (length (f (b1 ++ [x00; x00; x00; x00])) - (length (b1 ++ [x00; x00; x00; x00]) - 4 + 4)))
     | None => b1 ++ [x00; x00; x00; x00]
     end) = b1 ++ be_bytes 4 (blen ord) ++ ord).
  { destruct fo as [f|].
    - rewrite Ho. rewrite app_length. cbn [length].
      replace (length b1 + 4 - 4)%nat with (length b1) by lia.
      rewrite <- app_assoc, put_u32_at_app by reflexivity.
      unfold blen. f_equal. f_equal. f_equal. f_equal. rewrite !app_length. cbn [length]. lia.
    - subst ord. rewrite app_nil_r. reflexivity. }
  rewrite E2, Hp. unfold b1, b0, layout. rewrite <- !app_assoc. reflexivity.
Qed.

Lemma key_encode_raw_prefix t i fi ix buff :
  appends fi ix ->
  key_encode_raw t i (Some fi) None None buff = buff ++ t :: i :: be_bytes 4 (blen ix) ++ ix.
Proof.
  intros Hi. unfold key_encode_raw.
  set (b0 := (buff ++ [t]) ++ [i]).
  rewrite Hi. rewrite app_length. cbn [length].
  replace (length b0 + 4 - 4)%nat with (length b0) by lia.
  rewrite <- app_assoc, put_u32_at_app by reflexivity.
  unfold b0 at 1, blen. rewrite <- !app_assoc. cbn [app]. f_equal. f_equal. f_equal. f_equal. f_equal.
  f_equal. rewrite !app_length. cbn [length]. lia.
Qed.

Lemma blen_app a b : blen (a ++ b) = (blen a + blen b)%N.
Proof. unfold blen. rewrite app_length. lia. Qed.

Lemma slice_app a b c n : slice (a ++ b ++ c) (blen a) n = Some b <-> n = (blen a + blen b)%N \/
   slice (a ++ b ++ c) (blen a) n = Some b.
Proof.
  split; [auto|]. intros [->|]; auto. unfold slice, blen.
  rewrite !app_length.
  replace ((N.of_nat (length a) <=? N.of_nat (length a) + N.of_nat (length b))%N) with true by (symmetry; apply N.leb_le; lia).
  replace ((N.of_nat (length a) + N.of_nat (length b) <=? N.of_nat (length a + (length b + length c)))%N) with true by (symmetry; apply N.leb_le; lia).
  cbn [andb].
  replace (N.to_nat (N.of_nat (length a) + N.of_nat (length b)) - N.to_nat (N.of_nat (length a)))%nat with (length b) by lia.
  rewrite Nat2N.id, skipn_app, skipn_all, Nat.sub_diag. cbn [skipn app].
  rewrite firstn_app, firstn_all, Nat.sub_diag. cbn [firstn]. rewrite app_nil_r. reflexivity.
Qed.

Lemma slice_mid a b c lo hi : lo = blen a -> hi = (blen a + blen b)%N ->
  slice (a ++ b ++ c) lo hi = Some b.
Proof. intros -> ->. apply slice_app. auto. Qed.

Lemma read_n_app n a r : length a = n -> read_n n (a ++ r) = (a, r).
Proof.
  intros <-. unfold read_n. rewrite firstn_app, firstn_all, Nat.sub_diag. cbn [firstn].
  rewrite app_nil_r, app_length. replace (length a - (length a + length r))%nat with O by lia.
  cbn [repeat]. rewrite app_nil_r, skipn_app, skipn_all, Nat.sub_diag. reflexivity.
Qed.

Definition fits32 (l : bytes) : Prop := (blen l < 2 ^ 32)%N.

Lemma be_val_len4 l : fits32 l -> be_val (be_bytes 4 (blen l)) = blen l.
Proof. intro H. apply be_val_bytes_small. exact H. Qed.

Lemma key_decode_layout t i ix ord pk : fits32 ix -> fits32 ord ->
  key_decode (layout t i ix ord pk) = Ok (MkKey t i ix ord pk).
Proof.
  intros Hi Ho. unfold layout, key_decode. cbn [read_byte].
  rewrite read_n_app by apply be_bytes_length.
  rewrite be_val_len4 by auto.
  rewrite read_n_app by (unfold blen; rewrite Nat2N.id; auto).
  rewrite read_n_app by apply be_bytes_length.
  rewrite be_val_len4 by auto.
  rewrite read_n_app by (unfold blen; rewrite Nat2N.id; auto).
  set (pkl := (_ - _ - _ - 10)).
  assert (E : pkl = Z.of_nat (length pk)).
  { unfold pkl. cbn [length]. rewrite !app_length, !be_bytes_length. unfold blen. lia. }
  rewrite E. destruct (Z.ltb_spec (Z.of_nat (length pk)) 0); [lia|].
  rewrite Nat2Z.id. pose proof (read_n_app (length pk) pk [] eq_refl) as R.
  rewrite app_nil_r in R. rewrite R. reflexivity.
Qed.

Lemma key_decode_prefix_panics t i ix : fits32 ix ->
  key_decode (t :: i :: be_bytes 4 (blen ix) ++ ix) = Panic.
Proof.
  intros Hi. unfold key_decode. cbn [read_byte].
  rewrite read_n_app by apply be_bytes_length.
  rewrite be_val_len4 by auto.
  pose proof (read_n_app (N.to_nat (blen ix)) ix []) as R.
  rewrite app_nil_r in R. rewrite R by (unfold blen; rewrite Nat2N.id; auto).
  cbn [read_n].
  set (pkl := (_ - _ - _ - 10)).
  destruct (Z.ltb_spec pkl 0) as [H|H]; [reflexivity|].
  exfalso. unfold pkl in H. cbn [length] in H. rewrite app_length, be_bytes_length in H.
  unfold blen in H. change (be_val _) with 0%N in H. lia.
Qed.

Lemma layout_split t i ix ord pk :
  layout t i ix ord pk = [t; i] ++ be_bytes 4 (blen ix) ++ (ix ++ be_bytes 4 (blen ord) ++ ord ++ pk).
Proof. reflexivity. Qed.

Lemma blen_be w n : blen (be_bytes w n) = N.of_nat w.
Proof. unfold blen. rewrite be_bytes_length. reflexivity. Qed.

Lemma blen_cons x l : blen (x :: l) = (1 + blen l)%N.
Proof. unfold blen. cbn [length]. lia. Qed.

Lemma slice_len_layout t i ix rest :
  slice (t :: i :: be_bytes 4 (blen ix) ++ rest) 2 6 = Some (be_bytes 4 (blen ix)).
Proof.
  change (t :: i :: be_bytes 4 (blen ix) ++ rest) with ([t; i] ++ be_bytes 4 (blen ix) ++ rest).
  apply slice_mid; rewrite ?blen_be; reflexivity.
Qed.

Lemma to_data_key_bytes_layout t i ix ord pk raw : fits32 ix -> fits32 ord ->
  to_data_key_bytes (layout t i ix ord pk) raw = Ok (raw ++ layout t x00 [] [] pk).
Proof.
  intros Hi Ho. unfold to_data_key_bytes.
  assert (S1 : slice (layout t i ix ord pk) 2 6 = Some (be_bytes 4 (blen ix))) by apply slice_len_layout.
  rewrite S1, be_val_len4 by auto. unfold layout at 1. cbv iota beta.
  replace (layout t i ix ord pk) with
    (([t; i] ++ be_bytes 4 (blen ix) ++ ix) ++ be_bytes 4 (blen ord) ++ (ord ++ pk))
    by (unfold layout; rewrite <- !app_assoc; reflexivity).
  rewrite slice_mid by (rewrite !blen_app, !blen_be; change (blen [t; i]) with 2%N; lia).
  rewrite be_val_len4 by auto.
  replace (([t; i] ++ be_bytes 4 (blen ix) ++ ix) ++ be_bytes 4 (blen ord) ++ (ord ++ pk))
   with (([t; i] ++ be_bytes 4 (blen ix) ++ ix ++ be_bytes 4 (blen ord) ++ ord) ++ pk ++ [])
    by (rewrite app_nil_r, <- !app_assoc; reflexivity).
  rewrite slice_mid.
  - reflexivity.
  - rewrite !blen_app, !blen_be; change (blen [t; i]) with 2%N; lia.
  - rewrite !blen_app, !blen_be; change (blen [t; i]) with 2%N; change (blen []) with 0%N; lia.
Qed.

Lemma split_index_layout t i ix rest : fits32 ix ->
  split_index (t :: i :: be_bytes 4 (blen ix) ++ rest) = Ok (6 + blen ix)%N.
Proof. intros H. unfold split_index. rewrite slice_len_layout, be_val_len4; auto. Qed.

Definition prefix_layout (t i : byte) (ix : bytes) : bytes := t :: i :: be_bytes 4 (blen ix) ++ ix.

Lemma layout_prefix t i ix ord pk :
  layout t i ix ord pk = prefix_layout t i ix ++ be_bytes 4 (blen ord) ++ ord ++ pk.
Proof. unfold layout, prefix_layout. rewrite <- !app_comm_cons, <- app_assoc. reflexivity. Qed.

Lemma key_prefix_of_layout t i ix rest : fits32 ix ->
  key_prefix_of (prefix_layout t i ix ++ rest) = Ok (prefix_layout t i ix).
Proof.
  intros H. unfold key_prefix_of. unfold prefix_layout at 1. rewrite <- !app_comm_cons, <- app_assoc.
  rewrite split_index_layout by auto.
  rewrite (slice_mid [] (prefix_layout t i ix) rest); auto.
  unfold prefix_layout. rewrite !blen_cons, blen_app, blen_be. change (blen []) with 0%N. lia.
Qed.

Lemma kb_index_layout t i ix rest : (blen ix < 2 ^ 32 - 6)%N ->
  kb_index (t :: i :: be_bytes 4 (blen ix) ++ ix ++ rest) = Ok ix.
Proof.
  intros H. unfold kb_index. rewrite slice_len_layout.
  rewrite be_val_len4 by (unfold fits32; lia).
  rewrite N.mod_small by lia.
  replace (t :: i :: be_bytes 4 (blen ix) ++ ix ++ rest) with (([t; i] ++ be_bytes 4 (blen ix)) ++ ix ++ rest)
    by (rewrite <- app_assoc; reflexivity).
  rewrite slice_mid; auto; rewrite !blen_app, blen_be; change (blen [t; i]) with 2%N; lia.
Qed.

Lemma layout_inj t i ix ord pk t' i' ix' ord' pk' :
  fits32 ix -> fits32 ord -> fits32 ix' -> fits32 ord' ->
  layout t i ix ord pk = layout t' i' ix' ord' pk' ->
  t = t' /\ i = i' /\ ix = ix' /\ ord = ord' /\ pk = pk'.
Proof.
  intros H1 H2 H3 H4 H. apply (f_equal key_decode) in H.
  rewrite !key_decode_layout in H by auto. injection H; auto.
Qed.

Lemma prefix_layout_inj_app t i ix r t' i' ix' r' : fits32 ix -> fits32 ix' ->
  prefix_layout t i ix ++ r = prefix_layout t' i' ix' ++ r' ->
  t = t' /\ i = i' /\ ix = ix' /\ r = r'.
Proof.
  unfold prefix_layout. intros H1 H2 H. rewrite <- !app_comm_cons, <- !app_assoc in H.
  apply (app_inj_len [t; i] [t'; i'] _ _ eq_refl) in H as [Hti H].
  injection Hti as -> ->. apply app_inj_len in H as [Hl H].
  2:{ rewrite !be_bytes_length; auto. }
  apply (f_equal be_val) in Hl. rewrite !be_val_len4 in Hl by auto.
  apply app_inj_len in H as [-> ->]; auto. unfold blen in Hl. lia.
Qed.

(** comparison of lengths first, then contents *)
Definition lcmp (a b : bytes) : comparison :=
  match N.compare (blen a) (blen b) with Eq => bcmp a b | c => c end.

Definition then_cmp (c d : comparison) : comparison := match c with Eq => d | _ => c end.

Lemma bcmp_len_prefixed a b x y : fits32 a -> fits32 b ->
  bcmp (be_bytes 4 (blen a) ++ a ++ x) (be_bytes 4 (blen b) ++ b ++ y) =
  then_cmp (lcmp a b) (bcmp x y).
Proof.
  intros Ha Hb. rewrite bcmp_app_same_len by (rewrite !be_bytes_length; auto).
  rewrite bcmp_be_bytes by assumption.
  unfold lcmp. destruct (N.compare_spec (blen a) (blen b)) as [E|E|E]; auto.
  rewrite bcmp_app_same_len by (unfold blen in E; lia).
  destruct (bcmp a b); reflexivity.
Qed.

Lemma layout_bcmp t i ix ord pk t' i' ix' ord' pk' :
  fits32 ix -> fits32 ord -> fits32 ix' -> fits32 ord' ->
  bcmp (layout t i ix ord pk) (layout t' i' ix' ord' pk') =
  then_cmp (N.compare (b2n t) (b2n t'))
    (then_cmp (N.compare (b2n i) (b2n i'))
      (then_cmp (lcmp ix ix') (then_cmp (lcmp ord ord') (bcmp pk pk')))).
Proof.
  intros H1 H2 H3 H4. unfold layout. rewrite !bcmp_cons.
  destruct (N.compare (b2n t) (b2n t')); cbn [then_cmp]; auto.
  destruct (N.compare (b2n i) (b2n i')); cbn [then_cmp]; auto.
  rewrite bcmp_len_prefixed by auto. rewrite bcmp_len_prefixed by auto. reflexivity.
Qed.

Lemma lcmp_eq a b : lcmp a b = Eq <-> a = b.
Proof.
  unfold lcmp. destruct (N.compare_spec (blen a) (blen b)) as [E|E|E].
  - apply bcmp_eq.
  - split; [easy|]. intros ->. lia.
  - split; [easy|]. intros ->. lia.
Qed.

(** Any key splits: two well-formed keys compare by prefix first. *)
Lemma prefix_layout_bcmp t i ix t' i' ix' r r' : fits32 ix -> fits32 ix' ->
  bcmp (prefix_layout t i ix ++ r) (prefix_layout t' i' ix' ++ r') =
  then_cmp (bcmp (prefix_layout t i ix) (prefix_layout t' i' ix')) (bcmp r r').
Proof.
  intros H1 H2. unfold prefix_layout. rewrite <- !app_comm_cons, <- !app_assoc, !bcmp_cons.
  destruct (N.compare (b2n t) (b2n t')); cbn [then_cmp]; auto.
  destruct (N.compare (b2n i) (b2n i')); cbn [then_cmp]; auto.
  rewrite bcmp_len_prefixed by auto.
  rewrite <- (app_nil_r ix) at 3. rewrite <- (app_nil_r ix') at 3.
  rewrite bcmp_len_prefixed by auto. destruct (lcmp ix ix'); reflexivity.
Qed.

(** ** keySuccessor *)

Definition all_ff (l : bytes) : Prop := forall b, In b l -> b2n b = 255%N.

Lemma ff_byte b : b2n b = 255%N -> b = xff.
Proof. intro H. apply b2n_inj. rewrite H. reflexivity. Qed.

Lemma succ_rev_split l :
  (all_ff l /\ succ_rev l = l) \/
  (exists f b r, l = repeat xff f ++ b :: r /\ (b2n b < 255)%N /\
     succ_rev l = repeat xff f ++ n2b (b2n b + 1) :: r).
Proof.
  induction l as [|b l IH].
  - left. split; [intros b []|reflexivity].
  - cbn [succ_rev]. destruct (N.eqb_spec (b2n b) 255) as [E|E].
    + apply ff_byte in E; subst. destruct IH as [[Ha Hs]|[f [c [r [-> [Hc Hs]]]]]].
      * left. split; [|rewrite Hs; auto]. intros c [<-|H]; auto.
      * right. exists (S f), c, r. rewrite Hs. auto.
    + right. exists O, b, l. cbn [repeat app]. pose proof (b2n_lt b). repeat split; auto. lia.
Qed.

Lemma rev_repeat {A} (x : A) n : rev (repeat x n) = repeat x n.
Proof.
  induction n; auto. cbn [repeat rev]. rewrite IHn. clear.
  induction n; auto. cbn [repeat app]. rewrite IHn. reflexivity.
Qed.

Lemma key_successor_split l :
  (all_ff l /\ key_successor l = l) \/
  (exists p b f, l = p ++ b :: repeat xff f /\ (b2n b < 255)%N /\
     key_successor l = p ++ n2b (b2n b + 1) :: repeat xff f).
Proof.
  unfold key_successor. destruct (succ_rev_split (rev l)) as [[Ha Hs]|[f [b [r [Hl [Hb Hs]]]]]].
  - left. rewrite Hs, rev_involutive. split; auto. intros b H. apply Ha. apply in_rev in H. auto.
  - right. exists (rev r), b, f. rewrite Hs.
    apply (f_equal (@rev byte)) in Hl. rewrite rev_involutive in Hl. rewrite Hl.
    rewrite !rev_app_distr, !rev_repeat. cbn [rev]. rewrite <- !app_assoc. cbn [app].
    auto.
Qed.

Lemma key_successor_length l : length (key_successor l) = length l.
Proof.
  destruct (key_successor_split l) as [[_ ->]|[p [b [f [-> [_ ->]]]]]]; auto.
  rewrite !app_length. reflexivity.
Qed.

Lemma b2n_succ b : (b2n b < 255)%N -> b2n (n2b (b2n b + 1)) = (b2n b + 1)%N.
Proof. intro H. rewrite b2n_n2b, N.mod_small; lia. Qed.

Lemma key_successor_gt l s : ~ all_ff l -> blt (l ++ s) (key_successor l).
Proof.
  intro H. destruct (key_successor_split l) as [[Ha _]|[p [b [f [-> [Hb ->]]]]]]; [easy|].
  rewrite <- app_assoc. apply blt_app_l. cbn [app]. unfold blt. rewrite bcmp_cons.
  rewrite b2n_succ by auto.
  replace (N.compare (b2n b) (b2n b + 1)) with Lt; auto.
  symmetry. apply N.compare_lt_iff. lia.
Qed.

(** exactness when the last byte is not 0xFF *)
Definition last_not_ff (l : bytes) : Prop := exists p b, l = p ++ [b] /\ (b2n b < 255)%N.

Lemma key_successor_last p b : (b2n b < 255)%N -> key_successor (p ++ [b]) = p ++ [n2b (b2n b + 1)].
Proof.
  intro H. unfold key_successor. rewrite rev_app_distr. cbn [rev app succ_rev].
  destruct (N.eqb_spec (b2n b) 255); [lia|]. cbn [rev]. rewrite rev_involutive. reflexivity.
Qed.

Lemma last_not_ff_not_all l : last_not_ff l -> ~ all_ff l.
Proof.
  intros [p [b [-> H]]] Ha. specialize (Ha b). rewrite Ha in H; [lia|].
  apply in_or_app. right. left. auto.
Qed.

Lemma key_successor_exact l k : last_not_ff l ->
  (ble l k /\ blt k (key_successor l)) <-> exists s, k = l ++ s.
Proof.
  intros Hl. split.
  - destruct Hl as [p [b [-> Hb]]]. rewrite key_successor_last by auto. intros [H1 H2].
    revert k H1 H2. induction p as [|x p IH]; intros k H1 H2.
    + destruct k as [|y k].
      * exfalso. apply H1. reflexivity.
      * unfold ble, blt in *. cbn [app bcmp] in *. rewrite b2n_succ in H2 by auto.
        destruct (N.compare_spec (b2n b) (b2n y)) as [E|E|E]; try easy.
        -- apply b2n_inj in E; subst. exists k; auto.
        -- destruct (N.compare_spec (b2n y) (b2n b + 1)) as [F|F|F]; try easy; try lia.
           destruct k; easy.
    + destruct k as [|y k].
      * exfalso. apply H1. reflexivity.
      * unfold ble, blt in *. cbn [app bcmp] in *.
        destruct (N.compare_spec (b2n x) (b2n y)) as [E|E|E]; try easy.
        -- apply b2n_inj in E; subst. rewrite N.compare_refl in H2.
           destruct (IH k H1 H2) as [s Hs]. exists s. rewrite Hs. reflexivity.
        -- destruct (N.compare_spec (b2n y) (b2n x)) as [F|F|F]; try easy; lia.
  - intros [s ->]. split; [apply ble_app|].
    apply key_successor_gt. apply last_not_ff_not_all; auto.
Qed.

(** What the interval contains in general: keys that start with the prefix and
    also the keys between the untruncated successor and the true one. *)
Lemma key_successor_sound l s : ~ all_ff l -> ble l (l ++ s) /\ blt (l ++ s) (key_successor l).
Proof. intro H. split; [apply ble_app|apply key_successor_gt; auto]. Qed.

Lemma key_successor_inexact p b f : (b2n b < 255)%N -> (0 < f)%nat ->
  let l := p ++ b :: repeat xff f in
  exists k, ble l k /\ blt k (key_successor l) /\ ~ (exists s, k = l ++ s).
Proof.
  intros Hb Hf l.
  exists (p ++ [n2b (b2n b + 1)]).
  assert (Hs : key_successor l = p ++ n2b (b2n b + 1) :: repeat xff f).
  { destruct (key_successor_split l) as [[Ha _]|[p' [b' [f' [E [Hb' ->]]]]]].
    - exfalso. specialize (Ha b). rewrite Ha in Hb; [lia|].
      unfold l. apply in_or_app. right. left. auto.
    - unfold l in E. clear - E Hb Hb'.
      apply (f_equal (@rev byte)) in E. rewrite !rev_app_distr in E. cbn [rev] in E.
      rewrite !rev_repeat in E. rewrite <- !app_assoc in E. cbn [app] in E.
      assert (G : f = f' /\ b = b' /\ rev p = rev p').
      { revert f' E. induction f as [|f IH]; intros [|f'] E; cbn [repeat app] in E.
        - injection E; auto.
        - injection E as E1 E2. subst. exfalso. cbn in Hb. lia.
        - injection E as E1 E2. subst. exfalso. cbn in Hb'. lia.
        - injection E as E. destruct (IH _ E) as [-> [-> ->]]. auto. }
      destruct G as [-> [-> G]]. apply (f_equal (@rev byte)) in G. rewrite !rev_involutive in G.
      subst. reflexivity. }
  rewrite Hs. repeat split.
  - unfold l. apply ble_app_l. unfold ble. rewrite bcmp_cons. rewrite b2n_succ by auto.
    destruct (N.compare_spec (b2n b) (b2n b + 1)); try lia; easy.
  - apply blt_app_l. unfold blt. rewrite bcmp_cons, N.compare_refl. destruct f; [lia|]. reflexivity.
  - intros [s E]. unfold l in E. rewrite <- app_assoc in E. apply app_inv_head in E.
    cbn [app] in E. injection E as E _. apply (f_equal b2n) in E. rewrite b2n_succ in E by auto. lia.
Qed.
