(** Base64 in JSON. *)

From Coq Require Import Strings.String Strings.Byte List NArith ZArith Arith Lia.
From Verif.Model Require Import Bytes Go Inspect.
From Verif.Spec Require Import Base64Spec.
From Verif.Proofs Require Import BytesFacts.
Import ListNotations.
Local Open Scope list_scope.

Lemma char_sextet n : (n < 64)%N -> sextet (b64_char n) n.
Proof.
  intro L. unfold sextet. assert (H : forall k, k < 64 -> nth_error alphabet k = Some (b64_char (N.of_nat k))).
  { intros k K. do 64 (destruct k as [|k]; [vm_compute; reflexivity|]). lia. }
  rewrite (H (N.to_nat n)) by lia. now rewrite N2Nat.id.
Qed.

Lemma sextet_lt c n : sextet c n -> (n < 64)%N.
Proof. intro H. assert (L : N.to_nat n < 64) by (change 64 with (length alphabet); apply nth_error_Some; rewrite H; discriminate). lia. Qed.

Lemma alphabet_nodup : NoDup alphabet.
Proof. unfold alphabet. cbn. repeat (constructor; [cbn; intro H; repeat destruct H as [H|H]; try discriminate H; exact H|]). constructor. Qed.

Lemma sextet_fun c n m : sextet c n -> sextet c m -> n = m.
Proof.
  intros A B. pose proof (sextet_lt _ _ A) as L. assert (E : N.to_nat n = N.to_nat m); [|lia].
  apply (proj1 (NoDup_nth_error alphabet) alphabet_nodup); [change (length alphabet) with 64; lia|]. now rewrite A, B.
Qed.

Lemma sextet_pad n : ~ sextet "="%byte n.
Proof. intro H. apply nth_error_In in H. cbn in H. repeat destruct H as [H|H]; try discriminate H. exact H. Qed.

Lemma b64_base64_len k : forall l, length l <= k -> base64 l (b64 l).
Proof.
  induction k as [|k IH]; intros l L; [destruct l; [constructor|cbn in L; lia]|].
  destruct l as [|a [|b [|c l]]].
  - constructor.
  - cbn [b64]. pose proof (b2n_lt a). set (n := (b2n a * 65536)%N). assert (B : (n < 16777216)%N) by (unfold n; lia).
    apply b64_one with (m := (n / 262144)%N) (n := ((n / 4096) mod 64)%N); [apply char_sextet|apply char_sextet|].
    + apply N.div_lt_upper_bound; lia.
    + apply N.mod_lt; lia.
    + pose proof (N.div_mod (n / 4096) 64 ltac:(lia)) as D. rewrite N.div_div in D by lia. change (4096 * 64)%N with 262144%N in D.
      assert (E : (n / 4096 = b2n a * 16)%N) by (unfold n; replace (b2n a * 65536)%N with (b2n a * 16 * 4096)%N by lia; apply N.div_mul; lia). lia.
  - cbn [b64]. pose proof (b2n_lt a). pose proof (b2n_lt b). set (n := (b2n a * 65536 + b2n b * 256)%N). assert (B : (n < 16777216)%N) by (unfold n; lia).
    apply b64_two with (m := (n / 262144)%N) (n := ((n / 4096) mod 64)%N) (o := ((n / 64) mod 64)%N); [apply char_sextet|apply char_sextet|apply char_sextet|].
    + apply N.div_lt_upper_bound; lia.
    + apply N.mod_lt; lia.
    + apply N.mod_lt; lia.
    + pose proof (N.div_mod (n / 4096) 64 ltac:(lia)) as D. rewrite N.div_div in D by lia. change (4096 * 64)%N with 262144%N in D.
      pose proof (N.div_mod (n / 64) 64 ltac:(lia)) as D2. rewrite N.div_div in D2 by lia. change (64 * 64)%N with 4096%N in D2.
      assert (E : (n / 64 = (b2n a * 256 + b2n b) * 4)%N) by (unfold n; replace (b2n a * 65536 + b2n b * 256)%N with ((b2n a * 256 + b2n b) * 4 * 64)%N by lia; apply N.div_mul; lia). lia.
  - cbn [b64]. pose proof (b2n_lt a). pose proof (b2n_lt b). pose proof (b2n_lt c). set (n := (b2n a * 65536 + b2n b * 256 + b2n c)%N). assert (B : (n < 16777216)%N) by (unfold n; lia).
    apply b64_three with (m := (n / 262144)%N) (n := ((n / 4096) mod 64)%N) (o := ((n / 64) mod 64)%N) (p := (n mod 64)%N); [apply char_sextet|apply char_sextet|apply char_sextet|apply char_sextet| |].
    + apply N.div_lt_upper_bound; lia.
    + apply N.mod_lt; lia.
    + apply N.mod_lt; lia.
    + apply N.mod_lt; lia.
    + pose proof (N.div_mod (n / 4096) 64 ltac:(lia)) as D. rewrite N.div_div in D by lia. change (4096 * 64)%N with 262144%N in D.
      pose proof (N.div_mod (n / 64) 64 ltac:(lia)) as D2. rewrite N.div_div in D2 by lia. change (64 * 64)%N with 4096%N in D2.
      pose proof (N.div_mod n 64 ltac:(lia)) as D3. fold n. lia.
    + apply IH. cbn in L. lia.
Qed.

Lemma base64_inj l l' s : base64 l s -> base64 l' s -> l = l'.
Proof.
  intro H. revert l'. induction H as [|a b c l w x y z m n o p s W X Y Z E H IH|a b w x y m n o W X Y E|a w x m n W X E]; intros l' H'.
  - inversion H'. reflexivity.
  - inversion H' as [|a' b' c' l2 w' x' y' z' m' n' o' p' s' W' X' Y' Z' E' H2|a' b' w' x' y' m' n' o' W' X' Y' E'|a' w' x' m' n' W' X' E']; subst.
    + apply IH in H2 as ->. rewrite (sextet_fun _ _ _ W W'), (sextet_fun _ _ _ X X'), (sextet_fun _ _ _ Y Y'), (sextet_fun _ _ _ Z Z') in E.
      pose proof (b2n_lt a). pose proof (b2n_lt b). pose proof (b2n_lt c). pose proof (b2n_lt a'). pose proof (b2n_lt b'). pose proof (b2n_lt c').
      assert (b2n a = b2n a') by lia. assert (b2n b = b2n b') by lia. assert (b2n c = b2n c') by lia.
      f_equal; [now apply b2n_inj|]. f_equal; [now apply b2n_inj|]. f_equal. now apply b2n_inj.
    + now apply sextet_pad in Z.
    + now apply sextet_pad in Z.
  - inversion H' as [|a' b' c' l2 w' x' y' z' m' n' o' p' s' W' X' Y' Z' E' H2|a' b' w' x' y' m' n' o' W' X' Y' E'|a' w' x' m' n' W' X' E']; subst.
    + now apply sextet_pad in Z'.
    + rewrite (sextet_fun _ _ _ W W'), (sextet_fun _ _ _ X X'), (sextet_fun _ _ _ Y Y') in E.
      pose proof (b2n_lt a). pose proof (b2n_lt b). pose proof (b2n_lt a'). pose proof (b2n_lt b').
      assert (b2n a = b2n a') by lia. assert (b2n b = b2n b') by lia. f_equal; [now apply b2n_inj|]. f_equal. now apply b2n_inj.
    + now apply sextet_pad in Y.
  - inversion H' as [|a' b' c' l2 w' x' y' z' m' n' o' p' s' W' X' Y' Z' E' H2|a' b' w' x' y' m' n' o' W' X' Y' E'|a' w' x' m' n' W' X' E']; subst.
    + now apply sextet_pad in Z'.
    + now apply sextet_pad in Y'.
    + rewrite (sextet_fun _ _ _ W W'), (sextet_fun _ _ _ X X') in E. f_equal. apply b2n_inj. lia.
Qed.

Lemma json_bytes clean v l : gv_data v = DBytes l -> gt_kind (gv_type v) = KBytes ->
  exists v' s, json_val clean v = Some v' /\ gv_data v' = DBytes s /\ base64 l s /\ forall l', base64 l' s -> l' = l.
Proof.
  intros D K. unfold json_val. rewrite D, K. do 2 eexists. split; [reflexivity|]. split; [reflexivity|].
  assert (B : base64 l (b64 l)) by (eapply b64_base64_len; apply le_n). split; [exact B|]. intros l' B'. exact (base64_inj _ _ _ B' B).
Qed.
