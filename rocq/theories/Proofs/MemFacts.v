(** Buffers that do not overlap keep what was written to them. *)

From Coq Require Import List NArith Bool Arith Lia Permutation.
From Verif.Model Require Import Bytes Go Keys Pebble Index Table Slices Mem.
From Verif.Spec Require Import SliceSpec MemSpec.
From Verif.Proofs Require Import SliceFacts.
Import ListNotations.

(** ** Memory that grows *)

Lemma grows_refl h : grows h h.
Proof. split; auto. Qed.
Lemma grows_trans h1 h2 h3 : grows h1 h2 -> grows h2 h3 -> grows h1 h3.
Proof. intros [A B] [C D]. split; [lia|]. intros a L. rewrite D by lia. auto. Qed.

Lemma grows_ok h h' s : grows h h' -> sl_ok h s -> sl_ok h' s.
Proof. intros [A B] [L O]. split; auto. destruct O as [O|[O1 O2]]; [now left|right]. rewrite B by auto. lia. Qed.

Lemma grows_all h h' l : grows h h' -> Forall (sl_ok h) l -> Forall (sl_ok h') l.
Proof. intros G. apply Forall_impl. intros s. now apply grows_ok. Qed.

Lemma same_refl s : same_cells s s.
Proof. repeat split. Qed.
Lemma same_sym s t : same_cells s t -> same_cells t s.
Proof. intros (A & B & C). repeat split; auto. Qed.
Lemma same_trans s t u : same_cells s t -> same_cells t u -> same_cells s u.
Proof. intros (A & B & C) (D & E & F). repeat split; congruence. Qed.
Lemma same_read (h : heap byte) s t : same_cells s t -> sl_read h s = sl_read h t.
Proof. intros (A & B & C). unfold sl_read. now rewrite A, B, C. Qed.

(** The cells of every slice of [l'] are those of one of [l]. *)
Definition within (l' l : list slc) : Prop := forall s, In s l' -> exists t, In t l /\ same_cells s t.
Lemma incl_within l' l : incl l' l -> within l' l.
Proof. intros I s J. exists s. split; auto. apply same_refl. Qed.
Lemma within_trans l1 l2 l3 : within l1 l2 -> within l2 l3 -> within l1 l3.
Proof. intros A B s J. destruct (A s J) as (t & K & E). destruct (B t K) as (u & M & E2). exists u. split; auto. eapply same_trans; eauto. Qed.

Lemma unchanged_refl l h : unchanged l h h.
Proof. intros s t _ _ _. reflexivity. Qed.
Lemma unchanged_trans l h1 h2 h3 : grows h1 h2 -> unchanged l h1 h2 -> unchanged l h2 h3 -> unchanged l h1 h3.
Proof. intros G A B s t I E O. rewrite (B s t I E (grows_ok _ _ _ G O)). eauto. Qed.
Lemma unchanged_within l l' h h' : within l' l -> unchanged l h h' -> unchanged l' h h'.
Proof. intros I U s t J E O. destruct (I t J) as (u & K & E2). apply (U s u); auto. eapply same_trans; eauto. Qed.
Lemma unchanged_incl l l' h h' : incl l' l -> unchanged l h h' -> unchanged l' h h'.
Proof. intros I. apply unchanged_within. now apply incl_within. Qed.

(** ** Buffers *)

Lemma reset_ok (h : heap byte) s : sl_ok h s -> sl_ok h (sl_reset s).
Proof. intros [L O]. split; cbn; [lia|exact O]. Qed.
Lemma reset_read (h : heap byte) s : sl_read h (sl_reset s) = [].
Proof. reflexivity. Qed.

Lemma disjoint_sym s t : disjoint s t -> disjoint t s.
Proof. unfold disjoint. intuition. Qed.

Lemma ordpairs_in {A} (R : A -> A -> Prop) l1 x l2 : (forall a b, R a b -> R b a) -> ForallOrdPairs R (l1 ++ x :: l2) ->
  Forall (R x) (l1 ++ l2) /\ ForallOrdPairs R (l1 ++ l2).
Proof.
  intros S. induction l1 as [|a l1 IH]; cbn; intros H.
  - inversion H; subst. auto.
  - inversion H as [|? ? HA HR]; subst. destruct (IH HR) as [I1 I2]. rewrite Forall_app in HA. destruct HA as [HA1 HA2].
    inversion HA2; subst. split; [constructor; auto|]. constructor; auto. rewrite Forall_app. auto.
Qed.

Lemma ordpairs_perm {A} (R : A -> A -> Prop) l l' : (forall a b, R a b -> R b a) -> Permutation l l' -> ForallOrdPairs R l -> ForallOrdPairs R l'.
Proof.
  intros S P. induction P as [|x l l' P IH|x y l|l l' l'' P1 IH1 P2 IH2]; intros H; auto.
  - inversion H; subst. constructor; auto. eapply Permutation_Forall; eauto.
  - inversion H as [|? ? HA HR]; subst. inversion HR as [|? ? HB HR']; subst. inversion HA; subst. constructor; [constructor; auto|constructor; auto].
Qed.

Lemma ordpairs_app_r {A} (R : A -> A -> Prop) l1 l2 : ForallOrdPairs R (l1 ++ l2) -> ForallOrdPairs R l2.
Proof. induction l1 as [|a l1 IH]; cbn; auto. intros H. inversion H; auto. Qed.

Lemma buffers_perm h l l' : Permutation l l' -> buffers h l -> buffers h l'.
Proof.
  intros P [A B]. split; [eapply Permutation_Forall; eauto|]. eapply ordpairs_perm; eauto. exact disjoint_sym.
Qed.

Lemma buffers_grow h h' l : grows h h' -> buffers h l -> buffers h' l.
Proof. intros G [A B]. split; auto. eapply grows_all; eauto. Qed.

Lemma buffers_tl h s l : buffers h (s :: l) -> buffers h l.
Proof. intros [A B]. inversion A; subst. inversion B; subst. split; auto. Qed.

Lemma buffers_hd h s l : buffers h (s :: l) -> sl_ok h s.
Proof. intros [A _]. inversion A; auto. Qed.

Lemma buffers_in h s l : buffers h l -> In s l -> sl_ok h s.
Proof. intros [A _] I. eapply Forall_forall in A; eauto. Qed.

(** Sublists, in any order. *)
Lemma buffers_part h l l1 l2 : Permutation l (l1 ++ l2) -> buffers h l -> buffers h l1.
Proof.
  intros P B. apply (buffers_perm _ _ _ (Permutation_trans P (Permutation_app_comm l1 l2))) in B. destruct B as [A B].
  split; [|eapply ordpairs_app_r; eauto]. rewrite Forall_app in A. apply A.
Qed.

Lemma disjoint_apart (h : heap byte) s t : sl_ok h t -> disjoint s t -> apart (sl_reset s) t.
Proof.
  intros [L _] D. unfold apart. cbn. unfold disjoint in D. destruct (Nat.eq_dec (sl_arr t) (sl_arr s)) as [E|N]; [right|now left].
  intros i H1 H2 [H3 H4]. lia.
Qed.

(** ** One buffer written *)

Lemma ext_grows s h h' s' (v : bytes) : ext s h h' s' v -> grows h h'.
Proof. intros [[A B C] _ _ _ _]. split; auto. Qed.

(** [s'] takes the place of [s], or both stay. *)
Lemma ext_buffers h h' s s' v l : buffers h (s :: l) -> ext (sl_reset s) h h' s' v ->
  grows h h' /\ unchanged l h h' /\ buffers h' (s' :: l) /\ buffers h' (s :: l) /\ sl_read h' s' = v.
Proof.
  intros B E. pose proof (ext_grows _ _ _ _ _ E) as G. destruct E as [FR OK W L R]. pose proof B as [A D].
  inversion A as [|? ? A1 A2]; subst. inversion D as [|? ? D1 D2]; subst. split; [exact G|]. split; [|split; [|split; [|exact R]]].
  - intros u t I EQ O. eapply frame_read; eauto. assert (AP : apart (sl_reset s) t).
    { eapply disjoint_apart; [eapply Forall_forall in A2; eauto|]. eapply Forall_forall in D1; eauto. }
    destruct EQ as (E1 & E2 & E3). unfold apart in *. rewrite E1, E2, E3. exact AP.
  - split; constructor; auto; [eapply grows_all; eauto|]. rewrite Forall_forall in *. intros t I. destruct W as [W|(W1 & W2 & W3)].
    + destruct (A2 t I) as [_ [O|[O1 O2]]]; unfold disjoint; [tauto|]. right. right. left. lia.
    + specialize (D1 t I). unfold disjoint in *. cbn in *. rewrite W1, W2, W3. exact D1.
  - split; constructor; auto; [eapply grows_ok; eauto|eapply grows_all; eauto].
Qed.

Lemma frame_only s (h h' : heap byte) : frame s h h' <-> only_behind s h h'.
Proof. split; [intros [A B C]; repeat split; auto|intros [[A B] C]; constructor; auto]. Qed.

Lemma appends_ext hf f h s : appends hf f -> sl_ok h s -> exists h' s' v, hf h s = (h', s') /\ ext s h h' s' v /\ f (sl_read h s) = sl_read h s ++ v.
Proof.
  intros A O. specialize (A h s O). destruct (hf h s) as [h' s']. destruct A as (A1 & A2 & A3 & [v A4] & A5).
  exists h', s', v. split; auto. split; auto. constructor; auto.
  - now apply frame_only.
  - pose proof (read_length _ _ A2) as L. rewrite A5, A4, app_length, (read_length _ _ O) in L. auto.
  - now rewrite A5.
Qed.

Lemma ext_appends hf f : (forall h s, sl_ok h s -> exists h' s' v, hf h s = (h', s') /\ ext s h h' s' v /\ f (sl_read h s) = sl_read h s ++ v) -> appends hf f.
Proof.
  intros H h s O. destruct (H h s O) as (h' & s' & v & -> & [E1 E2 E3 E4 E5] & EF). split; [now apply frame_only|].
  split; auto. split; auto. split; [eauto|]. now rewrite E5.
Qed.

(** Extensions compose. *)
Lemma ext_trans s0 (h0 h : heap byte) s v h' s' w : sl_ok h0 s0 -> ext s0 h0 h s v -> ext s h h' s' w -> ext s0 h0 h' s' (v ++ w).
Proof.
  intros O0 [[FL FS FC] OK W L R] [[FL' FS' FC'] OK' W' L' R']. constructor.
  - constructor.
    + lia.
    + intros a H. rewrite FS' by lia. auto.
    + intros a i H C. rewrite FC'; [apply FC; auto|lia|]. intros -> [B1 B2].
      destruct W as [W|(W1 & W2 & W3)]; [lia|]. apply (C W1). rewrite <- W2, <- W3. lia.
  - exact OK'.
  - destruct W' as [W'|(W1 & W2 & W3)]; [left; lia|]. rewrite W1, W2, W3. destruct W as [W|W]; [left; lia|right; exact W].
  - rewrite app_length. lia.
  - now rewrite R', R, app_assoc.
Qed.

(** Writing over bytes in the middle of an extension. *)
Lemma ext_mid s0 (h0 h : heap byte) s v ys w xs : ext s0 h0 h s (v ++ ys ++ w) -> length xs = length ys ->
  ext s0 h0 (sl_write h s (sl_len s0 + length v) xs) s (v ++ xs ++ w).
Proof.
  intros E LX. destruct (Nat.eq_dec (length xs) 0) as [Z|NZ].
  - destruct xs; [|discriminate]. destruct ys; [|discriminate]. exact E.
  - pose proof E as E0. destruct E as [FR OK W L R]. pose proof (read_length h s OK) as RL.
    rewrite !app_length in L. destruct OK as [OL O]. destruct O as [O|[O1 O2]]; [lia|].
    destruct (ext_write s0 h0 h s (v ++ ys ++ w) (sl_len s0 + length v) xs E0) as (F1 & C1 & L1 & B1); try lia.
    assert (RL0 : length (sl_read h0 s0) = sl_len s0).
    { rewrite R, !app_length in RL. lia. }
    constructor; auto.
    + split; auto. right. split; [lia|]. change (sl_off s + sl_cap s <= length (cells (sl_write h s (sl_len s0 + length v) xs) (sl_arr s))).
      rewrite C1, overwrite_length by auto. auto.
    + rewrite !app_length. lia.
    + apply list_ext. intros i. rewrite read_nth, C1, overwrite_nth by auto. pose proof (read_nth h s i) as RN. rewrite R in RN.
      destruct (Nat.ltb_spec i (sl_len s)).
      * destruct (Nat.leb_spec (sl_off s + (sl_len s0 + length v)) (sl_off s + i)); cbn [andb].
        -- destruct (Nat.ltb_spec (sl_off s + i) (sl_off s + (sl_len s0 + length v) + length xs)).
           ++ rewrite app_assoc, nth_error_app2 by (rewrite app_length; lia). rewrite app_length.
              rewrite nth_error_app1 by lia. f_equal. lia.
           ++ rewrite <- RN. rewrite !app_assoc. rewrite !(nth_error_app2 _ w) by (rewrite !app_length; lia). f_equal. rewrite !app_length. lia.
        -- rewrite <- RN. rewrite !app_assoc.
           rewrite <- (app_assoc (sl_read h0 s0 ++ v) ys w), <- (app_assoc (sl_read h0 s0 ++ v) xs w).
           rewrite !(nth_error_app1 (sl_read h0 s0 ++ v)) by (rewrite app_length; lia). reflexivity.
      * symmetry. apply nth_error_None. rewrite !app_length. lia.
Qed.

(** ** Keys *)

Lemma put_at p z w n : length z = 4 -> put_u32_at (p ++ z ++ w) (length p) n = p ++ be_bytes 4 n ++ w.
Proof.
  intros L. unfold put_u32_at. rewrite firstn_app, firstn_all, Nat.sub_diag, firstn_O, app_nil_r. f_equal. f_equal.
  rewrite skipn_app, skipn_all2 by lia. replace (length p + 4 - length p) with (length z) by lia. now rewrite skipn_app, skipn_all, Nat.sub_diag.
Qed.

Section Enc.
  Variable grow : nat -> nat -> nat.

  Lemma ext_fun s0 h0 h s v hf f : sl_ok h0 s0 -> ext s0 h0 h s v -> appends hf f ->
    exists h' s' w, hf h s = (h', s') /\ ext s0 h0 h' s' (v ++ w) /\ f (sl_read h0 s0 ++ v) = sl_read h0 s0 ++ v ++ w.
  Proof.
    intros O0 E A. destruct (appends_ext _ _ h s A (ex_ok _ _ _ _ _ E)) as (h' & s' & w & H1 & H2 & H3).
    exists h', s', w. split; auto. split; [eapply ext_trans; eauto|]. rewrite (ex_read _ _ _ _ _ E) in H3. now rewrite H3, <- app_assoc.
  Qed.

  (** The length field in front of what a user function adds. *)
  Lemma ext_counted s0 h0 h s v hf f h' s' : sl_ok h0 s0 -> ext s0 h0 h s (v ++ [x00; x00; x00; x00]) -> appends hf f ->
    (let '(h1, b1) := hf h s in (sl_write h1 b1 (sl_len s - 4) (be_bytes 4 (N.of_nat (sl_len b1 - (sl_len s - 4 + 4)))), b1)) = (h', s') ->
    exists w, ext s0 h0 h' s' w /\
      put_u32_at (f (sl_read h0 s0 ++ v ++ [x00; x00; x00; x00])) (length (sl_read h0 s0 ++ v))
        (N.of_nat (length (f (sl_read h0 s0 ++ v ++ [x00; x00; x00; x00])) - (length (sl_read h0 s0 ++ v) + 4))) = sl_read h0 s0 ++ w.
  Proof.
    intros O0 E A H. destruct (ext_fun _ _ _ _ _ _ _ O0 E A) as (h1 & b1 & w & H1 & H2 & H3). rewrite H1 in H. apply pair_equal_spec in H. destruct H as [<- <-].
    pose proof (read_length _ _ O0) as RL. pose proof (ex_len _ _ _ _ _ E) as L1. pose proof (ex_len _ _ _ _ _ H2) as L2.
    rewrite !app_length in L1. rewrite !app_length in L2. cbn [length] in L1, L2.
    replace (sl_len s - 4) with (sl_len s0 + length v) by lia. rewrite <- app_assoc in H2.
    exists (v ++ be_bytes 4 (N.of_nat (sl_len b1 - (sl_len s0 + length v + 4))) ++ w). split.
    - apply (ext_mid _ _ _ _ v [x00; x00; x00; x00] w); auto.
    - rewrite H3, app_assoc, (app_assoc (sl_read h0 s0) v), <- app_assoc, put_at by reflexivity.
      rewrite !app_length. cbn [length]. rewrite RL, <- !app_assoc. repeat f_equal. lia.
  Qed.

  Definition oapp (hf : option hfun) (f : option (bytes -> bytes)) : Prop :=
    match hf, f with Some a, Some b => appends a b | None, None => True | _, _ => False end.

  Lemma ext_section s0 h0 h s v hf f h' s' : sl_ok h0 s0 -> ext s0 h0 h s (v ++ [x00; x00; x00; x00]) -> oapp hf f ->
    match hf with
    | Some g => let '(h1, b1) := g h s in (sl_write h1 b1 (sl_len s - 4) (be_bytes 4 (N.of_nat (sl_len b1 - (sl_len s - 4 + 4)))), b1)
    | None => (h, s)
    end = (h', s') ->
    exists w, ext s0 h0 h' s' w /\
      match f with
      | Some g => put_u32_at (g (sl_read h0 s0 ++ v ++ [x00; x00; x00; x00])) (length (sl_read h0 s0 ++ v))
          (N.of_nat (length (g (sl_read h0 s0 ++ v ++ [x00; x00; x00; x00])) - (length (sl_read h0 s0 ++ v) + 4)))
      | None => sl_read h0 s0 ++ v ++ [x00; x00; x00; x00]
      end = sl_read h0 s0 ++ w.
  Proof.
    intros O0 E A H. destruct hf as [hf|], f as [f|]; cbn [oapp] in A; try contradiction.
    - eapply ext_counted; eauto.
    - injection H as <- <-. eauto.
  Qed.

  (** The key encoder on memory is the one on values. *)
  Lemma key_encode_appends ti ii hi i ho o hp p : oapp hi i -> oapp ho o -> oapp hp p ->
    appends (h_key_encode_raw grow ti ii hi ho hp) (key_encode_raw ti ii i o p).
  Proof.
    intros AI AO AP. apply ext_appends. intros h0 s0 O0. pose proof (ext_refl h0 s0 O0) as E0.
    unfold h_key_encode_raw, key_encode_raw.
    destruct (sl_append grow x00 h0 s0 [ti]) as [h1 s1] eqn:A1. eapply ext_append in A1; [|exact O0|exact E0].
    destruct (sl_append grow x00 h1 s1 [ii]) as [h2 s2] eqn:A2. eapply ext_append in A2; [|exact O0|exact A1].
    destruct (sl_append grow x00 h2 s2 _) as [h3 s3] eqn:A3. eapply ext_append in A3; [|exact O0|exact A2]. cbn [app] in A1, A2.
    match goal with |- context [let '(h, buff) := ?X in _] => destruct X as [h4 s4] eqn:A4 end.
    eapply ext_section in A4; [|exact O0|exact A3|exact AI]. destruct A4 as (w & A4 & V4).
    replace (length (((sl_read h0 s0 ++ [ti]) ++ [ii]) ++ [x00; x00; x00; x00]) - 4) with (length (sl_read h0 s0 ++ [ti] ++ [ii]))
      by (rewrite !app_length; cbn [length]; lia).
    rewrite <- !(app_assoc (sl_read h0 s0)). cbn [app] in V4 |- *. rewrite V4. destruct hp as [hp|], p as [p|]; cbn [oapp] in AP; try contradiction.
    2:{ exists h4, s4, w. auto. }
    destruct (sl_append grow x00 h4 s4 _) as [h5 s5] eqn:A5. eapply ext_append in A5; [|exact O0|exact A4].
    match goal with |- context [let '(h, buff) := ?X in _] => destruct X as [h6 s6] eqn:A6 end.
    eapply ext_section in A6; [|exact O0|exact A5|exact AO]. destruct A6 as (w2 & A6 & V6).
    rewrite <- !(app_assoc (sl_read h0 s0)).
    replace (length (sl_read h0 s0 ++ w ++ [x00; x00; x00; x00]) - 4) with (length (sl_read h0 s0 ++ w))
      by (rewrite !app_length; cbn [length]; lia).
    rewrite V6. destruct (ext_fun _ _ _ _ _ _ _ O0 A6 AP) as (h7 & s7 & w3 & H7 & E7 & V7). exists h7, s7, (w2 ++ w3). auto.
  Qed.
End Enc.
