(** Filters over memory do what filters with a prefix of their own do. *)

From Coq Require Import List NArith Bool Arith Lia Decimal DecimalNat.
From Verif.Model Require Import Bytes Go Keys Pebble Slices Bloom FilterMem.
From Verif.Spec Require Import SliceSpec FilterMemSpec.
From Verif.Proofs Require Import SliceFacts.
Import ListNotations.

Lemma self_apart s : apart s s.
Proof. right. intros i A B [C D]. lia. Qed.

Lemma frame_refl (s : slc) (h : heap byte) : frame s h h.
Proof. constructor; auto. Qed.

Lemma frame_trans (s : slc) (h0 h1 h2 : heap byte) : frame s h0 h1 -> frame s h1 h2 -> frame s h0 h2.
Proof.
  intros [L1 S1 C1] [L2 S2 C2]. constructor.
  - lia.
  - intros a A. rewrite S2 by lia. now apply S1.
  - intros a i A C. rewrite C2 by (auto; lia). now apply C1.
Qed.

Section Calls.
  Context {St : Type}.
  Variable grow : nat -> nat -> nat.
  Variable st : storer St.
  Variable cd : codec.
  Variable c : mconfig.
  Variable hs : hashes.

  Lemma key_value h pre suf h' k : sl_ok h pre -> m_key grow h pre suf = (h', k) ->
    k = sl_read h pre ++ suf /\ frame pre h h' /\ sl_ok h' pre /\ sl_read h' pre = sl_read h pre.
  Proof.
    intros O E. unfold m_key in E. destruct (sl_append grow x00 h pre suf) as [h1 s1] eqn:A. injection E as <- <-.
    pose proof (ext_append grow x00 pre h h pre [] suf h1 s1 O (ext_refl h pre O) A) as X. cbn [app] in X.
    destruct (frame_read pre h h1 pre (ex_frame _ _ _ _ _ X) O (self_apart pre)) as [R K].
    split; [exact (ex_read _ _ _ _ _ X)|]. split; [exact (ex_frame _ _ _ _ _ X)|]. split; [exact K|exact R].
  Qed.

  (** What a call leaves of the memory, and that the prefix is as it was. *)
  Definition kept (h h' : heap byte) : Prop :=
    frame (mc_pre c) h h' /\ sl_ok h' (mc_pre c) /\ sl_read h' (mc_pre c) = sl_read h (mc_pre c).

  Lemma kept_refl h : sl_ok h (mc_pre c) -> kept h h.
  Proof. intros O. split; [apply frame_refl|]. split; [exact O|reflexivity]. Qed.

  Lemma kept_trans h0 h1 h2 : kept h0 h1 -> kept h1 h2 -> kept h0 h2.
  Proof. intros (A & B & C) (D & E & F). split; [exact (frame_trans _ _ _ _ A D)|]. split; [exact E|congruence]. Qed.

  Lemma kept_view h h' : kept h h' -> mc_view h' c = mc_view h c.
  Proof. intros (_ & _ & R). unfold mc_view. now rewrite R. Qed.

  Lemma bucket_key_value h i h' k : sl_ok h (mc_pre c) -> m_bucket_key grow h c i = (h', k) -> k = bucket_key (mc_view h c) i /\ kept h h'.
  Proof. intros O E. destruct (key_value _ _ _ _ _ O E) as (K & F & O' & R). split; [exact K|]. split; [exact F|]. split; [exact O'|exact R]. Qed.

  Lemma count_key_value h h' k : sl_ok h (mc_pre c) -> m_count_key grow h c = (h', k) -> k = count_key (mc_view h c) /\ kept h h'.
  Proof. intros O E. destruct (key_value _ _ _ _ _ O E) as (K & F & O' & R). split; [exact K|]. split; [exact F|]. split; [exact O'|exact R]. Qed.

  Lemma load_buckets_value s bs : forall h i h' bs' r, sl_ok h (mc_pre c) -> m_load_buckets grow st cd c h s i bs = (h', bs', r) ->
    load_buckets st cd (mc_view h c) s i bs = (bs', r) /\ kept h h'.
  Proof.
    induction bs as [|b bs IH]; intros h i h' bs' r O E; cbn [m_load_buckets load_buckets] in *.
    - injection E as <- <- <-. split; [reflexivity|now apply kept_refl].
    - destruct (m_bucket_key grow h c i) as [h1 key] eqn:K. destruct (bucket_key_value _ _ _ _ O K) as [-> KK].
      destruct (st_get st s (bucket_key (mc_view h c) i)) as [data|]; [|injection E as <- <- <-; now split].
      destruct (unpack cd data) as [[[m k] bits]|]; [|injection E as <- <- <-; now split].
      change (c_m (mc_view h c)) with (mc_m c). change (c_k (mc_view h c)) with (mc_k c).
      destruct ((m =? mc_m c)%N && Nat.eqb k (mc_k c))%bool; [|injection E as <- <- <-; now split].
      destruct (m_load_buckets grow st cd c h1 s (Datatypes.S i) bs) as [[h2 bs2] r2] eqn:L. injection E as <- <- <-.
      destruct (IH _ _ _ _ _ (proj1 (proj2 KK)) L) as [L' K2]. rewrite (kept_view _ _ KK) in L'. rewrite L'. split; [reflexivity|].
      exact (kept_trans _ _ _ KK K2).
  Qed.

  Lemma load_value h s bs h' bs' r : sl_ok h (mc_pre c) -> m_load grow st cd c h s bs = (h', bs', r) ->
    bloom_load st cd (mc_view h c) s bs = (bs', r) /\ kept h h'.
  Proof.
    intros O E. unfold m_load in E. unfold bloom_load. destruct (m_count_key grow h c) as [h1 key] eqn:K.
    destruct (count_key_value _ _ _ O K) as [-> KK].
    destruct (st_get st s (count_key (mc_view h c))) as [v|]; [|injection E as <- <- <-; now split].
    destruct (Nat.ltb (length v) 8); [injection E as <- <- <-; now split|].
    change (c_n (mc_view h c)) with (mc_n c).
    destruct (N.eqb (be_val (firstn 8 v)) (N.of_nat (mc_n c))); [|injection E as <- <- <-; now split].
    destruct (load_buckets_value _ _ _ _ _ _ _ (proj1 (proj2 KK)) E) as [L K2]. rewrite (kept_view _ _ KK) in L. rewrite L.
    split; [reflexivity|]. exact (kept_trans _ _ _ KK K2).
  Qed.

  Lemma save_buckets_value stop bs : forall n h s i h' x, sl_ok h (mc_pre c) -> m_save_buckets grow st cd c stop n h s i bs = (h', x) ->
    save_buckets st cd (mc_view h c) stop n s i bs = x /\ kept h h'.
  Proof.
    induction bs as [|b bs IH]; intros n h s i h' x O E; cbn [m_save_buckets save_buckets] in *.
    - injection E as <- <-. split; [reflexivity|now apply kept_refl].
    - destruct (negb (bk_changes b) && bk_written b)%bool.
      + destruct (m_save_buckets grow st cd c stop n h s (Datatypes.S i) bs) as [h2 [[s2 bs2] r2]] eqn:L. injection E as <- <-.
        destruct (IH _ _ _ _ _ _ O L) as [L' K2]. rewrite L'. split; [reflexivity|exact K2].
      + destruct (m_bucket_key grow h c i) as [h1 key] eqn:K. destruct (bucket_key_value _ _ _ _ O K) as [-> KK].
        change (c_m (mc_view h c)) with (mc_m c). change (c_k (mc_view h c)) with (mc_k c).
        destruct (save_set st stop n s (bucket_key (mc_view h c) i) (pack cd (mc_m c, mc_k c, bk_bits b))) as [s1 ok].
        destruct ok; [|injection E as <- <-; now split].
        destruct (m_save_buckets grow st cd c stop (Datatypes.S n) h1 s1 (Datatypes.S i) bs) as [h2 [[s2 bs2] r2]] eqn:L. injection E as <- <-.
        destruct (IH _ _ _ _ _ _ (proj1 (proj2 KK)) L) as [L' K2]. rewrite (kept_view _ _ KK) in L'. rewrite L'. split; [reflexivity|].
        exact (kept_trans _ _ _ KK K2).
  Qed.

  Lemma save_value stop h s bs h' x : sl_ok h (mc_pre c) -> m_save grow st cd c stop h s bs = (h', x) ->
    bloom_save st cd (mc_view h c) stop s bs = x /\ kept h h'.
  Proof.
    intros O E. unfold m_save in E. unfold bloom_save. destruct (m_count_key grow h c) as [h1 key] eqn:K.
    destruct (count_key_value _ _ _ O K) as [-> KK]. change (c_n (mc_view h c)) with (mc_n c).
    destruct (save_set st stop 0 s (count_key (mc_view h c)) (be_bytes 8 (N.of_nat (mc_n c)))) as [s1 ok].
    destruct ok; [|injection E as <- <-; now split].
    destruct (save_buckets_value _ _ _ _ _ _ _ _ (proj1 (proj2 KK)) E) as [L K2]. rewrite (kept_view _ _ KK) in L. rewrite L.
    split; [reflexivity|]. exact (kept_trans _ _ _ KK K2).
  Qed.

  Lemma step_value_of h s bs o h' x : sl_ok h (mc_pre c) -> m_step grow st cd c hs h s bs o = (h', x) ->
    bloom_step st cd hs (mc_view h c) s bs o = x /\ kept h h'.
  Proof.
    intros O E. destruct o as [k|stop| | |]; cbn [m_step bloom_step] in *.
    - injection E as <- <-. split; [reflexivity|now apply kept_refl].
    - now apply save_value.
    - destruct (m_load grow st cd c h s bs) as [[h2 bs2] r2] eqn:L. injection E as <- <-. destruct (load_value _ _ _ _ _ _ O L) as [L' K].
      rewrite L'. now split.
    - destruct (bloom_clear st (mc_view h c) s) as [s2 r2]. injection E as <- <-. split; [reflexivity|now apply kept_refl].
    - injection E as <- <-. split; [reflexivity|now apply kept_refl].
  Qed.
End Calls.

(** A call of one filter: the bytes shown by any slice apart from its free room stay. *)
Lemma call_memory {St} grow (st : storer St) cd c hs h s bs o h' x t : sl_ok h (mc_pre c) -> m_step grow st cd c hs h s bs o = (h', x) ->
  sl_ok h t -> apart (mc_pre c) t -> sl_read h' t = sl_read h t /\ sl_ok h' t.
Proof. intros O E OT A. destruct (step_value_of grow st cd c hs h s bs o h' x O E) as [_ (F & _ & _)]. exact (frame_read _ _ _ t F OT A). Qed.

(** A prefix without free room is apart from everything. *)
Lemma full_apart s t : sl_cap s = sl_len s -> apart s t.
Proof. intros E. right. intros i A B. lia. Qed.

Lemma views_eq h h' fs : (forall c, In c fs -> mc_view h' c = mc_view h c) -> map (mc_view h') fs = map (mc_view h) fs.
Proof. intros H. now apply map_ext_in. Qed.

Theorem filters_value {St} grow (st : storer St) cd hs fs os : no_sharing (map mc_pre fs) -> forall h s bss h' x,
  Forall (fun c => sl_ok h (mc_pre c)) fs -> m_run grow st cd hs fs h s bss os = (h', x) ->
  filters_run st cd hs (map (mc_view h) fs) s bss os = x /\
  (forall t, sl_ok h t -> Forall (fun c => apart (mc_pre c) t) fs -> sl_read h' t = sl_read h t).
Proof.
  intros NS. induction os as [|[i o] os IH]; intros h s bss h' x OK E; cbn [m_run filters_run] in *.
  - injection E as <- <-. split; [reflexivity|auto].
  - rewrite nth_error_map. destruct (nth_error fs i) as [c|] eqn:EC; cbn [option_map]; [|now apply IH].
    destruct (nth_error bss i) as [bs|]; [|now apply IH].
    destruct (m_step grow st cd c hs h s bs o) as [h1 [[s1 bs1] r]] eqn:ES.
    destruct (m_run grow st cd hs fs h1 s1 (firstn i bss ++ bs1 :: skipn (Datatypes.S i) bss) os) as [h2 [[s2 bss2] rs]] eqn:ER.
    injection E as <- <-. pose proof (nth_error_In _ _ EC) as IC. pose proof (proj1 (Forall_forall _ _) OK) as OKF.
    assert (O1 : forall d, In d fs -> sl_read h1 (mc_pre d) = sl_read h (mc_pre d) /\ sl_ok h1 (mc_pre d)).
    { intros d ID. apply (call_memory _ _ _ _ _ _ _ _ _ _ _ _ (OKF c IC) ES (OKF d ID)). apply NS; now apply in_map. }
    destruct (step_value_of grow st cd c hs h s bs o h1 _ (OKF c IC) ES) as [V _]. rewrite V.
    destruct (IH h1 _ _ _ _ (proj2 (Forall_forall _ _) (fun d ID => proj2 (O1 d ID))) ER) as [R M].
    assert (VE : map (mc_view h1) fs = map (mc_view h) fs).
    { apply views_eq. intros d ID. unfold mc_view. now rewrite (proj1 (O1 d ID)). }
    rewrite VE in R. rewrite R. split; [reflexivity|].
    intros t OT AT. pose proof (proj1 (Forall_forall _ _) AT c IC) as AC.
    destruct (call_memory _ _ _ _ _ _ _ _ _ _ _ t (OKF c IC) ES OT AC) as [R1 O2]. rewrite (M t O2 AT). exact R1.
Qed.

(** The free room behind the prefix is overwritten. *)
Lemma spare_overwritten grow h pre suf h' k : sl_ok h pre -> suf <> [] -> sl_len pre + length suf <= sl_cap pre -> m_key grow h pre suf = (h', k) ->
  sl_read h' (behind pre) = suf ++ skipn (length suf) (sl_read h (behind pre)).
Proof.
  intros O NE LE E. unfold m_key, sl_append in E. destruct suf as [|x suf0] eqn:SU; [contradiction|]. rewrite <- SU in *. clear NE.
  assert (B : length suf > 0) by (rewrite SU; cbn; lia).
  assert (T : (if Nat.leb (sl_len pre + length suf) (sl_cap pre) then (sl_write h pre (sl_len pre) suf, Slc (sl_arr pre) (sl_off pre) (sl_len pre + length suf) (sl_cap pre))
      else (h ++ [sl_read h pre ++ suf ++ repeat x00 (grow (sl_cap pre) (sl_len pre + length suf))], Slc (length h) 0 (sl_len pre + length suf) (sl_len pre + length suf + grow (sl_cap pre) (sl_len pre + length suf)))) =
      (sl_write h pre (sl_len pre) suf, Slc (sl_arr pre) (sl_off pre) (sl_len pre + length suf) (sl_cap pre))).
  { destruct (Nat.leb_spec (sl_len pre + length suf) (sl_cap pre)); [reflexivity|lia]. }
  cbv zeta in E. rewrite T in E. injection E as <- _. clear T.
  destruct O as [OL [O|[O1 O2]]]; [lia|]. change (sl_off pre + sl_cap pre <= length (cells h (sl_arr pre))) in O2.
  assert (W : sl_write h pre (sl_len pre) suf = set_cells h (sl_arr pre) (overwrite (cells h (sl_arr pre)) (sl_off pre + sl_len pre) suf)).
  { unfold sl_write. rewrite SU. reflexivity. }
  rewrite W. apply list_ext. intros i. rewrite read_nth. unfold behind. cbn [sl_len sl_arr sl_off].
  rewrite set_cells_same by exact O1. rewrite overwrite_nth by lia.
  assert (RL : length (sl_read h (behind pre)) = sl_cap pre - sl_len pre).
  { unfold sl_read, behind. cbn [sl_len sl_arr sl_off]. rewrite firstn_length, skipn_length. lia. }
  destruct (Nat.ltb_spec i (sl_cap pre - sl_len pre)) as [L|G].
  - destruct (Nat.leb_spec (sl_off pre + sl_len pre) (sl_off pre + sl_len pre + i)); [|lia]. cbn [andb].
    destruct (Nat.ltb_spec (sl_off pre + sl_len pre + i) (sl_off pre + sl_len pre + length suf)).
    + rewrite nth_error_app1 by lia. f_equal. lia.
    + rewrite nth_error_app2 by lia. rewrite nth_error_skipn.
      change (Slc (sl_arr pre) (sl_off pre + sl_len pre) (sl_cap pre - sl_len pre) (sl_cap pre - sl_len pre)) with (behind pre).
      rewrite read_nth. unfold behind. cbn [sl_len sl_arr sl_off]. replace (length suf + (i - length suf)) with i by lia.
      destruct (Nat.ltb_spec i (sl_cap pre - sl_len pre)); [reflexivity|lia].
  - symmetry. apply nth_error_None. rewrite app_length, skipn_length.
    change (Slc (sl_arr pre) (sl_off pre + sl_len pre) (sl_cap pre - sl_len pre) (sl_cap pre - sl_len pre)) with (behind pre). rewrite RL. lia.
Qed.

(** Load of a filter that was never saved leaves "bn" behind the prefix. *)
Lemma load_leaves {St} grow (st : storer St) cd c h s bs h' bs' r : sl_ok h (mc_pre c) -> sl_len (mc_pre c) + 2 <= sl_cap (mc_pre c) ->
  st_get st s (count_key (mc_view h c)) = None -> m_load grow st cd c h s bs = (h', bs', r) ->
  bs' = bs /\ r = Err EOther /\ sl_read h' (behind (mc_pre c)) = [x62; x6e] ++ skipn 2 (sl_read h (behind (mc_pre c))).
Proof.
  intros O LE G E. unfold m_load in E. destruct (m_count_key grow h c) as [h1 key] eqn:K.
  destruct (count_key_value grow c _ _ _ O K) as [-> KK]. rewrite G in E. injection E as <- <- <-.
  split; [reflexivity|]. split; [reflexivity|]. exact (spare_overwritten grow h (mc_pre c) [x62; x6e] h1 (count_key (mc_view h c)) O ltac:(discriminate) LE K).
Qed.
