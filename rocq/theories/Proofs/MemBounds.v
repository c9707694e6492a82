(** Bounds and iterators on memory. *)

From Coq Require Import List NArith Bool Arith Lia Permutation.
From Verif.Model Require Import Bytes Go Keys Pebble Index Table Scan Slices Mem MemScan.
From Verif.Spec Require Import SliceSpec TableSpec MemSpec MemScanSpec.
From Verif.Proofs Require Import SliceFacts MemFacts MemCalls.
Import ListNotations.

Lemma succ_rev_length : forall l, length (succ_rev l) = length l.
Proof. induction l as [|b l IH]; cbn; auto. destruct (b2n b =? 255)%N; cbn; auto. Qed.
Lemma successor_length l : length (key_successor l) = length l.
Proof. unfold key_successor. now rewrite rev_length, succ_rev_length, rev_length. Qed.

Section Bounds.
  Variable grow : nat -> nat -> nat.
  Variable noise : list (heap byte) -> list slc -> heap byte -> heap byte.
  Variable foreign : list slc.
  Hypothesis LV : leaves noise foreign.
  Context {T F : Type}.
  Variable mt : mtable T F.
  Hypothesis IM : implements mt.
  Notation tb := (mt_val mt).

  Lemma enc_appends idx tr : implements_index mt idx -> appends (h_index_key grow mt idx tr) (encode_index_key (t_id tb) (t_pk tb) idx tr).
  Proof. intros [A B]. apply key_encode_appends; cbn; [apply A|apply B|apply (im_pk mt IM)]. Qed.

  (** The successor of what [src] shows, in the buffer [dst]. *)
  Lemma successor_ok m src dst rest h s : buffers (m_heap m) (dst :: rest) -> h_successor grow (m_heap m) src dst = (h, s) ->
    safe rest m (Mem h (m_past m)) /\ heir m (Mem h (m_past m)) dst s /\ sl_read h s = key_successor (m_read m src).
  Proof.
    intros B H. unfold h_successor in H. destruct (sl_append grow x00 (m_heap m) (sl_reset dst) (sl_read (m_heap m) src)) as [h1 s1] eqn:AP.
    apply pair_equal_spec in H. destruct H as [<- <-]. pose proof (reset_ok _ _ (buffers_hd _ _ _ B)) as OB.
    eapply ext_append in AP; [|exact OB|apply ext_refl, OB]. cbn [app] in AP.
    assert (R1 : sl_read h1 s1 = sl_read (m_heap m) src) by (rewrite (ex_read _ _ _ _ _ AP); reflexivity).
    assert (E : ext (sl_reset dst) (m_heap m) (h_increment h1 s1) s1 (key_successor (sl_read (m_heap m) src))).
    { unfold h_increment. rewrite R1. pose proof (ext_mid (sl_reset dst) (m_heap m) h1 s1 [] (sl_read (m_heap m) src) [] (key_successor (sl_read (m_heap m) src))) as X.
      cbn [app] in X. rewrite !app_nil_r in X. apply X; auto. apply successor_length. }
    split; [|split].
    - destruct (ext_buffers _ _ _ _ _ _ B E) as (G & U & _). apply safe_step. split; auto.
    - intros r BR. now destruct (ext_buffers _ _ _ _ _ _ BR E) as (_ & _ & X & _).
    - rewrite (ex_read _ _ _ _ _ E). reflexivity.
  Qed.

  Lemma increment_ok m s rest : buffers (m_heap m) (s :: rest) ->
    let h := h_increment (m_heap m) s in
    safe rest m (Mem h (m_past m)) /\ heir m (Mem h (m_past m)) s s /\ sl_read h s = key_successor (m_read m s).
  Proof.
    intros B. cbv zeta. pose proof (buffers_hd _ _ _ B) as OB. pose proof (read_length _ _ OB) as RL.
    assert (E0 : ext (sl_reset s) (m_heap m) (m_heap m) s (m_read m s)).
    { constructor; [constructor; auto|exact OB|right; auto|cbn; unfold m_read; lia|reflexivity]. }
    assert (E : ext (sl_reset s) (m_heap m) (h_increment (m_heap m) s) s (key_successor (m_read m s))).
    { unfold h_increment. pose proof (ext_mid (sl_reset s) (m_heap m) (m_heap m) s [] (m_read m s) [] (key_successor (m_read m s))) as X.
      cbn [app] in X. rewrite !app_nil_r in X. apply X; auto. apply successor_length. }
    split; [|split].
    - destruct (ext_buffers _ _ _ _ _ _ B E) as (G & U & _). apply safe_step. split; auto.
    - intros r BR. now destruct (ext_buffers _ _ _ _ _ _ BR E) as (_ & _ & X & _).
    - rewrite (ex_read _ _ _ _ _ E). reflexivity.
  Qed.

  Lemma prefix_read h s : sl_ok h s -> match h_prefix h s with
    | Ok p => key_prefix_of (sl_read h s) = Ok (sl_read h p)
    | Err e => key_prefix_of (sl_read h s) = Err e
    | Panic => key_prefix_of (sl_read h s) = Panic
    | Diverge => key_prefix_of (sl_read h s) = Diverge
    end.
  Proof.
    intros O. unfold h_prefix. destruct (key_prefix_of (sl_read h s)) as [p|e| |] eqn:E; auto. f_equal.
    unfold key_prefix_of in E. destruct (split_index (sl_read h s)) as [n| | |]; try discriminate.
    unfold slice in E. destruct (_ && _)%bool eqn:LE; [|discriminate]. injection E as <-. unfold sl_read. cbn.
    set (l := skipn (sl_off s) (cells h (sl_arr s))). rewrite firstn_firstn, firstn_length, Nat.sub_0_r.
    rewrite <- (firstn_firstn l (Nat.min (N.to_nat n) (sl_len s)) (length l)). now rewrite (firstn_all l).
  Qed.

  (** Two buffers become the bounds of one point. *)
  Lemma point_bounds_ok own idx exact p b b2 rest m m' r : implements_index mt idx -> buffers (m_heap m) (b :: b2 :: rest) -> within rest (own ++ foreign) ->
    m_point_bounds grow noise mt own idx exact p b b2 m = (m', r) ->
    safe rest m m' /\ (forall r', buffers (m_heap m) (b :: b2 :: r') -> match r with Ok x => buffers (m_heap m') (fst x :: snd x :: r') | _ => buffers (m_heap m') r' end) /\
    point_bounds tb idx exact p = match r with Ok x => Ok (m_read m' (fst x), m_read m' (snd x)) | Err e => Err e | Panic => Panic | Diverge => Diverge end.
  Proof.
    intros II B I H. unfold m_point_bounds in H. unfold point_bounds.
    destruct (m_build noise (h_index_key grow mt idx p) (b2 :: own) m b) as [m1 lo] eqn:E1.
    assert (W1 : within (b2 :: rest) ((b2 :: own) ++ foreign)).
    { intros x [<-|J]; [exists b2; split; [now left|apply same_refl]|]. destruct (I x J) as (y & K & E). exists y. split; [now right|auto]. }
    eapply build_ok_within in E1; [|exact LV|apply (enc_appends idx p II)|exact B|exact W1]. destruct E1 as (S1 & H1 & R1).
    pose proof (H1 _ B) as B1. pose proof (prefix_read (m_heap m1) lo (buffers_hd _ _ _ B1)) as PR. unfold m_read in R1. rewrite R1 in PR.
    change (encode_index_key (t_id tb) (t_pk tb) idx p []) with (encode_index_key (t_id tb) (t_pk tb) idx p []) in PR.
    assert (SR : safe rest m m1) by (eapply safe_incl; [|exact S1]; intros x J; now right).
    assert (BAD : forall r', buffers (m_heap m) (b :: b2 :: r') -> buffers (m_heap m1) r').
    { intros r' BR. apply H1 in BR. now apply buffers_tl, buffers_tl in BR. }
    destruct (h_prefix (m_heap m1) lo) as [pre|e| |]; rewrite PR;
      try (apply pair_equal_spec in H; destruct H as [<- <-]; split; [exact SR|split; [exact BAD|reflexivity]]).
    assert (P2 : forall x l, Permutation (lo :: x :: l) (x :: lo :: l)) by (intros; apply perm_swap).
    destruct (h_successor grow (m_heap m1) pre b2) as [h2 hi] eqn:E2.
    eapply successor_ok in E2; [|eapply buffers_perm; [apply P2|exact B1]]. destruct E2 as (S2 & H2 & R2).
    set (m2 := Mem h2 (m_past m1)) in *.
    assert (RL2 : m_read m2 lo = m_read m1 lo) by (eapply safe_read; [exact S2|now left|exact B1|now left]).
    (* after the second successor, if any *)
    assert (X : exists h3 hi3, (if exact then h_successor grow h2 lo hi else (h2, hi)) = (h3, hi3) /\
      safe (lo :: rest) m2 (Mem h3 (m_past m2)) /\ heir m2 (Mem h3 (m_past m2)) hi hi3 /\
      sl_read h3 hi3 = if exact then key_successor (m_read m1 lo) else key_successor (m_read m1 pre)).
    { destruct exact.
      - destruct (h_successor grow h2 lo hi) as [h3 hi3] eqn:E3. exists h3, hi3. split; auto.
        change h2 with (m_heap m2) in E3. eapply (successor_ok _ _ _ (lo :: rest)) in E3; [|apply H2; eapply buffers_perm; [apply P2|exact B1]].
        rewrite RL2 in E3. exact E3.
      - exists h2, hi. split; auto. split; [apply safe_refl|]. split; [intros r' BR; exact BR|]. exact R2. }
    destruct X as (h3 & hi3 & E3 & S3 & H3 & R3). rewrite E3 in H. apply pair_equal_spec in H. destruct H as [<- <-]. cbn [fst snd].
    set (m3 := Mem h3 (m_past m2)) in *. change (Mem h3 (m_past m1)) with m3.
    pose proof (stir_safe noise foreign LV (lo :: hi3 :: own) m3) as S4. set (m4 := stir noise (lo :: hi3 :: own) m3) in *.
    assert (NB : forall r', buffers (m_heap m) (b :: b2 :: r') -> buffers (m_heap m3) (lo :: hi3 :: r')).
    { intros r' BR. eapply buffers_perm; [apply perm_swap|]. apply H3, H2. eapply buffers_perm; [apply P2|]. now apply H1. }
    assert (SR23 : safe (lo :: rest) m1 m3) by (eapply safe_trans; eauto).
    split; [|split].
    - eapply safe_trans; [exact SR|]. eapply safe_trans; [eapply safe_incl; [|exact SR23]; intros x J; now right|].
      eapply safe_within; [|exact S4]. intros x J. destruct (I x J) as (y & K & E). exists y. split; auto. cbn. auto.
    - intros r' BR. eapply safe_buffers; [exact S4|]. now apply NB.
    - assert (RL : m_read m4 lo = m_read m1 lo).
      { transitivity (m_read m3 lo); [eapply safe_read; [exact S4|now left|apply NB, B|now left]|]. eapply safe_read; [exact SR23|now left|exact B1|now left]. }
      assert (RH : m_read m4 hi3 = m_read m3 hi3) by (eapply safe_read; [exact S4|right; now left|apply NB, B|right; now left]).
      rewrite RL, RH. unfold m_read at 2. cbn [m_heap m3]. rewrite R3. unfold m_read. rewrite R1. reflexivity.
  Qed.

  Lemma range_bounds_ok own idx l u b b2 rest m m' x : implements_index mt idx -> buffers (m_heap m) (b :: b2 :: rest) -> within rest (own ++ foreign) ->
    m_range_bounds grow noise mt own idx l u b b2 m = (m', x) ->
    safe rest m m' /\ (forall r', buffers (m_heap m) (b :: b2 :: r') -> buffers (m_heap m') (fst x :: snd x :: r')) /\
    range_bounds tb idx l u = (m_read m' (fst x), m_read m' (snd x)).
  Proof.
    intros II B I H. unfold m_range_bounds in H. unfold range_bounds.
    destruct (m_build noise (h_index_key grow mt idx l) (b2 :: own) m b) as [m1 lo] eqn:E1.
    assert (W1 : forall z, within (z :: rest) ((z :: own) ++ foreign)).
    { intros z x0 [<-|J]; [exists z; split; [now left|apply same_refl]|]. destruct (I x0 J) as (y & K & E). exists y. split; [now right|auto]. }
    eapply build_ok_within in E1; [|exact LV|apply (enc_appends idx l II)|exact B|apply W1]. destruct E1 as (S1 & H1 & R1).
    pose proof (H1 _ B) as B1. assert (P2 : forall y z l, Permutation (y :: z :: l) (z :: y :: l : list slc)) by (intros; apply perm_swap).
    destruct (m_build noise (h_index_key grow mt idx u) (lo :: own) m1 b2) as [m2 hi] eqn:E2.
    eapply build_ok_within in E2; [|exact LV|apply (enc_appends idx u II)|eapply buffers_perm; [apply P2|exact B1]|apply W1]. destruct E2 as (S2 & H2 & R2).
    apply pair_equal_spec in H. destruct H as [<- <-]. cbn [fst snd].
    assert (B2 : buffers (m_heap m2) (hi :: lo :: rest)) by (apply H2; eapply buffers_perm; [apply P2|exact B1]).
    destruct (increment_ok _ _ _ B2) as (S3 & H3 & R3). set (m3 := Mem (h_increment (m_heap m2) hi) (m_past m2)) in *.
    pose proof (stir_safe noise foreign LV (lo :: hi :: own) m3) as S4. set (m4 := stir noise (lo :: hi :: own) m3) in *.
    assert (NB : forall r', buffers (m_heap m) (b :: b2 :: r') -> buffers (m_heap m3) (lo :: hi :: r')).
    { intros r' BR. eapply buffers_perm; [apply P2|]. apply H3, H2. eapply buffers_perm; [apply P2|]. now apply H1. }
    assert (S23 : safe (lo :: rest) m1 m3) by (eapply safe_trans; eauto).
    split; [|split].
    - eapply safe_trans; [eapply safe_incl; [|exact S1]; intros z J; now right|]. eapply safe_trans; [eapply safe_incl; [|exact S23]; intros z J; now right|].
      eapply safe_within; [|exact S4]. intros z J. destruct (I z J) as (y & K & E). exists y. split; auto. cbn. auto.
    - intros r' BR. eapply safe_buffers; [exact S4|]. now apply NB.
    - assert (RL : m_read m4 lo = m_read m1 lo).
      { transitivity (m_read m3 lo); [eapply safe_read; [exact S4|now left|apply NB, B|now left]|]. eapply safe_read; [exact S23|now left|exact B1|now left]. }
      assert (RH : m_read m4 hi = m_read m3 hi) by (eapply safe_read; [exact S4|right; now left|apply NB, B|right; now left]).
      rewrite RL, RH, R1. unfold m_read at 1. cbn [m_heap m3]. rewrite R3, R2. reflexivity.
  Qed.

  Definition shown (m : mem) (l : list (slc * slc)) : list (bytes * bytes) := map (fun b => (m_read m (fst b), m_read m (snd b))) l.

  Lemma shown_safe l m m' bs : safe (sides l) m m' -> buffers (m_heap m) bs -> incl (sides l) bs -> shown m' l = shown m l.
  Proof.
    intros S B I. unfold shown. apply map_ext_in. intros [x y] J. cbn.
    assert (A : In x (sides l) /\ In y (sides l)).
    { split; unfold sides; apply in_flat_map; exists (x, y); split; auto; cbn; auto. }
    destruct A as [A1 A2]. f_equal; eapply safe_read; eauto.
  Qed.

  Lemma sides_app l1 l2 : sides (l1 ++ l2) = sides l1 ++ sides l2.
  Proof. unfold sides. now rewrite flat_map_app. Qed.

  (** The loop over points. *)
  Lemma points_bounds_ok own idx exact ps : forall bufs done rest m m' r, implements_index mt idx ->
    buffers (m_heap m) (sides done ++ sides bufs ++ rest) -> within rest (own ++ foreign) -> length bufs = length ps ->
    m_points_bounds grow noise mt own idx exact ps bufs done m = (m', r) ->
    safe rest m m' /\ (forall r', buffers (m_heap m) (sides done ++ sides bufs ++ r') -> match r with Ok l => buffers (m_heap m') (sides l ++ r') | _ => buffers (m_heap m') r' end) /\
    match points_bounds tb idx exact ps with
    | Ok vs => exists l, r = Ok l /\ shown m' l = shown m done ++ vs
    | Err e => r = Err e
    | Panic => r = Panic
    | Diverge => r = Diverge
    end.
  Proof.
    induction ps as [|p ps IH]; intros bufs done rest m m' r II B I L H.
    - destruct bufs; [|discriminate]. cbn in H. injection H as <- <-. split; [apply safe_refl|]. split; [now cbn|]. cbn. exists done. split; auto. now rewrite app_nil_r.
    - destruct bufs as [|[b b2] bufs]; [discriminate|]. cbn [m_points_bounds] in H.
      destruct (m_point_bounds grow noise mt (sides done ++ sides bufs ++ own) idx exact p b b2 m) as [m1 r1] eqn:E.
      assert (P : forall l, Permutation (sides done ++ sides ((b, b2) :: bufs) ++ l) (b :: b2 :: sides done ++ sides bufs ++ l)).
      { intros l. change (sides ((b, b2) :: bufs)) with ([b; b2] ++ sides bufs). rewrite <- app_assoc. rewrite (Permutation_app_swap_app (sides done)). reflexivity. }
      eapply (point_bounds_ok _ _ _ _ _ _ (sides done ++ sides bufs ++ rest)) in E; [|exact II|eapply buffers_perm; [apply P|exact B]|].
      2:{ intros x J. rewrite !in_app_iff in J. destruct J as [J|[J|J]]; try (exists x; rewrite !in_app_iff; split; [tauto|apply same_refl]).
          destruct (I x J) as (y & K & E1). exists y. rewrite !in_app_iff in *. tauto. }
      destruct E as (S1 & H1 & R1). cbn [points_bounds]. rewrite R1.
      assert (SR : safe rest m m1) by (eapply safe_incl; [|exact S1]; intros x J; rewrite !in_app_iff; tauto).
      assert (BAD : forall y, r1 = y -> (forall x, y <> Ok x) -> forall r', buffers (m_heap m) (sides done ++ sides ((b, b2) :: bufs) ++ r') -> buffers (m_heap m1) r').
      { intros y -> NE r' BR. apply (buffers_perm _ _ _ (P r')) in BR. apply H1 in BR. destruct y as [x| | |]; [now destruct (NE x)| | |];
          (eapply buffers_part; [|exact BR]; rewrite app_assoc; apply Permutation_app_comm). }
      destruct r1 as [x|e| |]; try (injection H as <- <-; split; [exact SR|split; [eapply BAD; [reflexivity|discriminate]|reflexivity]]).
      assert (P' : forall l, Permutation (fst x :: snd x :: sides done ++ sides bufs ++ l) (sides (done ++ [x]) ++ sides bufs ++ l)).
      { intros l. rewrite sides_app. change (sides [x]) with [fst x; snd x]. rewrite <- app_assoc. apply (Permutation_app_swap_app [fst x; snd x] (sides done)). }
      assert (HB : forall r', buffers (m_heap m) (sides done ++ sides ((b, b2) :: bufs) ++ r') -> buffers (m_heap m1) (sides (done ++ [x]) ++ sides bufs ++ r')).
      { intros r' BR. eapply buffers_perm; [apply P'|]. apply H1. eapply buffers_perm; [apply P|exact BR]. }
      eapply (IH bufs (done ++ [x]) rest) in H; [|exact II|apply HB, B|exact I|cbn in L; lia]. destruct H as (S2 & H2 & R2).
      split; [eapply safe_trans; eauto|]. split; [intros r' BR; apply H2, HB, BR|].
      destruct (points_bounds tb idx exact ps) as [vs|e| |]; auto. destruct R2 as (l & -> & SH). exists l. split; auto. rewrite SH.
      unfold shown at 1. rewrite map_app. fold (shown m1 done). rewrite <- app_assoc. cbn [map app]. f_equal.
      eapply shown_safe; [eapply safe_incl; [|exact S1]; intros y J; rewrite in_app_iff; now left|exact B|intros y J; rewrite in_app_iff; now left].
  Qed.

  Lemma ranges_bounds_ok own idx rs : forall bufs done rest m m' r, implements_index mt idx ->
    buffers (m_heap m) (sides done ++ sides bufs ++ rest) -> within rest (own ++ foreign) -> length bufs = length rs ->
    m_ranges_bounds grow noise mt own idx rs bufs done m = (m', r) ->
    safe rest m m' /\ (forall r', buffers (m_heap m) (sides done ++ sides bufs ++ r') -> match r with Ok l => buffers (m_heap m') (sides l ++ r') | _ => buffers (m_heap m') r' end) /\
    match ranges_bounds tb idx rs with
    | Ok vs => exists l, r = Ok l /\ shown m' l = shown m done ++ vs
    | Err e => r = Err e
    | Panic => r = Panic
    | Diverge => r = Diverge
    end.
  Proof.
    induction rs as [|p rs IH]; intros bufs done rest m m' r II B I L H.
    - destruct bufs; [|discriminate]. cbn in H. injection H as <- <-. split; [apply safe_refl|]. split; [now cbn|]. cbn. exists done. split; auto. now rewrite app_nil_r.
    - destruct bufs as [|[b b2] bufs]; [discriminate|].
      assert (BAD : (m, @Panic (list (slc * slc))) = (m', r) -> ranges_bounds tb idx (p :: rs) = Panic ->
        safe rest m m' /\ (forall r', buffers (m_heap m) (sides done ++ sides ((b, b2) :: bufs) ++ r') -> match r with Ok l => buffers (m_heap m') (sides l ++ r') | _ => buffers (m_heap m') r' end) /\
        match ranges_bounds tb idx (p :: rs) with Ok vs => exists l, r = Ok l /\ shown m' l = shown m done ++ vs | Err e => r = Err e | Panic => r = Panic | Diverge => r = Diverge end).
      { intros [= <- <-] E. rewrite E. split; [apply safe_refl|]. split; auto. intros r' BR. eapply buffers_part; [|exact BR].
        rewrite app_assoc. apply Permutation_app_comm. }
      destruct p as [|l [|u p]]; try (apply BAD; [exact H|reflexivity]). clear BAD. cbn [m_ranges_bounds] in H.
      destruct (m_range_bounds grow noise mt (sides done ++ sides bufs ++ own) idx l u b b2 m) as [m1 x] eqn:E.
      assert (P : forall l, Permutation (sides done ++ sides ((b, b2) :: bufs) ++ l) (b :: b2 :: sides done ++ sides bufs ++ l)).
      { intros l0. change (sides ((b, b2) :: bufs)) with ([b; b2] ++ sides bufs). rewrite <- app_assoc. rewrite (Permutation_app_swap_app (sides done)). reflexivity. }
      eapply (range_bounds_ok _ _ _ _ _ _ (sides done ++ sides bufs ++ rest)) in E; [|exact II|eapply buffers_perm; [apply P|exact B]|].
      2:{ intros y J. rewrite !in_app_iff in J. destruct J as [J|[J|J]]; try (exists y; rewrite !in_app_iff; split; [tauto|apply same_refl]).
          destruct (I y J) as (z & K & E1). exists z. rewrite !in_app_iff in *. tauto. }
      destruct E as (S1 & H1 & R1). cbn [ranges_bounds]. rewrite R1.
      assert (SR : safe rest m m1) by (eapply safe_incl; [|exact S1]; intros y J; rewrite !in_app_iff; tauto).
      assert (P' : forall l, Permutation (fst x :: snd x :: sides done ++ sides bufs ++ l) (sides (done ++ [x]) ++ sides bufs ++ l)).
      { intros l0. rewrite sides_app. change (sides [x]) with [fst x; snd x]. rewrite <- app_assoc. apply (Permutation_app_swap_app [fst x; snd x] (sides done)). }
      assert (HB : forall r', buffers (m_heap m) (sides done ++ sides ((b, b2) :: bufs) ++ r') -> buffers (m_heap m1) (sides (done ++ [x]) ++ sides bufs ++ r')).
      { intros r' BR. eapply buffers_perm; [apply P'|]. apply H1. eapply buffers_perm; [apply P|exact BR]. }
      eapply (IH bufs (done ++ [x]) rest) in H; [|exact II|apply HB, B|exact I|cbn in L; lia]. destruct H as (S2 & H2 & R2).
      split; [eapply safe_trans; eauto|]. split; [intros r' BR; apply H2, HB, BR|].
      destruct (ranges_bounds tb idx rs) as [vs|e| |]; auto. destruct R2 as (l0 & -> & SH). exists l0. split; auto. rewrite SH.
      unfold shown at 1. rewrite map_app. fold (shown m1 done). rewrite <- app_assoc. cbn [map app]. f_equal.
      eapply shown_safe; [eapply safe_incl; [|exact S1]; intros y J; rewrite in_app_iff; now left|exact B|intros y J; rewrite in_app_iff; now left].
  Qed.

  (** ** Iterators *)

  (** The iterator as a value goes with the memory. *)
  Definition tied (m : mem) (it : miter) : Prop := match mi_it it with BOne _ => True | BMulti opts _ _ => opts = shown m (mi_bounds it) end.

  Lemma tied_reread m it : tied m it -> reread m (mi_bounds it) (mi_it it) = mi_it it.
  Proof. unfold tied, reread. destruct (mi_it it); auto. now intros ->. Qed.

  Lemma tied_safe m m' it bs : tied m it -> safe (sides (mi_bounds it)) m m' -> buffers (m_heap m) bs -> incl (sides (mi_bounds it)) bs -> tied m' it.
  Proof. unfold tied. destruct (mi_it it); auto. intros -> S B I. symmetry. eapply shown_safe; eauto. Qed.

  Definition keeps_opts (step : biter -> biter) : Prop :=
    forall b, match step b, b with BOne _, BOne _ => True | BMulti o _ _, BMulti o' _ _ => o = o' | _, _ => False end.

  Lemma first_keeps open rev : keeps_opts (scan_first open rev).
  Proof. intros [p|o i p]; unfold scan_first; destruct rev; cbn; auto; [destruct (multi_last _ _ _ _)|destruct (multi_first _ _ _ _ _)]; auto. Qed.
  Lemma next_keeps open rev : keeps_opts (scan_next open rev).
  Proof.
    intros [p|o i p]; unfold scan_next, bi_prev, bi_next, bi_prev_ok, bi_next_ok; destruct rev; cbn [fst]; auto;
      [destruct (multi_prev open o i p) as [[? ?] ?]|destruct (multi_next open o (length o) i p) as [[? ?] ?]]; cbn [fst]; auto.
  Qed.

  Lemma move_ok own step m it m' it' rest : keeps_opts step -> tied m it ->
    buffers (m_heap m) (mi_key it :: sides (mi_bounds it) ++ rest) -> within rest (own ++ foreign) ->
    m_move grow noise own step m it = (m', it') ->
    safe (sides (mi_bounds it) ++ rest) m m' /\ heir m m' (mi_key it) (mi_key it') /\ mi_bounds it' = mi_bounds it /\ mi_it it' = step (mi_it it) /\
    tied m' it' /\ m_read m' (mi_key it') = bi_key (mi_it it').
  Proof.
    intros KO TI B I H. unfold m_move in H. rewrite (tied_reread _ _ TI) in H.
    destruct (sl_append grow x00 (m_heap m) (sl_reset (mi_key it)) (bi_key (step (mi_it it)))) as [h k] eqn:AP.
    eapply append_ok in AP; [|exact B]. destruct AP as (S1 & H1 & R1). apply pair_equal_spec in H. destruct H as [<- <-]. cbn [mi_key mi_bounds mi_it].
    set (m1 := Mem h (m_past m)) in *. pose proof (stir_safe noise foreign LV (k :: sides (mi_bounds it) ++ own) m1) as S2.
    set (m2 := stir noise (k :: sides (mi_bounds it) ++ own) m1) in *. pose proof (H1 _ B) as B1.
    assert (S2R : safe (k :: sides (mi_bounds it) ++ rest) m1 m2).
    { eapply safe_within; [|exact S2]. intros x [<-|J]; [exists k; split; [now left|apply same_refl]|]. rewrite in_app_iff in J.
      destruct J as [J|J]; [exists x; split; [right; rewrite !in_app_iff; tauto|apply same_refl]|].
      destruct (I x J) as (y & K & E). exists y. split; auto. right. rewrite !in_app_iff in *. tauto. }
    assert (S12 : safe (sides (mi_bounds it) ++ rest) m m2) by (eapply safe_trans; [exact S1|eapply safe_incl; [|exact S2R]; intros x J; now right]).
    split; [exact S12|]. split; [intros r' BR; eapply safe_buffers; [exact S2|]; now apply H1|]. split; auto. split; auto. split.
    - unfold tied in *. cbn [mi_it mi_bounds]. specialize (KO (mi_it it)). destruct (step (mi_it it)) as [?|o ? ?]; auto. destruct (mi_it it) as [?|o' ? ?]; [contradiction|]. subst o o'.
      symmetry. eapply shown_safe; [eapply safe_incl; [|exact S12]; intros x J; rewrite in_app_iff; now left|exact B|]. intros x J. right. rewrite in_app_iff. now left.
    - rewrite (safe_read _ _ _ _ _ S2R (or_introl eq_refl) B1 (or_introl eq_refl)). exact R1.
  Qed.

  Definition as_value (r : res miter) : res biter := match r with Ok it => Ok (mi_it it) | Err e => Err e | Panic => Panic | Diverge => Diverge end.

  (** Index.Iter on memory. *)
  Lemma index_iter_ok own db ob idx sel bufs kb m rest m' r : implements_index mt idx ->
    buffers (m_heap m) (kb :: sides bufs ++ rest) -> within rest (own ++ foreign) -> length bufs = bounds_of sel ->
    m_index_iter grow noise mt own db ob idx sel bufs kb m = (m', r) ->
    index_iter tb db ob idx sel = as_value r /\ safe rest m m' /\
    match r with
    | Ok it => mi_key it = kb /\ tied m' it /\ forall r', buffers (m_heap m) (kb :: sides bufs ++ r') -> buffers (m_heap m') (kb :: sides (mi_bounds it) ++ r')
    | _ => forall r', buffers (m_heap m) (kb :: sides bufs ++ r') -> buffers (m_heap m') (kb :: r')
    end.
  Proof.
    intros II B I L H.
    assert (W : within (kb :: rest) ((kb :: own) ++ foreign)).
    { intros x [<-|J]; [exists kb; split; [now left|apply same_refl]|]. destruct (I x J) as (y & K & E). exists y. split; auto. now right. }
    assert (P1 : forall b b2 r', Permutation (kb :: sides [(b, b2)] ++ r') (b :: b2 :: kb :: r')).
    { intros b b2 r'. cbn. rewrite (perm_swap b kb). apply perm_skip. apply perm_swap. }
    assert (PM : forall l r', Permutation (kb :: sides l ++ r') (sides [] ++ sides l ++ kb :: r')) by (intros l r'; cbn [sides flat_map app]; apply Permutation_middle).
    assert (PM' : forall l r', Permutation (sides l ++ kb :: r') (kb :: sides l ++ r')) by (intros l r'; symmetry; apply Permutation_middle).
    destruct sel as [p|ps|lo hi|rs|]; cbn [bounds_of] in L; cbn [m_index_iter index_iter] in *.
    - destruct bufs as [|[b b2] [|]]; try discriminate.
      destruct (m_point_bounds grow noise mt (kb :: own) idx false p b b2 m) as [m1 r1] eqn:E.
      eapply (point_bounds_ok _ _ _ _ _ _ (kb :: rest)) in E; [|exact II|eapply buffers_perm; [apply P1|exact B]|exact W]. destruct E as (S1 & H1 & R1).
      apply pair_equal_spec in H. destruct H as [<- <-]. rewrite R1. 
      assert (SR : safe rest m m1) by (eapply safe_incl; [|exact S1]; intros x J; now right).
      assert (HB : forall r', buffers (m_heap m) (kb :: sides [(b, b2)] ++ r') -> match r1 with Ok x => buffers (m_heap m1) (kb :: sides [x] ++ r') | _ => buffers (m_heap m1) (kb :: r') end).
      { intros r' BR. apply (buffers_perm _ _ _ (P1 b b2 r')) in BR. apply H1 in BR. destruct r1 as [[x y]| | |]; auto. eapply buffers_perm; [symmetry; apply P1|exact BR]. }
      destruct r1 as [[x y]|e| |]; cbn [fst snd]; try (split; [reflexivity|split; [exact SR|exact HB]]).
      destruct ob; cbn [as_value mi_it]; (split; [reflexivity|split; [exact SR|]]); auto; try (split; [reflexivity|split; [exact Logic.I|exact HB]]).
      intros r' BR. apply HB in BR. eapply buffers_part; [|exact BR]. change (kb :: sides [(x, y)] ++ r') with ([kb] ++ [x; y] ++ r').
      rewrite (Permutation_app_comm [x; y] r'). rewrite app_assoc. reflexivity.
    - destruct (m_points_bounds grow noise mt (kb :: own) idx _ ps bufs [] m) as [m1 r1] eqn:E.
      eapply (points_bounds_ok _ _ _ _ _ _ (kb :: rest)) in E; [|exact II|eapply buffers_perm; [apply PM|exact B]|exact W|exact L]. destruct E as (S1 & H1 & R1).
      apply pair_equal_spec in H. destruct H as [<- <-].
      assert (SR : safe rest m m1) by (eapply safe_incl; [|exact S1]; intros x J; now right).
      assert (HB : forall r', buffers (m_heap m) (kb :: sides bufs ++ r') -> match r1 with Ok l => buffers (m_heap m1) (kb :: sides l ++ r') | _ => buffers (m_heap m1) (kb :: r') end).
      { intros r' BR. apply (buffers_perm _ _ _ (PM bufs r')) in BR. apply H1 in BR. destruct r1 as [l| | |]; auto. eapply buffers_perm; [apply PM'|exact BR]. }
      assert (HB0 : forall r', buffers (m_heap m) (kb :: sides bufs ++ r') -> buffers (m_heap m1) (kb :: r')).
      { intros r' BR. apply HB in BR. destruct r1 as [l| | |]; auto. eapply buffers_part; [|exact BR]. change (kb :: sides l ++ r') with ([kb] ++ sides l ++ r').
        rewrite (Permutation_app_comm (sides l) r'). rewrite app_assoc. reflexivity. }
      destruct (points_bounds tb idx _ ps) as [vs|e| |]; try (subst r1; split; [reflexivity|split; [exact SR|exact HB0]]).
      destruct R1 as (l & -> & SH). cbn [shown map app] in SH. fold (shown m1 l). rewrite SH.
      destruct ob; try (split; [reflexivity|split; [exact SR|exact HB0]]); unfold new_multi; (destruct vs as [|[v1 v2] vs];
        [split; [reflexivity|split; [exact SR|exact HB0]]|cbn [as_value mi_it]; split; [reflexivity|split; [exact SR|split; [reflexivity|split; [|exact HB]]]]; unfold tied; cbn [mi_it mi_bounds]; now rewrite SH]).
    - destruct bufs as [|[b b2] [|]]; try discriminate.
      destruct (m_range_bounds grow noise mt (kb :: own) idx lo hi b b2 m) as [m1 x] eqn:E.
      eapply (range_bounds_ok _ _ _ _ _ _ (kb :: rest)) in E; [|exact II|eapply buffers_perm; [apply P1|exact B]|exact W]. destruct E as (S1 & H1 & R1).
      apply pair_equal_spec in H. destruct H as [<- <-]. rewrite R1.
      assert (SR : safe rest m m1) by (eapply safe_incl; [|exact S1]; intros z J; now right).
      assert (HB : forall r', buffers (m_heap m) (kb :: sides [(b, b2)] ++ r') -> buffers (m_heap m1) (kb :: sides [x] ++ r')).
      { intros r' BR. apply (buffers_perm _ _ _ (P1 b b2 r')) in BR. apply H1 in BR. destruct x as [x y]. eapply buffers_perm; [symmetry; apply P1|exact BR]. }
      destruct ob; cbn [as_value mi_it]; (split; [reflexivity|split; [exact SR|]]); auto; try (split; [reflexivity|split; [exact Logic.I|exact HB]]).
      intros r' BR. apply HB in BR. eapply buffers_part; [|exact BR]. change (kb :: sides [x] ++ r') with ([kb] ++ [fst x; snd x] ++ r').
      rewrite (Permutation_app_comm [fst x; snd x] r'). rewrite app_assoc. reflexivity.
    - destruct (m_ranges_bounds grow noise mt (kb :: own) idx rs bufs [] m) as [m1 r1] eqn:E.
      eapply (ranges_bounds_ok _ _ _ _ _ (kb :: rest)) in E; [|exact II|eapply buffers_perm; [apply PM|exact B]|exact W|exact L]. destruct E as (S1 & H1 & R1).
      apply pair_equal_spec in H. destruct H as [<- <-].
      assert (SR : safe rest m m1) by (eapply safe_incl; [|exact S1]; intros x J; now right).
      assert (HB : forall r', buffers (m_heap m) (kb :: sides bufs ++ r') -> match r1 with Ok l => buffers (m_heap m1) (kb :: sides l ++ r') | _ => buffers (m_heap m1) (kb :: r') end).
      { intros r' BR. apply (buffers_perm _ _ _ (PM bufs r')) in BR. apply H1 in BR. destruct r1 as [l| | |]; auto. eapply buffers_perm; [apply PM'|exact BR]. }
      assert (HB0 : forall r', buffers (m_heap m) (kb :: sides bufs ++ r') -> buffers (m_heap m1) (kb :: r')).
      { intros r' BR. apply HB in BR. destruct r1 as [l| | |]; auto. eapply buffers_part; [|exact BR]. change (kb :: sides l ++ r') with ([kb] ++ sides l ++ r').
        rewrite (Permutation_app_comm (sides l) r'). rewrite app_assoc. reflexivity. }
      destruct (ranges_bounds tb idx rs) as [vs|e| |]; try (subst r1; split; [reflexivity|split; [exact SR|exact HB0]]).
      destruct R1 as (l & -> & SH). cbn [shown map app] in SH. fold (shown m1 l). rewrite SH.
      destruct ob; try (split; [reflexivity|split; [exact SR|exact HB0]]); unfold new_multi; (destruct vs as [|[v1 v2] vs];
        [split; [reflexivity|split; [exact SR|exact HB0]]|cbn [as_value mi_it]; split; [reflexivity|split; [exact SR|split; [reflexivity|split; [|exact HB]]]]; unfold tied; cbn [mi_it mi_bounds]; now rewrite SH]).
    - destruct bufs; [|discriminate]. apply pair_equal_spec in H. destruct H as [<- <-]. split; [reflexivity|]. split; [apply safe_refl|]. split; auto. split; [exact Logic.I|auto].
  Qed.
End Bounds.
