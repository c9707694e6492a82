(** Intersect on memory does what Intersect on values does, whatever capacity the keys from the map have. *)

From Coq Require Import List NArith ZArith Bool Arith Lia Permutation.
From Verif.Model Require Import Bytes Go Keys Pebble Index Table Scan Query Slices Mem MemScan MemInter.
From Verif.Spec Require Import SliceSpec TableSpec MemSpec MemScanSpec.
From Verif.Proofs Require Import SliceFacts MemFacts MemCalls MemBounds MemScanFacts.
Import ListNotations.

Lemma buffers_nil h l : buffers h l -> buffers h (sl_nil :: l).
Proof.
  intros [A D]. split; constructor; auto.
  - split; cbn; [lia|left; reflexivity].
  - apply Forall_forall. intros x _. now left.
Qed.

Lemma buffers_nils h l n : buffers h l -> buffers h (repeat sl_nil n ++ l).
Proof. intros B. induction n; cbn; auto. now apply buffers_nil. Qed.

Lemma buffers_clip h k r : buffers h (k :: r) -> buffers h (clip k :: r).
Proof. intros B. apply buffers_split in B. eapply (buffers_part _ _ (clip k :: r) [sl_tail k]); [|exact B]. perm. Qed.

Lemma add_read m k : forall l, map (m_read m) (m_set_add m k l) = set_add (m_read m k) (map (m_read m) l).
Proof. induction l as [|x l IH]; cbn; auto. destruct (bcmp (m_read m k) (m_read m x)); cbn; auto. now rewrite IH. Qed.

Lemma add_perm m k : forall l, m_set_add m k l = l \/ Permutation (m_set_add m k l) (k :: l).
Proof.
  induction l as [|x l IH]; cbn; auto. destruct (bcmp (m_read m k) (m_read m x)); auto.
  destruct IH as [->|P]; auto. right. rewrite P. apply perm_swap.
Qed.

Lemma has_read m k l : m_has m k l = existsb (beqb (m_read m k)) (map (m_read m) l).
Proof. unfold m_has. induction l; cbn; auto. now rewrite IHl. Qed.

Lemma offset_map {A B} (f : A -> B) n l : apply_offset n (map f l) = match apply_offset n l with Ok x => Ok (map f x) | Err e => Err e | Panic => Panic | Diverge => Diverge end.
Proof.
  unfold apply_offset, slice_from. rewrite map_length. destruct (_ <=? _)%Z; auto. destruct (_ <=? _)%N; auto. now rewrite skipn_map.
Qed.
Lemma limit_map {A B} (f : A -> B) n l : apply_limit n (map f l) = match apply_limit n l with Ok x => Ok (map f x) | Err e => Err e | Panic => Panic | Diverge => Diverge end.
Proof.
  unfold apply_limit. rewrite map_length. destruct (_ <=? _)%Z; auto. destruct (_ <=? _)%N; auto. now rewrite firstn_map.
Qed.
Lemma offset_part {A} n (l l' : list A) : apply_offset n l = Ok l' -> exists a b, l = a ++ l' ++ b.
Proof.
  unfold apply_offset, slice_from. destruct (_ <=? _)%Z; [intros [= <-]; exists l, []; now rewrite app_nil_r|].
  destruct (_ <=? _)%N; [|discriminate]. intros [= <-]. eexists (firstn _ l), []. now rewrite app_nil_r, firstn_skipn.
Qed.
Lemma limit_part {A} n (l l' : list A) : apply_limit n l = Ok l' -> exists a b, l = a ++ l' ++ b.
Proof.
  unfold apply_limit. destruct (_ <=? _)%Z; [intros [= <-]; exists [], []; now rewrite app_nil_r|].
  destruct (_ <=? _)%N; [|discriminate]. intros [= <-]. exists []. eexists (skipn _ l). cbn [app]. now rewrite firstn_skipn.
Qed.

Section Inter.
  Variable grow : nat -> nat -> nat.
  Variable noise : list (heap byte) -> list slc -> heap byte -> heap byte.
  Variable junk : slc -> nat.
  Variable foreign : list slc.
  Hypothesis LV : leaves noise foreign.
  Context {T F : Type}.
  Variable mt : mtable T F.
  Variable ev : env T.
  Variable srt : (T -> T -> bool) -> list T -> list T.
  Hypothesis IM : implements mt.
  Hypothesis EV : env_ok ev.
  Notation tb := (mt_val mt).
  Notation clips l := (map clip l).

  Lemma reads_same m m' l ks : safe l m m' -> incl (clips ks) l -> buffers (m_heap m) l -> map (m_read m') ks = map (m_read m) ks.
  Proof.
    intros S I B. apply map_ext_in. intros x J. assert (W : within [x] l) by (eapply within_clipped; eauto). eapply safe_cells; eauto.
  Qed.

  (** The keys found so far are [acc]; those of the map before are [w]. *)
  Lemma collect_ok open within : forall fuel n m it acc m' it' r,
    let w := match within with Some w => w | None => [] end in
    tied m it -> m_read m (mi_key it) = bi_key (mi_it it) ->
    buffers (m_heap m) (mi_key it :: sides (mi_bounds it) ++ clips acc ++ clips w ++ foreign) ->
    m_collect_keys grow noise ev open within fuel n m it acc = (m', it', r) ->
    collect_keys ev open (option_map (map (m_read m)) within) fuel n (mi_it it) (map (m_read m) acc) =
      match r with Ok (k, ks) => Ok (k, map (m_read m') ks) | Err e => Err e | Panic => Panic | Diverge => Diverge end /\
    safe (clips w ++ foreign) m m' /\ mi_bounds it' = mi_bounds it /\
    forall r', buffers (m_heap m) (mi_key it :: sides (mi_bounds it) ++ clips acc ++ r') ->
      buffers (m_heap m') (mi_key it' :: sides (mi_bounds it) ++ match r with Ok (_, ks) => clips ks | _ => [] end ++ r').
  Proof.
    cbv zeta. induction fuel as [|fuel IH]; intros n m it acc m' it' r TI KR B H; cbn [m_collect_keys collect_keys] in *.
    - destruct (bi_valid (mi_it it)); apply pair_equal_spec in H; destruct H as [H <-]; apply pair_equal_spec in H; destruct H as [<- <-];
        (split; [reflexivity|split; [apply safe_refl|split; [reflexivity|]]]); intros r' BR; auto.
      eapply buffers_part; [|exact BR]. instantiate (1 := clips acc). perm.
    - destruct (bi_valid (mi_it it)).
      2:{ apply pair_equal_spec in H; destruct H as [H <-]; apply pair_equal_spec in H; destruct H as [<- <-].
          split; [reflexivity|split; [apply safe_refl|split; [reflexivity|auto]]]. }
      assert (BAD : forall r', buffers (m_heap m) (mi_key it :: sides (mi_bounds it) ++ clips acc ++ r') -> buffers (m_heap m) (mi_key it :: sides (mi_bounds it) ++ [] ++ r')).
      { intros r' BR. eapply buffers_part; [|exact BR]. instantiate (1 := clips acc). perm. }
      destruct (e_ctx ev n).
      { apply pair_equal_spec in H; destruct H as [H <-]; apply pair_equal_spec in H; destruct H as [<- <-].
        split; [reflexivity|split; [apply safe_refl|split; [reflexivity|exact BAD]]]. }
      rewrite KR in H. destruct (to_data_key_bytes (bi_key (mi_it it)) []) as [dk|e| |];
        try (apply pair_equal_spec in H; destruct H as [H <-]; apply pair_equal_spec in H; destruct H as [<- <-];
          split; [reflexivity|split; [apply safe_refl|split; [reflexivity|exact BAD]]]).
      set (w := match within with Some w => w | None => [] end) in *.
      destruct (sl_append grow x00 (m_heap m) (sl_reset sl_nil) dk) as [h k] eqn:AP.
      eapply append_ok in AP; [|apply buffers_nil; exact B]. destruct AP as (S1 & H1 & R1). set (m1 := Mem h (m_past m)) in *.
      assert (HC : forall r', buffers (m_heap m) r' -> buffers (m_heap m1) (clip k :: r')).
      { intros r' BR. apply buffers_clip, H1, buffers_nil, BR. }
      pose proof (HC _ B) as B1.
      set (own2 := k :: mi_key it :: sides (mi_bounds it) ++ acc ++ w) in *.
      assert (S2 : safe (clip k :: mi_key it :: sides (mi_bounds it) ++ clips acc ++ clips w ++ foreign) m1 (stir noise own2 m1)).
      { apply stir_safe_within with (foreign := foreign); auto. unfold own2. win. }
      set (m2 := stir noise own2 m1) in *.
      assert (S12 : safe (mi_key it :: sides (mi_bounds it) ++ clips acc ++ clips w ++ foreign) m m2).
      { eapply safe_trans; [exact S1|]. eapply safe_incl; [|exact S2]. incl_tac. }
      assert (RK : m_read m2 k = dk).
      { rewrite <- R1. change (sl_read h k) with (m_read m1 k). eapply safe_cells; [exact S2| |exact B1|]; (intros x [<-|[]]; exists (clip k); split; [now left|apply clip_same]). }
      assert (RA : map (m_read m2) acc = map (m_read m) acc) by (eapply reads_same; [exact S12|incl_tac|exact B]).
      assert (RW : map (m_read m2) w = map (m_read m) w) by (eapply reads_same; [exact S12|incl_tac|exact B]).
      assert (TI2 : tied m2 it).
      { eapply tied_safe; [exact TI|eapply safe_incl; [|exact S12]; incl_tac|exact B|incl_tac]. }
      set (hit := match within with Some w0 => m_has m2 k w0 | None => true end) in *.
      assert (EH : hit = match option_map (map (m_read m)) within with None => true | Some w0 => existsb (beqb dk) w0 end).
      { unfold hit. destruct within as [w0|]; auto. cbn [option_map]. rewrite has_read, RK. cbn in RW. fold w in RW. unfold w in RW. now rewrite RW. }
      rewrite <- EH. set (acc2 := if hit then m_set_add m2 k acc else acc) in *.
      assert (EA : map (m_read m2) acc2 = if hit then set_add dk (map (m_read m) acc) else map (m_read m) acc).
      { unfold acc2. destruct hit; [now rewrite add_read, RK, RA|exact RA]. }
      assert (B2G : forall r', buffers (m_heap m) (mi_key it :: sides (mi_bounds it) ++ clips acc ++ r') ->
        buffers (m_heap m2) (mi_key it :: sides (mi_bounds it) ++ clips acc2 ++ r')).
      { intros r' BR. eapply safe_buffers; [exact S2|]. apply HC in BR. unfold acc2. destruct hit.
        - destruct (add_perm m2 k acc) as [->|P].
          + eapply buffers_tl, BR.
          + assert (P2 : Permutation (clip k :: clips acc) (clips (m_set_add m2 k acc))) by (apply (Permutation_map clip) in P; now rewrite P).
            eapply buffers_perm; [|exact BR]. transitivity (mi_key it :: sides (mi_bounds it) ++ (clip k :: clips acc) ++ r'); [perm|].
            apply perm_skip, Permutation_app_head, Permutation_app_tail, P2.
        - eapply buffers_tl, BR. }
      pose proof (B2G _ B) as B2.
      destruct (m_move grow noise (acc2 ++ w) (bi_next open) m2 it) as [m3 it3] eqn:MV.
      eapply (move_ok grow noise foreign LV _ _ _ _ _ _ (clips acc2 ++ clips w ++ foreign)) in MV; [|apply (next_keeps open false)|exact TI2|exact B2|win].
      destruct MV as (S3 & H3 & EB & EI & TI3 & KR3).
      assert (B3 : buffers (m_heap m3) (mi_key it3 :: sides (mi_bounds it3) ++ clips acc2 ++ clips w ++ foreign)) by (rewrite EB; apply H3, B2).
      eapply IH in H; [|exact TI3|exact KR3|exact B3]. destruct H as (HV & HS & HB & HR). fold w in HS.
      pose proof (buffers_tl _ _ _ B2) as B2T.
      assert (RA3 : map (m_read m3) acc2 = map (m_read m2) acc2) by (eapply reads_same; [exact S3|incl_tac|exact B2T]).
      assert (RW3 : option_map (map (m_read m3)) within = option_map (map (m_read m)) within).
      { assert (X : map (m_read m3) w = map (m_read m2) w) by (eapply reads_same; [exact S3|incl_tac|exact B2T]). rewrite RW in X.
        destruct within as [w0|]; auto. cbn [option_map]. f_equal. exact X. }
      rewrite EI, RA3, RW3, EA in HV. split; [destruct hit; exact HV|].
      split; [eapply safe_trans; [eapply safe_incl; [|exact S12]; incl_tac|]; eapply safe_trans; [eapply safe_incl; [|exact S3]; incl_tac|exact HS]|].
      split; [congruence|]. rewrite EB in HR. intros r' BR. apply HR. apply H3. apply B2G, BR.
  Qed.

  Lemma points_len own idx exact : forall ps bufs done m m' l, m_points_bounds grow noise mt own idx exact ps bufs done m = (m', Ok l) -> length l = length done + length ps.
  Proof.
    induction ps as [|p ps IH]; intros bufs done m m' l H; cbn [m_points_bounds] in H; [injection H as _ <-; cbn; lia|].
    destruct bufs as [|[b b2] bufs]; [discriminate|]. destruct (m_point_bounds _ _ _ _ _ _ _ _ _ _) as [m1 [x|e| |]]; try discriminate.
    apply IH in H. rewrite app_length in H. cbn in *. lia.
  Qed.
  Lemma ranges_len own idx : forall rs bufs done m m' l, m_ranges_bounds grow noise mt own idx rs bufs done m = (m', Ok l) -> length l = length done + length rs.
  Proof.
    induction rs as [|p rs IH]; intros bufs done m m' l H; cbn [m_ranges_bounds] in H; [injection H as _ <-; cbn; lia|].
    destruct bufs as [|[b b2] bufs]; [destruct p as [|? [|? ?]]; discriminate|]. destruct p as [|lo [|u p]]; try discriminate.
    destruct (m_range_bounds _ _ _ _ _ _ _ _ _ _) as [m1 x]. apply IH in H. rewrite app_length in H. cbn in *. lia.
  Qed.
  Lemma iter_len own db ob idx sel bufs kb m m' it : m_index_iter grow noise mt own db ob idx sel bufs kb m = (m', Ok it) -> length bufs = bounds_of sel ->
    length (mi_bounds it) = bounds_of sel.
  Proof.
    intros H L. destruct sel as [p|ps|lo hi|rs|]; cbn [m_index_iter bounds_of] in *.
    - destruct bufs as [|[b b2] [|]]; try discriminate. destruct (m_point_bounds _ _ _ _ _ _ _ _ _ _) as [m1 [x|e| |]]; try (injection H; discriminate).
      destruct ob; injection H as _ H; try discriminate; now subst it.
    - destruct (m_points_bounds _ _ _ _ _ _ _ _ _ _) as [m1 r1] eqn:E. destruct r1 as [l|e| |]; try (injection H; discriminate). apply points_len in E. cbn in E. rewrite <- E.
      apply pair_equal_spec in H. destruct H as [_ H]. destruct ob; try discriminate;
        (destruct (new_multi _ _); try discriminate; injection H as <-; reflexivity).
    - destruct bufs as [|[b b2] [|]]; try discriminate. destruct (m_range_bounds _ _ _ _ _ _ _ _ _ _) as [m1 x].
      destruct ob; injection H as _ H; try discriminate; now subst it.
    - destruct (m_ranges_bounds _ _ _ _ _ _ _ _ _) as [m1 r1] eqn:E. destruct r1 as [l|e| |]; try (injection H; discriminate). apply ranges_len in E. cbn in E. rewrite <- E.
      apply pair_equal_spec in H. destruct H as [_ H]. destruct ob; try discriminate;
        (destruct (new_multi _ _); try discriminate; injection H as <-; reflexivity).
    - injection H as _ <-. reflexivity.
  Qed.

  Definition v_round (within : option (list bytes)) fuel db ob n idx sel : res (nat * list bytes) :=
    match index_iter tb db ob idx sel with
    | Ok it => let open := db_iter db (batch_of ob) in collect_keys ev open within fuel n (bi_first open it) []
    | Err e => Err e
    | Panic => Panic
    | Diverge => Diverge
    end.

  Definition keys_of (r : res (nat * list slc)) : list slc := match r with Ok (_, ks) => ks | _ => [] end.

  (** One index. *)
  Lemma round_ok within fuel db ob n idx sel pool kb m m' pool' kb' r :
    let w := match within with Some w => w | None => [] end in
    implements_index mt idx -> bounds_of sel <= length pool ->
    buffers (m_heap m) (kb :: sides pool ++ clips w ++ foreign) ->
    m_round grow noise mt ev within fuel db ob n idx sel pool kb m = (m', (pool', kb'), r) ->
    v_round (option_map (map (m_read m)) within) fuel db ob n idx sel =
      match r with Ok (k, ks) => Ok (k, map (m_read m') ks) | Err e => Err e | Panic => Panic | Diverge => Diverge end /\
    safe (clips w ++ foreign) m m' /\
    (forall x, r = Ok x -> length pool' = length pool) /\
    forall r', buffers (m_heap m) (kb :: sides pool ++ r') -> buffers (m_heap m') (kb' :: sides pool' ++ clips (keys_of r) ++ r').
  Proof.
    cbv zeta. intros II LP B H. unfold m_round in H. set (w := match within with Some w => w | None => [] end) in *.
    assert (TK : takes sel = bounds_of sel) by (destruct sel; reflexivity). rewrite TK in H. clear TK.
    set (free := skipn (bounds_of sel) pool) in *. set (bufs := firstn (bounds_of sel) pool) in *.
    assert (EP : sides pool = sides bufs ++ sides free) by (unfold bufs, free; rewrite <- sides_app; now rewrite firstn_skipn).
    assert (LB : length bufs = bounds_of sel) by (unfold bufs; rewrite firstn_length; lia).
    assert (LF : length bufs + length free = length pool) by (unfold bufs, free; rewrite <- app_length; now rewrite firstn_skipn).
    assert (PP : forall r', buffers (m_heap m) (kb :: sides pool ++ r') -> buffers (m_heap m) (kb :: sides bufs ++ sides free ++ r')).
    { intros r' BR. rewrite EP, <- app_assoc in BR. exact BR. }
    assert (B0 : buffers (m_heap m) (kb :: sides bufs ++ clips w ++ foreign)).
    { apply PP in B. eapply (buffers_part _ _ _ (sides free)); [|exact B]. perm. }
    destruct (m_index_iter grow noise mt w db ob idx sel bufs kb m) as [m1 r1] eqn:E.
    pose proof E as E0. eapply (index_iter_ok grow noise foreign LV mt IM) in E; [|exact II|exact B0|win|exact LB].
    destruct E as (VI & S1 & H1). unfold v_round. rewrite VI.
    destruct r1 as [it|e| |]; cbn [as_value];
      try (apply pair_equal_spec in H; destruct H as [H <-]; apply pair_equal_spec in H; destruct H as [<- H]; apply pair_equal_spec in H; destruct H as [<- <-];
        split; [reflexivity|split; [exact S1|split; [discriminate|]]]; intros r' BR; cbn [keys_of map app]; apply H1, PP, BR).
    destruct H1 as (EK & TI & H1). apply iter_len in E0; auto.
    set (open := db_iter db (batch_of ob)) in *.
    destruct (m_move grow noise w (bi_first open) m1 it) as [m2 it2] eqn:MV. subst kb.
    eapply (move_ok grow noise foreign LV _ _ _ _ _ _ (clips w ++ foreign)) in MV; [|apply (first_keeps open false)|exact TI|apply H1, B0|win].
    destruct MV as (S2 & H2 & EB & EI & TI2 & KR2).
    destruct (m_collect_keys grow noise ev open within fuel n m2 it2 []) as [[m3 it3] r3] eqn:C.
    assert (B2 : buffers (m_heap m2) (mi_key it2 :: sides (mi_bounds it2) ++ clips w ++ foreign)) by (rewrite EB; apply H2, H1, B0).
    eapply collect_ok in C; [|exact TI2|exact KR2|exact B2]. destruct C as (CV & CS & CB & CR). fold w in CS.
    apply pair_equal_spec in H; destruct H as [H <-]; apply pair_equal_spec in H; destruct H as [<- H]; apply pair_equal_spec in H; destruct H as [<- <-].
    assert (S02 : safe (clips w ++ foreign) m m2) by (eapply safe_trans; [exact S1|]; eapply safe_incl; [|exact S2]; incl_tac).
    assert (RW : option_map (map (m_read m2)) within = option_map (map (m_read m)) within).
    { assert (X : map (m_read m2) w = map (m_read m) w).
      { eapply reads_same; [exact S02|incl_tac|]. eapply (buffers_part _ _ _ (mi_key it :: sides bufs)); [|exact B0]. perm. }
      destruct within as [w0|]; auto. cbn [option_map]. f_equal. exact X. }
    rewrite RW, EI in CV. split; [exact CV|]. split; [eapply safe_trans; [exact S02|exact CS]|].
    split; [intros x _; rewrite app_length, CB, EB; lia|].
    intros r' BR. apply PP in BR. apply H1, H2 in BR. rewrite <- EB in BR. apply CR in BR. rewrite CB.
    rewrite sides_app. unfold keys_of. destruct r3 as [[? ks]|e| |]; (eapply buffers_perm; [|exact BR]; perm).
  Qed.

  Lemma rest_ok fuel db ob : forall qs n keys pool kb m m' pool' kb' r,
    Forall (fun q => implements_index mt (q_index q) /\ bounds_of (q_sel q) <= length pool) qs ->
    buffers (m_heap m) (kb :: sides pool ++ clips keys ++ foreign) ->
    m_intersect_rest grow noise junk mt ev fuel db ob n qs keys pool kb m = (m', (pool', kb'), r) ->
    intersect_rest tb ev fuel db ob n qs (map (m_read m) keys) =
      match r with Ok ks => Ok (map (m_read m') ks) | Err e => Err e | Panic => Panic | Diverge => Diverge end /\
    safe foreign m m' /\
    buffers (m_heap m') (kb' :: sides pool' ++ match r with Ok ks => clips ks | _ => [] end ++ foreign).
  Proof.
    induction qs as [|q qs IH]; intros n keys pool kb m m' pool' kb' r FQ B H; cbn [m_intersect_rest intersect_rest] in *.
    - apply pair_equal_spec in H; destruct H as [H <-]; apply pair_equal_spec in H; destruct H as [<- H]; apply pair_equal_spec in H; destruct H as [<- <-].
      split; [|split; [apply safe_refl|]].
      + rewrite map_map. reflexivity.
      + rewrite map_map. exact B.
    - inversion FQ as [|? ? [II LP] FQ2]; subst.
      destruct (m_round grow noise mt ev (Some keys) fuel db ob n (q_index q) (q_sel q) pool kb m) as [[m1 [pool1 kb1]] r1] eqn:E.
      eapply round_ok in E; [|exact II|exact LP|exact B]. destruct E as (VR & S1 & LN & H1). unfold v_round in VR. cbn [option_map] in VR.
      assert (SF : safe foreign m m1) by (eapply safe_incl; [|exact S1]; incl_tac).
      assert (BF : buffers (m_heap m1) (kb1 :: sides pool1 ++ clips (keys_of r1) ++ foreign)).
      { apply H1. eapply (buffers_part _ _ _ (clips keys)); [|exact B]. perm. }
      assert (EV1 : match index_iter tb db ob (q_index q) (q_sel q) with
         | Ok it => match collect_keys ev (db_iter db (batch_of ob)) (Some (map (m_read m) keys)) fuel n (bi_first (db_iter db (batch_of ob)) it) [] with
                    | Ok (n', keys') => intersect_rest tb ev fuel db ob n' qs keys' | Err e => Err e | Panic => Panic | Diverge => Diverge end
         | Err e => Err e | Panic => Panic | Diverge => Diverge end =
         match r1 with Ok (n', ks) => intersect_rest tb ev fuel db ob n' qs (map (m_read m1) ks) | Err e => Err e | Panic => Panic | Diverge => Diverge end).
      { destruct (index_iter tb db ob (q_index q) (q_sel q)); [rewrite VR|..]; (destruct r1 as [[? ?]|?| |]; try discriminate; try reflexivity; congruence). }
      cbv zeta. rewrite EV1. clear EV1.
      destruct r1 as [[n1 ks1]|e| |];
        try (apply pair_equal_spec in H; destruct H as [H <-]; apply pair_equal_spec in H; destruct H as [<- H]; apply pair_equal_spec in H; destruct H as [<- <-];
          split; [reflexivity|split; [exact SF|exact BF]]).
      eapply IH in H; [|rewrite (LN _ eq_refl); exact FQ2|exact BF]. destruct H as (V & S & BB).
      split; [exact V|]. split; [eapply safe_trans; eauto|exact BB].
  Qed.

  Lemma intersect_ok fuel db q ob pool kb m m' pool' kb' r :
    Forall (fun q => implements_index mt (q_index q) /\ bounds_of (q_sel q) <= length pool) (q :: q_inter q) ->
    buffers (m_heap m) (kb :: sides pool ++ foreign) ->
    m_intersect grow noise junk mt ev fuel db q ob pool kb m = (m', (pool', kb'), r) ->
    intersect tb ev fuel db q ob =
      match r with Ok ks => Ok (map (m_read m') ks) | Err e => Err e | Panic => Panic | Diverge => Diverge end /\
    safe foreign m m' /\
    buffers (m_heap m') (kb' :: sides pool' ++ match r with Ok ks => clips ks | _ => [] end ++ foreign).
  Proof.
    intros FQ B H. inversion FQ as [|? ? [II LP] FQ2]; subst. unfold m_intersect in H. unfold intersect.
    destruct (m_round grow noise mt ev None fuel db ob 0 (q_index q) (q_sel q) pool kb m) as [[m1 [pool1 kb1]] r1] eqn:E.
    eapply round_ok in E; [|exact II|exact LP|exact B]. destruct E as (VR & S1 & LN & H1). unfold v_round in VR. cbn [option_map] in VR.
    pose proof (H1 _ B) as BF. cbn [map app] in S1.
    assert (EV1 : match index_iter tb db ob (q_index q) (q_sel q) with
         | Ok it => match collect_keys ev (db_iter db (batch_of ob)) None fuel 0 (bi_first (db_iter db (batch_of ob)) it) [] with
                    | Ok (n', keys') => intersect_rest tb ev fuel db ob n' (q_inter q) keys' | Err e => Err e | Panic => Panic | Diverge => Diverge end
         | Err e => Err e | Panic => Panic | Diverge => Diverge end =
         match r1 with Ok (n', ks) => intersect_rest tb ev fuel db ob n' (q_inter q) (map (m_read m1) ks) | Err e => Err e | Panic => Panic | Diverge => Diverge end).
    { destruct (index_iter tb db ob (q_index q) (q_sel q)); [rewrite VR|..]; (destruct r1 as [[? ?]|?| |]; try discriminate; try reflexivity; congruence). }
    cbv zeta. rewrite EV1. clear EV1.
    destruct r1 as [[n1 ks1]|e| |];
      try (apply pair_equal_spec in H; destruct H as [H <-]; apply pair_equal_spec in H; destruct H as [<- H]; apply pair_equal_spec in H; destruct H as [<- <-];
        split; [reflexivity|split; [exact S1|exact BF]]).
    eapply rest_ok in H; [|rewrite (LN _ eq_refl); exact FQ2|exact BF]. destruct H as (V & S & BB).
    split; [exact V|]. split; [eapply safe_trans; eauto|exact BB].
  Qed.

  Lemma decode_records_ok filt : forall vs m m' r bs, buffers (m_heap m) bs -> incl vs bs -> m_decode_records noise mt filt vs m = (m', r) ->
    safe foreign m m' /\ decode_records tb filt (map (m_read m) vs) = r.
  Proof.
    induction vs as [|v vs IH]; intros m m' r bs B IB H; cbn [m_decode_records decode_records map] in *.
    - injection H as <- <-. split; auto. apply safe_refl.
    - pose proof (stir_safe noise foreign LV (v :: vs) m) as S0. set (m0 := stir noise (v :: vs) m) in *.
      assert (RV : forall x, In x (v :: vs) -> m_read m0 x = m_read m x).
      { intros x J. eapply safe_read; [exact S0|rewrite in_app_iff; now left|exact B|now apply IB]. }
      rewrite (RV v (or_introl eq_refl)) in H. assert (SF : safe foreign m m0) by (eapply safe_incl; [|exact S0]; intros x J; rewrite in_app_iff; now right).
      destruct (t_deser tb (m_read m v) (t_nil tb)) as [x|]; [|injection H as <- <-; auto].
      destruct (m_decode_records noise mt filt vs m0) as [m1 r1] eqn:D.
      eapply (IH _ _ _ bs) in D; [|eapply safe_buffers; eauto|intros y J; apply IB; now right]. destruct D as [S1 D].
      assert (EM : map (m_read m0) vs = map (m_read m) vs) by (apply map_ext_in; intros y J; apply RV; now right).
      rewrite EM in D. rewrite D. destruct r1 as [l|e| |]; injection H as <- <-; (split; [eapply safe_trans; eauto|reflexivity]).
  Qed.

  Lemma after_rec_ok a ak l : forall rk m m' o, m_read m ak = t_pk tb (new_kb []) a -> buffers (m_heap m) (rk :: ak :: foreign) ->
    m_after_rec noise mt ak rk l m = (m', o) -> safe foreign m m' /\ after_rec tb a l = o.
  Proof.
    induction l as [|x l IH]; intros rk m m' o RA B H; cbn [m_after_rec after_rec] in *.
    - injection H as <- <-. split; auto. apply safe_refl.
    - destruct (m_build noise (mt_pk mt x) [ak] m rk) as [m1 rk1] eqn:E.
      eapply build_ok_within in E; [|exact LV|apply (im_pk mt IM)|exact B|win]. destruct E as (S1 & H1 & R1).
      pose proof (H1 _ B) as B1.
      assert (RA1 : m_read m1 ak = t_pk tb (new_kb []) a).
      { rewrite <- RA. eapply safe_read; [exact S1|now left|exact B|right; now left]. }
      rewrite RA1, R1 in H. assert (SF : safe foreign m m1) by (eapply safe_incl; [|exact S1]; incl_tac).
      destruct (beqb (t_pk tb (new_kb []) a) (t_pk tb (new_kb []) x)); [injection H as <- <-; auto|].
      eapply IH in H; [|exact RA1|exact B1]. destruct H as [S2 H2]. split; auto. eapply safe_trans; eauto.
  Qed.

  Lemma drop_after_ok a l m m' l' : buffers (m_heap m) foreign -> m_drop_after noise mt a l m = (m', l') -> safe foreign m m' /\ drop_after tb a l = l'.
  Proof.
    intros B H. unfold m_drop_after in H. unfold drop_after. destruct (m_build noise (mt_pk mt a) [] m sl_nil) as [m1 ak] eqn:E.
    eapply build_ok_within in E; [|exact LV|apply (im_pk mt IM)|apply buffers_nil; exact B|win]. destruct E as (S1 & H1 & R1).
    pose proof (H1 _ (buffers_nil _ _ B)) as B1. destruct (m_after_rec noise mt ak sl_nil l m1) as [m2 o] eqn:E2.
    eapply (after_rec_ok a) in E2; [|exact R1|apply buffers_nil; exact B1]. destruct E2 as [S2 ->]. injection H as <- <-. split; auto. eapply safe_trans; eauto.
  Qed.

  Lemma inter_scan fuel m pool kb db fl q ob m' pool' kb' r :
    Forall (fun q => implements_index mt (q_index q) /\ bounds_of (q_sel q) <= length pool) (q :: q_inter q) ->
    buffers (m_heap m) (kb :: sides pool ++ foreign) ->
    m_execute_intersect grow noise junk mt ev srt fuel m pool kb db fl q ob = (m', (pool', kb'), r) ->
    execute_intersect tb ev srt fuel db fl q ob = r /\ returned foreign m m' (kb' :: sides pool').
  Proof.
    intros FQ B H. unfold m_execute_intersect in H. unfold execute_intersect. destruct (forallb plain_query (q_inter q)).
    2:{ injection H as <- <- <- <-. split; auto. apply safe_returned; [apply safe_refl|exact B]. }
    destruct (m_intersect grow noise junk mt ev fuel db q ob pool kb m) as [[m1 [pool1 kb1]] r1] eqn:E.
    eapply intersect_ok in E; [|exact FQ|exact B]. destruct E as (VI & S1 & B1). rewrite VI. clear VI.
    assert (END : forall m2 (x : res (list T)) y, safe foreign m1 m2 -> (m2, (pool1, kb1), x) = (m', (pool', kb'), r) -> y = x -> y = r /\ returned foreign m m' (kb' :: sides pool')).
    { intros m2 x y S2 [= <- <- <- <-] ->. split; auto. apply safe_returned; [eapply safe_trans; eauto|]. eapply safe_buffers; [exact S2|].
      eapply (buffers_part _ _ _ (match r1 with Ok ks => clips ks | _ => [] end)); [|exact B1]. perm. }
    destruct r1 as [keys|e| |]; try (eapply END; [apply safe_refl|exact H|reflexivity]).
    cbv zeta in *. set (early := match q_filter q with Some _ => false | None => _ end) in *.
    set (ks1 := if early && (0 <? q_offset q)%N then apply_offset (q_offset q) keys else Ok keys) in *.
    assert (E1 : (if early && (0 <? q_offset q)%N then apply_offset (q_offset q) (map (m_read m1) keys) else Ok (map (m_read m1) keys)) =
      match ks1 with Ok x => Ok (map (m_read m1) x) | Err e => Err e | Panic => Panic | Diverge => Diverge end).
    { unfold ks1. destruct (early && _); auto. apply offset_map. }
    rewrite E1. clear E1.
    assert (P1 : forall x, ks1 = Ok x -> exists a b, keys = a ++ x ++ b).
    { intros x. unfold ks1. destruct (early && _); [intros K; eapply offset_part; eauto|intros [= <-]; exists [], []; now rewrite app_nil_r]. }
    destruct ks1 as [x|e| |]; try (eapply END; [apply safe_refl|exact H|reflexivity]). specialize (P1 _ eq_refl).
    set (ks2 := if early && (0 <? q_limit q)%N then apply_limit (q_limit q) x else Ok x) in *.
    assert (E2 : (if early && (0 <? q_limit q)%N then apply_limit (q_limit q) (map (m_read m1) x) else Ok (map (m_read m1) x)) =
      match ks2 with Ok x => Ok (map (m_read m1) x) | Err e => Err e | Panic => Panic | Diverge => Diverge end).
    { unfold ks2. destruct (early && _); auto. apply limit_map. }
    rewrite E2. clear E2.
    assert (KP : forall ks, ks2 = Ok ks -> exists a b, keys = a ++ ks ++ b).
    { intros ks. unfold ks2. intros K2.
      assert (P2 : exists a b, x = a ++ ks ++ b).
      { destruct (early && _); [eapply limit_part; eauto|injection K2 as <-; exists [], []; now rewrite app_nil_r]. }
      destruct P1 as (a & b & ->). destruct P2 as (c & d & ->). exists (a ++ c), (d ++ b). now rewrite !app_assoc. }
    destruct ks2 as [ks|e| |]; try (eapply END; [apply safe_refl|exact H|reflexivity]).
    destruct (KP _ eq_refl) as (ka & kz & EK). clear KP.
    destruct (m_get grow noise mt ev [] db fl None ks (repeat sl_nil (length ks)) true m1) as [[[m2 ks'] vs'] r2] eqn:G.
    assert (BK : buffers (m_heap m1) (clips ks ++ repeat sl_nil (length ks) ++ foreign)).
    { eapply buffers_perm; [apply Permutation_app_swap_app|]. apply buffers_nils.
      eapply (buffers_part _ _ _ (kb1 :: sides pool1 ++ clips ka ++ clips kz)); [|exact B1]. rewrite EK. perm. }
    apply (get_ok_cut grow noise foreign LV mt ev EV clip _ _ _ _ _ _ _ _ foreign) in G; [|exact clip_same|exact BK|win|rewrite repeat_length; lia].
    destruct G as (S2 & HB & _ & _ & _ & R2). assert (S2F : safe foreign m1 m2) by (eapply safe_incl; [|exact S2]; incl_tac).
    assert (BV : buffers (m_heap m2) (vs' ++ foreign)).
    { apply HB. eapply (buffers_part _ _ _ (clips ks)); [|exact BK]. perm. }
    destruct (get_keys tb ev db fl None (map (m_read m1) ks) true) as [l|e| |]; try (subst r2; eapply END; [exact S2F|exact H|reflexivity]).
    destruct R2 as (vs & -> & IV & <-).
    destruct (m_decode_records noise mt (q_filter q) vs m2) as [m3 r3] eqn:D.
    eapply decode_records_ok in D; [|exact BV|intros y J; rewrite in_app_iff; left; now apply IV]. destruct D as [S3 ->].
    assert (S13 : safe foreign m1 m3) by (eapply safe_trans; eauto).
    destruct r3 as [recs|e| |]; try (eapply END; [exact S13|exact H|reflexivity]).
    destruct (match q_after q with Some a => m_drop_after noise mt a _ m3 | None => (m3, _) end) as [m4 recs4] eqn:A.
    assert (X : safe foreign m3 m4 /\ match q_after q with Some a => drop_after tb a (match q_less q with Some less => srt less recs | None => recs end) | None => match q_less q with Some less => srt less recs | None => recs end end = recs4).
    { destruct (q_after q) as [a|]; [|injection A as <- <-; split; auto; apply safe_refl]. eapply drop_after_ok; [|exact A].
      eapply safe_buffers; [exact S13|]. eapply (buffers_part _ _ _ (kb1 :: sides pool1 ++ clips keys)); [|exact B1]. perm. }
    destruct X as [S4 ->]. eapply END; [eapply safe_trans; eauto|exact H|reflexivity].
  Qed.
End Inter.
