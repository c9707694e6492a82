(** The calls on memory do what the calls on values do. *)

From Coq Require Import List NArith Bool Arith Lia Permutation.
From Verif.Model Require Import Bytes Go Keys Pebble Index Table Slices Mem.
From Verif.Spec Require Import SliceSpec TableSpec MemSpec.
From Verif.Proofs Require Import SliceFacts MemFacts.
Import ListNotations.

(** Memory grew, and the slices of [l] show what they showed, now and at every moment in between. *)
Definition kept (l : list slc) (h h' : heap byte) : Prop := grows h h' /\ unchanged l h h'.
Record safe (l : list slc) (m m' : mem) : Prop := {
  sf_now : kept l (m_heap m) (m_heap m');
  sf_past : exists moments, m_past m' = moments ++ m_past m /\ Forall (kept l (m_heap m)) moments
}.

(** [k] can take the place of [b] among any buffers. *)
Definition heir (m m' : mem) (b k : slc) : Prop :=
  forall rest, buffers (m_heap m) (b :: rest) -> buffers (m_heap m') (k :: rest).

Lemma kept_refl l h : kept l h h.
Proof. split; [apply grows_refl|apply unchanged_refl]. Qed.
Lemma kept_trans l h1 h2 h3 : kept l h1 h2 -> kept l h2 h3 -> kept l h1 h3.
Proof. intros [A B] [C D]. split; [eapply grows_trans; eauto|eapply unchanged_trans; eauto]. Qed.
Lemma kept_within l l' h h' : within l' l -> kept l h h' -> kept l' h h'.
Proof. intros I [A B]. split; auto. eapply unchanged_within; eauto. Qed.
Lemma safe_refl l m : safe l m m.
Proof. constructor; [apply kept_refl|]. exists []. auto. Qed.
Lemma safe_trans l m1 m2 m3 : safe l m1 m2 -> safe l m2 m3 -> safe l m1 m3.
Proof.
  intros [A (p & P & FP)] [B (q & Q & FQ)]. constructor; [eapply kept_trans; eauto|]. exists (q ++ p). split; [now rewrite Q, P, app_assoc|].
  apply Forall_app. split; auto. eapply Forall_impl; [|exact FQ]. intros h K. eapply kept_trans; eauto.
Qed.
Lemma safe_within l l' m m' : within l' l -> safe l m m' -> safe l' m m'.
Proof.
  intros I [A (p & P & FP)]. constructor; [eapply kept_within; eauto|]. exists p. split; auto. eapply Forall_impl; [|exact FP]. intros h. now apply kept_within.
Qed.
Lemma safe_incl l l' m m' : incl l' l -> safe l m m' -> safe l' m m'.
Proof. intros I. apply safe_within. now apply incl_within. Qed.
Lemma safe_step l m h : kept l (m_heap m) h -> safe l m (Mem h (m_past m)).
Proof. intros K. constructor; auto. exists []. auto. Qed.
Lemma safe_grows l m m' : safe l m m' -> grows (m_heap m) (m_heap m').
Proof. now intros [[A _] _]. Qed.
Lemma safe_buffers l m m' bs : safe l m m' -> buffers (m_heap m) bs -> buffers (m_heap m') bs.
Proof. intros [[A _] _]. now apply buffers_grow. Qed.
Lemma safe_read l m m' s bs : safe l m m' -> In s l -> buffers (m_heap m) bs -> In s bs -> m_read m' s = m_read m s.
Proof. intros [[_ U] _] I B J. apply (U s s); auto using same_refl. eapply buffers_in; eauto. Qed.
Lemma safe_cells l m m' s bs : safe l m m' -> within [s] l -> buffers (m_heap m) bs -> within [s] bs -> m_read m' s = m_read m s.
Proof.
  intros [[_ U] _] I B J. destruct (I s (or_introl eq_refl)) as (t & IT & ET). destruct (J s (or_introl eq_refl)) as (u & IU & EU).
  unfold m_read. rewrite !(same_read _ s u EU). apply (U u t); auto; [|eapply buffers_in; eauto]. eapply same_trans; [apply same_sym|]; eauto.
Qed.

Lemma safe_returned foreign m m' back : safe foreign m m' -> buffers (m_heap m') (back ++ foreign) -> returned foreign m m' back.
Proof.
  intros [[G U] (p & P & FP)] B. split; auto. split; auto. exists p. split; auto. constructor; auto. eapply Forall_impl; [|exact FP]. now intros h [_ K].
Qed.

Lemma buffers_perm_in m l l' : Permutation l l' -> buffers (m_heap m) l -> buffers (m_heap m) l'.
Proof. apply buffers_perm. Qed.

(** A part of the buffers. *)
Lemma buffers_drop h a x b : buffers h (a ++ x :: b) -> buffers h (a ++ b).
Proof. intros B. eapply buffers_tl. eapply buffers_perm; [|exact B]. symmetry. apply Permutation_middle. Qed.

Section Calls.
  Variable grow : nat -> nat -> nat.
  Variable noise : list (heap byte) -> list slc -> heap byte -> heap byte.
  Variable foreign : list slc.
  Hypothesis LV : leaves noise foreign.
  Context {T F : Type}.
  Variable mt : mtable T F.
  Variable ev : env T.
  Hypothesis IM : implements mt.
  Hypothesis EV : env_ok ev.
  Notation tb := (mt_val mt).

  Lemma stir_safe own m : safe (own ++ foreign) m (stir noise own m).
  Proof.
    destruct (LV (m_past m) own (m_heap m)) as [G U]. constructor; [split; auto|]. exists [m_heap m]. split; auto. constructor; auto. apply kept_refl.
  Qed.

  Lemma stir_safe_in own m rest : incl rest (own ++ foreign) -> safe rest m (stir noise own m).
  Proof. intros I. eapply safe_incl; [exact I|apply stir_safe]. Qed.

  Lemma stir_safe_within own m rest : within rest (own ++ foreign) -> safe rest m (stir noise own m).
  Proof. intros I. eapply safe_within; [exact I|apply stir_safe]. Qed.

  Lemma data_key_appends tr : appends (h_data_key grow mt tr) (key_encode_raw (t_id tb) primary_index_id None None (Some (fun b => t_pk tb (new_kb b) tr))).
  Proof. apply key_encode_appends; cbn; auto. apply (im_pk mt IM). Qed.

  Lemma index_key_appends idx tr : In idx (t_indexes tb) -> appends (h_index_key grow mt idx tr) (encode_index_key (t_id tb) (t_pk tb) idx tr).
  Proof. intros I. apply key_encode_appends; cbn; [apply (im_key mt IM)|apply (im_ord mt IM)|apply (im_pk mt IM)]; auto. Qed.

  (** One key built. *)
  Lemma build_ok_within f g own rest m b m' k : appends f g -> buffers (m_heap m) (b :: rest) -> within rest (own ++ foreign) ->
    m_build noise f own m b = (m', k) ->
    safe rest m m' /\ heir m m' b k /\ m_read m' k = g [].
  Proof.
    intros A B I H. unfold m_build in H. pose proof (buffers_hd _ _ _ B) as OB.
    destruct (appends_ext _ _ (m_heap m) (sl_reset b) A (reset_ok _ _ OB)) as (h' & k' & v & E1 & E2 & E3). rewrite E1 in H.
    apply pair_equal_spec in H. destruct H as [<- <-]. rewrite reset_read in E3. cbn [app] in E3.
    assert (H0 : heir m (Mem h' (m_past m)) b k').
    { intros r BR. destruct (ext_buffers _ _ _ _ _ _ BR E2) as (_ & _ & X & _). exact X. }
    pose proof (stir_safe (k' :: own) (Mem h' (m_past m))) as SS.
    split; [|split].
    - destruct (ext_buffers _ _ _ _ _ _ B E2) as (G & U & _). apply (safe_trans _ _ (Mem h' (m_past m))).
      + apply safe_step. split; [exact G|exact U].
      + eapply safe_within; [|exact SS]. intros x J. destruct (I x J) as (y & K & E). exists y. split; auto. now right.
    - intros r BR. eapply safe_buffers; [exact SS|]. now apply H0.
    - rewrite (safe_read _ _ _ k' (k' :: rest) SS); [| now left | now apply H0 | now left].
      rewrite E3. apply (ex_read _ _ _ _ _ E2).
  Qed.

  Lemma build_ok f g own rest m b m' k : appends f g -> buffers (m_heap m) (b :: rest) -> incl rest (own ++ foreign) ->
    m_build noise f own m b = (m', k) ->
    safe rest m m' /\ heir m m' b k /\ m_read m' k = g [].
  Proof. intros A B I. apply build_ok_within; auto. now apply incl_within. Qed.

  (** ** Indexes *)

  Lemma on_insert_ok idx tr own b rest m m' os : In idx (t_indexes tb) -> buffers (m_heap m) (b :: rest) -> incl rest (own ++ foreign) ->
    m_on_insert grow noise mt idx tr own b m = (m', os) -> safe rest m m' /\ os = on_insert (t_id tb) (t_pk tb) idx tr.
  Proof.
    intros II B I H. unfold m_on_insert in H. unfold on_insert. destruct (ix_filter idx tr).
    - destruct (m_build noise (h_index_key grow mt idx tr) own m b) as [m1 k] eqn:E. injection H as <- <-.
      eapply build_ok in E; eauto using index_key_appends. destruct E as (S & _ & R). split; auto. now rewrite R.
    - injection H as <- <-. split; auto. apply safe_refl.
  Qed.

  Lemma on_delete_ok idx tr own b rest m m' os : In idx (t_indexes tb) -> buffers (m_heap m) (b :: rest) -> incl rest (own ++ foreign) ->
    m_on_delete grow noise mt idx tr own b m = (m', os) -> safe rest m m' /\ os = on_delete (t_id tb) (t_pk tb) idx tr.
  Proof.
    intros II B I H. unfold m_on_delete in H. unfold on_delete. destruct (ix_filter idx tr).
    - destruct (m_build noise (h_index_key grow mt idx tr) own m b) as [m1 k] eqn:E. injection H as <- <-.
      eapply build_ok in E; eauto using index_key_appends. destruct E as (S & _ & R). split; auto. now rewrite R.
    - injection H as <- <-. split; auto. apply safe_refl.
  Qed.

  Lemma on_update_ok idx old tr own b b2 rest m m' os : In idx (t_indexes tb) -> buffers (m_heap m) (b :: b2 :: rest) -> incl rest (own ++ foreign) ->
    m_on_update grow noise mt idx old tr own b b2 m = (m', os) -> safe rest m m' /\ os = on_update (t_id tb) (t_pk tb) idx old tr.
  Proof.
    intros II B I H. unfold m_on_update in H. unfold on_update. destruct (ix_filter idx old).
    - destruct (m_build noise (h_index_key grow mt idx old) (b2 :: own) m b) as [m1 d] eqn:E.
      eapply build_ok in E; [| apply (index_key_appends idx old II) | exact B | ].
      2:{ intros x [<-|J]; [now left|]. right. now apply I. }
      destruct E as (S1 & HD & R1). apply HD in B. destruct (ix_filter idx tr).
      + destruct (m_build noise (h_index_key grow mt idx tr) (d :: own) m1 b2) as [m2 k] eqn:E2.
        apply (buffers_perm _ _ (b2 :: d :: rest)) in B; [|constructor].
        eapply build_ok in E2; [| apply (index_key_appends idx tr II) | exact B | ].
        2:{ intros x [<-|J]; [now left|]. right. now apply I. }
        destruct E2 as (S2 & HK & R2).
        assert (RD : m_read m2 d = encode_index_key (t_id tb) (t_pk tb) idx old []).
        { rewrite <- R1. eapply safe_read; [exact S2|now left|exact B|right; now left]. }
        rewrite RD, R2 in H. injection H as <- <-. split; auto.
        eapply safe_trans; [eapply safe_incl; [|exact S1]|eapply safe_incl; [|exact S2]]; intros x J; now right.
      + injection H as <- <-. rewrite R1. split; auto. eapply safe_incl; [|exact S1]. intros x J; now right.
    - destruct (ix_filter idx tr).
      + destruct (m_build noise (h_index_key grow mt idx tr) own m b2) as [m2 k] eqn:E2.
        eapply build_ok in E2; [| apply (index_key_appends idx tr II) | eapply buffers_tl; exact B | exact I].
        destruct E2 as (S2 & HK & R2). injection H as <- <-. rewrite R2. auto.
      + injection H as <- <-. split; auto. apply safe_refl.
  Qed.

  Lemma each_ok (f : index T -> mem -> mem * list bop) (g : index T -> list bop) ixs : forall L rest m m' os,
    (forall idx m m' os, In idx ixs -> buffers (m_heap m) L -> f idx m = (m', os) -> safe rest m m' /\ os = g idx) ->
    buffers (m_heap m) L -> m_each f ixs m = (m', os) -> safe rest m m' /\ os = flat_map g ixs.
  Proof.
    induction ixs as [|idx ixs IH]; intros L rest m m' os HF B H; cbn in H.
    - injection H as <- <-. split; auto. apply safe_refl.
    - destruct (f idx m) as [m1 os1] eqn:E1. destruct (m_each f ixs m1) as [m2 os2] eqn:E2. injection H as <- <-.
      destruct (HF idx m m1 os1) as [S1 ->]; auto; [now left|].
      destruct (IH L rest m1 m2 os2) as [S2 ->]; auto.
      + intros i ma mb os HI. apply HF. now right.
      + eapply safe_buffers; eauto.
      + split; auto. eapply safe_trans; eauto.
  Qed.

  Lemma map_in n idx : In idx (e_map ev n (t_indexes tb)) -> In idx (t_indexes tb).
  Proof. apply Permutation_in. apply (env_map_perm ev EV). Qed.

  (** ** Values *)

  Lemma append_ok bs b rest m h s : buffers (m_heap m) (b :: rest) -> sl_append grow x00 (m_heap m) (sl_reset b) bs = (h, s) ->
    safe rest m (Mem h (m_past m)) /\ heir m (Mem h (m_past m)) b s /\ sl_read h s = bs.
  Proof.
    intros B AP. pose proof (reset_ok _ _ (buffers_hd _ _ _ B)) as OB.
    eapply ext_append in AP; [|exact OB|apply ext_refl, OB]. split; [|split].
    - destruct (ext_buffers _ _ _ _ _ _ B AP) as (G & U & _). apply safe_step. split; auto.
    - intros r BR. now destruct (ext_buffers _ _ _ _ _ _ BR AP) as (_ & _ & X & _).
    - rewrite (ex_read _ _ _ _ _ AP). reflexivity.
  Qed.

  Lemma serialize_ok tr vb rest m : buffers (m_heap m) (vb :: rest) ->
    match m_serialize grow mt tr vb m with
    | None => t_ser tb tr = None
    | Some (m', d, vb') => exists bs, t_ser tb tr = Some bs /\ safe rest m m' /\ heir m m' vb vb' /\ buffers (m_heap m') (d :: rest) /\ m_read m' d = bs
    end.
  Proof.
    intros B. unfold m_serialize. destruct (t_ser tb tr) as [bs|]; auto. destruct (mt_buffered mt).
    - destruct (sl_append grow x00 (m_heap m) (sl_reset vb) bs) as [h s] eqn:AP. eapply append_ok in AP; [|exact B].
      destruct AP as (S & H & R). exists bs. split; [reflexivity|]. split; [exact S|]. split; [exact H|]. split; [now apply H|exact R].
    - exists bs. split; auto.
      assert (G : grows (m_heap m) (m_heap m ++ [bs])).
      { split; [rewrite app_length; lia|]. intros a LA. now rewrite app_nth1. }
      split; [apply safe_step; split; [exact G|]|].
      { intros s t _ _ [L [O|[O _]]]; unfold sl_read; cbn [m_heap]; [|unfold cells; now rewrite app_nth1].
        replace (sl_len s) with 0 by lia. reflexivity. }
      split; [|split].
      + intros r BR. now apply (buffers_grow _ _ _ G).
      + destruct (buffers_grow _ _ _ G (buffers_tl _ _ _ B)) as [A D]. split; constructor; auto; cbn.
        * split; cbn; auto. right. rewrite app_length, app_nth2, Nat.sub_diag; cbn; lia.
        * apply buffers_tl in B. apply Forall_forall. intros t J. destruct (buffers_in _ _ _ B J) as [_ [O|[O _]]]; unfold disjoint; cbn; [tauto|]. lia.
      + unfold m_read, sl_read, cells. cbn. rewrite app_nth2, Nat.sub_diag by lia. cbn. apply firstn_all.
  Qed.

  (** ** Keys of a chunk *)

  Lemma keys_external_ok own trs : forall rest done todo m m' o,
    buffers (m_heap m) (done ++ todo ++ rest) -> incl rest (own ++ foreign) -> length trs <= length todo ->
    m_keys_external grow noise mt own trs done todo m = (m', o) ->
    exists keys, o = Some keys /\ safe rest m m' /\ length keys = length done + length todo /\
      (forall r, buffers (m_heap m) (done ++ todo ++ r) -> buffers (m_heap m') (keys ++ r)) /\
      map (m_read m') (firstn (length done + length trs) keys) = map (m_read m) done ++ map (data_key tb) trs.
  Proof.
    induction trs as [|tr trs IH]; intros rest done todo m m' o B I L H; cbn in H.
    - injection H as <- <-. exists (done ++ todo). split; auto. split; [apply safe_refl|]. split; [apply app_length|].
      split; [intros r; now rewrite app_assoc|]. cbn [length map]. rewrite Nat.add_0_r, firstn_app, firstn_all, Nat.sub_diag, firstn_O, !app_nil_r. reflexivity.
    - destruct todo as [|k todo]; [cbn in L; lia|]. cbn in L.
      destruct (m_build noise (h_data_key grow mt tr) (own ++ done ++ todo) m k) as [m1 k'] eqn:E.
      assert (P : forall r, Permutation (done ++ (k :: todo) ++ r) (k :: done ++ todo ++ r)).
      { intros r. symmetry. apply (Permutation_middle done (todo ++ r) k). }
      assert (P' : forall r, Permutation (k' :: done ++ todo ++ r) ((done ++ [k']) ++ todo ++ r)).
      { intros r. rewrite <- app_assoc. apply (Permutation_middle done (todo ++ r) k'). }
      eapply build_ok in E; [|apply (data_key_appends tr)|eapply buffers_perm; [apply P|exact B]|].
      2:{ intros x J. rewrite !in_app_iff in *. destruct J as [J|[J|J]]; [tauto|tauto|]. apply I in J. rewrite in_app_iff in J. tauto. }
      destruct E as (S & HK & R).
      assert (N : forall r, buffers (m_heap m) (done ++ (k :: todo) ++ r) -> buffers (m_heap m1) ((done ++ [k']) ++ todo ++ r)).
      { intros r BR. eapply buffers_perm; [apply P'|]. apply HK. eapply buffers_perm; [apply P|exact BR]. }
      eapply IH in H; [| apply N, B | exact I | lia]. destruct H as (keys & -> & S2 & LK & HB & RK).
      exists keys. split; auto. split.
      { eapply safe_trans; [|exact S2]. eapply safe_incl; [|exact S]. intros x J. rewrite !in_app_iff. tauto. }
      split; [rewrite LK, app_length; cbn; lia|]. split; [intros r BR; apply HB, N, BR|].
      rewrite app_length in RK. cbn [length] in RK |- *. rewrite <- Nat.add_assoc in RK. cbn [plus] in RK. rewrite RK.
      rewrite map_app, <- app_assoc. cbn [map app]. f_equal; [|rewrite R; reflexivity].
      apply map_ext_in. intros s J. eapply safe_read; [exact S| |eapply buffers_perm; [apply P|exact B]|]; [|right]; rewrite !in_app_iff; tauto.
  Qed.

  Lemma nth_firstn_in {A} (l : list A) d : forall n i, i < n -> nth i (firstn n l) d = nth i l d.
  Proof. intros n i L. now apply nth_firstn_lt. Qed.

  Lemma map_nth_perm {A} (l : list A) d o : Permutation o (seq 0 (length l)) -> Permutation (map (fun i => nth i l d) o) l.
  Proof.
    intros P. apply (Permutation_map (fun i => nth i l d)) in P. rewrite P.
    assert (E : map (fun i => nth i l d) (seq 0 (length l)) = l); [|now rewrite E].
    clear P o. induction l as [|x l IH]; auto. cbn [length seq map nth]. f_equal. rewrite <- seq_shift, map_map. exact IH.
  Qed.

  Lemma sort_keys_ok n keys m keys' order : n <= length keys -> m_sort_keys ev n keys m = (keys', order) ->
    Permutation keys' keys /\ Permutation (firstn n keys') (firstn n keys) /\ skipn n keys' = skipn n keys /\ length (firstn n keys') = n /\
    (map (m_read m) (firstn n keys'), order) = sort_keys ev (map (m_read m) (firstn n keys)).
  Proof.
    intros L H. unfold m_sort_keys in H. injection H as <- <-. set (ks := map (m_read m) (firstn n keys)).
    assert (LK : length ks = n) by (unfold ks; rewrite map_length, firstn_length; lia).
    pose proof (env_sort_perm ev EV ks) as P. rewrite LK in P. set (o := e_sort ev ks) in *.
    assert (LO : length o = n) by (rewrite (Permutation_length P); apply seq_length).
    assert (LT : forall i, In i o -> i < n). { intros i J. apply (Permutation_in _ P) in J. apply in_seq in J. lia. }
    assert (EQ : map (fun i => nth i keys sl_nil) o = map (fun i => nth i (firstn n keys) sl_nil) o).
    { apply map_ext_in. intros i J. rewrite nth_firstn_in; auto. }
    assert (P1 : Permutation (map (fun i => nth i keys sl_nil) o) (firstn n keys)).
    { rewrite EQ. apply map_nth_perm. rewrite firstn_length, Nat.min_l by auto. exact P. }
    assert (LM : length (map (fun i => nth i keys sl_nil) o) = n) by (rewrite map_length; auto).
    assert (FE : firstn n (map (fun i => nth i keys sl_nil) o ++ skipn n keys) = map (fun i => nth i keys sl_nil) o).
    { rewrite <- LM at 1. rewrite firstn_app, firstn_all, Nat.sub_diag, firstn_O. apply app_nil_r. }
    rewrite FE. split; [|split; [|split; [|split]]]; auto.
    - transitivity (firstn n keys ++ skipn n keys); [now apply Permutation_app_tail|now rewrite firstn_skipn].
    - rewrite skipn_app, skipn_all2, LM, Nat.sub_diag by lia. reflexivity.
    - unfold sort_keys. fold o. f_equal. rewrite EQ, map_map. apply map_ext. intros i. unfold ks.
      change (@nil byte) with (m_read m sl_nil). now rewrite map_nth.
  Qed.

  (** ** The state of a call *)
  Variable vb0 : slc.

  Record inv (extra : list slc) (st : mst (T:=T) (F:=F)) : Prop := {
    iv_now : buffers (m_heap (ms_mem st)) (extra ++ ms_vb st :: ms_keys st ++ foreign);
    iv_first : buffers (m_heap (ms_mem st)) (extra ++ vb0 :: ms_keys st ++ foreign)
  }.

  Lemma chunk_keys_ok extra trs st st' o : inv extra st -> length trs <= length (ms_keys st) ->
    m_chunk_keys grow noise mt ev extra trs st = (st', o) ->
    exists keys order, o = Some (keys, order) /\ inv extra st' /\ ms_w st' = ms_w st /\
      length (ms_keys st') = length (ms_keys st) /\ incl keys (ms_keys st') /\ safe foreign (ms_mem st) (ms_mem st') /\
      (map (m_read (ms_mem st')) keys, order) = sort_keys ev (map (data_key tb) trs).
  Proof.
    intros [B1 B2] L H. unfold m_chunk_keys in H.
    destruct (m_keys_external grow noise mt (extra ++ [ms_vb st]) trs [] (ms_keys st) (ms_mem st)) as [m1 oks] eqn:E.
    assert (P : forall v ks, Permutation (extra ++ v :: ks ++ foreign) (ks ++ extra ++ v :: foreign)).
    { intros v ks. change (v :: ks ++ foreign) with ([v] ++ ks ++ foreign). rewrite app_assoc, Permutation_app_swap_app, <- app_assoc. reflexivity. }
    eapply (keys_external_ok _ _ (extra ++ ms_vb st :: foreign)) in E; [|eapply buffers_perm; [apply P|exact B1]| |exact L].
    2:{ rewrite <- app_assoc. apply incl_refl. }
    destruct E as (keys & -> & S & LK & HB & RK). cbn in LK.
    destruct (m_sort_keys ev (length trs) keys m1) as [keys' order] eqn:SK. injection H as <- <-.
    apply sort_keys_ok in SK; [|lia]. destruct SK as (P1 & P2 & P3 & P4 & P5).
    exists (firstn (length trs) keys'), order. split; auto. cbn [ms_mem ms_keys ms_vb ms_w].
    assert (PK : forall v, Permutation (keys ++ extra ++ v :: foreign) (extra ++ v :: keys' ++ foreign)).
    { intros v. rewrite <- P1. symmetry. apply P. }
    split; [constructor; cbn [ms_mem ms_keys ms_vb]; (eapply buffers_perm; [apply PK|]); apply HB; cbn; (eapply buffers_perm; [apply P|]); auto|].
    split; auto. split; [now rewrite (Permutation_length P1), LK|]. split; [intros x J; rewrite <- (firstn_skipn (length trs) keys'), in_app_iff; auto|].
    split; [eapply safe_incl; [|exact S]; intros x J; rewrite in_app_iff; right; now right|].
    rewrite P5. f_equal. exact RK.
  Qed.

  Definition tkeys (m : mem) (rows : list (slc * nat)) : list (bytes * nat) := map (fun p => (m_read m (fst p), snd p)) rows.

  Lemma inv_safe extra l st m w : inv extra st -> safe l (ms_mem st) m -> inv extra (ms_put st m (ms_vb st) w).
  Proof. intros [B1 B2] S. constructor; cbn [ms_put ms_mem ms_vb ms_keys]; eapply safe_buffers; eauto. Qed.

  Lemma inv_key extra st k : inv extra st -> In k (ms_keys st) -> In k (extra ++ ms_vb st :: ms_keys st ++ foreign).
  Proof. intros _ J. rewrite in_app_iff. right. right. rewrite in_app_iff. now left. Qed.

  Lemma tkeys_safe extra rows st m : inv extra st -> Forall (fun p => In (fst p) (ms_keys st)) rows ->
    safe (ms_keys st ++ foreign) (ms_mem st) m -> tkeys m rows = tkeys (ms_mem st) rows.
  Proof.
    intros IV FR S. apply map_ext_in. intros p J. rewrite Forall_forall in FR. specialize (FR p J). f_equal.
    eapply safe_read; [exact S|rewrite in_app_iff; now left|exact (iv_now _ _ IV)|now apply inv_key].
  Qed.

  Lemma key_safe extra k st m : inv extra st -> In k (ms_keys st) -> safe (ms_keys st ++ foreign) (ms_mem st) m -> m_read m k = m_read (ms_mem st) k.
  Proof. intros IV J S. eapply safe_read; [exact S|rewrite in_app_iff; now left|exact (iv_now _ _ IV)|now apply inv_key]. Qed.

  (** The bytes of one row written: value, operations for the indexes. *)
  Lemma row_ok extra st tr m1 d vb own1 g f n m3 os :
    inv extra st -> m_serialize grow mt tr (ms_vb st) (ms_mem st) = Some (m1, d, vb) ->
    incl (extra ++ d :: ms_keys st) own1 ->
    (forall idx m m' os, In idx (t_indexes tb) -> buffers (m_heap m) (extra ++ vb :: ms_keys st ++ foreign) -> f idx m = (m', os) ->
       safe (vb :: ms_keys st ++ foreign) m m' /\ os = g idx) ->
    m_each f (e_map ev n (t_indexes tb)) (stir noise own1 m1) = (m3, os) ->
    exists bs, t_ser tb tr = Some bs /\ m_read (stir noise own1 m1) d = bs /\ os = flat_map g (e_map ev n (t_indexes tb)) /\
      safe (ms_keys st ++ foreign) (ms_mem st) (stir noise own1 m1) /\
      safe (ms_keys st ++ foreign) (ms_mem st) m3 /\ (forall w, inv extra (ms_put st m3 vb w)).
  Proof.
    intros IV E I HF EE. destruct IV as [B1 B2].
    assert (P : forall v, Permutation (extra ++ v :: ms_keys st ++ foreign) (v :: extra ++ ms_keys st ++ foreign)).
    { intros v. symmetry. apply Permutation_middle. }
    pose proof (serialize_ok tr (ms_vb st) (extra ++ ms_keys st ++ foreign) (ms_mem st)) as SO. rewrite E in SO.
    destruct SO as (bs & TS & S1 & HV & BD & RD); [eapply buffers_perm; [apply P|exact B1]|].
    pose proof (stir_safe own1 m1) as S2.
    assert (SE : safe (d :: ms_keys st ++ foreign) m1 (stir noise own1 m1)).
    { eapply safe_incl; [|exact S2]. intros x J. rewrite in_app_iff. destruct J as [<-|J]; [left; apply I; rewrite in_app_iff; right; now left|].
      rewrite in_app_iff in J. destruct J as [J|J]; [|now right]. left. apply I. rewrite in_app_iff. right. now right. }
    assert (BV : forall v, buffers (m_heap (ms_mem st)) (extra ++ v :: ms_keys st ++ foreign) -> heir (ms_mem st) m1 v v ->
       buffers (m_heap m1) (extra ++ v :: ms_keys st ++ foreign)).
    { intros v Bv HH. eapply buffers_perm; [symmetry; apply P|]. apply HH. eapply buffers_perm; [apply P|exact Bv]. }
    assert (BN : buffers (m_heap m1) (extra ++ vb :: ms_keys st ++ foreign)).
    { eapply buffers_perm; [symmetry; apply P|]. apply HV. eapply buffers_perm; [apply P|exact B1]. }
    pose proof (safe_buffers _ _ _ _ S2 BN) as BN2.
    eapply (each_ok f g) in EE; [| |exact BN2].
    2:{ intros idx ma mb o J. apply HF. eapply map_in; eauto. }
    destruct EE as [S3 ->]. exists bs. split; auto. split.
    { rewrite <- RD. eapply safe_read; [exact SE|now left|exact BD|now left]. }
    split; auto.
    assert (S12 : safe (ms_keys st ++ foreign) (ms_mem st) (stir noise own1 m1)).
    { eapply safe_trans; [eapply safe_incl; [|exact S1]|eapply safe_incl; [|exact SE]]; intros x J; [rewrite in_app_iff; now right|now right]. }
    assert (S13 : safe (ms_keys st ++ foreign) (ms_mem st) m3).
    { eapply safe_trans; [exact S12|]. eapply safe_incl; [|exact S3]. intros x J. now right. }
    split; auto. split; auto. intros w. constructor; cbn [ms_put ms_mem ms_vb ms_keys].
    - eapply safe_buffers; [exact S3|exact BN2].
    - eapply safe_buffers; [exact S13|exact B2].
  Qed.

  Lemma serialize_none extra st tr : inv extra st -> m_serialize grow mt tr (ms_vb st) (ms_mem st) = None -> t_ser tb tr = None.
  Proof.
    intros [B1 _] E. pose proof (serialize_ok tr (ms_vb st) (extra ++ ms_keys st ++ foreign) (ms_mem st)) as SO. rewrite E in SO. apply SO.
    eapply buffers_perm; [|exact B1]. symmetry. apply Permutation_middle.
  Qed.

  Definition same_end (extra : list slc) (st st' : mst (T:=T) (F:=F)) : Prop :=
    inv extra st' /\ ms_keys st' = ms_keys st /\ safe (ms_keys st ++ foreign) (ms_mem st) (ms_mem st').

  Lemma same_end_trans extra st st1 st2 : ms_keys st1 = ms_keys st -> safe (ms_keys st ++ foreign) (ms_mem st) (ms_mem st1) ->
    same_end extra st1 st2 -> same_end extra st st2.
  Proof. intros K S (I & K2 & S2). rewrite K in *. split; auto. split; [congruence|]. eapply safe_trans; eauto. Qed.

  Lemma stir_own_safe extra (st : mst (T:=T) (F:=F)) : safe (ms_keys st ++ foreign) (ms_mem st) (stir noise (ms_own extra st) (ms_mem st)).
  Proof.
    apply stir_safe_in. intros x J. unfold ms_own. rewrite !in_app_iff in *. cbn. tauto.
  Qed.

  Lemma insert_rows_ok ib it trs rows : forall prev st st' r, inv [ib] st -> Forall (fun p => In (fst p) (ms_keys st)) rows ->
    (forall p, prev = Some p -> In p (ms_keys st)) ->
    m_insert_rows grow noise mt ev ib it trs prev rows st = (st', r) ->
    insert_rows tb ev it trs (option_map (m_read (ms_mem st)) prev) (tkeys (ms_mem st) rows) (ms_w st) = (ms_w st', r) /\ same_end [ib] st st'.
  Proof.
    induction rows as [|[ks o] rows IH]; intros prev st st' r IV FR PR H; cbn [m_insert_rows insert_rows tkeys map fst snd] in *.
    - injection H as <- <-. split; auto. split; auto. split; auto. apply safe_refl.
    - inversion FR as [|? ? FK FR']; subst. cbn [fst] in FK.
      pose proof (stir_own_safe [ib] st) as SS.
      set (m0 := stir noise (ms_own [ib] st) (ms_mem st)) in *.
      set (s1 := tick (ms_w st)) in *.
      set (st1 := ms_put st m0 (ms_vb st) s1) in *.
      assert (IV1 : inv [ib] st1) by (eapply inv_safe; eauto).
      assert (END : same_end [ib] st st1) by (split; auto).
      pose proof (key_safe _ _ _ _ IV FK SS) as RK. rewrite RK in H.
      assert (RP : (match prev with Some p => beqb (m_read (ms_mem st) ks) (m_read m0 p) | None => false end) =
        match option_map (m_read (ms_mem st)) prev with Some p => beqb (m_read (ms_mem st) ks) p | None => false end).
      { destruct prev as [p|]; cbn; auto. now rewrite (key_safe _ _ _ _ IV (PR p eq_refl) SS). }
      rewrite RP in H. clear RP.
      destruct (e_ctx ev (w_tick (ms_w st))); [injection H as <- <-; auto|].
      destruct (_ || exist_key tb (w_flt s1) it (m_read (ms_mem st) ks)); [injection H as <- <-; auto|].
      destruct (nth_error trs o) as [tr|]; [|injection H as <- <-; auto].
      destruct (m_serialize grow mt tr (ms_vb st1) m0) as [[[m1 d] vb]|] eqn:SE.
      2:{ apply (serialize_none [ib] st1 tr IV1) in SE. rewrite SE. injection H as <- <-. auto. }
      match type of H with context [m_each ?f ?x ?y] => destruct (m_each f x y) as [m3 os] eqn:EE end.
      eapply (row_ok [ib] st1 tr m1 d vb) with (g := fun idx => on_insert (t_id tb) (t_pk tb) idx tr) in EE; [| exact IV1 | exact SE | | ].
      2:{ intros x J. exact J. }
      2:{ intros idx ma mb os' II BB HH. eapply on_insert_ok in HH; eauto. apply incl_refl. }
      destruct EE as (bs & TS & RD & -> & S2 & S3 & IV3). rewrite TS.
      change (ms_mem st1) with m0 in S2, S3. change (ms_keys st1) with (ms_keys st) in *.
      pose proof (safe_trans _ _ _ _ SS S2) as SS2. pose proof (safe_trans _ _ _ _ SS S3) as SS3.
      rewrite RD, (key_safe _ _ _ _ IV FK SS2), (key_safe _ _ _ _ IV FK SS3) in H.
      apply IH in H; [| apply IV3 | exact FR' | intros p [= <-]; exact FK].
      destruct H as [H1 H2]. cbn [ms_put ms_mem ms_w option_map] in H1. rewrite (key_safe _ _ _ _ IV FK SS3), (tkeys_safe _ _ _ _ IV FR' SS3) in H1.
      split; [exact H1|]. eapply same_end_trans; [| |exact H2]; [reflexivity|exact SS3].
  Qed.

  Lemma update_each ib ib2 st vb tr old idx m m' os :
    In idx (t_indexes tb) -> buffers (m_heap m) ([ib; ib2] ++ vb :: ms_keys st ++ foreign) ->
    m_on_update grow noise mt idx old tr (vb :: @ms_keys T F st) ib ib2 m = (m', os) ->
    safe (vb :: ms_keys st ++ foreign) m m' /\ os = on_update (t_id tb) (t_pk tb) idx old tr.
  Proof. intros II BB HH. eapply on_update_ok in HH; eauto. apply incl_refl. Qed.

  Lemma update_rows_ok ib ib2 it trs rows : forall st st' r, inv [ib; ib2] st -> Forall (fun p => In (fst p) (ms_keys st)) rows ->
    m_update_rows grow noise mt ev ib ib2 it trs rows st = (st', r) ->
    update_rows tb ev it trs (tkeys (ms_mem st) rows) (ms_w st) = (ms_w st', r) /\ same_end [ib; ib2] st st'.
  Proof.
    induction rows as [|[ks o] rows IH]; intros st st' r IV FR H; cbn [m_update_rows update_rows tkeys map fst snd] in *.
    - injection H as <- <-. split; auto. split; auto. split; auto. apply safe_refl.
    - inversion FR as [|? ? FK FR']; subst. cbn [fst] in FK.
      pose proof (stir_own_safe [ib; ib2] st) as SS.
      set (m0 := stir noise (ms_own [ib; ib2] st) (ms_mem st)) in *.
      set (s1 := tick (ms_w st)) in *.
      set (st1 := ms_put st m0 (ms_vb st) s1) in *.
      assert (IV1 : inv [ib; ib2] st1) by (eapply inv_safe; eauto).
      assert (END : same_end [ib; ib2] st st1) by (split; auto).
      pose proof (key_safe _ _ _ _ IV FK SS) as RK. rewrite RK in H.
      assert (RP : (match rows with (k2, _) :: _ => beqb (m_read m0 k2) (m_read (ms_mem st) ks) | [] => false end) =
        match map (fun p => (m_read (ms_mem st) (fst p), snd p)) rows with (k2, _) :: _ => beqb k2 (m_read (ms_mem st) ks) | [] => false end).
      { destruct rows as [|[k2 o2] rows]; auto. cbn. inversion FR' as [|? ? FK2 _]; subst. cbn [fst] in FK2. now rewrite (key_safe _ _ _ _ IV FK2 SS). }
      rewrite RP in H. clear RP.
      destruct (e_ctx ev (w_tick (ms_w st))); [injection H as <- <-; auto|].
      destruct (match map _ rows with [] => false | _ => _ end).
      { apply IH in H; [|exact IV1|exact FR']. destruct H as [H1 H2]. change (ms_mem st1) with m0 in H1.
        rewrite (tkeys_safe _ _ _ _ IV FR' SS) in H1. split; [exact H1|]. eapply same_end_trans; [| |exact H2]; [reflexivity|exact SS]. }
      destruct (negb (it_valid _) || _); [injection H as <- <-; auto|].
      destruct (t_deser tb _ _) as [old|]; [|injection H as <- <-; auto].
      set (st2 := ms_put st1 m0 (ms_vb st1) (set_old s1 old)) in *.
      assert (IV2 : inv [ib; ib2] st2) by (destruct IV1; constructor; auto).
      assert (END2 : same_end [ib; ib2] st st2) by (split; auto).
      destruct (nth_error trs o) as [tr|]; [|injection H as <- <-; auto].
      destruct (m_serialize grow mt tr (ms_vb st2) m0) as [[[m1 d] vb]|] eqn:SE.
      2:{ apply (serialize_none [ib; ib2] st2 tr IV2) in SE. rewrite SE. injection H as <- <-. auto. }
      match type of H with context [m_each ?f ?x ?y] => destruct (m_each f x y) as [m3 os] eqn:EE end.
      eapply (row_ok [ib; ib2] st2 tr m1 d vb) with (g := fun idx => on_update (t_id tb) (t_pk tb) idx old tr) in EE; [| exact IV2 | exact SE | | ].
      2:{ intros x J. exact J. }
      2:{ intros idx ma mb os' II BB HH. eapply update_each; eauto. }
      destruct EE as (bs & TS & RD & -> & S2 & S3 & IV3). rewrite TS.
      change (ms_mem st2) with m0 in S2, S3. change (ms_keys st2) with (ms_keys st) in *.
      pose proof (safe_trans _ _ _ _ SS S2) as SS2. pose proof (safe_trans _ _ _ _ SS S3) as SS3.
      rewrite RD, (key_safe _ _ _ _ IV FK SS2) in H.
      apply IH in H; [| apply IV3 | exact FR'].
      destruct H as [H1 H2]. cbn [ms_put ms_mem ms_w] in H1. rewrite (tkeys_safe _ _ _ _ IV FR' SS3) in H1.
      split; [exact H1|]. eapply same_end_trans; [| |exact H2]; [reflexivity|exact SS3].
  Qed.

  Lemma keys_safe extra keys st m : inv extra st -> incl keys (ms_keys st) -> safe (ms_keys st ++ foreign) (ms_mem st) m ->
    map (m_read m) keys = map (m_read (ms_mem st)) keys.
  Proof. intros IV I S. apply map_ext_in. intros k J. eapply key_safe; eauto. Qed.

  Variable on_conflict : T -> T -> T.

  Lemma upsert_rows_ok ib ib2 it trs keys order : forall fuel i st st' r, inv [ib; ib2] st -> incl keys (ms_keys st) ->
    m_upsert_rows grow noise mt ev on_conflict fuel ib ib2 it trs keys order i st = (st', r) ->
    upsert_rows tb ev on_conflict fuel it trs (map (m_read (ms_mem st)) keys) order i (ms_w st) = (ms_w st', r) /\ same_end [ib; ib2] st st'.
  Proof.
    induction fuel as [|fuel IH]; intros i st st' r IV IK H; cbn [m_upsert_rows upsert_rows] in *.
    - injection H as <- <-. rewrite map_length. split; auto. split; auto. split; auto. apply safe_refl.
    - rewrite map_length. destruct (Nat.ltb_spec i (length keys)) as [LT|GE].
      2:{ injection H as <- <-. split; auto. split; auto. split; auto. apply safe_refl. }
      destruct (nth_error trs (nth i order 0)) as [tr|].
      2:{ injection H as <- <-. split; auto. split; auto. split; auto. apply safe_refl. }
      pose proof (stir_own_safe [ib; ib2] st) as SS.
      set (m0 := stir noise (ms_own [ib; ib2] st) (ms_mem st)) in *.
      set (s1 := tick (ms_w st)) in *.
      set (st1 := ms_put st m0 (ms_vb st) s1) in *.
      assert (IV1 : inv [ib; ib2] st1) by (eapply inv_safe; eauto).
      assert (END : same_end [ib; ib2] st st1) by (split; auto).
      assert (NK : nth i (map (m_read (ms_mem st)) keys) [] = m_read (ms_mem st) (nth i keys sl_nil)).
      { change (@nil byte) with (m_read (ms_mem st) sl_nil). apply map_nth. }
      rewrite NK. set (ks := nth i keys sl_nil) in *.
      assert (FK : In ks (ms_keys st)) by (apply IK, nth_In; auto).
      rewrite (key_safe _ _ _ _ IV FK SS), (keys_safe _ _ _ _ IV IK SS) in H.
      destruct (e_ctx ev (w_tick (ms_w st))); [injection H as <- <-; auto|].
      set (key := m_read (ms_mem st) ks) in *.
      destruct (exist_key tb (w_flt s1) it key) eqn:EX.
      + destruct (t_deser tb _ _) as [old|]; [|injection H as <- <-; auto].
        destruct (upsert_dups on_conflict _ _ trs i old _) as [[[i' old'] tr']|] eqn:UD.
        2:{ injection H as <- <-. split; [reflexivity|]. split; [destruct IV1; constructor; auto|]. split; auto. }
        set (st2 := ms_put st1 m0 (ms_vb st1) (set_old s1 old')) in *.
        assert (IV2 : inv [ib; ib2] st2) by (destruct IV1; constructor; auto).
        assert (END2 : same_end [ib; ib2] st st2) by (split; auto).
        change (ms_vb st1) with (ms_vb st2) in H.
        destruct (m_serialize grow mt tr' (ms_vb st2) m0) as [[[m1 d] vb]|] eqn:SE.
        2:{ apply (serialize_none [ib; ib2] st2 tr' IV2) in SE. rewrite SE. injection H as <- <-. auto. }
        match type of H with context [m_each ?f ?x ?y] => destruct (m_each f x y) as [m3 os] eqn:EE end.
        eapply (row_ok [ib; ib2] st2 tr' m1 d vb) with (g := fun idx => on_update (t_id tb) (t_pk tb) idx old' tr') in EE; [| exact IV2 | exact SE | | ].
        2:{ intros x J. exact J. }
        2:{ intros idx ma mb os' II BB HH. eapply update_each; eauto. }
        destruct EE as (bs & TS & RD & -> & S2 & S3 & IV3). rewrite TS.
        change (ms_mem st2) with m0 in S2, S3. change (ms_keys st2) with (ms_keys st) in *.
        pose proof (safe_trans _ _ _ _ SS S2) as SS2. pose proof (safe_trans _ _ _ _ SS S3) as SS3.
        rewrite RD, (key_safe _ _ _ _ IV FK SS2) in H.
        apply IH in H; [| apply IV3 | exact IK].
        destruct H as [H1 H2]. cbn [ms_put ms_mem ms_w] in H1. rewrite (keys_safe _ _ _ _ IV IK SS3) in H1.
        split; [exact H1|]. eapply same_end_trans; [| |exact H2]; [reflexivity|exact SS3].
      + destruct (upsert_dups on_conflict _ _ trs i (w_old s1) _) as [[[i' old'] tr']|] eqn:UD.
        2:{ injection H as <- <-. split; [reflexivity|]. split; [destruct IV1; constructor; auto|]. split; auto. }
        set (st2 := ms_put st1 m0 (ms_vb st1) (set_old s1 old')) in *.
        assert (IV2 : inv [ib; ib2] st2) by (destruct IV1; constructor; auto).
        assert (END2 : same_end [ib; ib2] st st2) by (split; auto).
        change (ms_vb st1) with (ms_vb st2) in H.
        destruct (m_serialize grow mt tr' (ms_vb st2) m0) as [[[m1 d] vb]|] eqn:SE.
        2:{ apply (serialize_none [ib; ib2] st2 tr' IV2) in SE. rewrite SE. injection H as <- <-. auto. }
        match type of H with context [m_each ?f ?x ?y] => destruct (m_each f x y) as [m3 os] eqn:EE end.
        eapply (row_ok [ib; ib2] st2 tr' m1 d vb) with (g := fun idx => on_insert (t_id tb) (t_pk tb) idx tr') in EE; [| exact IV2 | exact SE | | ].
        2:{ intros x J. exact J. }
        2:{ intros idx ma mb os' II BB HH. eapply on_insert_ok in HH; eauto; [eapply buffers_perm in BB; [|apply perm_swap]; exact (buffers_tl _ _ _ BB)|].
            intros x [<-|J]; [now left|]. right. right. exact J. }
        destruct EE as (bs & TS & RD & -> & S2 & S3 & IV3). rewrite TS.
        change (ms_mem st2) with m0 in S2, S3. change (ms_keys st2) with (ms_keys st) in *.
        pose proof (safe_trans _ _ _ _ SS S2) as SS2. pose proof (safe_trans _ _ _ _ SS S3) as SS3.
        rewrite RD, (key_safe _ _ _ _ IV FK SS2), (key_safe _ _ _ _ IV FK SS3) in H.
        apply IH in H; [| apply IV3 | exact IK].
        destruct H as [H1 H2]. cbn [ms_put ms_mem ms_w] in H1. rewrite (keys_safe _ _ _ _ IV IK SS3) in H1.
        split; [exact H1|]. eapply same_end_trans; [| |exact H2]; [reflexivity|exact SS3].
  Qed.

  Lemma unsafe_insert_rows_ok ib : forall trs keys st st' r, inv [ib] st -> incl keys (ms_keys st) ->
    map (m_read (ms_mem st)) keys = map (data_key tb) trs ->
    m_unsafe_insert_rows grow noise mt ev ib trs keys st = (st', r) ->
    unsafe_insert_rows tb ev trs (ms_w st) = (ms_w st', r) /\ same_end [ib] st st'.
  Proof.
    induction trs as [|tr trs IH]; intros keys st st' r IV IK RK H; cbn [m_unsafe_insert_rows unsafe_insert_rows] in *.
    - injection H as <- <-. split; auto. split; auto. split; auto. apply safe_refl.
    - destruct keys as [|ks keys]; [discriminate|]. cbn [map] in RK. injection RK as RK RK'.
      assert (FK : In ks (ms_keys st)) by (apply IK; now left). apply incl_cons_inv in IK. destruct IK as [_ IK].
      pose proof (stir_own_safe [ib] st) as SS.
      set (m0 := stir noise (ms_own [ib] st) (ms_mem st)) in *.
      set (s1 := tick (ms_w st)) in *.
      set (st1 := ms_put st m0 (ms_vb st) s1) in *.
      assert (IV1 : inv [ib] st1) by (eapply inv_safe; eauto).
      assert (END : same_end [ib] st st1) by (split; auto).
      destruct (e_ctx ev (w_tick (ms_w st))); [injection H as <- <-; auto|].
      destruct (m_serialize grow mt tr (ms_vb st1) m0) as [[[m1 d] vb]|] eqn:SE.
      2:{ apply (serialize_none [ib] st1 tr IV1) in SE. rewrite SE. injection H as <- <-. auto. }
      match type of H with context [m_each ?f ?x ?y] => destruct (m_each f x y) as [m3 os] eqn:EE end.
      eapply (row_ok [ib] st1 tr m1 d vb) with (g := fun idx => on_insert (t_id tb) (t_pk tb) idx tr) in EE; [| exact IV1 | exact SE | | ].
      2:{ intros x J. exact J. }
      2:{ intros idx ma mb os' II BB HH. eapply on_insert_ok in HH; eauto. apply incl_refl. }
      destruct EE as (bs & TS & RD & -> & S2 & S3 & IV3). rewrite TS.
      change (ms_mem st1) with m0 in S2, S3. change (ms_keys st1) with (ms_keys st) in *.
      pose proof (safe_trans _ _ _ _ SS S2) as SS2. pose proof (safe_trans _ _ _ _ SS S3) as SS3.
      rewrite RD, (key_safe _ _ _ _ IV FK SS2), (key_safe _ _ _ _ IV FK SS3), RK in H.
      apply IH in H; [| apply IV3 | exact IK | ].
      2:{ cbn [ms_put ms_mem]. rewrite (keys_safe _ _ _ _ IV IK SS3). exact RK'. }
      destruct H as [H1 H2]. split; [exact H1|]. eapply same_end_trans; [| |exact H2]; [reflexivity|exact SS3].
  Qed.

  Lemma delete_rows_ok kb ib : forall trs m m' s out, buffers (m_heap m) (kb :: ib :: foreign) ->
    m_delete_rows grow noise mt ev kb ib trs m s = (m', out) -> out = delete_rows tb ev trs s /\ safe foreign m m'.
  Proof.
    induction trs as [|tr trs IH]; intros m m' s out B H; cbn [m_delete_rows delete_rows] in *.
    - injection H as <- <-. split; auto. apply safe_refl.
    - destruct (e_ctx ev (w_tick s)); [injection H as <- <-; split; auto; apply safe_refl|].
      destruct (m_build noise (h_data_key grow mt tr) [ib] m kb) as [m1 key] eqn:E.
      eapply build_ok in E; [|apply data_key_appends|exact B|apply incl_refl]. destruct E as (S1 & HK & RK). rewrite RK in H.
      pose proof (safe_buffers _ _ _ _ S1 B) as B1.
      match type of H with context [m_each ?f ?x ?y] => destruct (m_each f x y) as [m2 os] eqn:EE end.
      eapply (each_ok _ (fun idx => on_delete (t_id tb) (t_pk tb) idx tr) _ (kb :: ib :: foreign) foreign) in EE; [| |exact B1].
      2:{ intros idx ma mb os' II BB HH. apply map_in in II. apply (on_delete_ok idx tr [kb] ib foreign) in HH; auto; [exact (buffers_tl _ _ _ BB)|].
          intros x J. now right. }
      destruct EE as [S2 ->].
      assert (S12 : safe foreign m m2). { eapply safe_trans; [eapply safe_incl; [|exact S1]|exact S2]. intros x J. now right. }
      apply IH in H; [|eapply safe_buffers; eauto]. destruct H as [-> S3]. split; auto. eapply safe_trans; eauto.
  Qed.

  Lemma unsafe_update_rows_ok kb ib ib2 : forall trs olds m vb s m' vb' out,
    buffers (m_heap m) (kb :: ib :: ib2 :: vb :: foreign) ->
    m_unsafe_update_rows grow noise mt ev kb ib ib2 trs olds m vb s = (m', vb', out) ->
    out = unsafe_update_rows tb ev trs olds s /\ safe foreign m m'.
  Proof.
    induction trs as [|tr trs IH]; intros olds m vb s m' vb' out B H; cbn [m_unsafe_update_rows unsafe_update_rows] in *.
    - injection H as <- <- <-. split; auto. apply safe_refl.
    - destruct olds as [|old olds]; [injection H as <- <- <-; split; auto; apply safe_refl|].
      destruct (e_ctx ev (w_tick s)); [injection H as <- <- <-; split; auto; apply safe_refl|].
      destruct (m_build noise (h_data_key grow mt tr) [ib; ib2; vb] m kb) as [m1 key] eqn:E.
      eapply build_ok in E; [|apply data_key_appends|exact B|apply incl_refl]. destruct E as (S1 & HK & RK).
      pose proof (safe_buffers _ _ _ _ S1 B) as B1. pose proof (HK _ B) as BK.
      assert (P : forall v l : slc, Permutation (l :: ib :: ib2 :: v :: foreign) (v :: l :: ib :: ib2 :: foreign)).
      { intros v l. symmetry. apply (Permutation_middle [l; ib; ib2] foreign v). }
      pose proof (serialize_ok tr vb (key :: ib :: ib2 :: foreign) m1) as SO.
      destruct (m_serialize grow mt tr vb m1) as [[[m2 d] vb1]|].
      2:{ rewrite SO by (eapply buffers_perm; [apply P|exact BK]). injection H as <- <- <-. split; auto.
          eapply safe_incl; [|exact S1]. intros x J. cbn. tauto. }
      destruct SO as (bs & TS & S2 & HV & BD & RD); [eapply buffers_perm; [apply P|exact BK]|]. rewrite TS.
      assert (B2 : buffers (m_heap m2) (kb :: ib :: ib2 :: vb1 :: foreign)).
      { eapply buffers_perm; [symmetry; apply P|]. apply HV. eapply buffers_perm; [apply P|exact B1]. }
      pose proof (stir_safe [key; ib; ib2; d] m2) as S3.
      rewrite (safe_read _ _ _ key _ S3 (or_introl eq_refl) BD (or_intror (or_introl eq_refl))) in H.
      rewrite (safe_read _ _ _ key _ S2 (or_introl eq_refl) BK (or_introl eq_refl)) in H.
      rewrite (safe_read _ _ _ d _ S3 ltac:(cbn; tauto) BD (or_introl eq_refl)) in H. rewrite RK, RD in H.
      pose proof (safe_buffers _ _ _ _ S3 B2) as B3.
      match type of H with context [m_each ?f ?x ?y] => destruct (m_each f x y) as [m4 os] eqn:EE end.
      eapply (each_ok _ (fun idx => on_update (t_id tb) (t_pk tb) idx old tr) _ (kb :: ib :: ib2 :: vb1 :: foreign) (vb1 :: foreign)) in EE; [| |exact B3].
      2:{ intros idx ma mb os' II BB HH. apply map_in in II. apply (on_update_ok idx old tr [kb; vb1] ib ib2 (vb1 :: foreign)) in HH; auto; [exact (buffers_tl _ _ _ BB)|].
          intros x J. now right. }
      destruct EE as [S4 ->].
      assert (S14 : safe foreign m m4).
      { eapply safe_trans; [eapply safe_incl; [|exact S1]; intros x J; cbn; tauto|].
        eapply safe_trans; [eapply safe_incl; [|exact S2]; intros x J; cbn; tauto|].
        eapply safe_trans; [eapply safe_incl; [|exact S3]; intros x J; cbn; tauto|].
        eapply safe_incl; [|exact S4]; intros x J; cbn; tauto. }
      apply IH in H; [|eapply safe_buffers; [exact S4|exact B3]]. destruct H as [-> S5]. split; auto. eapply safe_trans; eauto.
  Qed.

  (** ** Chunks *)

  Definition sim (extra : list slc) (st0 : mst (T:=T) (F:=F)) (w : wst T F) (st : mst (T:=T) (F:=F)) : Prop :=
    inv extra st /\ ms_w st = w /\ length (ms_keys st) = length (ms_keys st0) /\ safe foreign (ms_mem st0) (ms_mem st).

  Lemma sim_end extra st0 w st st1 st2 : sim extra st0 w st -> length (ms_keys st1) = length (ms_keys st) -> safe foreign (ms_mem st) (ms_mem st1) ->
    same_end extra st1 st2 -> sim extra st0 (ms_w st2) st2.
  Proof.
    intros (I0 & W0 & L0 & S0) L1 S1 (I2 & K2 & S2). split; auto. split; auto. split; [congruence|].
    eapply safe_trans; [exact S0|]. eapply safe_trans; [exact S1|]. eapply safe_incl; [|exact S2]. intros x J. rewrite in_app_iff. now right.
  Qed.

  Lemma in_firstn_in {A} (l : list A) n x : In x (firstn n l) -> In x l.
  Proof. intros J. rewrite <- (firstn_skipn n l), in_app_iff. now left. Qed.

  Lemma combine_rows keys order m l : incl keys l ->
    Forall (fun p => In (fst p) l) (combine keys order) /\ tkeys m (combine keys order) = combine (map (m_read m) keys) order.
  Proof.
    intros I. split.
    - apply Forall_forall. intros [k o] J. apply in_combine_l in J. now apply I.
    - revert order. clear I. induction keys as [|k keys IH]; intros [|o order]; auto. cbn. f_equal. apply IH.
  Qed.

  Lemma insert_chunk_ok ib db rw trs st0 w st st' r : sim [ib] st0 w st -> length trs <= length (ms_keys st0) ->
    m_insert_chunk grow noise mt ev ib db rw trs st = (st', r) -> exists w', insert_chunk tb ev db rw trs w = (w', r) /\ sim [ib] st0 w' st'.
  Proof.
    intros SI L H. pose proof SI as (IV & <- & LK & S). unfold m_insert_chunk in H. unfold insert_chunk.
    destruct (m_chunk_keys grow noise mt ev [ib] trs st) as [st1 ok] eqn:E. apply chunk_keys_ok in E; [|exact IV|lia].
    destruct E as (keys & order & -> & IV1 & W1 & L1 & IK & S1 & SK). rewrite <- SK.
    destruct keys as [|k keys].
    - injection H as <- <-. cbn. exists (ms_w st). split; auto. rewrite <- W1. eapply sim_end; [exact SI|exact L1|exact S1|].
      split; auto. split; auto. apply safe_refl.
    - destruct (combine_rows (k :: keys) order (ms_mem st1) _ IK) as [C1 C2].
      apply insert_rows_ok in H; [|exact IV1|exact C1|discriminate]. destruct H as [H1 H2]. rewrite C2, W1 in H1. cbn [option_map] in H1.
      cbn [map] in *. rewrite H1. exists (ms_w st'). split; auto. eapply sim_end; [exact SI|exact L1|exact S1|exact H2].
  Qed.

  Lemma update_chunk_ok ib ib2 db rw trs st0 w st st' r : sim [ib; ib2] st0 w st -> length trs <= length (ms_keys st0) ->
    m_update_chunk grow noise mt ev ib ib2 db rw trs st = (st', r) -> exists w', update_chunk tb ev db rw trs w = (w', r) /\ sim [ib; ib2] st0 w' st'.
  Proof.
    intros SI L H. pose proof SI as (IV & <- & LK & S). unfold m_update_chunk in H. unfold update_chunk.
    destruct (m_chunk_keys grow noise mt ev [ib; ib2] trs st) as [st1 ok] eqn:E. apply chunk_keys_ok in E; [|exact IV|lia].
    destruct E as (keys & order & -> & IV1 & W1 & L1 & IK & S1 & SK). rewrite <- SK.
    destruct keys as [|k keys].
    - injection H as <- <-. cbn. exists (ms_w st). split; auto. rewrite <- W1. eapply sim_end; [exact SI|exact L1|exact S1|].
      split; auto. split; auto. apply safe_refl.
    - destruct (combine_rows (k :: keys) order (ms_mem st1) _ IK) as [C1 C2].
      apply update_rows_ok in H; [|exact IV1|exact C1]. destruct H as [H1 H2]. rewrite C2, W1 in H1.
      cbn [map] in *. rewrite H1. exists (ms_w st'). split; auto. eapply sim_end; [exact SI|exact L1|exact S1|exact H2].
  Qed.

  Lemma upsert_chunk_ok ib ib2 db rw trs st0 w st st' r : sim [ib; ib2] st0 w st -> length trs <= length (ms_keys st0) ->
    m_upsert_chunk grow noise mt ev on_conflict ib ib2 db rw trs st = (st', r) ->
    exists w', upsert_chunk tb ev on_conflict db rw trs w = (w', r) /\ sim [ib; ib2] st0 w' st'.
  Proof.
    intros SI L H. pose proof SI as (IV & <- & LK & S). unfold m_upsert_chunk in H. unfold upsert_chunk.
    destruct (m_chunk_keys grow noise mt ev [ib; ib2] trs st) as [st1 ok] eqn:E. apply chunk_keys_ok in E; [|exact IV|lia].
    destruct E as (keys & order & -> & IV1 & W1 & L1 & IK & S1 & SK). rewrite <- SK.
    destruct keys as [|k keys].
    - injection H as <- <-. cbn. exists (ms_w st). split; auto. rewrite <- W1. eapply sim_end; [exact SI|exact L1|exact S1|].
      split; auto. split; auto. apply safe_refl.
    - apply upsert_rows_ok in H; [|exact IV1|exact IK]. destruct H as [H1 H2]. rewrite W1 in H1.
      cbn [map length] in *. rewrite map_length. rewrite H1. exists (ms_w st'). split; auto. eapply sim_end; [exact SI|exact L1|exact S1|exact H2].
  Qed.

  Lemma unsafe_insert_chunk_ok ib trs st0 w st st' r : sim [ib] st0 w st -> length trs <= length (ms_keys st0) ->
    m_unsafe_insert_chunk grow noise mt ev ib trs st = (st', r) -> exists w', unsafe_insert_rows tb ev trs w = (w', r) /\ sim [ib] st0 w' st'.
  Proof.
    intros SI L H. pose proof SI as (IV & <- & LK & S). unfold m_unsafe_insert_chunk in H. pose proof IV as [B1 B2].
    destruct (m_keys_external grow noise mt [ib; ms_vb st] trs [] (ms_keys st) (ms_mem st)) as [m1 oks] eqn:E.
    assert (P : forall v ks, Permutation (ib :: v :: ks ++ foreign) (ks ++ ib :: v :: foreign)).
    { intros v ks. apply (Permutation_app_swap_app [ib; v] ks foreign). }
    eapply (keys_external_ok _ _ (ib :: ms_vb st :: foreign)) in E; [|eapply buffers_perm; [apply P|exact B1]|apply incl_refl|lia].
    destruct E as (keys & -> & S1 & LK1 & HB & RK). cbn in LK1.
    assert (IV1 : inv [ib] (MSt m1 keys (ms_vb st) (ms_w st))).
    { constructor; cbn [ms_mem ms_keys ms_vb app]; (eapply buffers_perm; [symmetry; apply P|]); apply HB; cbn; (eapply buffers_perm; [apply P|]); auto. }
    apply unsafe_insert_rows_ok in H; [|exact IV1|intros x J; eapply in_firstn_in; exact J|exact RK].
    destruct H as [H1 H2]. exists (ms_w st'). split; auto. eapply sim_end; [exact SI| | |exact H2]; [exact LK1|].
    eapply safe_incl; [|exact S1]. intros x J. cbn. tauto.
  Qed.

  (** ** Whole calls *)

  Lemma chunk_length {A} (items : list A) bs num : 0 < bs ->
    length (firstn ((if Nat.ltb (length items) (num * bs + bs) then num * bs + length items mod bs else num * bs + bs) - num * bs) (skipn (num * bs) items))
      <= Nat.min (length items) bs.
  Proof.
    intros BP. rewrite firstn_length, skipn_length. pose proof (Nat.mod_upper_bound (length items) bs). destruct (Nat.ltb_spec (length items) (num * bs + bs)); lia.
  Qed.

  Lemma batched_sim {A St Sv} (R : Sv -> St -> Prop) (items : list A) bs (f : list A -> St -> St * res unit) (g : list A -> Sv -> Sv * res unit) : 0 < bs ->
    (forall c w st st' r, R w st -> length c <= Nat.min (length items) bs -> f c st = (st', r) -> exists w', g c w = (w', r) /\ R w' st') ->
    forall fuel num w st st' r, R w st -> batched_loop fuel items bs num f st = (st', r) ->
    exists w', batched_loop fuel items bs num g w = (w', r) /\ R w' st'.
  Proof.
    intros BP HF. induction fuel as [|fuel IH]; intros num w st st' r RR H; cbn [batched_loop] in *.
    - injection H as <- <-. eauto.
    - destruct (Nat.ltb (num * bs) (length items)); [|injection H as <- <-; eauto].
      pose proof (chunk_length items bs num BP) as CL.
      set (c := firstn _ _) in *. destruct (f c st) as [st1 r1] eqn:E. eapply HF in E; eauto. destruct E as (w1 & E1 & R1). rewrite E1.
      destruct r1; [eapply IH; eauto| | |]; injection H as <- <-; eauto.
  Qed.

  Lemma finish_eq db fl ob body out : body (given_rw ob) (m_start mt fl ob) = out -> m_finish mt ev db fl ob out = run_write tb ev db fl ob body.
  Proof. intros <-. unfold m_finish, run_write. destruct ob; reflexivity. Qed.

  (** ** Reads *)

  Definition no_rows {A} (r : res (list A)) : res unit := match r with Ok _ => Ok tt | Err e => Err e | Panic => Panic | Diverge => Diverge end.

  Lemma get_loop_ok own fl it e keys : forall rest done todo m m' vs r,
    buffers (m_heap m) (done ++ todo ++ rest) -> within rest (own ++ foreign) -> within keys rest -> length keys <= length todo ->
    m_get_loop grow noise mt own fl it keys e done todo m = (m', vs, r) ->
    safe rest m m' /\ length vs = length done + length todo /\ (forall r', buffers (m_heap m) (done ++ todo ++ r') -> buffers (m_heap m') (vs ++ r')) /\
    r = no_rows (get_values tb fl it (map (m_read m) keys) e) /\
    (forall l, get_values tb fl it (map (m_read m) keys) e = Ok l ->
       map (m_read m') (firstn (length done + length keys) vs) = map (m_read m) done ++ l).
  Proof.
    induction keys as [|k keys IH]; intros rest done todo m m' vs r B I IK L H; cbn [m_get_loop get_values map] in *.
    - injection H as <- <- <-. split; [apply safe_refl|]. split; [apply app_length|]. split; [intros r'; now rewrite app_assoc|].
      split; auto. intros l [= <-]. cbn [length]. rewrite Nat.add_0_r, firstn_app, firstn_all, Nat.sub_diag, firstn_O, !app_nil_r. reflexivity.
    - assert (FK : within [k] rest) by (intros x [<-|[]]; apply IK; now left).
      assert (IK' : within keys rest) by (intros x J; apply IK; now right). clear IK. rename IK' into IK. cbn [length] in L.
      pose proof (stir_safe (own ++ done ++ todo) m) as S0. set (m0 := stir noise (own ++ done ++ todo) m) in *.
      assert (SS : safe (done ++ rest) m m0).
      { eapply safe_within; [|exact S0]. intros x J. rewrite in_app_iff in J. destruct J as [J|J].
        - exists x. rewrite !in_app_iff. split; [tauto|apply same_refl].
        - destruct (I x J) as (y & K & E). exists y. rewrite !in_app_iff in *. tauto. }
      assert (IN : forall l1 l2, within l1 rest -> within l1 (l2 ++ rest)).
      { intros l1 l2 W x J. destruct (W x J) as (y & K & E). exists y. rewrite in_app_iff. auto. }
      assert (IN3 : forall l1, within l1 rest -> within l1 (done ++ todo ++ rest)) by (intros; rewrite app_assoc; now apply IN).
      assert (IK1 : forall x, In x keys -> within [x] rest) by (intros x J y [<-|[]]; now apply IK).
      assert (RK : m_read m0 k = m_read m k) by (eapply safe_cells; [exact SS|now apply IN|exact B|now apply IN3]).
      assert (RKS : map (m_read m0) keys = map (m_read m) keys).
      { apply map_ext_in. intros x J. eapply safe_cells; [exact SS|now apply IN, IK1|exact B|now apply IN3, IK1]. }
      assert (RDN : map (m_read m0) done = map (m_read m) done).
      { apply map_ext_in. intros x J. eapply safe_read; [exact SS|rewrite in_app_iff; now left|exact B|rewrite in_app_iff; now left]. }
      pose proof (safe_buffers _ _ _ _ S0 B) as B0. rewrite RK in H.
      destruct todo as [|v todo]; [cbn in L; lia|]. cbn [length] in L.
      assert (P : forall x r', Permutation (done ++ (x :: todo) ++ r') (x :: done ++ todo ++ r')).
      { intros x r'. symmetry. apply (Permutation_middle done (todo ++ r') x). }
      assert (P' : forall x r', Permutation (x :: done ++ todo ++ r') ((done ++ [x]) ++ todo ++ r')).
      { intros x r'. rewrite <- app_assoc. apply (Permutation_middle done (todo ++ r') x). }
      destruct (get_value tb fl it (m_read m k)) as [bs|].
      + destruct (sl_append grow x00 (m_heap m0) (sl_reset v) bs) as [h v'] eqn:AP.
        eapply append_ok in AP; [|eapply buffers_perm; [apply P|exact B0]]. destruct AP as (S1 & HV & RV).
        set (m1 := Mem h (m_past m0)) in *.
        assert (N : forall r', buffers (m_heap m) (done ++ (v :: todo) ++ r') -> buffers (m_heap m1) ((done ++ [v']) ++ todo ++ r')).
        { intros r' BR. eapply buffers_perm; [apply P'|]. apply HV. eapply buffers_perm; [apply P|]. eapply safe_buffers; eauto. }
        eapply IH in H; [|apply N, B|exact I|exact IK|lia]. destruct H as (S2 & LV2 & HB & ER & EV2).
        assert (S1R : safe (done ++ rest) m0 m1). { eapply safe_incl; [|exact S1]. intros x J. rewrite !in_app_iff in *. tauto. }
        assert (RKS1 : map (m_read m1) keys = map (m_read m) keys).
        { rewrite <- RKS. apply map_ext_in. intros x J. eapply safe_cells; [exact S1R|now apply IN, IK1|exact B0|now apply IN3, IK1]. }
        assert (RDN1 : map (m_read m1) done = map (m_read m) done).
        { rewrite <- RDN. apply map_ext_in. intros x J. eapply safe_read; [exact S1R|rewrite in_app_iff; now left|exact B0|rewrite in_app_iff; now left]. }
        rewrite RKS1 in ER, EV2.
        split. { eapply safe_trans; [eapply safe_incl; [|exact SS]|eapply safe_trans; [eapply safe_incl; [|exact S1R]|exact S2]]; intros x J; rewrite in_app_iff; now right. }
        split; [rewrite LV2, app_length; cbn; lia|]. split; [intros r' BR; apply HB, N, BR|].
        split; [rewrite ER; now destruct (get_values tb fl it (map (m_read m) keys) e)|].
        intros l HL. destruct (get_values tb fl it (map (m_read m) keys) e) as [l'| | |]; try discriminate. injection HL as <-.
        specialize (EV2 l' eq_refl). rewrite app_length in EV2. cbn [length] in EV2 |- *. rewrite <- Nat.add_assoc in EV2. cbn [plus] in EV2. rewrite EV2.
        rewrite map_app, <- app_assoc, RDN1. cbn [map app]. f_equal. f_equal. exact RV.
      + destruct e.
        * injection H as <- <- <-. split; [eapply safe_incl; [|exact SS]; intros x J; rewrite in_app_iff; now right|].
          split; [rewrite app_length; cbn; lia|]. split; [intros r' BR; rewrite <- app_assoc; eapply safe_buffers; eauto|]. split; auto. discriminate.
        * assert (N : forall r', buffers (m_heap m) (done ++ (v :: todo) ++ r') -> buffers (m_heap m0) ((done ++ [sl_reset v]) ++ todo ++ r')).
          { intros r' BR. eapply buffers_perm; [apply P'|]. apply (safe_buffers _ _ _ _ S0) in BR. apply (buffers_perm _ _ _ (P v r')) in BR.
            destruct BR as [A D]. inversion A; subst. inversion D; subst. split; constructor; auto. now apply reset_ok. }
          eapply IH in H; [|apply N, B|exact I|exact IK|lia]. destruct H as (S2 & LV2 & HB & ER & EV2). rewrite RKS in ER, EV2.
          split. { eapply safe_trans; [eapply safe_incl; [|exact SS]|exact S2]; intros x J; rewrite in_app_iff; now right. }
          split; [rewrite LV2, app_length; cbn; lia|]. split; [intros r' BR; apply HB, N, BR|].
          split; [rewrite ER; now destruct (get_values tb fl it (map (m_read m) keys) false)|].
          intros l HL. destruct (get_values tb fl it (map (m_read m) keys) false) as [l'| | |]; try discriminate. injection HL as <-.
          specialize (EV2 l' eq_refl). rewrite app_length in EV2. cbn [length] in EV2 |- *. rewrite <- Nat.add_assoc in EV2. cbn [plus] in EV2. rewrite EV2.
          rewrite map_app, <- app_assoc, RDN. reflexivity.
  Qed.

  Lemma get_values_length fl it e : forall keys l, get_values tb fl it keys e = Ok l -> length l = length keys.
  Proof.
    induction keys as [|k keys IH]; intros l H; cbn in H; [now injection H as <-|].
    destruct (get_value tb fl it k) as [bs|]; [|destruct e; [discriminate|]]; destruct (get_values tb fl it keys _); try discriminate; injection H as <-; cbn; f_equal; auto.
  Qed.

  Lemma index_of_nth x : forall l j, index_of x l = Some j -> nth_error l j = Some x.
  Proof.
    induction l as [|y l IH]; intros j H; cbn in H; [discriminate|]. destruct (Nat.eqb_spec x y) as [->|N]; [now injection H as <-|].
    destruct (index_of x l) as [i|]; [|discriminate]. injection H as <-. cbn. auto.
  Qed.
  Lemma index_of_some x : forall l, In x l -> exists j, index_of x l = Some j /\ j < length l.
  Proof.
    induction l as [|y l IH]; intros H; [destruct H|]. cbn. destruct (Nat.eqb_spec x y) as [->|N]; [exists 0; split; auto; lia|].
    destruct H as [->|H]; [congruence|]. destruct (IH H) as (j & -> & L). exists (S j). split; auto. lia.
  Qed.

  (** Exchanging values by the inverse order leaves the same values. *)
  Lemma reorder_perm {A} (l : list A) d n order : Permutation order (seq 0 n) -> n <= length l ->
    Permutation (map (fun i => match index_of i order with Some j => nth j l d | None => d end) (seq 0 n)) (firstn n l).
  Proof.
    intros P L.
    assert (LO : length order = n) by (rewrite (Permutation_length P); apply seq_length).
    set (pos := fun i => match index_of i order with Some j => j | None => 0 end).
    assert (PO : forall i, In i (seq 0 n) -> index_of i order = Some (pos i) /\ pos i < n).
    { intros i J. apply (Permutation_in _ (Permutation_sym P)) in J. destruct (index_of_some _ _ J) as (j & E & LJ). unfold pos. rewrite E. split; auto. lia. }
    assert (E : map (fun i => match index_of i order with Some j => nth j l d | None => d end) (seq 0 n) = map (fun i => nth i (firstn n l) d) (map pos (seq 0 n))).
    { rewrite map_map. apply map_ext_in. intros i J. destruct (PO i J) as [E LT]. rewrite E. now rewrite nth_firstn_in. }
    rewrite E. apply map_nth_perm. rewrite firstn_length, Nat.min_l by auto. apply NoDup_Permutation_bis.
    - assert (ND : forall k, NoDup k -> incl k (seq 0 n) -> NoDup (map pos k)).
      { induction k as [|x k IH]; intros ND IN; cbn; constructor.
        - intros J. apply in_map_iff in J. destruct J as (y & EQ & J). inversion ND; subst.
          destruct (PO x) as [E1 _]; [apply IN; now left|]. destruct (PO y) as [E2 _]; [apply IN; now right|].
          apply index_of_nth in E1. apply index_of_nth in E2. rewrite EQ in E2. rewrite E1 in E2. injection E2 as ->. auto.
        - inversion ND; subst. apply IH; auto. apply incl_cons_inv in IN. apply IN. }
      apply ND; [apply seq_NoDup|apply incl_refl].
    - now rewrite map_length.
    - intros j J. apply in_map_iff in J. destruct J as (i & <- & J). destruct (PO i J) as [_ LT]. apply in_seq. lia.
  Qed.

  (** [c] may cut off the room behind the keys. *)
  Lemma get_ok_cut (c : slc -> slc) own db fl ob keys values e m rest m' keys' values' r : (forall k, same_cells k (c k)) ->
    buffers (m_heap m) (map c keys ++ values ++ rest) -> within rest (own ++ foreign) -> length keys <= length values ->
    m_get grow noise mt ev own db fl ob keys values e m = (m', keys', values', r) ->
    safe (map c keys ++ rest) m m' /\ (forall r', buffers (m_heap m) (values ++ r') -> buffers (m_heap m') (values' ++ r')) /\
    Permutation keys' keys /\ map (m_read m) keys' = match keys with [] => [] | _ => fst (sort_keys ev (map (m_read m) keys)) end /\ length values' = length values /\
    match get_keys tb ev db fl ob (map (m_read m) keys) e with
    | Ok l => exists vs, r = Ok vs /\ incl vs values' /\ map (m_read m') vs = l
    | Err x => r = Err x
    | Panic => r = Panic
    | Diverge => r = Diverge
    end.
  Proof.
    intros CS B I L H. unfold m_get in H. unfold get_keys. destruct keys as [|k0 keys0].
    { injection H as <- <- <- <-. split; [apply safe_refl|]. split; auto. split; auto. split; auto. split; auto. exists []. split; auto. split; auto. intros x []. }
    set (keys := k0 :: keys0) in *. destruct (m_sort_keys ev (length keys) keys m) as [skeys order] eqn:SK.
    apply sort_keys_ok in SK; [|lia]. destruct SK as (P1 & _ & _ & _ & P5).
    rewrite (firstn_all2 skeys) in P5 by (rewrite (Permutation_length P1); lia). rewrite (firstn_all2 keys) in P5 by lia.
    assert (PO : Permutation order (seq 0 (length keys))).
    { unfold sort_keys in P5. apply pair_equal_spec in P5. destruct P5 as [_ ->]. pose proof (env_sort_perm ev EV (map (m_read m) keys)) as Q. now rewrite map_length in Q. }
    assert (CASE : match map (m_read m) keys with [] => @Ok (list bytes) [] | _ :: _ => let '(skeys, order) := sort_keys ev (map (m_read m) keys) in
        match get_values tb fl (db_iter db ob (hd [] skeys) (data_key_space_end tb)) skeys e with Ok vs => Ok (reorder_values vs order) | e => e end end
      = match get_values tb fl (db_iter db ob (hd [] (map (m_read m) skeys)) (data_key_space_end tb)) (map (m_read m) skeys) e with
        | Ok vs => Ok (reorder_values vs order) | e => e end).
    { rewrite <- P5. reflexivity. }
    rewrite CASE. clear CASE. set (it := db_iter db ob (hd [] (map (m_read m) skeys)) (data_key_space_end tb)) in *.
    destruct (m_get_loop grow noise mt (own ++ skeys) fl it skeys e [] values m) as [[m1 vs] rl] eqn:E.
    assert (PC : Permutation (map c skeys) (map c keys)) by now apply Permutation_map.
    assert (PB : forall r', Permutation (map c keys ++ values ++ r') (values ++ map c skeys ++ r')).
    { intros r'. rewrite Permutation_app_swap_app. now rewrite PC. }
    eapply (get_loop_ok _ _ _ _ _ (map c skeys ++ rest)) in E; [|eapply buffers_perm; [apply PB|exact B]| | |rewrite (Permutation_length P1); lia].
    2:{ intros x J. rewrite in_app_iff in J. destruct J as [J|J].
        - apply in_map_iff in J. destruct J as (k & <- & J). exists k. rewrite !in_app_iff. split; [tauto|apply same_sym, CS].
        - destruct (I x J) as (y & K & Y). exists y. rewrite !in_app_iff in *. tauto. }
    2:{ intros k J. exists (c k). split; [rewrite in_app_iff; left; now apply in_map|apply CS]. }
    destruct E as (S & LVS & HB & ER & EVS). cbn [length plus app map] in LVS, EVS, HB.
    assert (SR : safe (map c keys ++ rest) m m1).
    { eapply safe_incl; [|exact S]. intros x J. rewrite in_app_iff in *. destruct J as [J|J]; [left|now right]. eapply Permutation_in; [symmetry; exact PC|exact J]. }
    assert (KS : map (m_read m) skeys = fst (sort_keys ev (map (m_read m) keys))) by now rewrite <- P5.
    destruct (get_values tb fl it (map (m_read m) skeys) e) as [l|x| |] eqn:GV; cbn [no_rows] in ER; subst rl;
      apply pair_equal_spec in H; destruct H as [H <-]; apply pair_equal_spec in H; destruct H as [H <-];
      apply pair_equal_spec in H; destruct H as [<- <-]; auto 10.
    specialize (EVS l eq_refl). pose proof (get_values_length _ _ _ _ _ GV) as LL. rewrite map_length, (Permutation_length P1) in LL.
    rewrite (Permutation_length P1) in EVS.
    set (n := length keys) in *.
    pose proof (reorder_perm vs sl_nil n order PO ltac:(lia)) as RP.
    split; auto. split; [|split; [exact P1|split; [exact KS|split]]].
    - intros r' BR. eapply buffers_perm; [|apply HB, BR]. apply Permutation_app_tail.
      transitivity (firstn n vs ++ skipn n vs); [now rewrite firstn_skipn|]. apply Permutation_app_tail. now symmetry.
    - rewrite app_length, map_length, seq_length, skipn_length. lia.
    - eexists. split; [reflexivity|]. split; [intros x J; rewrite in_app_iff; now left|].
      unfold reorder_values. rewrite LL, map_map. apply map_ext_in. intros i J.
      apply (Permutation_in _ (Permutation_sym PO)) in J. destruct (index_of_some _ _ J) as (j & -> & LJ).
      rewrite (Permutation_length PO), seq_length in LJ. rewrite <- EVS. change (@nil byte) with (m_read m1 sl_nil). rewrite map_nth. now rewrite nth_firstn_in.
  Qed.

  Lemma get_ok own db fl ob keys values e m rest m' keys' values' r :
    buffers (m_heap m) (keys ++ values ++ rest) -> incl rest (own ++ foreign) -> length keys <= length values ->
    m_get grow noise mt ev own db fl ob keys values e m = (m', keys', values', r) ->
    safe rest m m' /\ (forall r', buffers (m_heap m) (keys ++ values ++ r') -> buffers (m_heap m') (keys' ++ values' ++ r')) /\
    match get_keys tb ev db fl ob (map (m_read m) keys) e with
    | Ok l => exists vs, r = Ok vs /\ incl vs values' /\ map (m_read m') vs = l
    | Err x => r = Err x
    | Panic => r = Panic
    | Diverge => r = Diverge
    end.
  Proof.
    intros B I L H. apply (get_ok_cut (fun k => k) _ _ _ _ _ _ _ _ rest) in H; auto using same_refl.
    - destruct H as (S & HB & PK & _ & _ & R). split; [eapply safe_incl; [|exact S]; intros x J; rewrite in_app_iff; now right|]. split; [|exact R].
      intros r' BR. eapply buffers_perm; [apply Permutation_app_swap_app|]. apply HB. eapply buffers_perm; [|exact BR].
      rewrite Permutation_app_swap_app. now rewrite PK.
    - now rewrite map_id.
    - now apply incl_within.
  Qed.

  Lemma decode_ok own vs : forall m m' r bs, buffers (m_heap m) bs -> incl vs bs -> m_decode noise mt own vs m = (m', r) ->
    safe foreign m m' /\ r = decode_values tb (map (m_read m) vs).
  Proof.
    induction vs as [|v vs IH]; intros m m' r bs B IB H; cbn [m_decode decode_values map] in *.
    - injection H as <- <-. split; auto. apply safe_refl.
    - pose proof (stir_safe (own ++ v :: vs) m) as S0. set (m0 := stir noise (own ++ v :: vs) m) in *.
      assert (RV : forall x, In x (v :: vs) -> m_read m0 x = m_read m x).
      { intros x J. eapply safe_read; [exact S0| |exact B|now apply IB]. rewrite !in_app_iff. auto. }
      assert (SF : safe foreign m m0) by (eapply safe_incl; [|exact S0]; intros x J; rewrite !in_app_iff; now right).
      rewrite (RV v (or_introl eq_refl)) in H.
      match type of H with context [match ?o with Ok _ => _ | Err _ => _ | Panic => _ | Diverge => _ end] => set (one := o) in * end.
      assert (O2 : one = match m_read m v with [] => Ok (t_nil tb) | _ => match t_deser tb (m_read m v) (t_nil tb) with Some r => Ok r | None => Err EDeserialize end end).
      { unfold one. now destruct (m_read m v). }
      rewrite <- O2. clear O2. destruct one as [x|x| |]; try (injection H as <- <-; auto; fail).
      destruct (m_decode noise mt own vs m0) as [m1 r1] eqn:E.
      eapply IH in E; [|eapply safe_buffers; eauto|intros y J; apply IB; now right]. destruct E as [S1 E1].
      rewrite (map_ext_in (m_read m0) (m_read m) vs) in E1 by (intros y J; apply RV; now right). rewrite <- E1.
      destruct r1; injection H as <- <-; split; auto; eapply safe_trans; eauto.
  Qed.

  Lemma get_points_ok m keys values db fl ob pts m' keys' values' r :
    buffers (m_heap m) (keys ++ values ++ foreign) -> length keys = length pts -> length values = length pts ->
    m_get_points grow noise mt ev m keys values db fl ob pts = (m', keys', values', r) ->
    r = get_points tb ev db fl ob pts /\ returned foreign m m' (keys' ++ values').
  Proof.
    intros B LK LV1 H. unfold m_get_points in H. unfold get_points. destruct pts as [|p0 pts0].
    { injection H as <- <- <- <-. split; auto. apply safe_returned; [apply safe_refl|]. now rewrite <- app_assoc. }
    set (pts := p0 :: pts0) in *. assert (PP : 0 < length pts) by (cbn; lia). cbv zeta in H.
    assert (ONE : forall St (f : list T -> St -> St * res unit) s, batched pts (length pts) f s = match f pts s with (s', Ok _) => (s', Ok tt) | r => r end).
    { intros St f s. unfold batched. destruct (length pts) as [|n] eqn:LN; [lia|]. rewrite <- LN. cbn [batched_loop]. cbn [Nat.mul].
      destruct (Nat.ltb_spec 0 (length pts)); [|lia]. cbn [plus]. rewrite Nat.ltb_irrefl, Nat.sub_0_r. cbn [skipn]. rewrite firstn_all.
      destruct (f pts s) as [s' [u| | |]]; auto. rewrite LN. cbn [batched_loop]. rewrite <- LN at 1. rewrite Nat.mul_1_l, Nat.ltb_irrefl. reflexivity. }
    rewrite ONE. clear ONE.
    destruct (m_keys_external grow noise mt values pts [] keys m) as [m1 oks] eqn:E.
    eapply (keys_external_ok _ _ (values ++ foreign)) in E; [|exact B|apply incl_refl|lia].
    destruct E as (ks & -> & S1 & LKS & HB & RK). cbn [length plus app map] in LKS, HB, RK.
    rewrite (firstn_all2 ks) in RK, H by lia. rewrite (skipn_all2 ks) in H by lia. rewrite app_nil_r in H || idtac.
    destruct (m_get grow noise mt ev [] db fl ob ks values false m1) as [[[m2 ks2] vs2] rg] eqn:G.
    eapply (get_ok _ _ _ _ _ _ _ _ foreign) in G; [|apply HB, B|intros x J; exact J|lia].
    destruct G as (S2 & HB2 & RG). rewrite RK in RG.
    assert (B2 : buffers (m_heap m2) (ks2 ++ vs2 ++ foreign)) by (apply HB2, HB, B).
    assert (S12 : safe foreign m m2) by (eapply safe_trans; [eapply safe_incl; [|exact S1]; intros x J; rewrite in_app_iff; now right|exact S2]).
    assert (DONE : forall mx, safe foreign m2 mx -> returned foreign m mx ((ks2 ++ []) ++ vs2)).
    { intros mx SX. apply safe_returned; [eapply safe_trans; eauto|]. rewrite app_nil_r, <- app_assoc. eapply safe_buffers; [exact SX|exact B2]. }
    destruct (get_keys tb ev db fl ob (map (data_key tb) pts) false) as [l|x| |].
    - destruct RG as (vs & -> & IV & RV). destruct (m_decode noise mt [] vs m2) as [m3 rd] eqn:D.
      eapply decode_ok in D; [|exact B2|intros x J; rewrite !in_app_iff; right; left; now apply IV]. destruct D as [S3 ->]. rewrite RV in *.
      injection H as <- <- <- <-. split; [|now apply DONE]. now destruct (decode_values tb l).
    - subst rg. injection H as <- <- <- <-. split; auto. apply DONE, safe_refl.
    - subst rg. injection H as <- <- <- <-. split; auto. apply DONE, safe_refl.
    - subst rg. injection H as <- <- <- <-. split; auto. apply DONE, safe_refl.
  Qed.
End Calls.

(** ** Whole calls *)
Section Whole.
  Variable grow : nat -> nat -> nat.
  Variable noise : list (heap byte) -> list slc -> heap byte -> heap byte.
  Variable foreign : list slc.
  Context {T F : Type}.
  Variable mt : mtable T F.
  Variable ev : env T.
  Notation tb := (mt_val mt).

  Lemma sim_start vb extra m keys w : buffers (m_heap m) (extra ++ vb :: keys ++ foreign) ->
    sim (T:=T) (F:=F) foreign vb extra (MSt m keys vb w) w (MSt m keys vb w).
  Proof. intros B. split; [constructor; exact B|]. split; auto. split; auto. apply safe_refl. Qed.

  Lemma sim_back vb extra st0 w st : sim (T:=T) (F:=F) foreign vb extra st0 w st ->
    ms_w st = w /\ returned foreign (ms_mem st0) (ms_mem st) (extra ++ vb :: ms_keys st).
  Proof. intros ([_ B] & W & _ & S). split; auto. apply safe_returned; auto. rewrite <- app_assoc. exact B. Qed.

  Lemma mem_insert m ib vb keys db fl ob trs st out : leaves noise foreign -> implements mt -> env_ok ev ->
    buffers (m_heap m) (ib :: vb :: keys ++ foreign) -> length keys = Nat.min (length trs) (e_chunk ev) ->
    m_insert grow noise mt ev m ib vb keys db fl ob trs = (st, out) ->
    out = insert tb ev db fl ob trs /\ returned foreign m (ms_mem st) (ib :: vb :: ms_keys st).
  Proof.
    intros LV IM EV B LK H. unfold m_insert in H.
    destruct (batched trs (e_chunk ev) _ _) as [st1 r] eqn:E. injection H as <- <-.
    eapply (batched_sim (sim foreign vb [ib] (MSt m keys vb (m_start mt fl ob))) trs (e_chunk ev) _ (insert_chunk tb ev db (given_rw ob))) in E;
      [|apply (env_chunk_pos ev EV)| |apply sim_start, B].
    2:{ intros c w sa sb r' SI LC HH. eapply insert_chunk_ok in HH; eauto. cbn. lia. }
    destruct E as (w & E & SI). apply sim_back in SI. destruct SI as [-> R]. split; [|exact R].
    unfold insert. apply finish_eq. exact E.
  Qed.

  Lemma mem_update m ib ib2 vb keys db fl ob trs st out : leaves noise foreign -> implements mt -> env_ok ev ->
    buffers (m_heap m) (ib :: ib2 :: vb :: keys ++ foreign) -> length keys = Nat.min (length trs) (e_chunk ev) ->
    m_update grow noise mt ev m ib ib2 vb keys db fl ob trs = (st, out) ->
    out = update tb ev db fl ob trs /\ returned foreign m (ms_mem st) (ib :: ib2 :: vb :: ms_keys st).
  Proof.
    intros LV IM EV B LK H. unfold m_update in H.
    destruct (batched trs (e_chunk ev) _ _) as [st1 r] eqn:E. injection H as <- <-.
    eapply (batched_sim (sim foreign vb [ib; ib2] (MSt m keys vb (m_start mt fl ob))) trs (e_chunk ev) _ (update_chunk tb ev db (given_rw ob))) in E;
      [|apply (env_chunk_pos ev EV)| |apply sim_start, B].
    2:{ intros c w sa sb r' SI LC HH. eapply update_chunk_ok in HH; eauto. cbn. lia. }
    destruct E as (w & E & SI). apply sim_back in SI. destruct SI as [-> R]. split; [|exact R].
    unfold update. apply finish_eq. exact E.
  Qed.

  Lemma mem_upsert on_conflict m ib ib2 vb keys db fl ob trs st out : leaves noise foreign -> implements mt -> env_ok ev ->
    buffers (m_heap m) (ib :: ib2 :: vb :: keys ++ foreign) -> length keys = Nat.min (length trs) (e_chunk ev) ->
    m_upsert grow noise mt ev on_conflict m ib ib2 vb keys db fl ob trs = (st, out) ->
    out = upsert tb ev on_conflict db fl ob trs /\ returned foreign m (ms_mem st) (ib :: ib2 :: vb :: ms_keys st).
  Proof.
    intros LV IM EV B LK H. unfold m_upsert in H.
    destruct (batched trs (e_chunk ev) _ _) as [st1 r] eqn:E. injection H as <- <-.
    eapply (batched_sim (sim foreign vb [ib; ib2] (MSt m keys vb (m_start mt fl ob))) trs (e_chunk ev) _ (upsert_chunk tb ev on_conflict db (given_rw ob))) in E;
      [|apply (env_chunk_pos ev EV)| |apply sim_start, B].
    2:{ intros c w sa sb r' SI LC HH. eapply upsert_chunk_ok in HH; eauto. cbn. lia. }
    destruct E as (w & E & SI). apply sim_back in SI. destruct SI as [-> R]. split; [|exact R].
    unfold upsert. apply finish_eq. exact E.
  Qed.

  Lemma mem_unsafe_insert m ib vb keys db fl ob trs st out : leaves noise foreign -> implements mt -> env_ok ev ->
    buffers (m_heap m) (ib :: vb :: keys ++ foreign) -> length keys = Nat.min (length trs) (e_chunk ev) ->
    m_unsafe_insert grow noise mt ev m ib vb keys db fl ob trs = (st, out) ->
    out = unsafe_insert tb ev db fl ob trs /\ returned foreign m (ms_mem st) (ib :: vb :: ms_keys st).
  Proof.
    intros LV IM EV B LK H. unfold m_unsafe_insert in H.
    destruct (batched trs (e_chunk ev) _ _) as [st1 r] eqn:E. injection H as <- <-.
    eapply (batched_sim (sim foreign vb [ib] (MSt m keys vb (m_start mt fl ob))) trs (e_chunk ev) _ (unsafe_insert_rows tb ev)) in E;
      [|apply (env_chunk_pos ev EV)| |apply sim_start, B].
    2:{ intros c w sa sb r' SI LC HH. eapply unsafe_insert_chunk_ok in HH; eauto. cbn. lia. }
    destruct E as (w & E & SI). apply sim_back in SI. destruct SI as [-> R]. split; [|exact R].
    unfold unsafe_insert. apply finish_eq. exact E.
  Qed.

  Lemma mem_delete m kb ib db fl ob trs m' out : leaves noise foreign -> implements mt -> env_ok ev ->
    buffers (m_heap m) (kb :: ib :: foreign) -> m_delete grow noise mt ev m kb ib db fl ob trs = (m', out) ->
    out = delete tb ev db fl ob trs /\ returned foreign m m' [kb; ib].
  Proof.
    intros LV IM EV B H. unfold m_delete in H. destruct (m_delete_rows grow noise mt ev kb ib trs m _) as [m1 o] eqn:E. injection H as <- <-.
    eapply delete_rows_ok in E; eauto. destruct E as [-> S]. split; [unfold delete; now apply finish_eq|].
    apply safe_returned; auto. eapply safe_buffers; eauto.
  Qed.

  Lemma mem_unsafe_update m kb ib ib2 vb db fl ob trs olds m' vb' out : leaves noise foreign -> implements mt -> env_ok ev ->
    buffers (m_heap m) (kb :: ib :: ib2 :: vb :: foreign) ->
    m_unsafe_update grow noise mt ev m kb ib ib2 vb db fl ob trs olds = (m', vb', out) ->
    out = unsafe_update tb ev db fl ob trs olds /\ returned foreign m m' [kb; ib; ib2; vb].
  Proof.
    intros LV IM EV B H. unfold m_unsafe_update in H. unfold unsafe_update. destruct (Nat.eqb (length trs) (length olds)).
    - destruct (m_unsafe_update_rows grow noise mt ev kb ib ib2 trs olds m vb _) as [[m1 v1] o] eqn:E. injection H as <- <- <-.
      eapply unsafe_update_rows_ok in E; eauto. destruct E as [-> S]. split; [now apply finish_eq|].
      apply safe_returned; auto. eapply safe_buffers; eauto.
    - injection H as <- <- <-. split; auto. apply safe_returned; [apply safe_refl|exact B].
  Qed.

  Lemma key_twice m kb tr m1 k : leaves noise foreign -> implements mt -> buffers (m_heap m) (kb :: foreign) ->
    m_build noise (h_data_key grow mt tr) [] m kb = (m1, k) ->
    m_read m1 k = data_key tb tr /\ m_read (stir noise [k] m1) k = data_key tb tr /\
    returned foreign m m1 [kb] /\ returned foreign m (stir noise [k] m1) [kb].
  Proof.
    intros LV IM B E. eapply (build_ok noise foreign LV) in E; [|apply data_key_appends; auto|exact B|intros x J; exact J].
    destruct E as (S & HK & R). pose proof (stir_safe noise foreign LV [k] m1) as S2.
    split; [exact R|]. split; [|split].
    - transitivity (m_read m1 k); [|exact R]. eapply safe_read; [exact S2|now left|apply HK, B|now left].
    - apply safe_returned; auto. eapply safe_buffers; eauto.
    - assert (S12 : safe foreign m (stir noise [k] m1)). { eapply safe_trans; [exact S|eapply safe_incl; [|exact S2]]. intros x J. now right. }
      apply safe_returned; auto. eapply safe_buffers; [exact S12|exact B].
  Qed.

  Lemma mem_exist m kb db fl ob tr m' r : leaves noise foreign -> implements mt -> buffers (m_heap m) (kb :: foreign) ->
    m_exist grow noise mt m kb db fl ob tr = (m', r) -> r = exist tb db fl ob tr /\ returned foreign m m' [kb].
  Proof.
    intros LV IM B H. unfold m_exist in H. destruct (m_build noise _ [] m kb) as [m1 k] eqn:E.
    apply (key_twice m kb tr m1 k LV IM B) in E. destruct E as (R1 & R2 & _ & RT). rewrite R1, R2 in H. injection H as <- <-. auto.
  Qed.

  Lemma mem_get_one m kb db fl ob tr m' r : leaves noise foreign -> implements mt -> buffers (m_heap m) (kb :: foreign) ->
    m_get_one grow noise mt m kb db fl ob tr = (m', r) -> r = get_one tb db fl ob tr /\ returned foreign m m' [kb].
  Proof.
    intros LV IM B H. unfold m_get_one in H. unfold get_one. destruct (m_build noise _ [] m kb) as [m1 k] eqn:E.
    apply (key_twice m kb tr m1 k LV IM B) in E. destruct E as (R1 & R2 & RT1 & RT2). rewrite R1, R2 in H.
    destruct (negb _); injection H as <- <-; auto.
  Qed.

  Lemma mem_get_points m keys values db fl ob pts m' keys' values' r : leaves noise foreign -> implements mt -> env_ok ev ->
    buffers (m_heap m) (keys ++ values ++ foreign) -> length keys = length pts -> length values = length pts ->
    m_get_points grow noise mt ev m keys values db fl ob pts = (m', keys', values', r) ->
    r = get_points tb ev db fl ob pts /\ returned foreign m m' (keys' ++ values').
  Proof. intros LV IM EV. now apply get_points_ok. Qed.
End Whole.

(** ** Key functions made of builder calls *)

Lemma fields_append grow xs f : (forall b, exists k, add_fields (new_kb b) xs = Ok k /\ kb_buff k = f b) -> appends (h_fields grow xs) f.
Proof.
  intros HF. apply ext_appends. intros h s O. unfold h_fields.
  pose proof (b_run grow (HKB s x00) h O (map SVal xs) h (HKB s x00) [] x00 (conj (ext_refl h _ O) eq_refl)) as R.
  rewrite app_nil_r in R. cbn [hb_buff] in R.
  assert (E : map (step_value h) (map SVal xs) = xs) by (rewrite map_map; cbn; apply map_id). rewrite E in R.
  destruct (HF (sl_read h s)) as (k & HK & VK). unfold new_kb in HK. rewrite HK in R.
  destruct R as (h' & b' & v & f' & HR & -> & BE & _).
  - apply Forall_forall. intros x J. apply in_map_iff in J. destruct J as (y & <- & _). intros [].
  - apply Forall_forall. intros x J. apply in_map_iff in J. destruct J as (y & <- & _). constructor.
  - rewrite HR. exists h', (hb_buff b'), v. split; [reflexivity|]. split; [exact BE|]. now rewrite <- VK.
Qed.

Lemma nothing_appends : appends (fun h s => (h, s)) (fun b => b).
Proof. apply ext_appends. intros h s O. exists h, s, []. split; auto. split; [now apply ext_refl|now rewrite app_nil_r]. Qed.
