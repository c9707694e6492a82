(** The scans on memory do what the scans on values do, for callbacks that look at the key in time. *)

From Coq Require Import List NArith Bool Arith Lia Permutation.
From Verif.Model Require Import Bytes Go Keys Pebble Index Table Scan Slices Mem MemScan.
From Verif.Spec Require Import SliceSpec TableSpec MemSpec MemScanSpec.
From Verif.Proofs Require Import SliceFacts MemFacts MemCalls MemBounds.
Import ListNotations.

(** ** Lists of slices *)

Definition slc_dec (a b : slc) : {a = b} + {a <> b}.
Proof. decide equality; apply Nat.eq_dec. Defined.

Definition clip (s : slc) : slc := Slc (sl_arr s) (sl_off s) (sl_len s) (sl_len s).
Lemma clip_same s : same_cells s (clip s).
Proof. repeat split. Qed.

Ltac perm :=
  apply (Permutation_count_occ slc_dec); intros ?;
  repeat match goal with |- context [?a :: ?l] => lazymatch l with [] => fail | _ => change (a :: l) with ([a] ++ l) end end;
  rewrite ?map_app, ?count_occ_app; cbn [map]; rewrite ?count_occ_nil; lia.

Lemma within_nil l : within [] l.
Proof. intros x []. Qed.
Lemma within_cons a l1 l : within [a] l -> within l1 l -> within (a :: l1) l.
Proof. intros A B x [<-|J]; [apply A; now left|now apply B]. Qed.
Lemma within_app l1 l2 l : within l1 l -> within l2 l -> within (l1 ++ l2) l.
Proof. intros A B x J. apply in_app_iff in J. destruct J; auto. Qed.
Lemma within_clip l1 l : incl l1 l -> within (map clip l1) l.
Proof. intros I x J. apply in_map_iff in J. destruct J as (y & <- & J). exists y. split; auto. apply same_sym, clip_same. Qed.
Lemma within_clip1 a l : In a l -> within [clip a] l.
Proof. intros I x [<-|[]]. exists a. split; auto. apply same_sym, clip_same. Qed.
Lemma within_clipped a l1 l : In a l1 -> incl (map clip l1) l -> within [a] l.
Proof. intros I J x [<-|[]]. exists (clip a). split; [apply J, in_map, I|apply clip_same]. Qed.

Lemma in_cons_iff {A} (a : A) l x : In x (a :: l) <-> a = x \/ In x l.
Proof. reflexivity. Qed.
Lemma in_nil_iff {A} (x : A) : In x [] <-> False.
Proof. reflexivity. Qed.
Ltac inn := clear; rewrite ?map_app; cbn [map app]; repeat (rewrite in_app_iff || rewrite in_cons_iff || rewrite in_nil_iff); intuition auto.
Ltac incl_tac := clear; rewrite ?map_app; cbn [map app]; let x := fresh in intros x; repeat (rewrite in_app_iff || rewrite in_cons_iff || rewrite in_nil_iff); tauto.
Ltac win := rewrite ?map_app; cbn [map app];
  repeat match goal with
  | |- within [] _ => apply within_nil
  | |- within (_ ++ _) _ => apply within_app
  | |- within (_ :: ?l) _ => lazymatch l with [] => fail | _ => apply within_cons end
  end;
  first [apply within_clip1; inn | apply within_clip; incl_tac | apply incl_within; incl_tac].

(** A slice and the room behind it. *)
Lemma buffers_split h k r : buffers h (k :: r) -> buffers h (clip k :: sl_tail k :: r).
Proof.
  intros [A D]. inversion A as [|? ? [L O] A2]; subst. inversion D as [|? ? D1 D2]; subst.
  assert (DJ : forall t, disjoint k t -> disjoint (clip k) t /\ disjoint (sl_tail k) t).
  { intros t X. unfold disjoint in *. cbn. split; lia. }
  split.
  - constructor; [split; cbn; [lia|]|constructor; auto; split; cbn; [lia|]]; (destruct O as [O|[O1 O2]]; [left; lia|right; lia]).
  - constructor; [constructor; [unfold disjoint; cbn; lia|]|constructor; auto]; (eapply Forall_impl; [|exact D1]); intros t X; now apply DJ in X.
Qed.

Lemma data_key_res k raw : (exists d, to_data_key_bytes k raw = Ok d) \/ to_data_key_bytes k raw = Panic.
Proof.
  unfold to_data_key_bytes. destruct k as [|t k]; auto. destruct (slice _ 2 6); auto. destruct (slice _ (6 + _) _); auto. destruct (slice _ (10 + _ + _) _); eauto.
Qed.

Section Scan.
  Variable grow : nat -> nat -> nat.
  Variable noise : list (heap byte) -> list slc -> heap byte -> heap byte.
  Variable foreign : list slc.
  Hypothesis LV : leaves noise foreign.
  Context {T F : Type}.
  Variable mt : mtable T F.
  Variable ev : env T.
  Hypothesis IM : implements mt.
  Hypothesis EV : env_ok ev.
  Notation tb := (mt_val mt).

  (** ** One call of a callback *)
  Section Run.
    Context {W St V : Type}.
    Variable at_ : St -> mem.
    Variable put : mem -> St -> St.
    Variable hold : St -> list slc.
    Variable get : St -> St * res T.
    Variable vget : V -> V * res T.
    Variable b : bytes.
    Variable s : slc.
    Variable R R' : St -> V -> Prop.
    Variable bad : St -> Prop.
    Hypothesis Rread : forall st v, R st v -> m_read (at_ st) s = b.
    Hypothesis Rstir : forall st v, R st v -> R (put (stir noise (hold st) (at_ st)) st) v.
    Hypothesis Rget : forall st v st' r, R st v -> get st = (st', r) ->
      exists v', vget v = (v', r) /\ match r with Panic | Diverge => bad st' | _ => R' st' v' end.

    Lemma run_first p q : looks_first b s p q -> forall st v st' (r : res (W * bool * option error)), R st v -> run_mprog noise at_ put hold get q st = (st', r) ->
      exists v', run_prog vget p v = (v', r) /\ match r with Ok _ => R st' v' \/ R' st' v' | Err _ => False | _ => bad st' end.
    Proof.
      induction 1 as [w c e|p k H IH|p k H]; intros st v st' r HR E; cbn [run_mprog run_prog] in *.
      - injection E as <- <-. eauto.
      - pose proof (Rstir _ _ HR) as HR2. rewrite (Rread _ _ HR2) in E. eauto.
      - destruct (get st) as [st1 x] eqn:G. destruct (Rget _ _ _ _ HR G) as (v1 & -> & B). destruct (H x) as (w & c & e & -> & K). rewrite K in E.
        destruct x; cbn [run_mprog run_prog] in *; injection E as <- <-; eauto.
    Qed.

    Hypothesis Rkept : forall st v, R' st v -> R st v.
    Lemma run_any p q : looks_any_time b s p q -> forall st v st' (r : res (W * bool * option error)), R st v -> run_mprog noise at_ put hold get q st = (st', r) ->
      exists v', run_prog vget p v = (v', r) /\ match r with Ok _ => R st' v' | Err _ => False | _ => bad st' end.
    Proof.
      induction 1 as [w c e|p k H IH|p k H IH]; intros st v st' r HR E; cbn [run_mprog run_prog] in *.
      - injection E as <- <-. eauto.
      - pose proof (Rstir _ _ HR) as HR2. rewrite (Rread _ _ HR2) in E. eauto.
      - destruct (get st) as [st1 x] eqn:G. destruct (Rget _ _ _ _ HR G) as (v1 & -> & B).
        destruct x; try (injection E as <- <-; eauto); eauto.
    Qed.
  End Run.

  Section Loop.
    Context {W : Type}.
    Variable fm : W -> slc -> mprog T W.
    Variable fv : W -> bytes -> prog (T:=T) W.
    Variable open : bytes -> bytes -> piter.
    Variable rev : bool.
    Variable m0 : mem.

    (** ** Primary scans *)
    Variable spare : list slc.

    Record pinv (m : mem) (it : miter) : Prop := {
      pv_buf : buffers (m_heap m) (mi_key it :: sides (mi_bounds it) ++ spare ++ foreign);
      pv_safe : safe foreign m0 m
    }.
    Record pgood (m : mem) (it : miter) : Prop := {
      pg_inv : pinv m it;
      pg_tied : tied m it;
      pg_key : m_read m (mi_key it) = bi_key (mi_it it)
    }.

    Lemma pgood_safe m m' it : pgood m it -> safe (mi_key it :: sides (mi_bounds it) ++ foreign) m m' -> pgood m' it.
    Proof.
      intros [[B S] TI K] SS. split; [split|..].
      - eapply safe_buffers; eauto.
      - eapply safe_trans; [exact S|]. eapply safe_incl; [|exact SS]. incl_tac.
      - eapply tied_safe; [exact TI|eapply safe_incl; [|exact SS]; incl_tac|exact B|incl_tac].
      - rewrite <- K. eapply safe_read; [exact SS|now left|exact B|now left].
    Qed.

    Lemma pnext_ok step m it m' it' : keeps_opts step -> tied m it -> pinv m it -> m_move grow noise [] step m it = (m', it') ->
      pgood m' it' /\ mi_it it' = step (mi_it it).
    Proof.
      intros KO TI [B S] H. apply (move_ok grow noise foreign LV _ _ _ _ _ _ foreign) in H; auto.
      - destruct H as (S1 & HK & E1 & E2 & T2 & K2). split; auto. split; auto. split; [rewrite E1; apply HK, B|].
        eapply safe_trans; [exact S|]. eapply safe_incl; [|exact S1]. incl_tac.
      - eapply buffers_part with (l2 := spare); [|exact B]. perm.
      - apply incl_within. incl_tac.
    Qed.

    Hypothesis LA : forall w b s, looks_any_time b s (fv w b) (fm w s).

    Lemma primary_ok : forall fuel n m it s m' it' out, pgood m it ->
      m_primary_loop grow noise mt ev fm open rev fuel n m it s = (m', it', out) ->
      primary_loop tb ev fv open rev fuel n (mi_it it) s = out /\ pinv m' it'.
    Proof.
      induction fuel as [|fuel IH]; intros n m it s m' it' out G H; cbn [m_primary_loop primary_loop] in *; pose proof (pg_inv _ _ G) as G0.
      - destruct (bi_valid (mi_it it)); injection H as <- <- <-; auto.
      - destruct (bi_valid (mi_it it)); [|injection H as <- <- <-; auto].
        destruct (e_ctx ev n); [injection H as <- <- <-; auto|].
        destruct (run_mprog noise mp_mem (fun m st => MPst m (mp_it st)) mp_hold (m_get_value noise mt) (fm s (mi_key it)) (MPst m it)) as [st r] eqn:E.
        set (R := fun (st : mpst) (v : biter) => pgood (mp_mem st) (mp_it st) /\ mp_it st = it /\ v = mi_it it).
        assert (ST : forall st v, R st v -> R (MPst (stir noise (mp_hold st) (mp_mem st)) (mp_it st)) v).
        { intros [m1 it1] v (G1 & E1 & E2). cbn in *. split; auto. cbn. eapply pgood_safe; [exact G1|]. apply (stir_safe_within noise foreign LV). unfold mp_hold. cbn [mp_it mp_mem]. win. }
        destruct (run_any (W:=W) mp_mem (fun m st => MPst m (mp_it st)) mp_hold (m_get_value noise mt) (get_value_of tb) (bi_key (mi_it it)) (mi_key it) R R
          (fun st => pinv (mp_mem st) (mp_it st))) with (p := fv s (bi_key (mi_it it))) (q := fm s (mi_key it)) (st := MPst m it) (v := mi_it it) (st' := st) (r := r)
          as (v' & RP & X); auto.
        + intros [m1 it1] v (G1 & E1 & E2). cbn in *. subst it1. apply (pg_key _ _ G1).
        + intros st1 v st2 x HR GV. unfold m_get_value in GV. apply pair_equal_spec in GV. destruct GV as [<- <-].
          pose proof (ST _ _ HR) as HR2. exists v. destruct HR as (_ & E1 & E2). unfold get_value_of. rewrite E2, E1. split; auto.
          destruct (t_deser tb (bi_value (mi_it it)) (t_nil tb)); rewrite <- E1 at 1; subst v; exact HR2.
        + now split.
        + rewrite RP.
          destruct r as [[[s' c] oe]|e| |]; try contradiction; try (injection H as <- <- <-; auto).
          destruct X as (G1 & E1 & ->). rewrite <- E1.
          destruct c, oe as [e|]; try (injection H as <- <- <-; split; [reflexivity|apply (pg_inv _ _ G1)]).
          destruct (m_next grow noise open rev [] (mp_mem st) (mp_it st)) as [m2 it2] eqn:MV. unfold m_next in MV.
          apply pnext_ok in MV; [|apply next_keeps|apply (pg_tied _ _ G1)|apply (pg_inv _ _ G1)]. destruct MV as [G2 E2].
          apply IH in H; auto. rewrite E2 in H. exact H.
    Qed.
  End Loop.

  Section Second.
    Context {W : Type}.
    Variable fm : W -> slc -> mprog T W.
    Variable fv : W -> bytes -> prog (T:=T) W.
    Variable open : bytes -> bytes -> piter.
    Variable rev : bool.
    Variable m0 : mem.
    Variable mkb : slc.

    (** ** Secondary scans *)

    Record minv (st : msst) : Prop := {
      mv_buf : buffers (m_heap (mx_mem st)) (mkb :: mi_key (mx_it st) :: sides (mi_bounds (mx_it st)) ++ mx_vals st ++ foreign);
      mv_safe : safe foreign m0 (mx_mem st)
    }.

    (** The state on memory shows the state on values; [front] is the rest of the shared buffer while keys are collected. *)
    Record sinv (front : list slc) (st : msst) (v : sst) : Prop := {
      sv_minv : minv st;
      sv_buf : buffers (m_heap (mx_mem st)) (front ++ map clip (mx_ikeys st ++ mx_keys st) ++ mi_key (mx_it st) :: sides (mi_bounds (mx_it st)) ++ mx_vals st ++ foreign);
      sv_tied : tied (mx_mem st) (mx_it st);
      sv_key : m_read (mx_mem st) (mi_key (mx_it st)) = bi_key (mi_it (mx_it st));
      sv_it : mi_it (mx_it st) = ss_it v;
      sv_keys : map (m_read (mx_mem st)) (mx_keys st) = ss_keys v;
      sv_ikeys : map (m_read (mx_mem st)) (mx_ikeys st) = ss_ikeys v;
      sv_got : map (m_read (mx_mem st)) (mx_got st) = ss_vals v;
      sv_vi : mx_vi st = ss_vi v;
      sv_incl : incl (mx_got st) (mx_vals st);
      sv_len : length (mx_vals st) = t_prefetch tb
    }.

    (** Memory changed, but not what the scan holds. *)
    Definition covers (st : msst) (l : list slc) : Prop :=
      within (map clip (mx_ikeys st ++ mx_keys st) ++ mi_key (mx_it st) :: sides (mi_bounds (mx_it st)) ++ mx_vals st ++ foreign) l.

    Lemma sinv_reads front st v l m' s : sinv front st v -> covers st l -> safe l (mx_mem st) m' ->
      In s (mi_key (mx_it st) :: mx_ikeys st ++ mx_keys st ++ mx_vals st ++ sides (mi_bounds (mx_it st))) -> m_read m' s = m_read (mx_mem st) s.
    Proof.
      intros SI C S J.
      assert (X : within [s] (map clip (mx_ikeys st ++ mx_keys st) ++ mi_key (mx_it st) :: sides (mi_bounds (mx_it st)) ++ mx_vals st ++ foreign)).
      { rewrite in_cons_iff, !in_app_iff in J. destruct J as [<-|[J|[J|[J|J]]]].
        - apply incl_within. incl_tac.
        - eapply within_clipped; [|apply incl_appl, incl_refl]. rewrite in_app_iff; now left.
        - eapply within_clipped; [|apply incl_appl, incl_refl]. rewrite in_app_iff; now right.
        - intros x [<-|[]]. exists s. split; [|apply same_refl]. revert J. clear. rewrite !in_app_iff, in_cons_iff, !in_app_iff. tauto.
        - intros x [<-|[]]. exists s. split; [|apply same_refl]. revert J. clear. rewrite !in_app_iff, in_cons_iff, !in_app_iff. tauto. }
      eapply safe_cells; [exact S|eapply within_trans; [exact X|exact C]|exact (sv_buf _ _ _ SI)|].
      eapply within_trans; [exact X|]. apply incl_within. incl_tac.
    Qed.

    Lemma sinv_safe front st v l m' : sinv front st v -> covers st l -> safe l (mx_mem st) m' -> sinv front (mx_put m' st) v.
    Proof.
      intros SI C S. pose proof (fun x => sinv_reads _ _ _ _ _ x SI C S) as RD. destruct SI as [[MB MS] B TI K IT KS IKS GT VI IG LN].
      assert (MAP : forall l0, incl l0 (mi_key (mx_it st) :: mx_ikeys st ++ mx_keys st ++ mx_vals st ++ sides (mi_bounds (mx_it st))) -> map (m_read m') l0 = map (m_read (mx_mem st)) l0).
      { intros l0 I. apply map_ext_in. intros x J. apply RD. now apply I. }
      constructor; cbn [mx_put mx_mem mx_it mx_keys mx_ikeys mx_vals mx_got mx_vi]; auto.
      - split; cbn [mx_put mx_mem mx_it mx_vals]; [eapply safe_buffers; eauto|]. eapply safe_trans; [exact MS|]. eapply safe_within; [|exact S].
        eapply within_trans; [|exact C]. apply incl_within. incl_tac.
      - eapply safe_buffers; eauto.
      - eapply tied_safe; [exact TI| |exact MB|incl_tac]. eapply safe_within; [|exact S]. eapply within_trans; [|exact C]. apply incl_within. incl_tac.
      - rewrite RD; auto. now left.
      - rewrite MAP; auto. incl_tac.
      - rewrite MAP; auto. incl_tac.
      - rewrite MAP; auto. intros x J. apply IG in J. revert J. clear. rewrite in_cons_iff, !in_app_iff. tauto.
    Qed.

    Lemma stir_sinv st v : sinv [] st v -> sinv [] (mx_put (stir noise (mx_hold mkb st) (mx_mem st)) st) v.
    Proof.
      intros SI. eapply sinv_safe; [exact SI| |apply (stir_safe noise foreign LV)]. unfold covers, mx_hold, mx_rest. win.
    Qed.

    (** getPrefetchedValue *)
    Lemma get_prefetched_ok st v st' r : sinv [] st v -> m_get_prefetched noise mt mkb st = (st', r) ->
      exists v', get_prefetched tb v = (v', r) /\ sinv [] st' v' /\ mx_ikeys st' = mx_ikeys st.
    Proof.
      intros SI H. apply stir_sinv in SI. unfold m_get_prefetched in H. set (st1 := mx_put (stir noise (mx_hold mkb st) (mx_mem st)) st) in *.
      change (mx_ikeys st) with (mx_ikeys st1). clearbody st1. unfold get_prefetched. rewrite <- (sv_got _ _ _ SI), <- (sv_vi _ _ _ SI), nth_error_map.
      destruct (nth_error (mx_got st1) (mx_vi st1)) as [x|]; cbn [option_map]; [|injection H as <- <-; eauto].
      destruct (t_deser tb (m_read (mx_mem st1) x) (t_nil tb)) as [y|]; injection H as <- <-; eexists; (split; [reflexivity|]); split; auto.
      destruct SI as [[MB MS] B TI K IT KS IKS GT VI IG LN]. split; cbn; auto. now split.
    Qed.

    (** The keys collected so far, one more, and the buffer behind it. *)
    Lemma add_key_ok nb front st v bs h k : sinv (nb :: front) st v -> sl_append grow x00 (m_heap (mx_mem st)) (sl_reset nb) bs = (h, k) ->
      let m' := Mem h (m_past (mx_mem st)) in
      safe (map clip (mx_ikeys st ++ mx_keys st) ++ mi_key (mx_it st) :: sides (mi_bounds (mx_it st)) ++ mx_vals st ++ foreign) (mx_mem st) m' /\
      buffers h (clip k :: sl_tail k :: front ++ map clip (mx_ikeys st ++ mx_keys st) ++ mi_key (mx_it st) :: sides (mi_bounds (mx_it st)) ++ mx_vals st ++ foreign) /\
      m_read m' k = bs.
    Proof.
      intros SI AP. cbv zeta. eapply append_ok in AP; [|exact (sv_buf _ _ _ SI)]. destruct AP as (S & H & R). split; [|split; [|exact R]].
      - eapply safe_incl; [|exact S]. cbn [app]. intros x J. rewrite in_app_iff. now right.
      - apply buffers_split. apply (H _ (sv_buf _ _ _ SI)).
    Qed.

    Lemma collect_ok : forall n nb st v st' r, sinv [nb] st v -> m_collect grow noise open rev mkb n nb st = (st', r) ->
      exists v', collect open rev n v = (v', r) /\ mx_vals st' = mx_vals st /\
        match r with Ok _ => exists nb', sinv [nb'] st' v' /\ length (mx_keys st') <= length (mx_keys st) + Nat.max 1 n | Err _ => False | _ => minv st' end.
    Proof.
      intros n. induction n as [n IH] using lt_wf_ind. intros nb st v st' r SI H.
      assert (UM : m_collect grow noise open rev mkb n nb st =
        if bi_valid (mi_it (mx_it st)) then
          let it := mx_it st in
          let m := mx_mem st in
          let iter_key := m_read m (mi_key it) in
          let '(h, index_key) := sl_append grow x00 (m_heap m) (sl_reset nb) iter_key in
          let nb := sl_tail index_key in
          let st := MSst (Mem h (m_past m)) it (mx_keys st) (mx_ikeys st ++ [index_key]) (mx_vals st) (mx_got st) (mx_vi st) in
          match to_data_key_bytes (m_read (mx_mem st) (mi_key it)) [] with
          | Ok dk =>
              let '(h, key) := sl_append grow x00 h (sl_reset nb) dk in
              let nb := sl_tail key in
              let st := MSst (Mem h (m_past m)) it (mx_keys st ++ [key]) (mx_ikeys st) (mx_vals st) (mx_got st) (mx_vi st) in
              let st := mx_put (stir noise (nb :: mx_hold mkb st) (mx_mem st)) st in
              match n with
              | S (S _ as n') =>
                  let '(m, it) := m_next grow noise open rev (nb :: mx_rest mkb st) (mx_mem st) it in
                  m_collect grow noise open rev mkb n' nb (MSst m it (mx_keys st) (mx_ikeys st) (mx_vals st) (mx_got st) (mx_vi st))
              | _ => (st, Ok tt)
              end
          | Err e => (st, Err e)
          | Panic => (st, Panic)
          | Diverge => (st, Diverge)
          end
        else (st, Ok tt)) by (destruct n; reflexivity).
      rewrite UM in H. clear UM.
      assert (UV : collect open rev n v =
        if bi_valid (ss_it v) then
          let k := bi_key (ss_it v) in
          match to_data_key_bytes k [] with
          | Ok dk =>
              let st1 := Sst (ss_it v) (ss_keys v ++ [dk]) (ss_ikeys v ++ [k]) (ss_vals v) (ss_vi v) in
              match n with
              | S (S _ as n') => collect open rev n' (Sst (scan_next open rev (ss_it st1)) (ss_keys st1) (ss_ikeys st1) (ss_vals st1) (ss_vi st1))
              | _ => (st1, Ok tt)
              end
          | Err e => (v, Err e)
          | Panic => (v, Panic)
          | Diverge => (v, Diverge)
          end
        else (v, Ok tt)) by (destruct n; reflexivity).
      rewrite UV. clear UV. rewrite <- (sv_it _ _ _ SI).
      destruct (bi_valid (mi_it (mx_it st))).
      2:{ injection H as <- <-. exists v. split; auto. split; auto. exists nb. split; auto. lia. }
      cbv zeta in H. rewrite (sv_key _ _ _ SI) in H. set (ik := bi_key (mi_it (mx_it st))) in *.
      destruct (sl_append grow x00 (m_heap (mx_mem st)) (sl_reset nb) ik) as [h1 k1] eqn:A1.
      pose proof (add_key_ok _ _ _ _ _ _ _ SI A1) as X. cbv zeta in X. destruct X as (S1 & B1 & R1). cbn [app] in B1.
      set (m1 := Mem h1 (m_past (mx_mem st))) in *.
      assert (SI1 : sinv [sl_tail k1] (MSst m1 (mx_it st) (mx_keys st) (mx_ikeys st ++ [k1]) (mx_vals st) (mx_got st) (mx_vi st))
        (Sst (ss_it v) (ss_keys v) (ss_ikeys v ++ [ik]) (ss_vals v) (ss_vi v))).
      { pose proof (sinv_safe _ _ _ _ m1 SI (incl_within _ _ (incl_refl _)) S1) as [[MB MS] B TI K IT KS IKS GT VI IG LN].
        cbn [mx_put mx_mem mx_it mx_keys mx_ikeys mx_vals mx_got mx_vi] in *.
        split; cbn [mx_mem mx_it mx_keys mx_ikeys mx_vals mx_got mx_vi ss_it ss_keys ss_ikeys ss_vals ss_vi]; auto; [now split| |].
        - eapply buffers_perm; [|exact B1]. perm.
        - rewrite map_app. cbn [map]. now rewrite IKS, R1. }
      set (st1 := MSst m1 (mx_it st) (mx_keys st) (mx_ikeys st ++ [k1]) (mx_vals st) (mx_got st) (mx_vi st)) in *.
      change (m_read (mx_mem st1) (mi_key (mx_it st))) with (m_read (mx_mem st1) (mi_key (mx_it st1))) in H.
      rewrite (sv_key _ _ _ SI1) in H. change (bi_key (mi_it (mx_it st1))) with ik in H.
      cbv zeta; fold ik. destruct (data_key_res ik []) as [[dk E]|E]; rewrite E in H; rewrite E; [|injection H as <- <-; eexists; split; [reflexivity|]; split; auto; exact (sv_minv _ _ _ SI1)].
      change h1 with (m_heap (mx_mem st1)) in H.
      destruct (sl_append grow x00 (m_heap (mx_mem st1)) (sl_reset (sl_tail k1)) dk) as [h2 k2] eqn:A2.
      pose proof (add_key_ok _ _ _ _ _ _ _ SI1 A2) as X. cbv zeta in X. destruct X as (S2 & B2 & R2). cbn [app] in B2.
      change (m_past (mx_mem st1)) with (m_past (mx_mem st)) in *.
      set (m2 := Mem h2 (m_past (mx_mem st))) in *.
      set (st2 := MSst m2 (mx_it st) (mx_keys st1 ++ [k2]) (mx_ikeys st1) (mx_vals st1) (mx_got st1) (mx_vi st1)) in *.
      assert (SI2 : sinv [sl_tail k2] st2 (Sst (ss_it v) (ss_keys v ++ [dk]) (ss_ikeys v ++ [ik]) (ss_vals v) (ss_vi v))).
      { pose proof (sinv_safe _ _ _ _ m2 SI1 (incl_within _ _ (incl_refl _)) S2) as [[MB MS] B TI K IT KS IKS GT VI IG LN].
        cbn [mx_put mx_mem mx_it mx_keys mx_ikeys mx_vals mx_got mx_vi st1 ss_it ss_keys ss_ikeys ss_vals ss_vi] in *.
        split; cbn [mx_mem mx_it mx_keys mx_ikeys mx_vals mx_got mx_vi ss_it ss_keys ss_ikeys ss_vals ss_vi st2 st1]; auto; [now split| |].
        - eapply buffers_perm; [|exact B2]. perm.
        - rewrite map_app. cbn [map]. now rewrite KS, R2. }
      assert (SI3 : sinv [sl_tail k2] (mx_put (stir noise (sl_tail k2 :: mx_hold mkb st2) (mx_mem st2)) st2) (Sst (ss_it v) (ss_keys v ++ [dk]) (ss_ikeys v ++ [ik]) (ss_vals v) (ss_vi v))).
      { eapply sinv_safe; [exact SI2| |apply (stir_safe noise foreign LV)]. unfold covers, mx_hold, mx_rest. win. }
      set (st3 := mx_put (stir noise (sl_tail k2 :: mx_hold mkb st2) (mx_mem st2)) st2) in *.
      assert (V3 : mx_vals st3 = mx_vals st) by reflexivity.
      assert (L3 : length (mx_keys st3) = S (length (mx_keys st))) by (change (mx_keys st3) with (mx_keys st ++ [k2]); rewrite app_length; cbn; lia).
      change (mx_it st) with (mx_it st3) in H. rewrite (sv_it _ _ _ SI).
      clearbody st3. clear SI1 SI2 S1 S2 B1 B2 R1 R2 A1 A2 E. destruct n as [|[|n]];
        [injection H as <- <-; eexists; split; [reflexivity|]; split; auto; exists (sl_tail k2); split; auto; lia ..|].
      cbn [ss_it ss_keys ss_ikeys ss_vals ss_vi].
      destruct (m_next grow noise open rev (sl_tail k2 :: mx_rest mkb st3) (mx_mem st3) (mx_it st3)) as [m4 it4] eqn:MV. unfold m_next in MV.
      pose proof SI3 as [[MB MS] B TI K IT KS IKS GT VI IG LN]. cbn [ss_it ss_keys ss_ikeys ss_vals ss_vi] in *.
      apply (move_ok grow noise foreign LV _ _ _ _ _ _ (sl_tail k2 :: map clip (mx_ikeys st3 ++ mx_keys st3) ++ mx_vals st3 ++ foreign)) in MV; auto using next_keeps.
      2:{ eapply buffers_perm; [|exact B]. perm. }
      2:{ unfold mx_rest. win. }
      destruct MV as (S4 & HK & E1 & E2 & T4 & K4).
      apply (IH (S n)) with (v := Sst (scan_next open rev (ss_it v)) (ss_keys v ++ [dk]) (ss_ikeys v ++ [ik]) (ss_vals v) (ss_vi v)) in H; [|lia|].
      { destruct H as (v' & C & VV & X). exists v'. split; auto. cbn [mx_vals] in VV. split; [congruence|]. destruct r; auto. destruct X as (nb' & SI' & LE).
        exists nb'. split; auto. cbn [mx_keys] in LE. lia. }
      assert (RD : forall l0, incl l0 (mx_ikeys st3 ++ mx_keys st3 ++ mx_vals st3) -> map (m_read m4) l0 = map (m_read (mx_mem st3)) l0).
      { intros l0 I. apply map_ext_in. intros x J. apply I in J.
        assert (XW : within [x] (map clip (mx_ikeys st3 ++ mx_keys st3) ++ mx_vals st3)).
        { rewrite !in_app_iff in J. destruct J as [J|[J|J]].
          - eapply within_clipped; [|apply incl_appl, incl_refl]. rewrite in_app_iff; now left.
          - eapply within_clipped; [|apply incl_appl, incl_refl]. rewrite in_app_iff; now right.
          - intros y [<-|[]]. exists x. split; [|apply same_refl]. rewrite in_app_iff. now right. }
        eapply safe_cells; [exact S4| |exact B|]; (eapply within_trans; [exact XW|]; apply incl_within; incl_tac). }
      split; cbn [mx_mem mx_it mx_keys mx_ikeys mx_vals mx_got mx_vi ss_it ss_keys ss_ikeys ss_vals ss_vi]; auto.
      - split; cbn [mx_mem mx_it mx_vals].
        + rewrite E1. eapply buffers_perm; [apply perm_swap|]. apply HK. eapply buffers_perm; [|exact MB]. perm.
        + eapply safe_trans; [exact MS|]. eapply safe_incl; [|exact S4]. incl_tac.
      - rewrite E1. eapply buffers_perm; [|apply (HK (sl_tail k2 :: map clip (mx_ikeys st3 ++ mx_keys st3) ++ sides (mi_bounds (mx_it st3)) ++ mx_vals st3 ++ foreign))]; [perm|].
        eapply buffers_perm; [|exact B]. perm.
      - rewrite E2. now f_equal.
      - rewrite RD; auto. incl_tac.
      - rewrite RD; auto. incl_tac.
      - rewrite RD; auto. intros x J. apply IG in J. rewrite !in_app_iff. auto.
    Qed.

    (** prefetchAndGetValue *)
    Lemma prefetch_ok db fl ob st v st' r : 0 < t_prefetch tb -> sinv [] st v -> mx_keys st = [] -> mx_ikeys st = [] ->
      m_prefetch_and_get grow noise mt ev open rev mkb db fl ob st = (st', r) ->
      exists v', prefetch_and_get tb ev open rev db fl ob v = (v', r) /\ match r with Panic | Diverge => minv st' | _ => sinv [] st' v' end.
    Proof.
      intros PF SI K0 IK0 H. unfold m_prefetch_and_get in H. unfold prefetch_and_get.
      assert (SM : sinv [mkb] st v).
      { destruct SI as [[MB MS] B TI K IT KS IKS GT VI IG LN]. split; auto; [now split|]. rewrite K0, IK0. exact MB. }
      assert (LK : length (ss_keys v) = 0) by (rewrite <- (sv_keys _ _ _ SI), K0; reflexivity).
      rewrite LK, Nat.sub_0_r. rewrite K0 in H. cbn [length] in H. rewrite Nat.sub_0_r in H.
      destruct (m_collect grow noise open rev mkb (t_prefetch tb) mkb st) as [st1 r1] eqn:C. apply (collect_ok _ _ _ _ _ _ SM) in C.
      destruct C as (v1 & -> & VV & X).
      destruct r1 as [u|e| |]; try contradiction; try (injection H as <- <-; eexists; split; [reflexivity|exact X]).
      destruct X as (nb & S1 & LE). rewrite K0 in LE. cbn [length] in LE.
      assert (S1' : sinv [] st1 v1).
      { destruct S1 as [MI B TI K IT KS IKS GT VI IG LN]. split; auto. eapply buffers_tl. exact B. }
      clear S1. rename S1' into S1. pose proof S1 as [[MB MS] B TI K IT KS IKS GT VI IG LN]. cbn [app] in B.
      destruct (m_get grow noise mt ev (mi_key (mx_it st1) :: sides (mi_bounds (mx_it st1)) ++ mkb :: mx_ikeys st1) db fl ob (mx_keys st1) (mx_vals st1) true (mx_mem st1))
        as [[[m2 keys'] vals'] r2] eqn:G.
      apply (get_ok_cut grow noise foreign LV mt ev EV clip _ _ _ _ _ _ _ _ (map clip (mx_ikeys st1) ++ mi_key (mx_it st1) :: sides (mi_bounds (mx_it st1)) ++ foreign)) in G;
        [|exact clip_same|eapply buffers_perm; [|exact B]; perm|win|lia].
      destruct G as (S2 & HB & PK & KV & LV2 & R2). rewrite KS in R2, KV.
      assert (GI : get_into tb ev db fl ob (ss_keys v1) = get_keys tb ev db fl ob (ss_keys v1) true).
      { unfold get_into. assert (LX : length (ss_keys v1) <= t_prefetch tb) by (rewrite <- KS, map_length; lia). apply Nat.leb_le in LX. now rewrite LX. }
      rewrite GI. clear GI.
      assert (MV : forall got, minv (MSst m2 (mx_it st1) keys' (mx_ikeys st1) vals' got (mx_vi st1))).
      { intros got. split; cbn [mx_mem mx_it mx_vals].
        - eapply buffers_perm; [|apply (HB (mkb :: mi_key (mx_it st1) :: sides (mi_bounds (mx_it st1)) ++ foreign))]; [perm|]. eapply buffers_perm; [|exact MB]. perm.
        - eapply safe_trans; [exact MS|]. eapply safe_incl; [|exact S2]. incl_tac. }
      assert (RD : forall x, In x (mx_ikeys st1 ++ keys') -> m_read m2 x = m_read (mx_mem st1) x).
      { intros x J. assert (XW : within [x] (map clip (mx_ikeys st1 ++ mx_keys st1))).
        { eapply within_clipped; [|apply incl_refl]. rewrite in_app_iff in *. destruct J as [J|J]; [now left|right]. eapply Permutation_in; eauto. }
        eapply safe_cells; [exact S2| |exact B|]; (eapply within_trans; [exact XW|]; apply incl_within; incl_tac). }
      assert (NEW : forall got vs, incl got vals' -> map (m_read m2) got = vs ->
        sinv [] (MSst m2 (mx_it st1) keys' (mx_ikeys st1) vals' got (mx_vi st1)) (Sst (ss_it v1) (left_sorted ev (ss_keys v1)) (ss_ikeys v1) vs (ss_vi v1))).
      { intros got vs IGG EG. split; cbn [mx_mem mx_it mx_keys mx_ikeys mx_vals mx_got mx_vi ss_it ss_keys ss_ikeys ss_vals ss_vi]; auto.
        - cbn [app]. assert (PC : Permutation (map clip keys') (map clip (mx_keys st1))) by now apply Permutation_map.
          eapply buffers_perm; [|apply (HB (map clip (mx_ikeys st1 ++ mx_keys st1) ++ mi_key (mx_it st1) :: sides (mi_bounds (mx_it st1)) ++ foreign))].
          + rewrite !map_app, PC. perm.
          + eapply buffers_perm; [|exact B]. perm.
        - eapply tied_safe; [exact TI|eapply safe_incl; [|exact S2]; incl_tac|exact MB|incl_tac].
        - rewrite <- K. eapply safe_read; [exact S2|inn|exact MB|inn].
        - transitivity (map (m_read (mx_mem st1)) keys'); [apply map_ext_in; intros x J; apply RD; rewrite in_app_iff; now right|].
          rewrite KV. unfold left_sorted. rewrite <- KS. destruct (mx_keys st1); reflexivity.
        - rewrite <- IKS. apply map_ext_in; intros x J; apply RD; rewrite in_app_iff; now left.
        - lia. }
      destruct (get_keys tb ev db fl ob (ss_keys v1) true) as [l|x| |].
      - destruct R2 as (vs & -> & IV & EV2). destruct (get_prefetched_ok _ _ _ _ (NEW vs l IV EV2) H) as (v' & -> & SV & _). eexists. split; [reflexivity|].
        destruct r; auto; apply (sv_minv _ _ _ SV).
      - subst r2. injection H as <- <-. eexists. split; [reflexivity|]. apply NEW; auto. intros y [].
      - subst r2. injection H as <- <-. eexists. split; [reflexivity|]. apply MV.
      - subst r2. injection H as <- <-. eexists. split; [reflexivity|]. apply MV.
    Qed.

    Hypothesis LF : forall w b s, looks_first b s (fv w b) (fm w s).

    Lemma prefetched_ok : forall fuel st v s, sinv [] st v ->
      match m_prefetched_loop noise mt fm mkb fuel st s with
      | inl (st', out) => prefetched_loop tb fv fuel v s = inl out /\ minv st'
      | inr (st', s') => exists v', prefetched_loop tb fv fuel v s = inr (v', s') /\ sinv [] st' v'
      end.
    Proof.
      induction fuel as [|fuel IH]; intros st v s SI; cbn [m_prefetched_loop prefetched_loop]; rewrite <- (sv_vi _ _ _ SI), <- (sv_got _ _ _ SI), map_length.
      - destruct (Nat.ltb (mx_vi st) (length (mx_got st))); [split; auto; apply (sv_minv _ _ _ SI)|eauto].
      - destruct (Nat.ltb (mx_vi st) (length (mx_got st))); [|eauto].
        rewrite <- (sv_ikeys _ _ _ SI), nth_error_map. destruct (nth_error (mx_ikeys st) (mx_vi st)) as [k|] eqn:NK; cbn [option_map]; [|split; auto; apply (sv_minv _ _ _ SI)].
        apply nth_error_In in NK.
        destruct (run_mprog noise mx_mem mx_put (mx_hold mkb) (m_get_prefetched noise mt mkb) (fm s k) st) as [st1 r] eqn:E.
        set (b := m_read (mx_mem st) k).
        destruct (run_first (W:=W) mx_mem mx_put (mx_hold mkb) (m_get_prefetched noise mt mkb) (get_prefetched tb) b k
          (fun st v => sinv [] st v /\ In k (mx_ikeys st) /\ m_read (mx_mem st) k = b) (sinv []) minv) with (p := fv s b) (q := fm s k) (st := st) (v := v) (st' := st1) (r := r)
          as (v1 & RP & X); auto.
        + intros x y (_ & _ & Z). exact Z.
        + intros x y (Z1 & Z2 & Z3). split; [now apply stir_sinv|]. split; auto. cbn [mx_put mx_mem]. rewrite <- Z3.
          eapply sinv_reads; [exact Z1| |apply (stir_safe noise foreign LV)|]; [unfold covers, mx_hold, mx_rest; win|]. rewrite in_cons_iff, !in_app_iff. auto.
        + intros x y x' z (Z1 & _) G. destruct (get_prefetched_ok _ _ _ _ Z1 G) as (y' & -> & SY & _). eexists. split; [reflexivity|].
          destruct z; auto; apply (sv_minv _ _ _ SY).
        + rewrite RP. assert (S1 : match r with Ok _ => sinv [] st1 v1 | Err _ => False | _ => minv st1 end) by (destruct r; auto; destruct X as [[X _]|X]; auto).
          destruct r as [[[s' c] oe]|e| |]; try contradiction; auto.
          destruct c, oe as [e|]; try (split; [reflexivity|apply (sv_minv _ _ _ S1)]). apply (IH _ _ s' S1).
    Qed.

    Lemma secondary_ok db fl ob : 0 < t_prefetch tb -> forall fuel n m it vals s st' out,
      sinv [] (MSst m it [] [] vals [] 0) (Sst (mi_it it) [] [] [] 0) ->
      m_secondary_loop grow noise mt ev fm open rev mkb db fl ob fuel n m it vals s = (st', out) ->
      secondary_loop tb ev fv open rev db fl ob fuel n (mi_it it) s = out /\ minv st'.
    Proof.
      intros PF. induction fuel as [|fuel IH]; intros n m it vals s st' out SI H; cbn [m_secondary_loop secondary_loop] in *; pose proof (sv_minv _ _ _ SI) as MI.
      - destruct (bi_valid (mi_it it)); injection H as <- <-; auto.
      - destruct (bi_valid (mi_it it)); [|injection H as <- <-; auto].
        destruct (e_ctx ev n); [injection H as <- <-; auto|].
        set (st := MSst m it [] [] vals [] 0) in *. set (v := Sst (mi_it it) [] [] [] 0) in *.
        destruct (run_mprog noise mx_mem mx_put (mx_hold mkb) (m_prefetch_and_get grow noise mt ev open rev mkb db fl ob) (fm s (mi_key it)) st) as [st1 r] eqn:E.
        set (b := bi_key (mi_it it)) in *.
        destruct (run_first (W:=W) mx_mem mx_put (mx_hold mkb) (m_prefetch_and_get grow noise mt ev open rev mkb db fl ob) (prefetch_and_get tb ev open rev db fl ob) b (mi_key it)
          (fun st v => sinv [] st v /\ mx_keys st = [] /\ mx_ikeys st = [] /\ mx_it st = it) (sinv []) minv)
          with (p := fv s b) (q := fm s (mi_key it)) (st := st) (v := v) (st' := st1) (r := r) as (v1 & RP & X); auto.
        + intros x y (Z1 & _ & _ & Z2). rewrite <- Z2. rewrite (sv_key _ _ _ Z1), Z2. reflexivity.
        + intros x y (Z1 & Z2). split; [now apply stir_sinv|exact Z2].
        + intros x y x' z (Z1 & Z2 & Z3 & _) G. now apply (prefetch_ok _ _ _ _ _ _ _ PF Z1 Z2 Z3) in G.
        + rewrite RP. assert (S1 : match r with Ok _ => sinv [] st1 v1 | Err _ => False | _ => minv st1 end) by (destruct r; auto; destruct X as [[X _]|X]; auto).
          destruct r as [[[s' c] oe]|e| |]; try contradiction; try (injection H as <- <-; auto).
          destruct c, oe as [e|]; try (injection H as <- <-; split; [reflexivity|apply (sv_minv _ _ _ S1)]).
          pose proof (prefetched_ok fuel _ _ s' S1) as PL.
          destruct (m_prefetched_loop noise mt fm mkb fuel st1 s') as [[st2 out2]|[st2 s2]].
          { destruct PL as [-> MI2]. injection H as <- <-. auto. }
          destruct PL as (v2 & -> & S2).
          destruct (m_next grow noise open rev (mkb :: mx_vals st2) (mx_mem st2) (mx_it st2)) as [m3 it3] eqn:MV. unfold m_next in MV.
          pose proof S2 as [[MB MS] B TI K IT KS IKS GT VI IG LN].
          apply (move_ok grow noise foreign LV _ _ _ _ _ _ (mkb :: mx_vals st2 ++ foreign)) in MV; auto using next_keeps.
          2:{ eapply buffers_perm; [|exact MB]. perm. }
          2:{ win. }
          destruct MV as (S4 & HK & E1 & E2 & T4 & K4). rewrite <- IT, <- E2. apply IH in H; auto.
          assert (B3 : buffers (m_heap m3) (mkb :: mi_key it3 :: sides (mi_bounds it3) ++ mx_vals st2 ++ foreign)).
          { rewrite E1. eapply buffers_perm; [apply perm_swap|]. apply HK. eapply buffers_perm; [|exact MB]. perm. }
          split; cbn [mx_mem mx_it mx_keys mx_ikeys mx_vals mx_got mx_vi ss_it ss_keys ss_ikeys ss_vals ss_vi map]; auto.
          * split; auto. cbn [mx_mem]. eapply safe_trans; [exact MS|]. eapply safe_incl; [|exact S4]. incl_tac.
          * cbn [app map]. eapply buffers_tl. exact B3.
          * intros x [].
    Qed.
  End Second.

  (** ** The calls *)

  Definition scan_room (m : mem) (bufs : list (slc * slc)) (kb mkb : slc) (vals : list slc) : Prop :=
    buffers (m_heap m) (kb :: sides bufs ++ mkb :: vals ++ foreign).

  Lemma scan_secondary {W} (fm : W -> slc -> mprog T W) (fv : W -> bytes -> prog (T:=T) W) fuel m bufs kb mkb vals db fl idx sel rev ob s m' back k' out :
    (forall w b sl, looks_first b sl (fv w b) (fm w sl)) -> implements_index mt idx -> ix_id idx <> primary_index_id ->
    0 < t_prefetch tb -> length vals = t_prefetch tb -> length bufs = bounds_of sel -> scan_room m bufs kb mkb vals ->
    m_scan_index_for_each grow noise mt ev fuel m bufs kb mkb vals db fl idx sel fm rev ob s = (m', (back, k'), out) ->
    scan_index_for_each tb ev fuel db fl idx sel fv rev ob s = out /\ returned foreign m m' (mkb :: k' :: back).
  Proof.
    intros LF II NP PF LVS LB B H. unfold m_scan_index_for_each in H. unfold scan_index_for_each.
    assert (PB : Byte.eqb (ix_id idx) primary_index_id = false).
    { destruct (Byte.eqb (ix_id idx) primary_index_id) eqn:E; auto. now apply Byte.byte_dec_bl in E. }
    rewrite PB in *. set (open := db_iter db (batch_of ob)) in *.
    destruct (m_index_iter grow noise mt [] db ob idx sel bufs kb m) as [m1 r] eqn:E. unfold scan_room in B.
    assert (W0 : within foreign ([] ++ foreign)) by (cbn; win).
    assert (BF : buffers (m_heap m) (kb :: sides bufs ++ foreign)) by (eapply buffers_part with (l2 := mkb :: vals); [|exact B]; perm).
    destruct (index_iter_ok grow noise foreign LV mt IM [] db ob idx sel bufs kb m foreign m1 r II BF W0 LB E) as (IV & S1 & X). rewrite IV.
    destruct r as [it|e| |]; cbn [as_value];
      try (apply pair_equal_spec in H; destruct H as [H <-]; apply pair_equal_spec in H; destruct H as [<- H]; apply pair_equal_spec in H; destruct H as [<- <-];
           split; [reflexivity|]; apply safe_returned; auto; eapply buffers_part with (l2 := vals); [|apply (X (mkb :: vals ++ foreign)), B]; perm).
    destruct X as (K1 & T1 & H1). specialize (H1 _ B). rewrite <- K1 in H1.
    destruct (m_move grow noise (mkb :: vals) (scan_first open rev) m1 it) as [m2 it2] eqn:MV.
    apply (move_ok grow noise foreign LV _ _ _ _ _ _ (mkb :: vals ++ foreign)) in MV; auto using first_keeps; [|win].
    destruct MV as (S2 & HK & E1 & E2 & T2 & K2).
    destruct (m_secondary_loop grow noise mt ev fm open rev mkb db fl (batch_of ob) fuel 0 m2 it2 vals s) as [st o] eqn:SL.
    assert (S12 : safe foreign m m2) by (eapply safe_trans; [exact S1|]; eapply safe_incl; [|exact S2]; incl_tac).
    assert (B2 : buffers (m_heap m2) (mkb :: mi_key it2 :: sides (mi_bounds it2) ++ vals ++ foreign)).
    { rewrite E1. eapply buffers_perm; [|apply HK, H1]. perm. }
    apply (secondary_ok fm fv open rev m mkb LF db fl (batch_of ob) PF) in SL.
    - destruct SL as [SL [MB MS]]. rewrite E2 in SL. rewrite SL.
      apply pair_equal_spec in H; destruct H as [H <-]; apply pair_equal_spec in H; destruct H as [<- H]; apply pair_equal_spec in H; destruct H as [<- <-].
      split; auto. apply safe_returned; auto. eapply buffers_perm; [|exact MB]. perm.
    - split; cbn [mx_mem mx_it mx_keys mx_ikeys mx_vals mx_got mx_vi ss_it ss_keys ss_ikeys ss_vals ss_vi map app]; auto.
      + now split.
      + eapply buffers_tl. exact B2.
      + intros x [].
  Qed.

  Lemma scan_primary {W} (fm : W -> slc -> mprog T W) (fv : W -> bytes -> prog (T:=T) W) fuel m bufs kb mkb vals db fl idx sel rev ob s m' back k' out :
    (forall w b sl, looks_any_time b sl (fv w b) (fm w sl)) -> implements_index mt idx -> ix_id idx = primary_index_id ->
    length bufs = bounds_of sel -> scan_room m bufs kb mkb vals ->
    m_scan_index_for_each grow noise mt ev fuel m bufs kb mkb vals db fl idx sel fm rev ob s = (m', (back, k'), out) ->
    scan_index_for_each tb ev fuel db fl idx sel fv rev ob s = out /\ returned foreign m m' (mkb :: k' :: back).
  Proof.
    intros LA II PP LB B H. unfold m_scan_index_for_each in H. unfold scan_index_for_each.
    assert (PB : Byte.eqb (ix_id idx) primary_index_id = true) by (rewrite PP; reflexivity).
    rewrite PB in *. set (open := db_iter db (batch_of ob)) in *.
    destruct (m_index_iter grow noise mt [] db ob idx sel bufs kb m) as [m1 r] eqn:E. unfold scan_room in B.
    assert (W0 : within foreign ([] ++ foreign)) by (cbn; win).
    assert (BF : buffers (m_heap m) (kb :: sides bufs ++ foreign)) by (eapply buffers_part with (l2 := mkb :: vals); [|exact B]; perm).
    destruct (index_iter_ok grow noise foreign LV mt IM [] db ob idx sel bufs kb m foreign m1 r II BF W0 LB E) as (IV & S1 & X). rewrite IV.
    destruct r as [it|e| |]; cbn [as_value];
      try (apply pair_equal_spec in H; destruct H as [H <-]; apply pair_equal_spec in H; destruct H as [<- H]; apply pair_equal_spec in H; destruct H as [<- <-];
           split; [reflexivity|]; apply safe_returned; auto; eapply buffers_part with (l2 := vals); [|apply (X (mkb :: vals ++ foreign)), B]; perm).
    destruct X as (K1 & T1 & H1). specialize (H1 _ B). rewrite <- K1 in H1.
    destruct (m_move grow noise [] (scan_first open rev) m1 it) as [m2 it2] eqn:MV.
    apply (pnext_ok m (mkb :: vals)) in MV; auto using first_keeps; [|split; auto].
    destruct MV as [G2 E2].
    destruct (m_primary_loop grow noise mt ev fm open rev fuel 0 m2 it2 s) as [[m3 it3] o] eqn:PL.
    apply (primary_ok fm fv open rev m (mkb :: vals) LA) in PL; auto. destruct PL as [PL [PB3 PS3]]. rewrite E2 in PL. rewrite PL.
    apply pair_equal_spec in H; destruct H as [H <-]; apply pair_equal_spec in H; destruct H as [<- H]; apply pair_equal_spec in H; destruct H as [<- <-].
    split; auto. apply safe_returned; auto. eapply buffers_perm; [|exact PB3]. perm.
  Qed.
End Scan.
