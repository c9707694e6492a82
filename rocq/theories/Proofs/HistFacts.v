(** Histories of calls; read-write batches. *)

From Coq Require Import List NArith Lia Bool Sorting.Sorted Sorting.Permutation Arith.
From Verif.Model Require Import Bytes Go Keys Pebble Index Table.
From Verif.Spec Require Import KeySpec TableSpec HistSpec.
From Verif.Proofs Require Import BytesFacts KeysFacts PebbleFacts TableFacts WriteFacts UpdateFacts UpsertFacts CallFacts LocalFacts.
Import ListNotations.

Section Hist.
  Context {T F : Type} (tb : table T F) (G : good_table tb).
  Notation sc := (schema_of tb).
  Notation dk := (data_key tb).
  Notation pk := (s_pk (schema_of tb)).

  Let LAW : lawful tb := good_lawful _ G.
  Local Existing Instance LAW.

  Lemma call_step ev c db fl m : env_ok ev -> consistent tb db fl m -> admissible sc m c ->
    exists w res, run_call tb ev db fl None c = (w, res)
      /\ ((exists e, res = Err e /\ r_db w = db) \/
          res = Ok tt /\ Rep sc (r_db w) (effect sc m c) /\ succeeds sc m c)
      /\ same_outside sc db (r_db w)
      /\ consistent tb (r_db w) (r_flt w) (if ok_of res then effect sc m c else m)
      /\ (quiet ev -> succeeds sc m c -> res = Ok tt).
  Proof.
    intros EV [K R C] AD.
    destruct (call_run (EV:=EV) c db fl m K (good_ser _ G) (good_filter _ G) C R AD) as [w [res [E1 [E2 [E3 [E4 E5]]]]]].
    exists w, res. split; auto. destruct E2 as [[e [-> E2]]|[-> [E2 [E6 E7]]]].
    - split; [left; eauto|]. split; [rewrite E2; apply same_outside_refl|]. split; [|exact E5].
      cbn [ok_of]. rewrite E2 in *. constructor; auto.
    - split; [right; auto|]. split; [exact E6|]. split; [|exact E5]. constructor; auto.
  Qed.

  Lemma hist_run : forall h db fl m db' fl' oks,
    Forall (fun ec => env_ok (fst ec)) h -> consistent tb db fl m ->
    run_hist tb db fl h = (db', fl', oks) -> admissible_hist sc m oks ->
    consistent tb db' fl' (outcome sc m oks) /\ same_outside sc db db'.
  Proof.
    induction h as [|[ev c] h IH]; intros db fl m db' fl' oks EVS C RUN AD; cbn [run_hist] in RUN.
    - injection RUN as <- <- <-. split; [exact C|apply same_outside_refl].
    - inversion EVS as [|? ? EV1 EV2]; subst. cbn [fst] in EV1.
      destruct (run_call tb ev db fl None c) as [w res] eqn:E.
      destruct (run_hist tb (r_db w) (r_flt w) h) as [[db1 fl1] oks1] eqn:E2.
      injection RUN as <- <- <-. cbn [admissible_hist outcome] in *. destruct AD as [AD1 AD2].
      destruct (call_step ev c db fl m EV1 C AD1) as [w' [res' [X1 [_ [X2 [X3 _]]]]]].
      rewrite E in X1. injection X1 as <- <-.
      destruct (IH _ _ _ _ _ _ EV2 X3 E2 AD2) as [Y1 Y2]. split.
      + destruct (ok_of res); exact Y1.
      + eapply same_outside_trans; eauto.
  Qed.

  (** ** The store is determined by the table content and what is outside *)

  Lemma byte_eq_dec (a b : byte) : {a = b} + {a <> b}.
  Proof. destruct (Byte.byte_eq_dec a b); auto. Qed.

  Lemma in_table_dec k : in_table sc k \/ ~ in_table sc k.
  Proof.
    destruct k as [|t [|i rest]]; [right|right|].
    - intros [i [rest [E _]]]. easy.
    - intros [i [rest [E _]]]. easy.
    - destruct (byte_eq_dec t (s_id sc)) as [->|N].
      2: { right. intros [i' [rest' [E _]]]. congruence. }
      destruct (in_dec byte_eq_dec i (x00 :: map si_id (s_indexes sc))) as [H|H].
      + left. exists i, rest. split; auto. destruct H as [<-|H]; auto. right. apply in_map_iff in H as [ix [<- Hx]]. eauto.
      + right. intros [i' [rest' [E X]]]. injection E as <- <-. apply H. destruct X as [->|[ix [X1 ->]]]; [left; auto|right].
        apply in_map; auto.
  Qed.

  Lemma opt_ext {A} (a b : option A) : (forall v, a = Some v -> b = Some v) -> (forall v, b = Some v -> a = Some v) -> a = b.
  Proof. intros H1 H2. destruct a as [x|]; [symmetry; auto|]. destruct b as [y|]; auto. Qed.

  Lemma Rep_le a b m : Rep sc a m -> Rep sc b m -> forall k v, in_table sc k -> kv_get a k = Some v -> kv_get b k = Some v.
  Proof.
    intros RA RB k v [i [rest [-> X]]] Hg. destruct X as [->|[ix [X1 ->]]].
    - destruct (rep_data _ _ _ RA _ _ Hg) as [p Ep]. rewrite Ep in *. rewrite (rep_get _ _ _ RA) in Hg.
      rewrite (rep_get _ _ _ RB). exact Hg.
    - apply (rep_index _ _ _ RB _ _ _ X1). apply (rep_index _ _ _ RA _ _ _ X1). exact Hg.
  Qed.

  Lemma Rep_unique a b m : kv_ok a -> kv_ok b -> Rep sc a m -> Rep sc b m ->
    (forall k, ~ in_table sc k -> kv_get a k = kv_get b k) -> a = b.
  Proof.
    intros KA KB RA RB OUT. apply kv_ext; auto. intro k. destruct (in_table_dec k) as [H|H]; auto.
    apply opt_ext; intros v Hv; [apply (Rep_le a b m)|apply (Rep_le b a m)]; auto.
  Qed.

  (** ** A call with a read-write batch *)

  Lemma batch_step ev c db fl b m : env_ok ev -> kv_ok db -> b_rw b = true ->
    consistent tb (view db (Some b)) fl m -> admissible sc m c ->
    exists w res b', run_call tb ev db fl (Some b) c = (w, res)
      /\ r_db w = db /\ r_batch w = Some b' /\ b_rw b' = true
      /\ ((exists e, res = Err e) \/
          res = Ok tt /\ consistent tb (view db (Some b')) (r_flt w) (effect sc m c)
            /\ same_outside sc (view db (Some b)) (view db (Some b')) /\ succeeds sc m c)
      /\ (quiet ev -> succeeds sc m c -> res = Ok tt).
  Proof.
    intros EV K RW [KV R C] AD. rewrite run_call_eq. unfold run_write. rewrite RW.
    destruct (body_run (EV:=EV) c db true (WSt (b_ops b) fl (t_nil tb) 0) m K (good_ser _ G) (good_filter _ G))
      as [s' [res [E1 [E2 E3]]]]; auto.
    { left; auto. }
    rewrite E1. exists (WRes db (w_flt s') (Some (Batch true (w_ops s')))), res, (Batch true (w_ops s')).
    split; auto. split; auto. split; auto. split; auto. split.
    - destruct E2 as [E2|[-> [G1 [G2 [G3 [G4 [G5 G6]]]]]]]; [left; auto|right]. split; auto. split; [|split; [exact G2|exact G6]].
      constructor; [|exact G1|exact G4]. apply (V_ok db s'); auto.
    - intros Q S. apply E3; auto. intros i _. apply Q.
  Qed.

  Lemma batch_hist_run : forall h db fl b m,
    Forall (fun ec => env_ok (fst ec) /\ quiet (fst ec)) h -> kv_ok db -> b_rw b = true ->
    consistent tb (view db (Some b)) fl m -> all_succeed sc m (map snd h) ->
    exists b' fl', run_batch_hist tb db fl b h = (b', fl', map (fun ec => (snd ec, true)) h) /\ b_rw b' = true /\
      consistent tb (view db (Some b')) fl' (total_effect sc m (map snd h)) /\
      same_outside sc (view db (Some b)) (view db (Some b')).
  Proof.
    induction h as [|[ev c] h IH]; intros db fl b m EVS K RW C AS.
    - exists b, fl. cbn. split; auto. split; auto. split; [exact C|apply same_outside_refl].
    - inversion EVS as [|? ? [EV1 Q1] EV2]; subst. cbn [fst] in *. cbn [map snd all_succeed total_effect] in *.
      destruct AS as [A1 [A2 A3]].
      destruct (batch_step ev c db fl b m EV1 K RW C A1) as [w [res [b1 [E1 [E2 [E3 [E4 [E5 E6]]]]]]]].
      specialize (E6 Q1 A2). subst res. destruct E5 as [[e E5]|[_ [E5 [E7 _]]]]; [easy|].
      destruct (IH db (r_flt w) b1 (effect sc m c) EV2 K E4 E5 A3) as [b' [fl' [X1 [X2 [X3 X4]]]]].
      exists b', fl'. cbn [run_batch_hist]. rewrite E1, E3, X1. cbn [ok_of]. split; auto. split; auto. split; [exact X3|].
      eapply same_outside_trans; eauto.
  Qed.

  Lemma direct_hist_run : forall h db fl m,
    Forall (fun ec => env_ok (fst ec) /\ quiet (fst ec)) h ->
    consistent tb db fl m -> all_succeed sc m (map snd h) ->
    exists db' fl', run_hist tb db fl h = (db', fl', map (fun ec => (snd ec, true)) h) /\
      consistent tb db' fl' (total_effect sc m (map snd h)) /\ same_outside sc db db'.
  Proof.
    induction h as [|[ev c] h IH]; intros db fl m EVS C AS.
    - exists db, fl. cbn. split; auto. split; [exact C|apply same_outside_refl].
    - inversion EVS as [|? ? [EV1 Q1] EV2]; subst. cbn [fst] in *. cbn [map snd all_succeed total_effect] in *.
      destruct AS as [A1 [A2 A3]].
      destruct (call_step ev c db fl m EV1 C A1) as [w [res [E1 [E2 [E3 [E4 E5]]]]]].
      specialize (E5 Q1 A2). subst res. cbn [ok_of] in E4.
      destruct (IH (r_db w) (r_flt w) (effect sc m c) EV2 E4 A3) as [db' [fl' [X1 [X2 X3]]]].
      exists db', fl'. cbn [run_hist]. rewrite E1, X1. cbn [ok_of]. split; auto. split; [exact X2|].
      eapply same_outside_trans; eauto.
  Qed.

  Lemma batch_equals_direct h db fl m :
    Forall (fun ec => env_ok (fst ec) /\ quiet (fst ec)) h ->
    consistent tb db fl m -> all_succeed sc m (map snd h) ->
    exists b' fl1 db' fl2,
      run_batch_hist tb db fl (Batch true []) h = (b', fl1, map (fun ec => (snd ec, true)) h) /\
      run_hist tb db fl h = (db', fl2, map (fun ec => (snd ec, true)) h) /\
      apply_ops db (b_ops b') = db' /\ consistent tb db' fl1 (total_effect sc m (map snd h)).
  Proof.
    intros EVS C AS. pose proof C as [K R CV].
    destruct (batch_hist_run h db fl (Batch true []) m EVS K eq_refl C AS) as [b' [fl1 [X1 [X2 [X3 X4]]]]].
    destruct (direct_hist_run h db fl m EVS C AS) as [db' [fl2 [Y1 [Y2 Y3]]]].
    exists b', fl1, db', fl2. split; auto. split; auto.
    assert (E : apply_ops db (b_ops b') = db').
    { destruct X3 as [XK XR XC], Y2 as [YK YR YC]. apply (Rep_unique _ _ _ XK YK XR YR).
      intros k N. rewrite (Y3 k N). apply (X4 k N). }
    split; auto. rewrite <- E. exact X3.
  Qed.
End Hist.
