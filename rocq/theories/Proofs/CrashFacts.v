(** Crashes: the disk holds the deeds that are left. *)

From Coq Require Import List NArith Lia Bool Arith.
From Verif.Model Require Import Bytes Go Keys Pebble Index Table Crash.
From Verif.Spec Require Import KeySpec StoreSpec TableSpec HistSpec CrashSpec.
From Verif.Proofs Require Import BytesFacts PebbleFacts TableFacts WriteFacts CallFacts HistFacts.
Import ListNotations.

Lemma on_disk_le {A} (l : list (A * bool)) : on_disk l <= length l.
Proof. induction l as [|[a s] l IH]; cbn; auto. destruct (_ || _); lia. Qed.

Lemma on_disk_safe {A} (l : list (A * bool)) i a : nth_error l i = Some (a, true) -> i < on_disk l.
Proof.
  revert i. induction l as [|[b s] l IH]; intros [|i] H; cbn in *; try easy.
  - injection H as -> ->. cbn. lia.
  - apply IH in H. destruct (on_disk l) eqn:E; [lia|]. cbn. rewrite orb_true_r. lia.
Qed.

Lemma on_disk_flags {A B} (l : list (A * bool)) (l' : list (B * bool)) : map snd l = map snd l' -> on_disk l = on_disk l'.
Proof.
  revert l'. induction l as [|[a s] l IH]; intros [|[b s'] l'] H; cbn in *; try easy. injection H as -> H. rewrite (IH l' H). reflexivity.
Qed.

Lemma firstn_map_eq {A B C} (f : A -> C) (g : B -> C) l l' n : map f l = map g l' -> map f (firstn n l) = map g (firstn n l').
Proof. intro H. rewrite <- !firstn_map, H. reflexivity. Qed.

Section Crash.
  Context {T F : Type} (tb : table T F) (G : good_table tb).
  Notation sc := (schema_of tb).

  Lemma outcome_app m a : forall b, outcome sc m (a ++ b) = outcome sc (outcome sc m a) b.
  Proof. revert m. induction a as [|[c o] a IH]; intros m b; auto. destruct o; cbn; apply IH. Qed.

  Lemma after_app m a b : after tb m (a ++ b) = after tb (after tb m a) b.
  Proof. unfold after. rewrite map_app, concat_app. apply outcome_app. Qed.

  Lemma total_outcome (h : list (env T * call T)) : forall m, total_effect sc m (map snd h) = outcome sc m (map (fun ec => (snd ec, true)) h).
  Proof. induction h as [|[e c] h IH]; intro m; auto. cbn. apply IH. Qed.

  (** every entry of the log is the state after the deeds up to it *)
  Definition inv (m : tmap T) (d : disk) (us : list (deed (T:=T))) : Prop :=
    map snd (k_log d) = map snd us /\
    (forall n, n <= length us -> let db := last (map fst (firstn n (k_log d))) (k_base d) in
       kv_ok db /\ Rep sc db (after tb m (firstn n us))).

  Lemma inv_length m d us : inv m d us -> length (k_log d) = length us.
  Proof. intros [H1 _]. apply (f_equal (@length bool)) in H1. rewrite !map_length in H1. exact H1. Qed.

  Lemma inv_now m d us : inv m d us -> kv_ok (disk_db d) /\ Rep sc (disk_db d) (after tb m us).
  Proof.
    intro I. pose proof (inv_length _ _ _ I) as L. destruct I as [H1 H2]. specialize (H2 (length us) (le_n _)). cbv zeta in H2. rewrite firstn_all in H2.
    rewrite firstn_all2 in H2; [exact H2|]. lia.
  Qed.

  Lemma inv_write m d us db s oks : inv m d us -> kv_ok db -> Rep sc db (after tb m (us ++ [(oks, s)])) ->
    inv m (disk_write d db s) (us ++ [(oks, s)]).
  Proof.
    intros I K R. pose proof (inv_length _ _ _ I) as L. destruct I as [H1 H2].
    split.
    - cbn [disk_write k_log]. rewrite !map_app, H1. reflexivity.
    - intros n Hn. cbn [disk_write k_log k_base]. rewrite app_length in Hn. cbn in Hn.
      destruct (Nat.eq_dec n (length us + 1)) as [->|NE].
      + rewrite !firstn_all2 by (rewrite app_length; cbn; lia). rewrite map_app. cbn [map]. rewrite last_last. auto.
      + rewrite !firstn_app. replace (n - length (k_log d)) with 0 by lia. replace (n - length us) with 0 by lia.
        cbn [firstn]. rewrite !app_nil_r. apply H2. lia.
  Qed.

  Lemma consistent_now m d us fl : inv m d us -> covers tb fl (disk_db d) -> consistent tb (disk_db d) fl (after tb m us).
  Proof. intros I C. destruct (inv_now _ _ _ I). constructor; auto. Qed.

  Lemma life_run es : forall m d fl us d' fl' rs,
    inv m d us -> covers tb fl (disk_db d) -> run_life tb d fl es = (d', fl', rs) -> orderly tb m d fl us es ->
    forall m0 old, m = after tb m0 old ->
    exists ks, left_over old us rs ks /\ consistent tb (disk_db d') fl' (after tb m0 ks).
  Proof.
    induction es as [|e es IH]; intros m d fl us d' fl' rs I C RUN OD m0 old ->; cbn [run_life orderly] in *.
    { injection RUN as <- <- <-. exists (old ++ us). split; [constructor|]. rewrite after_app. apply consistent_now; auto. }
    destruct (happen tb d fl e) as [[d1 fl1] r] eqn:HP. destruct (run_life tb d1 fl1 es) as [[d2 fl2] rs2] eqn:RN.
    injection RUN as <- <- <-. pose proof (consistent_now _ _ _ _ I C) as CN.
    destruct e as [ev c|h s|n init]; cbn [happen] in HP.
    - destruct (run_call tb ev (disk_db d) fl None c) as [w res] eqn:RC. injection HP as <- <- <-.
      destruct OD as [EV [AD OD]].
      destruct (call_step tb G ev c _ _ _ EV CN AD) as [w' [res' [E1 [_ [_ [E2 _]]]]]]. rewrite RC in E1. injection E1 as <- <-.
      assert (CN2 : consistent tb (r_db w) (r_flt w) (after tb (after tb m0 old) (us ++ [([(c, ok_of res)], (ok_of res && nonempty (rows_of c))%bool)]))).
      { rewrite after_app. unfold after at 1. cbn. destruct (ok_of res); exact E2. }
      pose proof CN2 as [K2 R2 C2].
      assert (C3 : covers tb (r_flt w) (disk_db (disk_write d (r_db w) (ok_of res && nonempty (rows_of c))))).
      { unfold disk_db, disk_write. cbn [k_log k_base]. rewrite map_app. cbn [map]. rewrite last_last. exact C2. }
      destruct (IH _ _ _ _ _ _ _ (inv_write _ _ _ _ _ _ I K2 R2) C3 RN OD m0 old eq_refl) as [ks [L Q]].
      exists ks. split; auto. constructor. exact L.
    - destruct (run_batch_hist tb (disk_db d) fl (Batch true []) h) as [[b flb] oks] eqn:RB. injection HP as <- <- <-.
      destruct OD as [EVS [AS OD]]. pose proof CN as [K R _].
      destruct (batch_hist_run tb G h _ _ (Batch true []) _ EVS K eq_refl CN AS) as [b' [fl2' [E1 [_ [E2 _]]]]].
      rewrite RB in E1. injection E1 as <- <- ->.
      assert (CN2 : consistent tb (apply_ops (disk_db d) (b_ops b)) flb
        (after tb (after tb m0 old) (us ++ [(map (fun ec => (snd ec, true)) h, (s && nonempty (b_ops b))%bool)]))).
      { rewrite after_app. unfold after at 1. cbn [map fst concat]. rewrite app_nil_r, <- total_outcome. exact E2. }
      pose proof CN2 as [K2 R2 C2].
      assert (C3 : covers tb flb (disk_db (disk_write d (apply_ops (disk_db d) (b_ops b)) (s && nonempty (b_ops b))))).
      { unfold disk_db, disk_write. cbn [k_log k_base]. rewrite map_app. cbn [map]. rewrite last_last. exact C2. }
      destruct (IH _ _ _ _ _ _ _ (inv_write _ _ _ _ _ _ I K2 R2) C3 RN OD m0 old eq_refl) as [ks [L Q]].
      exists ks. split; auto. constructor. exact L.
    - injection HP as <- <- <-. destruct OD as [CV OD]. pose proof (inv_length _ _ _ I) as L. destruct I as [I1 I2].
      set (k := Nat.max n (on_disk (k_log d))) in *.
      assert (NK : firstn k us = firstn (Nat.min k (length us)) us).
      { destruct (Nat.le_ge_cases k (length us)); [rewrite Nat.min_l by auto; auto|]. rewrite Nat.min_r by auto. rewrite !firstn_all2; auto. }
      assert (NK' : firstn k (k_log d) = firstn (Nat.min k (length us)) (k_log d)).
      { destruct (Nat.le_ge_cases k (length us)); [rewrite Nat.min_l by auto; auto|]. rewrite Nat.min_r by auto. rewrite !firstn_all2; auto; lia. }
      destruct (I2 (Nat.min k (length us)) ltac:(lia)) as [K2 R2]. cbv zeta in *. rewrite <- NK' in K2, R2. rewrite <- NK in R2.
      rewrite <- after_app in OD.
      destruct (IH (after tb m0 (old ++ firstn k us)) (crash d n) (init (disk_db (crash d n))) [] d2 fl2 rs2) with (m0 := m0) (old := old ++ firstn k us) as [ks [LO Q]]; auto.
      + split; [reflexivity|]. intros j _. cbn [crash k_log k_base]. rewrite !firstn_nil. cbn [map last]. split; [exact K2|].
        rewrite after_app. exact R2.
      + exists ks. split; auto. rewrite NK in LO. apply left_crash with (n := Nat.min k (length us)); auto; [lia|].
        intros i u Hi. assert (i < length us) by (apply nth_error_Some; congruence).
        apply on_disk_safe in Hi. rewrite <- (on_disk_flags (k_log d) us I1) in Hi. lia.
  Qed.

  Theorem crashes db fl m es d fl' rs : consistent tb db fl m ->
    run_life tb (Disk db []) fl es = (d, fl', rs) -> orderly tb m (Disk db []) fl [] es ->
    exists ks, left_over [] [] rs ks /\ consistent tb (disk_db d) fl' (after tb m ks).
  Proof.
    intros [K R C] RUN OD. apply (life_run es m (Disk db []) fl [] d fl' rs) with (m0 := m) (old := []); auto; try reflexivity.
    split; [reflexivity|]. intros n _. cbn. rewrite !firstn_nil. cbn. auto.
  Qed.
End Crash.

(** ** What [left_over] says *)

Lemma subseq_refl {A} (l : list A) : subseq l l.
Proof. induction l; constructor; auto. Qed.
Lemma subseq_app {A} (a b c d : list A) : subseq a b -> subseq c d -> subseq (a ++ c) (b ++ d).
Proof. induction 1; intro H'; cbn; auto; constructor; auto. Qed.
Lemma subseq_nil {A} (l : list A) : subseq [] l.
Proof. induction l; constructor; auto. Qed.
Lemma subseq_trans {A} (a b c : list A) : subseq a b -> subseq b c -> subseq a c.
Proof.
  intros H1 H2. revert a H1. induction H2 as [|x b c H2 IH|x b c H2 IH]; intros a H1; auto.
  - inversion H1; subst; constructor; auto.
  - constructor; auto.
Qed.
Lemma subseq_firstn {A} (l : list A) n : subseq (firstn n l) l.
Proof. rewrite <- (firstn_skipn n l) at 2. rewrite <- (app_nil_r (firstn n l)) at 1. apply subseq_app; [apply subseq_refl|apply subseq_nil]. Qed.

Section Left.
  Context {T : Type}.
  Notation deed := (deed (T:=T)).

  Definition deeds (rs : list (option deed)) : list deed := flat_map (fun r => match r with Some u => [u] | None => [] end) rs.

  Lemma left_sub old us rs ks : left_over old us rs ks -> subseq ks (old ++ us ++ deeds rs).
  Proof.
    induction 1 as [old us|old us u rs ks H IH|old us n rs ks L S H IH]; cbn [deeds flat_map].
    - rewrite app_nil_r. apply subseq_refl.
    - rewrite <- app_assoc in IH. exact IH.
    - change (flat_map _ rs) with (deeds rs). eapply subseq_trans; [exact IH|]. rewrite <- app_assoc. apply subseq_app; [apply subseq_refl|].
      cbn. apply subseq_app; [apply subseq_firstn|apply subseq_refl].
  Qed.

  Definition sure (us : list deed) : list deed := filter snd us.

  Lemma sure_firstn us n : safe us n -> sure (firstn n us) = sure us.
  Proof.
    unfold sure. revert n. induction us as [|[a s] us IH]; intros n S; [destruct n; auto|].
    destruct n as [|n].
    - cbn. destruct s; [specialize (S 0 a eq_refl); lia|]. rewrite <- (IH 0); auto. intros i u Hi. specialize (S (Datatypes.S i) u Hi). lia.
    - cbn. rewrite IH; auto. intros i u Hi. specialize (S (Datatypes.S i) u Hi). lia.
  Qed.

  Lemma filter_subseq {A} (f : A -> bool) l : subseq (filter f l) l.
  Proof. induction l as [|a l IH]; cbn; [constructor|]. destruct (f a); constructor; auto. Qed.

  Lemma left_sure old us rs ks : left_over old us rs ks -> sure ks = sure (old ++ us ++ deeds rs).
  Proof.
    unfold sure. induction 1 as [old us|old us u rs ks H IH|old us n rs ks L S H IH]; cbn [deeds flat_map].
    - rewrite app_nil_r. reflexivity.
    - rewrite IH, <- app_assoc. reflexivity.
    - change (flat_map _ rs) with (deeds rs). rewrite IH. cbn [app]. rewrite !filter_app.
      change (filter snd (firstn n us)) with (sure (firstn n us)). rewrite (sure_firstn us n S). unfold sure. rewrite app_assoc. reflexivity.
  Qed.

  Theorem left_between rs ks : left_over [] [] rs ks -> subseq ks (deeds rs) /\ filter snd ks = filter snd (deeds rs).
  Proof. intro H. split; [apply (left_sub _ _ _ _ H)|apply (left_sure _ _ _ _ H)]. Qed.
End Left.
