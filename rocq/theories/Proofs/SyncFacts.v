(** Facts about SyncBatch. *)

From Coq Require Import List Bool Arith Lia Permutation.
From Verif.Model Require Import Go Sync.
From Verif.Spec Require Import SyncSpec.
Import ListNotations.

Section S.
  Context {A : Type}.
  Implicit Types (s : syst A) (fs : list (sfun A)) (o : list nat).

  Lemma set_same (gs : list (gstate A)) g x y : nth_error gs g = Some y -> nth_error (set_g gs g x) g = Some x.
  Proof.
    intros E. assert (L : g < length gs) by (apply nth_error_Some; congruence). unfold set_g.
    rewrite nth_error_app2; rewrite firstn_length, Nat.min_l by lia; [|lia]. now rewrite Nat.sub_diag.
  Qed.

  Lemma set_other (gs : list (gstate A)) g h x y : nth_error gs g = Some y -> h <> g -> nth_error (set_g gs g x) h = nth_error gs h.
  Proof.
    intros E N. assert (L : g < length gs) by (apply nth_error_Some; congruence). unfold set_g.
    assert (FL : length (firstn g gs) = g) by (rewrite firstn_length; lia).
    destruct (Nat.lt_ge_cases h g) as [H|H].
    - rewrite nth_error_app1 by lia. rewrite <- (firstn_skipn g gs) at 2. now rewrite nth_error_app1 by lia.
    - rewrite nth_error_app2 by lia. rewrite FL. rewrite <- (firstn_skipn (S g) gs) at 2.
      rewrite nth_error_app2; rewrite firstn_length, Nat.min_l by lia; [|lia].
      replace (h - g) with (S (h - S g)) by lia. reflexivity.
  Qed.

  Lemma set_length (gs : list (gstate A)) g x y : nth_error gs g = Some y -> length (set_g gs g x) = length gs.
  Proof.
    intros E. assert (L : g < length gs) by (apply nth_error_Some; congruence). unfold set_g.
    rewrite app_length. cbn [length]. rewrite firstn_length, skipn_length. lia.
  Qed.

  (** The holder of the mutex: inside with [done] behind it, or panicked. *)
  Definition holder fs s (h : nat) (don : list A) : Prop :=
    exists f, nth_error fs h = Some f /\
    ((exists l, nth_error (sy_gs s) h = Some (GIn l (sf_result f)) /\ sf_acts f = map ADo don ++ l) \/
     (nth_error (sy_gs s) h = Some GPanic /\ sf_result f = None /\ sf_acts f = map ADo don)).

  Definition inv fs s o : Prop :=
    length (sy_gs s) = length fs /\ NoDup o /\
    (forall g x f, nth_error (sy_gs s) g = Some x -> nth_error fs g = Some f ->
       match x with
       | GStart f' => f' = f /\ ~ In g o
       | GRet r => In g o /\ sf_result f = Some r
       | GIn _ _ | GPanic => sy_mu s = Some g
       end) /\
    match sy_mu s with
    | None => sy_log s = concat (map (block fs) o) /\ (forall g, In g o -> returned s g)
    | Some h => exists o' don, o = o' ++ [h] /\ sy_log s = concat (map (block fs) o') ++ map (pair h) don /\
        (forall g, In g o' -> returned s g) /\ holder fs s h don
    end.

  Lemma start_inv fs : inv fs (sync_start fs) [].
  Proof.
    unfold inv, sync_start; cbn. repeat split.
    - apply map_length.
    - constructor.
    - intros g x f E F. rewrite nth_error_map in E. rewrite F in E. cbn in E. injection E as <-. auto.
    - intros g [].
  Qed.

  Lemma step_inv fs s o g s' : inv fs s o -> sync_step s g = Some s' ->
    exists o', inv fs s' o' /\ (o' = o \/ o' = o ++ [g]).
  Proof.
    intros (L & ND & G & M) E. unfold sync_step in E.
    destruct (nth_error (sy_gs s) g) as [x|] eqn:X; [|discriminate].
    assert (exists f, nth_error fs g = Some f) as (f & F).
    { destruct (nth_error fs g) eqn:N; eauto. apply nth_error_None in N. assert (g < length (sy_gs s)) by (apply nth_error_Some; congruence). lia. }
    pose proof (G g x f X F) as GX.
    destruct x as [f'|l r|r|]; [| |discriminate|discriminate].
    - (* Lock *)
      destruct GX as [-> NI]. destruct (sy_mu s) as [h|] eqn:MU; [discriminate|]. injection E as <-. destruct M as [LOG RET].
      exists (o ++ [g]). split; [|auto]. split; [|split; [|split]]; cbn [sy_gs sy_mu sy_log].
      + rewrite (set_length _ _ _ _ X). exact L.
      + apply NoDup_rev in ND. rewrite <- (rev_involutive (o ++ [g])). apply NoDup_rev. rewrite rev_app_distr. cbn.
        constructor; auto. now rewrite <- in_rev.
      + intros h x f' E' F'. destruct (Nat.eq_dec h g) as [->|N].
        * rewrite (set_same _ _ _ _ X) in E'. injection E' as <-. reflexivity.
        * rewrite (set_other _ _ _ _ _ X N) in E'. specialize (G h x f' E' F'). destruct x; auto.
          -- destruct G as [-> NI']. split; auto. intros I. apply in_app_or in I. destruct I as [I|[I|[]]]; auto.
          -- discriminate.
          -- destruct G. split; auto. apply in_or_app. auto.
          -- discriminate.
      + exists o, []. cbn. rewrite app_nil_r. split; [auto|]. split; [auto|]. split.
        * intros h I. destruct (RET h I) as (r & R). exists r. cbn [sy_gs]. rewrite (set_other _ _ _ _ _ X); auto. congruence.
        * exists f. split; auto. left. exists (sf_acts f). split; auto. cbn [sy_gs]. now rewrite (set_same _ _ _ _ X).
    - rewrite GX in M. destruct M as (o' & don & -> & LOG & RET & f2 & F2 & H). rewrite F in F2. injection F2 as <-.
      destruct H as [(l' & X' & AC)|(X' & _)]; [|congruence]. rewrite X in X'. injection X' as -> ->. rename l' into l.
      assert (NI : ~ In g o').
      { intros I. destruct (RET g I) as (r & R). congruence. }
      destruct l as [|[a|] l].
      + destruct (sf_result f) as [r|] eqn:R.
        * (* Unlock *)
          injection E as <-. exists (o' ++ [g]). split; [|auto].
          split; [|split; [|split]]; cbn [sy_gs sy_mu sy_log].
          -- rewrite (set_length _ _ _ _ X). exact L.
          -- exact ND.
          -- intros h x f' E' F'. destruct (Nat.eq_dec h g) as [->|N].
             ++ rewrite (set_same _ _ _ _ X) in E'. injection E' as <-. rewrite F in F'. injection F' as <-. split; [apply in_or_app; cbn; auto|auto].
             ++ rewrite (set_other _ _ _ _ _ X N) in E'. specialize (G h x f' E' F'). destruct x; auto; congruence.
          -- split.
             ++ rewrite LOG. rewrite map_app, concat_app. f_equal. cbn. rewrite app_nil_r. unfold block. rewrite F, AC, app_nil_r.
                clear. induction don as [|a d IH]; cbn; congruence.
             ++ intros h I. apply in_app_or in I. unfold returned. cbn [sy_gs]. destruct I as [I|[<-|[]]].
                ** destruct (RET h I) as (r' & R'). exists r'. rewrite (set_other _ _ _ _ _ X); auto. congruence.
                ** exists r. now rewrite (set_same _ _ _ _ X).
        * (* panic *)
          injection E as <-. exists (o' ++ [g]). split; [|auto].
          split; [|split; [|split]]; cbn [sy_gs sy_mu sy_log].
          -- rewrite (set_length _ _ _ _ X). exact L.
          -- exact ND.
          -- intros h x f' E' F'. destruct (Nat.eq_dec h g) as [->|N].
             ++ rewrite (set_same _ _ _ _ X) in E'. injection E' as <-. exact GX.
             ++ rewrite (set_other _ _ _ _ _ X N) in E'. specialize (G h x f' E' F'). destruct x; auto.
          -- rewrite GX. exists o', don. split; [auto|]. split; [auto|]. split.
             ++ intros h I. unfold returned. cbn [sy_gs]. destruct (RET h I) as (r' & R'). exists r'. rewrite (set_other _ _ _ _ _ X); auto. congruence.
             ++ exists f. split; auto. right. cbn [sy_gs]. rewrite (set_same _ _ _ _ X). rewrite app_nil_r in AC. auto.
      + (* an action *)
        injection E as <-. exists (o' ++ [g]). split; [|auto].
        split; [|split; [|split]]; cbn [sy_gs sy_mu sy_log].
        -- rewrite (set_length _ _ _ _ X). exact L.
        -- exact ND.
        -- intros h x f' E' F'. destruct (Nat.eq_dec h g) as [->|N].
           ++ rewrite (set_same _ _ _ _ X) in E'. injection E' as <-. exact GX.
           ++ rewrite (set_other _ _ _ _ _ X N) in E'. specialize (G h x f' E' F'). destruct x; auto.
        -- rewrite GX. exists o', (don ++ [a]). split; [auto|]. split.
           ++ rewrite LOG. rewrite map_app. cbn. now rewrite app_assoc.
           ++ split.
              ** intros h I. unfold returned. cbn [sy_gs]. destruct (RET h I) as (r' & R'). exists r'. rewrite (set_other _ _ _ _ _ X); auto. congruence.
              ** exists f. split; auto. left. exists l. cbn [sy_gs]. rewrite (set_same _ _ _ _ X). split; auto. rewrite map_app, <- app_assoc. exact AC.
      + discriminate.
  Qed.

  Lemma run_inv fs sched : forall s o, inv fs s o -> exists o', inv fs (sync_run s sched) o'.
  Proof.
    induction sched as [|g sched IH]; intros s o I; cbn [sync_run]; eauto.
    destruct (sync_step s g) as [s'|] eqn:E; eauto. destruct (step_inv _ _ _ _ _ I E) as (o' & I' & _). eauto.
  Qed.

  Lemma reach fs sched : exists o, inv fs (sync_run (sync_start fs) sched) o.
  Proof. apply (run_inv fs sched _ _ (start_inv fs)). Qed.

  (** ** Mutual exclusion and whole blocks *)

  Lemma inside_mu fs s o g : inv fs s o -> inside s g -> sy_mu s = Some g.
  Proof.
    intros (L & _ & G & _) (l & r & E). destruct (nth_error fs g) as [f|] eqn:F.
    - exact (G _ _ _ E F).
    - apply nth_error_None in F. assert (g < length (sy_gs s)) by (apply nth_error_Some; congruence). lia.
  Qed.

  Lemma exclusion fs sched g h : let s := sync_run (sync_start fs) sched in inside s g -> inside s h -> g = h.
  Proof.
    intros s I J. destruct (reach fs sched) as (o & V). apply (inside_mu _ _ _ _ V) in I. apply (inside_mu _ _ _ _ V) in J. congruence.
  Qed.

  Lemma returned_in fs s o g : inv fs s o -> returned s g -> In g o.
  Proof.
    intros (L & _ & G & _) (r & E). destruct (nth_error fs g) as [f|] eqn:F.
    - exact (proj1 (G _ _ _ E F)).
    - apply nth_error_None in F. assert (g < length (sy_gs s)) by (apply nth_error_Some; congruence). lia.
  Qed.

  Lemma one_at_a_time fs sched : let s := sync_run (sync_start fs) sched in
    exists o tail, NoDup o /\ (forall g, In g o <-> returned s g) /\
      sy_log s = concat (map (block fs) o) ++ tail /\
      (tail = [] \/ exists h rest, ~ In h o /\ block fs h = tail ++ rest) /\
      (forall g r, nth_error (sy_gs s) g = Some (GRet r) -> exists f, nth_error fs g = Some f /\ sf_result f = Some r).
  Proof.
    intros s. destruct (reach fs sched) as (o & V). fold s in V. pose proof V as (L & ND & G & M).
    assert (RES : forall g r, nth_error (sy_gs s) g = Some (GRet r) -> exists f, nth_error fs g = Some f /\ sf_result f = Some r).
    { intros g r E. destruct (nth_error fs g) as [f|] eqn:F.
      - exists f. split; auto. exact (proj2 (G _ _ _ E F)).
      - apply nth_error_None in F. assert (g < length (sy_gs s)) by (apply nth_error_Some; congruence). lia. }
    destruct (sy_mu s) as [h|] eqn:MU.
    - destruct M as (o' & don & -> & LOG & RET & f & F & H). exists o', (map (pair h) don).
      apply NoDup_remove in ND. rewrite app_nil_r in ND. destruct ND as [ND NI].
      assert (NR : ~ returned s h).
      { intros (r & R). destruct H as [(l & X & _)|(X & _)]; congruence. }
      split; [auto|]. split; [|split; [auto|split; [|auto]]].
      + intros g. split; auto. intros R. pose proof (returned_in _ _ _ _ V R) as I. apply in_app_or in I.
        destruct I as [I|[<-|[]]]; auto. contradiction.
      + right. exists h. unfold block. rewrite F.
        assert (B : forall d : list A, flat_map (fun x => match x with ADo a => [(h, a)] | ASync => [] end) (map ADo d) = map (pair h) d).
        { clear. induction d as [|a d IH]; cbn; congruence. }
        destruct H as [(l & X & AC)|(X & R & AC)].
        * rewrite AC. rewrite flat_map_app, B. eauto.
        * rewrite AC, B. exists []. rewrite app_nil_r. auto.
    - destruct M as [LOG RET]. exists o, []. rewrite app_nil_r. split; [auto|]. split; [|auto].
      intros g. split; auto. apply (returned_in _ _ _ _ V).
  Qed.

  (** ** Progress *)

  Definition left_of (x : gstate A) : nat :=
    match x with GStart f => length (sf_acts f) + 2 | GIn l _ => length l + 1 | _ => 0 end.
  Definition left s : nat := list_sum (map left_of (sy_gs s)).

  Lemma set_sum (gs : list (gstate A)) g x y : nth_error gs g = Some y ->
    list_sum (map left_of (set_g gs g x)) + left_of y = list_sum (map left_of gs) + left_of x.
  Proof.
    intros E. assert (P : gs = firstn g gs ++ y :: skipn (S g) gs).
    { revert g E. induction gs as [|z gs IH]; intros [|g] E; cbn in *; try discriminate; [now injection E as ->|]. f_equal. auto. }
    rewrite P at 2. unfold set_g. rewrite !map_app, !list_sum_app. cbn. lia.
  Qed.

  Lemma step_left s g s' : sync_step s g = Some s' -> left s' < left s.
  Proof.
    unfold sync_step, left. destruct (nth_error (sy_gs s) g) as [x|] eqn:X; [|discriminate].
    destruct x as [f|[|[a|] l] [r|]|r|]; try discriminate; try (destruct (sy_mu s); [discriminate|]); intros [= <-]; cbn [sy_gs];
      match goal with |- context [set_g _ _ ?y] => pose proof (set_sum _ _ y _ X) as E end; cbn [left_of length] in E; lia.
  Qed.

  Definition good fs : Prop := forall f, In f fs -> behaves f.

  Lemma can_move fs s o : good fs -> inv fs s o -> (forall g, g < length fs -> returned s g) \/ exists g, g < length fs /\ sync_step s g <> None.
  Proof.
    intros GD (L & ND & G & M). destruct (sy_mu s) as [h|] eqn:MU.
    - right. destruct M as (o' & don & -> & LOG & RET & f & F & H). exists h.
      assert (HL : h < length fs) by (apply nth_error_Some; congruence). split; auto.
      destruct (GD f (nth_error_In _ _ F)) as [NS NP]. unfold sync_step.
      destruct H as [(l & X & AC)|(X & R & AC)]; [|contradiction]. rewrite X.
      destruct l as [|[a|] l].
      + destruct (sf_result f); [discriminate|contradiction].
      + discriminate.
      + exfalso. apply (NS ASync); auto. rewrite AC. apply in_or_app. cbn. auto.
    - destruct M as [LOG RET].
      assert (D : (forall g, g < length fs -> returned s g) \/ exists g, g < length fs /\ ~ returned s g).
      { clear - L. generalize (length fs). intros n. induction n as [|n [IH|(g & Lg & R)]]; [left; intros; lia| |right; exists g; split; auto].
        destruct (nth_error (sy_gs s) n) as [[f|l r|r|]|] eqn:E;
          try (right; exists n; split; [lia|]; intros (r' & R); congruence).
        left. intros g Lg. destruct (Nat.eq_dec g n) as [->|]; [exists r; auto|apply IH; lia]. }
      destruct D as [D|(g & Lg & R)]; auto. right. exists g. split; auto.
      unfold sync_step. destruct (nth_error (sy_gs s) g) as [x|] eqn:X; [|apply nth_error_None in X; lia].
      destruct (nth_error fs g) as [f|] eqn:F; [|apply nth_error_None in F; lia].
      pose proof (G g x f X F) as GX. destruct x as [f'|l r|r|]; try congruence.
      + rewrite MU. discriminate.
      + exfalso. apply R. exists r. auto.
  Qed.

  Lemma run_le sched : forall s, left (sync_run s sched) <= left s.
  Proof.
    induction sched as [|g sched IH]; intros s; cbn [sync_run]; auto.
    destruct (sync_step s g) as [s'|] eqn:E; auto. apply step_left in E. specialize (IH s'). lia.
  Qed.

  Lemma seg_moves g seg : forall s, In g seg -> sync_step s g <> None -> left (sync_run s seg) < left s.
  Proof.
    induction seg as [|h seg IH]; intros s I E; [destruct I|]. cbn [sync_run].
    destruct (sync_step s h) as [s'|] eqn:H.
    - apply step_left in H. pose proof (run_le seg s'). lia.
    - destruct I as [->|I]; [contradiction|]. auto.
  Qed.

  Lemma run_app a : forall s b, sync_run s (a ++ b) = sync_run (sync_run s a) b.
  Proof. induction a as [|g a IH]; intros s b; cbn; auto. Qed.

  Lemma returned_stays_step s g s' h : returned s h -> sync_step s g = Some s' -> returned s' h.
  Proof.
    intros (r & R) E. unfold sync_step in E. destruct (nth_error (sy_gs s) g) as [x|] eqn:X; [|discriminate].
    assert (N : h <> g) by (intros ->; rewrite R in X; injection X as <-; discriminate).
    exists r. destruct x as [f|[|[a|] l] [r'|]|r'|]; try discriminate; try (destruct (sy_mu s); [discriminate|]); injection E as <-; cbn [sy_gs];
      now rewrite (set_other _ _ _ _ _ X N).
  Qed.

  Lemma returned_stays sched : forall s h, returned s h -> returned (sync_run s sched) h.
  Proof.
    induction sched as [|g sched IH]; intros s h R; cbn [sync_run]; auto.
    destruct (sync_step s g) as [s'|] eqn:E; auto. apply IH. exact (returned_stays_step _ _ _ _ R E).
  Qed.

  Lemma fair_finishes fs segs : good fs -> forall s o, inv fs s o -> left s <= length segs ->
    (forall seg, In seg segs -> forall g, g < length fs -> In g seg) ->
    forall g, g < length fs -> returned (sync_run s (concat segs)) g.
  Proof.
    intros GD. induction segs as [|seg segs IH]; intros s o V LE FA g Lg; cbn [concat].
    - destruct (can_move fs s o GD V) as [D|(h & Lh & E)]; [apply D; auto|].
      destruct (sync_step s h) as [s'|] eqn:X; [|contradiction]. apply step_left in X. cbn in LE. lia.
    - rewrite run_app. destruct (can_move fs s o GD V) as [D|(h & Lh & E)].
      + apply returned_stays, returned_stays. auto.
      + destruct (run_inv fs seg s o V) as (o' & V'). apply (IH _ o' V'); auto.
        * pose proof (seg_moves h seg s (FA seg (or_introl eq_refl) h Lh) E). cbn in LE. lia.
        * intros x I. apply FA. cbn. auto.
  Qed.

  Lemma start_left fs : left (sync_start fs) = work fs.
  Proof.
    unfold left, sync_start; cbn [sy_gs]. induction fs as [|f fs IH]; [reflexivity|].
    change (left_of (GStart f) + list_sum (map left_of (map GStart fs)) = length (sf_acts f) + 2 + work fs). now rewrite IH.
  Qed.

  Lemma all_return fs sched : (forall f, In f fs -> behaves f) -> fair (length fs) (work fs) sched ->
    let s := sync_run (sync_start fs) sched in
    exists o, Permutation o (seq 0 (length fs)) /\ sy_log s = concat (map (block fs) o) /\
      forall g f, nth_error fs g = Some f -> exists r, sf_result f = Some r /\ nth_error (sy_gs s) g = Some (GRet r).
  Proof.
    intros GD (segs & -> & LE & FA) s.
    assert (R : forall g, g < length fs -> returned s g).
    { apply (fair_finishes fs segs GD _ [] (start_inv fs)); auto. rewrite start_left. exact LE. }
    destruct (one_at_a_time fs (concat segs)) as (o & tail & ND & O & LOG & T & RES). fold s in O, LOG, RES.
    assert (OI : forall g, In g o <-> g < length fs).
    { intros g. rewrite O. split; auto. intros (r & E). destruct (RES g r E) as (f & F & _). apply nth_error_Some. congruence. }
    assert (tail = []) as ->.
    { destruct T as [T|(h & rest & NI & B)]; auto. assert (~ h < length fs) by (rewrite <- OI; auto).
      unfold block in B. destruct (nth_error fs h) eqn:E; [assert (h < length fs) by (apply nth_error_Some; congruence); lia|].
      destruct tail; [auto|discriminate]. }
    rewrite app_nil_r in LOG. exists o. split; [|split; auto].
    - apply NoDup_Permutation; auto using seq_NoDup. intros g. rewrite OI, in_seq. lia.
    - intros g f F. assert (Lg : g < length fs) by (apply nth_error_Some; congruence). destruct (R g Lg) as (r & E). exists r. split; auto.
      destruct (RES g r E) as (f' & F' & X). congruence.
  Qed.

  (** ** A panic, and a function that waits for itself *)

  Lemma stuck_after fs s o h : inv fs s o -> sy_mu s = Some h ->
    (nth_error (sy_gs s) h = Some GPanic \/ exists l r, nth_error (sy_gs s) h = Some (GIn (ASync :: l) r)) ->
    forall g, sync_step s g = None.
  Proof.
    intros (L & _ & G & M) MU H g. unfold sync_step. destruct (nth_error (sy_gs s) g) as [x|] eqn:X; auto.
    destruct (nth_error fs g) as [f|] eqn:F; [|apply nth_error_None in F; assert (g < length (sy_gs s)) by (apply nth_error_Some; congruence); lia].
    pose proof (G g x f X F) as GX. destruct x as [f'|l r|r|]; auto.
    - now rewrite MU.
    - rewrite MU in GX. injection GX as <-. destruct H as [H|(l' & r' & H)]; rewrite X in H; [discriminate|]. now injection H as -> ->.
  Qed.

  Lemma stuck_run s : (forall g, sync_step s g = None) -> forall sched, sync_run s sched = s.
  Proof. intros H. induction sched as [|g sched IH]; cbn; auto. now rewrite H. Qed.

  Lemma panic_blocks fs sched h : let s := sync_run (sync_start fs) sched in
    (nth_error (sy_gs s) h = Some GPanic \/ exists l r, nth_error (sy_gs s) h = Some (GIn (ASync :: l) r)) ->
    forall more, sync_run (sync_start fs) (sched ++ more) = s.
  Proof.
    intros s H more. rewrite run_app. fold s. destruct (reach fs sched) as (o & V). fold s in V.
    apply stuck_run. apply (stuck_after fs s o h V); auto.
    destruct V as (L & _ & G & _).
    assert (exists x, nth_error (sy_gs s) h = Some x /\ match x with GIn _ _ | GPanic => True | _ => False end) as (x & X & Q).
    { destruct H as [H|(l & r & H)]; eexists; (split; [exact H|exact Logic.I]). }
    destruct (nth_error fs h) as [f|] eqn:F; [|apply nth_error_None in F; assert (h < length (sy_gs s)) by (apply nth_error_Some; congruence); lia].
    specialize (G h x f X F). destruct x; tauto.
  Qed.
End S.
