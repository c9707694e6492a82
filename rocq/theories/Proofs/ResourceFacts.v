(** A checker for functions that open and close, and its soundness. *)

From Coq Require Import List Arith Bool Lia.
From Verif.Model Require Import Resource.
From Verif.Spec Require Import ResourceSpec.
Import ListNotations.

Lemma var_eqb_eq x y : var_eqb x y = true <-> x = y.
Proof. destruct x, y; cbn; split; intro H; try discriminate; auto. Qed.
Lemma var_eqb_refl x : var_eqb x x = true.
Proof. apply var_eqb_eq. reflexivity. Qed.

Section X.
  Variable x : res_var.

  Definition step (b : bool) (e : event) : option bool :=
    match e with
    | EOpen y => if var_eqb x y then if b then None else Some true else Some b
    | EClose y => if var_eqb x y then if b then Some false else None else Some b
    | EUse y => if var_eqb x y then if b then Some true else None else Some b
    end.
  Fixpoint track (b : bool) (t : list event) : option bool :=
    match t with [] => Some b | e :: t => match step b e with Some b' => track b' t | None => None end end.

  Lemma track_app t1 t2 b : track b (t1 ++ t2) = match track b t1 with Some b' => track b' t2 | None => None end.
  Proof. revert b. induction t1 as [|e t1 IH]; intro b; cbn [track app]; auto. destruct (step b e); auto. Qed.

  (** what [track] says *)
  Definition level (b : bool) (t : list event) : Prop := opens x t + (if b then 1 else 0) >= closes x t.

  Lemma step_counts b e b' : step b e = Some b' ->
    (if b then 1 else 0) + opens x [e] = (if b' then 1 else 0) + closes x [e].
  Proof. unfold opens, closes. destruct e as [y|y|y]; cbn; destruct (var_eqb x y); destruct b; cbn; intro H; inversion H; reflexivity. Qed.

  Lemma opens_app t1 t2 : opens x (t1 ++ t2) = opens x t1 + opens x t2.
  Proof. unfold opens. rewrite filter_app, app_length. reflexivity. Qed.
  Lemma closes_app t1 t2 : closes x (t1 ++ t2) = closes x t1 + closes x t2.
  Proof. unfold closes. rewrite filter_app, app_length. reflexivity. Qed.

  Lemma track_counts t b b' : track b t = Some b' -> (if b then 1 else 0) + opens x t = (if b' then 1 else 0) + closes x t.
  Proof.
    revert b. induction t as [|e t IH]; intros b; cbn [track].
    - intro H. inversion H. reflexivity.
    - destruct (step b e) as [b1|] eqn:E; [|discriminate]. intro H. apply IH in H. apply step_counts in E.
      change (e :: t) with ([e] ++ t). rewrite opens_app, closes_app. lia.
  Qed.

  Lemma track_released t : track false t = Some false -> released x t.
  Proof.
    intro H. split; [|split].
    - intros t1 t2 ->. rewrite track_app in H. destruct (track false t1) as [b|] eqn:E; [|discriminate]. apply track_counts in E. destruct b; lia.
    - intros t1 t2 ->. rewrite track_app in H. destruct (track false t1) as [b|] eqn:E; [|discriminate]. apply track_counts in E.
      cbn [track step] in H. rewrite var_eqb_refl in H. destruct b; [|discriminate]. lia.
    - apply track_counts in H. unfold closed_up. lia.
  Qed.

  (** ** The checker: the outcomes of a program, with the state of [x] and the number of deferred closes of it *)
  Definition result := (outcome * bool * nat)%type.
  Definition out_eqb (a b : outcome) : bool :=
    match a, b with Next, Next => true | Panicked, Panicked => true | Returned e, Returned f => Bool.eqb e f | _, _ => false end.
  Definition result_eqb (a b : result) : bool :=
    out_eqb (fst (fst a)) (fst (fst b)) && Bool.eqb (snd (fst a)) (snd (fst b)) && Nat.eqb (snd a) (snd b).

  Lemma out_eqb_eq a b : out_eqb a b = true -> a = b.
  Proof. destruct a, b; cbn; try discriminate; auto. intro H. apply eqb_prop in H. subst. reflexivity. Qed.
  Lemma result_eqb_eq a b : result_eqb a b = true -> a = b.
  Proof.
    destruct a as [[o1 s1] n1], b as [[o2 s2] n2]. unfold result_eqb. cbn [fst snd]. intro H. apply andb_prop in H as [H H3]. apply andb_prop in H as [H1 H2].
    apply out_eqb_eq in H1. apply eqb_prop in H2. apply Nat.eqb_eq in H3. subst. reflexivity.
  Qed.

  Fixpoint dedup (l : list result) : list result :=
    match l with [] => [] | r :: l => if existsb (result_eqb r) l then dedup l else r :: dedup l end.
  Lemma dedup_in r l : In r l -> In r (dedup l).
  Proof.
    induction l as [|a l IH]; cbn [dedup In]; auto. intros [->|H].
    - destruct (existsb (result_eqb r) l) eqn:E; [|left; reflexivity]. apply existsb_exists in E as [y [I Y]]. apply result_eqb_eq in Y. subst y. auto.
    - destruct (existsb _ l); [auto|right; auto].
  Qed.

  (** all or nothing *)
  Fixpoint bind_all {A} (l : list A) (f : A -> option (list result)) : option (list result) :=
    match l with
    | [] => Some []
    | a :: l => match f a, bind_all l f with Some r, Some rs => Some (dedup (r ++ rs)) | _, _ => None end
    end.
  Lemma bind_all_in {A} (l : list A) f rs a r : bind_all l f = Some rs -> In a l -> f a = Some r -> forall z, In z r -> In z rs.
  Proof.
    revert rs. induction l as [|b l IH]; intros rs H I F z Z; [contradiction|]. cbn [bind_all] in H.
    destruct (f b) as [r1|] eqn:E1; [|discriminate]. destruct (bind_all l f) as [r2|] eqn:E2; [|discriminate]. inversion H. subst rs.
    apply dedup_in, in_or_app. destruct I as [->|I]; [left; congruence|right; eapply IH; eauto].
  Qed.
  Lemma bind_all_some {A} (l : list A) f rs a : bind_all l f = Some rs -> In a l -> exists r, f a = Some r.
  Proof.
    revert rs. induction l as [|b l IH]; intros rs H I; [contradiction|]. cbn [bind_all] in H.
    destruct (f b) as [r1|] eqn:E1; [|discriminate]. destruct (bind_all l f) as [r2|] eqn:E2; [|discriminate].
    destruct I as [->|I]; eauto.
  Qed.

  Fixpoint close_n (b : bool) (n : nat) : option bool :=
    match n with O => Some b | S n => if b then close_n false n else None end.

  Definition counts (d : list res_var) : nat := length (filter (var_eqb x) d).
  Lemma track_close d b : track b (map EClose d) = close_n b (counts d).
  Proof.
    revert b. induction d as [|y d IH]; intro b; cbn [map track]; auto. unfold counts. cbn [filter step].
    destruct (var_eqb x y); cbn [length close_n]; [destruct b; auto; apply IH|apply IH].
  Qed.
  Lemma counts_app d1 d2 : counts (d1 ++ d2) = counts d1 + counts d2.
  Proof. unfold counts. rewrite filter_app, app_length. reflexivity. Qed.

  Definition add (n : nat) (r : result) : result := (fst r, n + snd r).

  Fixpoint sp (s : stmt) (b : bool) : option (list result) :=
    match s with
    | Skip => Some [(Next, b, 0)]
    | Open y => match step b (EOpen y) with Some b' => Some [(Next, b', 0)] | None => None end
    | Close y => match step b (EClose y) with Some b' => Some [(Next, b', 0)] | None => None end
    | Use y => match step b (EUse y) with Some b' => Some [(Next, b', 0)] | None => None end
    | Defer y => Some [(Next, b, if var_eqb x y then 1 else 0)]
    | User => Some [(Next, b, 0); (Panicked, b, 0)]
    | Ret e => Some [(Returned e, b, 0)]
    | Seq s1 s2 =>
        match sp s1 b with
        | Some rs => bind_all rs (fun r => match r with
                                  | (Next, b', n) => match sp s2 b' with Some rs2 => Some (map (add n) rs2) | None => None end
                                  | r => Some [r] end)
        | None => None
        end
    | Or s1 s2 => match sp s1 b, sp s2 b with Some r1, Some r2 => Some (dedup (r1 ++ r2)) | _, _ => None end
    | Loop s =>
        match sp s b with
        | Some rs => if forallb (fun r => match r with (Next, b', n) => Bool.eqb b' b && Nat.eqb n 0 | _ => true end) rs
                     then Some ((Next, b, 0) :: filter (fun r => match r with (Next, _, _) => false | _ => true end) rs) else None
        | None => None
        end
    | Call f e =>
        match sp f b with
        | Some rs => bind_all rs (fun r => match r with
                                  | (Returned true, b', n) => match close_n b' n with Some b2 => sp e b2 | None => None end
                                  | (Panicked, b', n) => match close_n b' n with Some b2 => Some [(Panicked, b2, 0)] | None => None end
                                  | (_, b', n) => match close_n b' n with Some b2 => Some [(Next, b2, 0)] | None => None end end)
        | None => None
        end
    end.

  Lemma sp_sound s t d o : exec s t d o -> forall b rs, sp s b = Some rs -> exists b', track b t = Some b' /\ In (o, b', counts d) rs.
  Proof.
    intro X. induction X as [|y|y|y|y| | |err|a b t1 d1 t2 d2 o X1 IHX1 X2 IHX2|a b t d o X IHX NE|a b t d o X IHX|a b t d o X IHX|a|a t1 d1 t2 d2 o X1 IHX1 X2 IHX2|a t d o X IHX NE|f e t d o X IHX OO|f e t d t2 d2 o X1 IHX1 X2 IHX2|f e t d X IHX]; intros bb rs H.
    - inversion H. subst. exists bb. cbn. auto.
    - cbn [sp] in H. destruct (step bb (EOpen y)) as [b'|] eqn:E; inversion H. exists b'. cbn [track]. rewrite E. cbn. auto.
    - cbn [sp] in H. destruct (step bb (EClose y)) as [b'|] eqn:E; inversion H. exists b'. cbn [track]. rewrite E. cbn. auto.
    - cbn [sp] in H. destruct (step bb (EUse y)) as [b'|] eqn:E; inversion H. exists b'. cbn [track]. rewrite E. cbn. auto.
    - inversion H. exists bb. split; auto. unfold counts. cbn [filter]. destruct (var_eqb x y); left; reflexivity.
    - inversion H. exists bb. cbn. auto.
    - inversion H. exists bb. cbn. auto.
    - inversion H. exists bb. cbn. auto.
    - cbn [sp] in H. destruct (sp a bb) as [ra|] eqn:E; [|discriminate]. destruct (IHX1 _ _ E) as [b1 [T1 I1]].
      destruct (bind_all_some _ _ _ _ H I1) as [r R]. cbn beta iota in R. destruct (sp b b1) as [rb|] eqn:E2; [|discriminate]. inversion R. subst r.
      destruct (IHX2 _ _ E2) as [b2 [T2 I2]]. exists b2. rewrite track_app, T1. split; auto.
      eapply (bind_all_in _ _ _ _ (map (add (counts d1)) rb)); [exact H|exact I1| |].
      + cbn beta iota. rewrite E2. reflexivity.
      + apply in_map_iff. exists (o, b2, counts d2). split; auto. unfold add. cbn [fst snd]. rewrite counts_app, Nat.add_comm. reflexivity.
    - cbn [sp] in H. destruct (sp a bb) as [ra|] eqn:E; [|discriminate]. destruct (IHX _ _ E) as [b1 [T1 I1]]. exists b1. split; auto.
      eapply (bind_all_in _ _ _ _ [(o, b1, counts d)]); [exact H|exact I1| |left; reflexivity]. destruct o; [congruence|reflexivity|reflexivity].
    - cbn [sp] in H. destruct (sp a bb) as [ra|] eqn:E; [|discriminate]. destruct (sp b bb) as [rb|] eqn:E2; [|discriminate]. inversion H.
      destruct (IHX _ _ E) as [b1 [T1 I1]]. exists b1. split; auto. apply dedup_in, in_or_app. auto.
    - cbn [sp] in H. destruct (sp a bb) as [ra|] eqn:E; [|discriminate]. destruct (sp b bb) as [rb|] eqn:E2; [|discriminate]. inversion H.
      destruct (IHX _ _ E2) as [b1 [T1 I1]]. exists b1. split; auto. apply dedup_in, in_or_app. auto.
    - cbn [sp] in H. destruct (sp a bb) as [ra|] eqn:E; [|discriminate]. match goal with H : (if ?c then _ else _) = _ |- _ => destruct c eqn:F end; [|discriminate]. inversion H. exists bb. cbn. auto.
    - pose proof H as H'. cbn [sp] in H. destruct (sp a bb) as [ra|] eqn:E; [|discriminate]. match goal with H : (if ?c then _ else _) = _ |- _ => destruct c eqn:F end; [|discriminate].
      destruct (IHX1 _ _ E) as [b1 [T1 I1]]. rewrite forallb_forall in F. specialize (F _ I1). cbn beta iota in F. apply andb_prop in F as [F1 F2].
      apply eqb_prop in F1. apply Nat.eqb_eq in F2. subst b1. destruct (IHX2 _ _ H') as [b2 [T2 I2]]. exists b2. rewrite track_app, T1. split; auto.
      rewrite counts_app, F2, Nat.add_0_r. exact I2.
    - cbn [sp] in H. destruct (sp a bb) as [ra|] eqn:E; [|discriminate]. match goal with H : (if ?c then _ else _) = _ |- _ => destruct c eqn:F end; [|discriminate]. inversion H.
      destruct (IHX _ _ E) as [b1 [T1 I1]]. exists b1. split; auto. right. apply filter_In. split; auto. destruct o; [congruence|reflexivity|reflexivity].
    - cbn [sp] in H. destruct (sp f bb) as [ra|] eqn:E; [|discriminate]. destruct (IHX _ _ E) as [b1 [T1 I1]].
      destruct (bind_all_some _ _ _ _ H I1) as [r R].
      assert (R2 : exists b2, close_n b1 (counts d) = Some b2 /\ r = [(Next, b2, 0)]).
      { destruct OO as [-> | ->]; cbn beta iota in R; (destruct (close_n b1 (counts d)) as [b2|] eqn:C; [|discriminate]); exists b2; split; auto; congruence. }
      destruct R2 as [b2 [C ->]]. exists b2. rewrite track_app, T1, track_close, C. split; auto.
      eapply bind_all_in; [exact H|exact I1|exact R|left; reflexivity].
    - cbn [sp] in H. destruct (sp f bb) as [ra|] eqn:E; [|discriminate]. destruct (IHX1 _ _ E) as [b1 [T1 I1]].
      destruct (bind_all_some _ _ _ _ H I1) as [r R].  cbn beta iota in R. destruct (close_n b1 (counts d)) as [b2|] eqn:C; [|discriminate].
      destruct (IHX2 _ _ R) as [b3 [T3 I3]]. exists b3. rewrite track_app, T1, track_app, track_close, C. split; auto.
      eapply bind_all_in; [exact H|exact I1| |exact I3]. cbn beta iota. rewrite C. exact R.
    - cbn [sp] in H. destruct (sp f bb) as [ra|] eqn:E; [|discriminate]. destruct (IHX _ _ E) as [b1 [T1 I1]].
      destruct (bind_all_some _ _ _ _ H I1) as [r R].  cbn beta iota in R. destruct (close_n b1 (counts d)) as [b2|] eqn:C; [|discriminate].
      inversion R. subst r. exists b2. rewrite track_app, T1, track_close, C. split; auto.
      eapply (bind_all_in _ _ _ _ [(Panicked, b2, 0)]); [exact H|exact I1| |left; reflexivity]. cbn beta iota. rewrite C. reflexivity.
  Qed.

  (** Every run with an outcome in [sel] leaves [x] as it was, or in the state [fin]. *)
  Definition ends (sel : outcome -> bool) (start fin : bool) (s : stmt) : bool :=
    match sp s start with
    | Some rs => forallb (fun r => match r with (o, b, n) => if sel o then match close_n b n with Some b' => Bool.eqb b' fin | None => false end else true end) rs
    | None => false
    end.

  Lemma ends_sound sel start fin s t o : ends sel start fin s = true -> runs s t o -> sel o = true -> track start t = Some fin.
  Proof.
    unfold ends. intros H [t0 [d [X ->]]] S. destruct (sp s start) as [rs|] eqn:E; [|discriminate].
    destruct (sp_sound _ _ _ _ X _ _ E) as [b [T I]]. rewrite forallb_forall in H. specialize (H _ I). cbn beta iota in H. rewrite S in H.
    rewrite track_app, T, track_close. destruct (close_n b (counts d)) as [b'|]; [|discriminate]. apply eqb_prop in H. congruence.
  Qed.

  (** Never opened or closed. *)
  Fixpoint avoids (s : stmt) : bool :=
    match s with
    | Open y | Close y | Defer y => negb (var_eqb x y)
    | Seq a b | Or a b | Call a b => avoids a && avoids b
    | Loop a => avoids a
    | _ => true
    end.

  Lemma avoids_exec s t d o : exec s t d o -> avoids s = true -> ~ In (EOpen x) t /\ ~ In (EClose x) t /\ ~ In x d.
  Proof.
    intro X. induction X; cbn [avoids]; intro A; try (apply andb_prop in A as [A1 A2]);
      try (specialize (IHX A)); try (specialize (IHX A1)); try (specialize (IHX A2));
      repeat match goal with H : ?a = true -> _, K : ?a = true |- _ => specialize (H K) end.
    all: try (repeat split; cbn [In]; intuition congruence).
    - assert (x <> x0) by (intros <-; rewrite var_eqb_refl in A; discriminate). cbn [In]. repeat split; intuition congruence.
    - assert (x <> x0) by (intros <-; rewrite var_eqb_refl in A; discriminate). cbn [In]. repeat split; intuition congruence.
    - assert (x <> x0) by (intros <-; rewrite var_eqb_refl in A; discriminate). cbn [In]. repeat split; intuition congruence.
    - rewrite !in_app_iff. tauto.
    - rewrite !in_app_iff. tauto.
    - rewrite !in_app_iff, !in_map_iff. cbn [In]. repeat split; try tauto; intros [H1|[y [H1 H2]]]; try tauto; try discriminate. inversion H1. subst. tauto.
    - rewrite !in_app_iff, !in_map_iff. repeat split; try tauto; intros [H1|[[y [H1 H2]]|H1]]; try tauto; try discriminate. inversion H1. subst. tauto.
    - rewrite !in_app_iff, !in_map_iff. cbn [In]. repeat split; try tauto; intros [H1|[y [H1 H2]]]; try tauto; try discriminate. inversion H1. subst. tauto.
  Qed.

  Lemma avoids_runs s t o : avoids s = true -> runs s t o -> untouched x t.
  Proof.
    intros A [t0 [d [X ->]]]. destruct (avoids_exec _ _ _ _ X A) as [A1 [A2 A3]]. unfold untouched. rewrite !in_app_iff, !in_map_iff.
    split; intros [H1|[y [H1 H2]]]; try tauto; try discriminate. inversion H1. subst. tauto.
  Qed.
End X.

Definition always : outcome -> bool := fun _ => true.
Definition fine (o : outcome) : bool := match o with Returned false => true | _ => false end.
Definition returned (o : outcome) : bool := match o with Panicked => false | _ => true end.

Definition all_vars : list res_var := [RBatch; RIter; RInner; RValue; RCount; RReader; RSnapshot; RFile; RStore; RTableLock; RFilterLock].

Lemma careful_check sel s : avoids RGiven s && forallb (fun x => ends x sel false false s) all_vars = true ->
  forall t o, runs s t o -> sel o = true -> careful t.
Proof.
  intros H t o R S. apply andb_prop in H as [H1 H2]. split; [eapply avoids_runs; eauto|]. rewrite forallb_forall in H2. intros x N.
  apply track_released. eapply ends_sound; eauto. apply H2. destruct x; cbn; tauto.
Qed.

(** a trace that is there *)
Lemma run_of s t0 d o : exec s t0 d o -> runs s (t0 ++ map EClose d) o.
Proof. intro X. exists t0, d. auto. Qed.

(** a resource that every such run leaves open *)
Lemma left_open x sel s : ends x sel false true s = true -> forall t o, runs s t o -> sel o = true -> opens x t = S (closes x t).
Proof. intros H t o R S. apply (ends_sound x sel false true s t o H R) in S. apply track_counts in S. lia. Qed.

Lemma released_check x sel s : ends x sel false false s = true -> forall t o, runs s t o -> sel o = true -> released x t.
Proof. intros H t o R S. apply track_released. eapply ends_sound; eauto. Qed.
