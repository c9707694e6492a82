(** Facts about conditions. *)

From Coq Require Import List Bool.
From Verif.Model Require Import Go Cond.
From Verif.Spec Require Import CondSpec.
Import ListNotations.

Section C.
  Context {R : Type}.

  (** Induction that reaches into the lists. *)
  Lemma cond_ind' (P : cond R -> Prop) :
    (forall f, P (CdFunc f)) ->
    (forall V e g v, P (@CdEq R V e g v)) -> (forall V e g v, P (@CdGt R V e g v)) -> (forall V e g v, P (@CdGte R V e g v)) ->
    (forall V e g v, P (@CdLt R V e g v)) -> (forall V e g v, P (@CdLte R V e g v)) ->
    (forall l, (forall c, In (Some c) l -> P c) -> P (CdAnd l)) ->
    (forall l, (forall c, In (Some c) l -> P c) -> P (CdOr l)) ->
    (forall o, (forall c, o = Some c -> P c) -> P (CdNot o)) ->
    forall c, P c.
  Proof.
    intros H1 H2 H3 H4 H5 H6 H7 H8 H9. fix IH 1. intros c.
    destruct c as [f|V e g v|V e g v|V e g v|V e g v|V e g v|l|l|o]; [apply H1|apply H2|apply H3|apply H4|apply H5|apply H6| | |].
    - apply H7. induction l as [|o l IHl]; [intros c []|].
      intros c [E|I]; [|exact (IHl c I)]. destruct o as [c'|]; [|discriminate].
      injection E as <-. apply IH.
    - apply H8. induction l as [|o l IHl]; [intros c []|].
      intros c [E|I]; [|exact (IHl c I)]. destruct o as [c'|]; [|discriminate].
      injection E as <-. apply IH.
    - apply H9. destruct o as [c'|]; [|discriminate]. intros c E. injection E as <-. apply IH.
  Qed.

  Lemma whole_list (l : list (option (cond R))) :
    fold_right (fun o P => match o with Some c' => whole c' | None => False end /\ P) True l <->
    (forall o, In o l -> exists c, o = Some c /\ whole c).
  Proof.
    induction l as [|o l IH]; cbn; [split; [intros _ o []|auto]|].
    rewrite IH. split.
    - intros [H K] o' [<-|I]; [destruct o as [c|]; [eauto|contradiction]|auto].
    - intros H. split; [|auto]. destruct (H o (or_introl eq_refl)) as (c & -> & W). exact W.
  Qed.

  Lemma holds_and (l : list (option (cond R))) r :
    holds (CdAnd l) r <-> (forall o, In o l -> exists c, o = Some c /\ holds c r).
  Proof.
    cbn [holds]. induction l as [|o l IH]; cbn; [split; [intros _ o []|auto]|].
    rewrite IH. split.
    - intros [H K] o' [<-|I]; [destruct o as [c|]; [eauto|contradiction]|auto].
    - intros H. split; [|auto]. destruct (H o (or_introl eq_refl)) as (c & -> & W). exact W.
  Qed.

  Lemma holds_or (l : list (option (cond R))) r :
    holds (CdOr l) r <-> (exists c, In (Some c) l /\ holds c r).
  Proof.
    cbn [holds]. induction l as [|o l IH]; cbn; [split; [tauto|intros (c & [] & _)]|].
    rewrite IH. split.
    - intros [H|(c & I & H)]; [destruct o as [c|]; [eauto|contradiction]|eauto].
    - intros (c & [->|I] & H); eauto.
  Qed.

  Lemma eval_total (c : cond R) r : whole c -> exists b, eval c r = Ok b /\ (b = true <-> holds c r).
  Proof.
    revert c. induction c as [f|V e g v|V e g v|V e g v|V e g v|V e g v|l IH|l IH|o IH] using cond_ind'; intros W; cbn [eval holds].
    - exists (f r). tauto.
    - eexists; split; [reflexivity|]. tauto.
    - eexists; split; [reflexivity|]. destruct (e (g r) v) as [[]|]; split; congruence.
    - eexists; split; [reflexivity|]. destruct (e (g r) v) as [[]|]; split; intuition congruence.
    - eexists; split; [reflexivity|]. destruct (e (g r) v) as [[]|]; split; congruence.
    - eexists; split; [reflexivity|]. destruct (e (g r) v) as [[]|]; split; intuition congruence.
    - cbn [whole] in W. rewrite whole_list in W. change (fold_right _ True l) with (holds (CdAnd l) r).
      match goal with |- context [?L l true] => set (loop := L) end.
      assert (F : forall l, loop l false = Ok false) by (clear; induction l; cbn; auto).
      induction l as [|o l IHl]; [exists true; cbn; tauto|].
      destruct (W o (or_introl eq_refl)) as (c & -> & Wc).
      destruct (IH c (or_introl eq_refl) Wc) as (b & E & B). cbn [loop]. rewrite E. fold loop.
      destruct b.
      + destruct IHl as (b' & E' & B'); [intros; apply IH; cbn; auto|intros; apply W; cbn; auto|].
        exists b'. split; auto. cbn [holds fold_right]. change (fold_right _ True l) with (holds (CdAnd l) r). rewrite B'. tauto.
      + exists false. split; auto. cbn [holds fold_right]. split; [discriminate|]. intros [H _]. apply B in H. discriminate.
    - cbn [whole] in W. rewrite whole_list in W. change (fold_right _ False l) with (holds (CdOr l) r).
      match goal with |- context [?L l false] => set (loop := L) end.
      assert (F : forall l, loop l true = Ok true) by (clear; induction l; cbn; auto).
      induction l as [|o l IHl]; [exists false; split; [reflexivity|]; cbn; split; [discriminate|tauto]|].
      destruct (W o (or_introl eq_refl)) as (c & -> & Wc).
      destruct (IH c (or_introl eq_refl) Wc) as (b & E & B). cbn [loop]. rewrite E. fold loop.
      destruct b.
      + exists true. split; auto. cbn [holds fold_right]. tauto.
      + destruct IHl as (b' & E' & B'); [intros; apply IH; cbn; auto|intros; apply W; cbn; auto|].
        exists b'. split; auto. cbn [holds fold_right]. change (fold_right _ False l) with (holds (CdOr l) r). rewrite B'.
        split; auto. intros [H|H]; auto. apply B in H. discriminate.
    - cbn [whole] in W. destruct o as [c|]; [|contradiction].
      destruct (IH c eq_refl W) as (b & -> & B). exists (negb b). split; auto. rewrite <- B. destruct b; cbn; split; congruence.
  Qed.

  Lemma eval_holds (c : cond R) r : whole c ->
    (eval c r = Ok true <-> holds c r) /\ (eval c r = Ok false <-> ~ holds c r).
  Proof.
    intros W. destruct (eval_total c r W) as (b & -> & B). rewrite <- B.
    destruct b; split; split; congruence.
  Qed.

  Lemma de_morgan (l : list (cond R)) r : (forall c, In c l -> whole c) ->
    eval (CdNot (Some (CdAnd (map Some l)))) r = eval (CdOr (map (fun c => Some (CdNot (Some c))) l)) r.
  Proof.
    intros W.
    assert (W1 : whole (CdNot (Some (CdAnd (map Some l))))).
    { cbn [whole]. rewrite whole_list. intros o I. apply in_map_iff in I as (c & <- & I). eauto. }
    assert (W2 : whole (CdOr (map (fun c => Some (CdNot (Some c))) l))).
    { cbn [whole]. rewrite whole_list. intros o I. apply in_map_iff in I as (c & <- & I). exists (CdNot (Some c)). split; auto. cbn. auto. }
    destruct (eval_total _ r W1) as (b1 & -> & B1), (eval_total _ r W2) as (b2 & -> & B2). f_equal.
    apply eq_true_iff_eq. rewrite B1, B2. rewrite holds_or.
    change (holds (CdNot (Some (CdAnd (map Some l)))) r) with (~ holds (CdAnd (map Some l)) r).
    assert (D : forall c, In c l -> holds c r \/ ~ holds c r).
    { intros c I. destruct (eval_total c r (W c I)) as ([] & _ & B); [left; now apply B|right; intros H; apply B in H; discriminate]. }
    rewrite holds_and. split.
    - intros N. clear - N D.
      induction l as [|c l IH]; [exfalso; apply N; intros o []|].
      destruct (D c (or_introl eq_refl)) as [H|H].
      + destruct IH as (c' & I & H'); [intros; apply D; cbn; auto| |].
        * intros K. apply N. intros o [<-|I]; eauto.
        * exists c'. split; auto. cbn. auto.
      + exists (CdNot (Some c)). split; cbn; auto.
    - intros (c & I & H) K. apply in_map_iff in I as (c' & E & I). injection E as <-. cbn [holds] in H.
      destruct (K (Some c') (in_map Some _ _ I)) as (c'' & E & H2). injection E as <-. contradiction.
  Qed.
End C.

(** Nil conditions: reached or not. *)
Lemma nil_reached {R} (l1 : list (cond R)) l2 r : (forall c, In c l1 -> eval c r = Ok true) ->
  eval (CdAnd (map Some l1 ++ None :: l2)) r = Panic.
Proof.
  intros H. cbn [eval]. match goal with |- context [?L _ true] => set (loop := L) end.
  induction l1 as [|c l1 IH]; cbn [map app loop]; auto. rewrite (H c) by (cbn; auto). apply IH. intros; apply H; cbn; auto.
Qed.

Lemma nil_skipped {R} (l1 : list (cond R)) c l2 r : (forall c, In c l1 -> eval c r = Ok true) -> eval c r = Ok false ->
  eval (CdAnd (map Some l1 ++ Some c :: l2)) r = Ok false.
Proof.
  intros H E. cbn [eval]. match goal with |- context [?L _ true] => set (loop := L) end.
  assert (F : forall l, loop l false = Ok false) by (clear; induction l; cbn; auto).
  induction l1 as [|c1 l1 IH]; cbn [map app loop].
  - rewrite E. apply F.
  - rewrite (H c1) by (cbn; auto). apply IH. intros; apply H; cbn; auto.
Qed.

(** Every condition, nil members or not. *)
Definition as_res (v : option bool) : res bool := match v with Some b => Ok b | None => Panic end.
Definition ask {R} (o : option (cond R)) (r : R) : res bool := match o with Some c => eval c r | None => Panic end.

Lemma eval_and {R} (l : list (option (cond R))) r :
  eval (CdAnd l) r = match l with
                     | [] => Ok true
                     | o :: l' => match ask o r with Ok true => eval (CdAnd l') r | Ok false => Ok false | e => e end
                     end.
Proof.
  cbn [eval]. match goal with |- context [?L l true] => set (loop := L) end.
  assert (F : forall l, loop l false = Ok false) by (clear; induction l; cbn; auto).
  destruct l as [|[c|] l]; cbn [loop ask]; auto.
  destruct (eval c r) as [[]| | |]; auto.
Qed.

Lemma eval_or {R} (l : list (option (cond R))) r :
  eval (CdOr l) r = match l with
                    | [] => Ok false
                    | o :: l' => match ask o r with Ok false => eval (CdOr l') r | Ok true => Ok true | e => e end
                    end.
Proof.
  cbn [eval]. match goal with |- context [?L l false] => set (loop := L) end.
  assert (F : forall l, loop l true = Ok true) by (clear; induction l; cbn; auto).
  destruct l as [|[c|] l]; cbn [loop ask]; auto.
  destruct (eval c r) as [[]| | |]; auto.
Qed.

Lemma eval_not {R} (o : option (cond R)) r :
  eval (CdNot o) r = match ask o r with Ok b => Ok (negb b) | e => e end.
Proof. destruct o; reflexivity. Qed.

Lemma answers_ask {R} (o : option (cond R)) r v : answers r o v -> ask o r = as_res v.
Proof.
  induction 1 as [|c B H|c B H|l _ IH|l1 o l2 v _ IH1 _ IH N|l _ IH|l1 o l2 v _ IH1 _ IH N|o b _ IH|o _ IH]; cbn [ask as_res] in *.
  - reflexivity.
  - apply eval_holds; auto. destruct c; cbn in *; tauto.
  - apply eval_holds; auto. destruct c; cbn in *; tauto.
  - induction l as [|o l IHl]; rewrite eval_and; auto. rewrite IH by (cbn; auto). apply IHl. intros; apply IH; cbn; auto.
  - induction l1 as [|o1 l1 IHl]; cbn [app]; rewrite eval_and.
    + rewrite IH. destruct v as [[]|]; cbn; congruence.
    + rewrite IH1 by (cbn; auto). apply IHl. intros; apply IH1; cbn; auto.
  - induction l as [|o l IHl]; rewrite eval_or; auto. rewrite IH by (cbn; auto). apply IHl. intros; apply IH; cbn; auto.
  - induction l1 as [|o1 l1 IHl]; cbn [app]; rewrite eval_or.
    + rewrite IH. destruct v as [[]|]; cbn; congruence.
    + rewrite IH1 by (cbn; auto). apply IHl. intros; apply IH1; cbn; auto.
  - rewrite eval_not, IH. reflexivity.
  - rewrite eval_not, IH. reflexivity.
Qed.

Lemma basic_answers {R} (c : cond R) r : basic c -> exists v, answers r (Some c) v.
Proof.
  intros B. assert (W : whole c) by (destruct c; cbn in *; tauto).
  destruct (eval_total c r W) as ([] & _ & H).
  - exists (Some true). constructor; auto. tauto.
  - exists (Some false). constructor; auto. intros K. apply H in K. discriminate.
Qed.

Lemma and_answers {R} (l : list (option (cond R))) r : (forall o, In o l -> exists v, answers r o v) ->
  exists v, answers r (Some (CdAnd l)) v.
Proof.
  intros H.
  enough (K : (forall o, In o l -> answers r o (Some true)) \/
    exists l1 o l2 v, l = l1 ++ o :: l2 /\ (forall o', In o' l1 -> answers r o' (Some true)) /\ answers r o v /\ v <> Some true).
  { destruct K as [K|(l1 & o & l2 & v & -> & A & B & C)]; [exists (Some true); now constructor|exists v; now constructor]. }
  induction l as [|o l IH]; [left; intros o []|].
  destruct (H o (or_introl eq_refl)) as (v & V).
  assert (D : v = Some true \/ v <> Some true) by (destruct v as [[]|]; auto; right; discriminate).
  destruct D as [->|N].
  - destruct IH as [K|(l1 & o1 & l2 & v & -> & A & B & C)]; [intros; apply H; cbn; auto| |].
    + left. intros o' [<-|IN]; auto.
    + right. exists (o :: l1), o1, l2, v. repeat split; auto. intros o' [<-|IN]; auto.
  - right. exists [], o, l, v. repeat split; auto. intros o' [].
Qed.

Lemma or_answers {R} (l : list (option (cond R))) r : (forall o, In o l -> exists v, answers r o v) ->
  exists v, answers r (Some (CdOr l)) v.
Proof.
  intros H.
  enough (K : (forall o, In o l -> answers r o (Some false)) \/
    exists l1 o l2 v, l = l1 ++ o :: l2 /\ (forall o', In o' l1 -> answers r o' (Some false)) /\ answers r o v /\ v <> Some false).
  { destruct K as [K|(l1 & o & l2 & v & -> & A & B & C)]; [exists (Some false); now constructor|exists v; now constructor]. }
  induction l as [|o l IH]; [left; intros o []|].
  destruct (H o (or_introl eq_refl)) as (v & V).
  assert (D : v = Some false \/ v <> Some false) by (destruct v as [[]|]; auto; right; discriminate).
  destruct D as [->|N].
  - destruct IH as [K|(l1 & o1 & l2 & v & -> & A & B & C)]; [intros; apply H; cbn; auto| |].
    + left. intros o' [<-|IN]; auto.
    + right. exists (o :: l1), o1, l2, v. repeat split; auto. intros o' [<-|IN]; auto.
  - right. exists [], o, l, v. repeat split; auto. intros o' [].
Qed.

Lemma answers_some {R} (c : cond R) r : exists v, answers r (Some c) v.
Proof.
  revert c. induction c as [f|V e g v|V e g v|V e g v|V e g v|V e g v|l IH|l IH|o IH] using cond_ind';
    try (apply basic_answers; exact Logic.I).
  - apply and_answers. intros [c|] IN; [now apply IH|]. exists None. constructor.
  - apply or_answers. intros [c|] IN; [now apply IH|]. exists None. constructor.
  - destruct o as [c|]; [|exists None; repeat constructor].
    destruct (IH c eq_refl) as ([b|] & A); [exists (Some (negb b))|exists None]; now constructor.
Qed.

Lemma eval_answers {R} (c : cond R) r : exists v, answers r (Some c) v /\
  (forall v', answers r (Some c) v' -> v' = v) /\ eval c r = match v with Some b => Ok b | None => Panic end.
Proof.
  destruct (answers_some c r) as (v & A). exists v. pose proof (answers_ask _ _ _ A) as E. cbn in E. split; [|split]; auto.
  intros v' A'. pose proof (answers_ask _ _ _ A') as E'. cbn in E'. rewrite E in E'.
  destruct v as [b|], v' as [b'|]; cbn in E'; congruence.
Qed.
