(** What conditions mean, independent of the code. *)

From Coq Require Import List Bool.
From Verif.Model Require Import Cond.
Import ListNotations.

Section Meaning.
  Context {R : Type}.

  (** No nil condition occurs anywhere. *)
  Fixpoint whole (c : cond R) : Prop :=
    match c with
    | CdAnd l | CdOr l => fold_right (fun o P => match o with Some c' => whole c' | None => False end /\ P) True l
    | CdNot o => match o with Some c' => whole c' | None => False end
    | _ => True
    end.

  (** Record [r] satisfies the condition. *)
  Fixpoint holds (c : cond R) (r : R) : Prop :=
    match c with
    | CdFunc f => f r = true
    | CdEq eqv get v => eqv (get r) v = true
    | CdGt cmp get v => cmp (get r) v = Some Gt
    | CdGte cmp get v => cmp (get r) v = Some Gt \/ cmp (get r) v = Some Eq
    | CdLt cmp get v => cmp (get r) v = Some Lt
    | CdLte cmp get v => cmp (get r) v = Some Lt \/ cmp (get r) v = Some Eq
    | CdAnd l => fold_right (fun o P => match o with Some c' => holds c' r | None => False end /\ P) True l
    | CdOr l => fold_right (fun o P => match o with Some c' => holds c' r | None => False end \/ P) False l
    | CdNot o => match o with Some c' => ~ holds c' r | None => False end
    end.

  (** Neither And, Or nor Not. *)
  Definition basic (c : cond R) : Prop :=
    match c with CdAnd _ | CdOr _ | CdNot _ => False | _ => True end.

  (** What asking a condition, which may be nil and may have nil members anywhere, comes to: [Some b] is an answer,
      [None] a panic. And stops at its first member that is not satisfied, Or at its first that is, and either stops
      at one that panics. *)
  Inductive answers (r : R) : option (cond R) -> option bool -> Prop :=
  | an_nil : answers r None None
  | an_yes c : basic c -> holds c r -> answers r (Some c) (Some true)
  | an_no c : basic c -> ~ holds c r -> answers r (Some c) (Some false)
  | an_and_all l : (forall o, In o l -> answers r o (Some true)) -> answers r (Some (CdAnd l)) (Some true)
  | an_and_stop l1 o l2 v : (forall o', In o' l1 -> answers r o' (Some true)) -> answers r o v -> v <> Some true ->
      answers r (Some (CdAnd (l1 ++ o :: l2))) v
  | an_or_none l : (forall o, In o l -> answers r o (Some false)) -> answers r (Some (CdOr l)) (Some false)
  | an_or_stop l1 o l2 v : (forall o', In o' l1 -> answers r o' (Some false)) -> answers r o v -> v <> Some false ->
      answers r (Some (CdOr (l1 ++ o :: l2))) v
  | an_not o b : answers r o (Some b) -> answers r (Some (CdNot o)) (Some (negb b))
  | an_not_panic o : answers r o None -> answers r (Some (CdNot o)) None.
End Meaning.
