(** Query conditions: /repo/cond/cond.go. *)

From Coq Require Import List Bool.
From Verif.Model Require Import Go.
Import ListNotations.

(** /repo/cond/cond.go:9-138: a condition on records of type [R]. [CdEq] carries
    assert.ObjectsAreEqual on the value type [V] (line 36); the comparisons carry the
    order of the Ordered type [V], where [None] is "not comparable" (a NaN). A member of
    And, Or or Not can be a nil Cond, [None]. A getter or function that panics is not modelled. *)
Inductive cond (R : Type) : Type :=
| CdFunc (f : R -> bool)
| CdEq (V : Type) (eqv : V -> V -> bool) (get : R -> V) (v : V)
| CdGt (V : Type) (cmp : V -> V -> option comparison) (get : R -> V) (v : V)
| CdGte (V : Type) (cmp : V -> V -> option comparison) (get : R -> V) (v : V)
| CdLt (V : Type) (cmp : V -> V -> option comparison) (get : R -> V) (v : V)
| CdLte (V : Type) (cmp : V -> V -> option comparison) (get : R -> V) (v : V)
| CdAnd (l : list (option (cond R)))
| CdOr (l : list (option (cond R)))
| CdNot (c : option (cond R)).
Arguments CdFunc {R}.
Arguments CdEq {R V}.
Arguments CdGt {R V}.
Arguments CdGte {R V}.
Arguments CdLt {R V}.
Arguments CdLte {R V}.
Arguments CdAnd {R}.
Arguments CdOr {R}.
Arguments CdNot {R}.

(** The Eval methods: /repo/cond/cond.go:21-23, 35-37, 50-52, 65-67, 80-82, 95-97, 107-113 (the
    && does not evaluate its right side after a false), 127-133 (likewise ||), 149-151. Calling
    Eval on a nil Cond panics. *)
Fixpoint eval {R} (c : cond R) (r : R) : res bool :=
  match c with
  | CdFunc f => Ok (f r)
  | CdEq eqv get v => Ok (eqv (get r) v)
  | CdGt cmp get v => Ok (match cmp (get r) v with Some Gt => true | _ => false end)
  | CdGte cmp get v => Ok (match cmp (get r) v with Some Gt | Some Eq => true | _ => false end)
  | CdLt cmp get v => Ok (match cmp (get r) v with Some Lt => true | _ => false end)
  | CdLte cmp get v => Ok (match cmp (get r) v with Some Lt | Some Eq => true | _ => false end)
  | CdAnd l =>
      (fix loop (l : list (option (cond R))) (acc : bool) : res bool :=
         match l with
         | [] => Ok acc
         | o :: l' =>
             if acc then
               match o with
               | None => Panic
               | Some c' => match eval c' r with Ok b => loop l' b | e => e end
               end
             else loop l' false
         end) l true
  | CdOr l =>
      (fix loop (l : list (option (cond R))) (acc : bool) : res bool :=
         match l with
         | [] => Ok acc
         | o :: l' =>
             if acc then loop l' true
             else
               match o with
               | None => Panic
               | Some c' => match eval c' r with Ok b => loop l' b | e => e end
               end
         end) l false
  | CdNot o =>
      match o with
      | None => Panic
      | Some c' => match eval c' r with Ok b => Ok (negb b) | e => e end
      end
  end.
