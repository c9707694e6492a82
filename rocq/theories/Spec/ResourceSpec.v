(** What it means that a call gives back what it took. *)

From Coq Require Import List Arith Bool.
From Verif.Model Require Import Resource.
Import ListNotations.

Definition is_open (x : res_var) (e : event) : bool := match e with EOpen y => var_eqb x y | _ => false end.
Definition is_close (x : res_var) (e : event) : bool := match e with EClose y => var_eqb x y | _ => false end.
Definition opens (x : res_var) (t : list event) : nat := length (filter (is_open x) t).
Definition closes (x : res_var) (t : list event) : nat := length (filter (is_close x) t).

(** Nothing is closed before it is open or twice, or opened again before it is closed. *)
Definition orderly (x : res_var) (t : list event) : Prop :=
  forall t1 t2, t = t1 ++ t2 -> closes x t1 <= opens x t1 <= S (closes x t1).

(** It is used while it is open. *)
Definition used_open (x : res_var) (t : list event) : Prop :=
  forall t1 t2, t = t1 ++ EUse x :: t2 -> opens x t1 = S (closes x t1).

(** At the end all that was opened is closed. *)
Definition closed_up (x : res_var) (t : list event) : Prop := opens x t = closes x t.

Definition released (x : res_var) (t : list event) : Prop := orderly x t /\ used_open x t /\ closed_up x t.

(** The batch of the caller is left open. *)
Definition untouched (x : res_var) (t : list event) : Prop := ~ In (EOpen x) t /\ ~ In (EClose x) t.

(** A call takes care of everything. *)
Definition careful (t : list event) : Prop := untouched RGiven t /\ forall x, x <> RGiven -> released x t.
