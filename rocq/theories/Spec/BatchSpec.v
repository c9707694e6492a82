(** What the callbacks of a batch should do, independent of the code. *)

From Coq Require Import List NArith ZArith Bool Arith.
From Verif.Model Require Import Bytes Go Pebble Batch.
Import ListNotations.

(** The OnCommit callbacks [fs], run one after another on a batch holding [ops] until one
    fails: those called, what the batch holds afterwards, and the error. *)
Inductive hooks : list commit_cb -> list bop -> list nat -> list bop -> option error -> Prop :=
| hooks_end ops : hooks [] ops [] ops None
| hooks_veto f fs ops ops1 e : cc_run f ops = (ops1, Some e) -> hooks (f :: fs) ops [cc_name f] ops1 (Some e)
| hooks_next f fs ops ops1 ns ops2 r : cc_run f ops = (ops1, None) -> hooks fs ops1 ns ops2 r ->
    hooks (f :: fs) ops (cc_name f :: ns) ops2 r.

(** The writes to the database among the events. *)
Fixpoint written (t : list event) : list (list bop) :=
  match t with
  | [] => []
  | EvWrite _ ops :: t' => ops :: written t'
  | _ :: t' => written t'
  end.

(** The events of a commit: vetoed, failed or successful. *)
Inductive attempt (h : nat) : list event -> Prop :=
| at_veto ns : attempt h (map (EvCommit h) ns)
| at_fail ns es e : attempt h (map (EvCommit h) ns ++ map (fun n => EvError h n e) es)
| at_done ns ops cs : attempt h (map (EvCommit h) ns ++ EvWrite h ops :: map (EvCommitted h) cs).

(** Events that follow the protocol: a sequence of commits, one at a time. *)
Inductive protocol : list event -> Prop :=
| pr_nil : protocol []
| pr_cons h a t : attempt h a -> protocol t -> protocol (a ++ t).

(** The callbacks registered on batch [h] by a program, since its creation or last Reset;
    [made] batches exist already. *)
Section Registered.
  Context {A : Type}.
  Variable pick : bcall -> option (nat * A).
  Fixpoint registered (h made : nat) (acc : list A) (cs : list bcall) : list A :=
    match cs with
    | [] => acc
    | c :: cs' =>
        let made' := match c with CNew _ _ => S made | _ => made end in
        let acc' :=
          match c with
          | CReset h' _ => if Nat.eqb h' h then [] else acc
          | _ => match pick c with
                 | Some (h', a) => if Nat.eqb h' h && Nat.ltb h made then acc ++ [a] else acc
                 | None => acc
                 end
          end in
        registered h made' acc' cs'
    end.
End Registered.

Definition on_commits (c : bcall) := match c with COnCommit h f => Some (h, f) | _ => None end.
Definition on_committeds (c : bcall) := match c with COnCommitted h n => Some (h, n) | _ => None end.
Definition on_errors (c : bcall) := match c with COnError h n => Some (h, n) | _ => None end.

(** A program that neither closes batches nor applies them to one another. *)
Definition commits_only (cs : list bcall) : Prop :=
  Forall (fun c => match c with CClose _ _ | CApply _ _ _ => False | _ => True end) cs.

(** The calls of a program that give a batch a new ID, with the batch and the second of the clock; [made] batches exist already. *)
Fixpoint stamps (made : nat) (cs : list bcall) : list (nat * Z) :=
  match cs with
  | [] => []
  | CNew _ sec :: cs' => (made, sec) :: stamps (S made) cs'
  | CReset h sec :: cs' => if Nat.ltb h made then (h, sec) :: stamps made cs' else stamps made cs'
  | _ :: cs' => stamps made cs'
  end.

(** The last of the calls for batch [h] is the [i]-th. *)
Definition last_stamp (h : nat) (l : list (nat * Z)) (i : nat) : Prop :=
  option_map fst (nth_error l i) = Some h /\ forall j, i < j -> option_map fst (nth_error l j) <> Some h.

(** The call leaves the contents of batch [h] to its writes: it neither commits, applies, resets nor closes it, nor applies another to it. *)
Definition leaves (h : nat) (c : bcall) : Prop :=
  match c with
  | CCommit h' _ | CDbApply h' _ | CReset h' _ | CClose h' _ => h' <> h
  | CApply o i _ => o <> h /\ i <> h
  | _ => True
  end.

(** What a program writes to batch [h], in its order. *)
Definition puts (h : nat) (cs : list bcall) : list bop :=
  concat (map (fun c => match c with CPut h' ops => if Nat.eqb h' h then ops else [] | _ => [] end) cs).

(** The events of any call of a program: a commit, a batch [i] applied to batch [o] (refused, failed, done, or to a batch that is
    no longer open), a batch closed (with the error of pebble or without). *)
Inductive segment : list event -> Prop :=
| sg_commit h a : attempt h a -> segment a
| sg_refused i ns : segment (map (EvCommit i) ns)
| sg_failed i ns es e cs : segment (map (EvCommit i) ns ++ map (fun n => EvError i n e) es ++ map (EvCommitted i) cs)
| sg_applied o i ns ops cs : segment (map (EvCommit i) ns ++ EvMerge o i ops :: map (EvCommitted i) cs)
| sg_not_open i ns cs : segment (map (EvCommit i) ns ++ map (EvCommitted i) cs)
| sg_closed h cs : segment (map (EvCommitted h) cs)
| sg_not_closed h cs es e : segment (map (EvCommitted h) cs ++ map (fun n => EvError h n e) es).
