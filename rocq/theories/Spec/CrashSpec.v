(** What should survive crashes. *)

From Coq Require Import List NArith Bool Arith.
From Verif.Model Require Import Bytes Go Keys Pebble Index Table Crash.
From Verif.Spec Require Import KeySpec StoreSpec TableSpec HistSpec.
Import ListNotations.

Section Spec.
  Context {T F : Type} (tb : table T F).
  Notation sc := (schema_of tb).

  (** What was done at once: calls with their success, and whether it is safe from now on. *)
  Definition deed : Type := list (call T * bool) * bool.

  (** Everything up to the last safe deed. *)
  Definition safe (us : list deed) (n : nat) : Prop := forall i u, nth_error us i = Some (u, true) -> i < n.

  (** Which deeds are left: [old] from earlier processes, [us] of this one. *)
  Inductive left_over : list deed -> list deed -> list (option deed) -> list deed -> Prop :=
  | left_end old us : left_over old us [] (old ++ us)
  | left_deed old us u rs ks : left_over old (us ++ [u]) rs ks -> left_over old us (Some u :: rs) ks
  | left_crash old us n rs ks : n <= length us -> safe us n -> left_over (old ++ firstn n us) [] rs ks ->
      left_over old us (None :: rs) ks.

  (** [a] is [b] with some elements left out. *)
  Inductive subseq {A} : list A -> list A -> Prop :=
  | sub_nil : subseq [] []
  | sub_take x a b : subseq a b -> subseq (x :: a) (x :: b)
  | sub_drop x a b : subseq a b -> subseq a (x :: b).

  Definition after (m : tmap T) (us : list deed) : tmap T := outcome sc m (concat (map fst us)).

  (** Happenings the theorem is about: calls admissible in the state they meet, batches
      all of whose calls succeed, and after a crash a filter that covers the database. *)
  Fixpoint orderly (m : tmap T) (d : disk) (fl : F) (us : list deed) (es : list (happening T F)) : Prop :=
    match es with
    | [] => True
    | e :: es' =>
        let '(d1, fl1, r) := happen tb d fl e in
        match e, r with
        | HCall ev c, Some u => env_ok ev /\ admissible sc (after m us) c /\ orderly m d1 fl1 (us ++ [u]) es'
        | HBatch h _, Some u => Forall (fun ec => env_ok (fst ec) /\ quiet (fst ec)) h /\
            all_succeed sc (after m us) (map snd h) /\ orderly m d1 fl1 (us ++ [u]) es'
        | HCrash n init, _ => (forall db, kv_ok db -> covers tb (init db) db) /\
            orderly (after m (firstn (Nat.max n (on_disk (k_log d))) us)) d1 fl1 [] es'
        | _, _ => False
        end
    end.
End Spec.
