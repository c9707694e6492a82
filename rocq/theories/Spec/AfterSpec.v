(** What After makes of a query without Order, whatever row it is given. *)

From Coq Require Import List NArith Bool.
From Verif.Model Require Import Bytes Go Keys Pebble Index Table Scan Query.
From Verif.Spec Require Import KeySpec StoreSpec TableSpec ScanSpec QuerySpec.
Import ListNotations.

Section Resumes.
  Context {T : Type}.
  Variable sc : schema T.
  Variable ix : sindex T.
  Variable a : T.

  (** A point ahead of [a] stays, one with the index key of [a] becomes [a], the rest goes. *)
  Inductive moved_point : T -> list T -> Prop :=
  | mp_ahead p : pos_lt sc ix a p -> moved_point p [p]
  | mp_here p : pos_le sc ix p a -> si_key ix p = si_key ix a -> moved_point p [a]
  | mp_past p : pos_le sc ix p a -> si_key ix p <> si_key ix a -> moved_point p [].

  (** A range ahead of [a] stays, one that holds [a] starts at [a], the rest goes. *)
  Inductive moved_range : list T -> list (list T) -> Prop :=
  | mr_ahead lo hi : pos_lt sc ix a lo -> moved_range [lo; hi] [[lo; hi]]
  | mr_here lo hi : pos_le sc ix lo a -> pos_le sc ix a hi -> moved_range [lo; hi] [[a; hi]]
  | mr_past lo hi : pos_le sc ix lo a -> pos_lt sc ix hi a -> moved_range [lo; hi] [].

  (** A single point becomes [a]; a single range starts at [a], wherever that is. *)
  Inductive resumes : selector T -> selector T -> Prop :=
  | re_point p : resumes (SPoint p) (SPoint a)
  | re_range lo hi : resumes (SRange lo hi) (SRange a hi)
  | re_points ps pss : Forall2 moved_point ps pss -> resumes (SPoints ps) (SPoints (concat pss))
  | re_ranges rs rss : Forall2 moved_range rs rss -> resumes (SRanges rs) (SRanges (concat rss)).

  (** Without the first row, if it is where [a] is. *)
  Inductive less_first : list T -> list T -> Prop :=
  | lf_nil : less_first [] []
  | lf_same r l : pos_cmp sc ix a r = Eq -> less_first (r :: l) l
  | lf_other r l : pos_cmp sc ix a r <> Eq -> less_first (r :: l) (r :: l).

  Definition nothing_left (sel : selector T) : Prop := sel = SPoints [] \/ sel = SRanges [].
End Resumes.
