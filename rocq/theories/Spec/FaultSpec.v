(** What calls should do when reads fail. *)

From Coq Require Import List NArith Bool.
From Verif.Model Require Import Bytes Go Keys Pebble Index Table Scan.
From Verif.Spec Require Import KeySpec StoreSpec TableSpec ScanSpec.
Import ListNotations.

(** Reading lists one after another when reads fail: of each list a first part is seen. [true]: no error is noticed, and then the last list was
    seen to its end. *)
Inductive in_parts {A} : list (list A) -> list A -> bool -> Prop :=
| seen_all l : in_parts [l] l true
| seen_cut l1 l2 : in_parts [l1 ++ l2] l1 false
| seen_more l1 l2 ls l ok : ls <> [] -> in_parts ls l ok -> in_parts ((l1 ++ l2) :: ls) (l1 ++ l) ok.

(** The selections in scan direction. *)
Definition dirs {A} (rv : bool) (ls : list (list A)) : list (list A) := if rv then rev (map (@rev A) ls) else ls.

(** A callback that returns an error if it cannot load a row. *)
Definition gives_up {T W} (f : W -> bytes -> prog (T:=T) W) : Prop :=
  forall s k g e, f s k = PGet g -> exists s' c e', g (Err e) = PRet s' c (Some e').

(** The state is [s], or what the callback leaves when it cannot load the row it is called for in [s]. *)
Definition left_in {T W} (f : W -> bytes -> prog (T:=T) W) (s s' : W) : Prop :=
  s' = s \/ exists k g e c e', f s k = PGet g /\ g (Err e) = PRet s' c (Some e').

(** The callback was called for [l], then the scan returned; if the callback did not end it, with an error unless [ok]. *)
Definition told {T W} (f : W -> bytes -> prog (T:=T) W) (l : list (bytes * T)) (ok : bool) (s : W) (out : W * res unit) : Prop :=
  match visit_go f l s with
  | inl o => out = o
  | inr s1 => if ok then out = (s1, Ok tt) else exists e s2, out = (s2, Err e) /\ left_in f s1 s2
  end.

(** Selectors of one point or range. *)
Definition one_selection {T} (sel : selector T) : Prop :=
  match sel with SPoint _ | SRange _ _ => True | _ => False end.
