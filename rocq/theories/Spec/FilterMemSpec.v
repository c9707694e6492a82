(** Several filters with prefixes that are values, and memory a filter does not own. *)

From Coq Require Import List NArith.
From Verif.Model Require Import Bytes Go Keys Slices Bloom.
From Verif.Spec Require Import SliceSpec.
Import ListNotations.

(** The calls of several filters, each with a prefix of its own. *)
Fixpoint filters_run {S} (st : storer S) cd hs (cs : list config) (s : S) (bss : list (list bucket)) (os : list (nat * bop_f))
    : S * list (list bucket) * list (res unit) :=
  match os with
  | [] => (s, bss, [])
  | (i, o) :: os' =>
      match nth_error cs i, nth_error bss i with
      | Some c, Some bs =>
          let '(s1, bs1, r) := bloom_step st cd hs c s bs o in
          let '(s2, bss2, rs) := filters_run st cd hs cs s1 (firstn i bss ++ bs1 :: skipn (Datatypes.S i) bss) os' in
          (s2, bss2, r :: rs)
      | _, _ => filters_run st cd hs cs s bss os'
      end
  end.

(** No slice's free room holds bytes another slice shows. *)
Definition no_sharing (l : list slc) : Prop := forall s t, In s l -> In t l -> apart s t.

(** The memory the capacity of [s] covers behind it. *)
Definition behind (s : slc) : slc := Slc (sl_arr s) (sl_off s + sl_len s) (sl_cap s - sl_len s) (sl_cap s - sl_len s).
