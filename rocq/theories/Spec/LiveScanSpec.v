(** What a scan should return while the table changes. *)

From Coq Require Import List NArith Bool.
From Verif.Model Require Import Bytes Go Keys Pebble Index Table Scan LiveScan.
From Verif.Spec Require Import KeySpec StoreSpec TableSpec ScanSpec.
Import ListNotations.

(** The rows now stored under the primary keys of [l]; none if one of them is gone. *)
Fixpoint now {T} (sc : schema T) (m : tmap T) (l : list T) : option (list T) :=
  match l with
  | [] => Some []
  | r :: l' => match m (s_pk sc r), now sc m l' with Some x, Some l'' => Some (x :: l'') | _, _ => None end
  end.

(** [l] is fetched in blocks of [p] rows, block number [n] when the table is [ms n]: the rows fetched and whether
    all were found. *)
Inductive fetched {T} (sc : schema T) (p : nat) (ms : nat -> tmap T) : nat -> list T -> list T * bool -> Prop :=
| ft_nil n : fetched sc p ms n [] ([], true)
| ft_block n l blk out ok : l <> [] -> now sc (ms n) (firstn p l) = Some blk -> fetched sc p ms (S n) (skipn p l) (out, ok) ->
    fetched sc p ms n l (blk ++ out, ok)
| ft_lost n l : l <> [] -> now sc (ms n) (firstn p l) = None -> fetched sc p ms n l ([], false).

(** One iterator serves the selector. *)
Definition single {T} (sel : selector T) : Prop :=
  match sel with SPoint _ | SRange _ _ => True | _ => False end.

(** Rows listed point by point or range by range, each when the table was [ms k] for a moment [k] of its own. *)
Inductive listed {T F} (tb : table T F) (ms : nat -> tmap T) (ix : sindex T) : list nat -> list (T -> Prop) -> list T -> Prop :=
| lt_nil : listed tb ms ix [] [] []
| lt_cons k ks P Ps l ls : listing (schema_of tb) ix (ms k) P l -> listed tb ms ix ks Ps ls -> listed tb ms ix (k :: ks) (P :: Ps) (l ++ ls).

(** The selector, on that index, wants the row. *)
Definition picks {T F} (tb : table T F) (idx : index T) (sel : selector T) (r : T) : Prop :=
  si_filter (sindex_of idx) r = true /\
  exists P, In P (selections (schema_of tb) (sindex_of idx) (Byte.eqb (ix_id idx) x00) sel) /\ P r.

(** The rows returned for the entries [l], and whether all were found: those of the primary index carry the rows, behind the others
    the rows are fetched, block number [n] when the table is [ms (gets n)]. *)
Definition gathered {T F} (tb : table T F) (ms : nat -> tmap T) (gets : nat -> nat) (idx : index T) (l out : list T) (ok : bool) : Prop :=
  if Byte.eqb (ix_id idx) x00 then out = l /\ ok = true
  else fetched (schema_of tb) (t_prefetch tb) (fun n => ms (gets n)) 0 l (out, ok).
