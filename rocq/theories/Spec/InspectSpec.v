(** What queries given as maps of field values should return. *)

From Coq Require Import List NArith ZArith Bool.
From Verif.Model Require Import Bytes Go Keys Index Table Scan Inspect.
From Verif.Spec Require Import KeySpec TableSpec ScanSpec.
Import ListNotations.

(** The number m * 2^e a value stands for. *)
Definition num (d : data) : option (Z * Z) :=
  match d with DInt z => Some (z, 0%Z) | DFlt (FNum m e) => Some (m, e) | _ => None end.

(** m1 * 2^e1 = m2 * 2^e2. *)
Definition same_num (a b : Z * Z) : Prop :=
  (fst a * 2 ^ Z.max 0 (snd a - snd b) = fst b * 2 ^ Z.max 0 (snd b - snd a))%Z.

(** Two values are the same, whatever their types: the same truth value, number, infinity or text. *)
Definition same_data (a b : data) : Prop :=
  match a, b with
  | DBool x, DBool y => x = y
  | DBytes x, DBytes y => x = y
  | DFlt (FInf s), DFlt (FInf t) => s = t
  | _, _ => exists x y, num a = Some x /\ num b = Some y /\ same_num x y
  end.

(** The data of a value is of its type: integers are in range, float64s have 53 bits. *)
Definition well_typed (v : gval) : Prop :=
  match gt_kind (gv_type v), gv_data v with
  | KBool, DBool _ => True
  | KInt w, DInt z => In w [0; 1; 2; 4; 8] /\ int_range (width w) z
  | KUint w, DInt z => In w [0; 1; 2; 4; 8] /\ (0 <= z < 256 ^ Z.of_nat (width w))%Z
  | KFloat, DFlt (FNum m e) => exists m' e', (Z.abs m' < 2 ^ 53)%Z /\ same_num (m, e) (m', e')
  | KFloat, DFlt _ => True
  | (KString | KBytes), DBytes _ => True
  | _, _ => False
  end.

(** [v] fits a field of type [t]: the type can hold its value, and a value of the kind of the field is of its type. *)
Definition val_fits (v : gval) (t : gtype) : Prop :=
  well_typed v /\ (gt_kind (gv_type v) = gt_kind t -> gv_type v = t) /\
  exists d, well_typed (GVal t d) /\ same_data (gv_data v) d.

(** [v] can not be the value of a field of type [t], and is not an integer for a text field. *)
Definition foreign (v : gval) (t : gtype) : Prop :=
  match gt_kind t, gv_data v with
  | KBool, (DInt _ | DFlt _ | DBytes _) => True
  | (KInt _ | KUint _ | KFloat), (DBool _ | DBytes _) => True
  | (KString | KBytes), (DBool _ | DFlt _) => True
  | _, _ => False
  end.

(** The names and types of the fields of a record. *)
Definition shape (r : row) : list (bytes * gtype) := map (fun nv => (fst nv, gv_type (snd nv))) r.

(** A record, as its list of fields, meets a filter. *)
Definition meets (r : row) (fs : list (bytes * gval)) : Prop :=
  forall n v, In (n, v) fs -> exists w, In (n, w) r /\ same_data (gv_data v) (gv_data w).

(** The filter says something about every field it names. *)
Definition fair_filter (r : row) (fs : list (bytes * gval)) : Prop :=
  forall n v w, In (n, v) fs -> In (n, w) r -> val_fits v (gv_type w) \/ foreign v (gv_type w).

(** [r'] has the given values, and those of [r] where none is given. *)
Definition given (r : row) (vs : list (bytes * option gval)) (r' : row) : Prop :=
  shape r' = shape r /\
  forall n w, In (n, w) r' ->
    (exists v, In (n, Some v) vs /\ same_data (gv_data v) (gv_data w)) \/ (~ In n (map fst vs) /\ In (n, w) r).

(** The values name fields of the record, each once, and fit them. *)
Definition settable (r : row) (vs : list (bytes * option gval)) : Prop :=
  NoDup (map fst vs) /\
  forall n ov, In (n, ov) vs -> exists v w, ov = Some v /\ In (n, w) r /\ val_fits v (gv_type w).

(** ** Record types *)

(** What is assumed of reflection, for the records [ok] that a variable of the type can hold: the fields are those of the zero record, have different names
    and values of their types, and make up the record. *)
Record reflects {T} (rf : refl T) (zero : T) (ok : T -> Prop) : Prop := {
  rfl_zero : ok zero;
  rfl_names : NoDup (map fst (rf_map rf zero));
  rfl_shape : forall r, shape (rf_map rf r) = shape (rf_map rf zero);
  rfl_typed : forall r n v, ok r -> In (n, v) (rf_map rf r) -> well_typed v;
  rfl_back : forall r, ok r -> rf_make rf (rf_map rf r) = r;
  rfl_make : forall x, shape x = shape (rf_map rf zero) -> (forall n v, In (n, v) x -> well_typed v) -> ok (rf_make rf x) /\ rf_map rf (rf_make rf x) = x
}.

(** The record [p] is the one that the values describe. *)
Definition described {T} (rf : refl T) (zero : T) (vs : list (bytes * option gval)) (p : T) : Prop :=
  given (rf_map rf zero) vs (rf_map rf p).

(** ** Tables and indexes by name *)

(** The first of the tables that has the name. *)
Definition named_table (tis : list tinfo) (name : bytes) (ti : tinfo) : Prop :=
  exists l1 l2, tis = l1 ++ ti :: l2 /\ ti_name ti = name /\ forall x, In x l1 -> ti_name x <> name.

(** The index that has the name; the empty name is that of the primary index. *)
Definition named_index {T F} (tb : table T F) (names : byte -> bytes) (name : bytes) (ix : index T) : Prop :=
  names x00 = primary_name /\ NoDup (map (fun ix => names (ix_id ix)) (primary_index :: t_indexes tb)) /\
  In ix (primary_index :: t_indexes tb) /\ (name <> [] /\ names (ix_id ix) = name \/ name = [] /\ ix = primary_index).

(** The selector can be used: the primary index needs none; records are pointers, and the values fit the fields. *)
Definition selectable {T F} (tb : table T F) (rf : refl T) (ix : index T) (sel : list (bytes * option gval)) : Prop :=
  if Byte.eqb (ix_id ix) x00 then True else rf_ptr rf = true /\ settable (rf_map rf (t_empty tb)) sel.

(** The point the query starts from: the zero record or the one the selector describes. *)
Definition start_point {T F} (tb : table T F) (rf : refl T) (ix : index T) (sel : list (bytes * option gval)) (p : T) : Prop :=
  if Byte.eqb (ix_id ix) x00 then p = t_empty tb else described rf (t_empty tb) sel p.

(** [f] tells the records that meet the filter. *)
Definition decides {T} (rf : refl T) (ok : T -> Prop) (fs : option (list (bytes * gval))) (f : T -> bool) : Prop :=
  forall r, ok r -> (f r = true <-> match fs with Some fs => meets (rf_map rf r) fs | None => True end).
Definition fair {T} (rf : refl T) (zero : T) (fs : option (list (bytes * gval))) : Prop :=
  match fs with Some fs => fair_filter (rf_map rf zero) fs | None => True end.

(** ** Through JSON *)

(** A value that JSON keeps: no bytes, no infinity, text of UTF-8, integers that float64 has. *)
Definition json_safe (clean : bytes -> bytes) (v : gval) : Prop :=
  match gv_data v with
  | DBool _ => gt_kind (gv_type v) = KBool
  | DInt z => exists m e, (Z.abs m < 2 ^ 53)%Z /\ same_num (z, 0%Z) (m, e)
  | DFlt (FNum _ _) => True
  | DFlt _ => False
  | DBytes l => gt_kind (gv_type v) = KString /\ clean l = l
  end.

(** A field type that JSON values can be given to: bool, float64 and string have no other name. *)
Definition json_type (t : gtype) : Prop :=
  match gt_kind t with KBool | KFloat | KString => gt_name t = 0 | KInt _ | KUint _ => True | KBytes => False end.

(** All the values of a request, and of a record, are such. *)
Definition safe_row (clean : bytes -> bytes) (r : row) : Prop := forall n v, In (n, v) r -> json_safe clean v.
Definition safe_opts (clean : bytes -> bytes) (vs : list (bytes * option gval)) : Prop := forall n v, In (n, Some v) vs -> json_safe clean v.
Definition safe_request (clean : bytes -> bytes) (q : request) : Prop :=
  safe_opts clean (rq_sel q) /\
  match rq_filter q with Some fs => safe_row clean fs | None => True end /\
  match rq_after q with Some vs => safe_opts clean vs | None => True end.

(** The same row, with other types. *)
Definition same_fields (a b : row) : Prop :=
  Forall2 (fun x y => fst x = fst y /\ same_data (gv_data (snd x)) (gv_data (snd y))) a b.
