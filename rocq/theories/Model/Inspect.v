(** Queries given as maps of field values: /repo/inspect. *)

From Coq Require Import List NArith ZArith Bool Arith Strings.String Strings.Byte.
From Verif.Model Require Import Bytes Go Keys Pebble Index Table Scan Query.
Import ListNotations.
Local Open Scope list_scope.

(** ** Values *)

(** The reflect.Kind of the fields and values that are modelled, /repo/inspect/inspect.go:116, 219: bool, int8..int64 and uint8..uint64 by their number
    of bytes ([0] is int and uint), float64, string, []byte. Other kinds (structs, maps, pointers, other slices, float32, complex numbers) are not modelled. *)
Inductive kind := KBool | KInt (w : nat) | KUint (w : nat) | KFloat | KString | KBytes.

(** A type: the kind and a name, 0 for the predeclared type; Value.Type at /repo/inspect/inspect.go:117, 220. *)
Record gtype := GType { gt_name : nat; gt_kind : kind }.

(** A float64: m * 2^e, an infinity or not a number; /repo/inspect/inspect_handler.go:179-186 (JSON numbers become float64). The sign of zero is
    dropped: == and the conversions do not see it. *)
Inductive flt64 := FNum (m e : Z) | FInf (neg : bool) | FNan.

(** What a value holds; nil and empty byte slices are not distinguished. /repo/inspect/inspect.go:113, 216. *)
Inductive data := DBool (b : bool) | DInt (z : Z) | DFlt (f : flt64) | DBytes (l : bytes).

(** A value in an interface{} that is not nil; /repo/inspect/inspect.go:72. *)
Record gval := GVal { gv_type : gtype; gv_data : data }.

(** Comparison of kinds, /repo/inspect/inspect.go:116, 219, and of types, inside reflect.DeepEqual (125) and Value.Set (227). *)
Definition kind_eq_dec (a b : kind) : {a = b} + {a <> b}.
Proof. decide equality; apply Nat.eq_dec. Defined.
Definition kind_eqb (a b : kind) : bool := if kind_eq_dec a b then true else false.
Definition gtype_eqb (a b : gtype) : bool := Nat.eqb (gt_name a) (gt_name b) && kind_eqb (gt_kind a) (gt_kind b).

(** The bytes of an integer kind; /repo/inspect/inspect.go:118, 221. *)
Definition width (w : nat) : nat := match w with O => 8 | _ => w end.

(** The nearest float64 of an integer, ties to even: Value.Convert (/repo/inspect/inspect.go:118, 221) and reading a JSON number
    (/repo/inspect/inspect_handler.go:202). Integers here are far below the largest float64. *)
Definition round53 (z : Z) : Z :=
  let a := Z.abs z in
  if (a <? 2 ^ 53)%Z then z
  else
    let e := (Z.log2 a - 52)%Z in
    let q := (a / 2 ^ e)%Z in
    let r := (a mod 2 ^ e)%Z in
    let q := if ((r <? 2 ^ (e - 1)) || ((r =? 2 ^ (e - 1)) && Z.even q))%Z%bool then q else (q + 1)%Z in
    (Z.sgn z * (q * 2 ^ e))%Z.

(** The integer part of m * 2^e; Go's conversion of a float64 to an integer, /repo/inspect/inspect.go:118, 221. *)
Definition flt_trunc (m e : Z) : Z := if (0 <=? e)%Z then (m * 2 ^ e)%Z else Z.quot m (2 ^ (- e)).

(** The UTF-8 encoding of a code point, U+FFFD if it is none: string(rune(x)), done by Value.Convert of an integer to a string, /repo/inspect/inspect.go:118, 221. *)
Definition rune_bytes (z : Z) : bytes :=
  let z := if ((0 <=? z) && (z <? 1114112) && negb ((55296 <=? z) && (z <? 57344)))%Z%bool then z else 65533%Z in
  let n := Z.to_N z in
  let tail (k : N) := n2b (128 + (n / 64 ^ k) mod 64) in
  if (n <? 128)%N then [n2b n]
  else if (n <? 2048)%N then [n2b (192 + n / 64); tail 0%N]
  else if (n <? 65536)%N then [n2b (224 + n / 4096); tail 1%N; tail 0%N]
  else [n2b (240 + n / 262144); tail 2%N; tail 1%N; tail 0%N].

(** == of two float64, inside reflect.DeepEqual; /repo/inspect/inspect.go:125. *)
Definition flt_eqb (a b : flt64) : bool :=
  match a, b with
  | FNum m1 e1, FNum m2 e2 => let c := Z.min e1 e2 in (m1 * 2 ^ (e1 - c) =? m2 * 2 ^ (e2 - c))%Z
  | FInf s1, FInf s2 => Bool.eqb s1 s2
  | _, _ => false
  end.

(** reflect.DeepEqual of two values; /repo/inspect/inspect.go:125. *)
Definition deep_equal (a b : gval) : bool :=
  gtype_eqb (gv_type a) (gv_type b) &&
  match gv_data a, gv_data b with
  | DBool x, DBool y => Bool.eqb x y
  | DInt x, DInt y => (x =? y)%Z
  | DFlt x, DFlt y => flt_eqb x y
  | DBytes x, DBytes y => beqb x y
  | _, _ => false
  end.

Section Reflect.
  (** What a float64 outside the range of int64 and uint64 becomes (it depends on the machine); /repo/inspect/inspect.go:118, 221. *)
  Variable outside : flt64 -> Z.

  (** A float64 as a 64-bit integer of the range [lo..hi); /repo/inspect/inspect.go:118, 221. *)
  Definition flt_int (lo hi : Z) (f : flt64) : Z :=
    match f with
    | FNum m e => let z := flt_trunc m e in if ((lo <=? z) && (z <? hi))%Z%bool then z else outside f
    | _ => outside f
    end.

  (** Value.CanConvert and Value.Convert, /repo/inspect/inspect.go:117-118, 220-221; [None]: cannot. *)
  Definition convert (v : gval) (t : gtype) : option gval :=
    match gv_data v, gt_kind t with
    | DInt z, KInt w => Some (GVal t (DInt (to_signed (width w) z)))
    | DInt z, KUint w => Some (GVal t (DInt (Z.of_N (to_unsigned (width w) z))))
    | DInt z, KFloat => Some (GVal t (DFlt (FNum (round53 z) 0)))
    | DInt z, KString => Some (GVal t (DBytes (rune_bytes z)))
    | DFlt f, KInt w => Some (GVal t (DInt (to_signed (width w) (flt_int (- 2 ^ 63) (2 ^ 63) f))))
    | DFlt f, KUint w => Some (GVal t (DInt (Z.of_N (to_unsigned (width w) (flt_int 0 (2 ^ 64) f)))))
    | DFlt f, KFloat => Some (GVal t (DFlt f))
    | DBytes l, (KString | KBytes) => Some (GVal t (DBytes l))
    | DBool b, KBool => Some (GVal t (DBool b))
    | _, _ => None
    end.

  (** A record as structs.Map gives it, /repo/inspect/inspect.go:63, 110, 170, 214: the exported fields by name. Simplified: no struct tags and no nested structs. *)
  Definition row := list (bytes * gval).

  (** row[name]; /repo/inspect/inspect.go:114, 215. *)
  Fixpoint field (r : row) (n : bytes) : option gval :=
    match r with
    | [] => None
    | (x, v) :: r' => if beqb x n then Some v else field r' n
    end.

  (** One round of the loop of the filter function, /repo/inspect/inspect.go:112-133. A nil value (which panics at line 117) is not modelled. *)
  Definition field_matches (r : row) (nv : bytes * gval) : bool :=
    match field r (fst nv) with
    | Some rv =>
        if kind_eqb (gt_kind (gv_type (snd nv))) (gt_kind (gv_type rv)) then deep_equal (snd nv) rv
        else match convert (snd nv) (gv_type rv) with
             | Some v => deep_equal v rv
             | None => false
             end
    | None => false
    end.

  (** The filter function, /repo/inspect/inspect.go:108-136; the map is given in the order in which range visits it. *)
  Definition filter_row (fs : list (bytes * gval)) (r : row) : bool := forallb (field_matches r) fs.

  (** vv.Set of a field, /repo/inspect/inspect.go:227. *)
  Fixpoint put_field (r : row) (n : bytes) (v : gval) : row :=
    match r with
    | [] => []
    | (x, w) :: r' => if beqb x n then (x, v) :: r' else (x, w) :: put_field r' n v
    end.

  (** May a value of type [a] be Set into a field of type [b] of the same kind? []byte is the only modelled type without a name. /repo/inspect/inspect.go:227. *)
  Definition assignable (a b : gtype) : bool :=
    gtype_eqb a b || match gt_kind a with KBytes => Nat.eqb (gt_name a) 0 || Nat.eqb (gt_name b) 0 | _ => false end.

  (** One round of setFields, /repo/inspect/inspect.go:213-231; [None] is nil, for which CanConvert panics (220). Set (227) panics if the value is not
      assignable to the field: the kinds agree, the types do not, and both have names. *)
  Definition set_field (r : row) (n : bytes) (v : option gval) : res row :=
    match field r n with
    | None => Err EOther
    | Some old =>
        match v with
        | None => Panic
        | Some v =>
            if kind_eqb (gt_kind (gv_type v)) (gt_kind (gv_type old))
            then if assignable (gv_type v) (gv_type old) then Ok (put_field r n (GVal (gv_type old) (gv_data v))) else Panic
            else match convert v (gv_type old) with
                 | Some v' => Ok (put_field r n v')
                 | None => Err EOther
                 end
        end
    end.

  (** /repo/inspect/inspect.go:208-234 setFields; the map is given in the order in which range visits it. *)
  Fixpoint set_fields (r : row) (vs : list (bytes * option gval)) : res row :=
    match vs with
    | [] => Ok r
    | (n, v) :: vs' => match set_field r n v with Ok r' => set_fields r' vs' | e => e end
    end.

  (** What reflection sees of a record type: its fields, a record with given fields, and is T a pointer to a struct; /repo/utils/reflect.go:19-31. *)
  Record refl (T : Type) := Refl { rf_map : T -> row; rf_make : row -> T; rf_ptr : bool }.
  Arguments rf_map {T}.
  Arguments rf_make {T}.
  Arguments rf_ptr {T}.

  (** The record for an index selector or for After: /repo/inspect/inspect.go:94-101, 147-153. If T is not a pointer, MakeValue gives a pointer to T and the
      Call with it panics. *)
  Definition make_record {T} (rf : refl T) (zero : T) (vs : list (bytes * option gval)) : res T :=
    match set_fields (rf_map rf zero) vs with
    | Ok r => if rf_ptr rf then Ok (rf_make rf r) else Panic
    | Err e => Err e
    | Panic => Panic
    | Diverge => Diverge
    end.

  (** The name of the primary index, /repo/index.go:121. *)
  Definition primary_name : bytes := list_byte_of_string "primary".

  (** sort.Slice by ID, /repo/table.go:205-207. *)
  Fixpoint insert_index {T} (ix : index T) (l : list (index T)) : list (index T) :=
    match l with
    | [] => [ix]
    | j :: l' => if (b2n (ix_id ix) <=? b2n (ix_id j))%N then ix :: l else j :: insert_index ix l'
    end.

  (** /repo/table.go:196-210 Indexes. *)
  Definition indexes_of {T F} (tb : table T F) : list (index T) :=
    fold_right insert_index [] (primary_index :: t_indexes tb).

  (** The inner loop of findTableAndIndexInfo, /repo/inspect/inspect.go:187-192; [names] are the names of the indexes by id. *)
  Definition find_index {T F} (tb : table T F) (names : byte -> bytes) (name : bytes) : option (index T) :=
    find (fun ix => beqb (names (ix_id ix)) (match name with [] => primary_name | _ => name end)) (indexes_of tb).

  Section Query.
    Context {T F : Type}.
    Variable tb : table T F.
    Variable ev : env T.
    Variable srt : (T -> T -> bool) -> list T -> list T.
    Variable rf : refl T.
    Variable names : byte -> bytes.

    (** /repo/inspect/inspect.go:92-104: With, except for the primary index. *)
    Definition with_selector (q : query T) (ix : index T) (sel : list (bytes * option gval)) : res (query T) :=
      if beqb (names (ix_id ix)) primary_name then Ok q
      else match make_record rf (t_empty tb) sel with
           | Ok p => Ok (q_with q ix (SPoint p))
           | Err e => Err e
           | Panic => Panic
           | Diverge => Diverge
           end.

    (** /repo/inspect/inspect.go:106-144. *)
    Definition with_filter (q : query T) (fs : option (list (bytes * gval))) : query T :=
      match fs with Some fs => q_with_filter q (fun r => filter_row fs (rf_map rf r)) | None => q end.
    Definition with_limit (q : query T) (limit : N) : query T := if (0 <? limit)%N then q_with_limit q limit else q.

    (** /repo/inspect/inspect.go:146-154. *)
    Definition with_after (q : query T) (after : option (list (bytes * option gval))) : res (query T) :=
      match after with
      | None => Ok q
      | Some vs => match make_record rf (t_empty tb) vs with
                   | Ok a => Ok (q_with_after q a)
                   | Err e => Err e
                   | Panic => Panic
                   | Diverge => Diverge
                   end
      end.

    (** /repo/inspect/inspect.go:77-174 Query for a table that has been found. *)
    Definition table_query (fuel : nat) (db : kv) (fl : F) (index : bytes) (sel : list (bytes * option gval)) (fs : option (list (bytes * gval)))
        (limit : N) (after : option (list (bytes * option gval))) : res (list row) :=
      match find_index tb names index with
      | None => Err EOther
      | Some ix =>
          match with_selector (new_query tb) ix sel with
          | Ok q =>
              match with_after (with_limit (with_filter q fs) limit) after with
              | Ok q => match execute tb ev srt fuel db fl q NoBatch with
                        | Ok l => Ok (map (rf_map rf) l)
                        | Err e => Err e
                        | Panic => Panic
                        | Diverge => Diverge
                        end
              | Err e => Err e
              | Panic => Panic
              | Diverge => Diverge
              end
          | Err e => Err e
          | Panic => Panic
          | Diverge => Diverge
          end
      end.
  End Query.
End Reflect.
Arguments rf_map {T}.
Arguments rf_make {T}.
Arguments rf_ptr {T}.
Arguments Refl {T}.

(** ** The inspector *)

(** The arguments of Query behind the table name, /repo/inspect/inspect.go:72. *)
Record request := Request {
  rq_index : bytes;
  rq_sel : list (bytes * option gval);
  rq_filter : option (list (bytes * gval));
  rq_limit : N;
  rq_after : option (list (bytes * option gval))
}.

(** A bond.TableInfo as the inspector uses it: name, names of its indexes, fields of its zero record, and its queries; /repo/table.go:33-42. *)
Record tinfo := TInfo { ti_name : bytes; ti_indexes : list bytes; ti_fields : row; ti_query : request -> res (list row) }.

(** The TableInfo of a table, at a moment of the database and with a filter; /repo/inspect/inspect.go:25-27. *)
Definition info_of {T F} (outside : flt64 -> Z) (tb : table T F) (ev : env T) (srt : (T -> T -> bool) -> list T -> list T) (rf : refl T)
    (name : bytes) (names : byte -> bytes) (fuel : nat) (db : kv) (fl : F) : tinfo :=
  TInfo name (map (fun ix => names (ix_id ix)) (indexes_of tb)) (rf_map rf (t_empty tb))
    (fun q => table_query outside tb ev srt rf names fuel db fl (rq_index q) (rq_sel q) (rq_filter q) (rq_limit q) (rq_after q)).

(** The loops over the tables: the first with the name; /repo/inspect/inspect.go:42-49, 55-68, 184-195. *)
Definition find_info (tis : list tinfo) (name : bytes) : option tinfo := find (fun ti => beqb (ti_name ti) name) tis.

(** /repo/inspect/inspect.go:29-37 Tables. *)
Definition inspect_tables (tis : list tinfo) : list bytes := map ti_name tis.

(** /repo/inspect/inspect.go:39-52 Indexes. *)
Definition inspect_indexes (tis : list tinfo) (name : bytes) : res (list bytes) :=
  match find_info tis name with Some ti => Ok (ti_indexes ti) | None => Err EOther end.

(** /repo/inspect/inspect.go:54-70 EntryFields. *)
Definition inspect_fields (tis : list tinfo) (name : bytes) : res (list (bytes * kind)) :=
  match find_info tis name with
  | Some ti => Ok (map (fun nv => (fst nv, gt_kind (gv_type (snd nv)))) (ti_fields ti))
  | None => Err EOther
  end.

(** /repo/inspect/inspect.go:72-174 Query. *)
Definition inspect_query (tis : list tinfo) (name : bytes) (q : request) : res (list row) :=
  match name with
  | [] => Err EOther
  | _ => match find_info tis name with Some ti => ti_query ti q | None => Err EOther end
  end.

(** ** The remote inspector *)

Section Remote.
  (** What json.Marshal and json.Unmarshal make of a string: invalid UTF-8 is replaced; /repo/inspect/inspect_handler_client.go:147, 171. *)
  Variable clean : bytes -> bytes.

  (** One character of base64, for []byte in json.Marshal; /repo/inspect/inspect_handler.go:217. *)
  Definition b64_char (n : N) : byte :=
    n2b (if (n <? 26)%N then 65 + n else if (n <? 52)%N then 71 + n else if (n <? 62)%N then n - 4 else if (n =? 62)%N then 43 else 47)%N.

  (** Base64 with padding, for []byte in json.Marshal; /repo/inspect/inspect_handler.go:217. *)
  Fixpoint b64 (l : bytes) : bytes :=
    match l with
    | a :: b :: c :: l' =>
        let n := (b2n a * 65536 + b2n b * 256 + b2n c)%N in
        b64_char (n / 262144) :: b64_char ((n / 4096) mod 64) :: b64_char ((n / 64) mod 64) :: b64_char (n mod 64) :: b64 l'
    | [a; b] =>
        let n := (b2n a * 65536 + b2n b * 256)%N in
        [b64_char (n / 262144); b64_char ((n / 4096) mod 64); b64_char ((n / 64) mod 64); x3d]
    | [a] => let n := (b2n a * 65536)%N in [b64_char (n / 262144); b64_char ((n / 4096) mod 64); x3d; x3d]
    | [] => []
    end.

  (** A value through json.Marshal and json.Unmarshal into an interface{}, [None] if Marshal fails; /repo/inspect/inspect_handler_client.go:147, 171,
      /repo/inspect/inspect_handler.go:202, 217. A float64 is written so that it is read back as the same. *)
  Definition json_val (v : gval) : option gval :=
    match gv_data v with
    | DBool b => Some (GVal (GType 0 KBool) (DBool b))
    | DInt z => Some (GVal (GType 0 KFloat) (DFlt (FNum (round53 z) 0)))
    | DFlt (FNum m e) => Some (GVal (GType 0 KFloat) (DFlt (FNum m e)))
    | DFlt _ => None
    | DBytes l => Some (GVal (GType 0 KString) (DBytes (match gt_kind (gv_type v) with KBytes => b64 l | _ => clean l end)))
    end.

  (** A map through JSON; field names are assumed to be plain. /repo/inspect/inspect_handler_client.go:147, 171. *)
  Fixpoint json_row (r : row) : option row :=
    match r with
    | [] => Some []
    | (n, v) :: r' => match json_val v, json_row r' with Some v', Some l => Some ((n, v') :: l) | _, _ => None end
    end.

  (** As [json_row], for a map that may hold nil (null); /repo/inspect/inspect_handler_client.go:147. *)
  Fixpoint json_opts (r : list (bytes * option gval)) : option (list (bytes * option gval)) :=
    match r with
    | [] => Some []
    | (n, None) :: r' => match json_opts r' with Some l => Some ((n, None) :: l) | None => None end
    | (n, Some v) :: r' => match json_val v, json_opts r' with Some v', Some l => Some ((n, Some v') :: l) | _, _ => None end
    end.

  (** A list of maps through JSON; /repo/inspect/inspect_handler.go:217, /repo/inspect/inspect_handler_client.go:171. *)
  Fixpoint json_rows (l : list row) : option (list row) :=
    match l with
    | [] => Some []
    | r :: l' => match json_row r, json_rows l' with Some r', Some l2 => Some (r' :: l2) | _, _ => None end
    end.

  (** requestQuery through JSON: /repo/inspect/inspect_handler.go:179-186, 202, /repo/inspect/inspect_handler_client.go:138-147. Nil maps stay nil. *)
  Definition json_request (q : request) : option request :=
    match json_opts (rq_sel q),
          match rq_filter q with None => Some None | Some fs => match json_row fs with Some l => Some (Some l) | None => None end end,
          match rq_after q with None => Some None | Some vs => match json_opts vs with Some l => Some (Some l) | None => None end end with
    | Some sel, Some fs, Some after => Some (Request (rq_index q) sel fs (rq_limit q) after)
    | _, _, _ => None
    end.

  (** Query of the remote inspector and of the handler: /repo/inspect/inspect_handler_client.go:137-177, /repo/inspect/inspect_handler.go:188-228. The context of
      the client is not sent. A panic of the handler breaks the connection. Simplified: the network works. *)
  Definition remote_query (tis : list tinfo) (name : bytes) (q : request) : res (list row) :=
    match json_request q with
    | None => Err EOther
    | Some q' =>
        match inspect_query tis name q' with
        | Ok l => match json_rows l with Some l' => Ok l' | None => Err EOther end
        | Err _ | Panic => Err EOther
        | Diverge => Diverge
        end
    end.
End Remote.
