(** The inspector over HTTP: the handler of /repo/inspect/inspect_handler.go and the client of /repo/inspect/inspect_handler_client.go. JSON texts
    are trees here: what encoding/json writes it reads back, strings through [clean]. *)

From Coq Require Import List NArith ZArith Bool Arith Strings.String Strings.Byte.
From Verif.Model Require Import Bytes Go Inspect.
Import ListNotations.
Local Open Scope list_scope.

(** A JSON text; numbers without fraction and exponent are apart, since only they can be read as uint64. /repo/inspect/inspect_handler.go:184. *)
Inductive json := JNull | JBool (b : bool) | JInt (z : Z) | JNum (m e : Z) | JStr (s : bytes) | JArr (l : list json) | JObj (l : list (bytes * json)).

(** A request as the handler sees it: URL.Path, the header Accept, and the body, [None] if it is not JSON; /repo/inspect/inspect_handler.go:34, 63, 100-107. *)
Record hreq := HReq { hq_path : bytes; hq_accept : bytes; hq_body : option json }.

(** A response: the status and the body, [None] if it is not JSON (also if it is empty); /repo/inspect/inspect_handler.go:230-246. *)
Record hresp := HResp { hr_status : N; hr_body : option json }.

(** /repo/inspect/inspect_handler.go:10-15. *)
Definition tables_path : bytes := list_byte_of_string "/tables".
Definition indexes_path : bytes := list_byte_of_string "/indexes".
Definition fields_path : bytes := list_byte_of_string "/entryFields".
Definition query_path : bytes := list_byte_of_string "/query".
Definition json_type_name : bytes := list_byte_of_string "application/json".

(** The regular expressions "…$", /repo/inspect/inspect_handler.go:20-23. *)
Definition ends_in (suffix path : bytes) : bool := has_prefix (rev suffix) (rev path).

(** A name with its letters folded, as encoding/json compares the names of fields: capital and small letters are the same, and so are the long s (U+017F) and s, the
    Kelvin sign (U+212A) and k. Of other letters it does not matter, the names here have none. /repo/inspect/inspect_handler.go:90, 107, 180-185, 202. *)
Fixpoint fold_name (s : bytes) : bytes :=
  match s with
  | [] => []
  | c :: s1 =>
      let plain := (if ((65 <=? b2n c) && (b2n c <=? 90))%N%bool then n2b (b2n c + 32) else c) :: fold_name s1 in
      match s1 with
      | [] => plain
      | d :: s2 =>
          if (Byte.eqb c xc5 && Byte.eqb d xbf)%bool then x73 :: fold_name s2
          else match s2 with
               | [] => plain
               | e :: s3 => if (Byte.eqb c xe2 && Byte.eqb d x84 && Byte.eqb e xaa)%bool then x6b :: fold_name s3 else plain
               end
      end
  end.

(** A field of a struct read from an object: the last of the name. Simplified: in Go a second value null leaves a string or number alone, and a second object is
    added to the first. /repo/inspect/inspect_handler.go:90, 180-185. *)
Definition jfield (o : list (bytes * json)) (n : bytes) : json :=
  match find (fun e => beqb (fold_name (fst e)) (fold_name n)) (rev o) with Some e => snd e | None => JNull end.

(** json.Unmarshal into a string: null leaves it alone; /repo/inspect/inspect_handler.go:107. *)
Definition dec_string (j : json) : option bytes := match j with JStr s => Some s | JNull => Some [] | _ => None end.

(** ... into []string; /repo/inspect/inspect_handler_client.go:59, 94. *)
Definition dec_strings (j : json) : option (list bytes) :=
  match j with
  | JNull => Some []
  | JArr l => fold_right (fun j acc => match dec_string j, acc with Some s, Some r => Some (s :: r) | _, _ => None end) (Some []) l
  | _ => None
  end.

(** ... into map[string]string; /repo/inspect/inspect_handler_client.go:129. *)
Definition dec_string_map (j : json) : option (list (bytes * bytes)) :=
  match j with
  | JNull => Some []
  | JObj l => fold_right (fun e acc => match dec_string (snd e), acc with Some s, Some r => Some ((fst e, s) :: r) | _, _ => None end) (Some []) l
  | _ => None
  end.

(** ... into uint64; /repo/inspect/inspect_handler.go:184. *)
Definition dec_limit (j : json) : option N :=
  match j with
  | JNull => Some 0%N
  | JInt z => if ((0 <=? z) && (z <? 2 ^ 64))%Z%bool then Some (Z.to_N z) else None
  | _ => None
  end.

(** ... into an interface{}; /repo/inspect/inspect_handler.go:182-185, /repo/inspect/inspect_handler_client.go:171. [Some None] is nil. Arrays and objects as
    field values are not modelled: they count as unreadable. *)
Definition dec_val (j : json) : option (option gval) :=
  match j with
  | JNull => Some None
  | JBool b => Some (Some (GVal (GType 0 KBool) (DBool b)))
  | JInt z => Some (Some (GVal (GType 0 KFloat) (DFlt (FNum (round53 z) 0))))
  | JNum m e => Some (Some (GVal (GType 0 KFloat) (DFlt (FNum m e))))
  | JStr s => Some (Some (GVal (GType 0 KString) (DBytes s)))
  | JArr _ | JObj _ => None
  end.

(** ... into map[string]interface{} that may be nil; /repo/inspect/inspect_handler.go:182, 185. *)
Definition dec_opts (j : json) : option (option (list (bytes * option gval))) :=
  match j with
  | JNull => Some None
  | JObj l =>
      match fold_right (fun e acc => match dec_val (snd e), acc with Some v, Some r => Some ((fst e, v) :: r) | _, _ => None end) (Some []) l with
      | Some r => Some (Some r)
      | None => None
      end
  | _ => None
  end.

(** ... the same where no value is null (null in a filter is not modelled, see [field_matches]); /repo/inspect/inspect_handler.go:183,
    /repo/inspect/inspect_handler_client.go:170. *)
Definition dec_row (j : json) : option (option row) :=
  match j with
  | JNull => Some None
  | JObj l =>
      match fold_right (fun e acc => match dec_val (snd e), acc with Some (Some v), Some r => Some ((fst e, v) :: r) | _, _ => None end) (Some []) l with
      | Some r => Some (Some r)
      | None => None
      end
  | _ => None
  end.

(** ... into []map[string]interface{}; /repo/inspect/inspect_handler_client.go:170-171. A null among the rows is a nil map. *)
Definition dec_rows (j : json) : option (list row) :=
  match j with
  | JNull => Some []
  | JArr l =>
      fold_right (fun j acc => match dec_row j, acc with Some (Some x), Some r => Some (x :: r) | Some None, Some r => Some ([] :: r) | _, _ => None end) (Some []) l
  | _ => None
  end.

(** The object a struct is read from; null leaves the struct alone. /repo/inspect/inspect_handler.go:107, 152, 202. *)
Definition dec_obj (j : option json) : option (list (bytes * json)) :=
  match j with Some (JObj l) => Some l | Some JNull => Some [] | _ => None end.

(** Kind.String, /repo/inspect/inspect.go:64. *)
Definition kind_name (k : kind) : bytes :=
  let bits w := list_byte_of_string (match w with 1 => "8" | 2 => "16" | 4 => "32" | 8 => "64" | _ => "" end) in
  match k with
  | KBool => list_byte_of_string "bool"
  | KInt w => list_byte_of_string "int" ++ bits w
  | KUint w => list_byte_of_string "uint" ++ bits w
  | KFloat => list_byte_of_string "float64"
  | KString => list_byte_of_string "string"
  | KBytes => list_byte_of_string "slice"
  end.

(** The names of the fields of the requests, /repo/inspect/inspect_handler.go:90, 180-185, and of an error, 49. *)
Definition f_table : bytes := list_byte_of_string "table".
Definition f_index : bytes := list_byte_of_string "index".
Definition f_selector : bytes := list_byte_of_string "indexSelector".
Definition f_filter : bytes := list_byte_of_string "filter".
Definition f_limit : bytes := list_byte_of_string "limit".
Definition f_after : bytes := list_byte_of_string "after".
Definition f_error : bytes := list_byte_of_string "error".

Section Http.
  (** What json.Marshal makes of a string: invalid UTF-8 is replaced; /repo/inspect/inspect_handler.go:76, /repo/inspect/inspect_handler_client.go:70. *)
  Variable clean : bytes -> bytes.
  (** The text of an error, /repo/inspect/inspect_handler.go:53. *)
  Variable err_text : error -> bytes.

  (** json.Marshal of []string, nil if empty; /repo/inspect/inspect_handler.go:76, 121. *)
  Definition enc_strings (l : list bytes) : json := match l with [] => JNull | _ => JArr (map (fun s => JStr (clean s)) l) end.

  (** json.Marshal of a value, [None]: it fails. /repo/inspect/inspect_handler.go:217, /repo/inspect/inspect_handler_client.go:147. *)
  Definition enc_val (v : gval) : option json :=
    match gv_data v with
    | DBool b => Some (JBool b)
    | DInt z => Some (JInt z)
    | DFlt (FNum m e) => Some (JNum m e)
    | DFlt _ => None
    | DBytes l => Some (JStr (match gt_kind (gv_type v) with KBytes => b64 l | _ => clean l end))
    end.

  (** json.Marshal of a map; its names are assumed to be plain. /repo/inspect/inspect_handler.go:217, /repo/inspect/inspect_handler_client.go:147. *)
  Definition enc_opts (r : list (bytes * option gval)) : option json :=
    match fold_right (fun e acc => match match snd e with Some v => enc_val v | None => Some JNull end, acc with
                                   | Some j, Some l => Some ((fst e, j) :: l) | _, _ => None end) (Some []) r with
    | Some l => Some (JObj l)
    | None => None
    end.
  (** ... of a map without nil; /repo/inspect/inspect_handler.go:217, /repo/inspect/inspect_handler_client.go:147. *)
  Definition enc_row (r : row) : option json := enc_opts (map (fun e => (fst e, Some (snd e))) r).

  (** json.Marshal of the rows, nil if there are none; /repo/inspect/inspect_handler.go:217. *)
  Definition enc_rows (l : list row) : option json :=
    match l with
    | [] => Some JNull
    | _ => match fold_right (fun r acc => match enc_row r, acc with Some j, Some js => Some (j :: js) | _, _ => None end) (Some []) l with
           | Some js => Some (JArr js)
           | None => None
           end
    end.

  (** writeErrorResponse with http.StatusInternalServerError, /repo/inspect/inspect_handler.go:239-246. *)
  Definition fail_with (e : error) : res hresp := Ok (HResp 500 (Some (JObj [(f_error, JStr (clean (err_text e)))]))).

  (** What a handler makes of an answer: the JSON of it or an error; /repo/inspect/inspect_handler.go:115-127, 210-223. A panic breaks the connection. *)
  Definition answer {A} (enc : A -> option json) (r : res A) : res hresp :=
    match r with
    | Ok a => match enc a with Some j => Ok (HResp 200 (Some j)) | None => fail_with EOther end
    | Err e => fail_with e
    | Panic => Panic
    | Diverge => Diverge
    end.

  (** The switch over Accept, /repo/inspect/inspect_handler.go:63-69, 83-85 and alike. *)
  Definition accepts (q : hreq) : bool := match hq_accept q with [] => true | a => beqb a json_type_name end.
  (** http.StatusNotAcceptable without a body, /repo/inspect/inspect_handler.go:83-85 and alike. *)
  Definition not_acceptable : res hresp := Ok (HResp 406 None).

  Variable tis : list tinfo.

  (** /repo/inspect/inspect_handler.go:61-87 buildTablesHandler. *)
  Definition tables_handler (q : hreq) : res hresp :=
    if accepts q then answer (fun l => Some (enc_strings l)) (Ok (inspect_tables tis)) else not_acceptable.

  (** The part of the handlers for indexes and fields that reads the request, /repo/inspect/inspect_handler.go:95-113, 140-158. *)
  Definition with_table (q : hreq) (k : bytes -> res hresp) : res hresp :=
    match dec_obj (hq_body q) with
    | None => fail_with EOther
    | Some o => match dec_string (jfield o f_table) with
                | None => fail_with EOther
                | Some t => if accepts q then k t else not_acceptable
                end
    end.

  (** /repo/inspect/inspect_handler.go:93-132 buildIndexesHandler. *)
  Definition indexes_handler (q : hreq) : res hresp := with_table q (fun t => answer (fun l => Some (enc_strings l)) (inspect_indexes tis t)).

  (** /repo/inspect/inspect_handler.go:138-177 buildEntryFieldsHandler. *)
  Definition fields_handler (q : hreq) : res hresp :=
    with_table q (fun t => answer (fun l => Some (JObj (map (fun e => (fst e, JStr (clean (kind_name (snd e))))) l))) (inspect_fields tis t)).

  (** requestQuery, /repo/inspect/inspect_handler.go:179-186, 201-206. *)
  Definition dec_query (o : list (bytes * json)) : option (bytes * request) :=
    match dec_string (jfield o f_table), dec_string (jfield o f_index), dec_opts (jfield o f_selector), dec_row (jfield o f_filter),
          dec_limit (jfield o f_limit), dec_opts (jfield o f_after) with
    | Some t, Some i, Some sel, Some fs, Some lim, Some after =>
        Some (t, Request i (match sel with Some l => l | None => [] end) fs lim after)
    | _, _, _, _, _, _ => None
    end.

  (** /repo/inspect/inspect_handler.go:188-228 buildQueryHandler; the context of the request is not cancelled (simplified). *)
  Definition query_handler (q : hreq) : res hresp :=
    match dec_obj (hq_body q) with
    | None => fail_with EOther
    | Some o => match dec_query o with
                | None => fail_with EOther
                | Some (t, r) => if accepts q then answer enc_rows (inspect_query tis t r) else not_acceptable
                end
    end.

  (** /repo/inspect/inspect_handler.go:17-46 NewInspectHandler; the body of http.NotFound is not JSON. *)
  Definition serve (q : hreq) : res hresp :=
    if ends_in tables_path (hq_path q) then tables_handler q
    else if ends_in indexes_path (hq_path q) then indexes_handler q
    else if ends_in fields_path (hq_path q) then fields_handler q
    else if ends_in query_path (hq_path q) then query_handler q
    else Ok (HResp 404 None).

  (** ** The client *)

  (** The text before the first [c]; url.Parse cuts at # and at ?. /repo/inspect/inspect_handler_client.go:43. *)
  Fixpoint cut (c : byte) (s : bytes) : bytes :=
    match s with [] => [] | x :: s' => if Byte.eqb x c then [] else x :: cut c s' end.

  (** A hexadecimal digit of an escape, for url.Parse as above; /repo/inspect/inspect_handler_client.go:43. *)
  Definition hex (c : byte) : option N :=
    let n := b2n c in
    if ((48 <=? n) && (n <=? 57))%N%bool then Some (n - 48)%N
    else if ((65 <=? n) && (n <=? 70))%N%bool then Some (n - 55)%N
    else if ((97 <=? n) && (n <=? 102))%N%bool then Some (n - 87)%N
    else None.

  (** The path of a URL without its escapes %xx, [None] if one is wrong; url.Parse, /repo/inspect/inspect_handler_client.go:43, 78, 113, 155. *)
  Fixpoint unescape (s : bytes) : option bytes :=
    match s with
    | [] => Some []
    | c :: s' =>
        if Byte.eqb c x25 then
          match s' with
          | a :: b :: s2 => match hex a, hex b, unescape s2 with
                            | Some x, Some y, Some r => Some (n2b (16 * x + y) :: r)
                            | _, _, _ => None
                            end
          | _ => None
          end
        else match unescape s' with Some r => Some (c :: r) | None => None end
    end.

  (** URL.Path of a URL, of which the scheme and the host are left out; what remains is empty or starts with a slash, ? or #.
      /repo/inspect/inspect_handler_client.go:43, /repo/inspect/inspect_handler.go:34. *)
  Definition url_path (s : bytes) : option bytes := unescape (cut x3f (cut x23 s)).

  (** strings.TrimSuffix(url, "/"), /repo/inspect/inspect_handler_client.go:25-27. *)
  Definition trim_slash (s : bytes) : bytes := match rev s with x2f :: r => rev r | _ => s end.

  (** Two header names are the same but for the case of letters: http.Header canonicalises; SetHeaders at /repo/inspect/inspect_handler_client.go:42 and
      Header.Get at /repo/inspect/inspect_handler.go:63. *)
  Definition lower (c : byte) : byte := let n := b2n c in if ((65 <=? n) && (n <=? 90))%N%bool then n2b (n + 32) else c.
  (** The header Accept of the request, /repo/inspect/inspect_handler_client.go:42, /repo/inspect/inspect_handler.go:63. *)
  Definition accept_of (headers : list (bytes * bytes)) : bytes :=
    match find (fun h => beqb (map lower (fst h)) (list_byte_of_string "accept")) (rev headers) with Some h => snd h | None => [] end.

  Variable base : bytes.
  Variable headers : list (bytes * bytes).

  (** Post to base + path: the response, or an error. The headers are set in the order in which range visits them; the URL leads to the handler; no header
      but Accept matters (resty makes up an Accept if the Content-Type is a JSON type; not modelled). /repo/inspect/inspect_handler_client.go:24-43. *)
  Definition post (path : bytes) (body : option json) : res hresp :=
    match url_path (trim_slash base ++ path) with
    | None => Err EOther
    | Some p => match serve (HReq p (accept_of headers) body) with Panic => Err EOther | r => r end
    end.

  (** What the methods of the client do with the response: /repo/inspect/inspect_handler_client.go:44-64, 79-99, 114-134, 156-176. *)
  Definition receive {A} (dec : json -> option A) (r : res hresp) : res A :=
    match r with
    | Ok h =>
        if (399 <? hr_status h)%N then Err EOther
        else match hr_body h with
             | Some j => match dec j with Some a => Ok a | None => Err EOther end
             | None => Err EOther
             end
    | Err e => Err e
    | Panic => Panic
    | Diverge => Diverge
    end.

  (** /repo/inspect/inspect_handler_client.go:40-65. *)
  Definition client_tables : res (list bytes) := receive dec_strings (post tables_path None).

  (** /repo/inspect/inspect_handler_client.go:67-100. *)
  Definition client_indexes (t : bytes) : res (list bytes) :=
    receive dec_strings (post indexes_path (Some (JObj [(f_table, JStr (clean t))]))).

  (** /repo/inspect/inspect_handler_client.go:102-135. *)
  Definition client_fields (t : bytes) : res (list (bytes * bytes)) :=
    receive dec_string_map (post fields_path (Some (JObj [(f_table, JStr (clean t))]))).

  (** requestQuery as JSON, /repo/inspect/inspect_handler_client.go:138-147. *)
  Definition enc_query (t : bytes) (q : request) : option json :=
    match enc_opts (rq_sel q),
          match rq_filter q with Some fs => enc_row fs | None => Some JNull end,
          match rq_after q with Some vs => enc_opts vs | None => Some JNull end with
    | Some sel, Some fs, Some after =>
        Some (JObj [(f_table, JStr (clean t)); (f_index, JStr (clean (rq_index q))); (f_selector, sel); (f_filter, fs);
                    (f_limit, JInt (Z.of_N (rq_limit q))); (f_after, after)])
    | _, _, _ => None
    end.

  (** /repo/inspect/inspect_handler_client.go:137-177; the context is not sent. *)
  Definition client_query (t : bytes) (q : request) : res (list row) :=
    match enc_query t q with
    | None => Err EOther
    | Some j => receive dec_rows (post query_path (Some j))
    end.
End Http.
