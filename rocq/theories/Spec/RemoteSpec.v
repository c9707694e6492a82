(** What asking an inspector over HTTP should give. *)

From Coq Require Import List NArith ZArith Bool Strings.String Strings.Byte.
From Verif.Model Require Import Bytes Go Inspect.
Import ListNotations.
Local Open Scope list_scope.

(** A URL whose percent signs all start an escape of two hexadecimal digits. *)
Definition hex_digit (c : byte) : Prop := In c (list_byte_of_string "0123456789abcdefABCDEF").
Inductive escaped : bytes -> Prop :=
| esc_nil : escaped []
| esc_plain c s : c <> "%"%byte -> escaped s -> escaped (c :: s)
| esc_hex a b s : hex_digit a -> hex_digit b -> escaped s -> escaped ("%"%byte :: a :: b :: s).

(** A URL with neither a query nor a fragment. *)
Definition no_query (url : bytes) : Prop := ~ In "?"%byte url /\ ~ In "#"%byte url.

(** A header that is called Accept, in small or capital letters, and what may be in it. *)
Definition is_accept (n : bytes) : Prop :=
  Forall2 (fun a b => a = b \/ (b2n a + 32 = b2n b)%N) n (list_byte_of_string "accept").
Definition wants_json (v : bytes) : Prop := v = [] \/ v = list_byte_of_string "application/json".
Definition json_accepted (headers : list (bytes * bytes)) : Prop := forall n v, In (n, v) headers -> is_accept n -> wants_json v.
Definition json_refused (headers : list (bytes * bytes)) : Prop :=
  (exists n v, In (n, v) headers /\ is_accept n) /\ forall n v, In (n, v) headers -> is_accept n -> ~ wants_json v.

(** JSON leaves plain text alone. *)
Definition keeps_ascii (clean : bytes -> bytes) : Prop := forall s, (forall c, In c s -> (b2n c < 128)%N) -> clean s = s.

(** How a list or an error arrives. *)
Definition arrives {A B} (f : A -> B) (r : res (list A)) : res (list B) :=
  match r with Ok l => Ok (map f l) | Err _ | Panic => Err EOther | Diverge => Diverge end.

(** The names that a type has in Go. *)
Inductive go_name : kind -> string -> Prop :=
| gn_bool : go_name KBool "bool"
| gn_int : go_name (KInt 0) "int"
| gn_int8 : go_name (KInt 1) "int8"
| gn_int16 : go_name (KInt 2) "int16"
| gn_int32 : go_name (KInt 4) "int32"
| gn_int64 : go_name (KInt 8) "int64"
| gn_uint : go_name (KUint 0) "uint"
| gn_uint8 : go_name (KUint 1) "uint8"
| gn_uint16 : go_name (KUint 2) "uint16"
| gn_uint32 : go_name (KUint 4) "uint32"
| gn_uint64 : go_name (KUint 8) "uint64"
| gn_float : go_name KFloat "float64"
| gn_string : go_name KString "string"
| gn_bytes : go_name KBytes "slice".

(** The fields with the names of their kinds. *)
Definition fields_named (l : list (bytes * kind)) (l' : list (bytes * bytes)) : Prop :=
  Forall2 (fun e e' => fst e' = fst e /\ forall s, go_name (snd e) s -> snd e' = list_byte_of_string s) l l'.

(** An inspector, as its user sees it. *)
Record api := Api {
  ap_tables : res (list bytes);
  ap_indexes : bytes -> res (list bytes);
  ap_fields : bytes -> res (list (bytes * bytes));
  ap_query : bytes -> request -> res (list row)
}.

(** It answers as the inspector of these tables, names going through JSON; for the rows of a query see C68. *)
Definition as_local (clean : bytes -> bytes) (tis : list tinfo) (a : api) : Prop :=
  ap_tables a = Ok (map clean (inspect_tables tis)) /\
  (forall t, ap_indexes a t = arrives clean (inspect_indexes tis (clean t))) /\
  (forall t, match inspect_fields tis (clean t) with Ok l => exists l', ap_fields a t = Ok l' /\ fields_named l l' | _ => ap_fields a t = Err EOther end) /\
  (forall t q, (rq_limit q < 2 ^ 64)%N ->
     ap_query a t q = remote_query clean tis (clean t) (Request (clean (rq_index q)) (rq_sel q) (rq_filter q) (rq_limit q) (rq_after q))).

(** It answers nothing. *)
Definition all_fail (a : api) : Prop :=
  ap_tables a = Err EOther /\ (forall t, ap_indexes a t = Err EOther) /\ (forall t, ap_fields a t = Err EOther) /\
  (forall t q, (rq_limit q < 2 ^ 64)%N -> ap_query a t q = Err EOther).
