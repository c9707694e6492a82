(** The msgpack serializers with pooled buffers: /repo/serializers/msgp.go, /repo/serializers/msgp_gen.go. *)

From Coq Require Import List Bool.
From Verif.Model Require Import Bytes Go.
Import ListNotations.

(** Which serializer, and with which of its optional pools: /repo/serializers/msgp.go:10-14 MsgpackSerializer,
    /repo/serializers/msgp_gen.go:12-14 MsgpackGenSerializer. *)
Inductive ser_kind :=
| KMsgpack (encoder buffer : bool)
| KMsgpackGen (buffer : bool).

(** What a pool of bytes.Buffer holds: the unread bytes of each buffer; its New makes empty ones. [ser_closers] are
    the buffers captured by the closeables returned so far. Two copies of a bytes.Buffer share their memory; that
    is not modelled (results are looked at when they are returned). /repo/serializers/msgp.go:53-57, /repo/serializers/msgp_gen.go:60-62. *)
Record ser_st := SerSt { ser_pool : list bytes; ser_closers : list bytes }.

(** What is called: Serialize, SerializerWithCloseable, or the h-th closeable. [pick] is the pooled buffer the
    sync.Pool hands out (a new one if there is none with this number).
    /repo/serializers/msgp.go:16-62, /repo/serializers/msgp_gen.go:16-65. *)
Inductive ser_call (V : Type) :=
| SerPlain (v : V) (pick : nat)
| SerCloseable (v : V) (pick : nat)
| SerClose (h : nat).
Arguments SerPlain {V}.
Arguments SerCloseable {V}.
Arguments SerClose {V}.

(** getBuffer: /repo/serializers/msgp.go:68-74, /repo/serializers/msgp_gen.go:81-87. *)
Definition get_buffer (buffer : bool) (pick : nat) (s : ser_st) : bytes * ser_st :=
  if buffer then
    match nth_error (ser_pool s) pick with
    | Some b => (b, SerSt (firstn pick (ser_pool s) ++ skipn (S pick) (ser_pool s)) (ser_closers s))
    | None => ([], s)
    end
  else ([], s).

(** freeBuffer: /repo/serializers/msgp.go:76-80, /repo/serializers/msgp_gen.go:89-93. *)
Definition free_buffer (buffer : bool) (b : bytes) (s : ser_st) : ser_st :=
  if buffer then SerSt (ser_pool s ++ [b]) (ser_closers s) else s.

Section Ser.
  Context {V : Type}.

  (** The encoding of a value, or [None] if the encoder fails or the value is not msgp.Encodable. *)
  Variable enc : V -> option bytes.

  (** Serialize: /repo/serializers/msgp.go:16-35 (encodes behind what the pooled buffer holds),
      /repo/serializers/msgp_gen.go:16-38 (a new buffer). *)
  Definition ser_plain (k : ser_kind) (v : V) (pick : nat) (s : ser_st) : ser_st * res bytes :=
    match k with
    | KMsgpack true buffer =>
        let '(b, s') := get_buffer buffer pick s in
        match enc v with Some e => (s', Ok (b ++ e)) | None => (s', Err EOther) end
    | _ => match enc v with Some e => (s, Ok e) | None => (s, Err EOther) end
    end.

  (** SerializerWithCloseable with a pooled buffer: /repo/serializers/msgp.go:38-58, /repo/serializers/msgp_gen.go:53-64.
      The closeable captures the buffer as it is after encoding. A failed call returns no closeable. *)
  Definition ser_pooled (buffer : bool) (v : V) (pick : nat) (s : ser_st) : ser_st * res bytes :=
    let '(b, s') := get_buffer buffer pick s in
    match enc v with
    | Some e => (SerSt (ser_pool s') (ser_closers s' ++ [b ++ e]), Ok (b ++ e))
    | None => (s', Err EOther)
    end.

  (** One call; /repo/serializers/msgp.go:16-62, /repo/serializers/msgp_gen.go:16-65. Without an encoder pool the
      closeable does nothing (/repo/serializers/msgp.go:60-61): it is modelled as capturing nothing. *)
  Definition ser_step (k : ser_kind) (s : ser_st) (c : ser_call V) : ser_st * res bytes :=
    match c with
    | SerPlain v pick => ser_plain k v pick s
    | SerCloseable v pick =>
        match k with
        | KMsgpack true buffer | KMsgpackGen buffer => ser_pooled buffer v pick s
        | KMsgpack false _ => match enc v with Some e => (s, Ok e) | None => (s, Err EOther) end
        end
    | SerClose h =>
        match nth_error (ser_closers s) h with
        | Some b => (free_buffer (match k with KMsgpack _ x | KMsgpackGen x => x end) b s, Ok [])
        | None => (s, Ok [])
        end
    end.

  (** A history and its results; calls as in [ser_step], /repo/serializers/msgp.go:16-62. *)
  Fixpoint ser_run (k : ser_kind) (s : ser_st) (cs : list (ser_call V)) : ser_st * list (res bytes) :=
    match cs with
    | [] => (s, [])
    | c :: cs' =>
        let '(s1, r) := ser_step k s c in
        let '(s2, rs) := ser_run k s1 cs' in
        (s2, r :: rs)
    end.
End Ser.
