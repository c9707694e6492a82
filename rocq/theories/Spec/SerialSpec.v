(** What serializing should return. *)

From Coq Require Import List.
From Verif.Model Require Import Bytes Go Serial.
Import ListNotations.

(** The result a call should have: the encoding of its value, nothing else. *)
Definition expected {V} (enc : V -> option bytes) (c : ser_call V) (r : res bytes) : Prop :=
  match c with
  | SerPlain v _ | SerCloseable v _ => r = match enc v with Some e => Ok e | None => Err EOther end
  | SerClose _ => r = Ok []
  end.

(** No closeable is called. *)
Definition never_released {V} (cs : list (ser_call V)) : Prop :=
  forall c, In c cs -> match c with SerClose _ => False | _ => True end.

(** The serializer has no pool of buffers. *)
Definition no_buffers (k : ser_kind) : Prop :=
  match k with KMsgpack _ b | KMsgpackGen b => b = false end.

(** The values encoded by a history. *)
Fixpoint serialized {V} (cs : list (ser_call V)) : list V :=
  match cs with
  | [] => []
  | SerPlain v _ :: cs' | SerCloseable v _ :: cs' => v :: serialized cs'
  | SerClose _ :: cs' => serialized cs'
  end.
