(** Base64 with padding, RFC 4648. *)

From Coq Require Import Strings.String Strings.Byte List NArith.
From Verif.Model Require Import Bytes.
Import ListNotations.
Local Open Scope list_scope.

Definition alphabet : bytes := list_byte_of_string "ABCDEFGHIJKLMNOPQRSTUVWXYZabcdefghijklmnopqrstuvwxyz0123456789+/".
Definition sextet (c : byte) (n : N) : Prop := nth_error alphabet (N.to_nat n) = Some c.

(** Three bytes are four digits of six bits; two or one that remain are filled up with zero bits and the text with equals signs. *)
Inductive base64 : bytes -> bytes -> Prop :=
| b64_none : base64 [] []
| b64_three a b c l w x y z m n o p s : sextet w m -> sextet x n -> sextet y o -> sextet z p ->
    (b2n a * 65536 + b2n b * 256 + b2n c = m * 262144 + n * 4096 + o * 64 + p)%N -> base64 l s ->
    base64 (a :: b :: c :: l) (w :: x :: y :: z :: s)
| b64_two a b w x y m n o : sextet w m -> sextet x n -> sextet y o ->
    ((b2n a * 256 + b2n b) * 4 = m * 4096 + n * 64 + o)%N -> base64 [a; b] [w; x; y; "="%byte]
| b64_one a w x m n : sextet w m -> sextet x n -> (b2n a * 16 = m * 64 + n)%N -> base64 [a] [w; x; "="%byte; "="%byte].
