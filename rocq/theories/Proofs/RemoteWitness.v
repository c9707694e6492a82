(** An inspector asked over HTTP. *)

From Coq Require Import Strings.String Strings.Byte List NArith ZArith Lia Bool Arith.
From Verif.Model Require Import Bytes Go Inspect Remote.
From Verif.Spec Require Import InspectSpec RemoteSpec.
From Verif.Proofs Require Import BytesFacts Witness TableBugs QueryBugs InspectBugs RemoteFacts.
Import ListNotations.
Local Open Scope list_scope.

Definition texts (e : error) : bytes := txt "failed".
Definition at_bond : bytes := txt "/%62ond/".
Definition json_please : list (bytes * bytes) := [(txt "Authorization", txt "me"); (txt "ACCEPT", txt "application/json")].

(** the inspector of the three accounts, from afar *)
Definition afar : api := client id_clean texts (inspector plain 5 abc_db) at_bond json_please.

Lemma accept_letters n : is_accept n -> map lower n = txt "accept".
Proof.
  unfold is_accept. intro H. assert (L : Forall (fun b => (97 <= b2n b <= 122)%N) (txt "accept")) by (repeat constructor; vm_compute; discriminate).
  revert L. induction H as [|a b l l' E H IH]; intro L; [reflexivity|]. inversion L; subst. cbn [map]. rewrite IH by assumption. f_equal. unfold lower. destruct E as [->|E].
  - destruct ((b2n b <=? 90)%N) eqn:G; [apply N.leb_le in G; lia|]. rewrite andb_false_r. reflexivity.
  - assert (A : (65 <= b2n a <= 90)%N) by lia. destruct A as [A1 A2]. apply N.leb_le in A1, A2. rewrite A1, A2. cbn [andb]. rewrite E. apply n2b_b2n.
Qed.

Lemma please_accepted : json_accepted json_please.
Proof.
  intros n v H A. apply accept_letters in A. destruct H as [H|[H|[]]]; apply pair_equal_spec in H; destruct H as [<- <-].
  - vm_compute in A. discriminate A.
  - right. reflexivity.
Qed.

Lemma bond_escaped : escaped at_bond.
Proof.
  unfold at_bond. apply esc_plain; [discriminate|]. apply esc_hex; [cbn; tauto|cbn; tauto|]. repeat (apply esc_plain; [discriminate|]). apply esc_nil.
Qed.

Lemma bond_plain : no_query at_bond.
Proof. split; intro H; cbn in H; repeat (destruct H as [H|H]; [discriminate H|]); exact H. Qed.

Lemma id_ascii : keeps_ascii id_clean.
Proof. intros s _. reflexivity. Qed.

Lemma afar_case : keeps_ascii id_clean /\ no_query at_bond /\ escaped at_bond /\ json_accepted json_please /\
  ap_tables afar = Ok [txt "acct"] /\
  ap_indexes afar (txt "acct") = Ok [txt "primary"; txt "by_kind"; txt "by_score"] /\
  ap_fields afar (txt "acct") = Ok [(txt "ID", txt "uint64"); (txt "Kind", txt "uint32"); (txt "Score", txt "uint64"); (txt "On", txt "bool")] /\
  ap_query afar (txt "acct") score5 = Ok [[(txt "ID", flt 3 0); (txt "Kind", flt 10 0); (txt "Score", flt 5 0); (txt "On", boolean true)]] /\
  ap_indexes afar (txt "accounts") = Err EOther /\
  ap_tables (client id_clean texts (inspector plain 5 abc_db) (txt "/bond%2") json_please) = Err EOther.
Proof.
  split; [exact id_ascii|]. split; [exact bond_plain|]. split; [exact bond_escaped|]. split; [exact please_accepted|].
  repeat split; vm_compute; reflexivity.
Qed.

(** what encoding/json makes of the name [xff]; other names that are not UTF-8 are left alone here *)
Definition replaced (s : bytes) : bytes := if beqb s [xff] then [xef; xbf; xbd] else s.

Lemma replaced_ascii : keeps_ascii replaced.
Proof.
  intros s H. unfold replaced. destruct (beqb s [xff]) eqn:E; [|reflexivity]. apply beqb_eq in E. subst. specialize (H xff (or_introl eq_refl)). vm_compute in H. discriminate H.
Qed.
