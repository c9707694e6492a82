(** Which calls give back what they took. *)

From Coq Require Import List Arith Bool Lia.
From Verif.Model Require Import Resource.
From Verif.Spec Require Import ResourceSpec.
From Verif.Proofs Require Import ResourceFacts ResourceBugs.
Import ListNotations.

Lemma careful_always s : avoids RGiven s && forallb (fun x => ends x always false false s) all_vars = true -> forall t o, runs s t o -> careful t.
Proof. intros H t o R. eapply (careful_check always); eauto. Qed.

Lemma writes_careful f ext t o : In f [write_call; delete_call; unsafe_insert_call] -> runs (f ext) t o -> careful t.
Proof. intros [<-|[<-|[<-|[]]]]; apply careful_always; destruct ext; vm_compute; reflexivity. Qed.

Lemma calls_careful f t o : In f [exist_call; get_keys; version_call; migrate_call; filter_call; save_call; intersect false; intersect true; walk_call false; walk_call true] -> runs f t o -> careful t.
Proof. intros I. apply careful_always. repeat (destruct I as [<-|I]; [vm_compute; reflexivity|]). destruct I. Qed.

Lemma scans_careful f multi t err : In f [scan_primary; scan_secondary; get_call; query_call] -> runs (f multi) t (Returned err) -> careful t.
Proof. intros I R. eapply (careful_check returned); [|exact R|reflexivity]. destruct multi; repeat (destruct I as [<-|I]; [vm_compute; reflexivity|]); destruct I. Qed.

Lemma dump_careful t : runs (dump_call false) t (Returned false) -> careful t.
Proof. intro R. eapply (careful_check fine); [|exact R|reflexivity]. vm_compute. reflexivity. Qed.

Lemma reindex_iterator t : runs reindex_call t (Returned false) -> released RIter t.
Proof. intro R. eapply (released_check RIter fine); [|exact R|reflexivity]. vm_compute. reflexivity. Qed.

Lemma add_index_lock t : runs add_index_call t (Returned false) -> released RTableLock t.
Proof. intro R. eapply (released_check RTableLock fine); [|exact R|reflexivity]. vm_compute. reflexivity. Qed.

Lemma load_rest x t : x <> RCount -> runs load_call t (Returned false) -> released x t.
Proof. intros N R. eapply (released_check x fine); [|exact R|reflexivity]. destruct x; try congruence; vm_compute; reflexivity. Qed.

Lemma load_lock t o : runs load_call t o -> released RFilterLock t.
Proof. intros R. eapply (released_check RFilterLock always); [|exact R|reflexivity]. vm_compute. reflexivity. Qed.

Lemma load_count t : runs load_call t (Returned false) -> opens RCount t = S (closes RCount t).
Proof. intro R. eapply (left_open RCount fine); [|exact R|reflexivity]. vm_compute. reflexivity. Qed.

Lemma index_ids_left t o : runs index_ids_call t o -> opens RIter t = S (closes RIter t).
Proof. intro R. eapply (left_open RIter always); [|exact R|reflexivity]. vm_compute. reflexivity. Qed.

Lemma unsafe_update_left t : runs (unsafe_update_call false) t (Returned false) -> opens RBatch t = S (closes RBatch t).
Proof. intro R. eapply (left_open RBatch fine); [|exact R|reflexivity]. vm_compute. reflexivity. Qed.

(** the files and snapshots of a dump that ends well are closed all the same *)
Lemma dump_rest x indexes t : x <> RGiven -> x <> RIter -> runs (dump_call indexes) t (Returned false) -> released x t.
Proof. intros N1 N2 R. eapply (released_check x fine); [|exact R|reflexivity]. destruct indexes, x; try congruence; vm_compute; reflexivity. Qed.
