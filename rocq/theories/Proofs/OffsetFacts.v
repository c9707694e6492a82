(** Pages by Offset and Limit make up the result. *)

From Coq Require Import List NArith Lia Bool Arith.
From Verif.Model Require Import Bytes Go Keys Pebble Index Table Scan Query.
From Verif.Spec Require Import KeySpec StoreSpec TableSpec HistSpec ScanSpec QuerySpec OffsetSpec.
From Verif.Proofs Require Import Witness TableBugs ScanBugs ScanProps QueryProps QueryBugs.
Import ListNotations.

Lemma firstn_window {A} (L : list A) k n : firstn (k + n) L = firstn k L ++ firstn n (skipn k L).
Proof.
  revert L. induction k as [|k IH]; intros [|x L]; cbn [firstn skipn Nat.add app]; try reflexivity.
  - now destruct n.
  - f_equal. apply IH.
Qed.

Lemma pages_prefix {T} (run : N -> N -> res (list T)) L n k : (0 < n)%N -> (N.of_nat k * n < 2 ^ 63)%N -> (n < 2 ^ 63)%N ->
  (forall o p, (o < 2 ^ 63)%N -> (p < 2 ^ 63)%N -> run o p = Ok (window o p L)) ->
  offset_pages run n k = Ok (firstn (k * N.to_nat n) L).
Proof.
  intros P B NB H. induction k as [|k IH]; [reflexivity|]. cbn [offset_pages]. rewrite IH by nia. rewrite H by nia. f_equal.
  unfold window. replace (n =? 0)%N with false by (symmetry; apply N.eqb_neq; lia).
  replace (S k * N.to_nat n) with (k * N.to_nat n + N.to_nat n) by lia. rewrite firstn_window.
  replace (N.to_nat (N.of_nat k * n)) with (k * N.to_nat n) by (rewrite N2Nat.inj_mul, Nat2N.id; reflexivity). reflexivity.
Qed.

Section Offset.
  Context {T F : Type} (tb : table T F) (G : good_table tb) (ev : env T) (EV : env_ok ev).
  Variables (srt : (T -> T -> bool) -> list T -> list T) (db : kv) (fl : F) (ob : optb) (m : tmap T).
  Variables (R : reads tb db fl ob m) (PF : 0 < t_prefetch tb) (Q : quiet ev).
  Notation exec fuel q := (execute tb ev srt fuel db fl q ob).

  (** Every window of a query is cut from the same rows. *)
  Lemma windows q : In (q_index q) (primary_index :: t_indexes tb) -> exact_selector tb (q_index q) m (q_sel q) -> q_inter q = [] ->
    q_less q <> None \/ q_after q = None ->
    exists l, selected tb (q_index q) m (q_sel q) l /\ forall fuel, length l <= fuel -> exists L, forall o n, (o < 2 ^ 63)%N -> (n < 2 ^ 63)%N ->
      exec fuel (q_with_limit (q_with_offset q o) n) = Ok (window o n L).
  Proof.
    intros HI EX NI C. destruct (q_less q) as [less|] eqn:LS.
    - destruct (query_plain tb G ev EV srt db fl ob m R PF Q (MkQuery (q_index q) (q_sel q) (q_rev q) (q_filter q) None 0 0 None [])) as (l & SL & _); auto; try reflexivity.
      exists l. split; [exact SL|]. intros fuel LE.
      exists (match q_after q with Some a => drop_after tb a (sorted_rows srt q less l) | None => sorted_rows srt q less l end). intros o n HO HN.
      exact (query_order_eq tb G ev EV srt db fl ob m R PF Q (q_with_limit (q_with_offset q o) n) less HI EX NI LS HO HN l SL fuel LE).
    - destruct C as [C|NA]; [congruence|].
      destruct (query_plain tb G ev EV srt db fl ob m R PF Q (q_with_limit (q_with_offset q 0) 0)) as (l & SL & _); auto; try reflexivity.
      exists l. split; [exact SL|]. intros fuel LE. exists (keep (q_filter q) (dir (q_rev q) l)). intros o n HO HN.
      destruct (query_plain tb G ev EV srt db fl ob m R PF Q (q_with_limit (q_with_offset q o) n)) as (l' & SL' & E); auto.
      assert (X : l' = l) by (eapply (selected_unique tb G db fl ob m (reads_cons _ _ _ _ _ R)); eauto). subst l'.
      apply E. left. cbn [q_with_limit q_with_offset q_rev]. rewrite length_dir. exact LE.
  Qed.

  Theorem by_offset q n : In (q_index q) (primary_index :: t_indexes tb) -> exact_selector tb (q_index q) m (q_sel q) -> q_inter q = [] ->
    q_less q <> None \/ q_after q = None -> (0 < n < 2 ^ 63)%N ->
    exists l, selected tb (q_index q) m (q_sel q) l /\ forall fuel, length l <= fuel ->
    exists L, exec fuel (q_with_limit (q_with_offset q 0) 0) = Ok L /\
    (forall k, (N.of_nat k * n < 2 ^ 63)%N -> offset_pages (fun o p => exec fuel (q_with_limit (q_with_offset q o) p)) n k = Ok (firstn (k * N.to_nat n) L)) /\
    (forall k, (N.of_nat k * n < 2 ^ 63)%N -> length L <= k * N.to_nat n -> offset_pages (fun o p => exec fuel (q_with_limit (q_with_offset q o) p)) n k = Ok L).
  Proof.
    intros HI EX NI C [N0 N1]. destruct (windows q HI EX NI C) as (l & SL & H). exists l. split; [exact SL|]. intros fuel LE. destruct (H fuel LE) as (L & W). exists L.
    split; [rewrite W by reflexivity; reflexivity|].
    assert (P : forall k, (N.of_nat k * n < 2 ^ 63)%N -> offset_pages (fun o p => exec fuel (q_with_limit (q_with_offset q o) p)) n k = Ok (firstn (k * N.to_nat n) L)) by (intros k B; apply pages_prefix; auto).
    split; [exact P|]. intros k B LEN. rewrite (P k B). f_equal. now apply firstn_all2.
  Qed.
End Offset.

(** A row that is deleted between two pages. *)
Definition without_1 : kv := r_db (fst (delete accts (demo_env 2) abc_db tt None [a1])).
Definition page_at (db : kv) (o : N) : res (list acct) := execute accts env1 isort 5 db tt (q_with_limit (q_with_offset all_ids o) 1) NoBatch.

Lemma skipped : snd (delete accts (demo_env 2) abc_db tt None [a1]) = Ok tt /\ page_at abc_db 0 = Ok [a1] /\ page_at without_1 1 = Ok [a3] /\ page_at without_1 2 = Ok [] /\
  get_point accts abc_db tt None a2 = Ok a2 /\ get_point accts without_1 tt None a2 = Ok a2.
Proof. repeat split; vm_compute; reflexivity. Qed.

(** The accounts of kinds 10 and 11, the last first, also by score. *)
Definition two_kinds : query acct := q_reverse (q_with (new_query accts) acct_by_kind (SPoints [Acct 0 10 9 true; Acct 0 11 9 true])).

Lemma two_kinds_exact m : exact_selector accts (q_index two_kinds) m (q_sel two_kinds).
Proof. split; [discriminate|]. intros p [<-|[<-|[]]]; (split; [split; vm_compute; reflexivity|vm_compute; discriminate]). Qed.

Lemma skipped_delete : delete accts (demo_env 2) abc_db tt None [a1] = (fst (delete accts (demo_env 2) abc_db tt None [a1]), Ok tt).
Proof. rewrite <- (proj1 skipped). apply surjective_pairing. Qed.
