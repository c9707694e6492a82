(** Pages by Offset and Limit of an intersecting query. *)

From Coq Require Import List NArith Lia Bool Arith Sorting.Sorted.
From Verif.Model Require Import Bytes Go Keys Pebble Index Table Scan Query.
From Verif.Spec Require Import KeySpec StoreSpec TableSpec HistSpec ScanSpec QuerySpec OffsetSpec.
From Verif.Proofs Require Import BytesFacts KeysFacts PebbleFacts TableFacts ReadFacts ScanProps QueryProps InterFacts OffsetFacts.
Import ListNotations.

Section Inter.
  Context {T F : Type} (tb : table T F) (G : good_table tb) (ev : env T) (EV : env_ok ev).
  Variables (srt : (T -> T -> bool) -> list T -> list T) (db : kv) (fl : F) (ob : optb) (m : tmap T).
  Variables (R : reads tb db fl ob m) (Q : quiet ev) (m0 : tmap T) (CO0 : consistent tb db fl m0).
  Notation sc := (schema_of tb).
  Notation exec fuel q := (execute tb ev srt fuel db fl q ob).

  (** The rows before Offset and Limit, from the intersection [b]. *)
  Definition inter_rows (q : query T) (b : list T) : list T :=
    let s := match q_less q with Some less => srt less (keep (q_filter q) b) | None => keep (q_filter q) b end in
    match q_after q with Some a => drop_after tb a s | None => s end.

  (** Offset and Limit are left out when there is an After but no Filter and no Order. *)
  Definition inter_result (q : query T) (o n : N) (b : list T) : list T :=
    match q_filter q, q_less q, q_after q with None, None, Some _ => inter_rows q b | _, _, _ => window o n (inter_rows q b) end.

  Lemma inter_explicit q : (forall x, In x (q :: q_inter q) -> In (q_index x) (primary_index :: t_indexes tb) /\ exact_selector tb (q_index x) m (q_sel x)) ->
    q_inter q <> [] -> (forall x, In x (q_inter q) -> plain_part x) ->
    exists ls b, Forall2 (fun x l => selected tb (q_index x) m (q_sel x) l) (q :: q_inter q) ls /\ intersection sc ls b /\
      ((forall r, In r b -> m0 (s_pk sc r) = Some r) -> forall fuel, (forall l, In l ls -> length l <= fuel) ->
       forall o n, (o < 2 ^ 63)%N -> (n < 2 ^ 63)%N -> exec fuel (q_with_limit (q_with_offset q o) n) = Ok (inter_result q o n b)).
  Proof.
    intros H NE PP.
    destruct (intersect_keys tb G ev db fl ob m R Q (fun i s => exact_selector tb i m s) (fun i s l => selected tb i m s l)) with (q := q) as (ls & b & F2 & IS & _ & V).
    { intros idx sel. apply (exact_opens tb G db fl ob m (reads_ok _ _ _ _ _ R) (reads_batch _ _ _ _ _ R) (reads_rw _ _ _ _ _ R) (reads_cons _ _ _ _ _ R)). }
    { exact H. }
    exists ls, b. split; [exact F2|]. split; [exact IS|]. intros B0 fuel LE.
    set (s := match q_less q with Some less => srt less (keep (q_filter q) b) | None => keep (q_filter q) b end).
    intros o n HO HN. unfold inter_result. change (inter_rows q b) with (match q_after q with Some a => drop_after tb a s | None => s end).
    unfold execute. cbn [q_with_limit q_with_offset q_inter]. destruct (q_inter q) as [|x0 xs] eqn:EI; [easy|]. rewrite <- EI in *.
    unfold execute_intersect. cbn [q_with_limit q_with_offset q_inter q_filter q_less q_after q_offset q_limit].
    replace (forallb plain_query (q_inter q)) with true by (symmetry; apply forallb_forall; intros x Hx; apply plain_query_ok; auto).
    change (intersect tb ev fuel db (q_with_limit (q_with_offset q o) n) ob)
      with (intersect tb ev fuel db q ob).
    rewrite (V fuel LE).
    pose proof (fun c => get_all tb G ev EV db fl ob m R m0 CO0 c) as GA. pose proof (fun f c => decode_all tb G db fl m0 CO0 f c) as DA.
    destruct (q_filter q) as [f|] eqn:EF; [|destruct (q_less q) as [less|] eqn:EL; [|destruct (q_after q) as [af|] eqn:EA]]; cbn [andb]; unfold s in *.
    - rewrite GA, DA by auto. destruct (q_less q); apply offset_limit; auto.
    - rewrite GA, DA by auto. cbn [keep]. apply offset_limit; auto.
    - rewrite GA, DA by auto. reflexivity.
    - pose proof (offset_limit o n (map (data_key tb) b) HO HN) as OL.
      match goal with |- context [match ?x with Ok keys => match get_keys _ _ _ _ _ keys _ with _ => _ end | _ => _ end] =>
        replace x with (Ok (window o n (map (data_key tb) b))) end.
      2:{ rewrite <- OL. destruct (if (0 <? o)%N then _ else _); reflexivity. }
      rewrite window_map.
      rewrite GA by (intros r Hr; apply B0; eapply window_incl; eauto).
      rewrite DA by (intros r Hr; apply B0; eapply window_incl; eauto). reflexivity.
  Qed.

  Lemma inter_windows q : (forall x, In x (q :: q_inter q) -> In (q_index x) (primary_index :: t_indexes tb) /\ exact_selector tb (q_index x) m (q_sel x)) ->
    q_inter q <> [] -> (forall x, In x (q_inter q) -> plain_part x) -> (q_after q = None \/ q_filter q <> None \/ q_less q <> None) ->
    exists ls b, Forall2 (fun x l => selected tb (q_index x) m (q_sel x) l) (q :: q_inter q) ls /\ intersection sc ls b /\
      ((forall r, In r b -> m0 (s_pk sc r) = Some r) -> forall fuel, (forall l, In l ls -> length l <= fuel) ->
       exists L, forall o n, (o < 2 ^ 63)%N -> (n < 2 ^ 63)%N -> exec fuel (q_with_limit (q_with_offset q o) n) = Ok (window o n L)).
  Proof.
    intros H NE PP AF. destruct (inter_explicit q H NE PP) as (ls & b & F2 & IS & X). exists ls, b. split; [exact F2|]. split; [exact IS|].
    intros B0 fuel LE. exists (inter_rows q b). intros o n HO HN. rewrite (X B0 fuel LE o n HO HN). unfold inter_result.
    destruct AF as [E|[E|E]]; destruct (q_filter q), (q_less q), (q_after q); easy.
  Qed.

  Theorem by_offset_inter q n : (forall x, In x (q :: q_inter q) -> In (q_index x) (primary_index :: t_indexes tb) /\ exact_selector tb (q_index x) m (q_sel x)) ->
    q_inter q <> [] -> (forall x, In x (q_inter q) -> plain_part x) -> (q_after q = None \/ q_filter q <> None \/ q_less q <> None) -> (0 < n < 2 ^ 63)%N ->
    exists ls b, Forall2 (fun x l => selected tb (q_index x) m (q_sel x) l) (q :: q_inter q) ls /\ intersection sc ls b /\
    ((forall r, In r b -> m0 (s_pk sc r) = Some r) -> forall fuel, (forall l, In l ls -> length l <= fuel) ->
    exists L, exec fuel (q_with_limit (q_with_offset q 0) 0) = Ok L /\
    (forall k, (N.of_nat k * n < 2 ^ 63)%N -> offset_pages (fun o p => exec fuel (q_with_limit (q_with_offset q o) p)) n k = Ok (firstn (k * N.to_nat n) L)) /\
    (forall k, (N.of_nat k * n < 2 ^ 63)%N -> length L <= k * N.to_nat n -> offset_pages (fun o p => exec fuel (q_with_limit (q_with_offset q o) p)) n k = Ok L)).
  Proof.
    intros H NE PP AF [N0 N1]. destruct (inter_windows q H NE PP AF) as (ls & b & F2 & IS & V). exists ls, b. split; [exact F2|]. split; [exact IS|].
    intros B0 fuel LE. destruct (V B0 fuel LE) as (L & W). exists L. split; [rewrite W by reflexivity; reflexivity|].
    assert (P : forall k, (N.of_nat k * n < 2 ^ 63)%N -> offset_pages (fun o p => exec fuel (q_with_limit (q_with_offset q o) p)) n k = Ok (firstn (k * N.to_nat n) L)) by (intros k B; apply pages_prefix; auto).
    split; [exact P|]. intros k B LEN. rewrite (P k B). f_equal. now apply firstn_all2.
  Qed.
End Inter.
