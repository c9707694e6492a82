(** Facts about type-erased scanners. *)

From Coq Require Import List NArith Bool Arith Lia Sorting.Sorted.
From Verif.Model Require Import Bytes Go Keys Pebble Index Table Scan AnyScan.
From Verif.Spec Require Import KeySpec StoreSpec TableSpec HistSpec ScanSpec.
From Verif.Proofs Require Import Witness TableBugs ScanTop ScanBugs.
Import ListNotations.

(** An Index[any] that does on records what the table's index does. *)
Definition mirrors {T A} (inj : T -> A) (i : index A) (idx : index T) : Prop :=
  ix_id i = ix_id idx /\ (forall kb t, ix_key i kb (inj t) = ix_key idx kb t) /\
  (forall kb t, ix_order i kb (inj t) = ix_order idx kb t).

(** The same rows as values of type any. *)
Definition injected {T A} (inj : T -> A) (l : list (bytes * T)) : list (bytes * A) := map (fun kr => (fst kr, inj (snd kr))) l.

Section A.
  Context {T F A : Type}.
  Variable tb : table T F.
  Variable inj : T -> A.

  Lemma any_enc i idx r : mirrors inj i idx ->
    encode_index_key (t_id tb) (t_pk tb) (any_index inj i) r [] = encode_index_key (t_id tb) (t_pk tb) idx r [].
  Proof.
    intros (E & K & O). unfold encode_index_key, any_index, new_index; cbn [ix_id ix_key ix_order]. rewrite E.
    unfold key_encode_raw. cbn. rewrite !K, !O. reflexivity.
  Qed.

  Lemma any_iter db ob i idx sel : mirrors inj i idx -> index_iter tb db ob (any_index inj i) sel = index_iter tb db ob idx sel.
  Proof.
    intros M. pose proof (any_enc i idx) as E. assert (ID : ix_id (any_index inj i) = ix_id idx) by apply M.
    assert (P : forall x p, point_bounds tb (any_index inj i) x p = point_bounds tb idx x p) by (intros; unfold point_bounds; now rewrite E).
    assert (R : forall lo hi, range_bounds tb (any_index inj i) lo hi = range_bounds tb idx lo hi) by (intros; unfold range_bounds; now rewrite !E).
    unfold index_iter. rewrite ID. destruct sel as [p|ps|lo hi|rs|]; auto.
    - now rewrite P.
    - assert (PS : forall x, points_bounds tb (any_index inj i) x ps = points_bounds tb idx x ps).
      { intros x. induction ps as [|p ps IH]; cbn; auto. now rewrite P, IH. }
      now rewrite PS.
    - now rewrite R.
    - assert (RS : ranges_bounds tb (any_index inj i) rs = ranges_bounds tb idx rs).
      { induction rs as [|[|lo [|hi r]] rs IH]; cbn; auto. now rewrite R, IH. }
      now rewrite RS.
  Qed.

  Lemma any_scan_same ev W fuel db fl i idx sel (f : W -> bytes -> prog W) rv ob s : mirrors inj i idx ->
    scan_index_for_each tb ev fuel db fl (any_index inj i) sel f rv ob s = scan_index_for_each tb ev fuel db fl idx sel f rv ob s.
  Proof.
    intros M. unfold scan_index_for_each. rewrite (any_iter _ _ _ _ _ M). assert (ID : ix_id (any_index inj i) = ix_id idx) by apply M.
    now rewrite ID.
  Qed.

  (** Callbacks. *)
  Lemma answer_lift W (p : prog (T:=A) W) r : answer (Ok r) (lift_prog inj p) = answer (Ok (inj r)) p.
  Proof. induction p as [s c e|k IH]; cbn; auto. Qed.

  Lemma visit_go_lift W (f : W -> bytes -> prog (T:=A) W) l : forall s,
    visit_go (fun s k => lift_prog inj (f s k)) l s = visit_go f (injected inj l) s.
  Proof.
    induction l as [|[k r] l IH]; intros s; cbn; auto. rewrite answer_lift.
    destruct (answer (Ok (inj r)) (f s k)) as [[s' []] [e|]]; auto.
  Qed.

  Lemma visit_lift W (f : W -> bytes -> prog (T:=A) W) l s :
    visit (fun s k => lift_prog inj (f s k)) l s = visit f (injected inj l) s.
  Proof. unfold visit. now rewrite visit_go_lift. Qed.

  Lemma injected_firstn k (l : list (bytes * T)) : injected inj (firstn k l) = firstn k (injected inj l).
  Proof. unfold injected. now rewrite firstn_map. Qed.

  Lemma injected_length (l : list (bytes * T)) : length (injected inj l) = length l.
  Proof. apply map_length. Qed.

  Lemma within_lift W (f : W -> bytes -> prog (T:=A) W) l s k :
    within f (injected inj l) s k -> within (fun s k => lift_prog inj (f s k)) l s k.
  Proof.
    unfold within. rewrite injected_length, <- injected_firstn. intros [H|(out & H)]; auto. right. exists out. now rewrite visit_go_lift.
  Qed.

  (** [visited] without the environment's record type. *)
  Definition any_visited {W} (ev : env T) (f : W -> bytes -> prog (T:=A) W) (l : list (bytes * A)) (s : W) (out : W * res unit) : Prop :=
    ((forall n, e_ctx ev n = false) -> out = visit f l s) /\
    (out = visit f l s \/ exists k s', k < length l /\ visit_go f (firstn k l) s = inr s' /\ out = (s', Err ECtx)).

  Lemma visited_lift W ev (f : W -> bytes -> prog (T:=A) W) l s out :
    visited ev (fun s k => lift_prog inj (f s k)) l s out -> any_visited ev f (injected inj l) s out.
  Proof.
    intros [H1 H2]. split.
    - intros Q. rewrite <- visit_lift. auto.
    - rewrite <- visit_lift. destruct H2 as [H|(k & s' & L & V & E)]; auto. right. exists k, s'.
      rewrite injected_length, <- injected_firstn, <- visit_go_lift. auto.
  Qed.

  Lemma steady_lift W (f : W -> bytes -> prog (T:=A) W) : loads_steadily f -> loads_steadily (fun s k => lift_prog inj (f s k)).
  Proof.
    intros (L & H1 & H2). exists L.
    assert (N : forall p : prog (T:=A) W, no_get p -> no_get (lift_prog inj p)).
    { intros p (s & c & e & ->). exists s, c, e. reflexivity. }
    assert (O : forall p : prog (T:=A) W, one_get p L -> one_get (lift_prog inj p) L).
    { intros p (k & -> & K). eexists. split; [reflexivity|]. intros r. destruct (K (inj r)) as (s & c & e & E & Q). exists s, c, e.
      cbn. rewrite E. auto. }
    split; auto. intros s k. destruct (H2 s k); auto.
  Qed.
End A.

Section Top.
  Context {T F A : Type}.
  Variable tb : table T F.
  Variable inj : T -> A.
  Hypothesis G : good_table tb.
  Variable ev : env T.
  Hypothesis EV : env_ok ev.
  Variables (db : kv) (fl : F) (ob : optb) (m : tmap T).
  Hypothesis R : reads tb db fl ob m.

  Lemma any_scan_rows : 0 < t_prefetch tb -> quiet ev ->
    let sc := schema_of tb in
    exists l, StronglySorted (fun a b => bcmp (s_pk sc a) (s_pk sc b) = Lt) l /\
      (forall r, In r l <-> m (s_pk sc r) = Some r /\ bcmp (s_pk sc (t_empty tb)) (s_pk sc r) <> Gt) /\
      forall rv fuel acc tacc, length l <= fuel ->
        any_scan tb ev inj fuel db fl acc rv ob = (acc ++ map inj (dir rv l), Ok tt) /\
        scan tb ev fuel db fl tacc rv ob = (tacc ++ dir rv l, Ok tt).
  Proof.
    intros PRE Q sc. destruct (t_full_scan tb G ev EV db fl ob m R PRE Q) as (l & S & I & H). exists l. repeat split; auto; try apply I; auto.
    unfold any_scan. rewrite H by auto. reflexivity.
  Qed.

  Lemma any_index_rows i idx sel : In idx (primary_index :: t_indexes tb) -> mirrors inj i idx -> 0 < t_prefetch tb -> quiet ev ->
    exact_selector tb idx m sel ->
    exists l, selected tb idx m sel l /\ forall rv fuel acc, length l <= fuel ->
      any_scan_index tb ev inj fuel db fl i (TypedSel sel) acc rv ob = (acc ++ map inj (dir rv l), Ok tt).
  Proof.
    intros I M PRE Q X. destruct (t_multi tb G ev EV db fl ob m R idx sel I PRE Q X) as (l & S & _ & H). exists l. split; auto.
    intros rv fuel acc L. cbn [any_scan_index]. unfold scan_index. rewrite (any_scan_same tb inj ev _ _ _ _ _ _ _ _ _ _ _ M).
    fold (scan_index tb ev fuel db fl idx sel [] rv ob). rewrite H by auto. reflexivity.
  Qed.
End Top.

Section Each.
  Context {T F A : Type}.
  Variable tb : table T F.
  Variable inj : T -> A.
  Hypothesis G : good_table tb.
  Variable ev : env T.
  Hypothesis EV : env_ok ev.
  Variables (db : kv) (fl : F) (m : tmap T).
  Hypothesis R : reads tb db fl NoBatch m.

  Lemma any_each_secondary i idx sel : In idx (t_indexes tb) -> mirrors inj i idx -> 0 < t_prefetch tb -> exact_selector tb idx m sel ->
    exists l, selected tb idx m sel l /\
    forall rv W (f : W -> bytes -> prog (T:=A) W) fuel s,
      loads_steadily f -> within f (injected inj (keyed (schema_of tb) (sindex_of idx) (dir rv l))) s fuel ->
      any_visited ev f (injected inj (keyed (schema_of tb) (sindex_of idx) (dir rv l))) s
        (any_scan_index_for_each tb ev inj fuel db fl i (TypedSel sel) f rv NoBatch s).
  Proof.
    intros I M PRE X. destruct (t_each_secondary tb G ev EV db fl NoBatch m R idx sel I PRE X) as (l & S & H). exists l. split; auto.
    intros rv W f fuel s ST WI. cbn [any_scan_index_for_each]. rewrite (any_scan_same tb inj ev _ _ _ _ _ _ _ _ _ _ _ M).
    apply visited_lift. apply H; [now apply steady_lift|now apply within_lift].
  Qed.

  Lemma any_each_primary i sel : mirrors inj i primary_index -> exact_selector tb primary_index m sel ->
    exists l, selected tb primary_index m sel l /\
    forall rv W (f : W -> bytes -> prog (T:=A) W) fuel s,
      within f (injected inj (keyed (schema_of tb) sprimary (dir rv l))) s fuel ->
      any_visited ev f (injected inj (keyed (schema_of tb) sprimary (dir rv l))) s
        (any_scan_index_for_each tb ev inj fuel db fl i (TypedSel sel) f rv NoBatch s).
  Proof.
    intros M X. destruct (t_each_primary tb G ev db fl NoBatch m R sel X) as (l & S & H). exists l. split; auto.
    intros rv W f fuel s WI. cbn [any_scan_index_for_each]. rewrite (any_scan_same tb inj ev _ _ _ _ _ _ _ _ _ _ _ M).
    apply visited_lift. apply H. now apply within_lift.
  Qed.
End Each.

(** ** Differences from the wrapped scanner *)

(** The batch is ignored. *)
Lemma any_each_drops_batch : exists db b m, reads accts db tt (ABatch b) m /\
  let f := fun (s : list acct) (_ : bytes) => PGet (T:=acct) (fun v => match v with Ok r => PRet (s ++ [r]) true None | _ => PRet s false (Some EOther) end) in
  forall fuel, 4 <= fuel ->
    any_scan_for_each accts env1 (fun r => r) fuel db tt f false (ABatch b) [] = ([Acct 3 10 5 true], Ok tt) /\
    scan_for_each accts env1 fuel db tt f false (ABatch b) [] = ([Acct 1 10 6 true; Acct 2 11 0 false; Acct 3 10 5 true], Ok tt).
Proof.
  exists a_db, bc_batch, abc_m. split; [exact abc_batch_reads|]. cbn zeta. intros fuel H.
  do 4 (destruct fuel as [|fuel]; [lia|]). split; vm_compute; reflexivity.
Qed.

(** A selector built for any panics. *)
Lemma any_selector_panics {T F A} (tb : table T F) ev (inj : T -> A) fuel db fl i (lo hi p : A) acc rv ob :
  any_scan_index tb ev inj fuel db fl i (AnySel (SPoint p)) acc rv ob = (acc, Panic) /\
  any_scan_index tb ev inj fuel db fl i (AnySel (SRange lo hi)) acc rv ob = (acc, Panic).
Proof. split; reflexivity. Qed.

(** Rows read before an error are lost. *)
Definition cancelled_late {T} : env T := Env (e_sort (@env1 T)) (Nat.leb 1) (fun _ l => l) 10 true.

Lemma any_error_loses : exists db m, reads accts db tt NoBatch m /\
  forall fuel, 4 <= fuel ->
    any_scan accts cancelled_late (fun r => r) fuel db tt [] false NoBatch = ([], Err ECtx) /\
    scan accts cancelled_late fuel db tt [] false NoBatch = ([Acct 1 10 6 true], Err ECtx).
Proof.
  exists abc_db, abc_m. split; [exact abc_reads|]. intros fuel H.
  do 4 (destruct fuel as [|fuel]; [lia|]). split; vm_compute; reflexivity.
Qed.

(** Material for examples: values of type any are accounts or something else. *)
Definition any_by_score : index (acct + nat) :=
  new_index x02 (fun b x => match x with inl r => kb_buff (add_uint64 b (a_score r)) | inr _ => kb_buff b end) None None.

Lemma any_by_score_mirrors : mirrors inl any_by_score acct_by_score.
Proof. repeat split; reflexivity. Qed.

(** The callback of the scanner and one of the table do the same, given a record or given the error of Get. *)
Inductive acts_alike {T A W} (inj : T -> A) : prog (T:=A) W -> prog (T:=T) W -> Prop :=
| aa_ret w c e : acts_alike inj (PRet w c e) (PRet w c e)
| aa_get k k' : (forall r, acts_alike inj (k (Ok (inj r))) (k' (Ok r))) -> (forall e, acts_alike inj (k (Err e)) (k' (Err e))) ->
    acts_alike inj (PGet k) (PGet k').

Section Same.
  Context {T F A W : Type}.
  Variable tb : table T F.
  Variable inj : T -> A.
  Variable ev : env T.
  Variables (f : W -> bytes -> prog (T:=A) W) (g : W -> bytes -> prog (T:=T) W).
  Hypothesis FG : forall w k, acts_alike inj (f w k) (g w k).
  Notation f' := (fun s k => lift_prog inj (f s k)).

  Lemma run_alike {St} (get : St -> St * res T) (p : prog (T:=A) W) (q : prog (T:=T) W) : acts_alike inj p q -> forall st, run_prog get (lift_prog inj p) st = run_prog get q st.
  Proof.
    induction 1 as [|k k' _ IH1 _ IH2]; intros st; cbn [lift_prog run_prog]; auto.
    destruct (get st) as [st' [r|e| |]]; auto.
  Qed.

  Lemma primary_alike open rv fuel : forall n it s, primary_loop tb ev f' open rv fuel n it s = primary_loop tb ev g open rv fuel n it s.
  Proof.
    induction fuel as [|fuel IH]; intros n it s; cbn [primary_loop]; auto. destruct (bi_valid it), (e_ctx ev n); auto.
    rewrite (run_alike _ _ _ (FG s (bi_key it))). destruct (run_prog _ _ _) as [it' [[[s' [|]] [e|]]|e| |]]; auto.
  Qed.

  Lemma prefetched_alike fuel : forall st s, prefetched_loop tb f' fuel st s = prefetched_loop tb g fuel st s.
  Proof.
    induction fuel as [|fuel IH]; intros st s; cbn [prefetched_loop]; auto. destruct (_ <? _); auto. destruct (nth_error _ _) as [k|]; auto.
    rewrite (run_alike _ _ _ (FG s k)). destruct (run_prog _ _ _) as [it' [[[s' [|]] [e|]]|e| |]]; auto.
  Qed.

  Lemma secondary_alike open rv db fl ob fuel : forall n it s,
    secondary_loop tb ev f' open rv db fl ob fuel n it s = secondary_loop tb ev g open rv db fl ob fuel n it s.
  Proof.
    induction fuel as [|fuel IH]; intros n it s; cbn [secondary_loop]; auto. destruct (bi_valid it), (e_ctx ev n); auto.
    rewrite (run_alike _ _ _ (FG s (bi_key it))). destruct (run_prog _ _ _) as [it' [[[s' [|]] [e|]]|e| |]]; auto.
    rewrite prefetched_alike. destruct (prefetched_loop _ _ _ _ _) as [|[st2 s2]]; auto.
  Qed.

  Lemma each_alike fuel db fl idx sel rv ob s : scan_index_for_each tb ev fuel db fl idx sel f' rv ob s = scan_index_for_each tb ev fuel db fl idx sel g rv ob s.
  Proof. unfold scan_index_for_each. destruct (index_iter tb db ob idx sel); auto. destruct (Byte.eqb _ _); [apply primary_alike|apply secondary_alike]. Qed.

  Lemma any_each_same fuel db fl i idx sel rv ob s : mirrors inj i idx ->
    any_scan_for_each tb ev inj fuel db fl f rv ob s = scan_for_each tb ev fuel db fl g rv NoBatch s /\
    any_scan_index_for_each tb ev inj fuel db fl i (TypedSel sel) f rv ob s = scan_index_for_each tb ev fuel db fl idx sel g rv NoBatch s.
  Proof.
    intros M. split; [apply each_alike|]. cbn [any_scan_index_for_each]. rewrite (any_scan_same tb inj ev _ _ _ _ _ _ _ _ _ _ _ M). apply each_alike.
  Qed.
End Same.

Lemma any_collect_same {T F A} (tb : table T F) (inj : T -> A) ev fuel db fl i idx sel rv ob acc : mirrors inj i idx ->
  let out (x : list T * res unit) := match snd x with Ok _ => (acc ++ map inj (fst x), Ok tt) | r => (acc, r) end in
  any_scan tb ev inj fuel db fl acc rv ob = out (scan tb ev fuel db fl [] rv ob) /\
  any_scan_index tb ev inj fuel db fl i (TypedSel sel) acc rv ob = out (scan_index tb ev fuel db fl idx sel [] rv ob).
Proof.
  intros M out. assert (C : forall x, any_collect inj x acc = out x) by (intros [l [u|e| |]]; cbn; auto).
  split; [apply C|]. cbn [any_scan_index]. unfold scan_index. rewrite (any_scan_same tb inj ev _ _ _ _ _ _ _ _ _ _ _ M). apply C.
Qed.
