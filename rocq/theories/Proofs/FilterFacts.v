(** Facts about initializing filters, and about bloom filters of tables. *)

From Coq Require Import List NArith Bool Arith Lia Sorting.Sorted.
From Verif.Model Require Import Bytes Go Keys Pebble Index Table Scan AnyScan Bloom.
From Verif.Spec Require Import KeySpec StoreSpec TableSpec ScanSpec BloomSpec.
From Verif.Proofs Require Import BytesFacts KeysFacts PebbleFacts TableFacts Witness ScanFacts ScanRows ScanProps ScanTop AnyFacts BloomFacts.
Import ListNotations.

Lemma bloom_filt_ok h c : hashes_ok h -> 0 < c_n c -> filt_ok (bloom_filt h c).
Proof.
  intros HH CN. split; intros [bs L] k; cbn.
  - now apply add_may.
  - intros k' H. eapply grows_may; [apply add_grows|exact H].
Qed.

Lemma iz_off {F} (f : filt F) fl k : f_may (iz_filt f) (Initz fl false) k = true.
Proof. reflexivity. Qed.

Lemma iz_filt_ok {F} (f : filt F) : filt_ok f -> filt_ok (iz_filt f).
Proof. intros [A B]. split; intros [fl []] k; cbn; auto. Qed.

(** ** Scanners only add *)
Definition only_adds (f : list bucket -> list bucket * res unit) : Prop := forall bs, grows bs (fst (f bs)).

Lemma grows_trans a b d : grows a b -> grows b d -> grows a d.
Proof.
  intros [L1 G1] [L2 G2]. split; [congruence|]. intros i x E. destruct (G1 i x E) as (y & E2 & I2).
  destruct (G2 i y E2) as (z & E3 & I3). exists z. split; auto. eapply incl_tran; eauto.
Qed.

Lemma loop_keeps {T F W} (tb : table T F) ev (f : W -> bytes -> prog (T:=T) W) open rv (P : W -> Prop) :
  (forall s k, P s -> exists s' c e, f s k = PRet s' c e /\ P s') ->
  forall fuel n it s, P s -> P (fst (primary_loop tb ev f open rv fuel n it s)).
Proof.
  intros H. induction fuel as [|fuel IH]; intros n it s Ps; cbn [primary_loop]; destruct (bi_valid it); auto.
  destruct (e_ctx ev n); auto. destruct (H s (bi_key it) Ps) as (s' & c & e & -> & Ps'). cbn.
  destruct c, e; auto.
Qed.

Lemma scanner_adds {T F A} h c (tb : table T F) ev (inj : T -> A) fuel db fl : only_adds (table_scanner h c tb ev inj fuel db fl).
Proof.
  intros bs. unfold table_scanner, any_scan_for_each, scan_for_each, scan_index_for_each. cbn [ix_id primary_index].
  destruct (index_iter tb db NoBatch primary_index (SPoint (t_empty tb))) as [it|e| |]; try apply grows_refl.
  destruct (Byte.eqb (ix_id primary_index) primary_index_id) eqn:E; [|discriminate].
  apply (loop_keeps tb ev _ _ _ (grows bs)); [|apply grows_refl].
  intros s k G. eexists _, _, _. split; [reflexivity|]. eapply grows_trans; [exact G|apply add_grows].
Qed.

Lemma run_scanners_grows scs : Forall only_adds scs -> only_adds (run_scanners scs).
Proof.
  induction 1 as [|f scs A _ IH]; intros bs; cbn [run_scanners]; [apply grows_refl|].
  pose proof (A bs) as G. destruct (f bs) as [b1 [[]|e| |]]; auto. eapply grows_trans; [exact G|apply IH].
Qed.

Lemma run_scanners_in scs f : Forall only_adds scs -> In f scs -> forall bs bs', run_scanners scs bs = (bs', Ok tt) ->
  exists a b, f a = (b, Ok tt) /\ grows bs a /\ grows b bs'.
Proof.
  induction 1 as [|g scs A FA IH]; intros I bs bs' E; [destruct I|]. cbn [run_scanners] in E.
  pose proof (A bs) as G. destruct (g bs) as [b1 r1] eqn:X. destruct r1 as [[]|e| |]; try discriminate. cbn in G.
  destruct I as [->|I].
  - exists bs, b1. split; [exact X|]. split; [apply grows_refl|]. pose proof (run_scanners_grows scs FA b1) as G2. now rewrite E in G2.
  - destruct (IH I b1 bs' E) as (a & b & Y & G1 & G2). exists a, b. split; auto. split; auto. eapply grows_trans; eauto.
Qed.

(** ** The rescan of a table *)
Lemma rescan_visit {A T : Type} h c (l : list (bytes * A)) : forall bs,
  visit_go (T:=A) (init_cb h c) l bs = inr (fold_left (bloom_add h c) (map fst l) bs).
Proof. induction l as [|[k r] l IH]; intros bs; cbn; auto. Qed.

Lemma fold_grows h c l : forall bs, grows bs (fold_left (bloom_add h c) l bs).
Proof.
  induction l as [|k l IH]; intros bs; cbn; [apply grows_refl|]. eapply grows_trans; [apply add_grows|apply IH].
Qed.

Lemma fold_may h c l : hashes_ok h -> 0 < c_n c -> forall bs k, length bs = c_n c -> In k l ->
  bloom_may h c (fold_left (bloom_add h c) l bs) k = true.
Proof.
  intros HH CN. induction l as [|x l IH]; intros bs k L I; [destruct I|]. cbn. destruct I as [->|I].
  - eapply grows_may; [apply fold_grows|]. now apply add_may.
  - apply IH; auto. now rewrite bloom_add_length.
Qed.

Section Rescan.
  Context {T F : Type}.
  Variable tb : table T F.
  Variable db : kv.
  Variable m : tmap T.
  Variable h : hashes.
  Variable c : config.
  Hypothesis G : good_table (no_filter tb).
  Hypothesis KO : kv_ok db.
  Hypothesis R : Rep (schema_of tb) db m.
  Hypothesis HH : hashes_ok h.
  Hypothesis CN : 0 < c_n c.
  Notation sc := (schema_of tb).

  Lemma nf_reads (fl : F) : reads (no_filter tb) db fl NoBatch m.
  Proof.
    constructor; auto; try discriminate; cbn; auto. constructor; auto. intros f rest v E. discriminate.
  Qed.

  Lemma rescan_rows A (inj : T -> A) ev (fl : F) :
    exists l, (forall r, In r l <-> m (s_pk sc r) = Some r /\ bcmp (s_pk sc (t_empty tb)) (s_pk sc r) <> Gt) /\
    forall fuel bs, length l <= fuel ->
      any_visited ev (init_cb h c) (injected inj (keyed sc sprimary l)) bs (table_scanner h c tb ev inj fuel db fl bs).
  Proof.
    assert (X : exact_selector (no_filter tb) primary_index m (SPoint (t_empty tb))).
    { cbn. unfold exact_point, parts_fit. cbn. repeat split; discriminate || reflexivity. }
    destruct (t_each_primary (no_filter tb) G ev db fl NoBatch m (nf_reads fl) (SPoint (t_empty tb)) X) as (l & S & H).
    apply one_listing in S. destruct S as [_ S]. exists l. split.
    - intros r. rewrite S. cbn. unfold from_point, pos_le, pos_cmp. cbn.
      destruct (bcmp (t_pk tb (new_kb []) (t_empty tb)) (t_pk tb (new_kb []) r)) eqn:E; cbn; intuition congruence.
    - intros fuel bs L. apply visited_lift. unfold table_scanner, any_scan_for_each, scan_for_each.
      change (keyed sc sprimary l) with (keyed (schema_of (no_filter tb)) sprimary (dir false l)).
      change (scan_index_for_each tb ev fuel db fl primary_index (SPoint (t_empty tb)) (fun s k => lift_prog inj (init_cb h c s k)) false NoBatch bs)
        with (scan_index_for_each (no_filter tb) ev fuel db fl primary_index (SPoint (t_empty tb)) (fun s k => lift_prog inj (init_cb h c s k)) false NoBatch bs).
      apply H. left. unfold keyed, dir. now rewrite map_length.
  Qed.

  Lemma injected_keys A (inj : T -> A) l : map fst (injected inj (keyed sc sprimary l)) = map (fun r => row_key sc (s_pk sc r)) l.
  Proof. unfold injected, keyed. rewrite !map_map. reflexivity. Qed.

  Lemma rescan_covers A (inj : T -> A) ev (fl : F) :
    (forall r, m (s_pk sc r) = Some r -> bcmp (s_pk sc (t_empty tb)) (s_pk sc r) <> Gt) ->
    exists n, forall fuel bs bs', n <= fuel -> length bs = c_n c -> table_scanner h c tb ev inj fuel db fl bs = (bs', Ok tt) ->
      forall pk r, m pk = Some r -> bloom_may h c bs' (row_key sc pk) = true.
  Proof.
    intros Z. destruct (rescan_rows A inj ev fl) as (l & L & H). exists (length l). intros fuel bs bs' LE LN E pk r M.
    destruct (H fuel bs LE) as [_ [V|(k & s' & _ & _ & V)]]; rewrite E in V; [|discriminate].
    unfold visit in V. rewrite (rescan_visit (T:=T)), injected_keys in V. injection V as ->.
    apply fold_may; auto. destruct (rep_rows _ _ _ R pk r M) as [<- _]. apply in_map_iff. exists r. split; auto.
    apply L. split; auto.
  Qed.
End Rescan.

(** ** FilterInitialize *)
Section Init.
  Context {S : Type}.
  Variable st : storer S.
  Variable cd : codec.
  Variable h : hashes.
  Variable c : config.
  Hypothesis SO : storer_ok st c.
  Hypothesis CO : codec_ok cd.
  Hypothesis HH : hashes_ok h.
  Hypothesis CN : 0 < c_n c.

  Lemma init_grows s scs bs s' bs' r : Forall only_adds scs -> filter_init st cd c s scs bs = (s', bs', r) -> grows bs bs'.
  Proof.
    intros FA. unfold filter_init. destruct (bloom_load st cd c s bs) as [b1 r1] eqn:L. pose proof (load_grows c st cd _ _ _ _ L) as G1.
    destruct r1 as [[]|e| |]; try (intros E; now injection E as <- <- <-).
    destruct (bloom_clear st c s) as [s1 [[]|e1| |]]; try (intros E; now injection E as <- <- <-).
    pose proof (run_scanners_grows scs FA b1) as G2. destruct (run_scanners scs b1) as [b2 r2].
    intros E. injection E as <- <- <-. eapply grows_trans; eauto.
  Qed.

  (** What the past has left in the store, and a new filter initialized from it. *)
  Lemma init_covers {T F A} (tb : table T F) db m (inj : T -> A) ev (fl : F) s0 os s1 bs1 rs :
    good_table (no_filter tb) -> kv_ok db -> Rep (schema_of tb) db m ->
    bloom_run st cd h c s0 (new_bloom c) os = (s1, bs1, rs) ->
    (forall r, m (s_pk (schema_of tb) r) = Some r -> bcmp (s_pk (schema_of tb) (t_empty tb)) (s_pk (schema_of tb) r) <> Gt) ->
    exists n, forall fuel scs s2 bs2, n <= fuel -> Forall only_adds scs -> In (table_scanner h c tb ev inj fuel db fl) scs ->
      filter_init st cd c s1 scs (new_bloom c) = (s2, bs2, Ok tt) ->
      (snd (bloom_load st cd c s1 (new_bloom c)) = Ok tt ->
       forall pk r, m pk = Some r -> snd (promises no_promise os rs) (row_key (schema_of tb) pk)) ->
      length bs2 = c_n c /\ forall pk r, m pk = Some r -> bloom_may h c bs2 (row_key (schema_of tb) pk) = true.
  Proof.
    intros G KO R RN Z. destruct (rescan_covers tb db m h c G KO R HH CN A inj ev fl Z) as (n & H). exists n.
    intros fuel scs s2 bs2 LE FA IN E P. split.
    { destruct (init_grows _ _ _ _ _ _ FA E) as [L _]. rewrite L. apply new_length. }
    intros pk r M. unfold filter_init in E. destruct (bloom_load st cd c s1 (new_bloom c)) as [b1 r1] eqn:L.
    destruct r1 as [[]|e| |]; try discriminate.
    - injection E as <- <-.
      assert (RN2 : bloom_run st cd h c s1 bs1 [FNew; FLoad] = (s1, b1, [Ok tt; Ok tt])) by (cbn; now rewrite L).
      pose proof (inv_run st cd h c SO CO HH CN os s0 (new_bloom c) no_promise s1 bs1 rs (inv_start st cd h c s0) RN) as I1.
      pose proof (inv_run st cd h c SO CO HH CN [FNew; FLoad] s1 bs1 _ _ _ _ I1 RN2) as I2.
      apply (inv_mem _ _ _ _ _ _ _ _ I2). cbn. destruct (promises no_promise os rs) as [mem disk] eqn:PR. cbn. right.
      now apply (P eq_refl pk r).
    - destruct (bloom_clear st c s1) as [s3 [[]|e1| |]]; try discriminate.
      destruct (run_scanners scs b1) as [b2 r2] eqn:RS. injection E as <- <- ->.
      destruct (run_scanners_in scs _ FA IN b1 b2 RS) as (a & b & X & G1 & G2).
      eapply grows_may; [exact G2|]. eapply (H fuel a b LE); eauto. destruct G1 as [LA _]. rewrite LA.
      pose proof (load_grows c st cd _ _ _ _ L) as [LB _]. rewrite LB. apply new_length.
  Qed.

  (** The same for a table using the filter. *)
  Lemma init_consistent {T A} (tb : table T (bloom c)) db m (inj : T -> A) ev fl s0 os s1 bs1 rs :
    t_filter tb = Some (bloom_filt h c) ->
    good_table tb -> kv_ok db -> Rep (schema_of tb) db m ->
    bloom_run st cd h c s0 (new_bloom c) os = (s1, bs1, rs) ->
    (forall r, m (s_pk (schema_of tb) r) = Some r -> bcmp (s_pk (schema_of tb) (t_empty tb)) (s_pk (schema_of tb) r) <> Gt) ->
    exists n, forall fuel scs s2 bs2, n <= fuel -> Forall only_adds scs -> In (table_scanner h c tb ev inj fuel db fl) scs ->
      filter_init st cd c s1 scs (new_bloom c) = (s2, bs2, Ok tt) ->
      (snd (bloom_load st cd c s1 (new_bloom c)) = Ok tt ->
       forall pk r, m pk = Some r -> snd (promises no_promise os rs) (row_key (schema_of tb) pk)) ->
      exists L : length bs2 = c_n c, consistent tb db (Bloom bs2 L) m.
  Proof.
    intros TF [GL GS GF] KO R RN Z.
    assert (G : good_table (no_filter tb)).
    { constructor; [destruct GL; constructor; auto|exact GS|now apply filter_ok_none]. }
    destruct (init_covers tb db m inj ev fl s0 os s1 bs1 rs G KO R RN Z) as (n & H). exists n. intros fuel scs s2 bs2 LE FA IN E P.
    destruct (H fuel scs s2 bs2 LE FA IN E P) as [L C]. exists L. constructor; auto. intros f rest v TF' GV.
    rewrite TF in TF'. injection TF' as <-. cbn.
    destruct (rep_data _ _ _ R rest v GV) as [pk K]. cbn in K. rewrite K. change (schema_of tb) with (schema_of tb) in K.
    destruct (m pk) as [r|] eqn:M; [exact (C pk r M)|].
    exfalso. change (t_id tb) with (s_id (schema_of tb)) in GV. cbn [s_id schema_of] in GV. rewrite K in GV.
    pose proof (rep_get _ _ _ R pk) as RG. rewrite M in RG. unfold row_key in *. cbn in *. congruence.
  Qed.
End Init.
