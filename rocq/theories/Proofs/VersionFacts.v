(** Facts about version records, Open and MigratePebbleFormatVersion. *)

From Coq Require Import List NArith ZArith Lia Bool Arith DecimalN DecimalFacts Strings.String Strings.Byte.
From Verif.Model Require Import Bytes Go Keys Pebble Bloom Backup Version.
From Verif.Spec Require Import KeySpec StoreSpec TableSpec VersionSpec.
From Verif.Proofs Require Import BytesFacts PebbleFacts RestoreFacts.
Import ListNotations.
Local Open Scope list_scope.

(** ** Numerals *)
Definition is_digit (c : byte) : bool := ((48 <=? b2n c) && (b2n c <=? 57))%N.
Definition val (n : N) (s : bytes) : N := fold_left (fun a c => (a * 10 + (b2n c - 48))%N) s n.

Lemma val_ge s : forall n, (n <= val n s)%N.
Proof.
  induction s as [|c s IH]; intros n; [apply N.le_refl|]. unfold val in *. cbn [fold_left]. specialize (IH (n * 10 + (b2n c - 48))%N).
  eapply N.le_trans; [|exact IH]. lia.
Qed.

Lemma parse_loop_ok max s : forall n v, (n <= max)%N -> parse_loop max n s = PNum v <-> forallb is_digit s = true /\ v = val n s /\ (v <= max)%N.
Proof.
  induction s as [|c s IH]; intros n v H; cbn [parse_loop forallb].
  - unfold val. cbn [fold_left]. split; [intros [= ->]; auto|intros (_ & -> & _); reflexivity].
  - change ((48 <=? b2n c) && (b2n c <=? 57))%N with (is_digit c). destruct (is_digit c); cbn [andb]; [|split; [discriminate|intros [X _]; discriminate]].
    change (val n (c :: s)) with (val (n * 10 + (b2n c - 48)) s). destruct (N.ltb_spec max (n * 10 + (b2n c - 48))) as [L|L].
    + split; [discriminate|]. intros (_ & -> & L2). pose proof (val_ge s (n * 10 + (b2n c - 48))). lia.
    + apply IH. exact L.
Qed.

Lemma val_acc u : forall p, val (Npos p) (digits u) = Npos (Pos.of_uint_acc u p).
Proof.
  induction u; intros p; cbn [digits Pos.of_uint_acc]; try reflexivity;
  match goal with |- val ?n (?c :: ?t) = Npos (Pos.of_uint_acc ?u ?q) => change (val n (c :: t)) with (val (n * 10 + (b2n c - 48)) t);
    replace (n * 10 + (b2n c - 48))%N with (Npos q); [apply IHu|] end;
  match goal with |- context [(b2n ?c - 48)%N] => let x := eval vm_compute in (b2n c - 48)%N in change (b2n c - 48)%N with x end; lia.
Qed.

Lemma val_uint u : val 0 (digits u) = N.of_uint u.
Proof.
  unfold N.of_uint. induction u; cbn [digits Pos.of_uint]; try reflexivity;
  match goal with |- val 0 (?c :: ?t) = _ => change (val 0 (c :: t)) with (val (0 * 10 + (b2n c - 48)) t);
    let x := eval vm_compute in (0 * 10 + (b2n c - 48))%N in change (0 * 10 + (b2n c - 48))%N with x end; [exact IHu|apply val_acc..].
Qed.

Lemma digits_of s : forallb is_digit s = true -> exists u, s = digits u.
Proof.
  induction s as [|c s IH]; intros H; [now exists Decimal.Nil|]. cbn [forallb] in H. apply andb_true_iff in H as [H1 H2]. destruct (IH H2) as [u ->].
  unfold is_digit in H1. apply andb_true_iff in H1 as [A B]. apply N.leb_le in A, B.
  assert (C : In c [x30; x31; x32; x33; x34; x35; x36; x37; x38; x39]).
  { assert (E : In (b2n c) (map b2n [x30; x31; x32; x33; x34; x35; x36; x37; x38; x39])).
    { change (map b2n [x30; x31; x32; x33; x34; x35; x36; x37; x38; x39]) with [48; 49; 50; 51; 52; 53; 54; 55; 56; 57]%N. cbn [In]. lia. }
    apply in_map_iff in E as [x [E I]]. apply b2n_inj in E. now subst. }
  repeat (destruct C as [<-|C]; [eexists; match goal with |- ?c :: _ = _ =>
    first [instantiate (1 := Decimal.D0 u); reflexivity | instantiate (1 := Decimal.D1 u); reflexivity | instantiate (1 := Decimal.D2 u); reflexivity | instantiate (1 := Decimal.D3 u); reflexivity
          |instantiate (1 := Decimal.D4 u); reflexivity | instantiate (1 := Decimal.D5 u); reflexivity | instantiate (1 := Decimal.D6 u); reflexivity | instantiate (1 := Decimal.D7 u); reflexivity
          |instantiate (1 := Decimal.D8 u); reflexivity | instantiate (1 := Decimal.D9 u); reflexivity] end|]). destruct C.
Qed.

Lemma digits_digit u : forallb is_digit (digits u) = true.
Proof. induction u; cbn [digits forallb]; auto. Qed.

Lemma digits_nzhead u : exists n, digits u = repeat x30 n ++ digits (Decimal.nzhead u).
Proof. induction u; try (exists 0; reflexivity). destruct IHu as [n E]. exists (S n). cbn [digits Decimal.nzhead repeat app]. now rewrite E. Qed.

Lemma dec_nonempty v : dec v <> [].
Proof.
  unfold dec. intros H. assert (U : N.to_uint v = Decimal.Nil) by (destruct (N.to_uint v); try discriminate; reflexivity).
  pose proof (Unsigned.of_to v) as O. rewrite U in O. cbn in O. subst v. discriminate.
Qed.

Lemma val_zeros n s : val 0 (repeat x30 n ++ s) = val 0 s.
Proof. induction n; cbn [repeat app]; auto. Qed.

Lemma parse_uint_records max s v : parse_uint max s = PNum v <-> records s v /\ (v <= max)%N.
Proof.
  unfold records. split.
  - intros H. destruct s as [|c s]; [discriminate|]. cbn [parse_uint] in H. apply parse_loop_ok in H; [|lia]. destruct H as (D & V & L). split; [|exact L].
    destruct (digits_of _ D) as [u E]. rewrite E in *. rewrite val_uint in V. unfold dec. rewrite V, Unsigned.to_of.
    destruct (digits_nzhead u) as [n N]. unfold Decimal.unorm. destruct (Decimal.nzhead u) eqn:Z; try (exists n; exact N).
    cbn [digits] in N. rewrite List.app_nil_r in N. destruct n as [|n]; [cbn in N; rewrite N in E; discriminate|]. exists n. rewrite N. change (digits Decimal.zero) with [x30].
    clear. induction n; cbn [repeat app] in *; [reflexivity|]. now f_equal.
  - intros [[n ->] L]. assert (P : forallb is_digit (repeat x30 n ++ dec v) = true).
    { rewrite forallb_app. apply andb_true_iff. split; [induction n; auto|apply digits_digit]. }
    assert (V : val 0 (repeat x30 n ++ dec v) = v) by (rewrite val_zeros; unfold dec; rewrite val_uint; apply Unsigned.of_to).
    destruct (repeat x30 n ++ dec v) as [|c s] eqn:E; [apply app_eq_nil in E as [_ E]; now apply dec_nonempty in E|]. cbn [parse_uint].
    apply parse_loop_ok; [lia|]. auto.
Qed.

Lemma records_fun s v w : records s v -> records s w -> v = w.
Proof.
  intros R S. assert (A := proj2 (parse_uint_records (N.max v w) s v) (conj R (N.le_max_l v w))). assert (B := proj2 (parse_uint_records (N.max v w) s w) (conj S (N.le_max_r v w))). congruence.
Qed.

Lemma records_dec v : records (dec v) v.
Proof. now exists 0. Qed.

(** ** Open *)
Section Open.
  Variable peb : option N -> N -> option N.

  Lemma last_cons {A} (l : list A) : forall x d, last (x :: l) d = last l x.
  Proof. induction l as [|z l IH]; intros x d; [reflexivity|]. change (last (x :: z :: l) d) with (last (z :: l) d). now rewrite !IH. Qed.

  Lemma last_app {A} (l l' : list A) : forall d, last (l ++ l') d = last l' (last l d).
  Proof. induction l as [|x l IH]; intros d; [reflexivity|]. cbn [app]. now rewrite !last_cons, IH. Qed.

  Lemma write_steps_last d s e : last (write_steps d s) e = set_file d s.
  Proof.
    unfold write_steps. rewrite seq_S, map_app, last_app. cbn [map last plus]. now rewrite firstn_all.
  Qed.

  Lemma write_steps_in d s d' : In d' (write_steps d s) <-> exists n, n <= List.length s /\ d' = set_file d (firstn n s).
  Proof.
    unfold write_steps. rewrite in_map_iff. split.
    - intros (n & <- & I). apply in_seq in I. exists n. split; [lia|reflexivity].
    - intros (n & L & ->). exists n. split; [reflexivity|]. apply in_seq. lia.
  Qed.

  Lemma open_pebble_file d v d' : In d' (fst (open_pebble peb d v)) -> d_file d' = d_file d /\ d_bond d' = d_bond d.
  Proof.
    unfold open_pebble. destruct (peb (d_fmv d) v) as [f|]; [|easy]. destruct (version _ =? 0)%Z; [|destruct (negb _)]; cbn [fst]; intros H;
      repeat (destruct H as [<-|H]; [split; reflexivity|]); destruct H.
  Qed.

  Lemma open_pebble_res d v : snd (open_pebble peb d v) = Ok tt <-> peb (d_fmv d) v <> None /\ (version (d_kv d) = 0%Z \/ version (d_kv d) = Z.of_N data_version).
  Proof.
    unfold open_pebble. destruct (peb (d_fmv d) v) as [f|]; cbn [snd]; [|split; [discriminate|intros [X _]; congruence]]. cbn [d_kv set_fmv].
    destruct (Z.eqb_spec (version (d_kv d)) 0) as [E|E]; [split; [intros _; split; [discriminate|auto]|reflexivity]|].
    destruct (Z.eqb_spec (version (d_kv d)) (Z.of_N data_version)) as [F|F]; cbn [negb snd]; split; intros H; try discriminate; try reflexivity.
    - split; [discriminate|auto].
    - destruct H as [_ [H|H]]; contradiction.
  Qed.

  Lemma open_ok d v : (v <= max_u64)%N -> snd (open_db peb d v) = Ok tt <->
    (d_file d = None \/ recorded d v) /\ peb (d_fmv d) v <> None /\ (version (d_kv d) = 0%Z \/ version (d_kv d) = Z.of_N data_version).
  Proof.
    intros V. unfold open_db. cbn [d_file make_dir]. destruct (d_file d) as [s|] eqn:F.
    - destruct (parse_uint max_u64 s) as [n | |] eqn:P.
      + destruct (N.eqb_spec n v) as [->|NE].
        * pose proof (open_pebble_res (make_dir d) v) as R. destruct (open_pebble peb (make_dir d) v) as [l r]. cbn [snd] in *. cbn [d_fmv d_kv make_dir] in R. rewrite R.
          split; [|intuition]. intros H. split; [|exact H]. right. exists s. split; [exact F|]. now apply parse_uint_records in P.
        * cbn [snd]. split; [discriminate|]. intros [[X|(s' & X & Y)] _]; [congruence|]. apply parse_uint_records in P as [P _]. rewrite F in X. injection X as <-. now destruct (NE (records_fun _ _ _ P Y)).
      + cbn [snd]. split; [discriminate|]. intros [[X|(s' & X & Y)] _]; [congruence|]. rewrite F in X. injection X as <-. pose proof (proj2 (parse_uint_records max_u64 s v) (conj Y V)). congruence.
      + cbn [snd]. split; [discriminate|]. intros [[X|(s' & X & Y)] _]; [congruence|]. rewrite F in X. injection X as <-. pose proof (proj2 (parse_uint_records max_u64 s v) (conj Y V)). congruence.
    - pose proof (open_pebble_res (set_file (make_dir d) (dec v)) v) as R. destruct (open_pebble peb (set_file (make_dir d) (dec v)) v) as [l r]. cbn [snd] in *. cbn [d_fmv d_kv make_dir set_file] in R. rewrite R. intuition.
  Qed.

  Lemma open_keeps d v d' s : d_file d = Some s -> crashed d (open_db peb d v) d' -> d_file d' = Some s.
  Proof.
    intros F [<-|H]; [exact F|]. unfold open_db in H. cbn [d_file make_dir] in H. rewrite F in H. destruct (parse_uint max_u64 s) as [n | |].
    - destruct (n =? v)%N.
      + destruct (open_pebble peb (make_dir d) v) as [l r] eqn:O. cbn [fst] in H. destruct H as [<-|H]; [exact F|].
        pose proof (open_pebble_file (make_dir d) v d') as P. rewrite O in P. destruct (P H) as [E _]. rewrite E. exact F.
      + destruct H as [<-|[]]. exact F.
    - destruct H as [<-|[]]. exact F.
    - destruct H as [<-|[]]. exact F.
  Qed.

  Lemma open_pins d v : d_file d = None -> d_file (after d (open_db peb d v)) = Some (dec v).
  Proof.
    intros F. unfold after, open_db. cbn [d_file make_dir]. rewrite F.
    pose proof (open_pebble_file (set_file (make_dir d) (dec v)) v) as P. destruct (open_pebble peb (set_file (make_dir d) (dec v)) v) as [l r]. cbn [fst] in *.
    rewrite last_cons, last_app, write_steps_last. destruct l as [|x l]; [reflexivity|]. destruct (P (last (x :: l) (set_file (make_dir d) (dec v)))) as [E _]; [|exact E].
    apply last_in. discriminate.
  Qed.

  (** The pairs: only the data version key, and only if it held no version. *)
  Lemma open_pairs d v k : kv_ok (d_kv d) -> k <> data_version_key \/ version (d_kv d) <> 0%Z ->
    forall d', crashed d (open_db peb d v) d' -> kv_get (d_kv d') k = kv_get (d_kv d) k.
  Proof.
    intros K C d' [<-|H]; [reflexivity|].
    assert (Q : forall e, kv_ok (d_kv e) -> d_kv e = d_kv d -> In d' (fst (open_pebble peb e v)) -> kv_get (d_kv d') k = kv_get (d_kv d) k).
    { intros e KE EQ. unfold open_pebble. destruct (peb (d_fmv e) v) as [f|]; [|easy]. cbn [d_kv set_fmv]. rewrite EQ. destruct (Z.eqb_spec (version (d_kv d)) 0) as [Z|Z]; [|destruct (negb _)]; cbn [fst]; intros I.
      - destruct I as [<-|[<-|[]]]; [cbn; now rewrite EQ|]. cbn [d_kv set_kv]. unfold init_version. rewrite Z. change (0 <? 0)%Z with false. cbv iota. destruct C as [C|C]; [|contradiction].
        rewrite kv_get_set by auto. destruct (beqb k data_version_key) eqn:E; [apply beqb_eq in E; contradiction|reflexivity].
      - destruct I as [<-|[]]. cbn. now rewrite EQ.
      - destruct I as [<-|[]]. cbn. now rewrite EQ. }
    unfold open_db in H. cbn [d_file make_dir] in H. destruct (d_file d) as [s|].
    - destruct (parse_uint max_u64 s) as [n | |]; [destruct (n =? v)%N|..]; try (destruct H as [<-|[]]; reflexivity).
      specialize (Q (make_dir d) K eq_refl). destruct (open_pebble peb (make_dir d) v) as [l r]. cbn [fst] in *. destruct H as [<-|H]; [reflexivity|auto].
    - specialize (Q (set_file (make_dir d) (dec v)) K eq_refl). destruct (open_pebble peb (set_file (make_dir d) (dec v)) v) as [l r]. cbn [fst] in *. destruct H as [<-|H]; [reflexivity|].
      apply in_app_iff in H as [H|H]; [|auto]. apply write_steps_in in H as (n & _ & ->). reflexivity.
  Qed.

  (** ** MigratePebbleFormatVersion *)
  Lemma migrate_ok d v : snd (migrate peb d v) = Ok tt <-> peb (d_fmv d) v <> None /\ d_bond d = true.
  Proof.
    unfold migrate. destruct (peb (d_fmv d) v) as [f|]; cbn [snd]; [|split; [discriminate|intros [X _]; congruence]]. cbn [d_bond set_fmv].
    destruct (d_bond d); cbn [snd]; split; try discriminate; auto; [split; [discriminate|reflexivity]|intros [_ X]; discriminate].
  Qed.

  Lemma migrate_after d v : snd (migrate peb d v) = Ok tt -> recorded (after d (migrate peb d v)) v /\ d_kv (after d (migrate peb d v)) = d_kv d.
  Proof.
    unfold migrate, after. destruct (peb (d_fmv d) v) as [f|]; [|discriminate]. cbn [d_bond set_fmv]. destruct (d_bond d); [|discriminate]. intros _. cbn [fst].
    rewrite last_cons, write_steps_last. split; [|reflexivity]. exists (dec v). split; [reflexivity|apply records_dec].
  Qed.

  Lemma migrate_failed d v : snd (migrate peb d v) <> Ok tt -> forall d', crashed d (migrate peb d v) d' -> d_file d' = d_file d /\ d_kv d' = d_kv d.
  Proof.
    unfold migrate, crashed. destruct (peb (d_fmv d) v) as [f|]; [|intros _ d' [<-|[]]; auto]. cbn [d_bond set_fmv]. destruct (d_bond d); [intros X; exfalso; apply X; reflexivity|].
    intros _ d' [<-|[<-|[]]]; auto.
  Qed.

  Lemma migrate_crash d v d' : crashed d (migrate peb d v) d' ->
    d_file d' = d_file d \/ recorded d' v \/ exists n, n < List.length (dec v) /\ d_file d' = Some (firstn n (dec v)).
  Proof.
    unfold crashed, migrate. destruct (peb (d_fmv d) v) as [f|]; [|intros [<-|[]]; auto]. cbn [d_bond set_fmv]. destruct (d_bond d); [|intros [<-|[<-|[]]]; auto]. cbn [fst].
    intros [<-|[<-|H]]; auto. apply write_steps_in in H as (n & L & ->). right. destruct (Nat.eq_dec n (List.length (dec v))) as [->|NE].
    - left. exists (dec v). split; [cbn; now rewrite firstn_all|apply records_dec].
    - right. exists n. split; [lia|reflexivity].
  Qed.

  Lemma migrate_kv d v d' : crashed d (migrate peb d v) d' -> d_kv d' = d_kv d.
  Proof.
    unfold crashed, migrate. destruct (peb (d_fmv d) v) as [f|]; [|intros [<-|[]]; auto]. cbn [d_bond set_fmv]. destruct (d_bond d); [|intros [<-|[<-|[]]]; auto]. cbn [fst].
    intros [<-|[<-|H]]; auto. apply write_steps_in in H as (n & L & ->). reflexivity.
  Qed.

  Lemma migrate_empty d v : snd (migrate peb d v) = Ok tt -> exists d', crashed d (migrate peb d v) d' /\ forall w, snd (open_db peb d' w) = Err EOther.
  Proof.
    unfold crashed, migrate. destruct (peb (d_fmv d) v) as [f|]; [|discriminate]. cbn [d_bond set_fmv]. destruct (d_bond d); [|discriminate]. intros _. cbn [fst].
    exists (set_file (set_fmv d f) []). split; [|reflexivity]. right. right. apply write_steps_in. exists 0. split; [lia|reflexivity].
  Qed.

  Lemma open_empty d v : d_file d = None -> exists d', crashed d (open_db peb d v) d' /\ forall w, snd (open_db peb d' w) = Err EOther.
  Proof.
    intros F. unfold crashed, open_db at 1. cbn [d_file make_dir]. rewrite F. destruct (open_pebble peb (set_file (make_dir d) (dec v)) v) as [l r]. cbn [fst].
    exists (set_file (make_dir d) []). split; [|reflexivity]. right. right. apply in_app_iff. left. apply write_steps_in. exists 0. split; [lia|reflexivity].
  Qed.
End Open.

Lemma migrate_survives peb d old v d' : (old <= max_u64)%N -> (v <= max_u64)%N -> recorded d old -> (version (d_kv d) = 0%Z \/ version (d_kv d) = Z.of_N data_version) ->
  (forall f w, w = old \/ w = v -> peb f w <> None) -> crashed d (migrate peb d v) d' ->
  (forall n, n < List.length (dec v) -> d_file d' <> Some (firstn n (dec v))) ->
  snd (open_db peb d' old) = Ok tt \/ snd (open_db peb d' v) = Ok tt.
Proof.
  intros L1 L2 (s & F & R) DV PEB C NP. pose proof (migrate_kv _ _ _ _ C) as KV. destruct (migrate_crash _ _ _ _ C) as [E|[E|(n & L & E)]].
  - left. apply open_ok; auto. split; [right; exists s; split; [congruence|exact R]|]. split; [apply PEB; auto|]. now rewrite KV.
  - right. apply open_ok; auto. split; [now right|]. split; [apply PEB; auto|]. now rewrite KV.
  - now apply NP in E.
Qed.

Lemma format_version d w : d_file d <> None -> pebble_format_version d = Ok w <-> recorded d w /\ (w <= max_u64)%N.
Proof.
  unfold pebble_format_version, recorded. destruct (d_file d) as [s|] eqn:F; [|easy]. intros _. split.
  - destruct (parse_uint max_u64 s) as [n | |] eqn:P; try discriminate. intros [= ->]. apply parse_uint_records in P as [P L]. split; [exists s; auto|exact L].
  - intros [(t & [= <-] & R) L]. now rewrite (proj2 (parse_uint_records max_u64 s w) (conj R L)).
Qed.

(** ** The data version *)
Lemma open_marks peb d v : kv_ok (d_kv d) -> snd (open_db peb d v) = Ok tt -> version (d_kv (after d (open_db peb d v))) = Z.of_N data_version.
Proof.
  intros K.
  assert (Q : forall e e0, kv_ok (d_kv e) -> d_kv e = d_kv e0 -> snd (open_pebble peb e v) = Ok tt -> version (d_kv (last (fst (open_pebble peb e v)) e0)) = Z.of_N data_version).
  { intros e e0 KE EQ. unfold open_pebble. destruct (peb (d_fmv e) v) as [f|]; [|discriminate]. cbn [d_kv set_fmv].
    destruct (Z.eqb_spec (version (d_kv e)) 0) as [Z|Z]; [|destruct (Z.eqb_spec (version (d_kv e)) (Z.of_N data_version)) as [Y|Y]]; cbn [fst snd negb]; intros H; try discriminate.
    - cbn [last d_kv set_kv]. unfold init_version. rewrite Z. change (0 <? 0)%Z with false. cbv iota. unfold version. rewrite kv_get_set by auto. now rewrite beqb_refl.
    - exact Y. }
  unfold after, open_db. cbn [d_file make_dir]. destruct (d_file d) as [s|].
  - destruct (parse_uint max_u64 s) as [n | |]; [destruct (n =? v)%N|..]; try discriminate.
    specialize (Q (make_dir d) (make_dir d) K eq_refl). destruct (open_pebble peb (make_dir d) v) as [l r]. cbn [fst snd] in *. rewrite last_cons. exact Q.
  - specialize (Q (set_file (make_dir d) (dec v)) (set_file (make_dir d) (dec v)) K eq_refl). destruct (open_pebble peb (set_file (make_dir d) (dec v)) v) as [l r]. cbn [fst snd] in *.
    rewrite last_cons, last_app, write_steps_last. exact Q.
Qed.

Lemma open_pairs_ok peb d v : kv_ok (d_kv d) -> kv_ok (d_kv (after d (open_db peb d v))).
Proof.
  intros K.
  assert (Q : forall e e0, kv_ok (d_kv e) -> kv_ok (d_kv e0) -> kv_ok (d_kv (last (fst (open_pebble peb e v)) e0))).
  { intros e e0 KE KE0. unfold open_pebble. destruct (peb (d_fmv e) v) as [f|]; [|exact KE0]. destruct (_ =? 0)%Z; [|destruct (negb _)]; cbn [fst last d_kv set_kv set_fmv]; auto.
    unfold init_version. destruct (_ <? _)%Z; auto. now apply kv_set_ok. }
  unfold after, open_db. cbn [d_file make_dir]. destruct (d_file d) as [s|].
  - destruct (parse_uint max_u64 s) as [n | |]; [destruct (n =? v)%N|..]; try exact K.
    specialize (Q (make_dir d) (make_dir d) K K). destruct (open_pebble peb (make_dir d) v) as [l r]. cbn [fst snd] in *. rewrite last_cons. exact Q.
  - specialize (Q (set_file (make_dir d) (dec v)) (set_file (make_dir d) (dec v)) K K). destruct (open_pebble peb (set_file (make_dir d) (dec v)) v) as [l r]. cbn [fst snd] in *.
    rewrite last_cons, last_app, write_steps_last. exact Q.
Qed.

Lemma after_crashed d call : crashed d call (after d call).
Proof. unfold crashed, after. destruct (fst call) as [|x l] eqn:E; [now left|]. right. apply last_in. discriminate. Qed.

(** What a table holds does not change if no key of it changes. *)
Lemma Rep_same {T} (sc : schema T) db db' m : Rep sc db m -> (forall i rest, kv_get db' (s_id sc :: i :: rest) = kv_get db (s_id sc :: i :: rest)) -> Rep sc db' m.
Proof.
  intros [A B C D] S. constructor; auto.
  - intros pk. unfold row_key, spec_key. cbn [app]. rewrite S. apply B.
  - intros rest v. rewrite S. apply C.
  - intros ix rest v I. rewrite S. now apply D.
Qed.

Lemma open_tables {T} peb d v (sc : schema T) m d' : kv_ok (d_kv d) -> s_id sc <> x00 -> Rep sc (d_kv d) m -> crashed d (open_db peb d v) d' -> Rep sc (d_kv d') m.
Proof.
  intros K Z R C. apply (Rep_same sc (d_kv d)); auto. intros i rest. apply (open_pairs peb d v); auto. left. intros E. apply Z.
  change data_version_key with (x00 :: tl data_version_key) in E. injection E as E _. exact E.
Qed.

Lemma table_zero {T} peb d v (sc : schema T) : kv_ok (d_kv d) -> s_id sc = x00 -> snd (open_db peb d v) = Ok tt ->
  forall m, Rep sc (d_kv (after d (open_db peb d v))) m -> m (str "__bond_db_data_version__") <> None.
Proof.
  intros K Z O m R. pose proof (open_marks peb d v K O) as V. unfold version in V.
  assert (G := rep_get _ _ _ R (str "__bond_db_data_version__")). unfold row_key in G. rewrite Z in G.
  change (spec_key x00 x00 [] [] (str "__bond_db_data_version__")) with data_version_key in G. rewrite G in V.
  destruct (m (str "__bond_db_data_version__")); [discriminate|]. cbn in V. discriminate.
Qed.

Lemma user_key_outside {T} (sc : schema T) k : s_id sc <> x00 -> ~ in_table sc (new_user_key k).
Proof.
  intros Z (i & rest & E & _). apply Z. assert (H : hd_error (new_user_key k) = Some x00) by reflexivity. rewrite E in H. now injection H.
Qed.
