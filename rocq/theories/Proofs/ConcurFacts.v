(** Concurrent calls on different rows. *)

From Coq Require Import List NArith Lia Bool Sorting.Sorted Sorting.Permutation Arith.
From Verif.Model Require Import Bytes Go Keys Pebble Index Table Concur.
From Verif.Spec Require Import KeySpec TableSpec HistSpec ConcurSpec.
From Verif.Proofs Require Import BytesFacts KeysFacts PebbleFacts TableFacts WriteFacts UpdateFacts UpsertFacts CallFacts LocalFacts ReadFacts FilterSim HistFacts.
Import ListNotations.

(** ** Lists *)

Lemma set_nth_same {A} (l : list A) i x y : nth_error l i = Some y -> nth_error (set_nth l i x) i = Some x.
Proof. revert i; induction l as [|a l IH]; intros [|i] H; cbn in *; try easy. apply IH; auto. Qed.

Lemma set_nth_other {A} (l : list A) i j x : i <> j -> nth_error (set_nth l i x) j = nth_error l j.
Proof. revert i j; induction l as [|a l IH]; intros [|i] [|j] H; cbn; auto; try congruence. Qed.

Lemma set_nth_length {A} (l : list A) i x : length (set_nth l i x) = length l.
Proof. revert i; induction l as [|a l IH]; intros [|i]; cbn; auto. Qed.

Lemma set_nth_split {A} (l : list A) i y : nth_error l i = Some y ->
  exists a b, l = a ++ y :: b /\ forall x, set_nth l i x = a ++ x :: b.
Proof.
  revert i; induction l as [|z l IH]; intros [|i] H; cbn in *; try easy.
  - injection H as ->. exists [], l. auto.
  - destruct (IH _ H) as [a [b [-> E]]]. exists (z :: a), b. split; auto. intro x. cbn. rewrite E. reflexivity.
Qed.

Lemma set_nth_map {A B} (g : A -> B) (l : list A) i x y : nth_error l i = Some y -> g x = g y ->
  map g (set_nth l i x) = map g l.
Proof.
  intros H E. destruct (set_nth_split l i y H) as [a [b [-> E2]]]. rewrite E2, !map_app. cbn. congruence.
Qed.

Lemma fop_perm {A} (R : A -> A -> Prop) : (forall x y, R x y -> R y x) ->
  forall l l', Permutation l l' -> ForallOrdPairs R l -> ForallOrdPairs R l'.
Proof.
  intros SY l l' P. induction P; intro H; auto.
  - inversion H; subst. constructor; auto. eapply Permutation_Forall; eauto.
  - inversion H as [|? ? H1 H2]; subst. inversion H2 as [|? ? H3 H4]; subst. inversion H1 as [|? ? H5 H6]; subst.
    constructor; [constructor; auto|]. constructor; auto.
Qed.

Lemma fop_app {A} (R : A -> A -> Prop) a b : ForallOrdPairs R (a ++ b) ->
  ForallOrdPairs R a /\ ForallOrdPairs R b /\ (forall x y, In x a -> In y b -> R x y).
Proof.
  induction a as [|x a IH]; cbn; intro H; [split; [constructor|]; split; [auto|easy]|].
  inversion H as [|? ? H1 H2]; subst. destruct (IH H2) as [I1 [I2 I3]]. rewrite Forall_app in H1. destruct H1 as [H3 H4].
  split; [constructor; auto|]. split; auto. intros x' y [<-|Hx] Hy; [|auto]. rewrite Forall_forall in H4. auto.
Qed.

(** ** Rounds make up the body of a call *)

Section Rounds.
  Context {T F : Type} (tb : table T F).
  Notation body0 tb ev := (body (tb:=tb) (ev:=ev)).

  (** the state after [n] rounds on a database that does not change *)
  Inductive reach (ev : env T) (c : call T) (db : kv) (s0 : wst T F) : nat -> wst T F -> Prop :=
  | reach_0 : reach ev c db s0 0 s0
  | reach_S n s rows s' : reach ev c db s0 n s -> part ev c n = Some rows ->
      round tb ev c db rows s = (s', Ok tt) -> reach ev c db s0 (S n) s'.

  Lemma part_slice (ev : env T) c n rows : env_ok ev -> part ev c n = Some rows -> incl rows (rows_of c).
  Proof.
    intros EV H r Hr. destruct c as [l|l|f l|l]; cbn [part rows_of] in *.
    1,2,3: unfold slice in H; destruct (Nat.ltb _ _); [|easy]; injection H as <-;
      rewrite <- (firstn_skipn (n * e_chunk ev) l); apply in_or_app; right;
      match type of Hr with In _ (firstn ?k ?z) => rewrite <- (firstn_skipn k z) end; apply in_or_app; left; exact Hr.
    destruct n; [|easy]. injection H as <-. exact Hr.
  Qed.

  Lemma part_bound (ev : env T) c n rows : env_ok ev -> part ev c n = Some rows -> n <= length (rows_of c).
  Proof.
    intros EV H. pose proof (env_chunk_pos _ EV) as P. destruct c as [l|l|f l|l]; cbn [part rows_of] in *.
    1,2,3: unfold slice in H; destruct (Nat.ltb _ _) eqn:L; [|easy]; apply Nat.ltb_lt in L; nia.
    destruct n; [lia|easy].
  Qed.

  Definition loop (ev : env T) (c : call T) (db : kv) (fuel n : nat) (s : wst T F) : wst T F * res unit :=
    match c with
    | CInsert l => batched_loop fuel l (e_chunk ev) n (insert_chunk tb ev db false) s
    | CUpdate l => batched_loop fuel l (e_chunk ev) n (update_chunk tb ev db false) s
    | CUpsert f l => batched_loop fuel l (e_chunk ev) n (upsert_chunk tb ev f db false) s
    | CDelete l => match n with O => delete_rows tb ev l s | _ => (s, Ok tt) end
    end.

  Lemma loop_body ev c db s : loop ev c db (S (length (rows_of c))) 0 s = body0 tb ev c db false s.
  Proof. destruct c; reflexivity. Qed.

  Lemma loop_some ev c db fuel n s rows : part ev c n = Some rows ->
    loop ev c db (S fuel) n s =
      match round tb ev c db rows s with
      | (s', Ok _) => loop ev c db fuel (S n) s'
      | r => r
      end.
  Proof.
    intro H. destruct c as [l|l|f l|l]; cbn [part loop round] in *.
    1,2,3: unfold slice in H; cbn [batched_loop]; destruct (Nat.ltb _ _); [|easy]; injection H as <-; reflexivity.
    destruct n; [|easy]. injection H as <-. destruct (delete_rows tb ev l s) as [s' [[]|e| |]]; reflexivity.
  Qed.

  Lemma loop_none ev c db fuel n s : part ev c n = None -> loop ev c db (S fuel) n s = (s, Ok tt).
  Proof.
    intro H. destruct c as [l|l|f l|l]; cbn [part loop] in *.
    1,2,3: unfold slice in H; cbn [batched_loop]; destruct (Nat.ltb _ _); [easy|]; reflexivity.
    destruct n; [easy|]. reflexivity.
  Qed.

  Lemma reach_loop ev c db s0 n s : env_ok ev -> reach ev c db s0 n s ->
    n <= S (length (rows_of c)) /\ (n = 0 \/ exists k rows, n = S k /\ part ev c k = Some rows) /\
    forall k, loop ev c db (n + k) 0 s0 = loop ev c db k n s.
  Proof.
    intros EV R. induction R as [|n s rows s' R [IH1 [_ IH2]] P E]; [cbn; auto with arith|].
    pose proof (part_bound _ _ _ _ EV P). split; [lia|]. split; [right; eauto|].
    intro k. replace (S n + k) with (n + S k) by lia. rewrite IH2, (loop_some _ _ _ _ _ _ _ P), E. reflexivity.
  Qed.

  Lemma loop_fuel_part (ev : env T) c n rows : env_ok ev -> part ev c n = Some rows ->
    match c with CDelete _ => True | _ => n < length (rows_of c) end.
  Proof.
    intros EV H. pose proof (env_chunk_pos _ EV) as P. destruct c as [l|l|f l|l]; cbn [part rows_of] in *; auto;
    unfold slice in H; destruct (Nat.ltb _ _) eqn:L; try easy; apply Nat.ltb_lt in L; nia.
  Qed.

  Lemma loop_delete_fuel ev l db k k' n (s : wst T F) : loop ev (CDelete l) db k n s = loop ev (CDelete l) db k' n s.
  Proof. reflexivity. Qed.

  Lemma reach_end ev c db s0 n s : env_ok ev -> reach ev c db s0 n s -> part ev c n = None ->
    body0 tb ev c db false s0 = (s, Ok tt).
  Proof.
    intros EV R P. destruct (reach_loop _ _ _ _ _ _ EV R) as [_ [B E]]. rewrite <- loop_body.
    assert (exists k, loop ev c db (S (length (rows_of c))) 0 s0 = loop ev c db (n + S k) 0 s0) as [k ->].
    { destruct c as [l|l|f l|l]; [| | |exists 0; reflexivity];
        (assert (LE : n <= length (rows_of (CInsert l)));
         [destruct B as [->|[j [rows [-> B]]]]; [lia|]; apply loop_fuel_part in B; auto; cbn in *; lia
         |cbn [rows_of] in *; exists (length l - n); f_equal; lia]). }
    rewrite E. apply loop_none; auto.
  Qed.

  Lemma reach_fail ev c db s0 n s rows s' r : env_ok ev -> reach ev c db s0 n s -> part ev c n = Some rows ->
    round tb ev c db rows s = (s', r) -> ok_of r = false ->
    body0 tb ev c db false s0 = (s', r).
  Proof.
    intros EV R P X NO. destruct (reach_loop _ _ _ _ _ _ EV R) as [_ [_ E]]. rewrite <- loop_body.
    assert (exists k, loop ev c db (S (length (rows_of c))) 0 s0 = loop ev c db (n + S k) 0 s0) as [k ->].
    { pose proof (loop_fuel_part _ _ _ _ EV P) as B. destruct c as [l|l|f l|l]; [| | |exists 0; reflexivity];
        cbn [rows_of] in *; exists (length l - n); f_equal; lia. }
    rewrite E, (loop_some _ _ _ _ _ _ _ P), X. destruct r; easy.
  Qed.
End Rounds.

Section RoundFacts.
  Context {T F : Type} {tb : table T F} {LAW : lawful tb}.
  Notation sc := (schema_of tb).
  Notation dk := (data_key tb).
  Notation pk := (s_pk (schema_of tb)).
  Notation tb0 := (no_filter tb).

  Lemma round_local ev c db1 db2 rows s : env_ok ev -> kv_ok db1 -> kv_ok db2 ->
    (forall r, In r rows -> kv_get db1 (dk r) = kv_get db2 (dk r)) ->
    round tb ev c db1 rows s = round tb ev c db2 rows s.
  Proof.
    intros EV K1 K2 AG. destruct c as [l|l|f l|l]; cbn [round]; [| | |reflexivity].
    1,2,3: destruct (sort_keys_rows (tb := tb) (ev := ev) rows) as [keys [order [rs [E1 [E2 [P [S F2]]]]]]];
      unfold insert_chunk, update_chunk, upsert_chunk; rewrite E1; subst keys; destruct (map dk rs) as [|k ks] eqn:ER; auto;
      rewrite <- ER in S |- *; unfold chunk_iter, chunk_snapshot;
      first [apply insert_rows_local | apply update_rows_local | apply upsert_rows_local]; auto;
      [apply hd_le; auto | intros r Hr; apply AG; eapply Permutation_in; eauto].
  Qed.

  Lemma round_sim ev c db rows s s0 : filter_ok tb -> env_ok ev -> kv_ok db -> sim s s0 -> good (tb:=tb) db s ->
    sim_res (tb:=tb) db (round tb ev c db rows s) (round tb0 ev c db rows s0).
  Proof.
    intros FO EV K SM GD. destruct c as [l|l|f l|l]; cbn [round].
    - apply insert_chunk_sim; auto.
    - apply update_chunk_sim; auto.
    - apply upsert_chunk_sim; auto.
    - apply delete_rows_sim; auto.
  Qed.

  Lemma delete_rows_flt ev : forall trs s, w_flt (fst (delete_rows tb ev trs s)) = w_flt s.
  Proof.
    induction trs as [|r trs IH]; intro s; cbn [delete_rows]; auto.
    destruct (e_ctx ev (w_tick s)); auto. rewrite IH. reflexivity.
  Qed.

  Lemma round_mono ev c db rows s : filter_ok tb -> env_ok ev ->
    flt_le tb (w_flt s) (w_flt (fst (round tb ev c db rows s))).
  Proof.
    intros FO EV. destruct c as [l|l|f l|l]; cbn [round].
    - apply insert_chunk_mono; auto.
    - unfold update_chunk. destruct (sort_keys _ _) as [keys order]. destruct keys; [apply flt_le_refl|].
      rewrite update_rows_mono. apply flt_le_refl.
    - unfold upsert_chunk. destruct (sort_keys _ _) as [keys order]. destruct keys; [apply flt_le_refl|].
      apply upsert_rows_mono; auto.
    - rewrite delete_rows_flt. apply flt_le_refl.
  Qed.

  (** A call gives the same result on two databases with the same rows under its primary keys. *)
  Lemma solo_local ev c db1 db2 fl1 fl2 : filter_ok tb -> env_ok ev -> kv_ok db1 -> kv_ok db2 ->
    covers tb fl1 db1 -> covers tb fl2 db2 ->
    (forall r, In r (rows_of c) -> kv_get db1 (dk r) = kv_get db2 (dk r)) ->
    snd (run_call tb ev db1 fl1 None c) = snd (run_call tb ev db2 fl2 None c).
  Proof.
    intros FO EV K1 K2 C1 C2 AG. assert (L0 : lawful tb0) by (destruct LAW; constructor; auto).
    pose proof (call_sim (tb:=tb) (ev:=ev) FO c db1 fl1 fl1 None K1 C1) as S1.
    pose proof (call_sim (tb:=tb) (ev:=ev) FO c db2 fl2 fl1 None K2 C2) as S2.
    rewrite !(run_call_eq (tb:=tb0)) in S1, S2. unfold run_write in S1, S2.
    rewrite (body_local (tb:=tb0) c db1 db2 false) in S1 by auto.
    destruct (run_call tb ev db1 fl1 None c) as [w1 r1], (run_call tb ev db2 fl2 None c) as [w2 r2].
    destruct (body (tb:=tb0) (ev:=ev) c db2 false _) as [s r]. cbn [snd].
    destruct r as [[]|e| |]; try (destruct S1 as [-> _]; [easy|]; destruct S2 as [-> _]; [easy|]; reflexivity).
    destruct (w_ops s); [destruct S1 as [-> _]; [easy|]; destruct S2 as [-> _]; [easy|]; reflexivity|].
    destruct (e_commit ev); (destruct S1 as [-> _]; [easy|]; destruct S2 as [-> _]; [easy|]; reflexivity).
  Qed.
End RoundFacts.

(** ** What calls on different rows do to the abstract table *)

Section Effects.
  Context {T F : Type} (tb : table T F).
  Notation sc := (schema_of tb).
  Notation pk := (s_pk (schema_of tb)).

  Definition has_pk (c : call T) (p : bytes) : Prop := exists r, In r (rows_of c) /\ pk r = p.

  Lemma has_pk_dec c p : {has_pk c p} + {~ has_pk c p}.
  Proof.
    destruct (in_pk_dec tb (rows_of c) p) as [H|H]; [left; exact H|right].
    intros [r [H1 H2]]. eapply H; eauto.
  Qed.

  Lemma puts_local l : forall m m' p, m p = m' p -> puts sc m l p = puts sc m' l p.
  Proof.
    induction l as [|r l IH]; intros m m' p E; auto. cbn. apply IH. unfold put. destruct (beqb p (pk r)); auto.
  Qed.

  Lemma removes_local l : forall m m' p, m p = m' p -> removes sc m l p = removes sc m' l p.
  Proof.
    induction l as [|r l IH]; intros m m' p E; auto. cbn. apply IH. unfold remove. destruct (beqb p (pk r)); auto.
  Qed.

  Definition wf (m : tmap T) : Prop := forall p r, m p = Some r -> pk r = p /\ row_ok sc r.

  Lemma Rep_wf db m : Rep sc db m -> wf m.
  Proof. intros R p r H. destruct (rep_rows _ _ _ R _ _ H) as [A [B _]]. auto. Qed.

  Lemma merged_wf f m r : wf m -> conflict_ok tb f -> row_ok sc r ->
    pk (merged tb f m r) = pk r /\ row_ok sc (merged tb f m r).
  Proof.
    intros W C OK. unfold merged. destruct (m (pk r)) as [o|] eqn:E; [|split; [reflexivity|exact OK]].
    destruct (W _ _ E) as [H1 H2]. apply C; auto.
  Qed.

  (** the effect as a list of rows put, or removed *)
  Lemma effect_upsert f m l : wf m -> admissible sc m (CUpsert f l) ->
    (forall p, merges sc f m l p = puts sc m (map (merged tb f m) l) p) /\
    NoDup (map pk (map (merged tb f m) l)) /\ (forall r, In r l -> pk (merged tb f m r) = pk r).
  Proof.
    intros W [OK [ND CF]]. cbn [rows_of] in OK. rewrite Forall_forall in OK.
    assert (PK : forall r, In r l -> pk (merged tb f m r) = pk r).
    { intros r Hr. apply merged_wf; auto. }
    split; [|split; [|exact PK]].
    - intro p. rewrite (merges_puts f); auto.
    - rewrite map_map. rewrite (map_ext_in _ pk); auto.
  Qed.

  Lemma effect_out m c p : wf m -> admissible sc m c -> ~ has_pk c p -> effect sc m c p = m p.
  Proof.
    intros W AD N. assert (N' : forall r, In r (rows_of c) -> pk r <> p) by (intros r Hr E; apply N; exists r; auto).
    destruct c as [l|l|f l|l]; cbn [effect rows_of] in *.
    - apply puts_notin; auto.
    - apply puts_notin; auto.
    - destruct (effect_upsert f m l W AD) as [E [_ PK]]. rewrite E. apply puts_notin.
      intros r Hr. apply in_map_iff in Hr as [x [<- Hx]]. rewrite PK by auto. auto.
    - clear W AD N. revert m. induction l as [|r l IH]; intro m; auto. cbn.
      change (fold_left (remove sc) l (remove sc m r) p) with (removes sc (remove sc m r) l p).
      rewrite IH by (intros; apply N'; right; auto).
      unfold remove. destruct (beqb p (pk r)) eqn:B; auto. apply beqb_eq in B. exfalso. apply (N' r); [left; auto|auto].
  Qed.

  Lemma effect_at m m' c p : wf m -> wf m' -> admissible sc m c -> admissible sc m' c -> m p = m' p ->
    effect sc m c p = effect sc m' c p.
  Proof.
    intros W W' AD AD' E. destruct c as [l|l|f l|l]; cbn [effect] in *.
    - apply puts_local; auto.
    - apply puts_local; auto.
    - destruct (has_pk_dec (CUpsert f l) p) as [[r [Hr <-]]|N].
      2:{ pose proof (effect_out m _ p W AD N) as A. pose proof (effect_out m' _ p W' AD' N) as B. cbn [effect] in A, B. congruence. }
      destruct (effect_upsert f m l W AD) as [E1 [N1 P1]], (effect_upsert f m' l W' AD') as [E2 [N2 P2]].
      rewrite E1, E2. cbn [rows_of] in Hr. rewrite <- (P1 r Hr) at 1. rewrite <- (P2 r Hr) at 1.
      rewrite (puts_in _ m (merged tb f m r) N1) by (apply in_map; auto).
      rewrite (puts_in _ m' (merged tb f m' r) N2) by (apply in_map; auto).
      unfold merged. rewrite E. reflexivity.
    - apply removes_local; auto.
  Qed.

  Lemma effect_wf m c : wf m -> admissible sc m c -> wf (effect sc m c).
  Proof.
    intros W AD. assert (PUTS : forall l, Forall (row_ok sc) l -> wf (puts sc m l)).
    { clear AD. intro l. revert m W. induction l as [|r l IH]; intros m W OK; [exact W|]. inversion OK; subst. cbn.
      apply IH; auto. intros p x. unfold put. destruct (beqb p (pk r)) eqn:B; [|apply W]. intros [= <-]. apply beqb_eq in B. auto. }
    pose proof AD as [OK AD2]. destruct c as [l|l|f l|l]; cbn [effect rows_of] in *.
    - apply PUTS; auto.
    - apply PUTS; auto.
    - destruct (effect_upsert f m l W AD) as [E [_ _]]. intros p x Hx. rewrite E in Hx. revert p x Hx.
      apply PUTS. rewrite Forall_forall in *. intros x Hx. apply in_map_iff in Hx as [r [<- Hr]]. apply merged_wf; auto. exact (proj2 AD2).
    - intros p x Hx. apply removes_le in Hx. auto.
  Qed.

  Lemma admissible_agree m m' c : (forall p, has_pk c p -> m p = m' p) -> admissible sc m c -> admissible sc m' c.
  Proof.
    intros E [OK AD]. split; auto. destruct c as [l|l|f l|l]; auto.
    intros r o Hr Ho. apply AD; auto. rewrite E; auto. exists r; auto.
  Qed.

  Lemma disjoint_pk c d p : disjoint sc c d -> has_pk c p -> ~ has_pk d p.
  Proof. intros D [r [H1 <-]] [r' [H2 E]]. apply (D r r'); auto. Qed.

  Lemma disjoint_sym c d : disjoint sc c d -> disjoint sc d c.
  Proof. intros D r r' H1 H2 E. apply (D r' r); auto. Qed.

  Lemma outcome_at : forall h m, wf m -> Forall (admissible sc m) (map fst h) -> ForallOrdPairs (disjoint sc) (map fst h) ->
    wf (outcome sc m h) /\
    (forall p, (forall c, In (c, true) h -> ~ has_pk c p) -> outcome sc m h p = m p) /\
    (forall c p, In (c, true) h -> has_pk c p -> outcome sc m h p = effect sc m c p).
  Proof.
    induction h as [|[c ok] h IH]; intros m W AD DJ; [split; [exact W|split; [auto|easy]]|].
    cbn [map fst] in *. inversion AD as [|? ? A1 A2]; subst. inversion DJ as [|? ? D1 D2]; subst.
    cbn [outcome]. destruct ok.
    - set (m1 := effect sc m c).
      assert (W1 : wf m1) by (apply effect_wf; auto).
      assert (EQ : forall d p, In d (map fst h) -> has_pk d p -> m p = m1 p).
      { intros d p Hd Hp. unfold m1. rewrite effect_out; auto. rewrite Forall_forall in D1. specialize (D1 d Hd).
        apply disjoint_sym in D1. eapply disjoint_pk; eauto. }
      assert (A3 : Forall (admissible sc m1) (map fst h)).
      { rewrite Forall_forall in *. intros d Hd. apply (admissible_agree m); auto. intros p Hp. eapply EQ; eauto. }
      destruct (IH m1 W1 A3 D2) as [I1 [I2 I3]]. split; [exact I1|]. split.
      + intros p N. rewrite I2 by (intros d Hd; apply N; right; auto). unfold m1. apply effect_out; auto.
        apply N. left; auto.
      + intros d p [E|Hd] Hp.
        * injection E as <-. rewrite I2; auto. intros d Hd. rewrite Forall_forall in D1.
          apply (disjoint_pk c); auto. apply D1. apply (in_map fst) in Hd. exact Hd.
        * rewrite (I3 d p Hd Hp). pose proof (in_map fst _ _ Hd) as Hd'. cbn [fst] in Hd'. rewrite Forall_forall in *.
          apply effect_at; auto. symmetry. eapply EQ; eauto.
    - destruct (IH m W A2 D2) as [I1 [I2 I3]]. split; [exact I1|]. split.
      + intros p N. apply I2. intros d Hd. apply N. right; auto.
      + intros d p [E|Hd] Hp; [easy|]. apply I3; auto.
  Qed.

  Lemma outcome_perm h h' m : wf m -> Forall (admissible sc m) (map fst h) -> ForallOrdPairs (disjoint sc) (map fst h) ->
    Permutation h h' -> forall p, outcome sc m h p = outcome sc m h' p.
  Proof.
    intros W AD DJ P p. pose proof (Permutation_map fst P) as PM.
    assert (AD' : Forall (admissible sc m) (map fst h')) by (eapply Permutation_Forall; eauto).
    assert (DJ' : ForallOrdPairs (disjoint sc) (map fst h')) by (eapply fop_perm; eauto using disjoint_sym).
    destruct (outcome_at h m W AD DJ) as [_ [I2 I3]], (outcome_at h' m W AD' DJ') as [_ [J2 J3]].
    destruct (Exists_dec (fun co => snd co = true /\ has_pk (fst co) p) h) as [X|X].
    { intros [c ok]. cbn. destruct ok, (has_pk_dec c p); [left|right|right|right]; intuition congruence. }
    - apply Exists_exists in X as [[c ok] [X1 [X2 X3]]]. cbn in *. subst ok.
      rewrite (I3 c p), (J3 c p); auto. eapply Permutation_in; eauto.
    - rewrite I2, J2; auto.
      + intros c Hc Hp. apply X. apply Exists_exists. exists (c, true). split; auto. eapply Permutation_in; [apply Permutation_sym|]; eauto.
      + intros c Hc Hp. apply X. apply Exists_exists. exists (c, true). auto.
  Qed.
End Effects.

(** ** Any schedule *)

Section Schedules.
  Context {T F : Type} (tb : table T F) (G : good_table tb).
  Notation sc := (schema_of tb).
  Notation dk := (data_key tb).
  Notation pk := (s_pk (schema_of tb)).
  Notation tb0 := (no_filter tb).

  Let LAW : lawful tb := good_lawful _ G.
  Let LAW0 : lawful tb0.
  Proof. destruct LAW; constructor; auto. Qed.
  Local Existing Instance LAW.
  Local Existing Instance LAW0.

  Lemma rep_agree db db' m m' c : Rep sc db m -> Rep sc db' m' -> (forall p, has_pk tb c p -> m p = m' p) ->
    forall r, In r (rows_of c) -> kv_get db (dk r) = kv_get db' (dk r).
  Proof.
    intros R R' E r Hr. rewrite !(data_key_eq _ LAW). rewrite (rep_get _ _ _ R), (rep_get _ _ _ R').
    rewrite (E (pk r)) by (exists r; auto). reflexivity.
  Qed.

  Lemma solo_agree db fl m db' fl' m' ec : env_ok (fst ec) -> consistent tb db fl m -> consistent tb db' fl' m' ->
    (forall p, has_pk tb (snd ec) p -> m p = m' p) -> solo tb db fl ec = solo tb db' fl' ec.
  Proof.
    intros EV [K R C] [K' R' C'] E. unfold solo. apply solo_local; auto.
    - apply (good_filter _ G).
    - eapply rep_agree; eauto.
  Qed.

  Lemma serial_run : forall h db fl m, Forall (fun ec => env_ok (fst ec)) h -> consistent tb db fl m ->
    Forall (admissible sc m) (map snd h) -> ForallOrdPairs (disjoint sc) (map snd h) ->
    exists db' fl', run_serial tb db fl h = (db', fl', map (solo tb db fl) h) /\
      consistent tb db' fl' (outcome sc m (map (fun ec => (snd ec, ok_of (solo tb db fl ec))) h)) /\ same_outside sc db db'.
  Proof.
    induction h as [|[ev c] h IH]; intros db fl m EVS CN AD DJ.
    - exists db, fl. cbn. split; auto. split; [exact CN|apply same_outside_refl].
    - inversion EVS as [|? ? EV1 EV2]; subst. cbn [fst map snd] in *. inversion AD as [|? ? A1 A2]; subst.
      inversion DJ as [|? ? D1 D2]; subst.
      destruct (call_step tb G ev c db fl m EV1 CN A1) as [w [res [E1 [_ [E3 [E4 _]]]]]].
      assert (SO : solo tb db fl (ev, c) = res) by (unfold solo; cbn [fst snd]; rewrite E1; reflexivity).
      pose proof (Rep_wf tb db m (cons_rep _ _ _ _ CN)) as W.
      set (m1 := if ok_of res then effect sc m c else m) in *.
      assert (EQ : forall d p, In d (map snd h) -> has_pk tb d p -> m p = m1 p).
      { intros d p Hd Hp. unfold m1. destruct (ok_of res); auto. rewrite effect_out; auto.
        rewrite Forall_forall in D1. specialize (D1 d Hd). apply disjoint_sym in D1. eapply disjoint_pk; eauto. }
      assert (A3 : Forall (admissible sc m1) (map snd h)).
      { rewrite Forall_forall in *. intros d Hd. apply (admissible_agree tb m); auto. intros p Hp. eapply EQ; eauto. }
      destruct (IH (r_db w) (r_flt w) m1 EV2 E4 A3 D2) as [db' [fl' [X1 [X2 X3]]]].
      assert (SM : forall ec, In ec h -> solo tb (r_db w) (r_flt w) ec = solo tb db fl ec).
      { intros ec He. symmetry. eapply (solo_agree db fl m); eauto.
        - rewrite Forall_forall in EV2. auto.
        - intros p Hp. eapply EQ; eauto. apply in_map; auto. }
      exists db', fl'. cbn [run_serial]. rewrite E1, X1. split; [|split].
      + rewrite SO. f_equal. f_equal. apply map_ext_in; auto.
      + rewrite SO. cbn [outcome].
        rewrite (map_ext_in _ (fun ec => (snd ec, ok_of (solo tb db fl ec)))) in X2.
        2:{ intros ec He. rewrite SM; auto. }
        unfold m1 in X2. destruct (ok_of res); exact X2.
      + eapply same_outside_trans; eauto.
  Qed.

  (** A call described by its rounds on the table without filter. *)
  Lemma call_body ev c db fl fl0 s r w res : env_ok ev -> kv_ok db -> covers tb fl db ->
    body (tb:=tb0) (ev:=ev) c db false (WSt [] fl0 (t_nil tb) 0) = (s, r) ->
    run_call tb ev db fl None c = (w, res) ->
    res = (match r with Ok _ => snd (commit ev db (w_ops s)) | _ => r end) /\
    r_db w = (match r with Ok _ => fst (commit ev db (w_ops s)) | _ => db end).
  Proof.
    intros EV K C B E. pose proof (call_sim (tb:=tb) (ev:=ev) (good_filter _ G) c db fl fl0 None K C) as S.
    rewrite E in S. rewrite (run_call_eq (tb:=tb0)) in S. unfold run_write in S. change (t_nil tb0) with (t_nil tb) in S.
    rewrite B in S. unfold commit. destruct r as [[]|e| |].
    - destruct (w_ops s) as [|o os]; [|destruct (e_commit ev)]; destruct S as [-> [-> _]]; try easy; auto.
    - destruct S as [-> [-> _]]; easy.
    - destruct S as [-> [-> _]]; easy.
    - destruct S as [-> [-> _]]; easy.
  Qed.

  Variables (db0 : kv) (fl0 : F) (m0 : tmap T) (h : list (env T * call T)).
  Hypothesis CN0 : consistent tb db0 fl0 m0.
  Hypothesis EVS : Forall (fun ec => env_ok (fst ec)) h.
  Hypothesis AD0 : Forall (admissible sc m0) (map snd h).
  Hypothesis DJ0 : ForallOrdPairs (disjoint sc) (map snd h).

  Notation sys := (@sys T F).
  Notation thread := (@thread T F).
  Let s00 : wst T F := WSt [] fl0 (t_nil tb) 0.

  Definition ec_of (th : thread) : env T * call T := (th_env th, th_call th).
  Definition fin_of (th : thread) : list (env T * call T * res unit) :=
    match th_res th with Some r => [(th_env th, th_call th, r)] | None => [] end.
  Definition pair_of (f : env T * call T * res unit) : call T * bool := (snd (fst f), ok_of (snd f)).
  Definition now (ths : list thread) : tmap T := outcome sc m0 (map pair_of (flat_map fin_of ths)).

  Definition running (fl : F) (th : thread) : Prop :=
    exists s0, reach tb0 (th_env th) (th_call th) db0 s00 (th_num th) s0 /\ sim (th_st th) s0 /\
      ops_covered tb fl (w_ops (th_st th)).

  Record inv (y : sys) : Prop := MkInv {
    inv_h : map ec_of (y_threads y) = h;
    inv_done : forall th r, In th (y_threads y) -> th_res th = Some r -> r = solo tb db0 fl0 (ec_of th);
    inv_run : forall th, In th (y_threads y) -> th_res th = None -> running (y_flt y) th;
    inv_cons : consistent tb (y_db y) (y_flt y) (now (y_threads y));
    inv_out : same_outside sc db0 (y_db y)
  }.

  Lemma fin_calls ths : forall x, In x (map fst (map pair_of (flat_map fin_of ths))) -> In x (map snd (map ec_of ths)).
  Proof.
    intros x H. apply in_map_iff in H as [[c b] [<- H]]. apply in_map_iff in H as [[[ev c'] r] [E H]].
    apply in_flat_map in H as [th [H1 H2]]. unfold fin_of in H2. destruct (th_res th); [|easy]. destruct H2 as [H2|[]].
    injection H2 as <- <- <-. injection E as <- <-. cbn [fst]. rewrite map_map. apply in_map_iff. exists th. auto.
  Qed.

  Lemma fin_fop ths : ForallOrdPairs (disjoint sc) (map snd (map ec_of ths)) ->
    ForallOrdPairs (disjoint sc) (map fst (map pair_of (flat_map fin_of ths))).
  Proof.
    induction ths as [|th ths IH]; cbn; intro H; [constructor|]. inversion H as [|? ? H1 H2]; subst.
    rewrite !map_app. unfold fin_of at 1. destruct (th_res th) as [r|]; cbn; auto.
    constructor; auto. rewrite Forall_forall in *. intros x Hx. apply H1. apply fin_calls; auto.
  Qed.

  Lemma fin_adm ths : map ec_of ths = h -> Forall (admissible sc m0) (map fst (map pair_of (flat_map fin_of ths))).
  Proof.
    intro E. rewrite Forall_forall in *. intros x Hx. apply AD0. rewrite <- E. apply fin_calls; auto.
  Qed.

  Lemma wf0 : wf tb m0.
  Proof. eapply Rep_wf. apply CN0. Qed.

  (** rows of a call that has not returned are as at the beginning *)
  Lemma now_unfinished a th b p : map ec_of (a ++ th :: b) = h -> th_res th = None -> has_pk tb (th_call th) p ->
    now (a ++ th :: b) p = m0 p.
  Proof.
    intros E N P. unfold now.
    assert (DJ1 : ForallOrdPairs (disjoint sc) (map snd (map ec_of (a ++ th :: b)))) by (rewrite E; exact DJ0).
    destruct (outcome_at tb _ m0 wf0 (fin_adm _ E) (fin_fop _ DJ1)) as [_ [I2 _]]. apply I2.
    intros c Hc Pc. rewrite flat_map_app, map_app in Hc. cbn [flat_map] in Hc. unfold fin_of at 2 in Hc. rewrite N in Hc. cbn [app] in Hc.
    rewrite !map_app in DJ1. cbn [map] in DJ1. destruct (fop_app _ _ _ DJ1) as [_ [D2 D3]]. inversion D2 as [|? ? D4 D5]; subst.
    apply (in_map fst) in Hc. cbn [fst] in Hc. rewrite map_app in Hc. apply in_app_or in Hc as [Hc|Hc]; apply fin_calls in Hc.
    - specialize (D3 c (snd (ec_of th)) Hc (or_introl eq_refl)). apply (disjoint_pk tb _ _ p D3); auto.
    - rewrite Forall_forall in D4. specialize (D4 c Hc). apply (disjoint_pk tb _ _ p D4); auto.
  Qed.

  (** when a call returns its effect is added *)
  Lemma now_add a th th' b r : map ec_of (a ++ th :: b) = h -> th_res th = None ->
    ec_of th' = ec_of th -> th_res th' = Some r -> forall p,
    now (a ++ th' :: b) p = (if ok_of r then effect sc (now (a ++ th :: b)) (th_call th) else now (a ++ th :: b)) p.
  Proof.
    intros E N Et R p.
    assert (E' : map ec_of (a ++ th' :: b) = h) by (rewrite <- E, !map_app; cbn; congruence).
    assert (DJ1 : ForallOrdPairs (disjoint sc) (map snd (map ec_of (a ++ th' :: b)))) by (rewrite E'; exact DJ0).
    pose proof (fin_adm _ E') as A1. pose proof (fin_fop _ DJ1) as D1.
    assert (P : Permutation (map pair_of (flat_map fin_of (a ++ th' :: b)))
                            (map pair_of (flat_map fin_of (a ++ th :: b)) ++ [(th_call th, ok_of r)])).
    { rewrite !flat_map_app. cbn [flat_map]. unfold fin_of at 2 5. rewrite N, R. cbn [app]. rewrite !map_app. cbn [map].
      injection Et as _ Et2. unfold pair_of at 2. cbn [fst snd]. rewrite Et2. rewrite <- app_assoc. apply Permutation_app_head.
      apply Permutation_cons_append. }
    unfold now at 1. rewrite (outcome_perm tb _ _ m0 wf0 A1 D1 P p). clear.
    unfold now. generalize (map pair_of (flat_map fin_of (a ++ th :: b))). intro l. generalize m0. clear.
    induction l as [|[c ok] l IH]; intro m; cbn [app outcome].
    - destruct (ok_of r); reflexivity.
    - destruct ok; apply IH.
  Qed.

  Lemma sim_with_flt (s s0 : wst T F) fl : sim s s0 -> sim (with_flt s fl) s0.
  Proof. intros [A [B C]]. repeat split; auto. Qed.

  Lemma inv_start : inv (start tb db0 fl0 h).
  Proof.
    assert (NONE : flat_map fin_of (y_threads (start tb db0 fl0 h)) = []).
    { cbn [start y_threads]. generalize h. intro l. induction l as [|ec l IH]; auto. }
    constructor.
    - cbn [start y_threads]. rewrite map_map. unfold ec_of. cbn. rewrite <- (map_id h) at 2. apply map_ext. intros []; reflexivity.
    - cbn [start y_threads]. intros th r H. apply in_map_iff in H as [ec [<- _]]. easy.
    - cbn [start y_threads]. intros th H _. apply in_map_iff in H as [ec [<- _]]. exists s00. cbn.
      split; [constructor|]. split; [repeat split|]. intros ? ? ? ? [].
    - unfold now. rewrite NONE. exact CN0.
    - apply same_outside_refl.
  Qed.

  Lemma inv_step y i : inv y -> inv (step tb y i).
  Proof.
    intros [I1 I2 I3 I4 I5]. unfold step. destruct (nth_error (y_threads y) i) as [th|] eqn:NT; [|constructor; auto].
    destruct (set_nth_split _ _ _ NT) as [a [b [ET SET]]].
    destruct (step_thread tb (y_db y) (y_flt y) th) as [[db' fl'] th'] eqn:ST. rewrite SET.
    destruct y as [db fl ths]. cbn [y_db y_flt y_threads] in *. subst ths. unfold step_thread in ST.
    destruct (th_res th) as [r|] eqn:RES.
    { injection ST as <- <- <-. constructor; auto. }
    pose proof (I3 th) as RUN. destruct RUN as [s0 [R1 [R2 R3]]]; [apply in_or_app; right; left; auto|auto|].
    assert (HIN : In (ec_of th) h) by (rewrite <- I1; apply in_map, in_or_app; right; left; auto).
    assert (EV : env_ok (th_env th)) by (rewrite Forall_forall in EVS; apply (EVS _ HIN)).
    pose proof I4 as [K R C]. pose proof CN0 as [K0 R0 C0].
    assert (AG : forall r, In r (rows_of (th_call th)) -> kv_get db (dk r) = kv_get db0 (dk r)).
    { eapply rep_agree; eauto. intros p Hp. apply now_unfinished; auto. }
    (* rebuilding the invariant *)
    assert (REBUILD : ec_of th' = ec_of th -> flt_le tb fl fl' ->
      (forall r, th_res th' = Some r -> r = solo tb db0 fl0 (ec_of th)) ->
      (th_res th' = None -> running fl' th') ->
      consistent tb db' fl' (now (a ++ th' :: b)) -> same_outside sc db0 db' ->
      inv (Sys db' fl' (a ++ th' :: b))).
    { intros Q1 Q2 Q3 Q4 Q5 Q6. constructor; cbn [y_db y_flt y_threads]; auto.
      - rewrite <- I1, !map_app. cbn. congruence.
      - intros x r Hx Hr. apply in_app_or in Hx as [Hx|[<-|Hx]].
        + apply I2; auto. apply in_or_app; auto.
        + rewrite Q1. auto.
        + apply I2; auto. apply in_or_app; right; right; auto.
      - intros x Hx Hr. apply in_app_or in Hx as [Hx|[<-|Hx]]; [|auto|].
        + destruct (I3 x) as [z [Z1 [Z2 Z3]]]; auto; [apply in_or_app; auto|]. exists z. split; auto. split; auto.
          eapply ops_covered_le; eauto.
        + destruct (I3 x) as [z [Z1 [Z2 Z3]]]; auto; [apply in_or_app; right; right; auto|]. exists z. split; auto. split; auto.
          eapply ops_covered_le; eauto. }
    destruct (part (th_env th) (th_call th) (th_num th)) as [rows|] eqn:PT.
    - pose proof (part_slice _ _ _ _ EV PT) as SUB.
      pose proof (round_sim (th_env th) (th_call th) db rows (with_flt (th_st th) fl) s0 (good_filter _ G) EV K (sim_with_flt _ _ _ R2)) as SR.
      pose proof (round_mono (th_env th) (th_call th) db rows (with_flt (th_st th) fl) (good_filter _ G) EV) as MONO.
      rewrite (round_local (tb:=tb0) (th_env th) (th_call th) db db0 rows s0 EV K K0) in SR by (intros r Hr; apply AG; apply SUB; auto).
      destruct (round tb (th_env th) (th_call th) db rows (with_flt (th_st th) fl)) as [s1 r1] eqn:E1.
      destruct (round tb0 (th_env th) (th_call th) db0 rows s0) as [s2 r2] eqn:E2.
      destruct SR as [S1 [S2 [S3 S4]]]; [split; [exact C|exact R3]|]. cbn [fst snd w_flt with_flt] in *. subst r2.
      destruct (ok_of r1) eqn:OK.
      + assert (TH : db' = db /\ fl' = w_flt s1 /\ th' = Thread (th_env th) (th_call th) (S (th_num th)) s1 None /\ r1 = Ok tt).
        { destruct r1 as [[]|e| |]; try easy. injection ST as <- <- <-. auto. }
        destruct TH as [-> [-> [-> ->]]]. apply REBUILD; auto; [easy| |].
        * intros _. exists s2. cbn [th_env th_call th_num th_st]. split; [econstructor; eauto|]. split; auto.
        * constructor; auto. eapply Rep_ext; eauto. intro p. unfold now. rewrite !flat_map_app. cbn [flat_map].
          unfold fin_of at 2 5. rewrite RES. reflexivity.
      + assert (TH : db' = db /\ fl' = w_flt s1 /\ th' = Thread (th_env th) (th_call th) (S (th_num th)) s1 (Some r1)).
        { destruct r1 as [[]|e| |]; try easy; injection ST as <- <- <-; auto. }
        destruct TH as [-> [-> ->]].
        pose proof (reach_fail tb0 _ _ _ _ _ _ _ _ _ EV R1 PT E2 OK) as BD.
        destruct (run_call tb (th_env th) db0 fl0 None (th_call th)) as [w res] eqn:RC.
        destruct (call_body _ _ _ _ _ _ _ _ _ EV K0 C0 BD RC) as [B1 _].
        assert (SOLO : r1 = solo tb db0 fl0 (ec_of th)).
        { unfold solo, ec_of. cbn [fst snd]. rewrite RC. cbn [snd]. destruct r1; try easy; congruence. }
        apply REBUILD; auto; [cbn; intros r [= <-]; auto|easy|].
        constructor; auto. eapply Rep_ext; eauto. intro p. symmetry.
        rewrite (now_add a th (Thread (th_env th) (th_call th) (S (th_num th)) s1 (Some r1)) b r1 I1 RES eq_refl eq_refl). rewrite OK. reflexivity.
    - pose proof (reach_end tb0 _ _ _ _ _ _ EV R1 PT) as BD0.
      assert (BD : body (tb:=tb0) (ev:=th_env th) (th_call th) db false s00 = (s0, Ok tt)).
      { rewrite (body_local (tb:=tb0) (th_call th) db db0 false s00 K K0); auto. }
      destruct (run_call tb (th_env th) db fl None (th_call th)) as [w res] eqn:RC.
      destruct (call_body _ _ _ _ _ _ _ _ _ EV K C BD RC) as [B1 B2]. destruct R2 as [W1 _]. rewrite <- W1 in B1, B2.
      destruct (commit (th_env th) db (w_ops (th_st th))) as [dbc rc] eqn:CM. cbn [fst snd] in B1, B2. subst rc dbc.
      injection ST as <- <- <-.
      assert (ADN : admissible sc (now (a ++ th :: b)) (th_call th)).
      { apply (admissible_agree tb m0).
        - intros p Hp. symmetry. apply now_unfinished; auto.
        - rewrite Forall_forall in AD0. apply AD0. apply (in_map snd) in HIN. exact HIN. }
      destruct (call_step tb G (th_env th) (th_call th) db fl _ EV I4 ADN) as [w' [res' [X1 [_ [X2 [X3 _]]]]]].
      rewrite RC in X1. injection X1 as <- <-.
      assert (CV : covers tb fl (r_db w)).
      { unfold commit in CM. destruct (w_ops (th_st th)) as [|o os] eqn:WO; [injection CM as <- _; auto|].
        destruct (e_commit (th_env th)); injection CM as <- _; [|auto].
        exact (covers_apply fl db (o :: os) K C R3). }
      assert (SOLO : res = solo tb db0 fl0 (ec_of th)).
      { transitivity (solo tb db fl (ec_of th)); [unfold solo, ec_of; cbn [fst snd]; rewrite RC; reflexivity|].
        eapply solo_agree; eauto. intros p Hp. apply now_unfinished; auto. }
      apply REBUILD; auto.
      + apply flt_le_refl.
      + cbn. intros r [= <-]. exact SOLO.
      + easy.
      + destruct X3 as [X4 X5 X6]. constructor; auto. eapply Rep_ext; eauto. intro p. symmetry.
        rewrite (now_add a th (Thread (th_env th) (th_call th) (S (th_num th)) (th_st th) (Some res)) b res I1 RES eq_refl eq_refl). reflexivity.
      + eapply same_outside_trans; eauto.
  Qed.

  Lemma inv_sched sch : forall y, inv y -> inv (run_sched tb sch y).
  Proof. induction sch as [|i sch IH]; intros y I; auto. cbn. apply IH. apply inv_step; auto. Qed.

  (** ** The theorem *)

  Lemma finished_solo y : inv y -> forall ev c r, In (ev, c, r) (finished y) -> In (ev, c) h /\ r = solo tb db0 fl0 (ev, c).
  Proof.
    intros I ev c r H. unfold finished in H. apply in_flat_map in H as [th [H1 H2]].
    destruct (th_res th) as [r'|] eqn:E; [|easy]. destruct H2 as [H2|[]]. injection H2 as <- <- <-. split.
    - rewrite <- (inv_h _ I). apply (in_map ec_of) in H1. exact H1.
    - apply (inv_done _ I) in E; auto.
  Qed.

  Lemma inv_says y : inv y ->
    (forall ev c r, In (ev, c, r) (finished y) -> In (ev, c) h /\ r = solo tb db0 fl0 (ev, c)) /\
    (forall o, Permutation o (map fst (finished y)) ->
       exists fl', run_serial tb db0 fl0 o = (y_db y, fl', map (solo tb db0 fl0) o)) /\
    consistent tb (y_db y) (y_flt y) (outcome sc m0 (map (fun f => (snd (fst f), ok_of (snd f))) (finished y))) /\
    same_outside sc db0 (y_db y).
  Proof.
    intro I. pose proof (finished_solo y I) as FS. split; [exact FS|].
    change (map (fun f => (snd (fst f), ok_of (snd f))) (finished y)) with (map pair_of (flat_map fin_of (y_threads y))).
    destruct I as [I1 I2 I3 I4 I5]. split; [|split; auto].
    intros o P.
    assert (MS : map snd (map fst (finished y)) = map fst (map pair_of (flat_map fin_of (y_threads y)))).
    { rewrite !map_map. reflexivity. }
    assert (DJ1 : ForallOrdPairs (disjoint sc) (map snd (map ec_of (y_threads y)))) by (rewrite I1; exact DJ0).
    pose proof (fin_fop _ DJ1) as D1. pose proof (fin_adm _ I1) as A1. rewrite <- MS in D1, A1.
    pose proof (Permutation_map snd (Permutation_sym P)) as PS.
    destruct (serial_run o db0 fl0 m0) as [db' [fl' [S1 [S2 S3]]]]; auto.
    - rewrite Forall_forall in *. intros ec He. apply (Permutation_in _ P) in He. apply in_map_iff in He as [[[ev c] r] [<- He]].
      destruct (FS _ _ _ He) as [He' _]. apply (EVS _ He').
    - eapply Permutation_Forall; eauto.
    - eapply fop_perm; eauto using disjoint_sym.
    - exists fl'. rewrite S1. f_equal. f_equal. destruct S2 as [K2 R2 _], I4 as [K4 R4 _].
      apply (Rep_unique tb db' (y_db y) (now (y_threads y)) K2 K4); auto.
      + eapply Rep_ext; [exact R2|]. intro p. unfold now. symmetry.
        rewrite MS in D1, A1. apply outcome_perm; auto; [apply wf0|].
        apply Permutation_sym. eapply Permutation_trans; [apply Permutation_map; exact P|].
        rewrite map_map. apply Permutation_refl'. apply map_ext_in. intros [[ev c] r] Hf. unfold pair_of. cbn [fst snd].
        destruct (FS _ _ _ Hf) as [_ ->]. reflexivity.
      + intros k N. rewrite (S3 k N), (I5 k N). reflexivity.
  Qed.

  Theorem any_schedule sch : let y := run_sched tb sch (start tb db0 fl0 h) in
    (forall ev c r, In (ev, c, r) (finished y) -> In (ev, c) h /\ r = solo tb db0 fl0 (ev, c)) /\
    (forall o, Permutation o (map fst (finished y)) ->
       exists fl', run_serial tb db0 fl0 o = (y_db y, fl', map (solo tb db0 fl0) o)) /\
    consistent tb (y_db y) (y_flt y) (outcome sc m0 (map (fun f => (snd (fst f), ok_of (snd f))) (finished y))) /\
    same_outside sc db0 (y_db y).
  Proof. intro y. apply inv_says, inv_sched, inv_start. Qed.
End Schedules.

(** ** Calls that are given enough steps return *)

Section Progress.
  Context {T F : Type} (tb : table T F).

  Lemma step_other (y : @sys T F) i j : i <> j -> nth_error (y_threads (step tb y j)) i = nth_error (y_threads y) i.
  Proof.
    intro N. unfold step. destruct (nth_error (y_threads y) j) as [th|] eqn:E; auto.
    destruct (step_thread _ _ _ _) as [[db' fl'] th']. cbn. apply set_nth_other; auto.
  Qed.

  Lemma step_self (y : @sys T F) i th : nth_error (y_threads y) i = Some th -> env_ok (th_env th) ->
    th_num th <= S (length (rows_of (th_call th))) ->
    exists th', nth_error (y_threads (step tb y i)) i = Some th' /\ th_env th' = th_env th /\ th_call th' = th_call th /\
      match th_res th with
      | Some r => th' = th
      | None => th_res th' <> None \/ th_num th' = S (th_num th) /\ th_num th' <= S (length (rows_of (th_call th)))
      end.
  Proof.
    intros E EV L. unfold step. rewrite E. unfold step_thread. destruct (th_res th) as [r|] eqn:R.
    - exists th. cbn. split; [eapply set_nth_same; eauto|auto].
    - destruct (part (th_env th) (th_call th) (th_num th)) as [rows|] eqn:P.
      + pose proof (part_bound _ _ _ _ EV P) as B.
        destruct (round _ _ _ _ _ _) as [s r']. destruct r'; eexists; (split; [cbn; eapply set_nth_same; eauto|cbn; split; auto; split; auto]).
        * right. split; auto. lia.
        * left. easy.
        * left. easy.
        * left. easy.
      + destruct (commit _ _ _) as [db' r']. eexists. split; [cbn; eapply set_nth_same; eauto|]. cbn. split; auto. split; auto.
        left. easy.
  Qed.

  Lemma progress sch : forall (y : @sys T F) i th, nth_error (y_threads y) i = Some th -> env_ok (th_env th) ->
    th_num th <= S (length (rows_of (th_call th))) ->
    exists th', nth_error (y_threads (run_sched tb sch y)) i = Some th' /\ th_env th' = th_env th /\ th_call th' = th_call th /\
      (th_res th' = None -> th_num th + count_occ Nat.eq_dec sch i <= S (length (rows_of (th_call th)))) /\
      (forall r, th_res th = Some r -> th' = th).
  Proof.
    induction sch as [|j sch IH]; intros y i th E EV L.
    - exists th. cbn. split; auto. split; auto. split; auto. split; auto. intros _. lia.
    - cbn [run_sched fold_left count_occ]. change (fold_left (step tb) sch (step tb y j)) with (run_sched tb sch (step tb y j)).
      destruct (Nat.eq_dec j i) as [->|N].
      + destruct (step_self y i th E EV L) as [t1 [E1 [E2 [E3 E4]]]].
        destruct (th_res th) as [r|] eqn:R.
        * subst t1. destruct (IH (step tb y i) i th E1 EV L) as [t2 [F1 [F2 [F3 [F4 F5]]]]].
          exists t2. split; auto. split; auto. split; auto. rewrite (F5 r R) in *. split; [congruence|auto].
        * destruct (th_res t1) as [r1|] eqn:R1.
          -- assert (B : th_num t1 <= S (length (rows_of (th_call t1))) \/ True) by auto.
             destruct (Nat.le_gt_cases (th_num t1) (S (length (rows_of (th_call t1))))) as [LE|GT].
             ++ destruct (IH (step tb y i) i t1 E1) as [t2 [F1 [F2 [F3 [F4 F5]]]]]; [congruence|auto|].
                exists t2. rewrite (F5 r1 R1) in *. split; auto. split; auto. split; auto. split; [congruence|easy].
             ++ exists t1. assert (ST : forall sch (z : @sys T F), nth_error (y_threads z) i = Some t1 -> nth_error (y_threads (run_sched tb sch z)) i = Some t1).
                { clear - R1. induction sch as [|k sch IH]; intros z H; auto. cbn. apply IH.
                  destruct (Nat.eq_dec k i) as [->|N]; [|rewrite step_other; auto].
                  unfold step. rewrite H. unfold step_thread. rewrite R1. cbn. eapply set_nth_same; eauto. }
                split; auto. split; auto. split; auto. split; [congruence|easy].
          -- destruct E4 as [E4|[E4 E5]]; [easy|].
             destruct (IH (step tb y i) i t1 E1) as [t2 [F1 [F2 [F3 [F4 F5]]]]]; [congruence|rewrite E3; auto|].
             exists t2. split; auto. split; [congruence|]. split; [congruence|]. split; [|easy].
             intro H. specialize (F4 H). rewrite E3 in F4. lia.
      + destruct (IH (step tb y j) i th) as [t2 F6]; auto.
        { rewrite step_other; auto. }
        exists t2. exact F6.
  Qed.

  Lemma returns sch db fl h i ev c : nth_error h i = Some (ev, c) -> env_ok ev ->
    length (rows_of c) + 2 <= count_occ Nat.eq_dec sch i ->
    exists r, In (ev, c, r) (finished (run_sched tb sch (start tb db fl h))).
  Proof.
    intros E EV L. destruct (progress sch (start tb db fl h) i (Thread ev c 0 (WSt [] fl (t_nil tb) 0) None)) as [t [F1 [F2 [F3 [F4 _]]]]]; auto.
    - cbn. rewrite nth_error_map, E. reflexivity.
    - cbn. lia.
    - cbn in F2, F3, F4. destruct (th_res t) as [r|] eqn:R; [|specialize (F4 eq_refl); lia].
      exists r. unfold finished. apply in_flat_map. exists t. split; [eapply nth_error_In; eauto|]. rewrite R, F2, F3. left; auto.
  Qed.
End Progress.

(** The orders of the results with their calls. *)
Lemma any_schedule_orders {T F} (tb : table T F) (G : good_table tb) db fl (m : tmap T) h :
  consistent tb db fl m -> Forall (fun ec => env_ok (fst ec)) h ->
  Forall (admissible (schema_of tb) m) (map snd h) -> ForallOrdPairs (disjoint (schema_of tb)) (map snd h) ->
  forall sch, let y := run_sched tb sch (start tb db fl h) in
    (forall ev c r, In (ev, c, r) (finished y) -> In (ev, c) h /\ r = solo tb db fl (ev, c)) /\
    (forall o, Permutation o (finished y) -> exists fl', run_serial tb db fl (map fst o) = (y_db y, fl', map snd o)) /\
    consistent tb (y_db y) (y_flt y) (outcome (schema_of tb) m (map (fun f => (snd (fst f), ok_of (snd f))) (finished y))) /\
    same_outside (schema_of tb) db (y_db y).
Proof.
  intros C E A D sch y. destruct (any_schedule tb G db fl m h C E A D sch) as [H1 [H2 H3]]. split; [exact H1|]. split; [|exact H3].
  intros o P. destruct (H2 (map fst o) (Permutation_map fst P)) as [fl' X]. exists fl'. fold y in X. rewrite X. f_equal.
  rewrite map_map. apply map_ext_in. intros [[ev c] r] Hi. symmetry. apply H1. eapply Permutation_in; eauto.
Qed.
