(** Queries return rows of the table that pass their filter, whatever the indexes hold. *)

From Coq Require Import List NArith ZArith Lia Bool Arith Sorting.Permutation.
From Verif.Model Require Import Bytes Go Keys Pebble Index Table Scan Query.
From Verif.Spec Require Import KeySpec StoreSpec TableSpec HistSpec RowsSpec ScanSpec QuerySpec SoundSpec.
From Verif.Proofs Require Import BytesFacts KeysFacts PebbleFacts TableFacts WriteFacts ReadFacts IterFacts ScanRows SoundReads.
Import ListNotations.

(** ** The steps that only leave rows out *)

Lemma slice_in {A} n (l l' : list A) x : slice_from n l = Ok l' -> In x l' -> In x l.
Proof.
  unfold slice_from. destruct (_ <=? _)%N; intros E I; [|discriminate]. injection E as <-.
  rewrite <- (firstn_skipn (N.to_nat n) l). apply in_or_app. right. exact I.
Qed.

Lemma offset_in {A} n (l l' : list A) x : apply_offset n l = Ok l' -> In x l' -> In x l.
Proof. unfold apply_offset. destruct (_ <=? _)%Z; [|apply slice_in]. intros E I. injection E as <-. destruct I. Qed.

Lemma limit_in {A} n (l l' : list A) x : apply_limit n l = Ok l' -> In x l' -> In x l.
Proof.
  unfold apply_limit. destruct (_ <=? _)%Z; intros E I; [injection E as <-; exact I|]. destruct (_ <=? _)%N; [|discriminate]. injection E as <-.
  rewrite <- (firstn_skipn (N.to_nat n) l). apply in_or_app. left. exact I.
Qed.

Section Query.
  Context {T F : Type} (tb : table T F) (G : good_table tb) (ev : env T) (EV : env_ok ev).
  Variable srt : (T -> T -> bool) -> list T -> list T.
  Hypothesis SRT : sorts srt.
  Variables (db : kv) (fl : F) (ob : optb) (m : tmap T).
  Hypothesis KV : kv_ok db.
  Hypothesis RD : readable (batch_of ob).
  Notation sc := (schema_of tb).
  Notation st := (view db (batch_of ob)).
  Notation open := (db_iter db (batch_of ob)).

  Definition passes (q : query T) (r : T) : Prop := held m r /\ match q_filter q with Some f => f r = true | None => True end.

  Lemma after_rec_in a l l' x : after_rec tb a l = Some l' -> In x l' -> In x l.
  Proof.
    induction l as [|r l IH]; cbn [after_rec]; [discriminate|]. destruct (beqb _ _); intros E I; [injection E as <-|]; right; auto.
  Qed.

  Lemma drop_after_in a l x : In x (drop_after tb a l) -> In x l.
  Proof. unfold drop_after. destruct (after_rec tb a l) eqn:E; [eapply after_rec_in; eauto|auto]. Qed.

  Lemma sort_in (less : option (T -> T -> bool)) l x : In x (match less with Some f => srt f l | None => l end) -> In x l.
  Proof. destruct less as [f|]; auto. intro H. exact (Permutation_in _ (proj1 (SRT f l)) H). Qed.

  Lemma finish_in q s l x : finish_query tb srt q s = Ok l -> In x l -> In x (qs_records s).
  Proof.
    unfold finish_query. intros E I.
    set (r1 := match q_less q with Some less => srt less (qs_records s) | None => qs_records s end) in *.
    set (r2 := match q_after q with Some a => if qs_after_applied s then r1 else drop_after tb a r1 | None => r1 end) in *.
    assert (H2 : In x r2 -> In x (qs_records s)).
    { intro H. apply (sort_in (q_less q)). fold r1. unfold r2 in H. destruct (q_after q) as [a|]; [destruct (qs_after_applied s); [exact H|apply drop_after_in in H; exact H]|exact H]. }
    apply H2. clear H2. cbn zeta in E. clearbody r2. clear r1. destruct (_ && negb (qs_offset_applied s)).
    - destruct (apply_offset (q_offset q) r2) as [r3| | |] eqn:EO; try discriminate. apply (offset_in _ _ _ _ EO).
      destruct (_ && negb (qs_limit_applied s)); [apply (limit_in _ _ _ _ E I)|injection E as <-; exact I].
    - destruct (_ && negb (qs_limit_applied s)); [apply (limit_in _ _ _ _ E I)|injection E as <-; exact I].
  Qed.

  Lemma query_cb_keeps q s k : Forall (passes q) (qs_records s) -> keeps (held m) (fun s => Forall (passes q) (qs_records s)) (query_cb tb q s k).
  Proof.
    intro P. unfold query_cb. assert (PA : Forall (passes q) (qs_records (fst (cb_after tb q s k)))).
    { unfold cb_after. destruct (q_after q); [|exact P]. destruct (q_less q); [exact P|]. destruct (qs_skipped s); exact P. }
    destruct (cb_after tb q s k) as [s1 isa]. cbn [fst] in PA. destruct isa; [exact PA|].
    destruct (match q_filter q, q_less q with None, None => _ | _, _ => false end); [exact PA|]. cbn [keeps].
    intros [r|e| |] H; try exact PA. specialize (H r eq_refl).
    assert (PR : Forall (passes q) (qs_records (fst (cb_record q s1 r)))).
    { unfold cb_record. set (keep := match q_filter q with Some f => f r | None => true end).
      assert (X : Forall (passes q) (if keep then qs_records s1 ++ [r] else qs_records s1)).
      { destruct keep eqn:KE; [|exact PA]. apply Forall_app. split; [exact PA|]. constructor; [|constructor]. split; [exact H|].
        unfold keep in KE. destruct (q_filter q); auto. }
      destruct (q_less q); [exact X|]. destruct (0 <? q_limit q)%N; exact X. }
    destruct (cb_record q s1 r) as [s2 nx]. exact PR.
  Qed.

  Lemma points_after_in idx a ps : forall l x, points_after tb idx a ps = Ok l -> In x l -> x = a \/ In x ps.
  Proof.
    induction ps as [|p ps IH]; intros l x E I; cbn [points_after] in E; [injection E as <-; destruct I|].
    assert (X : forall k l', (forall y, In y k -> y = a \/ y = p) -> match points_after tb idx a ps with Ok l'' => Ok (k ++ l'') | e => e end = Ok l' ->
                  In x l' -> x = a \/ In x (p :: ps)).
    { intros k l' HK E' I'. destruct (points_after tb idx a ps) as [l''| | |]; try discriminate. injection E' as <-. apply in_app_or in I' as [I'|I'].
      - destruct (HK x I') as [-> | ->]; [auto|right; left; auto].
      - destruct (IH _ x eq_refl I'); [auto|right; right; auto]. }
    destruct (bltb _ _).
    - apply (X [p] l); auto. intros y [<-|[]]; auto.
    - destruct (key_prefix_of _) as [u| | |]; try discriminate. destruct (key_prefix_of _) as [v| | |]; try discriminate.
      eapply (X _ l); [|exact E|exact I]. destruct (beqb u v); intros y Y; [destruct Y as [<-|[]]; auto|destruct Y].
  Qed.

  Lemma ranges_after_in idx a rs : forall l x, ranges_after tb idx a rs = Ok l -> In x (concat l) -> x = a \/ In x (concat rs).
  Proof.
    induction rs as [|[|lo [|hi r]] rs IH]; intros l x E I; cbn [ranges_after] in E; try discriminate; [injection E as <-; destruct I|].
    destruct (ranges_after tb idx a rs) as [l'| | |]; try discriminate. injection E as <-. rewrite concat_app in I. apply in_app_or in I as [I|I].
    - destruct (bltb _ _).
      + right. cbn [concat] in I. rewrite app_nil_r in I. change (In x ((lo :: hi :: r) ++ concat rs)). apply in_or_app. auto.
      + destruct (bleb _ _); [|destruct I]. destruct I as [<-|[<-|[]]]; [auto|right; cbn; auto].
    - destruct (IH _ x eq_refl I) as [->|H]; [auto|]. right. change (In x ((lo :: hi :: r) ++ concat rs)). apply in_or_app. auto.
  Qed.

  Lemma after_records idx a sel sel' x : selector_with_after tb idx a sel = Ok sel' -> In x (sel_records sel') -> x = a \/ In x (sel_records sel).
  Proof.
    unfold selector_with_after. destruct sel as [p|ps|lo hi|rs|]; intros E I.
    - injection E as <-. destruct I as [<-|[]]; auto.
    - destruct (points_after tb idx a ps) as [l| | |] eqn:EP; try discriminate. injection E as <-. exact (points_after_in idx a ps l x EP I).
    - injection E as <-. destruct I as [<-|[<-|[]]]; auto. right. right. left. reflexivity.
    - destruct (ranges_after tb idx a rs) as [l| | |] eqn:EP; try discriminate. injection E as <-. exact (ranges_after_in idx a rs l x EP I).
    - discriminate.
  Qed.

  Lemma execute_query_rows fuel q l : on_table tb q -> RowsAre sc st m -> execute_query tb ev srt fuel db fl q ob = Ok l -> Forall (passes q) l.
  Proof.
    intros [HI SH] R E. unfold execute_query in E.
    set (sel0 := match q_after q, q_less q with Some a, None => selector_with_after tb (q_index q) a (q_sel q) | _, _ => Ok (q_sel q) end) in *.
    destruct sel0 as [sel| | |] eqn:ES; try discriminate.
    assert (SS : Forall (parts_short (sindex_of (q_index q))) (sel_records sel)).
    { apply Forall_forall. intros x X. rewrite Forall_forall in SH. apply SH. unfold query_records. apply in_or_app. unfold sel0 in ES.
      destruct (q_after q) as [a|]; [|injection ES as <-; auto]. destruct (q_less q); [injection ES as <-; auto|].
      destruct (after_records _ _ _ _ x ES X) as [->|]; [right; left; auto|auto]. }
    pose proof (scan_keeps tb G ev EV db ob m KV RD (query_cb tb q) (fun s => Forall (passes q) (qs_records s)) (q_rev q) fl
                  (query_cb_keeps q) R (q_index q) sel fuel (Qst [] 0 false false false false) HI SS (Forall_nil _)) as SK.
    destruct (scan_index_for_each _ _ _ _ _ _ _ _ _ _ _) as [s r]. cbn [fst] in SK. destruct r; try discriminate.
    apply Forall_forall. intros x X. rewrite Forall_forall in SK. exact (SK x (finish_in q s l x E X)).
  Qed.

  (** ** Intersects *)

  Definition row_keys (ks : list bytes) : Prop := Forall (fun k => exists rest, k = t_id tb :: x00 :: rest) ks.

  Lemma set_add_in k l x : In x (set_add k l) -> x = k \/ In x l.
  Proof.
    induction l as [|y l IH]; cbn [set_add]; [intros [<-|[]]; auto|]. destruct (bcmp k y); intro H.
    - auto.
    - destruct H as [<-|H]; auto.
    - destruct H as [<-|H]; [right; left; auto|]. destruct (IH H); auto. right. right. auto.
  Qed.

  Lemma collect_keys_rows idx wi : forall fuel n it acc n' ks, over tb db ob idx it -> row_keys acc ->
    collect_keys ev open wi fuel n it acc = Ok (n', ks) -> row_keys ks.
  Proof.
    induction fuel as [|fuel IH]; intros n it acc n' ks O A E; cbn [collect_keys] in E.
    - destruct (bi_valid it); [discriminate|]. injection E as _ <-. exact A.
    - destruct (bi_valid it) eqn:V; [|injection E as _ <-; exact A]. destruct (e_ctx ev n); [discriminate|].
      destruct (to_data_key_bytes (bi_key it) []) as [k| | |] eqn:EK; try discriminate.
      eapply IH; [|..|exact E]; [exact (over_next tb db ob idx false it O)|]. destruct (match wi with None => true | Some w => _ end); [|exact A].
      apply Forall_forall. intros x X. apply set_add_in in X as [->|X]; [exact (data_key_of tb db ob idx it k O V EK)|].
      unfold row_keys in A. rewrite Forall_forall in A. auto.
  Qed.

  Lemma rest_rows fuel : forall qs n ks ks', Forall (on_table tb) qs -> row_keys ks -> intersect_rest tb ev fuel db ob n qs ks = Ok ks' -> row_keys ks'.
  Proof.
    induction qs as [|q qs IH]; intros n ks ks' ON A E; cbn [intersect_rest] in E; [injection E as <-; exact A|].
    inversion ON as [|? ? [HI SH] O2]; subst. destruct (index_iter tb db ob (q_index q) (q_sel q)) as [it| | |] eqn:EI; try discriminate.
    destruct (collect_keys _ _ _ _ _ _ _) as [[n1 k1]| | |] eqn:EC; try discriminate.
    eapply IH; [exact O2| |exact E]. apply Forall_app in SH as [SH _].
    destruct (iter_over tb G db ob KV RD (q_index q) HI (q_sel q) it SH EI) as [FR C].
    eapply collect_keys_rows; [exact (over_first tb db ob (q_index q) false it FR C)|constructor|exact EC].
  Qed.

  Lemma intersect_rows fuel q ks : on_table tb q -> Forall (on_table tb) (q_inter q) -> intersect tb ev fuel db q ob = Ok ks -> row_keys ks.
  Proof.
    intros [HI SH] ON E. unfold intersect in E. destruct (index_iter tb db ob (q_index q) (q_sel q)) as [it| | |] eqn:EI; try discriminate.
    destruct (collect_keys _ _ _ _ _ _ _) as [[n1 k1]| | |] eqn:EC; try discriminate.
    eapply rest_rows; [exact ON| |exact E]. apply Forall_app in SH as [SH _].
    destruct (iter_over tb G db ob KV RD (q_index q) HI (q_sel q) it SH EI) as [FR C].
    eapply collect_keys_rows; [exact (over_first tb db ob (q_index q) false it FR C)|constructor|exact EC].
  Qed.

  Lemma decode_passes q vs : Forall (row_value tb m) vs -> forall l, decode_records tb (q_filter q) vs = Ok l -> Forall (passes q) l.
  Proof.
    induction 1 as [|v vs H _ IH]; intros l E; cbn [decode_records] in E; [injection E as <-; constructor|].
    destruct (t_deser tb v (t_nil tb)) as [r|] eqn:D; [|discriminate]. destruct (decode_records tb (q_filter q) vs) as [l'| | |]; try discriminate.
    injection E as <-. specialize (IH l' eq_refl).
    destruct (match q_filter q with Some f => f r | None => true end) eqn:K; [|exact IH]. constructor; [|exact IH].
    split; [exact (H r D)|]. destruct (q_filter q); auto.
  Qed.

  Lemma execute_intersect_rows fuel q l : on_table tb q -> Forall (on_table tb) (q_inter q) -> RowsAre sc db m ->
    execute_intersect tb ev srt fuel db fl q ob = Ok l -> Forall (passes q) l.
  Proof.
    intros ON ONS R E. unfold execute_intersect in E. destruct (forallb plain_query (q_inter q)); [|discriminate].
    destruct (intersect tb ev fuel db q ob) as [ks| | |] eqn:EI; try discriminate.
    pose proof (intersect_rows fuel q ks ON ONS EI) as RK. cbn zeta in E.
    set (early := match q_filter q, q_less q, q_after q with None, None, None => true | _, _, _ => false end) in *.
    set (keys1 := if early && (0 <? q_offset q)%N then apply_offset (q_offset q) ks else Ok ks) in *.
    assert (R1 : forall k1, keys1 = Ok k1 -> row_keys k1).
    { intros k1 E1. unfold keys1 in E1. destruct (early && _); [|injection E1 as <-; exact RK].
      apply Forall_forall. intros x X. unfold row_keys in RK. rewrite Forall_forall in RK. exact (RK x (offset_in _ _ _ _ E1 X)). }
    clearbody keys1. destruct keys1 as [k1| | |]; try discriminate. specialize (R1 k1 eq_refl).
    set (keys2 := if early && (0 <? q_limit q)%N then apply_limit (q_limit q) k1 else Ok k1) in *.
    assert (R2 : forall k2, keys2 = Ok k2 -> row_keys k2).
    { intros k2 E2. unfold keys2 in E2. destruct (early && _); [|injection E2 as <-; exact R1].
      apply Forall_forall. intros x X. unfold row_keys in R1. rewrite Forall_forall in R1. exact (R1 x (limit_in _ _ _ _ E2 X)). }
    clearbody keys2. destruct keys2 as [k2| | |]; try discriminate. specialize (R2 k2 eq_refl).
    destruct (get_keys tb ev db fl None k2 true) as [vs| | |] eqn:GK; try discriminate.
    pose proof (get_keys_rows tb G ev EV db m KV None fl k2 vs Logic.I R R2 GK) as RV.
    destruct (decode_records tb (q_filter q) vs) as [rs| | |] eqn:ED; try discriminate. pose proof (decode_passes q vs RV rs ED) as PR.
    set (r1 := match q_less q with Some less => srt less rs | None => rs end) in *.
    set (r2 := match q_after q with Some a => drop_after tb a r1 | None => r1 end) in *.
    assert (P2 : Forall (passes q) r2).
    { apply Forall_forall. intros x X. rewrite Forall_forall in PR. apply PR, (sort_in (q_less q)). fold r1. unfold r2 in X.
      destruct (q_after q) as [a|]; [apply drop_after_in in X; exact X|exact X]. }
    clearbody r2. apply Forall_forall. intros x X. rewrite Forall_forall in P2. apply P2. clear P2.
    assert (Y : match (if (0 <? q_offset q)%N then apply_offset (q_offset q) r2 else Ok r2) with
                | Ok records => if (0 <? q_limit q)%N then apply_limit (q_limit q) records else Ok records | e => e end = Ok l -> In x r2).
    { intro E'. destruct (0 <? q_offset q)%N.
      - destruct (apply_offset (q_offset q) r2) as [r3| | |] eqn:EO; try discriminate. apply (offset_in _ _ _ _ EO).
        destruct (0 <? q_limit q)%N; [apply (limit_in _ _ _ _ E' X)|injection E' as <-; exact X].
      - destruct (0 <? q_limit q)%N; [apply (limit_in _ _ _ _ E' X)|injection E' as <-; exact X]. }
    destruct (q_filter q); [exact (Y E)|]. destruct (q_less q); [exact (Y E)|]. injection E as <-. exact X.
  Qed.
End Query.

(** ** The theorems *)

Lemma scans_sound {T F} (tb : table T F) : good_table tb -> forall ev, env_ok ev -> forall db ob m, kv_ok db -> readable (batch_of ob) ->
  RowsAre (schema_of tb) (view db (batch_of ob)) m ->
  forall W (f : W -> bytes -> prog (T:=T) W) (P : W -> Prop), (forall s k, P s -> keeps (held m) P (f s k)) ->
  forall idx sel, In idx (primary_index :: t_indexes tb) -> Forall (parts_short (sindex_of idx)) (sel_records sel) ->
  forall rv fuel fl s, P s -> P (fst (scan_index_for_each tb ev fuel db fl idx sel f rv ob s)).
Proof. intros G ev EV db ob m KV RD R W f P K idx sel HI SH rv fuel fl s PS. exact (scan_keeps tb G ev EV db ob m KV RD f P rv fl K R idx sel fuel s HI SH PS). Qed.

Lemma scan_index_sound {T F} (tb : table T F) : good_table tb -> forall ev, env_ok ev -> forall db ob m, kv_ok db -> readable (batch_of ob) ->
  RowsAre (schema_of tb) (view db (batch_of ob)) m ->
  forall idx sel, In idx (primary_index :: t_indexes tb) -> Forall (parts_short (sindex_of idx)) (sel_records sel) ->
  forall rv fuel fl acc, exists l, fst (scan_index tb ev fuel db fl idx sel acc rv ob) = acc ++ l /\ Forall (held m) l.
Proof.
  intros G ev EV db ob m KV RD R idx sel HI SH rv fuel fl acc. unfold scan_index.
  apply (scans_sound tb G ev EV db ob m KV RD R _ append_cb (fun s => exists l, s = acc ++ l /\ Forall (held m) l)); auto.
  - intros s k [l [-> FL]]. cbn [keeps append_cb]. intros [r|e| |] H; cbn [keeps]; [|exists l; auto..].
    exists (l ++ [r]). rewrite app_assoc. split; [reflexivity|]. apply Forall_app. split; [exact FL|]. constructor; [exact (H r eq_refl)|constructor].
  - exists []. rewrite app_nil_r. split; [reflexivity|constructor].
Qed.

Lemma queries_sound {T F} (tb : table T F) : good_table tb -> forall ev, env_ok ev -> forall srt, sorts srt ->
  forall db ob m, kv_ok db -> readable (batch_of ob) ->
  forall q, RowsAre (schema_of tb) (match q_inter q with [] => view db (batch_of ob) | _ => db end) m ->
  on_table tb q -> Forall (on_table tb) (q_inter q) ->
  forall fuel fl l, execute tb ev srt fuel db fl q ob = Ok l ->
  forall r, In r l -> held m r /\ forall f, q_filter q = Some f -> f r = true.
Proof.
  intros G ev EV srt SRT db ob m KV RD q R ON ONS fuel fl l E r I.
  assert (X : Forall (passes m q) l).
  { unfold execute in E. destruct (q_inter q) as [|q1 qs] eqn:EQ.
    - exact (execute_query_rows tb G ev EV srt SRT db fl ob m KV RD fuel q l ON R E).
    - rewrite <- EQ in ONS. exact (execute_intersect_rows tb G ev EV srt SRT db fl ob m KV RD fuel q l ON ONS R E). }
  rewrite Forall_forall in X. destruct (X r I) as [H1 H2]. split; [exact H1|]. intros f EF. rewrite EF in H2. exact H2.
Qed.
