(** Intersecting queries while the table changes: C79. *)

From Coq Require Import List NArith ZArith Lia Bool Arith Sorting.Sorted Sorting.Permutation.
From Verif.Model Require Import Bytes Go Keys Pebble Index Table Scan Query LiveScan LiveInter.
From Verif.Spec Require Import KeySpec StoreSpec TableSpec ScanSpec QuerySpec LiveScanSpec LiveInterSpec.
From Verif.Proofs Require Import BytesFacts KeysFacts PebbleFacts TableFacts WriteFacts ReadFacts IterFacts ScanFacts ScanRows ScanProps ScanTop QueryFacts QueryProps
  InterFacts LiveFacts LiveIter.
Import ListNotations.

(** ** Nothing moves *)

Section Still.
  Context {T F : Type}.
  Variable tb : table T F.
  Variable ev : env T.
  Variable srt : (T -> T -> bool) -> list T -> list T.
  Variable lk : look F.
  Variable sees : nat -> nat -> bytes -> bytes -> nat.
  Notation open := (db_iter (lk_db lk) None).

  Lemma still_keys i within : forall fuel n it acc,
    live_keys ev (fun _ => lk) sees i within fuel n it acc = collect_keys ev open within fuel n it acc.
  Proof.
    induction fuel as [|fuel IH]; intros n it acc; cbn [live_keys collect_keys]; auto.
    destruct (bi_valid it); auto. destruct (e_ctx ev n); auto. destruct (to_data_key_bytes _ _); auto.
  Qed.

  Lemma still_rest fuel : forall qs i n keys,
    live_rest tb ev (fun _ => lk) sees i fuel n qs keys = intersect_rest tb ev fuel (lk_db lk) NoBatch n qs keys.
  Proof.
    induction qs as [|q qs IH]; intros i n keys; cbn [live_rest intersect_rest]; auto. unfold live_part.
    change (iter_by tb (opened (fun _ => lk) sees i n)) with (iter_by tb open). rewrite iter_by_index.
    destruct (index_iter _ _ _ _ _); auto. rewrite still_keys. cbn [batch_of].
    change (bi_first (opened (fun _ => lk) sees i n)) with (bi_first open). destruct (collect_keys _ _ _ _ _ _ _) as [[n' keys']| | |]; auto.
  Qed.

  Lemma still_intersect last fuel q : q_inter q <> [] ->
    live_execute tb ev srt (fun _ => lk) sees last fuel q = execute tb ev srt fuel (lk_db lk) (lk_fl lk) q NoBatch.
  Proof.
    intro NE. unfold execute. destruct (q_inter q) as [|x xs] eqn:E; [easy|].
    unfold live_execute, execute_intersect.
    assert (X : live_intersect tb ev (fun _ => lk) sees fuel q = intersect tb ev fuel (lk_db lk) q NoBatch).
    { unfold live_intersect, intersect, live_part. change (iter_by tb (opened (fun _ => lk) sees 0 0)) with (iter_by tb open).
      rewrite iter_by_index. destruct (index_iter _ _ _ _ _); auto. rewrite still_keys. cbn [batch_of].
      change (bi_first (opened (fun _ => lk) sees 0 0)) with (bi_first open).
      destruct (collect_keys _ _ _ _ _ _ _) as [[n' keys']| | |]; auto. apply still_rest. }
    rewrite X. reflexivity.
  Qed.
End Still.

Section P.
  Context {T F : Type}.
  Variable tb : table T F.
  Hypothesis G : good_table tb.
  Variable ev : env T.
  Hypothesis EV : env_ok ev.
  Hypothesis QT : quiet ev.
  Variable srt : (T -> T -> bool) -> list T -> list T.
  Hypothesis SR : sorts srt.
  Variable w : nat -> look F.
  Variable ms : nat -> tmap T.
  Hypothesis CO : forall k, consistent tb (lk_db (w k)) (lk_fl (w k)) (ms k).
  Variable sees : nat -> nat -> bytes -> bytes -> nat.
  Notation sc := (schema_of tb).
  Notation isin idx := (In idx (primary_index :: t_indexes tb)).
  Notation DB k := (lk_db (w k)).
  Notation op i := (opened w sees i).
  Let LAW : lawful tb := good_lawful _ G.

  Definition may (i k : nat) : Prop := exists n lo hi, k = sees i n lo hi.

  Notation sels idx sel := (selections sc (sindex_of idx) (Byte.eqb (ix_id idx) x00) sel).
  Notation hold idx k := (holds tb idx (DB k) NoBatch (ms k)).

  Notation en idx r := (entry_key sc (sindex_of idx) r, val_of tb idx r).

  Lemma collect_flow i within dk : forall l it fuel n acc,
    flows false (fun j => op i (S j)) n it l -> (forall e, In e l -> to_data_key_bytes (fst e) [] = Ok (dk e)) -> length l <= fuel ->
    StronglySorted blt acc ->
    exists keys, live_keys ev w sees i within fuel n it acc = Ok (n + length l, keys) /\ StronglySorted blt keys /\
      forall k, In k keys <-> In k acc \/ (exists e, In e l /\ dk e = k) /\ match within with None => True | Some w => In k w end.
  Proof.
    induction l as [|e l IH]; intros it fuel n acc D TD LE SA.
    - inversion D as [? ? N _|]; subst. exists acc.
      split; [destruct fuel; cbn [live_keys length]; rewrite N, Nat.add_0_r; auto|]. split; auto. intro k. split; auto.
      intros [H|[[x [[] _]] _]]; auto.
    - inversion D as [|? ? ? ? V EK _ D']; subst. destruct fuel as [|fuel]; [cbn in LE; lia|].
      cbn [live_keys]. rewrite V, (proj1 QT), EK, (TD e (or_introl eq_refl)).
      set (hit := match within with None => true | Some w => existsb (beqb (dk e)) w end).
      assert (HIT : hit = true <-> match within with None => True | Some w => In (dk e) w end).
      { unfold hit. destruct within as [w'|]; [|tauto]. rewrite existsb_exists. split.
        - intros [x [Hx E]]. apply beqb_eq in E. subst. auto.
        - intro H. exists (dk e). split; auto. apply beqb_refl. }
      destruct (IH (bi_next (op i (S n)) it) fuel (S n) (if hit then set_add (dk e) acc else acc) D') as [keys [E1 [E2 E3]]].
      { intros; apply TD; right; auto. } { cbn in LE; lia. } { destruct hit; auto using set_add_sorted. }
      exists keys. split; [rewrite E1; cbn [length]; do 2 f_equal; lia|]. split; auto. intro k. rewrite E3. clear E1 E2 E3 IH.
      destruct hit eqn:EH.
      + rewrite set_add_in. split.
        * intros [[->|H]|[[x [Hx E]] W]]; auto; [right; split; [exists e; split; [left|]; auto|apply HIT; auto]|].
          right. split; auto. exists x. split; [right|]; auto.
        * intros [H|[[x [[<-|Hx] E]] W]]; auto. right. split; eauto.
      + split.
        * intros [H|[[x [Hx E]] W]]; auto. right. split; auto. exists x. split; [right|]; auto.
        * intros [H|[[x [[<-|Hx] E]] W]]; auto; [|right; split; eauto]. subst k. apply HIT in W. discriminate.
  Qed.

  Lemma part_run i n q : isin (q_index q) -> (forall k, exact_selector tb (q_index q) (ms k) (q_sel q)) ->
    exists ks l, Forall (may i) ks /\ listed tb ms (sindex_of (q_index q)) ks (sels (q_index q) (q_sel q)) l /\
      forall within fuel, length l <= fuel ->
        exists keys, live_part tb ev w sees i within fuel n q = Ok (n + length l, keys) /\ StronglySorted blt keys /\
          forall k, In k keys <-> (exists r, In r l /\ data_key tb r = k) /\ match within with None => True | Some w => In k w end.
  Proof.
    intros HI EX. destruct (all_bounds tb G w ms CO _ _ HI EX) as [os [NE [H IB]]]. set (idx := q_index q) in *.
    assert (X : exists b cs, iter_by tb (op i n) idx (q_sel q) = Ok b /\ Forall2 (once (fun o => exists n, o = op i n)) os cs /\
       flows false (fun j => op i (S j)) n (bi_first (op i n) b) (concat cs)).
    { assert (M : forall j, exists n, op i (S j) = op i n) by eauto.
      destruct (IB (op i n)) as [[lo [hi [-> E]]]|[p E]].
      - exists (BOne (op i n lo hi)). destruct (start_flows false (fun j => op i (S j)) (fun o => exists n, o = op i n) M (op i n) (BOne (op i n lo hi)) [(lo, hi)] n) as [cs [F2 FL]]; eauto.
      - exists (BMulti os 0 p). destruct (start_flows false (fun j => op i (S j)) (fun o => exists n, o = op i n) M (op i n) (BMulti os 0 p) os n) as [cs [F2 FL]]; eauto. }
    assert (MK : forall open, (exists n, open = op i n) -> forall lo hi, exists k, may i k /\ open lo hi = db_iter (DB k) None lo hi).
    { intros open [n' ->] lo hi. exists (sees i n' lo hi). split; auto. exists n', lo, hi. auto. }
    destruct X as [b [cs [E [F2 FL]]]]. destruct (once_listed tb w ms _ (may i) idx os cs _ MK H F2) as [ks [l [A1 [A2 [A3 ST]]]]].
    exists ks, l. split; auto. split; auto. intros within fuel LE. unfold live_part. fold idx. rewrite E.
    rewrite A3 in FL.
    set (dk := fun e : entry => match to_data_key_bytes (fst e) [] with Ok k => k | _ => [] end).
    assert (DK : forall r, In r l -> to_data_key_bytes (fst (en idx r)) [] = Ok (data_key tb r)).
    { intros r Hr. destruct (ST r Hr) as [k Hk]. pose proof (stored_fits tb LAW idx HI _ _ r (cons_rep _ _ _ _ (CO k)) Hk) as [F1 F2'].
      cbn [fst]. rewrite (data_key_eq tb LAW).
      apply (to_data_key_bytes_layout (t_id tb) (ix_id idx) (si_key (sindex_of idx) r) (si_ord (sindex_of idx) r) (s_pk sc r) [] F1 F2'). }
    destruct (collect_flow i within dk _ (bi_first (op i n) b) fuel n [] FL) as [keys [E1 [E2 E3]]].
    - intros e He. apply in_map_iff in He as [r [<- Hr]]. unfold dk. rewrite DK by auto. reflexivity.
    - rewrite map_length. exact LE.
    - constructor.
    - rewrite map_length in E1. exists keys. split; auto. split; auto. intro k. rewrite E3. split.
      + intros [[]|[[e [He Ek]] W]]. split; auto. apply in_map_iff in He as [r [<- Hr]]. exists r. split; auto.
        unfold dk in Ek. rewrite DK in Ek by auto. exact Ek.
      + intros [[r [Hr Ek]] W]. right. split; auto. exists (en idx r). split; [apply in_map_iff; eauto|]. unfold dk. rewrite DK by auto. exact Ek.
  Qed.

  Lemma rest_run : forall qs i n, (forall q, In q qs -> isin (q_index q) /\ forall k, exact_selector tb (q_index q) (ms k) (q_sel q)) ->
    exists ls, saw tb ms may i qs ls /\
      forall fuel keys, (forall l, In l ls -> length l <= fuel) -> StronglySorted blt keys ->
        exists keys', live_rest tb ev w sees i fuel n qs keys = Ok keys' /\ StronglySorted blt keys' /\
          forall k, In k keys' <-> In k keys /\ Forall (fun l => exists r, In r l /\ data_key tb r = k) ls.
  Proof.
    induction qs as [|q qs IH]; intros i n H.
    - exists []. split; [constructor|]. intros fuel keys _ SK. exists keys. split; auto. split; auto.
      intro k. split; [intro; split; auto|tauto].
    - destruct (H q (or_introl eq_refl)) as [HI EX]. destruct (part_run i n q HI EX) as [ks [l [A1 [A2 C]]]].
      destruct (IH (S i) (n + length l) (fun q Hq => H q (or_intror Hq))) as [ls [SN V]].
      exists (l :: ls). split; [econstructor; eauto|].
      intros fuel keys LE SK. cbn [live_rest].
      destruct (C (Some keys) fuel) as [keys1 [E1 [E2 E3]]]; [apply LE; left; auto|]. rewrite E1.
      destruct (V fuel keys1) as [keys2 [E4 [E5 E6]]]; auto; [intros; apply LE; right; auto|].
      exists keys2. split; auto. split; auto. intro k. rewrite E6, E3, Forall_cons_iff. tauto.
  Qed.

  Lemma keys_run q : (forall x, In x (q :: q_inter q) -> isin (q_index x) /\ forall k, exact_selector tb (q_index x) (ms k) (q_sel x)) ->
    exists ls b, saw tb ms may 0 (q :: q_inter q) ls /\ common sc ls (map (s_pk sc) b) /\
      forall fuel, (forall l, In l ls -> length l <= fuel) -> live_intersect tb ev w sees fuel q = Ok (map (data_key tb) b).
  Proof.
    intro H. destruct (H q (or_introl eq_refl)) as [HI EX]. destruct (part_run 0 0 q HI EX) as [ks [l [A1 [A2 C]]]].
    destruct (rest_run (q_inter q) 1 (0 + length l) (fun x Hx => H x (or_intror Hx))) as [ls [SN V]].
    set (fuel0 := fold_right Nat.max 0 (map (@length T) (l :: ls))).
    assert (F0 : forall x, In x (l :: ls) -> length x <= fuel0).
    { intros x Hx. unfold fuel0. clear - Hx. induction (l :: ls) as [|y k IH]; [easy|]. cbn. destruct Hx as [->|Hx]; [lia|]. specialize (IH Hx). lia. }
    assert (RUN : forall fuel, (forall x, In x (l :: ls) -> length x <= fuel) -> exists keys, live_intersect tb ev w sees fuel q = Ok keys /\ StronglySorted blt keys /\
      forall k, In k keys <-> Forall (fun l => exists r, In r l /\ data_key tb r = k) (l :: ls)).
    { intros fuel LE. unfold live_intersect. destruct (C None fuel) as [keys1 [E1 [E2 E3]]]; [apply LE; left; auto|]. rewrite E1.
      destruct (V fuel keys1) as [keys2 [E4 [E5 E6]]]; auto; [intros; apply LE; right; auto|].
      exists keys2. split; auto. split; auto. intro k. rewrite E6, E3, Forall_cons_iff. tauto. }
    destruct (RUN fuel0 F0) as [keys [_ [K2 K3]]].
    destruct (choose_list (fun k r => data_key tb r = k) keys) as [b FB].
    { intros k Hk. apply K3 in Hk. inversion Hk as [|? ? [r [Hr Er]] _]; subst. eauto. }
    assert (EB : map (data_key tb) b = keys).
    { clear - FB. induction FB as [|k r ks rs H1 FB IH]; cbn [map]; congruence. }
    exists (l :: ls), b. split; [econstructor; eauto|]. split; [split|].
    - rewrite <- EB in K2. clear - K2 LAW G. induction b as [|x b IH]; [constructor|]. cbn in K2. inversion K2 as [|? ? S1 FA]; subst.
      constructor; auto. rewrite Forall_forall in *. intros y Hy. apply in_map_iff in Hy as [z [<- Hz]]. apply (data_key_lt tb G). apply FA. apply in_map; auto.
    - intro k. split.
      + intro Hk. apply in_map_iff in Hk as [r [<- Hr]]. assert (IK : In (data_key tb r) keys) by (rewrite <- EB; apply in_map; auto).
        apply K3 in IK. eapply Forall_impl; [|exact IK]. intros x [y [Hy Ey]]. exists y. split; auto. apply (same_data_key tb G). auto.
      + intro FA. pose proof (Forall_inv FA) as [r [Hr Er]]. assert (IK : In (data_key tb r) keys).
        { apply K3. eapply Forall_impl; [|exact FA]. intros x [y [Hy Ey]]. exists y. split; auto. rewrite !(data_key_eq tb LAW), Ey, Er. reflexivity. }
        rewrite <- EB in IK. apply in_map_iff in IK as [r' [E1 Hr']]. apply (same_data_key tb G) in E1. rewrite <- Er, <- E1. apply in_map; auto.
    - intros fuel LE. destruct (RUN fuel LE) as [keys' [K1' [K2' K3']]]. rewrite K1', EB. f_equal.
      apply (sorted_unique blt blt_irrefl); auto; [|intro k; rewrite K3', K3; tauto].
      intros x y _ _ X Y. apply (blt_irrefl x). eapply blt_trans; eauto.
  Qed.

  Lemma rows_now m b : rows_at m (map (s_pk sc) b) = now sc m b.
  Proof. induction b as [|r b IH]; cbn [map rows_at now]; [reflexivity|]. rewrite IH. reflexivity. Qed.

  Lemma decode_found f vs rows : Forall2 (fun v r => t_deser tb v (t_nil tb) = Some r) vs rows -> decode_records tb f vs = Ok (keep f rows).
  Proof.
    induction 1 as [|v r vs rows H F2 IH]; [destruct f; reflexivity|]. cbn [decode_records]. rewrite H, IH. destruct f as [f|]; cbn [keep filter]; auto.
  Qed.

  (** ** The query *)
  Lemma live_inter last q :
    (forall x, In x (q :: q_inter q) -> isin (q_index x) /\ forall k, exact_selector tb (q_index x) (ms k) (q_sel x)) ->
    (forall x, In x (q_inter q) -> plain_part x) -> (q_offset q < 2 ^ 63)%N -> (q_limit q < 2 ^ 63)%N ->
    (q_after q = None \/ q_filter q <> None \/ q_less q <> None \/ q_offset q = 0%N /\ q_limit q = 0%N) ->
    exists ls ks, saw tb ms may 0 (q :: q_inter q) ls /\ common sc ls ks /\
    let run fuel := live_execute tb ev srt w sees last fuel q in
    let wanted := if plain_rows q then window (q_offset q) (q_limit q) ks else ks in
    match rows_at (ms last) wanted with
    | None => forall fuel, (forall l, In l ls -> length l <= fuel) -> run fuel = Err ENotFound
    | Some rows => exists s a, ordered (q_less q) (keep (q_filter q) rows) s /\ behind_opt sc (q_after q) s a /\
        forall fuel, (forall l, In l ls -> length l <= fuel) ->
        run fuel = Ok (if plain_rows q then a else window (q_offset q) (q_limit q) a)
    end.
  Proof.
    intros H PP HO HL AF. destruct (keys_run q H) as [ls [b [SN [CM V]]]].
    exists ls, (map (s_pk sc) b). split; auto. split; auto. cbv zeta.
    set (wb := if plain_rows q then window (q_offset q) (q_limit q) b else b).
    assert (EW : (if plain_rows q then window (q_offset q) (q_limit q) (map (s_pk sc) b) else map (s_pk sc) b) = map (s_pk sc) wb).
    { unfold wb. destruct (plain_rows q); auto. apply window_map. }
    rewrite EW, rows_now. clear EW.
    assert (PQ : forallb plain_query (q_inter q) = true) by (apply forallb_forall; intros x Hx; apply plain_query_ok; auto).
    (* the keys fetched *)
    assert (STEP : forall fuel, (forall l, In l ls -> length l <= fuel) -> live_execute tb ev srt w sees last fuel q =
      match get_keys tb ev (lk_db (w last)) (lk_fl (w last)) None (map (data_key tb) wb) true with
      | Ok values =>
        match decode_records tb (q_filter q) values with
        | Ok records =>
            let records := match q_less q with Some less => srt less records | None => records end in
            let records := match q_after q with Some a => drop_after tb a records | None => records end in
            match q_filter q, q_less q with
            | None, None => Ok records
            | _, _ =>
                match (if (0 <? q_offset q)%N then apply_offset (q_offset q) records else Ok records) with
                | Ok records => if (0 <? q_limit q)%N then apply_limit (q_limit q) records else Ok records
                | e => e
                end
            end
        | e => e
        end
      | Err e => Err e
      | Panic => Panic
      | Diverge => Diverge
      end).
    { intros fuel LE. unfold live_execute. rewrite PQ, (V fuel LE). unfold wb. unfold plain_rows.
      destruct (q_filter q) as [f|]; [|destruct (q_less q) as [less|]; [|destruct (q_after q) as [af|]]]; cbn [andb]; auto.
      pose proof (offset_limit (q_offset q) (q_limit q) (map (data_key tb) b) HO HL) as OL.
      match goal with |- context [match ?x with Ok keys => match get_keys _ _ _ _ _ keys _ with _ => _ end | _ => _ end] =>
        replace x with (Ok (window (q_offset q) (q_limit q) (map (data_key tb) b))) end.
      2:{ rewrite <- OL. destruct (if (0 <? q_offset q)%N then _ else _); reflexivity. }
      rewrite window_map. reflexivity. }
    pose proof (now_get tb G ev EV (fun _ => w last) (fun _ => ms last) (fun _ => CO last) 0 wb) as NG. cbn beta in NG.
    destruct (now sc (ms last) wb) as [rows|] eqn:EN.
    - destruct NG as [vs [E1 [E2 E3]]].
      set (s := match q_less q with Some less => srt less (keep (q_filter q) rows) | None => keep (q_filter q) rows end).
      set (a := match q_after q with Some a => drop_after tb a s | None => s end).
      exists s, a. split; [unfold s, ordered; destruct (q_less q); auto|].
      split; [unfold a; destruct (q_after q); cbn [behind_opt]; auto; apply drop_after_behind|].
      intros fuel LE. rewrite (STEP fuel LE), E1, (decode_found _ _ _ E2). cbv zeta. fold s. fold a. unfold plain_rows.
      destruct (q_filter q) as [f|] eqn:EF; [|destruct (q_less q) as [less|] eqn:EL; [|destruct (q_after q) as [af|] eqn:EA]].
      + apply offset_limit; auto.
      + apply offset_limit; auto.
      + destruct AF as [AF|[AF|[AF|[B1 B2]]]]; try easy. rewrite B1, B2. reflexivity.
      + reflexivity.
    - intros fuel LE. rewrite (STEP fuel LE), NG. reflexivity.
  Qed.

  (** ** What follows *)

  Lemma seen_untouched i qs ls r : saw tb ms may i qs ls -> (forall k, ms k (s_pk sc r) = Some r) ->
    (Forall (fun l => exists x, In x l /\ s_pk sc x = s_pk sc r) ls <-> forall x, In x qs -> wants tb x r).
  Proof.
    intros SN U. induction SN as [i|i q qs ks l ls MY L SN IH]; [split; [easy|constructor]|].
    rewrite Forall_cons_iff, IH, (listed_untouched tb ms _ _ _ _ _ L U). split.
    - intros [A B] x [<-|Hx]; auto.
    - intro H. split; [apply (H q); left; auto|]. intros x Hx. apply H. right; auto.
  Qed.

  Lemma rows_at_in (m : tmap T) ks (rows : list T) : rows_at m ks = Some rows -> Forall2 (fun k r => m k = Some r) ks rows.
  Proof.
    revert rows. induction ks as [|k ks IH]; cbn [rows_at]; intros rows E; [injection E as <-; constructor|].
    destruct (m k) eqn:EM; [|discriminate]. destruct (rows_at m ks); [|discriminate]. injection E as <-. constructor; auto.
  Qed.

  (** [l] is some of [l'] *)
  Definition some_of {A} (l l' : list A) : Prop := exists rest, Permutation l' (l ++ rest).
  Lemma some_trans {A} (a b c : list A) : some_of a b -> some_of b c -> some_of a c.
  Proof. intros [x X] [y Y]. exists (x ++ y). rewrite Y, X, app_assoc. reflexivity. Qed.
  Lemma some_filter {A} f (l : list A) : some_of (filter f l) l.
  Proof.
    exists (filter (fun x => negb (f x)) l). induction l as [|x l IH]; cbn; auto. destruct (f x); cbn; [apply perm_skip; auto|].
    rewrite IH at 1. apply Permutation_middle.
  Qed.
  Lemma some_suffix {A} (a b : list A) : some_of b (a ++ b).
  Proof. exists a. apply Permutation_app_comm. Qed.
  Lemma some_window {A} off lim (l : list A) : some_of (window off lim l) l.
  Proof.
    unfold window. assert (X : some_of (skipn (N.to_nat off) l) l).
    { rewrite <- (firstn_skipn (N.to_nat off) l) at 2. apply some_suffix. }
    destruct (lim =? 0)%N; auto. eapply some_trans; [|exact X]. exists (skipn (N.to_nat lim) (skipn (N.to_nat off) l)). rewrite firstn_skipn. reflexivity.
  Qed.

  Lemma answer_of q rows s a : ordered (q_less q) (keep (q_filter q) rows) s -> behind_opt sc (q_after q) s a -> some_of a rows.
  Proof.
    intros OR BH. assert (X : some_of s rows).
    { apply some_trans with (b := keep (q_filter q) rows).
      - unfold ordered in OR. destruct (q_less q); [destruct OR as [P _]; exists []; rewrite app_nil_r; symmetry; exact P|subst; exists []; rewrite app_nil_r; auto].
      - destruct (q_filter q); cbn [keep]; [apply some_filter|exists []; rewrite app_nil_r; auto]. }
    eapply some_trans; [|exact X]. destruct (q_after q) as [x|]; cbn [behind_opt] in BH; [|subst; exists []; rewrite app_nil_r; auto].
    inversion BH; subst; [exists []; rewrite app_nil_r; auto|].
    match goal with |- some_of ?y (?u ++ ?z :: ?y) => change (z :: y) with ([z] ++ y); rewrite app_assoc; apply some_suffix end.
  Qed.

  Lemma live_inter_rows last q fuel out :
    (forall x, In x (q :: q_inter q) -> isin (q_index x) /\ forall k, exact_selector tb (q_index x) (ms k) (q_sel x)) ->
    (forall x, In x (q_inter q) -> plain_part x) -> (q_offset q < 2 ^ 63)%N -> (q_limit q < 2 ^ 63)%N ->
    (q_after q = None \/ q_filter q <> None \/ q_less q <> None \/ q_offset q = 0%N /\ q_limit q = 0%N) ->
    (forall ls l, saw tb ms may 0 (q :: q_inter q) ls -> In l ls -> length l <= fuel) ->
    live_execute tb ev srt w sees last fuel q = Ok out ->
    NoDup (map (s_pk sc) out) /\ (forall r, In r out -> ms last (s_pk sc r) = Some r) /\
    (q_offset q = 0%N -> q_limit q = 0%N -> q_after q = None -> forall r, (forall k, ms k (s_pk sc r) = Some r) ->
     (In r out <-> (forall x, In x (q :: q_inter q) -> wants tb x r) /\ match q_filter q with Some f => f r = true | None => True end)).
  Proof.
    intros H PP HO HL AF FU RUN. destruct (live_inter last q H PP HO HL AF) as [ls [ks [SN [[SS CM] V]]]]. cbv zeta in V.
    assert (LEN : forall l, In l ls -> length l <= fuel) by (intros l Hl; apply (FU ls l SN Hl)).
    clear FU.
    set (wanted := if plain_rows q then window (q_offset q) (q_limit q) ks else ks) in *.
    assert (WS : some_of wanted ks) by (unfold wanted; destruct (plain_rows q); [apply some_window|exists []; rewrite app_nil_r; auto]).
    assert (ND : NoDup ks).
    { clear - SS. induction SS as [|x l S IH FA]; constructor; auto. intro I. rewrite Forall_forall in FA. apply FA in I. apply (blt_irrefl x I). }
    assert (NW : NoDup wanted).
    { destruct WS as [rest P]. eapply Permutation_NoDup in ND; [|exact P]. clear - ND. induction wanted as [|x l IH]; [constructor|].
      cbn in ND. inversion ND; subst. constructor; auto. intro I. apply H1. apply in_or_app; auto. }
    destruct (rows_at (ms last) wanted) as [rows|] eqn:ER; [|rewrite (V fuel LEN) in RUN; discriminate].
    apply rows_at_in in ER. destruct V as [s [a [OR [BH V]]]]. rewrite (V fuel LEN) in RUN. injection RUN as <-.
    assert (KEY : forall k r, ms last k = Some r -> s_pk sc r = k) by (intros k r E; apply (rep_rows _ _ _ (cons_rep _ _ _ _ (CO last)) _ _ E)).
    assert (EM : map (s_pk sc) rows = wanted).
    { clear - ER KEY. induction ER as [|k1 r1 ks1 rs1 H F2 IH]; cbn [map]; [reflexivity|]. rewrite IH, (KEY _ _ H). reflexivity. }
    assert (ST : forall r, In r rows -> ms last (s_pk sc r) = Some r).
    { clear - ER KEY. induction ER as [|k1 r1 ks1 rs1 H F2 IH]; [easy|]. intros x [<-|Hx]; auto. rewrite (KEY _ _ H). exact H. }
    assert (SO : some_of (if plain_rows q then a else window (q_offset q) (q_limit q) a) rows).
    { eapply some_trans; [|eapply answer_of; eauto]. destruct (plain_rows q); [exists []; rewrite app_nil_r; auto|apply some_window]. }
    set (out := if plain_rows q then a else window (q_offset q) (q_limit q) a) in *. split; [|split].
    - rewrite <- EM in NW. destruct SO as [rest P]. apply (Permutation_map (s_pk sc)) in P. eapply Permutation_NoDup in NW; [|exact P].
      rewrite map_app in NW. clear - NW. induction (map (s_pk sc) out) as [|x l IH]; [constructor|].
      cbn in NW. inversion NW; subst. constructor; auto. intro I. apply H1. apply in_or_app; auto.
    - intros r Hr. apply ST. destruct SO as [rest P]. eapply Permutation_in; [symmetry; exact P|]. apply in_or_app; auto.
    - intros O0 L0 A0 r U.
      assert (W1 : wanted = ks) by (unfold wanted; rewrite O0, L0; destruct (plain_rows q); reflexivity).
      assert (O1 : out = a) by (unfold out; rewrite O0, L0; destruct (plain_rows q); reflexivity). rewrite O1.
      assert (A1 : a = s) by (rewrite A0 in BH; exact BH). rewrite A1.
      assert (IS : In r s <-> In r (keep (q_filter q) rows)).
      { unfold ordered in OR. destruct (q_less q); [|subst s; tauto]. destruct OR as [P _]. split; apply Permutation_in; [exact P|symmetry; exact P]. }
      rewrite IS. assert (IK : In r (keep (q_filter q) rows) <-> In r rows /\ match q_filter q with Some f => f r = true | None => True end).
      { destruct (q_filter q); cbn [keep]; [apply filter_In|tauto]. }
      rewrite IK. assert (IR : In r rows <-> In (s_pk sc r) ks).
      { rewrite <- W1. split.
        - intro I. rewrite <- EM. apply in_map; auto.
        - intro I. rewrite <- EM in I. apply in_map_iff in I as [r' [E I]]. pose proof (ST r' I) as S'. rewrite E, U in S'. congruence. }
      rewrite IR, CM, (seen_untouched _ _ _ r SN U). reflexivity.
  Qed.
End P.
