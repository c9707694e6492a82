(** Scans while the table changes: C65. *)

From Coq Require Import List NArith Lia Bool Arith Sorting.Sorted Sorting.Permutation.
From Verif.Model Require Import Bytes Go Keys Pebble Index Table Scan LiveScan.
From Verif.Spec Require Import KeySpec StoreSpec TableSpec ScanSpec LiveScanSpec.
From Verif.Proofs Require Import BytesFacts KeysFacts PebbleFacts TableFacts WriteFacts ReadFacts IterFacts ScanFacts ScanRows ScanProps ScanTop QueryProps PagingFacts LiveIter.
Import ListNotations.

(** ** Nothing moves *)

Lemma iter_by_index {T F} (tb : table T F) db idx sel : iter_by tb (db_iter db None) idx sel = index_iter tb db NoBatch idx sel.
Proof. destruct sel; reflexivity. Qed.

Section Still.
  Context {T F : Type}.
  Variable tb : table T F.
  Variable ev : env T.
  Variable lk : look F.
  Variable sees : nat -> bytes -> bytes -> nat.
  Variable gets : nat -> nat.
  Variable rv : bool.
  Notation open := (db_iter (lk_db lk) None).

  Lemma still_made j : made_at (fun _ => lk) sees j = open.
  Proof. reflexivity. Qed.

  Lemma still_collect : forall n j st, exists j', live_collect rv (fun _ => lk) sees n j st = (fst (collect open rv n st), j', snd (collect open rv n st)).
  Proof.
    induction n as [|n IH]; intros j st; cbn [live_collect collect].
    - destruct (bi_valid _); [|eauto]. destruct (to_data_key_bytes _ _); eauto.
    - destruct (bi_valid _); [|eauto]. destruct (to_data_key_bytes _ _); eauto. destruct n; [eauto|]. rewrite still_made. apply IH.
  Qed.

  Lemma still_prefetch st j : exists j', live_prefetch tb ev rv (fun _ => lk) sees lk (st, j) =
    ((fst (prefetch_and_get tb ev open rv (lk_db lk) (lk_fl lk) None st), j'), snd (prefetch_and_get tb ev open rv (lk_db lk) (lk_fl lk) None st)).
  Proof.
    unfold live_prefetch, prefetch_and_get. destruct (still_collect (t_prefetch tb - length (ss_keys st)) j st) as [j' ->].
    destruct (collect _ _ _ _) as [st1 r]. cbn [fst snd]. exists j'. destruct r; auto. destruct (get_into _ _ _ _ _ _); auto;
    try (destruct (get_prefetched _ _)); auto.
  Qed.

  Lemma still_run {W} (p : prog (T:=T) W) : forall st j, exists j', run_prog (live_prefetch tb ev rv (fun _ => lk) sees lk) p (st, j) =
    ((fst (run_prog (prefetch_and_get tb ev open rv (lk_db lk) (lk_fl lk) None) p st), j'),
     snd (run_prog (prefetch_and_get tb ev open rv (lk_db lk) (lk_fl lk) None) p st)).
  Proof.
    induction p as [s c e|k IH]; intros st j; cbn [run_prog]; [eauto|].
    destruct (still_prefetch st j) as [j' ->]. destruct (prefetch_and_get _ _ _ _ _ _ _ _) as [st1 v]. cbn [fst snd].
    destruct v; eauto; apply IH.
  Qed.

  Lemma live_loop_still {W} (f : W -> bytes -> prog (T:=T) W) : forall fuel n j it s,
    live_loop tb ev f rv (fun _ => lk) sees gets fuel n j it s =
    secondary_loop tb ev f open rv (lk_db lk) (lk_fl lk) None fuel n it s.
  Proof.
    induction fuel as [|fuel IH]; intros n j it s; cbn [live_loop secondary_loop]; auto.
    destruct (bi_valid it); auto. destruct (e_ctx ev n); auto. destruct (still_run (f s (bi_key it)) (Sst it [] [] [] 0) j) as [j' ->].
    destruct (run_prog _ _ _) as [st1 r]. cbn [fst snd]. destruct r as [[[s1 c] oe]|e| |]; auto. destruct c, oe; auto.
    destruct (prefetched_loop _ _ _ _ _) as [out|[st2 s2]]; auto.
  Qed.

  Lemma live_primary_still {W} (f : W -> bytes -> prog (T:=T) W) : forall fuel n it s,
    live_primary tb ev f rv (fun _ => lk) sees fuel n it s = primary_loop tb ev f open rv fuel n it s.
  Proof.
    reflexivity.
  Qed.

  Lemma live_for_each_still {W} (f : W -> bytes -> prog (T:=T) W) fuel idx sel s :
    live_scan_for_each tb ev f rv (fun _ => lk) sees gets fuel idx sel s =
    scan_index_for_each tb ev fuel (lk_db lk) (lk_fl lk) idx sel f rv NoBatch s.
  Proof.
    unfold live_scan_for_each, scan_index_for_each. rewrite still_made, iter_by_index. cbn [batch_of].
    destruct (index_iter _ _ _ _ _); auto. rewrite live_loop_still, live_primary_still. reflexivity.
  Qed.
End Still.

Lemma live_still {T F} (tb : table T F) ev lk sees gets fuel idx sel acc rv :
  live_scan tb ev (fun _ => lk) sees gets fuel idx sel acc rv = scan_index tb ev fuel (lk_db lk) (lk_fl lk) idx sel acc rv NoBatch.
Proof. unfold live_scan, scan_index. apply live_for_each_still. Qed.

Section P.
  Context {T F : Type}.
  Variable tb : table T F.
  Hypothesis G : good_table tb.
  Variable ev : env T.
  Hypothesis EV : env_ok ev.
  Hypothesis QT : quiet ev.
  Notation sc := (schema_of tb).
  Let LAW := good_lawful _ G.

  (** ** The rows fetched *)
  Section Fetch.
  Variables (at_get : nat -> look F) (ms : nat -> tmap T).
  Hypothesis CO : forall n, consistent tb (lk_db (at_get n)) (lk_fl (at_get n)) (ms n).

  Notation gk n ks := (get_keys tb ev (lk_db (at_get n)) (lk_fl (at_get n)) None ks true).

  Lemma now_get n l : match now sc (ms n) l with
    | Some blk => exists vs, gk n (map (data_key tb) l) = Ok vs /\ Forall2 (fun v r => t_deser tb v (t_nil tb) = Some r) vs blk /\ length blk = length l
    | None => gk n (map (data_key tb) l) = Err ENotFound
    end.
  Proof.
    pose proof (cons_ok _ _ _ _ (CO n)) as K. pose proof (cons_rep _ _ _ _ (CO n)) as R. pose proof (cons_covers _ _ _ _ (CO n)) as C.
    rewrite (get_keys_err_eq (tb:=tb) (ev:=ev) (LAW:=LAW) (EV:=EV) (lk_db (at_get n)) (lk_fl (at_get n)) None l K C I). cbn [view].
    set (st := lk_db (at_get n)) in *.
    assert (X : forall r, match ms n (s_pk sc r) with
       | Some x => exists v, kv_get st (data_key tb r) = Some v /\ t_deser tb v (t_nil tb) = Some x | None => kv_get st (data_key tb r) = None end).
    { intro r. destruct (ms n (s_pk sc r)) as [x|] eqn:E.
      - destruct (rep_some (LAW:=LAW) _ _ _ _ R E) as [v [E1 E2]]. exists v. split; [exact E2|]. apply (good_ser _ G _ _ (t_nil tb) E1).
      - apply (rep_none (LAW:=LAW) _ _ _ R) in E. exact E. }
    induction l as [|r l IH]; cbn [now forallb map].
    - exists []. repeat constructor.
    - specialize (X r). destruct (ms n (s_pk sc r)) as [x|].
      + destruct X as [v [X1 X2]]. rewrite X1. cbn [andb]. destruct (now sc (ms n) l) as [blk|].
        * destruct IH as [vs [E1 [E2 E3]]]. destruct (forallb _ l); [|discriminate].
          exists (v :: vs). split; [|split; [constructor; auto|cbn; auto]]. unfold value_at at 1. rewrite X1. congruence.
        * destruct (forallb _ l); [discriminate|reflexivity].
      + rewrite X. reflexivity.
  Qed.

  Lemma fetched_unique p n l o1 : fetched sc p ms n l o1 -> forall o2, fetched sc p ms n l o2 -> o2 = o1.
  Proof.
    induction 1 as [n|n l blk out0 ok0 NE NW FT IH|n l NE NW]; intros o2 FT'; inversion FT'; subst; try easy; try congruence.
    match goal with H : fetched _ _ _ _ _ _ |- _ => apply IH in H end. congruence.
  Qed.

  (** what was fetched, row by row *)
  Lemma fetched_rows n l out ok : fetched sc (t_prefetch tb) ms n l (out, ok) ->
    exists l', (exists tail, l = l' ++ tail /\ (ok = true -> tail = [])) /\
    Forall2 (fun r x => exists i, ms i (s_pk sc r) = Some x) l' out.
  Proof.
    intro FT. remember (out, ok) as o. revert out ok Heqo. induction FT as [n|n l blk out0 ok0 NE NW FT IH|n l NE NW]; intros out ok EO; injection EO as <- <-.
    - exists []. split; [exists []; auto|constructor].
    - destruct (IH _ _ eq_refl) as [l' [[tail [E1 E2]] F2]]. exists (firstn (t_prefetch tb) l ++ l'). split.
      + exists tail. split; auto. rewrite <- app_assoc, <- E1. symmetry. apply firstn_skipn.
      + apply Forall2_app; auto. clear - NW. revert blk NW. generalize (firstn (t_prefetch tb) l) as b. induction b as [|r b IH]; intros blk NW; cbn [now] in NW.
        * injection NW as <-. constructor.
        * destruct (ms n (s_pk sc r)) as [x|] eqn:E; [|discriminate]. destruct (now sc (ms n) b); [|discriminate]. injection NW as <-. constructor; eauto.
    - exists []. split; [exists l; split; auto; easy|constructor].
  Qed.

  End Fetch.

  (** ** The entries seen *)
  Variable w : nat -> look F.
  Variable ms : nat -> tmap T.
  Hypothesis CO : forall k, consistent tb (lk_db (w k)) (lk_fl (w k)) (ms k).
  Notation isin idx := (In idx (primary_index :: t_indexes tb)).
  Notation DB k := (lk_db (w k)).
  Notation sels idx sel := (selections sc (sindex_of idx) (Byte.eqb (ix_id idx) x00) sel).
  Notation hold idx k := (holds tb idx (DB k) NoBatch (ms k)).

  Lemma all_bounds idx sel : isin idx -> (forall k, exact_selector tb idx (ms k) sel) ->
    exists os, os <> [] /\ (forall k, Forall2 (hold idx k) os (sels idx sel)) /\
      forall open, (exists lo hi, os = [(lo, hi)] /\ iter_by tb open idx sel = Ok (BOne (open lo hi))) \/
                   (exists p, iter_by tb open idx sel = Ok (BMulti os 0 p)).
  Proof.
    intros HI EX.
    assert (PRE : forall k, kv_ok (DB k) /\ Rep sc (view (DB k) (batch_of NoBatch)) (ms k))
      by (intro k; split; [apply (cons_ok _ _ _ _ (CO k))|apply (cons_rep _ _ _ _ (CO k))]).
    unfold exact_selector in EX. destruct sel as [p|ps|lo hi|rs|]; cbn [exact_sel selections] in *.
    - assert (X : forall k, exists o, point_bounds tb idx false p = Ok o /\ hold idx k o (from_point sc (sindex_of idx) p)).
      { intro k. destruct (PRE k) as [KV R]. exact (point_holds tb LAW idx HI (DB k) NoBatch (ms k) KV R p (EX k)). }
      destruct (X 0) as [[lo hi] [E _]]. exists [(lo, hi)]. split; [easy|]. split.
      + intro k. destruct (X k) as [o [E' H]]. rewrite E in E'. injection E' as <-. repeat (constructor; auto).
      + intro open. left. exists lo, hi. split; auto. cbn [iter_by]. rewrite E. reflexivity.
    - assert (X : forall k, exists os, points_bounds tb idx (Byte.eqb (ix_id idx) x00) ps = Ok os /\
         Forall2 (hold idx k) os (map (if Byte.eqb (ix_id idx) x00 then at_point sc else from_point sc (sindex_of idx)) ps)).
      { intro k. destruct (PRE k) as [KV R]. apply (points_holds tb LAW idx HI (DB k) NoBatch (ms k) KV R ps). apply (EX k). }
      destruct (X 0) as [os [E F0]]. exists os. split; [|split].
      + destruct (EX 0) as [NE _]. intros ->. inversion F0 as [Y|]. destruct ps; easy.
      + intro k. destruct (X k) as [os' [E' H]]. rewrite E in E'. injection E' as <-. exact H.
      + intro open. right. cbn [iter_by]. unfold primary_index_id. rewrite E. destruct os as [|[lo hi] os].
        * destruct (EX 0) as [NE _]. inversion F0 as [Y|]. destruct ps; easy.
        * cbn [new_multi]. eauto.
    - assert (X : forall k, hold idx k (range_bounds tb idx lo hi) (in_between sc (sindex_of idx) lo hi)).
      { intro k. destruct (PRE k) as [KV R]. destruct (EX k) as [E1 E2].
        exact (range_holds tb LAW idx HI (DB k) NoBatch (ms k) KV R lo hi E1 E2). }
      destruct (range_bounds tb idx lo hi) as [a b] eqn:E. exists [(a, b)]. split; [easy|]. split.
      + intro k. repeat (constructor; auto).
      + intro open. left. exists a, b. split; auto. cbn [iter_by]. rewrite E. reflexivity.
    - assert (X : forall k, exists os, ranges_bounds tb idx rs = Ok os /\ Forall2 (hold idx k) os
         (map (fun r => match r with [lo; hi] => in_between sc (sindex_of idx) lo hi | _ => fun _ => False end) rs)).
      { intro k. destruct (PRE k) as [KV R]. apply (ranges_holds tb LAW idx HI (DB k) NoBatch (ms k) KV R rs). apply (EX k). }
      destruct (X 0) as [os [E F0]]. exists os. split; [|split].
      + destruct (EX 0) as [NE _]. intros ->. inversion F0 as [Y|]. destruct rs; easy.
      + intro k. destruct (X k) as [os' [E' H]]. rewrite E in E'. injection E' as <-. exact H.
      + intro open. right. cbn [iter_by]. rewrite E. destruct os as [|[lo hi] os].
        * destruct (EX 0) as [NE _]. inversion F0 as [Y|]. destruct rs; easy.
        * cbn [new_multi]. eauto.
    - destruct (EX 0).
  Qed.

  Notation en idx r := (entry_key sc (sindex_of idx) r, val_of tb idx r).

  Lemma once_listed (made : (bytes -> bytes -> piter) -> Prop) can idx os cs Ps : (forall open, made open -> forall lo hi, exists k, can k /\ open lo hi = db_iter (DB k) None lo hi) ->
    (forall k, Forall2 (hold idx k) os Ps) -> Forall2 (once made) os cs ->
    exists ks l, Forall can ks /\ listed tb ms (sindex_of idx) ks Ps l /\ concat cs = map (fun r => en idx r) l /\
      forall r, In r l -> exists k, ms k (s_pk sc r) = Some r.
  Proof.
    intros MK H F2. revert Ps H. induction F2 as [|o c os cs [open [M HC]] F2 IH]; intros Ps H.
    - specialize (H 0). inversion H; subst. exists [], []. repeat constructor. easy.
    - destruct Ps as [|P Ps]; [specialize (H 0); inversion H|].
      destruct (IH Ps) as [ks [l [A1 [A2 [A3 A4]]]]]; [intro k; specialize (H k); inversion H; auto|].
      destruct (MK open M (fst o) (snd o)) as [k [CK EO]].
      specialize (H k). inversion H as [|? ? ? ? [l0 [B1 B2]] _]; subst.
      exists (k :: ks), (l0 ++ l). split; [constructor; auto|].
      split; [constructor; auto|]. split.
      + cbn [concat]. rewrite A3, map_app. f_equal. unfold items at 1. rewrite EO. exact B1.
      + intros r Hr. apply in_app_iff in Hr as [Hr|Hr]; auto. exists k. destruct B2 as [_ B2]. apply B2 in Hr. tauto.
  Qed.

  Lemma listed_untouched ix ks Ps l r : listed tb ms ix ks Ps l -> (forall k, ms k (s_pk sc r) = Some r) ->
    ((exists x, In x l /\ s_pk sc x = s_pk sc r) <-> si_filter ix r = true /\ exists P, In P Ps /\ P r).
  Proof.
    intros L U. induction L as [|k ks P Ps l ls HL L IH].
    - split; [intros [x [[] _]]|intros [_ [P [[] _]]]].
    - destruct HL as [_ HL]. split.
      + intros [x [Hx E]]. apply in_app_iff in Hx as [Hx|Hx].
        * apply HL in Hx as [A [B C]]. rewrite E, U in A. injection A as <-. split; auto. exists P. split; [left|]; auto.
        * destruct (proj1 IH) as [A [P' [B C]]]; [eauto|]. split; auto. exists P'. split; [right|]; auto.
      + intros [A [P' [[<-|B] C]]].
        * exists r. split; auto. apply in_or_app. left. apply HL. auto.
        * destruct (proj2 IH) as [x [Hx E]]; [eauto|]. exists x. split; auto. apply in_or_app. auto.
  Qed.

  (** ** The loops *)
  Variable sees : nat -> bytes -> bytes -> nat.
  Variable gets : nat -> nat.
  Variable rv : bool.
  Notation op := (made_at w sees).

  Lemma collect_flows dk : forall n it ks iks vs vi j L, 0 < n -> flows rv op j it L ->
    (forall e, In e L -> to_data_key_bytes (fst e) [] = Ok (dk e)) ->
    exists it' j', live_collect rv w sees n j (Sst it ks iks vs vi) =
      (Sst it' (ks ++ map dk (firstn n L)) (iks ++ map fst (firstn n L)) vs vi, j', Ok tt) /\
      flows rv op (S j') (scan_next (op j') rv it') (skipn n L).
  Proof.
    induction n as [|n IH]; intros it ks iks vs vi j L LT D TD; [lia|]. destruct L as [|e L].
    - inversion D as [? ? N ST|]; subst. exists it, j. cbn [firstn map skipn]. rewrite !app_nil_r.
      split; [cbn [live_collect ss_it]; rewrite N; reflexivity|]. rewrite ST. constructor; auto.
    - inversion D as [|? ? ? ? V EK EV' D']; subst. cbn [live_collect ss_it]. rewrite V, EK, (TD e (or_introl eq_refl)).
      cbn [firstn map skipn ss_keys ss_ikeys ss_vals ss_vi ss_it]. destruct n as [|n].
      + exists it, j. cbn [firstn map skipn]. auto.
      + destruct (IH (scan_next (op j) rv it) (ks ++ [dk e]) (iks ++ [fst e]) vs vi (S j) L) as [it' [j' [C D2]]]; auto; [lia|intros; apply TD; right; auto|].
        exists it', j'. rewrite C, <- !app_assoc. auto.
  Qed.

    Lemma fetched_total p : 0 < p -> forall m n l, length l <= m -> exists out ok, fetched sc p (fun n => ms (gets n)) n l (out, ok).
    Proof.
      intro P. induction m as [|m IH]; intros n l LE; (destruct l as [|r l]; [exists [], true; constructor|]); [cbn in LE; lia|].
      destruct (now sc (ms (gets n)) (firstn p (r :: l))) as [blk|] eqn:E.
      - destruct (IH (S n) (skipn p (r :: l))) as [out [ok H]].
        { destruct p; [lia|]. cbn [skipn]. pose proof (skipn_length p l). cbn in LE. lia. }
        exists (blk ++ out), ok. apply ft_block; auto. easy.
      - exists [], false. apply ft_lost; auto. easy.
    Qed.

    Lemma fetched_length p n l out ok : fetched sc p (fun n => ms (gets n)) n l (out, ok) -> length out <= length l.
    Proof.
      intro FT. remember (out, ok) as o. revert out ok Heqo. induction FT as [n|n l blk out0 ok0 NE NW FT IH|n l NE NW]; intros out ok EO; injection EO as <- <-; cbn; try lia.
      specialize (IH _ _ eq_refl). rewrite app_length. rewrite skipn_length in IH.
      assert (X : forall l blk, now sc (ms (gets n)) l = Some blk -> length blk = length l).
      { clear. induction l as [|r l IH]; cbn [now]; intros blk E; [injection E as <-; auto|]. destruct (ms (gets n) (s_pk sc r)); [|discriminate].
        destruct (now sc (ms (gets n)) l); [|discriminate]. injection E as <-. cbn. f_equal. auto. }
      apply X in NW. rewrite firstn_length in NW. lia.
    Qed.

  Section Load.
    Context {W : Type}.
    Variable f : W -> bytes -> prog (T:=T) W.
    Variable L : W -> Prop.
    Hypothesis LOAD : forall s k, L s -> one_get (f s k) L.
    Hypothesis GIVES : forall s k e, L s -> exists g c, f s k = PGet g /\ g (Err e) = PRet s c (Some e).

    (** what comes out when the callback loads every row from now on *)
    Definition outcome (keys : list bytes) (out : list T) (ok : bool) (s : W) : W * res unit :=
      match visit_go f (combine keys out) s with inl o => o | inr s' => (s', if ok then Ok tt else Err ENotFound) end.

    Variable idx : index T.
    Notation ix := (sindex_of idx).
    Notation K r := (entry_key sc ix r).

    Lemma primary_flows : Byte.eqb (ix_id idx) primary_index_id = true -> forall l it fuel n s, (forall r, In r l -> exists k, ms k (s_pk sc r) = Some r) ->
      flows rv op (S n) it (map (fun r => en idx r) l) -> length l <= fuel ->
      live_primary tb ev f rv w sees fuel n it s = visit f (combine (map (fun r => K r) l) l) s.
    Proof.
      intros EI. induction l as [|r l IH]; intros it fuel n s ST D LE.
      - inversion D as [? ? N _|]; subst. destruct fuel; cbn [live_primary]; rewrite N; reflexivity.
      - inversion D as [|? ? ? ? V EK EV' D']; subst. destruct fuel as [|fuel]; [cbn in LE; lia|]. cbn [live_primary]. rewrite V, (proj1 QT).
        assert (RP : run_prog (get_value_of tb) (f s (bi_key it)) it = (it, Ok (answer (Ok r) (f s (bi_key it))))).
        { apply run_prog_answer; try easy. unfold get_value_of. rewrite EV'. cbn [snd]. unfold val_of, prim. rewrite EI.
          destruct (ST r (or_introl eq_refl)) as [k Hk]. destruct (rep_some (LAW:=LAW) _ _ _ _ (cons_rep _ _ _ _ (CO k)) Hk) as [v [E1 E2]].
          rewrite E1. rewrite (good_ser _ G _ _ (t_nil tb) E1). reflexivity. }
        rewrite RP, EK. cbn [map combine fst]. unfold visit. cbn [visit_go].
        destruct (answer (Ok r) (f s (K r))) as [[s' c] oe] eqn:EA. cbn [fst].
        replace (answer (Ok r) (f s (K r))) with (s', c, oe) by (symmetry; exact EA).
        destruct c, oe as [x|]; auto. apply (IH _ fuel (S n) s'); auto; [intros; apply ST; right; auto|cbn in LE; lia].
    Qed.

    Hypothesis HI : In idx (t_indexes tb).
    Hypothesis PRE : 0 < t_prefetch tb.

    Lemma stored_dk r : (exists k, ms k (s_pk sc r) = Some r) -> to_data_key_bytes (fst (en idx r)) [] = Ok (data_key tb r).
    Proof.
      intros [k Hk]. pose proof (stored_fits tb LAW idx (or_intror HI) _ _ r (cons_rep _ _ _ _ (CO k)) Hk) as [F1 F2].
      cbn [fst]. rewrite (data_key_eq tb LAW).
      apply (to_data_key_bytes_layout (t_id tb) (ix_id idx) (si_key ix r) (si_ord ix r) (s_pk sc r) [] F1 F2).
    Qed.

    Lemma load_flows : forall m l it fuel n j s, length l <= m -> L s -> (forall r, In r l -> exists k, ms k (s_pk sc r) = Some r) ->
      flows rv op j it (map (fun r => en idx r) l) -> length l <= fuel ->
      forall out ok, fetched sc (t_prefetch tb) (fun n => ms (gets n)) n l (out, ok) ->
      live_loop tb ev f rv w sees gets fuel n j it s = outcome (map (fun r => K r) l) out ok s.
    Proof.
      induction m as [|m IH]; intros l it fuel n j s LK HL ST D LE out ok FT; (destruct l as [|r l];
       [inversion D as [? ? N _|]; subst; inversion FT; subst; try easy; destruct fuel; cbn [live_loop]; rewrite N; reflexivity|]); [cbn in LK; lia|].
      destruct fuel as [|fuel]; [cbn in LE; lia|].
      set (p0 := t_prefetch tb) in *.
      set (dk := fun e : entry => match to_data_key_bytes (fst e) [] with Ok k => k | _ => [] end).
      assert (DK : forall x, In x (r :: l) -> to_data_key_bytes (fst (en idx x)) [] = Ok (data_key tb x)) by (intros; apply stored_dk; auto).
      destruct (collect_flows dk (p0 - length (@nil bytes)) it [] [] [] 0 j (map (fun r => en idx r) (r :: l))) as [it' [j' [C D2]]]; auto.
      { cbn. lia. }
      { intros e He. apply in_map_iff in He as [x [<- Hx]]. unfold dk. rewrite DK by auto. reflexivity. }
      cbn [length] in C, D2. rewrite Nat.sub_0_r in *. cbn [app] in C. rewrite firstn_map in C. rewrite skipn_map in D2.
      set (blk0 := firstn p0 (r :: l)) in *. set (rest := skipn p0 (r :: l)) in *.
      assert (EL : r :: l = blk0 ++ rest) by (symmetry; apply firstn_skipn).
      assert (MK : map dk (map (fun r => en idx r) blk0) = map (data_key tb) blk0).
      { rewrite map_map. apply map_ext_in. intros x Hx. unfold dk. rewrite DK; auto. rewrite EL. apply in_or_app; auto. }
      rewrite MK in C.
      assert (GI : get_into tb ev (DB (gets n)) (lk_fl (w (gets n))) None (map (data_key tb) blk0) = get_keys tb ev (DB (gets n)) (lk_fl (w (gets n))) None (map (data_key tb) blk0) true).
      { unfold get_into. rewrite map_length. replace (length blk0 <=? t_prefetch tb) with true; auto.
        symmetry. apply Nat.leb_le. unfold blk0. rewrite firstn_length. fold p0. lia. }
      pose proof (now_get (fun n => w (gets n)) (fun n => ms (gets n)) (fun n => CO (gets n)) n blk0) as NG. cbn beta in NG.
      inversion D as [|? ? ? ? V EK _ _]; subst.
      cbn [live_loop]. rewrite V, (proj1 QT). rewrite EK. cbn [fst].
      destruct (LOAD s (K r) HL) as [k0 [EF H0]].
      assert (EB : exists blk', blk0 = r :: blk'). { unfold blk0. destruct p0 as [|p1]; [lia|]. cbn. eauto. }
      destruct EB as [blk' EB].
      assert (LB : length blk' <= length l /\ length rest <= length l).
      { apply (f_equal (@length T)) in EL. rewrite app_length, EB in EL. cbn in EL. lia. }
      inversion FT as [|? ? blk out0 ok0 NE NW FT'|? ? NE NW]; subst.
      - (* the block is there *)
        change (firstn p0 (r :: l)) with blk0 in NW. change (skipn p0 (r :: l)) with rest in FT'. rewrite NW in NG.
        destruct NG as [vs [E1 [E2 E3]]].
        destruct blk as [|x blk]; [rewrite EB in E3; discriminate|].
        inversion E2 as [|v ? vs' ? DX E2']; subst.
        assert (GP : live_prefetch tb ev rv w sees (w (gets n)) (Sst it [] [] [] 0, j) =
          ((Sst it' (left_sorted ev (map (data_key tb) blk0)) (map fst (map (fun r => en idx r) blk0)) (v :: vs') 1, j'), Ok x)).
        { unfold live_prefetch. cbn [ss_keys length]. rewrite Nat.sub_0_r. fold p0. rewrite C. cbn [ss_keys ss_ikeys ss_it ss_vi].
          rewrite GI, E1. unfold get_prefetched. cbn [ss_vals ss_vi nth_error]. rewrite DX. reflexivity. }
        destruct (run_one_get (live_prefetch tb ev rv w sees (w (gets n))) _ _ _ _ _ (LOAD s (K r) HL) GP) as [RP HQ]. rewrite RP.
        unfold outcome. cbn [map combine visit_go app].
        destruct (answer (Ok x) (f s (K r))) as [[s1 c] oe] eqn:EA.
        destruct c, oe as [y|]; auto.
        set (KS := map fst (map (fun r => en idx r) blk')).
        pose proof (prefetched_spec tb f L LOAD KS [fst (en idx r)] it' (left_sorted ev (map (data_key tb) blk0)) s1 fuel (x :: blk) (v :: vs') (HQ s1 eq_refl)) as PS.
        cbn [length skipn app] in PS.
        assert (LV : length vs' = length blk /\ length blk = length blk').
        { split; [clear - E2'; induction E2'; cbn; auto|]. rewrite EB in E3. cbn in E3. lia. }
        assert (LKS : length KS = length blk') by (unfold KS; rewrite !map_length; reflexivity).
        replace (map fst (map (fun r => en idx r) blk0)) with (fst (en idx r) :: KS) by (rewrite EB; reflexivity).
        rewrite PS; clear PS.
        2:{ left. rewrite combine_length. cbn in LE. lia. }
        2:{ constructor; auto. }
        2:{ cbn. lia. }
        assert (SPLIT : combine (map (fun r => K r) l) (blk ++ out0) = combine KS blk ++ combine (map (fun r => K r) rest) out0).
        { assert (X : map (fun r => K r) l = KS ++ map (fun r => K r) rest).
          { assert (EL' : l = blk' ++ rest) by (rewrite EB in EL; cbn [app] in EL; congruence).
            transitivity (map (fun r => K r) (blk' ++ rest)); [f_equal; exact EL'|]. rewrite map_app. f_equal. unfold KS. rewrite map_map. reflexivity. }
          rewrite X. assert (Y : length KS = length blk) by lia. clear - Y. revert blk Y. induction KS as [|k ks IH]; intros [|b blk] Y; try discriminate; cbn; auto.
          f_equal. apply IH. cbn in Y. lia. }
        rewrite SPLIT, visit_go_app.
        destruct (visit_go f (combine KS blk) s1) as [o|s2] eqn:EV2; auto. cbn [ss_it].
        change (match visit_go f (combine (map (fun r => K r) rest) out0) s2 with inl o => o | inr s' => (s', if ok then Ok tt else Err ENotFound) end)
          with (outcome (map (fun r => K r) rest) out0 ok s2).
        apply (IH rest _ fuel (S n) (S j') s2); auto.
        + cbn in LK. lia.
        + eapply visit_go_L; [exact LOAD|apply (HQ s1 eq_refl)|exact EV2].
        + intros y Hy. apply ST. rewrite EL. apply in_or_app; auto.
        + cbn in LE. lia.
      - (* a row is gone *)
        change (firstn p0 (r :: l)) with blk0 in NW. rewrite NW in NG.
        assert (GP : live_prefetch tb ev rv w sees (w (gets n)) (Sst it [] [] [] 0, j) =
          ((Sst it' (left_sorted ev (map (data_key tb) blk0)) (map fst (map (fun r => en idx r) blk0)) [] 0, j'), Err ENotFound)).
        { unfold live_prefetch. cbn [ss_keys length]. rewrite Nat.sub_0_r. fold p0. rewrite C. cbn [ss_keys ss_ikeys ss_it ss_vi].
          rewrite GI, NG. reflexivity. }
        destruct (GIVES s (K r) ENotFound HL) as [g [c [EG AN]]]. rewrite EG. cbn [run_prog]. rewrite GP, AN. cbn [run_prog].
        unfold outcome. cbn [map combine visit_go]. destruct c; reflexivity.
    Qed.
  End Load.

  Definition seen_by (k : nat) : Prop := exists j lo hi, k = sees j lo hi.

  (** the iterator of a selector, and the rows it comes by *)
  Lemma start_seen idx sel : isin idx -> (forall k, exact_selector tb idx (ms k) sel) ->
    exists b, iter_by tb (op 0) idx sel = Ok b /\ exists ks l, Forall seen_by ks /\ (single sel -> exists lo hi, ks = [sees 0 lo hi]) /\
      listed tb ms (sindex_of idx) ks (sels idx sel) l /\ (forall r, In r l -> exists k, ms k (s_pk sc r) = Some r) /\
      flows rv op 1 (scan_first (op 0) rv b) (map (fun r => en idx r) (dir rv l)).
  Proof.
    intros HI EX. destruct (all_bounds _ _ HI EX) as [os [NE [H IB]]].
    assert (DIR : forall cs l, concat cs = map (fun r => en idx r) l -> (if rv then rev (concat cs) else concat cs) = map (fun r => en idx r) (dir rv l)).
    { intros cs l ->. destruct rv; cbn [dir]; rewrite ?map_rev; reflexivity. }
    destruct (IB (op 0)) as [[lo [hi [EO E]]]|[p E]].
    - exists (BOne (op 0 lo hi)). split; auto.
      assert (X : exists cs, Forall2 (once (eq (op 0))) os cs /\ flows rv op 1 (scan_first (op 0) rv (BOne (op 0 lo hi))) (if rv then rev (concat cs) else concat cs)).
      { rewrite EO. unfold scan_first. case_eq rv; intro RV; [apply (backward_one true op (eq (op 0)) eq_refl (op 0) lo hi 1 eq_refl)|
          apply (forward_one false op (eq (op 0)) eq_refl (op 0) lo hi 1 eq_refl)]. }
      destruct X as [cs [F2 FL]].
      assert (MK : forall open, op 0 = open -> forall lo hi, exists k, (exists lo hi, k = sees 0 lo hi) /\ open lo hi = db_iter (DB k) None lo hi).
      { intros open <- lo' hi'. exists (sees 0 lo' hi'). split; eauto. }
      destruct (once_listed (eq (op 0)) (fun k => exists lo hi, k = sees 0 lo hi) idx os cs _ MK H F2) as [ks [l [A1 [A2 [A3 ST]]]]].
      exists ks, l. split; [|split; [|split; [|split]]]; auto.
      + eapply Forall_impl; [|exact A1]. intros k [a [b ->]]. exists 0, a, b. auto.
      + intros _. assert (LK : length ks = 1).
        { assert (L1 : length (sels idx sel) = 1) by (specialize (H 0); rewrite EO in H; inversion H as [|? ? ? ? _ H']; inversion H'; reflexivity).
          rewrite <- L1. clear - A2. induction A2; cbn; auto. }
        destruct ks as [|k [|? ?]]; try discriminate. pose proof (Forall_inv A1) as [a [b ->]]. eauto.
      + rewrite <- (DIR cs l A3). exact FL.
    - exists (BMulti os 0 p). split; auto.
      destruct (start_flows rv op (fun o => exists j, o = op j) (fun j => ex_intro _ j eq_refl) (op 0) (BMulti os 0 p) os 1) as [cs [F2 FL]]; eauto.
      assert (MK : forall open, (exists j, open = op j) -> forall lo hi, exists k, seen_by k /\ open lo hi = db_iter (DB k) None lo hi).
      { intros open [j ->] lo' hi'. exists (sees j lo' hi'). split; auto. exists j, lo', hi'. auto. }
      destruct (once_listed (fun o => exists j, o = op j) seen_by idx os cs _ MK H F2) as [ks [l [A1 [A2 [A3 ST]]]]].
      exists ks, l. split; [|split; [|split; [|split]]]; auto.
      + intro SG. exfalso. destruct sel; try easy; cbn [iter_by] in E; unfold range_bounds in E; try discriminate.
        destruct (point_bounds _ _ _ _) as [[? ?]|? | |]; discriminate.
      + rewrite <- (DIR cs l A3). exact FL.
  Qed.

  Lemma not_primary idx : In idx (t_indexes tb) -> Byte.eqb (ix_id idx) primary_index_id = false.
  Proof.
    intro HI. pose proof (law_nonzero _ LAW _ HI) as NZ. destruct (Byte.eqb (ix_id idx) primary_index_id) eqn:X; auto. apply Byte.byte_dec_bl in X. easy.
  Qed.

  Notation gathered := (gathered tb ms gets).

  Lemma in_dir {A} (x : A) l : In x (dir rv l) <-> In x l.
  Proof. destruct rv; cbn [dir]; [symmetry; apply in_rev|tauto]. Qed.

  Lemma load_all {W} (f : W -> bytes -> prog (T:=T) W) (L : W -> Prop) (LOAD : forall s k, L s -> one_get (f s k) L)
      (GIVES : forall s k e, L s -> exists g c, f s k = PGet g /\ g (Err e) = PRet s c (Some e)) idx sel :
    isin idx -> (forall k, exact_selector tb idx (ms k) sel) -> 0 < t_prefetch tb ->
    exists ks l, Forall seen_by ks /\ (single sel -> exists lo hi, ks = [sees 0 lo hi]) /\
      listed tb ms (sindex_of idx) ks (sels idx sel) l /\ (forall r, In r l -> exists k, ms k (s_pk sc r) = Some r) /\
      exists out ok, gathered idx (dir rv l) out ok /\
      forall fuel s, L s -> length l <= fuel ->
        live_scan_for_each tb ev f rv w sees gets fuel idx sel s = outcome f (map (entry_key sc (sindex_of idx)) (dir rv l)) out ok s.
  Proof.
    intros HI EX PRE. destruct (start_seen idx sel HI EX) as [b [E [ks [l [A1 [A2 [A3 [ST FL]]]]]]]].
    exists ks, l. split; auto. split; auto. split; auto. split; auto.
    assert (ST' : forall r, In r (dir rv l) -> exists k, ms k (s_pk sc r) = Some r) by (intros r Hr; apply ST; apply in_dir; auto).
    assert (LD : length (dir rv l) = length l) by (destruct rv; cbn [dir]; rewrite ?rev_length; auto).
    unfold gathered. destruct HI as [<-|HI].
    - exists (dir rv l), true. split; [cbn; auto|]. intros fuel s HL LE. unfold live_scan_for_each. rewrite E. cbn [ix_id primary_index Byte.eqb primary_index_id].
      change (Byte.eqb (ix_id (@primary_index T)) primary_index_id) with true. cbv iota zeta.
      rewrite (primary_flows f primary_index eq_refl (dir rv l) _ fuel 0 s ST' FL) by lia. reflexivity.
    - change x00 with primary_index_id. rewrite (not_primary idx HI).
      destruct (fetched_total (t_prefetch tb) PRE (length (dir rv l)) 0 (dir rv l) (le_n _)) as [out [ok FT]].
      exists out, ok. split; auto. intros fuel s HL LE. unfold live_scan_for_each. rewrite E, (not_primary idx HI). cbv zeta.
      apply (load_flows f L LOAD GIVES idx HI PRE (length (dir rv l)) (dir rv l) _ fuel 0 1 s (le_n _) HL ST' FL); auto. lia.
  Qed.

  Lemma append_outcome keys : forall out ok acc, length out <= length keys ->
    outcome (append_cb (T:=T)) keys out ok acc = (acc ++ out, if ok then Ok tt else Err ENotFound).
  Proof.
    unfold outcome. induction keys as [|k keys IH]; intros [|r out] ok acc LE; try (cbn in LE; lia); cbn [combine visit_go append_cb answer]; rewrite ?app_nil_r; auto.
    rewrite IH by (cbn in LE; lia). rewrite <- app_assoc. reflexivity.
  Qed.

  Lemma gathered_length idx l out ok : gathered idx l out ok -> length out <= length l.
  Proof. unfold gathered. destruct (Byte.eqb _ _); [intros [-> _]; auto|apply fetched_length]. Qed.

  Lemma live_rows idx sel : isin idx -> (forall k, exact_selector tb idx (ms k) sel) -> 0 < t_prefetch tb ->
    exists ks l, Forall seen_by ks /\ (single sel -> exists lo hi, ks = [sees 0 lo hi]) /\ listed tb ms (sindex_of idx) ks (sels idx sel) l /\
    exists out ok, gathered idx (dir rv l) out ok /\
    forall fuel acc, length l <= fuel ->
      live_scan tb ev w sees gets fuel idx sel acc rv = (acc ++ out, if ok then Ok tt else Err ENotFound).
  Proof.
    intros HI EX PRE. destruct (load_all (append_cb (T:=T)) (fun _ => True)) with (idx := idx) (sel := sel) as [ks [l [A1 [A2 [A3 [ST [out [ok [GA RUN]]]]]]]]]; auto.
    { intros s k _. eexists. split; [reflexivity|]. intro r. exists (s ++ [r]), true, None. auto. }
    { intros s k e _. eexists _, false. split; reflexivity. }
    exists ks, l. split; auto. split; auto. split; auto. exists out, ok. split; auto. intros fuel acc LE.
    unfold live_scan. rewrite RUN by auto. apply append_outcome. rewrite map_length. eapply gathered_length; eauto.
  Qed.

  (** ** What follows *)
  Lemma gathered_rows idx l out ok : (forall r, In r l -> exists k, ms k (s_pk sc r) = Some r) -> gathered idx l out ok ->
    exists l', (exists tail, l = l' ++ tail /\ (ok = true -> tail = [])) /\
    Forall2 (fun r x => exists i, ms i (s_pk sc r) = Some x) l' out.
  Proof.
    unfold gathered. intros ST GA. destruct (Byte.eqb _ _).
    - destruct GA as [-> ->]. exists l. split; [exists []; rewrite app_nil_r; auto|]. clear - ST. induction l as [|r l IH]; constructor.
      + apply ST. left; auto. + apply IH. intros; apply ST; right; auto.
    - apply fetched_rows in GA. destruct GA as [l' [A B]]. exists l'. split; auto. clear - B.
      induction B as [|r x l' out [i H] B IH]; constructor; eauto.
  Qed.

  Lemma live_untouched idx sel out fuel : isin idx -> (forall k, exact_selector tb idx (ms k) sel) -> 0 < t_prefetch tb ->
    (forall ks l, listed tb ms (sindex_of idx) ks (sels idx sel) l -> length l <= fuel) ->
    live_scan tb ev w sees gets fuel idx sel [] rv = (out, Ok tt) ->
    (forall x, In x out -> exists k, ms k (s_pk sc x) = Some x) /\
    (forall r, (forall k, ms k (s_pk sc r) = Some r) -> (In r out <-> picks tb idx sel r)) /\
    (single sel -> NoDup (map (s_pk sc) out)).
  Proof.
    intros HI EX PRE FU RUN. destruct (live_rows idx sel HI EX PRE) as [ks [l [A1 [A2 [A3 [out' [ok [GA V]]]]]]]].
    rewrite (V fuel [] (FU ks l A3)) in RUN. cbn [app] in RUN. injection RUN as -> EO. destruct ok; [|discriminate].
    assert (ST : forall r, In r l -> exists k, ms k (s_pk sc r) = Some r).
    { clear - A3. induction A3 as [|k ks P Ps l ls [_ HL] L IH]; [easy|]. intros r Hr. apply in_app_iff in Hr as [Hr|Hr]; auto. apply HL in Hr. exists k. tauto. }
    assert (ST' : forall r, In r (dir rv l) -> exists k, ms k (s_pk sc r) = Some r) by (intros r Hr; apply ST; apply in_dir; auto).
    destruct (gathered_rows _ _ _ _ ST' GA) as [l' [[tail [E1 E2]] F2]]. rewrite (E2 eq_refl), app_nil_r in E1. subst l'.
    assert (KEY : forall k r x, ms k (s_pk sc r) = Some x -> s_pk sc x = s_pk sc r) by (intros k r x H; apply (rep_rows _ _ _ (cons_rep _ _ _ _ (CO k)) _ _ H)).
    split; [|split].
    - intros x Hx. clear - F2 Hx KEY. induction F2 as [|y z ys zs [i H] F2 IH]; [easy|]. destruct Hx as [->|Hx]; auto.
      exists i. rewrite (KEY _ _ _ H). exact H.
    - intros r UN. rewrite <- (listed_untouched _ _ _ _ r A3 UN). split.
      + intro Hr. assert (X : exists y, In y (dir rv l) /\ s_pk sc y = s_pk sc r).
        { clear - F2 Hr KEY. induction F2 as [|y z ys zs [i H] F2 IH]; [easy|]. destruct Hr as [->|Hr].
          - exists y. split; [left; auto|]. symmetry. apply (KEY _ _ _ H).
          - destruct (IH Hr) as [u [A B]]. exists u. split; [right|]; auto. }
        destruct X as [y [Hy Ey]]. exists y. split; auto. apply (proj1 (in_dir _ _)) in Hy. auto.
      + intros [x [Hx Ex]]. apply (proj2 (in_dir _ _)) in Hx. clear - F2 Hx Ex UN. induction F2 as [|y z ys zs [i H] F2 IH]; [easy|]. destruct Hx as [->|Hx]; [|right; auto].
        left. rewrite Ex, UN in H. congruence.
    - intro SG. destruct (A2 SG) as [lo [hi ->]]. set (k := sees 0 lo hi) in *.
      assert (EM : map (s_pk sc) out = map (s_pk sc) (dir rv l)).
      { clear - F2 KEY. induction F2 as [|y x ys xs [i H] F2 IH]; [reflexivity|]. cbn [map]. f_equal; [eapply KEY; eauto|auto]. }
      rewrite EM. assert (RDS : reads tb (DB k) (lk_fl (w k)) NoBatch (ms k)) by (constructor; [apply (cons_ok _ _ _ _ (CO k))|discriminate|exact I|exact (CO k)]).
      assert (SE : selected tb idx (ms k) sel l).
      { unfold selected. remember [k] as kk. destruct A3 as [|k' ks P Ps l ls HL L]; [discriminate|]. injection Heqkk as -> ->. inversion L; subst.
        econstructor; [exact HL|constructor]. }
      destruct (single_selection tb G _ _ _ _ RDS idx sel l HI SE) as [_ ND]; [destruct sel; easy|].
      destruct rv; cbn [dir]; auto. rewrite map_rev. eapply Permutation_NoDup; [apply Permutation_rev|auto].
  Qed.
End P.
