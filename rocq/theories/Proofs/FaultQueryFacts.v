(** Queries when reads fail. *)

From Coq Require Import List NArith ZArith Lia Bool Arith Sorting.Sorted.
From Verif.Model Require Import Bytes Go Keys Pebble Index Table Scan Query LiveScan Faults FaultQuery.
From Verif.Spec Require Import KeySpec StoreSpec TableSpec ScanSpec QuerySpec FaultSpec.
From Verif.Proofs Require Import BytesFacts KeysFacts PebbleFacts TableFacts WriteFacts ReadFacts IterFacts ScanFacts ScanRows ScanProps ScanTop QueryFacts QueryProps InterFacts
  FaultScan FaultWrite FaultTop FaultNone.
Import ListNotations.

Lemma query_gives_up {T F} (tb : table T F) q : gives_up (query_cb tb q).
Proof.
  intros s k g e E. unfold query_cb in E. destruct (cb_after tb q s k) as [s' af]. destruct af; [discriminate|].
  destruct (match q_filter q, q_less q with None, None => _ | _, _ => false end); [discriminate|]. injection E as <-. eauto.
Qed.

(** ** Without failing reads *)

Section None.
  Variable io : faults.
  Hypothesis OPEN : forall n, ft_open io n = false.
  Hypothesis MOVE : forall n, ft_move io n = false.
  Context {T F : Type}.
  Variable tb : table T F.
  Variable ev : env T.
  Variable srt : (T -> T -> bool) -> list T -> list T.
  Notation nb ob := (match ob with Some b => ABatch b | None => NoBatch end).

  Lemma ckeys_fine open within fuel : forall c b n acc,
    match fcollect_keys io ev open within fuel c (fb_of b) n acc, collect_keys ev open within fuel c b acc with
    | Ok (c1, _, l1), Ok (c2, l2) => c1 = c2 /\ l1 = l2
    | Err e1, Err e2 => e1 = e2
    | Panic, Panic | Diverge, Diverge => True
    | _, _ => False
    end.
  Proof.
    induction fuel as [|fuel IH]; intros c b n acc; cbn [fcollect_keys collect_keys]; rewrite valid_of; destruct (bi_valid b); auto.
    destruct (e_ctx ev c); auto. rewrite key_of. destruct (to_data_key_bytes (bi_key b) []) as [k|e| |]; auto.
    destruct (snext_fine io OPEN MOVE open false b n) as [n' ->]. apply IH.
  Qed.

  Lemma cindex_fine fuel c n db ob idx sel within :
    match fcollect_index io tb ev fuel c n db ob idx sel within,
          match index_iter tb db (nb ob) idx sel with
          | Ok it => collect_keys ev (db_iter db ob) within fuel c (bi_first (db_iter db ob) it) []
          | Err e => Err e | Panic => Panic | Diverge => Diverge end with
    | Ok (c1, _, l1), Ok (c2, l2) => c1 = c2 /\ l1 = l2
    | Err e1, Err e2 => e1 = e2
    | Panic, Panic | Diverge, Diverge => True
    | _, _ => False
    end.
  Proof.
    unfold fcollect_index.
    assert (EI : iter_by tb (fun lo hi => fp_it (fst (fp_open io (db_iter db ob) lo hi n))) idx sel = index_iter tb db (nb ob) idx sel).
    { unfold fp_open. rewrite OPEN. cbn [fst fp_it]. destruct ob as [b|], sel; reflexivity. }
    rewrite EI. destruct (index_iter _ _ _ _ _) as [b|e| |]; auto. destruct (sfirst_fine io OPEN MOVE (db_iter db ob) false b (S n)) as [n' ->].
    apply ckeys_fine.
  Qed.

  Lemma nb_back (ob : option batch) : batch_of (nb ob) = ob.
  Proof. destruct ob; reflexivity. Qed.

  Lemma rest_fine fuel db ob qs : forall c n keys,
    match fintersect_rest io tb ev fuel c n db ob qs keys, intersect_rest tb ev fuel db (nb ob) c qs keys with
    | Ok (_, l1), Ok l2 => l1 = l2
    | Err e1, Err e2 => e1 = e2
    | Panic, Panic | Diverge, Diverge => True
    | _, _ => False
    end.
  Proof.
    induction qs as [|q qs IH]; intros c n keys; cbn [fintersect_rest intersect_rest]; auto. rewrite nb_back.
    pose proof (cindex_fine fuel c n db ob (q_index q) (q_sel q) (Some keys)) as H.
    destruct (fcollect_index _ _ _ _ _ _ _ _ _ _ _) as [[[c1 n1] l1]|e| |];
      destruct (index_iter tb db (nb ob) (q_index q) (q_sel q)) as [it|e'| |]; try easy;
      destruct (collect_keys _ _ _ _ _ _ _) as [[c2 l2]|e2| |]; try easy.
    destruct H as [<- <-]. apply IH.
  Qed.

  Theorem execute_fine fuel db fl q ob : fexecute io tb ev srt fuel db fl q ob = execute tb ev srt fuel db fl q (nb ob).
  Proof.
    unfold fexecute, execute. destruct (q_inter q) as [|x xs] eqn:EI.
    - unfold fexecute_query, execute_query. destruct (match q_after q, q_less q with Some a, None => _ | _, _ => _ end) as [sel|e| |]; auto.
      rewrite (scan_fine io OPEN MOVE). reflexivity.
    - clear EI x xs. unfold fexecute_intersect, execute_intersect. destruct (forallb plain_query (q_inter q)); auto.
      assert (H : match fintersect io tb ev fuel db q ob, intersect tb ev fuel db q (nb ob) with
        | Ok (_, l1), Ok l2 => l1 = l2 | Err e1, Err e2 => e1 = e2 | Panic, Panic | Diverge, Diverge => True | _, _ => False end).
      { unfold fintersect, intersect. rewrite nb_back. pose proof (cindex_fine fuel 0 0 db ob (q_index q) (q_sel q) None) as H.
        destruct (fcollect_index _ _ _ _ _ _ _ _ _ _ _) as [[[c1 n1] l1]|e| |];
          destruct (index_iter tb db (nb ob) (q_index q) (q_sel q)) as [it|e'| |]; try easy;
          destruct (collect_keys _ _ _ _ _ _ _) as [[c2 l2]|e2| |]; try easy.
        destruct H as [<- <-]. apply rest_fine. }
      destruct (fintersect io tb ev fuel db q ob) as [[n l1]|e| |], (intersect tb ev fuel db q (nb ob)) as [l2|e'| |]; try easy; [subst l2|subst; auto].
      match goal with |- match ?x with _ => _ end = _ => destruct x as [ks|e| |] end; auto.
      rewrite (keys_fine io OPEN MOVE). reflexivity.
  Qed.
End None.

(** ** With failing reads *)

Section P.
  Context {T F : Type}.
  Variable tb : table T F.
  Hypothesis G : good_table tb.
  Variable ev : env T.
  Hypothesis EV : env_ok ev.
  Hypothesis Q : quiet ev.
  Variable srt : (T -> T -> bool) -> list T -> list T.
  Variables (db : kv) (fl : F) (ob : option batch) (m : tmap T).
  Hypothesis KV : kv_ok db.
  Hypothesis RD : readable ob.
  Hypothesis CO : consistent tb (view db ob) fl m.
  Variable io : faults.
  Hypothesis OPEN : forall n, ft_open io n = false.
  Notation sc := (schema_of tb).
  Notation isin idx := (In idx (primary_index :: t_indexes tb)).
  Notation open := (db_iter db ob).
  Let LAW : lawful tb := good_lawful _ G.
  Let CTX : forall n, e_ctx ev n = false := proj1 Q.

  (** *** Queries that do not intersect *)

  (** a scan of the query's callback: an error, or the visit of a part of the rows *)
  Lemma scan_part (q : query T) idx sel : isin idx -> 0 < t_prefetch tb -> exact_selector tb idx m sel ->
    exists ls, Forall2 (listing sc (sindex_of idx) m) (selections sc (sindex_of idx) (Byte.eqb (ix_id idx) x00) sel) ls /\
    forall rv fuel s, length (concat ls) <= fuel -> exists l ok, in_parts (dirs rv ls) l ok /\
      (fscan_index_for_each io tb ev fuel db fl idx sel (query_cb tb q) rv ob s = visit (query_cb tb q) (keyed sc (sindex_of idx) l) s \/
       ok = false /\ exists s' e, fscan_index_for_each io tb ev fuel db fl idx sel (query_cb tb q) rv ob s = (s', Err e)).
  Proof.
    intros HI PRE EX. destruct (scan_told tb G ev EV CTX db fl ob m KV RD CO io OPEN idx sel HI PRE EX) as (ls & LS & H). exists ls. split; auto.
    intros rv fuel s FU. destruct (H rv _ (query_cb tb q) fuel s (cb_steady tb q) (query_gives_up tb q) FU) as (l & ok & SE & TO).
    exists l, ok. split; auto. unfold told in TO. unfold visit. destruct (visit_go _ _ _) as [o|s1]; auto.
    destruct ok; auto. right. split; auto. destruct TO as (e & s2 & -> & _). eauto.
  Qed.

  Theorem query_parts q : isin (q_index q) -> 0 < t_prefetch tb -> sorts srt -> exact_selector tb (q_index q) m (q_sel q) ->
    q_inter q = [] -> (q_after q = None \/ q_less q <> None) -> (q_offset q < 2 ^ 63)%N -> (q_limit q < 2 ^ 63)%N ->
    exists ls, Forall2 (listing sc (sindex_of (q_index q)) m) (selections sc (sindex_of (q_index q)) (Byte.eqb (ix_id (q_index q)) x00) (q_sel q)) ls /\
    forall fuel, length (concat ls) <= fuel ->
      (exists l ok s a, in_parts (dirs (q_rev q) ls) l ok /\ ordered (q_less q) (keep (q_filter q) l) s /\ behind_opt sc (q_after q) s a /\
         fexecute io tb ev srt fuel db fl q ob = Ok (window (q_offset q) (q_limit q) a)) \/
      exists e, fexecute io tb ev srt fuel db fl q ob = Err e.
  Proof.
    intros HI PRE SR EX NI AF HO HL. destruct (scan_part q _ _ HI PRE EX) as (ls & LS & H). exists ls. split; auto.
    intros fuel FU. unfold fexecute. rewrite NI. unfold fexecute_query.
    replace (match q_after q with Some a => match q_less q with Some _ => Ok (q_sel q) | None => selector_with_after tb (q_index q) a (q_sel q) end | None => Ok (q_sel q) end)
      with (Ok (q_sel q)) by (destruct (q_after q); auto; destruct (q_less q); auto; destruct AF; easy).
    destruct (H (q_rev q) fuel (Qst [] 0 false false false false) FU) as (l & ok & SE & [E|(_ & s' & e & E)]); [|right; rewrite E; eauto].
    left. exists l, ok. rewrite E, keyed_combine.
    destruct (q_less q) as [less|] eqn:EL.
    - destruct (order_query_list tb srt q less (map (entry_key sc (sindex_of (q_index q))) l) l) as [s' [E1 E2]]; auto; [apply map_length|].
      unfold s0 in E1. rewrite E1, E2. eexists _, _. split; auto. split; [apply SR|]. split; [|reflexivity].
      destruct (q_after q); cbn [behind_opt]; auto. apply drop_after_behind.
    - destruct AF as [AF|AF]; [|easy].
      destruct (plain_query_list tb srt q (map (entry_key sc (sindex_of (q_index q))) l) l (Qst [] 0 false false false false)) as [s' [E1 E2]]; auto.
      + apply map_length.
      + left. auto.
      + rewrite E1, E2. eexists _, _. split; auto. split; [reflexivity|]. split; [|reflexivity]. rewrite AF. reflexivity.
  Qed.

  Let nb : optb := match ob with Some b => ABatch b | None => NoBatch end.
  Let RB : reads tb db fl nb m.
  Proof. unfold nb. destruct ob; constructor; auto; discriminate. Qed.

  Lemma one_sound q sel l fuel : isin (q_index q) -> 0 < t_prefetch tb -> exact_selector tb (q_index q) m sel -> one_selection sel ->
    selected tb (q_index q) m sel l -> length l <= fuel ->
    fscan_index_for_each io tb ev fuel db fl (q_index q) sel (query_cb tb q) (q_rev q) ob (Qst [] 0 false false false false) =
    scan_index_for_each tb ev fuel db fl (q_index q) sel (query_cb tb q) (q_rev q) nb (Qst [] 0 false false false false) \/
    exists s e, fscan_index_for_each io tb ev fuel db fl (q_index q) sel (query_cb tb q) (q_rev q) ob (Qst [] 0 false false false false) = (s, Err e).
  Proof.
    intros HI PRE EX ONE SL FU. destruct (scan_one tb G ev EV CTX db fl ob m KV RD CO io OPEN (q_index q) sel HI PRE EX ONE) as (l' & SL' & H).
    assert (l' = l) by (eapply (selected_unique tb G db fl nb m (reads_cons _ _ _ _ _ RB)); eauto). subst l'.
    destruct (scan_steady tb G ev EV db fl nb m RB PRE Q _ _ HI EX) as (l' & SL2 & _ & V).
    assert (l' = l) by (eapply (selected_unique tb G db fl nb m (reads_cons _ _ _ _ _ RB)); eauto). subst l'.
    rewrite (V _ _ _ _ _ (cb_steady tb q) (within_all' tb (query_cb tb q) (sindex_of (q_index q)) (q_rev q) l (Qst [] 0 false false false false) fuel FU)).
    destruct (H (q_rev q) _ (query_cb tb q) fuel (Qst [] 0 false false false false) (cb_steady tb q) (query_gives_up tb q) FU)
      as [E|(l1 & l2 & s1 & s2 & e & _ & _ & _ & E)]; [left|right]; eauto.
  Qed.

  Theorem query_same q : isin (q_index q) -> 0 < t_prefetch tb -> exact_selector tb (q_index q) m (q_sel q) -> one_selection (q_sel q) ->
    q_inter q = [] ->
    match q_after q, q_less q with Some a, None => after_fits sc (sindex_of (q_index q)) (Byte.eqb (ix_id (q_index q)) x00) a (q_sel q) | _, _ => True end ->
    forall l, selected tb (q_index q) m (q_sel q) l -> forall fuel, length l <= fuel ->
      fexecute io tb ev srt fuel db fl q ob = execute tb ev srt fuel db fl q nb \/
      exists e, fexecute io tb ev srt fuel db fl q ob = Err e.
  Proof.
    intros HI PRE EX ONE NI AF l SL fuel FU.
    assert (X : exists sel l', match q_after q, q_less q with Some a, None => selector_with_after tb (q_index q) a (q_sel q) | _, _ => Ok (q_sel q) end = Ok sel /\
      exact_selector tb (q_index q) m sel /\ one_selection sel /\ selected tb (q_index q) m sel l' /\ length l' <= fuel).
    { destruct (q_after q) as [a|]; [destruct (q_less q) as [less|]|]; try solve [exists (q_sel q), l; auto].
      destruct (after_selector tb G db fl nb m RB (q_index q) HI a (q_sel q) l AF EX SL) as (sel' & E1 & E2 & E3).
      exists sel', (from_a tb (sindex_of (q_index q)) a l). split; auto. split; auto. split.
      - destruct (q_sel q); try contradiction ONE; injection E1 as <-; exact I.
      - split; auto. etransitivity; [apply filter_short|exact FU]. }
    destruct X as (sel & l' & E1 & E2 & E3 & E4 & E5).
    unfold fexecute, execute. rewrite NI. unfold fexecute_query, execute_query. rewrite E1.
    destruct (one_sound q sel l' fuel HI PRE E2 E3 E4 E5) as [E|(s & e & E)]; rewrite E; eauto.
  Qed.

  (** *** Intersects *)

  Lemma collect_part within dk : forall k o it fuel c n acc, size_o o <= k ->
    at_ open false it o -> (forall e, In e (in_o o) -> to_data_key_bytes (fst e) [] = Ok (dk e)) -> size_o o <= fuel ->
    StronglySorted blt acc ->
    exists c' n' keys, fcollect_keys io ev open within fuel c it n acc = Ok (c', n', keys) /\ StronglySorted blt keys /\
      forall x, In x keys -> In x acc \/ (exists e, In e (in_o o) /\ dk e = x) /\ match within with None => True | Some w => In x w end.
  Proof.
    induction k as [|k IH]; intros o it fuel c n acc LK A TD LE SA;
      pose proof (at_valid open false it o A) as V; (destruct o as [[|[|e cur] R]|]; [inversion A|..]).
    all: try solve [exists c, n, acc; split; [destruct fuel; cbn [fcollect_keys]; rewrite V; reflexivity|]; split; auto].
    { cbn in LK. lia. }
    assert (ST : stands open false it ((e :: cur) :: R)) by (inversion A; subst; auto).
    destruct fuel as [|fuel]; [cbn in LE; lia|]. cbn [fcollect_keys]. rewrite V, CTX.
    rewrite (proj1 (at_item_of open false _ _ _ _ ST)), (TD e) by (left; auto).
    destruct (fscan_next io open false it n) as [it' n1] eqn:EN.
    destruct (next_lands io OPEN open (open_fine tb db fl ob m RD CO) false it _ _ it' n n1 ST EN) as (o2 & A2 & _ & S2 & I2).
    set (hit := match within with None => true | Some w => existsb (beqb (dk e)) w end).
    assert (HIT : hit = true -> match within with None => True | Some w => In (dk e) w end).
    { unfold hit. destruct within as [w|]; [|tauto]. rewrite existsb_exists. intros [x [Hx E]]. apply beqb_eq in E. subst. auto. }
    cbn [tl] in S2, I2. cbn [size_o] in LK, LE. cbn [concat app length] in LK, LE.
    assert (IC : forall y, In y (in_o o2) -> In y (in_o (Some ((e :: cur) :: R)))) by (intros y Hy; right; apply I2; auto).
    destruct (IH o2 it' fuel (S c) n1 (if hit then set_add (dk e) acc else acc)) as (c' & n' & keys & E1 & E2 & E3); auto.
    { apply le_S_n. eapply Nat.le_trans; [apply le_n_S; exact S2|exact LK]. }
    { apply le_S_n. eapply Nat.le_trans; [apply le_n_S; exact S2|exact LE]. }
    { destruct hit; auto using set_add_sorted. }
    exists c', n', keys. split; auto. split; auto. intros x Hx. apply E3 in Hx as [Hx|[[y [Hy Ey]] W]].
    - destruct hit eqn:EH; auto. apply set_add_in in Hx as [->|Hx]; auto. right. split; [exists e; split; [left|]; reflexivity|apply HIT; reflexivity].
    - right. split; auto. exists y. split; auto.
  Qed.

  Lemma index_part (idx : index T) sel : isin idx -> exact_selector tb idx m sel ->
    exists l, selected tb idx m sel l /\ (forall r, In r l -> m (s_pk sc r) = Some r) /\
      forall within fuel c n, length l <= fuel ->
        exists c' n' keys, fcollect_index io tb ev fuel c n db ob idx sel within = Ok (c', n', keys) /\ StronglySorted blt keys /\
          forall k, In k keys -> (exists r, In r l /\ data_key tb r = k) /\ match within with None => True | Some w => In k w end.
  Proof.
    intros HI EX. destruct (scan_starts tb G db fl ob m KV RD CO io OPEN idx sel HI EX) as (ls & LS & b & IT & ST).
    assert (STO := concat_stored tb m _ _ _ LS).
    exists (concat ls). split; [|split; auto].
    { unfold selected. clear - LS. induction LS; cbn; constructor; auto. }
    intros within fuel c n FU. unfold fcollect_index.
    assert (EO : (fun lo hi => fp_it (fst (fp_open io open lo hi n))) = (fun lo hi => fp_it (fst (fp_open io open lo hi 0)))) by (unfold fp_open; rewrite !OPEN; reflexivity).
    rewrite EO, IT. destruct (fscan_first io open false (fb_of b) (S n)) as [it n1] eqn:ES.
    destruct (ST false (S n) it n1 ES) as (o & A & _ & SI & IN). cbn [dirs] in SI, IN. rewrite <- concat_map in IN, SI. rewrite map_length in SI.
    set (en := fun r : T => (entry_key sc (sindex_of idx) r, val_of tb idx r)) in *.
    set (dk := fun e : entry => match to_data_key_bytes (fst e) [] with Ok k => k | _ => [] end).
    assert (DK : forall r, In r (concat ls) -> to_data_key_bytes (fst (en r)) [] = Ok (data_key tb r)).
    { intros r Hr. pose proof (stored_fits tb LAW idx HI _ _ r (cons_rep _ _ _ _ CO) (STO r Hr)) as [F1 F2].
      unfold en. cbn [fst]. rewrite (data_key_eq tb LAW).
      apply (to_data_key_bytes_layout (t_id tb) (ix_id idx) (si_key (sindex_of idx) r) (si_ord (sindex_of idx) r) (s_pk sc r) [] F1 F2). }
    destruct (collect_part within dk (size_o o) o it fuel c n1 [] (le_n _) A) as (c' & n' & keys & E1 & E2 & E3).
    - intros e He. apply IN in He. apply in_map_iff in He as [r [<- Hr]]. unfold dk. rewrite DK by auto. reflexivity.
    - eapply Nat.le_trans; [exact SI|exact FU].
    - constructor.
    - exists c', n', keys. split; auto. split; auto. intros k Hk. apply E3 in Hk as [[]|[[e [He Ek]] W]]. split; auto.
      apply IN in He. apply in_map_iff in He as [r [<- Hr]]. exists r. split; auto. unfold dk in Ek. rewrite DK in Ek by auto. exact Ek.
  Qed.

  Lemma rest_part qs : (forall q, In q qs -> isin (q_index q) /\ exact_selector tb (q_index q) m (q_sel q)) ->
    exists ls, Forall2 (fun q l => selected tb (q_index q) m (q_sel q) l) qs ls /\
      (forall l r, In l ls -> In r l -> m (s_pk sc r) = Some r) /\
      forall fuel c n keys, (forall l, In l ls -> length l <= fuel) -> StronglySorted blt keys ->
        exists n' keys', fintersect_rest io tb ev fuel c n db ob qs keys = Ok (n', keys') /\ StronglySorted blt keys' /\
          forall k, In k keys' -> In k keys /\ Forall (fun l => exists r, In r l /\ data_key tb r = k) ls.
  Proof.
    induction qs as [|q qs IH]; intro H.
    - exists []. split; [constructor|]. split; [easy|]. intros fuel c n keys _ SK. exists n, keys. split; auto.
    - destruct (IH (fun q Hq => H q (or_intror Hq))) as [ls [F2 [ST V]]].
      destruct (H q (or_introl eq_refl)) as [HI EX]. destruct (index_part _ _ HI EX) as [l [SL [ST1 C]]].
      exists (l :: ls). split; [constructor; auto|]. split; [intros x r [<-|Hx] Hr; eauto|].
      intros fuel c n keys LE SK. cbn [fintersect_rest].
      destruct (C (Some keys) fuel c n) as (c' & n' & keys1 & E1 & E2 & E3); [apply LE; left; auto|]. rewrite E1.
      destruct (V fuel c' n' keys1) as (n2 & keys2 & E4 & E5 & E6); auto; [intros; apply LE; right; auto|].
      exists n2, keys2. split; auto. split; auto. intros k Hk. apply E6 in Hk as [Hk FA]. apply E3 in Hk as [X W]. split; auto.
  Qed.

  (** the keys are those of rows of the intersection *)
  Lemma intersect_part q : (forall x, In x (q :: q_inter q) -> isin (q_index x) /\ exact_selector tb (q_index x) m (q_sel x)) ->
    exists ls, Forall2 (fun x l => selected tb (q_index x) m (q_sel x) l) (q :: q_inter q) ls /\
      (forall l r, In l ls -> In r l -> m (s_pk sc r) = Some r) /\
      forall fuel, (forall l, In l ls -> length l <= fuel) -> exists n b,
        StronglySorted (fun x y => blt (s_pk sc x) (s_pk sc y)) b /\ (forall r, In r b -> Forall (In r) ls) /\
        fintersect io tb ev fuel db q ob = Ok (n, map (data_key tb) b).
  Proof.
    intro H. destruct (H q (or_introl eq_refl)) as [HI EX]. destruct (index_part _ _ HI EX) as [l [SL [ST1 C]]].
    destruct (rest_part (q_inter q) (fun x Hx => H x (or_intror Hx))) as [ls [F2 [ST V]]].
    assert (ALL : forall x r, In x (l :: ls) -> In r x -> m (s_pk sc r) = Some r) by (intros x r [<-|Hx] Hr; eauto).
    exists (l :: ls). split; [constructor; auto|]. split; auto. intros fuel LE. unfold fintersect.
    destruct (C None fuel 0 0) as (c' & n' & keys1 & E1 & E2 & E3); [apply LE; left; auto|]. rewrite E1.
    destruct (V fuel c' n' keys1) as (n2 & keys & E4 & K2 & E6); auto; [intros; apply LE; right; auto|].
    assert (K3 : forall k, In k keys -> Forall (fun l => exists r, In r l /\ data_key tb r = k) (l :: ls)).
    { intros k Hk. apply E6 in Hk as [Hk FA]. apply E3 in Hk as [X _]. constructor; auto. }
    destruct (choose_list (fun k r => data_key tb r = k /\ Forall (In r) (l :: ls)) keys) as [b FB].
    { intros k Hk. apply K3 in Hk. rewrite Forall_forall in Hk. destruct (Hk l (or_introl eq_refl)) as [r [Hr Er]].
      exists r. split; auto. apply Forall_forall. intros x Hx. destruct (Hk x Hx) as [r' [Hr' Er']].
      assert (r' = r); [|subst; auto]. assert (s_pk sc r' = s_pk sc r) by (apply (same_data_key tb G); congruence).
      pose proof (ALL x r' Hx Hr') as A1. pose proof (ST1 r Hr) as A2. congruence. }
    assert (EB : map (data_key tb) b = keys).
    { clear - FB. induction FB as [|k r ks rs [H1 _] FB IH]; cbn [map]; congruence. }
    exists n2, b. split; [|split; [|rewrite E4, EB; reflexivity]].
    - rewrite <- EB in K2. clear - K2 G. induction b as [|x b IH]; [constructor|]. cbn in K2. inversion K2 as [|? ? S1 FA]; subst.
      constructor; auto. rewrite Forall_forall in *. intros y Hy. apply (data_key_lt tb G). apply FA. apply in_map; auto.
    - clear - FB. induction FB as [|k r ks rs [_ H1] FB IH]; [easy|]. intros x [<-|Hx]; auto.
  Qed.

  Variable m0 : tmap T.
  Hypothesis CO0 : consistent tb db fl m0.

  Theorem inter_parts q : sorts srt ->
    (forall x, In x (q :: q_inter q) -> isin (q_index x) /\ exact_selector tb (q_index x) m (q_sel x)) ->
    q_inter q <> [] -> (forall x, In x (q_inter q) -> plain_part x) -> (q_offset q < 2 ^ 63)%N -> (q_limit q < 2 ^ 63)%N ->
    (q_after q = None \/ q_filter q <> None \/ q_less q <> None \/ q_offset q = 0%N /\ q_limit q = 0%N) ->
    exists ls, Forall2 (fun x l => selected tb (q_index x) m (q_sel x) l) (q :: q_inter q) ls /\
      ((forall r, Forall (In r) ls -> m0 (s_pk sc r) = Some r) -> forall fuel, (forall l, In l ls -> length l <= fuel) ->
       (exists b s a, StronglySorted (fun x y => blt (s_pk sc x) (s_pk sc y)) b /\ (forall r, In r b -> Forall (In r) ls) /\
          ordered (q_less q) (keep (q_filter q) b) s /\ behind_opt sc (q_after q) s a /\
          fexecute io tb ev srt fuel db fl q ob = Ok (window (q_offset q) (q_limit q) a)) \/
       fexecute io tb ev srt fuel db fl q ob = Err ENotFound).
  Proof.
    intros SR H NE PP HO HL AF. destruct (intersect_part q H) as (ls & F2 & _ & V). exists ls. split; auto.
    intros B0 fuel LE. destruct (V fuel LE) as (n & b & SB & BI & EI).
    assert (BM : forall r, In r b -> m0 (s_pk sc r) = Some r) by auto.
    unfold fexecute. destruct (q_inter q) as [|x0 xs] eqn:EQ; [easy|]. rewrite <- EQ in *.
    unfold fexecute_intersect.
    replace (forallb plain_query (q_inter q)) with true by (symmetry; apply forallb_forall; intros x Hx; apply plain_query_ok; auto).
    rewrite EI.
    assert (GA : forall k, (forall r, In r k -> In r b) ->
      fst (fget_keys io tb ev db fl None (map (data_key tb) k) true n) = Ok (map (value_at (tb:=tb) db) k) \/
      fst (fget_keys io tb ev db fl None (map (data_key tb) k) true n) = Err ENotFound).
    { intros k INC. destruct (fget_keys io tb ev db fl None (map (data_key tb) k) true n) as [r n2] eqn:EG. cbn [fst].
      apply fget_keys_eq in EG; auto; [|exact I]. rewrite (get_all tb G ev EV db fl nb m RB m0 CO0) in EG by auto. exact EG. }
    assert (DA := decode_all tb G db fl m0 CO0).
    set (s := match q_less q with Some less => srt less (keep (q_filter q) b) | None => keep (q_filter q) b end).
    set (a := match q_after q with Some a => drop_after tb a s | None => s end).
    match goal with |- _ \/ ?x = _ => assert (X : x = Ok (window (q_offset q) (q_limit q) a) \/ x = Err ENotFound) end.
    2:{ destruct X as [X|X]; [left|right; exact X]. exists b, s, a. split; auto. split; auto. split; [unfold s, ordered; destruct (q_less q); auto|].
        split; [unfold a; destruct (q_after q); cbn [behind_opt]; auto; apply drop_after_behind|exact X]. }
    destruct (q_filter q) as [f|] eqn:EF; [|destruct (q_less q) as [less|] eqn:EL; [|destruct (q_after q) as [af|] eqn:EA]];
      cbn [andb]; unfold s, a in *.
    - destruct (GA b (fun r Hr => Hr)) as [-> | ->]; auto. left. rewrite DA by auto. destruct (q_less q); apply offset_limit; auto.
    - destruct (GA b (fun r Hr => Hr)) as [-> | ->]; auto. left. rewrite DA by auto. cbn [keep]. apply offset_limit; auto.
    - destruct (GA b (fun r Hr => Hr)) as [-> | ->]; auto. left. rewrite DA by auto. destruct AF as [AF|[AF|[AF|[A1 A2]]]]; try easy. rewrite A1, A2. reflexivity.
    - pose proof (offset_limit (q_offset q) (q_limit q) (map (data_key tb) b) HO HL) as OL.
      match goal with |- context [match ?x with Ok keys => match fst (fget_keys _ _ _ _ _ _ keys _ _) with _ => _ end | _ => _ end] =>
        replace x with (Ok (window (q_offset q) (q_limit q) (map (data_key tb) b))) end.
      2:{ rewrite <- OL. destruct (if (0 <? q_offset q)%N then _ else _); reflexivity. }
      rewrite window_map.
      destruct (GA (window (q_offset q) (q_limit q) b)) as [-> | ->]; auto; [intros r Hr; eapply window_incl; eauto|]. left.
      rewrite DA by (intros r Hr; apply BM; eapply window_incl; eauto). reflexivity.
  Qed.
End P.

(** ** An iterator that cannot be made *)

Theorem query_unmade {T F} io (tb : table T F) ev srt fuel db fl (q : query T) ob : sorts srt -> ft_open io 0 = true -> one_selection (q_sel q) -> q_inter q = [] ->
  (q_after q = None \/ q_less q <> None) -> (q_offset q < 2 ^ 63)%N -> (q_limit q < 2 ^ 63)%N ->
  (forall p, q_sel q = SPoint p -> exists o, point_bounds tb (q_index q) false p = Ok o) ->
  fexecute io tb ev srt fuel db fl q ob = Ok [].
Proof.
  intros SR UN ONE NI AF HO HL PB. unfold fexecute. rewrite NI. unfold fexecute_query.
  replace (match q_after q with Some a => match q_less q with Some _ => Ok (q_sel q) | None => selector_with_after tb (q_index q) a (q_sel q) end | None => Ok (q_sel q) end)
    with (Ok (q_sel q)) by (destruct (q_after q); auto; destruct (q_less q); auto; destruct AF; easy).
  rewrite blind_scan by auto.
  destruct (q_less q) as [less|] eqn:EL.
  - destruct (order_query_list tb srt q less [] []) as [s' [E1 E2]]; auto. unfold s0 in E1. cbn in E1. injection E1 as <-. rewrite E2. f_equal.
    assert (EK : srt less (keep (q_filter q) []) = []).
    { replace (keep (q_filter q) []) with (@nil T) by (destruct (q_filter q); reflexivity). destruct (SR less []) as [P _].
      apply Permutation.Permutation_nil, Permutation.Permutation_sym. exact P. }
    rewrite EK. replace (match q_after q with Some a => drop_after tb a [] | None => [] end) with (@nil T) by (destruct (q_after q); reflexivity).
    unfold window. rewrite skipn_nil, firstn_nil. destruct (q_limit q =? 0)%N; reflexivity.
  - destruct (plain_query_list tb srt q [] [] (Qst [] 0 false false false false)) as [s' [E1 E2]]; auto; [left; destruct AF; easy|].
    cbn in E1. injection E1 as <-. rewrite E2. f_equal. replace (keep (q_filter q) []) with (@nil T) by (destruct (q_filter q); reflexivity).
    unfold window. rewrite skipn_nil, firstn_nil. destruct (q_limit q =? 0)%N; reflexivity.
Qed.
