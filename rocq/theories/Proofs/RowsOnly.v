(** Reads on the primary index depend on the rows alone; and reads after any history. *)

From Coq Require Import List NArith ZArith Lia Bool Arith Sorting.Sorted.
From Verif.Model Require Import Bytes Go Keys Pebble Index Table Scan Query.
From Verif.Spec Require Import KeySpec StoreSpec TableSpec HistSpec RowsSpec ScanSpec QuerySpec SoundSpec.
From Verif.Proofs Require Import BytesFacts PebbleFacts TableFacts ScanProps ScanTop IterApi QueryProps TableProps ReadFacts AnyHist SoundReads SoundQuery.
From Verif.Proofs Require RowSim.
Import ListNotations.

Section Only.
  Context {T F : Type} (tb : table T F) (G : good_table tb).
  Notation sc := (schema_of tb).
  Notation tb0 := (no_indexes tb).

  Lemma only_rows db fl ob m : row_reads tb db fl ob m -> reads tb0 db fl ob m.
  Proof.
    intros [K NB RW [S1 S2 S3] KS CV]. constructor; auto. constructor; [apply view_ok; exact K| |exact CV].
    constructor; [|exact S2|exact S3|intros ix rest v []]. intros p r E. split; [exact (KS p r E)|]. split; [intros ix []|exact (S1 p r E)].
  Qed.

  Lemma listings_rows (ix : sindex T) m Ps l : listings (schema_of tb0) ix m Ps l <-> listings sc ix m Ps l.
  Proof. split; induction 1 as [|P Ps l ls L _ IH]; constructor; auto. Qed.

  Lemma selected_rows m sel l : selected tb0 primary_index m sel l <-> selected tb primary_index m sel l.
  Proof. exact (listings_rows _ m _ l). Qed.

  Lemma only_scan ev : env_ok ev -> forall db fl ob m, row_reads tb db fl ob m -> 0 < t_prefetch tb -> quiet ev ->
    exists l, StronglySorted (fun a b => bcmp (s_pk sc a) (s_pk sc b) = Lt) l /\
      (forall r, In r l <-> m (s_pk sc r) = Some r /\ bcmp (s_pk sc (t_empty tb)) (s_pk sc r) <> Gt) /\
      forall rv fuel acc, length l <= fuel -> scan tb ev fuel db fl acc rv ob = (acc ++ dir rv l, Ok tt).
  Proof. intros EV db fl ob m R PF Q. exact (t_full_scan tb0 (RowSim.good_rows tb G) ev EV db fl ob m (only_rows db fl ob m R) PF Q). Qed.

  Lemma only_get_range ev : env_ok ev -> forall db fl ob m, row_reads tb db fl ob m -> forall lo hi, 0 < t_prefetch tb -> quiet ev ->
    exact_end sc sprimary m hi ->
    exists l, StronglySorted (fun a b => bcmp (s_pk sc a) (s_pk sc b) = Lt) l /\
      (forall r, In r l <-> m (s_pk sc r) = Some r /\ bcmp (s_pk sc lo) (s_pk sc r) <> Gt /\ bcmp (s_pk sc r) (s_pk sc hi) <> Gt) /\
      forall fuel, length l <= fuel -> get_sel tb ev fuel db fl ob (SRange lo hi) = Ok l.
  Proof. intros EV db fl ob m R lo hi PF Q X. exact (t_get_range tb0 (RowSim.good_rows tb G) ev EV db fl ob m (only_rows db fl ob m R) lo hi PF Q X). Qed.

  Lemma only_multi ev : env_ok ev -> forall db fl ob m, row_reads tb db fl ob m -> forall sel, 0 < t_prefetch tb -> quiet ev ->
    exact_selector tb primary_index m sel ->
    exists l, selected tb primary_index m sel l /\ (forall l', selected tb primary_index m sel l' -> l' = l) /\
      forall rv fuel acc, length l <= fuel -> scan_index tb ev fuel db fl primary_index sel acc rv ob = (acc ++ dir rv l, Ok tt).
  Proof.
    intros EV db fl ob m R sel PF Q X.
    destruct (t_multi tb0 (RowSim.good_rows tb G) ev EV db fl ob m (only_rows db fl ob m R) primary_index sel (or_introl eq_refl) PF Q X) as (l & S & U & E).
    exists l. split; [apply selected_rows, S|]. split; [|exact E]. intros l' S'. apply U, selected_rows, S'.
  Qed.

  Lemma only_each ev : forall db fl ob m, row_reads tb db fl ob m -> forall sel, exact_selector tb primary_index m sel ->
    exists l, selected tb primary_index m sel l /\
    forall rv W (f : W -> bytes -> prog W) fuel s, within f (keyed sc sprimary (dir rv l)) s fuel ->
      visited ev f (keyed sc sprimary (dir rv l)) s (scan_index_for_each tb ev fuel db fl primary_index sel f rv ob s).
  Proof.
    intros db fl ob m R sel X. destruct (t_each_primary tb0 (RowSim.good_rows tb G) ev db fl ob m (only_rows db fl ob m R) sel X) as (l & S & E).
    exists l. split; [apply selected_rows, S|exact E].
  Qed.

  Lemma only_points ev : env_ok ev -> forall db fl ob m pts, row_reads tb db fl ob m -> (forall p x, m p = Some x -> s_val sc x <> Some []) ->
    get_points tb ev db fl (batch_of ob) pts = Ok (map (fun p => match m (s_pk sc p) with Some x => x | None => t_nil tb end) pts).
  Proof.
    intros EV db fl ob m pts R NE. destruct (only_rows db fl ob m R) as [K _ RW C].
    exact (points_positional tb0 (RowSim.good_rows tb G) ev EV db fl (batch_of ob) m pts K C RW NE).
  Qed.

  Lemma only_query ev : env_ok ev -> forall srt db fl ob m, row_reads tb db fl ob m -> 0 < t_prefetch tb -> quiet ev ->
    forall q, q_index q = primary_index -> exact_selector tb primary_index m (q_sel q) ->
    q_inter q = [] -> q_less q = None -> q_after q = None -> (q_offset q < 2 ^ 63)%N -> (q_limit q < 2 ^ 63)%N ->
    exists l, selected tb primary_index m (q_sel q) l /\
    forall fuel, enough q (dir (q_rev q) l) fuel ->
      execute tb ev srt fuel db fl q ob = Ok (window (q_offset q) (q_limit q) (keep (q_filter q) (dir (q_rev q) l))).
  Proof.
    intros EV srt db fl ob m R PF Q q QI X I1 I2 I3 O L. rewrite <- QI in X.
    destruct (query_plain tb0 (RowSim.good_rows tb G) ev EV srt db fl ob m (only_rows db fl ob m R) PF Q q (or_introl (eq_sym QI)) X I1 I2 I3 O L) as (l & S & E).
    exists l. split; [apply selected_rows; rewrite QI in S; exact S|exact E].
  Qed.

  Lemma only_query_order ev : env_ok ev -> forall srt db fl ob m, row_reads tb db fl ob m -> 0 < t_prefetch tb -> quiet ev ->
    forall q less, sorts srt -> q_index q = primary_index -> exact_selector tb primary_index m (q_sel q) ->
    q_inter q = [] -> q_less q = Some less -> (q_offset q < 2 ^ 63)%N -> (q_limit q < 2 ^ 63)%N ->
    exists l s a, selected tb primary_index m (q_sel q) l /\
      ordered (Some less) (keep (q_filter q) (dir (q_rev q) l)) s /\ behind_opt sc (q_after q) s a /\
    forall fuel, length l <= fuel -> execute tb ev srt fuel db fl q ob = Ok (window (q_offset q) (q_limit q) a).
  Proof.
    intros EV srt db fl ob m R PF Q q less SO QI X I1 I2 O L. rewrite <- QI in X.
    destruct (query_order tb0 (RowSim.good_rows tb G) ev EV srt db fl ob m (only_rows db fl ob m R) PF Q q less SO (or_introl (eq_sym QI)) X I1 I2 O L) as (l & s & a & S & OR & BH & E).
    exists l, s, a. split; [apply selected_rows; rewrite QI in S; exact S|]. split; [exact OR|]. split; [|exact E].
    destruct (q_after q) as [x|]; [|exact BH]. destruct BH; [apply bh_absent|apply bh_at]; assumption.
  Qed.

  (** ** After any history *)

  Lemma folded_key (f : T -> T -> T) l : (forall a b, s_pk sc (f a b) = s_pk sc a) -> forall a, s_pk sc (fold_left f l a) = s_pk sc a.
  Proof. intro K. induction l as [|x l IH]; intro a; cbn [fold_left]; [reflexivity|]. rewrite IH. apply K. Qed.

  Definition own_keys (m : tmap T) : Prop := forall p r, m p = Some r -> s_pk sc r = p.

  Lemma chunkwise_keys g cs : (forall c r, s_pk sc (g c r) = s_pk sc r) -> forall m m', own_keys m -> chunkwise sc g cs m m' -> own_keys m'.
  Proof.
    intro K. induction cs as [|c cs IH]; intros m m' O H; cbn [chunkwise] in H.
    - intros p r E. rewrite H in E. exact (O p r E).
    - destruct H as (m1 & H1 & H2). apply (IH m1 m'); [|exact H2]. intros p r E. destruct (H1 p) as [(x & _ & KX & EX)|[_ EX]].
      + rewrite EX in E. injection E as <-. rewrite K. exact KX.
      + rewrite EX in E. exact (O p r E).
  Qed.

  Lemma call_keys n c m m' : keeps_key sc c -> own_keys m -> call_rows sc n c m m' -> own_keys m'.
  Proof.
    intros KK O H. destruct c as [l|l|f l|l]; cbn [call_rows keeps_key] in *.
    - destruct H as (cs & _ & _ & _ & W). exact (chunkwise_keys (fun _ r => r) cs (fun _ _ => eq_refl) m m' O W).
    - destruct H as (cs & _ & _ & W). exact (chunkwise_keys (fun _ r => r) cs (fun _ _ => eq_refl) m m' O W).
    - destruct H as (cs & _ & W). refine (chunkwise_keys _ cs _ m m' O W). intros c r. unfold upserted. rewrite folded_key by exact KK.
      destruct (m (s_pk sc r)) as [old|] eqn:E; [|reflexivity]. rewrite KK. exact (O _ _ E).
    - intros p r E. rewrite H in E. rewrite (removes_eq (tb:=tb)) in E. destruct (existsb _ l); [discriminate|exact (O p r E)].
  Qed.

  Lemma hist_keys : forall ns oks m m', Forall (fun o => keeps_key sc (fst o)) oks -> own_keys m -> hist_rows sc ns oks m m' -> own_keys m'.
  Proof.
    induction ns as [|n ns IH]; intros [|[c []] oks] m m' KK O H; cbn [hist_rows] in H; try (intros p r E; rewrite H in E; exact (O p r E)).
    - inversion KK as [|? ? K1 K2]; subst. destruct H as (m1 & C & H). exact (IH oks m1 m' K2 (call_keys n c m m1 K1 O C) H).
    - inversion KK as [|? ? K1 K2]; subst. exact (IH oks m m' K2 O H).
  Qed.

  Lemma hist_calls : forall h db fl db' fl' oks, run_hist tb db fl h = (db', fl', oks) -> map fst oks = map snd h.
  Proof.
    induction h as [|[ev c] h IH]; intros db fl db' fl' oks RUN; cbn [run_hist] in RUN; [injection RUN as <- <- <-; reflexivity|].
    destruct (run_call tb ev db fl None c) as [w r]. destruct (run_hist tb (r_db w) (r_flt w) h) as [[d f] o] eqn:E. injection RUN as <- <- <-.
    cbn [map fst snd]. f_equal. exact (IH _ _ _ _ _ E).
  Qed.

  Lemma any_history_rows h fl0 db' fl' oks : Forall (fun ec => env_ok (fst ec)) h -> run_hist tb [] fl0 h = (db', fl', oks) ->
    exists m', hist_rows sc (map (fun ec => e_chunk (fst ec)) h) oks empty_map m' /\ kv_ok db' /\ RowsAre sc db' m' /\
      (Forall (fun ec => keeps_key sc (snd ec)) h -> row_reads tb db' fl' NoBatch m').
  Proof.
    intros EV RUN. destruct (hist_any_rows tb G h [] fl0 empty_map db' fl' oks EV) as (m' & X1 & X2 & X3 & X4); auto.
    - constructor.
    - intros f rest v _ X. discriminate.
    - constructor; [discriminate|reflexivity|discriminate].
    - exists m'. split; [exact X1|]. split; [exact X2|]. split; [exact X4|]. intro KK. constructor; auto; [discriminate|exact Logic.I|].
      apply (hist_keys _ oks empty_map m') in X1; [exact X1| |discriminate]. apply hist_calls in RUN.
      apply Forall_forall. intros o IO. assert (IN : In (fst o) (map snd h)) by (rewrite <- RUN; apply in_map, IO).
      apply in_map_iff in IN as (ec & <- & IE). rewrite Forall_forall in KK. exact (KK ec IE).
  Qed.

  Lemma any_history_queries h fl0 db' fl' oks : Forall (fun ec => env_ok (fst ec)) h -> run_hist tb [] fl0 h = (db', fl', oks) ->
    exists m', hist_rows sc (map (fun ec => e_chunk (fst ec)) h) oks empty_map m' /\
      forall ev, env_ok ev -> forall srt, sorts srt -> forall q, on_table tb q -> Forall (on_table tb) (q_inter q) ->
      forall fuel l, execute tb ev srt fuel db' fl' q NoBatch = Ok l ->
      forall r, In r l -> held m' r /\ forall f, q_filter q = Some f -> f r = true.
  Proof.
    intros EV RUN. destruct (any_history_rows h fl0 db' fl' oks EV RUN) as (m' & X1 & X2 & X3 & _). exists m'. split; [exact X1|].
    intros ev EV1 srt SRT q ON ONS fuel l E. apply (queries_sound tb G ev EV1 srt SRT db' NoBatch m' X2 Logic.I q) with (fuel:=fuel) (fl:=fl'); auto.
    destruct (q_inter q); exact X3.
  Qed.

  Lemma any_history_scan h fl0 db' fl' oks : Forall (fun ec => env_ok (fst ec)) h -> Forall (fun ec => keeps_key sc (snd ec)) h ->
    run_hist tb [] fl0 h = (db', fl', oks) -> 0 < t_prefetch tb ->
    exists m', hist_rows sc (map (fun ec => e_chunk (fst ec)) h) oks empty_map m' /\
      forall ev, env_ok ev -> quiet ev -> exists l,
      StronglySorted (fun a b => bcmp (s_pk sc a) (s_pk sc b) = Lt) l /\
      (forall r, In r l <-> m' (s_pk sc r) = Some r /\ bcmp (s_pk sc (t_empty tb)) (s_pk sc r) <> Gt) /\
      forall rv fuel acc, length l <= fuel -> scan tb ev fuel db' fl' acc rv NoBatch = (acc ++ dir rv l, Ok tt).
  Proof.
    intros EV KK RUN PF. destruct (any_history_rows h fl0 db' fl' oks EV RUN) as (m' & X1 & _ & _ & X4). specialize (X4 KK). exists m'.
    split; [exact X1|]. intros ev EV1 Q. exact (only_scan ev EV1 db' fl' NoBatch m' X4 PF Q).
  Qed.
End Only.
