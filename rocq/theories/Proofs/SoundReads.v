(** Whatever the secondary indexes hold, scans and queries return rows of the table. *)

From Coq Require Import List NArith Lia Bool Arith Sorting.Sorted Sorting.Permutation.
From Verif.Model Require Import Bytes Go Keys Pebble Index Table Scan Query.
From Verif.Spec Require Import KeySpec StoreSpec TableSpec HistSpec RowsSpec ScanSpec QuerySpec SoundSpec.
From Verif.Proofs Require Import BytesFacts KeysFacts PebbleFacts TableFacts WriteFacts ReadFacts IterFacts ScanRows.
Import ListNotations.

Section Sound.
  Context {T F : Type} (tb : table T F) (G : good_table tb) (ev : env T) (EV : env_ok ev).
  Variables (db : kv) (ob : optb) (m : tmap T).
  Hypothesis KV : kv_ok db.
  Hypothesis RD : readable (batch_of ob).
  Notation sc := (schema_of tb).
  Notation st := (view db (batch_of ob)).
  Notation open := (db_iter db (batch_of ob)).
  Let LAW := good_lawful _ G.

  (** ** Where the entries come from *)

  (** an entry of the view in the area of the index *)
  Definition inside (i : byte) (e : entry) : Prop := kv_get st (fst e) = Some (snd e) /\ exists rest, fst e = t_id tb :: i :: rest.

  Lemma open_items o : items open o = kv_range st (fst o) (snd o).
  Proof. unfold items. destruct ob as [| |b]; cbn in *; auto. rewrite RD. reflexivity. Qed.

  Lemma range_inside (idx : index T) lo hi a b e : lo = t_id tb :: ix_id idx :: a -> hi = t_id tb :: ix_id idx :: b ->
    In e (items open (lo, hi)) -> inside (ix_id idx) e.
  Proof.
    intros EL EH I. rewrite open_items in I. cbn [fst snd] in I. destruct e as [k v].
    apply (kv_get_in _ k v (kv_range_ok st lo hi (view_ok _ _ KV))) in I. rewrite kv_get_range in I by (apply view_ok; exact KV).
    destruct (in_range lo hi k) eqn:R; [|easy]. split; [exact I|]. cbn [fst].
    unfold in_range in R. apply andb_prop in R as [R1 R2]. apply bleb_le in R1. apply bltb_lt in R2. rewrite EL in R1. rewrite EH in R2. exact (between_shape _ _ _ _ _ R1 R2).
  Qed.

  Section Index.
    Variable idx : index T.
    Hypothesis IDX : In idx (primary_index :: t_indexes tb).
    Notation short := (parts_short (sindex_of idx)).
    Notation K := (entry_key sc (sindex_of idx)).

    Definition good_bounds (o : bytes * bytes) : Prop := forall e, In e (items open o) -> inside (ix_id idx) e.

    Lemma range_good lo hi : short hi -> good_bounds (range_bounds tb idx lo hi).
    Proof.
      intros SH e I. unfold range_bounds in I. rewrite !(enc_eq tb LAW idx IDX) in I.
      pose proof (tail_not_ff idx hi (si_key (sindex_of idx) hi ++ be_bytes 4 (blen (si_ord (sindex_of idx) hi)) ++ si_ord (sindex_of idx) hi ++ s_pk sc hi) SH) as NA.
      eapply (range_inside idx (K lo) (key_successor (K hi))); [reflexivity|exact (succ_app [t_id tb; ix_id idx] _ NA)|exact I].
    Qed.

    Lemma point_good ex p o : short p -> point_bounds tb idx ex p = Ok o -> good_bounds o.
    Proof.
      intros SH E. unfold point_bounds in E. rewrite (enc_eq tb LAW idx IDX) in E. pose proof (short_fit idx p SH) as FP.
      assert (EK : key_prefix_of (K p) = Ok (prefix_layout (t_id tb) (ix_id idx) (si_key (sindex_of idx) p))).
      { rewrite (K_prefix tb idx). apply key_prefix_of_layout, FP. }
      rewrite EK in E. injection E as <-. destruct ex.
      - intros e I. apply (range_good p p SH). unfold range_bounds. rewrite !(enc_eq tb LAW idx IDX). exact I.
      - intros e I. pose proof (tail_not_ff idx p (si_key (sindex_of idx) p) SH) as NA.
        eapply (range_inside idx (K p)); [reflexivity|exact (succ_app [t_id tb; ix_id idx] _ NA)|exact I].
    Qed.

    Lemma points_good ex ps : forall os, Forall short ps -> points_bounds tb idx ex ps = Ok os -> Forall good_bounds os.
    Proof.
      induction ps as [|p ps IH]; intros os SH E; cbn [points_bounds] in E; [injection E as <-; constructor|].
      inversion SH as [|? ? S1 S2]; subst. destruct (point_bounds tb idx ex p) as [o| | |] eqn:EP; try discriminate.
      destruct (points_bounds tb idx ex ps) as [l| | |]; try discriminate. injection E as <-. constructor; [eapply point_good; eauto|auto].
    Qed.

    Lemma ranges_good rs : forall os, Forall short (concat rs) -> ranges_bounds tb idx rs = Ok os -> Forall good_bounds os.
    Proof.
      induction rs as [|[|lo [|hi r]] rs IH]; intros os SH E; cbn [ranges_bounds] in E; try discriminate; [injection E as <-; constructor|].
      cbn [concat] in SH. apply Forall_app in SH as [S1 S2]. destruct (ranges_bounds tb idx rs) as [l| | |]; try discriminate. injection E as <-.
      inversion S1 as [|? ? _ S3]; subst. inversion S3 as [|? ? S4 _]; subst. constructor; [apply range_good; exact S4|auto].
    Qed.

    (** the iterator moves over entries of the index *)
    Definition over (b : biter) : Prop := (exists q, brel open b q) /\ Forall (inside (ix_id idx)) (contents open b).

    Lemma flat_good os : Forall good_bounds os -> Forall (inside (ix_id idx)) (flat open os).
    Proof.
      intro H. apply Forall_forall. intros e I. apply in_flat_map in I as [o [I1 I2]]. rewrite Forall_forall in H. exact (H o I1 e I2).
    Qed.

    Lemma new_multi_fresh os b : new_multi open os = Ok b -> fresh b /\ contents open b = flat open os.
    Proof. unfold new_multi. destruct os as [|[lo hi] os]; intro E; [discriminate|]. injection E as <-. split; [easy|reflexivity]. Qed.

    Lemma iter_over sel b : Forall short (sel_records sel) -> index_iter tb db ob idx sel = Ok b ->
      fresh b /\ Forall (inside (ix_id idx)) (contents open b).
    Proof.
      intros SH E. assert (CH : forall r : res biter, match ob with NilBatch => Panic | _ => r end = Ok b -> r = Ok b) by (destruct ob; easy).
      unfold index_iter in E. destruct sel as [p|ps|lo hi|rs|]; cbn [sel_records] in SH.
      - destruct (point_bounds tb idx false p) as [[lo hi]| | |] eqn:EP; try discriminate. apply CH in E. injection E as <-. split; [exact Logic.I|].
        inversion SH; subst. pose proof (point_good false p (lo, hi) ltac:(assumption) EP) as GB. apply Forall_forall. exact GB.
      - destruct (points_bounds tb idx _ ps) as [os| | |] eqn:EP; try discriminate. apply CH, new_multi_fresh in E as [E1 E2]. split; auto.
        rewrite E2. eapply flat_good, points_good; eauto.
      - destruct (range_bounds tb idx lo hi) as [a c] eqn:EP. apply CH in E. injection E as <-. split; [exact Logic.I|].
        inversion SH as [|? ? _ S3]; subst. inversion S3; subst. pose proof (range_good lo hi ltac:(assumption)) as GB. rewrite EP in GB. apply Forall_forall. exact GB.
      - destruct (ranges_bounds tb idx rs) as [os| | |] eqn:EP; try discriminate. apply CH, new_multi_fresh in E as [E1 E2]. split; auto.
        rewrite E2. eapply flat_good, ranges_good; eauto.
      - injection E as <-. split; [exact Logic.I|constructor].
    Qed.

    Lemma over_first rv b : fresh b -> Forall (inside (ix_id idx)) (contents open b) -> over (scan_first open rv b).
    Proof.
      intros FR C. unfold scan_first. destruct rv.
      - destruct (last_brel open b FR) as [B E]. split; [eauto|now rewrite E].
      - destruct (first_brel open b FR) as [B E]. split; [eauto|now rewrite E].
    Qed.

    Lemma over_next rv b : over b -> over (scan_next open rv b).
    Proof.
      intros [[q B] C]. unfold scan_next. destruct rv.
      - destruct (prev_brel open b q B) as [B' [E _]]. split; [eauto|now rewrite E].
      - destruct (next_brel open b q B) as [B' [E _]]. split; [eauto|now rewrite E].
    Qed.

    Lemma over_valid b : over b -> bi_valid b = true -> inside (ix_id idx) (bi_key b, bi_value b).
    Proof.
      intros [[q B] C] V. destruct (brel_item open b q B) as [IT VA]. rewrite V in VA.
      assert (X : exists e, it_item (bi_cur b) = Some e).
      { clear C. unfold bi_valid in V. destruct b as [p|opts i p]; cbn [brel bi_cur] in *.
        - destruct B as [<- L]. unfold it_valid in V. unfold it_item. destruct (pi_pos p) as [|n| |]; try discriminate.
          destruct (nth_error (pi_items p) n) eqn:N; [eauto|apply nth_error_None in N; lia].
        - destruct B as [pre [o [post [_ [_ [EI H]]]]]]. unfold it_valid in V. unfold it_item. destruct (pi_pos p) as [|n| |]; try discriminate.
          destruct H as [L _]. destruct (nth_error (pi_items p) n) eqn:N; [eauto|apply nth_error_None in N; rewrite EI in N; lia]. }
      destruct X as [e X]. unfold bi_key, bi_value, it_key, it_value. rewrite X. rewrite IT in X.
      unfold it_item in X. cbn [pi_pos pi_items] in X. destruct q as [|n| |]; try discriminate. apply nth_error_In in X.
      rewrite Forall_forall in C. specialize (C e X). destruct e; exact C.
    Qed.

    Lemma data_key_of b k : over b -> bi_valid b = true -> to_data_key_bytes (bi_key b) [] = Ok k -> exists rest, k = t_id tb :: x00 :: rest.
    Proof.
      intros O V E. destruct (over_valid b O V) as [_ [rest ER]]. cbn [fst] in ER. rewrite ER in E. unfold to_data_key_bytes in E.
      destruct (slice _ 2 6) as [ilb|]; [|discriminate]. destruct (slice _ _ _) as [olb|]; [|discriminate]. destruct (slice _ _ _) as [pk|]; [|discriminate].
      injection E as <-. cbn [app]. eauto.
    Qed.
  End Index.

  (** ** What is read *)

  Notation S := (held m).

  (** a value that decodes, if at all, to a row of the table *)
  Definition row_value (v : bytes) : Prop := forall r, t_deser tb v (t_nil tb) = Some r -> S r.

  Lemma row_value_at s0 k v : RowsAre sc s0 m -> (exists rest, k = t_id tb :: x00 :: rest) -> kv_get s0 k = Some v -> row_value v.
  Proof.
    intros R [rest ->] E r D. destruct (ra_data _ _ _ R rest v E) as [p EP]. change (s_id sc) with (t_id tb) in EP.
    rewrite EP, (ra_get _ _ _ R) in E. destruct (m p) as [o|] eqn:EM; [|discriminate].
    cbn in E. pose proof (good_ser _ G o v (t_nil tb) E) as X. rewrite X in D. injection D as <-. exists p. exact EM.
  Qed.

  Lemma get_value_some s0 lo hi fl k v : kv_ok s0 -> get_value tb fl (new_iter s0 lo hi) k = Some v -> kv_get s0 k = Some v.
  Proof.
    intros K. unfold get_value. destruct (negb (flt_may tb fl k)); [discriminate|]. cbn zeta.
    destruct (it_valid _) eqn:V; [|discriminate]. destruct (beqb _ k) eqn:B; [|discriminate]. cbn. intro E. injection E as <-. apply beqb_eq in B.
    unfold it_valid, it_key, it_value in *. destruct (it_item _) as [[k' v']|] eqn:IT; cbn [fst snd] in *.
    - subst k'. unfold it_item, it_seek_ge in IT. cbn [pi_pos pi_items new_iter] in IT.
      destruct (find_ge _ k 0); [|discriminate]. apply nth_error_In in IT.
      apply (kv_get_in _ k v' (kv_range_ok s0 lo hi K)) in IT. rewrite kv_get_range in IT by exact K. destruct (in_range lo hi k); [exact IT|discriminate].
    - exfalso. unfold it_item, it_seek_ge in *. cbn [pi_pos pi_items new_iter] in *.
      pose proof (find_ge_spec (kv_range s0 lo hi) k 0) as FS. destruct (find_ge _ k 0) as [n|]; [|discriminate].
      destruct FS as (i & e & -> & N & _). cbn in IT. rewrite N in IT. discriminate.
  Qed.

  Lemma get_values_some s0 lo hi fl ks : kv_ok s0 -> forall vs, get_values tb fl (new_iter s0 lo hi) ks true = Ok vs ->
    Forall2 (fun k v => kv_get s0 k = Some v) ks vs.
  Proof.
    intros K. induction ks as [|k ks IH]; intros vs E; cbn [get_values] in E; [injection E as <-; constructor|].
    destruct (get_value tb fl _ k) as [v|] eqn:GV; [|discriminate]. destruct (get_values _ _ _ ks true) as [l| | |]; try discriminate.
    injection E as <-. constructor; [eapply get_value_some; eauto|auto].
  Qed.

  Lemma sorted_in ks k : In k (fst (sort_keys ev ks)) -> In k ks.
  Proof.
    unfold sort_keys. cbn [fst]. intro H. apply in_map_iff in H as [i [<- I]]. apply nth_In.
    pose proof (Permutation_in _ (env_sort_perm _ EV ks) I) as J. apply in_seq in J. lia.
  Qed.

  Lemma view_iter o lo hi : readable o -> db_iter db o lo hi = new_iter (view db o) lo hi.
  Proof. destruct o as [b|]; cbn; auto. intros ->. reflexivity. Qed.

  Lemma get_keys_rows o fl ks vs : readable o -> RowsAre sc (view db o) m -> Forall (fun k => exists rest, k = t_id tb :: x00 :: rest) ks ->
    get_keys tb ev db fl o ks true = Ok vs -> Forall row_value vs.
  Proof.
    intros RO R FK E. unfold get_keys in E. destruct ks as [|k ks]; [injection E as <-; constructor|]. set (all := k :: ks) in *.
    pose proof (env_sort_perm _ EV all) as P. pose proof (sorted_in all) as SI. destruct (sort_keys ev all) as [sks od] eqn:SK. cbn [fst] in SI.
    assert (EO : od = e_sort ev all) by (unfold sort_keys in SK; injection SK as _ <-; reflexivity).
    assert (ES : length sks = length all) by (unfold sort_keys in SK; injection SK as <- _; rewrite map_length, (Permutation_length P), seq_length; reflexivity).
    subst od. rewrite view_iter in E by exact RO. destruct (get_values tb fl _ sks true) as [l| | |] eqn:GV; try discriminate.
    injection E as <-. apply get_values_some in GV; [|apply view_ok; exact KV].
    assert (LEN : length l = length all) by (rewrite <- (Forall2_len _ _ _ GV); exact ES).
    assert (RL : forall v, In v l -> row_value v).
    { intros v I. assert (X : exists x, In x sks /\ kv_get (view db o) x = Some v).
      { clear - GV I. induction GV as [|a b la lb H F2 IH]; [easy|]. destruct I as [->|I]; [exists a; split; [left|]; auto|].
        destruct (IH I) as [x [X1 X2]]. exists x. split; [right|]; auto. }
      destruct X as [x [X1 X2]]. rewrite Forall_forall in FK. exact (row_value_at _ x v R (FK x (SI x X1)) X2). }
    apply Forall_forall. intros v I. apply in_map_iff in I as [i [<- I]]. rewrite LEN in I.
    destruct (index_of_spec i (e_sort ev all)) as [j [J1 J2]].
    { eapply Permutation_in; [symmetry; exact P|]. exact I. }
    rewrite J1. apply RL, nth_In. rewrite LEN. assert (j < length (e_sort ev all)) by (apply nth_error_Some; rewrite J2; discriminate).
    rewrite (Permutation_length P), seq_length in *. assumption.
  Qed.

  (** ** Scans *)

  Section Scan.
    Context {W : Type} (f : W -> bytes -> prog (T:=T) W) (P : W -> Prop) (rv : bool) (fl : F).
    Hypothesis KEEP : forall s k, P s -> keeps S P (f s k).
    Hypothesis ROWS : RowsAre sc st m.

    Lemma run_keeps {St} (get : St -> St * res T) (J : St -> Prop) :
      (forall x, J x -> J (fst (get x)) /\ forall r, snd (get x) = Ok r -> S r) ->
      forall p x, J x -> keeps S P p ->
        J (fst (run_prog get p x)) /\ forall s c e, snd (run_prog get p x) = Ok (s, c, e) -> P s.
    Proof.
      intros GET. induction p as [s c e|k IH]; intros x JX KP; cbn [run_prog].
      - split; [exact JX|]. intros s' c' e' E. injection E as <- _ _. exact KP.
      - destruct (GET x JX) as [J1 S1]. destruct (get x) as [x' v]. cbn [fst snd] in *. cbn [keeps] in KP.
        destruct v as [r|e| |]; [apply IH; [exact J1|apply KP; exact S1]|apply IH; [exact J1|apply KP; exact S1]|..]; (split; [exact J1|discriminate]).
    Qed.

    Lemma primary_keeps idx : ix_id idx = x00 -> forall fuel n it s, over idx it -> P s -> P (fst (primary_loop tb ev f open rv fuel n it s)).
    Proof.
      intros PR. induction fuel as [|fuel IH]; intros n it s O PS; cbn [primary_loop].
      - destruct (bi_valid it); exact PS.
      - destruct (bi_valid it) eqn:V; [|exact PS]. destruct (e_ctx ev n); [exact PS|].
        assert (GET : forall x, over idx x /\ bi_valid x = true -> (over idx (fst (get_value_of tb x)) /\ bi_valid (fst (get_value_of tb x)) = true) /\
                        forall r, snd (get_value_of tb x) = Ok r -> S r).
        { intros x [OX VX]. split; [auto|]. intros r E. cbn [snd get_value_of] in E.
          destruct (over_valid idx x OX VX) as [KG SH]. cbn [fst snd] in *. rewrite PR in SH.
          destruct (t_deser tb (bi_value x) (t_nil tb)) as [r'|] eqn:D; [|discriminate]. injection E as <-.
          exact (row_value_at _ _ _ ROWS SH KG _ D). }
        destruct (run_keeps (get_value_of tb) _ GET (f s (bi_key it)) it (conj O V) (KEEP s (bi_key it) PS)) as [[J _] K].
        destruct (run_prog (get_value_of tb) (f s (bi_key it)) it) as [it' [[[s' c] e]|e| |]]; cbn [fst snd] in *; try exact PS.
        specialize (K s' c e eq_refl). destruct c, e; try exact K. apply IH; [apply over_next; exact J|exact K].
    Qed.

    (** the local variables of the scan of a secondary index *)
    Definition fine idx (x : sst) : Prop :=
      over idx (ss_it x) /\ Forall (fun k => exists rest, k = t_id tb :: x00 :: rest) (ss_keys x) /\ Forall row_value (ss_vals x).

    Lemma collect_fine idx n : forall x, fine idx x -> fine idx (fst (collect open rv n x)).
    Proof.
      induction n as [n IH] using lt_wf_ind. intros x FX. pose proof FX as (A & B & C).
      destruct n as [|n]; cbn [collect]; (destruct (bi_valid (ss_it x)) eqn:V; [|exact FX]);
        (destruct (to_data_key_bytes _ []) as [k| | |] eqn:E; try exact FX);
        (assert (BK : Forall (fun k => exists rest, k = t_id tb :: x00 :: rest) (ss_keys x ++ [k]));
          [apply Forall_app; split; [exact B|]; constructor; [exact (data_key_of idx _ k A V E)|constructor]|]).
      - exact (conj A (conj BK C)).
      - destruct n as [|n]; cbn [fst ss_it ss_keys ss_ikeys ss_vals ss_vi].
        + exact (conj A (conj BK C)).
        + apply IH; [lia|]. split; cbn [ss_it ss_keys ss_vals]; [apply over_next; exact A|exact (conj BK C)].
    Qed.

    Lemma prefetched_fine idx x : fine idx x -> fine idx (fst (get_prefetched tb x)) /\ forall r, snd (get_prefetched tb x) = Ok r -> S r.
    Proof.
      intros (A & B & C). unfold get_prefetched. destruct (nth_error (ss_vals x) (ss_vi x)) as [v|] eqn:N; [|split; [exact (conj A (conj B C))|discriminate]].
      destruct (t_deser tb v (t_nil tb)) as [r|] eqn:D; cbn [fst snd]; [|split; [exact (conj A (conj B C))|discriminate]].
      split; [exact (conj A (conj B C))|]. intros r' E. injection E as <-. rewrite Forall_forall in C. apply nth_error_In in N. exact (C v N r D).
    Qed.

    Lemma prefetch_fine idx x : fine idx x -> fine idx (fst (prefetch_and_get tb ev open rv db fl (batch_of ob) x)) /\
      forall r, snd (prefetch_and_get tb ev open rv db fl (batch_of ob) x) = Ok r -> S r.
    Proof.
      intros FX. unfold prefetch_and_get. pose proof (collect_fine idx (t_prefetch tb - length (ss_keys x)) x FX) as FC.
      destruct (collect open rv _ x) as [x1 r1]. cbn [fst] in FC. destruct r1; try (split; [exact FC|discriminate]).
      destruct FC as (A & B & C).
      assert (BS : Forall (fun k => exists rest, k = t_id tb :: x00 :: rest) (left_sorted ev (ss_keys x1))).
      { unfold left_sorted. destruct (ss_keys x1) as [|k ks] eqn:EK; [constructor|]. rewrite <- EK in *.
        apply Forall_forall. intros y Y. apply sorted_in in Y. rewrite Forall_forall in B. exact (B y Y). }
      cbn zeta. destruct (get_into tb ev db fl (batch_of ob) (ss_keys x1)) as [vs|e| |] eqn:GI.
      - apply prefetched_fine. split; [exact A|]. split; [exact BS|]. cbn [ss_vals].
        unfold get_into in GI. destruct (Nat.leb _ _).
        + exact (get_keys_rows _ _ _ _ RD ROWS B GI).
        + destruct (sort_keys ev (ss_keys x1)) as [sk od]. destruct (get_values _ _ _ _ _); discriminate.
      - cbn [fst snd]. split; [|discriminate]. split; [exact A|]. split; [exact BS|constructor].
      - split; [exact (conj A (conj B C))|discriminate].
      - split; [exact (conj A (conj B C))|discriminate].
    Qed.

    Lemma prefetched_loop_keeps idx : forall fuel x s, fine idx x -> P s ->
      match prefetched_loop tb f fuel x s with inl out => P (fst out) | inr (x', s') => fine idx x' /\ P s' end.
    Proof.
      induction fuel as [|fuel IH]; intros x s FX PS; cbn [prefetched_loop].
      - destruct (Nat.ltb _ _); [exact PS|auto].
      - destruct (Nat.ltb _ _); [|auto]. destruct (nth_error (ss_ikeys x) (ss_vi x)) as [k|]; [|exact PS].
        destruct (run_keeps (get_prefetched tb) (fine idx) (prefetched_fine idx) (f s k) x FX (KEEP s k PS)) as [J K].
        destruct (run_prog (get_prefetched tb) (f s k) x) as [x' [[[s' c] e]|e| |]]; cbn [fst snd] in *; try exact PS.
        specialize (K s' c e eq_refl). destruct c, e; try exact K. apply IH; assumption.
    Qed.

    Lemma secondary_keeps idx : forall fuel n it s, over idx it -> P s ->
      P (fst (secondary_loop tb ev f open rv db fl (batch_of ob) fuel n it s)).
    Proof.
      induction fuel as [|fuel IH]; intros n it s O PS; cbn [secondary_loop].
      - destruct (bi_valid it); exact PS.
      - destruct (bi_valid it) eqn:V; [|exact PS]. destruct (e_ctx ev n); [exact PS|].
        assert (F0 : fine idx (Sst it [] [] [] 0)) by (split; [exact O|split; constructor]).
        destruct (run_keeps _ (fine idx) (prefetch_fine idx) (f s (bi_key it)) _ F0 (KEEP s (bi_key it) PS)) as [J K].
        destruct (run_prog _ (f s (bi_key it)) _) as [x1 [[[s1 c] e]|e| |]]; cbn [fst snd] in *; try exact PS.
        specialize (K s1 c e eq_refl). destruct c, e; try exact K.
        pose proof (prefetched_loop_keeps idx fuel x1 s1 J K) as PL. destruct (prefetched_loop tb f fuel x1 s1) as [out|[x2 s2]]; [exact PL|].
        destruct PL as [F2 P2]. apply IH; [apply over_next; exact (proj1 F2)|exact P2].
    Qed.

    Lemma scan_keeps idx sel fuel s : In idx (primary_index :: t_indexes tb) -> Forall (parts_short (sindex_of idx)) (sel_records sel) ->
      P s -> P (fst (scan_index_for_each tb ev fuel db fl idx sel f rv ob s)).
    Proof.
      intros HI SH PS. unfold scan_index_for_each. destruct (index_iter tb db ob idx sel) as [it| | |] eqn:E; try exact PS.
      destruct (iter_over idx HI sel it SH E) as [FR C]. pose proof (over_first idx rv it FR C) as O.
      destruct (Byte.eqb (ix_id idx) primary_index_id) eqn:B.
      - apply (primary_keeps idx); auto. apply Byte.byte_dec_bl in B. exact B.
      - apply (secondary_keeps idx); auto.
    Qed.
  End Scan.
End Sound.
