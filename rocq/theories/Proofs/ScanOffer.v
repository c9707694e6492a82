(** Scans of secondary indexes with callbacks that load at most one row per call. *)

From Coq Require Import List NArith Lia Bool Arith Sorting.Sorted Sorting.Permutation.
From Verif.Model Require Import Bytes Go Keys Pebble Index Table Scan.
From Verif.Spec Require Import KeySpec StoreSpec TableSpec ScanSpec.
From Verif.Proofs Require Import BytesFacts KeysFacts PebbleFacts TableFacts WriteFacts ReadFacts IterFacts ScanFacts.
Import ListNotations.

Section Offer.
  Context {T F W : Type}.
  Variable tb : table T F.
  Variable ev : env T.
  Variable f : W -> bytes -> prog (T:=T) W.
  Variable open : bytes -> bytes -> piter.
  Variable rv : bool.
  Variable db : kv.
  Variable fl : F.
  Variable ob : option batch.
  Variable dkf : entry -> bytes.
  Variable row : entry -> T.
  Variable val : entry -> bytes.
  Variable all : list entry.
  Hypothesis PRE : 0 < t_prefetch tb.
  Hypothesis ONCE : loads_at_most_once f.
  Hypothesis TD : forall e, In e all -> to_data_key_bytes (fst e) [] = Ok (dkf e).
  Hypothesis DES : forall e, In e all -> t_deser tb (val e) (t_nil tb) = Some (row e).
  Hypothesis GK : forall l', incl l' all -> get_keys tb ev db fl ob (map dkf l') true = Ok (map val l').

  Notation size := (t_prefetch tb).
  Notation kr := (fun e : entry => (fst e, row e)).
  Notation offered := (offered ev f size).
  Notation second := (secondary_loop tb ev f open rv db fl ob).

  (** One call of the callback, with whatever its Get is. *)
  Lemma one_call {St} (get : St -> St * res T) st st' r s k : get st = (st', Ok r) ->
    (exists s' c oe, f s k = PRet s' c oe /\ run_prog get (f s k) st = (st, Ok (s', c, oe)) /\ answer (Ok r) (f s k) = (s', c, oe)) \/
    (exists g s' c oe, f s k = PGet g /\ g (Ok r) = PRet s' c oe /\ run_prog get (f s k) st = (st', Ok (s', c, oe)) /\ answer (Ok r) (f s k) = (s', c, oe)).
  Proof.
    intro G. destruct (ONCE s k) as [[s' [c [oe E]]]|[g [E H]]].
    - left. exists s', c, oe. rewrite E. auto.
    - right. destruct (H r) as [s' [c [oe [E2 _]]]]. exists g, s', c, oe. rewrite E. cbn [run_prog answer]. rewrite G, E2. auto.
  Qed.

  (** The block that the first Get reads. *)
  Lemma first_get e l it : incl (e :: l) all -> delivers open rv it (e :: l) ->
    exists it' ks, prefetch_and_get tb ev open rv db fl ob (Sst it [] [] [] 0) =
        (Sst it' ks (map fst (firstn size (e :: l))) (map val (firstn size (e :: l))) 1, Ok (row e)) /\
      delivers open rv (scan_next open rv it') (skipn size (e :: l)).
  Proof.
    intros IN D. set (n0 := size) in *.
    destruct (collect_spec open rv dkf n0 it [] [] [] 0 (e :: l) D (fun x Hx => TD x (IN x Hx))) as [it' [C D2]]; [unfold n0; lia|]. cbn [app] in C.
    exists it', (left_sorted ev (map dkf (firstn n0 (e :: l)))). split; [|exact D2].
    unfold prefetch_and_get. cbn [ss_keys length]. rewrite Nat.sub_0_r. fold n0. rewrite C. cbn [ss_keys ss_ikeys ss_it ss_vi].
    assert (GI : get_into tb ev db fl ob (map dkf (firstn n0 (e :: l))) = Ok (map val (firstn n0 (e :: l)))).
    { unfold get_into. rewrite map_length. fold n0.
      replace (length (firstn n0 (e :: l)) <=? n0) with true by (symmetry; apply Nat.leb_le; rewrite firstn_length; lia).
      apply GK. intros x Hx. apply IN. rewrite <- (firstn_skipn n0 (e :: l)). apply in_or_app; auto. }
    rewrite GI. unfold get_prefetched. cbn [ss_vals ss_vi]. destruct n0 as [|n1]; [lia|]. cbn [firstn map nth_error].
    rewrite (DES e) by (apply IN; left; auto). reflexivity.
  Qed.

  (** Inside a block. *)
  Lemma in_block blk i e it ks : incl blk all -> nth_error blk i = Some e ->
    get_prefetched tb (Sst it ks (map fst blk) (map val blk) i) = (Sst it ks (map fst blk) (map val blk) (S i), Ok (row e)).
  Proof.
    intros IN N. unfold get_prefetched. cbn [ss_vals ss_vi]. rewrite (map_nth_error val i blk N).
    rewrite (DES e) by (apply IN; eapply nth_error_In; eauto). reflexivity.
  Qed.

  Lemma skipn_nth {A} (l : list A) : forall i x, nth_error l i = Some x -> skipn i l = x :: skipn (S i) l.
  Proof. induction l as [|y l IH]; intros [|i] x H; cbn in *; try easy; [congruence|apply IH; auto]. Qed.

  (** ** What the scan does is an offering *)

  Lemma block_sound : forall fuel blk i it ks n b rest s, incl blk all -> i <= length blk ->
    length blk - i <= b -> (rest <> [] -> b = length blk - i) ->
    match prefetched_loop tb f fuel (Sst it ks (map fst blk) (map val blk) i) s with
    | inl out => snd out <> Diverge -> offered n b (map kr (skipn i blk ++ rest)) s out
    | inr (st2, s2) => ss_it st2 = it /\ forall out, offered n (b - (length blk - i)) (map kr rest) s2 out -> offered n b (map kr (skipn i blk ++ rest)) s out
    end.
  Proof.
    induction fuel as [|fuel IH]; intros blk i it ks n b rest s IN LE LB EB; cbn [prefetched_loop ss_vi ss_vals ss_ikeys]; rewrite map_length;
      destruct (i <? length blk) eqn:LT; try (apply Nat.ltb_ge in LT).
    - intro X. now destruct X.
    - split; auto. rewrite skipn_all2 by lia. cbn [app]. replace (b - (length blk - i)) with b by lia. auto.
    - apply Nat.ltb_lt in LT. destruct (nth_error blk i) as [e|] eqn:N; [|apply nth_error_None in N; lia].
      rewrite (map_nth_error fst i blk N).
      destruct b as [|b]; [lia|]. rewrite (skipn_nth _ _ _ N). cbn [app map].
      destruct (one_call _ _ _ _ s (fst e) (in_block blk i e it ks IN N)) as [(s' & c & oe & E & R & A)|(g & s' & c & oe & E & E2 & R & A)]; rewrite R.
      + destruct c, oe as [x|].
        * intros _. eapply of_fail; [easy|exact A].
        * specialize (IH blk i it ks n (S b) rest s' IN LE LB EB).
          destruct (prefetched_loop _ _ _ _ s') as [out|[st2 s2]]; rewrite (skipn_nth _ _ _ N) in IH; cbn [app map] in IH.
          { intro X. eapply of_again; eauto. }
          destruct IH as [I1 I2]. split; auto. intros out O. eapply of_again; eauto.
        * intros _. eapply of_fail; [easy|exact A].
        * intros _. apply (of_stop ev f size n (S b) _ _ _ _ _ None); [easy|exact A].
      + destruct c, oe as [x|].
        * intros _. eapply of_fail; [easy|exact A].
        * specialize (IH blk (S i) it ks n b rest s' IN LT).
          assert (LB' : length blk - S i <= b) by lia. assert (EB' : rest <> [] -> b = length blk - S i) by (intro X; specialize (EB X); lia).
          specialize (IH LB' EB').
          destruct (prefetched_loop _ _ _ _ s') as [out|[st2 s2]].
          { intro X. eapply of_next; eauto. }
          destruct IH as [I1 I2]. split; auto. intros out O. eapply of_next; eauto. apply I2.
          replace (b - (length blk - S i)) with (S b - (length blk - i)) by lia. exact O.
        * intros _. eapply of_fail; [easy|exact A].
        * intros _. apply (of_stop ev f size n (S b) _ _ _ _ _ None); [easy|exact A].
    - split; auto. rewrite skipn_all2 by lia. cbn [app]. replace (b - (length blk - i)) with b by lia. auto.
  Qed.

  Lemma incl_skip {A} n (l l' : list A) : incl l l' -> incl (skipn n l) l'.
  Proof. intros H x Hx. apply H. rewrite <- (firstn_skipn n l). apply in_or_app; auto. Qed.
  Lemma incl_first {A} n (l l' : list A) : incl l l' -> incl (firstn n l) l'.
  Proof. intros H x Hx. apply H. rewrite <- (firstn_skipn n l). apply in_or_app; auto. Qed.

  Lemma block_all {A} n (l : list A) : 0 < n -> skipn 1 (firstn n l) ++ skipn n l = skipn 1 l.
  Proof. intro H. destruct n; [lia|]. destruct l; auto. cbn [skipn firstn]. apply firstn_skipn. Qed.

  Lemma second_sound : forall fuel n it l s, incl l all -> delivers open rv it l ->
    snd (second fuel n it s) <> Diverge -> offered n 0 (map kr l) s (second fuel n it s).
  Proof.
    induction fuel as [|fuel IH]; intros n it l s IN D ND; (destruct l as [|e l];
      [inversion D as [? N|]; subst; specialize (N 0); cbn in N; cbn [secondary_loop]; rewrite N; apply of_end|]);
      inversion D as [|? ? ? V EK EV' D']; subst; cbn [secondary_loop] in *; rewrite V in *; [now destruct ND|].
    rewrite EK in *. destruct (e_ctx ev n) eqn:EC; [apply of_cancel; auto|].
    destruct (first_get e l it IN D) as (it' & ks & G & D2).
    destruct (one_call _ _ _ _ s (fst e) G) as [(s' & c & oe & E & R & A)|(g & s' & c & oe & E & E2 & R & A)]; rewrite R in *; cbn [map].
    - destruct c, oe as [x|].
      + eapply of_fail; [auto|exact A].
      + assert (PL : prefetched_loop tb f fuel (Sst it [] [] [] 0) s' = inr (Sst it [] [] [] 0, s')) by (destruct fuel; reflexivity).
        rewrite PL in *. cbn [ss_it] in *. eapply of_pass; eauto. apply IH; auto. intros x Hx. apply IN. right; auto.
      + eapply of_fail; [auto|exact A].
      + apply (of_stop ev f size n 0 _ _ _ _ _ None); [auto|exact A].
    - destruct c, oe as [x|].
      + eapply of_fail; [auto|exact A].
      + set (blk := firstn size (e :: l)) in *. set (rest := skipn size (e :: l)) in *.
        assert (EL : map kr l = map kr (skipn 1 blk ++ rest)) by (f_equal; symmetry; apply (block_all size (e :: l) PRE)).
        assert (LB : 1 <= length blk) by (unfold blk; rewrite firstn_length; cbn [length]; lia).
        assert (LS : length blk <= size) by (unfold blk; rewrite firstn_length; lia).
        assert (FU : rest <> [] -> size - 1 = length blk - 1).
        { intro X. unfold blk. rewrite firstn_length. destruct (le_lt_dec size (length (e :: l))) as [Y|Y]; [lia|].
          destruct X. unfold rest. apply skipn_all2. lia. }
        pose proof (block_sound fuel blk 1 it' ks (S n) (size - 1) rest s' (incl_first _ _ _ IN) LB ltac:(lia) FU) as BS.
        eapply of_first; eauto. rewrite EL.
        destruct (prefetched_loop _ _ _ _ s') as [out|[st2 s2]]; [apply BS; exact ND|].
        destruct BS as [I1 I2]. apply I2. rewrite I1 in *.
        assert (OF : offered (S n) 0 (map kr rest) s2 (second fuel (S n) (scan_next open rv it') s2)).
        { apply IH; auto. apply incl_skip; auto. }
        destruct rest as [|x rest]; [inversion OF; subst; apply of_end|]. rewrite (FU ltac:(easy)), Nat.sub_diag. exact OF.
      + eapply of_fail; [auto|exact A].
      + apply (of_stop ev f size n 0 _ _ _ _ _ None); [auto|exact A].
  Qed.

  (** ** Every offering is what the scan does *)

  Definition both fuel fuel2 n st s : W * res unit :=
    match prefetched_loop tb f fuel st s with
    | inl out => out
    | inr (st2, s2) => second fuel2 n (scan_next open rv (ss_it st2)) s2
    end.

  Lemma both_done fuel fuel2 n it ks (blk : list entry) s :
    both fuel fuel2 n (Sst it ks (map fst blk) (map val blk) (length blk)) s = second fuel2 n (scan_next open rv it) s.
  Proof. unfold both. destruct fuel; cbn [prefetched_loop ss_vi ss_vals ss_it]; rewrite map_length, Nat.ltb_irrefl; reflexivity. Qed.

  Lemma answer_ret (v : res T) (p : prog (T:=T) W) s c oe : p = PRet s c oe -> answer v p = (s, c, oe).
  Proof. intros ->. reflexivity. Qed.
  Lemma answer_get (v : res T) (p : prog (T:=T) W) g s c oe : p = PGet g -> g v = PRet s c oe -> answer v p = (s, c, oe).
  Proof. intros -> E. cbn. rewrite E. reflexivity. Qed.

  Lemma complete n b l s out : offered n b l s out ->
    (b = 0 -> forall it es, l = map kr es -> incl es all -> delivers open rv it es ->
       exists N, forall fuel, N <= fuel -> second fuel n it s = out) /\
    (forall blk i it ks rest, l = map kr (skipn i blk ++ rest) -> incl blk all -> incl rest all -> i < length blk -> length blk - i <= b ->
       (rest <> [] -> b = length blk - i) -> delivers open rv (scan_next open rv it) rest ->
       exists N, forall fuel fuel2, N <= fuel -> N <= fuel2 -> both fuel fuel2 n (Sst it ks (map fst blk) (map val blk) i) s = out).
  Proof.
    intro H. induction H as [n b s|n k r l s EC|n b k r l s s' c EC A|n b k r l s s' c x EC A|n k r l s s' out EC E O IH|n b k r l s s' out E O IH
                            |n k r l s s' g out EC E E2 O IH|n b k r l s s' g out E E2 O IH]; (split;
      [intros B0 it es EL IN D|intros blk i it ks rest EL IB IR LT LB EB D]).
    - destruct es as [|e es]; [|discriminate]. inversion D as [? N|]; subst. specialize (N 0). cbn in N.
      exists 0. intros fuel _. destruct fuel; cbn [secondary_loop]; rewrite N; reflexivity.
    - symmetry in EL. apply map_eq_nil, app_eq_nil in EL as [EL _].
      apply (f_equal (@length entry)) in EL. rewrite skipn_length in EL. cbn in EL. lia.
    - destruct es as [|e es]; [discriminate|]. inversion D as [|? ? ? V EK EV' D']; subst.
      exists 1. intros fuel LF. destruct fuel as [|fuel]; [lia|]. cbn [secondary_loop]. rewrite V, EC. reflexivity.
    - lia.
    - destruct es as [|e es]; [discriminate|]. inversion D as [|? ? ? V EK EV' D']; subst. cbn [map] in EL. injection EL as -> -> EL.
      exists 1. intros fuel LF. destruct fuel as [|fuel]; [lia|]. cbn [secondary_loop]. rewrite V, EC, EK by auto.
      destruct (first_get e es it IN D) as (it' & ks & G & D2).
      destruct (one_call _ _ _ _ s (fst e) G) as [(s2 & c2 & oe & E & R & A')|(g & s2 & c2 & oe & E & E2 & R & A')]; rewrite R;
        rewrite A in A'; injection A' as <- <- <-; destruct c; reflexivity.
    - destruct (nth_error blk i) as [e|] eqn:N; [|apply nth_error_None in N; lia]. rewrite (skipn_nth _ _ _ N) in EL. cbn [app map] in EL. injection EL as -> -> EL.
      exists 1. intros fuel fuel2 LF _. destruct fuel as [|fuel]; [lia|]. unfold both. cbn [prefetched_loop ss_vi ss_vals ss_ikeys].
      rewrite map_length. replace (i <? length blk) with true by (symmetry; apply Nat.ltb_lt; auto). rewrite (map_nth_error fst i blk N).
      destruct (one_call _ _ _ _ s (fst e) (in_block blk i e it ks IB N)) as [(s2 & c2 & oe & E & R & A')|(g & s2 & c2 & oe & E & E2 & R & A')]; rewrite R;
        rewrite A in A'; injection A' as <- <- <-; destruct c; reflexivity.
    - destruct es as [|e es]; [discriminate|]. inversion D as [|? ? ? V EK EV' D']; subst. cbn [map] in EL. injection EL as -> -> EL.
      exists 1. intros fuel LF. destruct fuel as [|fuel]; [lia|]. cbn [secondary_loop]. rewrite V, EC, EK by auto.
      destruct (first_get e es it IN D) as (it' & ks & G & D2).
      destruct (one_call _ _ _ _ s (fst e) G) as [(s2 & c2 & oe & E & R & A')|(g & s2 & c2 & oe & E & E2 & R & A')]; rewrite R;
        rewrite A in A'; injection A' as <- <- <-; destruct c; reflexivity.
    - destruct (nth_error blk i) as [e|] eqn:N; [|apply nth_error_None in N; lia]. rewrite (skipn_nth _ _ _ N) in EL. cbn [app map] in EL. injection EL as -> -> EL.
      exists 1. intros fuel fuel2 LF _. destruct fuel as [|fuel]; [lia|]. unfold both. cbn [prefetched_loop ss_vi ss_vals ss_ikeys].
      rewrite map_length. replace (i <? length blk) with true by (symmetry; apply Nat.ltb_lt; auto). rewrite (map_nth_error fst i blk N).
      destruct (one_call _ _ _ _ s (fst e) (in_block blk i e it ks IB N)) as [(s2 & c2 & oe & E & R & A')|(g & s2 & c2 & oe & E & E2 & R & A')]; rewrite R;
        rewrite A in A'; injection A' as <- <- <-; destruct c; reflexivity.
    - (* passed over *)
      destruct es as [|e es]; [discriminate|]. inversion D as [|? ? ? V EK EV' D']; subst. cbn [map] in EL. injection EL as -> -> EL.
      destruct (proj1 IH eq_refl (scan_next open rv it) es EL) as [N HN]; auto. { intros y Hy. apply IN. right; auto. }
      exists (S N). intros fuel LF. destruct fuel as [|fuel]; [lia|]. cbn [secondary_loop]. rewrite V, EC, EK, E. cbn [run_prog].
      assert (PL : prefetched_loop tb f fuel (Sst it [] [] [] 0) s' = inr (Sst it [] [] [] 0, s')) by (destruct fuel; reflexivity).
      rewrite PL. cbn [ss_it]. apply HN. lia.
    - lia.
    - lia.
    - (* offered again *)
      destruct (proj2 IH blk i it ks rest EL) as [N HN]; auto.
      destruct (nth_error blk i) as [e|] eqn:NE; [|apply nth_error_None in NE; lia]. rewrite (skipn_nth _ _ _ NE) in EL. cbn [app map] in EL. injection EL as -> -> EL.
      exists (S N). intros fuel fuel2 LF LF2. destruct fuel as [|fuel]; [lia|].
      rewrite <- (HN fuel fuel2) by lia. unfold both. cbn [prefetched_loop ss_vi ss_vals ss_ikeys].
      rewrite map_length. replace (i <? length blk) with true by (symmetry; apply Nat.ltb_lt; auto). rewrite (map_nth_error fst i blk NE).
      rewrite E. cbn [run_prog]. reflexivity.
    - (* the first row of a block is loaded *)
      destruct es as [|e es]; [discriminate|]. pose proof D as D0. inversion D0 as [|? ? ? V EK EV' D']; subst. cbn [map] in EL. injection EL as -> -> EL.
      destruct (first_get e es it IN D) as (it' & ks & G & D2).
      set (blk := firstn size (e :: es)) in *. set (rest := skipn size (e :: es)) in *.
      assert (EB : map kr es = map kr (skipn 1 blk ++ rest)) by (f_equal; symmetry; apply (block_all size (e :: es) PRE)).
      assert (LB : 1 <= length blk) by (unfold blk; rewrite firstn_length; cbn [length]; lia).
      assert (LS : length blk <= size) by (unfold blk; rewrite firstn_length; lia).
      assert (FU : rest <> [] -> size - 1 = length blk - 1).
      { intro X. unfold blk. rewrite firstn_length. destruct (le_lt_dec size (length (e :: es))) as [Y|Y]; [lia|].
        destruct X. unfold rest. apply skipn_all2. lia. }
      assert (X : exists N, forall fuel fuel2, N <= fuel -> N <= fuel2 -> both fuel fuel2 (S n) (Sst it' ks (map fst blk) (map val blk) 1) s' = out).
      { destruct (le_lt_dec (length blk) 1) as [L1|L1].
        - assert (L2 : length blk = 1) by lia.
          assert (ER : es = rest).
          { unfold rest, blk in *. destruct size as [|[|sz]]; [lia|reflexivity|]. rewrite firstn_length in L2. cbn [length] in L2.
            destruct es; [|cbn [length] in L2; lia]. cbn. destruct sz; reflexivity. }
          assert (EA : exists N, forall fuel, N <= fuel -> second fuel (S n) (scan_next open rv it') s' = out).
          { destruct rest as [|x rest'] eqn:RR.
            - rewrite EL, ER in O. cbn [map] in O. inversion O; subst. inversion D2 as [? NV|]; subst. specialize (NV 0). cbn in NV.
              exists 0. intros fuel _. destruct fuel; cbn [secondary_loop]; rewrite NV; reflexivity.
            - rewrite <- RR in *. apply (proj1 IH) with (es := rest); auto.
              + rewrite FU by (rewrite RR; easy). lia.
              + rewrite EL, ER. reflexivity.
              + apply incl_skip; auto. }
          destruct EA as [N HN]. exists N. intros fuel fuel2 _ LF. pose proof (both_done fuel fuel2 (S n) it' ks blk s') as BD. rewrite L2 in BD.
          rewrite BD. apply HN; auto.
        - destruct (proj2 IH blk 1 it' ks rest) as [N HN]; auto; try lia.
          + congruence.
          + apply incl_first; auto.
          + apply incl_skip; auto.
          + exists N. exact HN. }
      destruct X as [N HN]. exists (S N). intros fuel LF. destruct fuel as [|fuel]; [lia|]. cbn [secondary_loop]. rewrite V, EC, EK, E. cbn [run_prog]. rewrite G, E2. cbn [run_prog].
      rewrite <- (HN fuel fuel) by lia. reflexivity.
    - lia.
    - lia.
    - (* the next row of a block is loaded *)
      destruct (nth_error blk i) as [e|] eqn:NE; [|apply nth_error_None in NE; lia]. rewrite (skipn_nth _ _ _ NE) in EL. cbn [app map] in EL. assert (EL' : l = map kr (skipn (S i) blk ++ rest)) by congruence.
      assert (K2 : k = fst e) by congruence. assert (R2 : r = row e) by congruence. subst k r. clear EL. rename EL' into EL.
      assert (X : exists N, forall fuel fuel2, N <= fuel -> N <= fuel2 -> both fuel fuel2 n (Sst it ks (map fst blk) (map val blk) (S i)) s' = out).
      { destruct (le_lt_dec (length blk) (S i)) as [L1|L1].
        - assert (L2 : S i = length blk) by lia. rewrite L2, skipn_all2 in EL by lia. cbn [app] in EL.
          assert (EA : exists N, forall fuel, N <= fuel -> second fuel n (scan_next open rv it) s' = out).
          { destruct rest as [|x rest'] eqn:RR.
            - rewrite EL in O. cbn [map] in O. inversion O; subst. inversion D as [? NV|]; subst. specialize (NV 0). cbn in NV.
              exists 0. intros fuel _. destruct fuel; cbn [secondary_loop]; rewrite NV; reflexivity.
            - rewrite <- RR in *. apply (proj1 IH) with (es := rest); auto.
              assert (Y : rest <> []) by (rewrite RR; easy). specialize (EB Y). lia. }
          destruct EA as [N HN]. exists N. intros fuel fuel2 _ LF. pose proof (both_done fuel fuel2 n it ks blk s') as BD. rewrite L2.
          rewrite BD. apply HN; auto.
        - destruct (proj2 IH blk (S i) it ks rest) as [N HN]; auto; try lia.
          + intro Y. specialize (EB Y). lia.
          + exists N. exact HN. }
      destruct X as [N HN]. exists (S N). intros fuel fuel2 LF LF2. destruct fuel as [|fuel]; [lia|].
      rewrite <- (HN fuel fuel2) by lia. unfold both at 1. cbn [prefetched_loop ss_vi ss_vals ss_ikeys].
      rewrite map_length. replace (i <? length blk) with true by (symmetry; apply Nat.ltb_lt; auto). rewrite (map_nth_error fst i blk NE).
      rewrite E. cbn [run_prog]. rewrite (in_block blk i e it ks IB NE), E2. cbn [run_prog]. reflexivity.
  Qed.
End Offer.

(** A row read ahead that the callback always passes over keeps the scan going forever. *)
Lemma offered_stuck {T W} (ev : env T) (f : W -> bytes -> prog (T:=T) W) size k r l :
  (forall s, exists s', f s k = PRet s' true None) -> forall n b s out, ~ offered ev f size n (S b) ((k, r) :: l) s out.
Proof.
  intros P n b s out O. remember (S b) as c eqn:EB. remember ((k, r) :: l) as es eqn:EE. revert b EB.
  induction O as [| |n c k' r' l' s s' oe EC A|n c k' r' l' s s' oe x EC A| |n c k' r' l' s s' out E O IH| |n c k' r' l' s s' g out E E2 O IH]; intros b0 EB; try discriminate;
    injection EE as -> -> ->; destruct (P s) as [s2 E3]; try (rewrite E3 in A; discriminate); try (rewrite E3 in E; discriminate).
  eapply IH; eauto.
Qed.

Lemma offered_unique {T W} (ev : env T) (f : W -> bytes -> prog (T:=T) W) size n b l s out1 :
  offered ev f size n b l s out1 -> forall out2, offered ev f size n b l s out2 -> out1 = out2.
Proof.
  induction 1 as [n b s|n k r l s EC|n b k r l s s' c EC A|n b k r l s s' c x EC A|n k r l s s' out EC E O IH|n b k r l s s' out E O IH
                 |n k r l s s' g out EC E E2 O IH|n b k r l s s' g out E E2 O IH]; intros out2 O2;
    inversion O2; subst; auto; try congruence;
    repeat match goal with
    | H : 0 = 0 -> e_ctx _ _ = _ |- _ => specialize (H eq_refl)
    | H : S _ = 0 -> _ |- _ => clear H
    | H : ?f ?s ?k = PRet _ _ _, A : answer _ (?f ?s ?k) = _ |- _ => rewrite H in A; cbn [answer] in A
    | H : ?f ?s ?k = PGet _, A : answer _ (?f ?s ?k) = _ |- _ => rewrite H in A; cbn [answer] in A
    | H : ?g (Ok ?r) = PRet _ _ _, A : answer _ (?g (Ok ?r)) = _ |- _ => rewrite H in A; cbn [answer] in A
    end; try congruence; try (assert (X : s' = s'0) by congruence; subst; auto; fail);
    try (assert (X : g = g0) by congruence; subst; assert (Y : s' = s'0) by congruence; subst; auto).
  all: match goal with A : answer ?v ?p = (?a, ?b, ?c), B : answer ?v ?p = (?x, ?y, ?z) |- _ =>
    assert (a = x) by congruence; assert (b = y) by congruence; assert (c = z) by congruence; subst; try reflexivity end.
Qed.
