(** The scan loops, over any iterator. *)

From Coq Require Import List NArith Lia Bool Arith Sorting.Sorted Sorting.Permutation.
From Verif.Model Require Import Bytes Go Keys Pebble Index Table Scan.
From Verif.Spec Require Import KeySpec StoreSpec TableSpec ScanSpec.
From Verif.Proofs Require Import BytesFacts KeysFacts PebbleFacts TableFacts WriteFacts ReadFacts IterFacts.
Import ListNotations.

Lemma run_prog_answer {T W St} (get : St -> St * res T) (v : res T) (p : prog (T:=T) W) st :
  get st = (st, v) -> v <> Panic -> v <> Diverge -> run_prog get p st = (st, Ok (answer v p)).
Proof.
  intros G N1 N2. induction p as [s c e|k IH]; cbn [run_prog answer]; auto.
  rewrite G. destruct v; try easy; apply IH.
Qed.

Lemma visit_go_app {T W} (f : W -> bytes -> prog (T:=T) W) l1 : forall l2 s,
  visit_go f (l1 ++ l2) s = match visit_go f l1 s with inl o => inl o | inr s' => visit_go f l2 s' end.
Proof.
  induction l1 as [|[k r] l1 IH]; intros l2 s; cbn [app visit_go]; auto.
  destruct (answer (Ok r) (f s k)) as [[s' [|]] [e|]]; auto.
Qed.

Lemma visit_go_firstn {T W} (f : W -> bytes -> prog (T:=T) W) l s k out : visit_go f (firstn k l) s = inl out -> visit_go f l s = inl out.
Proof. intro H. rewrite <- (firstn_skipn k l), visit_go_app, H. reflexivity. Qed.

Lemma within_zero {T W} (f : W -> bytes -> prog (T:=T) W) x l s : ~ within f (x :: l) s 0.
Proof. intros [H|[o H]]; [cbn in H; lia|discriminate]. Qed.

Lemma within_cons {T W} (f : W -> bytes -> prog (T:=T) W) k r l s n s' : answer (Ok r) (f s k) = (s', true, None) ->
  within f ((k, r) :: l) s (S n) -> within f l s' n.
Proof. intros E [H|[o H]]; [left; cbn in H; lia|right]. exists o. cbn [firstn visit_go] in H. rewrite E in H. exact H. Qed.

Lemma within_app_l {T W} (f : W -> bytes -> prog (T:=T) W) a b s n : within f (a ++ b) s n -> within f a s n.
Proof.
  intros [H|[o H]]; [left; rewrite app_length in H; lia|]. destruct (le_lt_dec (length a) n) as [L|L]; [left; auto|right].
  exists o. rewrite firstn_app in H. replace (n - length a) with 0 in H by lia. cbn in H. rewrite app_nil_r in H. exact H.
Qed.

Lemma within_app_r {T W} (f : W -> bytes -> prog (T:=T) W) a b s n s' : visit_go f a s = inr s' -> within f (a ++ b) s n -> within f b s' n.
Proof.
  intros E [H|[o H]]; [left; rewrite app_length in H; lia|].
  destruct (le_lt_dec (length a) n) as [L|L].
  - rewrite firstn_app, (firstn_all2 a), visit_go_app, E in H by lia. right. exists o.
    rewrite <- (firstn_skipn (n - length a) (firstn n b)), firstn_firstn, visit_go_app.
    replace (Nat.min (n - length a) n) with (n - length a) by lia. rewrite H. reflexivity.
  - rewrite firstn_app in H. replace (n - length a) with 0 in H by lia. cbn in H. rewrite app_nil_r in H.
    apply visit_go_firstn in H. congruence.
Qed.

Section Loops.
  Context {T F W : Type}.
  Variable tb : table T F.
  Variable ev : env T.
  Variable f : W -> bytes -> prog (T:=T) W.
  Variable open : bytes -> bytes -> piter.
  Variable rv : bool.

  Notation visited := (visited ev f).

  Lemma visited_nil s : visited [] s (s, Ok tt).
  Proof. split; auto. Qed.

  Lemma visited_app l1 l2 s s' out : visit_go f l1 s = inr s' -> visited l2 s' out -> visited (l1 ++ l2) s out.
  Proof.
    intros V [A B]. assert (E : visit f (l1 ++ l2) s = visit f l2 s').
    { unfold visit. rewrite visit_go_app, V. reflexivity. }
    split; [intro Q; rewrite E; auto|]. destruct B as [B|[k [s2 [B1 [B2 B3]]]]]; [left; congruence|].
    right. exists (length l1 + k), s2. rewrite app_length. split; [lia|]. split; auto.
    rewrite firstn_app_2, visit_go_app, V. exact B2.
  Qed.

  Lemma visited_end l1 l2 s out : visit_go f l1 s = inl out -> visited (l1 ++ l2) s out.
  Proof.
    intros V. assert (E : visit f (l1 ++ l2) s = out) by (unfold visit; rewrite visit_go_app, V; reflexivity).
    split; auto.
  Qed.

  Lemma visited_cancel l s n : l <> [] -> e_ctx ev n = true -> visited l s (s, Err ECtx).
  Proof.
    intros NE C. split; [intro Q; rewrite Q in C; easy|]. right. exists 0, s. destruct l; [easy|]. cbn. split; [lia|auto].
  Qed.

  Lemma primary_visited : forall l rs it fuel n s,
    delivers open rv it l -> Forall2 (fun e r => t_deser tb (snd e) (t_nil tb) = Some r) l rs ->
    within f (combine (map fst l) rs) s fuel ->
    visited (combine (map fst l) rs) s (primary_loop tb ev f open rv fuel n it s).
  Proof.
    induction l as [|e l IH]; intros rs it fuel n s D R WI.
    - inversion R; subst. inversion D as [? N|]; subst. specialize (N 0). cbn in N.
      destruct fuel; cbn [primary_loop]; rewrite N; apply visited_nil.
    - inversion D as [|? ? ? V EK EV' D']; subst. inversion R as [|? r ? rs' Er R']; subst. cbn [map combine] in *.
      destruct fuel as [|fuel]; [apply within_zero in WI; easy|]. cbn [primary_loop]. rewrite V.
      assert (RP : run_prog (get_value_of tb) (f s (bi_key it)) it = (it, Ok (answer (Ok r) (f s (bi_key it))))).
      { apply run_prog_answer; try easy. unfold get_value_of. rewrite EV', Er. reflexivity. }
      rewrite RP. rewrite EK.
      destruct (answer (Ok r) (f s (fst e))) as [[s' c] oe] eqn:EA.
      destruct (e_ctx ev n) eqn:EC; [eapply visited_cancel; [easy|exact EC]|].
      change ((fst e, r) :: combine (map fst l) rs') with ([(fst e, r)] ++ combine (map fst l) rs').
      destruct c, oe as [x|]; [apply visited_end| |apply visited_end|apply visited_end];
        try (cbn [visit_go]; rewrite EA; reflexivity).
      eapply visited_app; [cbn [visit_go]; rewrite EA; reflexivity|]. apply IH; auto. eapply within_cons; [exact EA|exact WI].
  Qed.

  (** ** Secondary *)
  Variable db : kv.
  Variable fl : F.
  Variable ob : option batch.
  Variable dkf : entry -> bytes.

  Lemma collect_spec : forall n it ks iks vs vi l, delivers open rv it l ->
    (forall e, In e l -> to_data_key_bytes (fst e) [] = Ok (dkf e)) -> 0 < n ->
    exists it', collect open rv n (Sst it ks iks vs vi) =
      (Sst it' (ks ++ map dkf (firstn n l)) (iks ++ map fst (firstn n l)) vs vi, Ok tt) /\
      delivers open rv (scan_next open rv it') (skipn n l).
  Proof.
    induction n as [|n IH]; intros it ks iks vs vi l D TD LT; [lia|]. destruct l as [|e l].
    - exists it. cbn [firstn map skipn]. rewrite !app_nil_r. split; [|apply delivers_next_nil; auto].
      inversion D as [? N|]; subst. specialize (N 0). cbn in N. cbn [collect ss_it]. rewrite N. reflexivity.
    - inversion D as [|? ? ? V EK EV' D']; subst. cbn [collect ss_it]. rewrite V, EK, (TD e (or_introl eq_refl)).
      cbn [firstn map skipn ss_keys ss_ikeys ss_vals ss_vi ss_it]. destruct n as [|n].
      + exists it. cbn [firstn map skipn]. auto.
      + destruct (IH (scan_next open rv it) (ks ++ [dkf e]) (iks ++ [fst e]) vs vi l D') as [it' [C D2]]; [|lia|].
        { intros; apply TD; right; auto. }
        exists it'. rewrite C, <- !app_assoc. auto.
  Qed.

  Lemma run_one_get {St} (get : St -> St * res T) (p : prog (T:=T) W) Q st st' r :
    one_get p Q -> get st = (st', Ok r) ->
    run_prog get p st = (st', Ok (answer (Ok r) p)) /\
    (forall s, answer (Ok r) p = (s, true, None) -> Q s).
  Proof.
    intros [k [-> H]] G. destruct (H r) as [s [c [e [E HQ]]]]. cbn [run_prog answer]. rewrite G, E. cbn. split; auto.
    intros s' X. injection X as -> -> ->. apply HQ; auto.
  Qed.

  Variable L : W -> Prop.
  Hypothesis LOAD : forall s k, L s -> one_get (f s k) L.
  Hypothesis STEADY : forall s k, no_get (f s k) \/ one_get (f s k) L.

  Lemma prefetched_spec : forall rest done it ks s fuel rs vs,
    L s -> within f (combine rest (skipn (length done) rs)) s fuel ->
    Forall2 (fun v r => t_deser tb v (t_nil tb) = Some r) vs rs -> length done + length rest = length vs ->
    prefetched_loop tb f fuel (Sst it ks (done ++ rest) vs (length done)) s =
    match visit_go f (combine rest (skipn (length done) rs)) s with
    | inl out => inl out
    | inr s' => inr (Sst it ks (done ++ rest) vs (length vs), s')
    end.
  Proof.
    induction rest as [|k rest IH]; intros done it ks s fuel rs vs HL LE F2 LEN.
    - cbn [length combine visit_go] in *. destruct fuel; cbn [prefetched_loop ss_vi ss_vals];
        replace (length done <? length vs) with false by (symmetry; apply Nat.ltb_ge; lia);
        replace (length done) with (length vs) by lia; reflexivity.
    - cbn [length] in LEN. destruct (nth_error vs (length done)) as [v|] eqn:EV'; [|apply nth_error_None in EV'; lia].
      destruct (Forall2_nth_error _ _ _ F2 _ _ EV') as [r [ER DR]].
      assert (SK : skipn (length done) rs = r :: skipn (S (length done)) rs).
      { clear - ER. revert ER. generalize (length done). induction rs as [|y rs IH]; intros [|n] E; cbn in *; try easy; [congruence|apply IH; auto]. }
      rewrite SK in *. cbn [combine] in LE.
      destruct fuel as [|fuel]; [apply within_zero in LE; easy|]. cbn [prefetched_loop ss_vi ss_vals ss_ikeys].
      replace (length done <? length vs) with true by (symmetry; apply Nat.ltb_lt; lia).
      rewrite nth_error_app2 by lia. rewrite Nat.sub_diag. cbn [nth_error].
      assert (G : get_prefetched tb (Sst it ks (done ++ k :: rest) vs (length done)) =
                  (Sst it ks (done ++ k :: rest) vs (S (length done)), Ok r)).
      { unfold get_prefetched. cbn [ss_vals ss_vi]. rewrite EV', DR. reflexivity. }
      destruct (run_one_get _ _ _ _ _ _ (LOAD s k HL) G) as [RP HQ]. rewrite RP.
      cbn [combine visit_go]. destruct (answer (Ok r) (f s k)) as [[s' c] oe] eqn:EA.
      destruct c, oe as [x|]; auto.
      specialize (IH (done ++ [k]) it ks s' fuel rs vs (HQ s' eq_refl)). rewrite app_length, <- app_assoc in IH. cbn [length app] in IH.
      rewrite Nat.add_1_r in IH. rewrite IH; auto; [|lia].
      eapply within_cons; [exact EA|exact LE].
  Qed.

  Lemma visit_go_L l : forall s s', L s -> visit_go f l s = inr s' -> L s'.
  Proof.
    induction l as [|[k r] l IH]; intros s s' HL; cbn [visit_go]; [congruence|].
    destruct (LOAD s k HL) as [kk [E H]]. rewrite E. cbn [answer]. destruct (H r) as [s2 [c [e [E2 HQ]]]]. rewrite E2. cbn [answer].
    destruct c, e; try easy. intro V. eapply IH; [|exact V]. auto.
  Qed.

  Variable row : entry -> T.
  Variable val : entry -> bytes.
  Hypothesis PRE : 0 < t_prefetch tb.

  Lemma secondary_visited : forall m l it fuel n s, length l <= m ->
    delivers open rv it l ->
    (forall e, In e l -> to_data_key_bytes (fst e) [] = Ok (dkf e)) ->
    (forall e, In e l -> t_deser tb (val e) (t_nil tb) = Some (row e)) ->
    (forall l', incl l' l -> get_keys tb ev db fl ob (map dkf l') true = Ok (map val l')) ->
    within f (map (fun e => (fst e, row e)) l) s fuel ->
    visited (map (fun e => (fst e, row e)) l) s (secondary_loop tb ev f open rv db fl ob fuel n it s).
  Proof.
    induction m as [|m IH]; intros l it fuel n s LM D TD DES GK LE; (destruct l as [|e l];
     [inversion D as [? N|]; subst; specialize (N 0); cbn in N;
      destruct fuel; cbn [secondary_loop]; rewrite N; apply visited_nil|]); [cbn in LM; lia|].
    inversion D as [|? ? ? V EK EV' D']; subst. destruct fuel as [|fuel]; [apply within_zero in LE; easy|].
    cbn [secondary_loop]. rewrite V, EK. destruct (e_ctx ev n) eqn:EC; [eapply visited_cancel; [easy|exact EC]|].
    destruct (STEADY s (fst e)) as [[s1 [c [oe E]]]|OG].
    - (* skipped without loading *)
      rewrite E. cbn [run_prog map].
      change ((fst e, row e) :: map (fun e => (fst e, row e)) l) with ([(fst e, row e)] ++ map (fun e => (fst e, row e)) l).
      destruct c, oe as [x|]; [apply visited_end| |apply visited_end|apply visited_end];
        try (cbn [visit_go]; rewrite E; reflexivity).
      assert (PL : prefetched_loop tb f fuel (Sst it [] [] [] 0) s1 = inr (Sst it [] [] [] 0, s1)) by (destruct fuel; reflexivity).
      rewrite PL. cbn [ss_it]. eapply visited_app; [cbn [visit_go]; rewrite E; reflexivity|].
      apply IH; auto; try (intros; [apply TD || apply DES]; right; auto); try (cbn in LM; lia).
      2:{ eapply within_cons; [|exact LE]. rewrite E. reflexivity. }
      intros l' H. apply GK. intros x Hx. right. auto.
    - (* loading prefetches a block *)
      set (n0 := t_prefetch tb) in *.
      destruct (collect_spec (n0 - length (@nil bytes)) it [] [] [] 0 (e :: l) D TD) as [it' [C D2]]; [cbn; lia|].
      cbn [length] in C, D2. rewrite Nat.sub_0_r in *. cbn [app] in C.
      set (blk := firstn n0 (e :: l)) in *. set (rest := skipn n0 (e :: l)) in *.
      assert (EL : e :: l = blk ++ rest) by (symmetry; apply firstn_skipn).
      assert (GI : get_into tb ev db fl ob (map dkf blk) = Ok (map val blk)).
      { unfold get_into. rewrite map_length.
        replace (length blk <=? t_prefetch tb) with true by (symmetry; apply Nat.leb_le; unfold blk; rewrite firstn_length; fold n0; lia).
        apply GK. intros x Hx. rewrite EL. apply in_or_app; auto. }
      assert (EB : exists blk', blk = e :: blk').
      { unfold blk. destruct n0 as [|n0']; [lia|]. cbn. eauto. }
      destruct EB as [blk' EB].
      assert (G : prefetch_and_get tb ev open rv db fl ob (Sst it [] [] [] 0) =
                  (Sst it' (left_sorted ev (map dkf blk)) (map fst blk) (map val blk) 1, Ok (row e))).
      { unfold prefetch_and_get. cbn [ss_keys length]. rewrite Nat.sub_0_r. fold n0. rewrite C. cbn [ss_keys ss_ikeys ss_it ss_vi].
        rewrite GI. unfold get_prefetched. cbn [ss_vals ss_vi]. rewrite EB. cbn [map nth_error].
        rewrite (DES e (or_introl eq_refl)). reflexivity. }
      destruct (run_one_get _ _ _ _ _ _ OG G) as [RP HQ]. rewrite RP.
      destruct (answer (Ok (row e)) (f s (fst e))) as [[s1 c] oe] eqn:EA.
      assert (MB : map (fun e => (fst e, row e)) (e :: l) = [(fst e, row e)] ++ map (fun e => (fst e, row e)) blk' ++ map (fun e => (fst e, row e)) rest).
      { rewrite EL, EB, map_app. reflexivity. }
      rewrite MB in *.
      destruct c, oe as [x|]; [apply visited_end| |apply visited_end|apply visited_end];
        try (cbn [visit_go]; rewrite EA; reflexivity).
      eapply visited_app; [cbn [visit_go]; rewrite EA; reflexivity|].
      assert (HL1 : L s1) by (apply HQ; reflexivity). apply (within_cons _ _ _ _ _ _ _ EA) in LE.
      pose proof (prefetched_spec (map fst blk') [fst e] it' (left_sorted ev (map dkf blk)) s1 fuel (map row blk) (map val blk) HL1) as PS.
      cbn [app length] in PS. replace (fst e :: map fst blk') with (map fst blk) in PS by (rewrite EB; reflexivity).
      assert (LB : length blk' <= length l /\ length rest <= length l).
      { apply (f_equal (@length entry)) in EL. rewrite app_length, EB in EL. cbn in EL. lia. }
      assert (CM : combine (map fst blk') (skipn 1 (map row blk)) = map (fun e => (fst e, row e)) blk').
      { rewrite EB. cbn [map skipn]. clear. induction blk' as [|x b IH]; cbn; f_equal; auto. }
      rewrite PS; clear PS.
      2:{ rewrite CM. eapply within_app_l. exact LE. }
      2:{ assert (IN : incl blk (e :: l)) by (intros x Hx; rewrite EL; apply in_or_app; auto).
          clear - IN DES. induction blk as [|x blk IH]; cbn; constructor; auto.
          - apply DES, IN. left; auto.
          - apply IH. intros y Hy. apply IN. right; auto. }
      2:{ rewrite !map_length, EB. reflexivity. }
      rewrite CM.
      destruct (visit_go f (map (fun e => (fst e, row e)) blk') s1) as [out|s2] eqn:EV2; [apply visited_end; auto|].
      eapply visited_app; [exact EV2|]. cbn [ss_it].
      apply IH; auto.
      + exact (Nat.le_trans _ _ _ (proj2 LB) (le_S_n _ _ LM)).
      + intros x Hx. apply TD. rewrite EL. apply in_or_app; auto.
      + intros x Hx. apply DES. rewrite EL. apply in_or_app; auto.
      + intros l' H. apply GK. intros x Hx. rewrite EL. apply in_or_app; auto.
      + eapply within_app_r; [exact EV2|exact LE].
  Qed.
End Loops.
