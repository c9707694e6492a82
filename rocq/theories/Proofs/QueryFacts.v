(** The callback and the final steps of queries, on lists of rows. *)

From Coq Require Import List NArith ZArith Lia Bool Arith Sorting.Sorted Sorting.Permutation.
From Verif.Model Require Import Bytes Go Keys Pebble Index Table Scan Query.
From Verif.Spec Require Import KeySpec StoreSpec TableSpec ScanSpec QuerySpec.
From Verif.Proofs Require Import BytesFacts KeysFacts ScanFacts.
Import ListNotations.

Definition half : N := 2 ^ 63.

Lemma signed_small n : (n < half)%N -> to_signed 8 (Z.of_N n) = Z.of_N n.
Proof.
  intro H. unfold half in H. unfold to_signed. change (256 ^ Z.of_nat 8)%Z with (2 ^ 64)%Z. change (2 ^ 64 / 2)%Z with (2 ^ 63)%Z.
  assert (Z.of_N n < 2 ^ 63)%Z. { change (2 ^ 63)%Z with (Z.of_N (2 ^ 63)). lia. }
  rewrite Z.mod_small by lia. destruct (Z.ltb_spec (Z.of_N n) (2 ^ 63)); lia.
Qed.

Lemma apply_offset_eq {A} n (l : list A) : (n < half)%N -> apply_offset n l = Ok (skipn (N.to_nat n) l).
Proof.
  intro H. unfold apply_offset, slice_from. rewrite signed_small by auto.
  destruct (Z.leb_spec (Z.of_nat (length l)) (Z.of_N n)).
  - rewrite skipn_all2 by lia. reflexivity.
  - rewrite (proj2 (N.leb_le _ _)) by lia. reflexivity.
Qed.

Lemma apply_limit_eq {A} n (l : list A) : (n < half)%N -> apply_limit n l = Ok (firstn (N.to_nat n) l).
Proof.
  intro H. unfold apply_limit. rewrite signed_small by auto.
  destruct (Z.leb_spec (Z.of_nat (length l)) (Z.of_N n)).
  - rewrite firstn_all2 by lia. reflexivity.
  - rewrite (proj2 (N.leb_le _ _)) by lia. reflexivity.
Qed.

Section Q.
  Context {T F : Type}.
  Variable tb : table T F.
  Notation sc := (schema_of tb).

  Lemma visit_cons {W} (f : W -> bytes -> prog (T:=T) W) k r l s : visit f ((k, r) :: l) s =
    match answer (Ok r) (f s k) with
    | (s', true, None) => visit f l s'
    | (s', _, Some e) => (s', Err e)
    | (s', false, None) => (s', Ok tt)
    end.
  Proof. unfold visit. cbn [visit_go]. destruct (answer (Ok r) (f s k)) as [[s' []] [e|]]; reflexivity. Qed.

  (** the callback without the after step *)
  Definition idle (q : query T) (s : qst (T:=T)) : Prop := q_after q = None \/ q_less q <> None \/ qs_skipped s = true.

  Lemma idle_after q s k : idle q s -> cb_after tb q s k = (s, false).
  Proof.
    unfold cb_after. intros [H|[H|H]].
    - rewrite H. reflexivity.
    - destruct (q_after q); auto. destruct (q_less q); auto. easy.
    - rewrite H. destruct (q_after q); auto. destruct (q_less q); auto.
  Qed.

  Lemma cb_steady q : loads_steadily (query_cb tb q).
  Proof.
    exists (fun s => idle q s /\ ((q_filter q = None /\ q_less q = None) -> (q_offset q <= qs_count s)%N)).
    assert (REC : forall s r, idle q s -> idle q (fst (cb_record q s r)) /\ (qs_count s <= qs_count (fst (cb_record q s r)))%N).
    { intros s r I. unfold cb_record, idle. destruct (q_less q) eqn:EL; [|destruct (0 <? q_limit q)%N]; cbn; split;
        try (destruct (match q_filter q with Some f => f r | None => true end); lia);
        destruct I as [I|[I|I]]; rewrite ?EL in I; auto; try easy; right; left; discriminate. }
    assert (GET : forall s, idle q s -> ((q_filter q = None /\ q_less q = None) -> (q_offset q <= qs_count s)%N) ->
      one_get (PGet (fun v => match v with
        | Ok r => let '(s', next) := cb_record q s r in PRet s' next None
        | Err e => PRet s false (Some e)
        | _ => PRet s false (Some EOther) end))
        (fun s => idle q s /\ ((q_filter q = None /\ q_less q = None) -> (q_offset q <= qs_count s)%N))).
    { intros s I H. eexists. split; [reflexivity|]. intro r. destruct (REC s r I) as [R1 R2].
      destruct (cb_record q s r) as [s' nx] eqn:E. cbn [fst] in *. exists s', nx, None. split; auto.
      intros _ _. split; auto. intro X. specialize (H X). lia. }
    assert (DEC : forall s : qst (T:=T), (match q_filter q, q_less q with None, None => (qs_count s <? q_offset q)%N | _, _ => false end) = false ->
      (q_filter q = None /\ q_less q = None) -> (q_offset q <= qs_count s)%N).
    { intros s H [E1 E2]. rewrite E1, E2 in H. apply N.ltb_ge in H. auto. }
    split.
    - intros s k [I H]. unfold query_cb. rewrite idle_after by auto.
      replace (match q_filter q, q_less q with None, None => (qs_count s <? q_offset q)%N | _, _ => false end) with false.
      + apply GET; auto.
      + destruct (q_filter q) eqn:E1; auto. destruct (q_less q) eqn:E2; auto. symmetry. apply N.ltb_ge. auto.
    - intros s k. unfold query_cb. destruct (cb_after tb q s k) as [s' af] eqn:E.
      assert (I : idle q s').
      { unfold cb_after in E. unfold idle. destruct (q_after q) as [a|]; auto. destruct (q_less q) as [ls|]; [right; left; discriminate|].
        destruct (qs_skipped s) eqn:ES; apply (f_equal fst) in E; cbn [fst] in E; subst s'; auto. }
      destruct af; [left; repeat eexists|].
      destruct (match q_filter q, q_less q with None, None => _ | _, _ => false end) eqn:ED; [left; repeat eexists|].
      right. apply GET; auto.
  Qed.

  (** once past the offset, without order *)
  Lemma visit_plain q keys : forall l s, length keys = length l -> q_less q = None -> idle q s ->
    (q_filter q = None -> (q_offset q <= qs_count s)%N) -> (q_offset q + q_limit q < 2 ^ 64)%N ->
    ((0 < q_limit q)%N -> (qs_count s < q_offset q + q_limit q)%N) ->
    exists s', visit (query_cb tb q) (combine keys l) s = (s', Ok tt) /\
      qs_records s' = qs_records s ++ (if (q_limit q =? 0)%N then keep (q_filter q) l
                       else firstn (N.to_nat (q_offset q + q_limit q - qs_count s)) (keep (q_filter q) l)) /\
      qs_after_applied s' = qs_after_applied s /\ qs_offset_applied s' = qs_offset_applied s /\
      qs_limit_applied s' = qs_limit_applied s || (negb (q_limit q =? 0)%N && match l with [] => false | _ => true end).
  Proof.
    induction keys as [|k keys IH]; intros [|r l] s LEN LS ID PAST NW LT; try discriminate; cbn [combine].
    - exists s. split; [reflexivity|]. replace (keep (q_filter q) []) with (@nil T) by (destruct (q_filter q); reflexivity).
      rewrite firstn_nil. destruct (q_limit q =? 0)%N; cbn [negb andb]; rewrite app_nil_r, orb_false_r; auto.
    - rewrite visit_cons. unfold query_cb at 1. rewrite idle_after by auto.
      replace (match q_filter q, q_less q with None, None => (qs_count s <? q_offset q)%N | _, _ => false end) with false.
      2:{ rewrite LS. destruct (q_filter q); auto. symmetry. apply N.ltb_ge. auto. }
      cbn [answer]. unfold cb_record. rewrite LS.
      set (kp := match q_filter q with Some f => f r | None => true end).
      assert (KEEP : keep (q_filter q) (r :: l) = if kp then r :: keep (q_filter q) l else keep (q_filter q) l).
      { unfold kp, keep. destruct (q_filter q); reflexivity. }
      rewrite KEEP. injection LEN as LEN. destruct (N.ltb_spec 0 (q_limit q)) as [HL|HL].
      + specialize (LT HL). rewrite N.mod_small by auto.
        replace (q_limit q =? 0)%N with false by (symmetry; apply N.eqb_neq; lia).
        set (s1 := Qst _ _ _ _ _ _). cbn [answer].
        destruct (N.ltb_spec (if kp then qs_count s + 1 else qs_count s)%N (q_offset q + q_limit q)) as [HC|HC].
        * destruct (IH l s1 LEN LS) as [s' [E1 [E2 [E3 [E4 E5]]]]]; auto.
          { intro X. specialize (PAST X). cbn [s1 qs_count]. destruct kp; lia. }
          exists s'. rewrite E1, E2, E3, E4, E5. split; auto. replace (q_limit q =? 0)%N with false by (symmetry; apply N.eqb_neq; lia).
          cbn [s1 qs_records qs_after_applied qs_offset_applied qs_limit_applied qs_count negb andb orb].
          split; [|rewrite ?orb_true_r; auto]. destruct kp.
          -- replace (N.to_nat (q_offset q + q_limit q - qs_count s)) with (S (N.to_nat (q_offset q + q_limit q - (qs_count s + 1)))) by lia.
             cbn [firstn]. rewrite <- app_assoc. reflexivity.
          -- reflexivity.
        * exists s1. split; auto. cbn [s1 qs_records qs_after_applied qs_offset_applied qs_limit_applied negb andb orb].
          split; [|rewrite ?orb_true_r; auto]. destruct kp; [|lia].
          replace (N.to_nat (q_offset q + q_limit q - qs_count s)) with 1 by lia. reflexivity.
      + assert (HZ : q_limit q = 0%N) by lia. rewrite HZ. cbn [N.eqb].
        set (s1 := Qst _ _ _ _ _ _). cbn [answer].
        destruct (IH l s1 LEN LS) as [s' [E1 [E2 [E3 [E4 E5]]]]]; auto.
        { intro X. specialize (PAST X). cbn [s1 qs_count]. destruct kp; lia. }
        { lia. }
        rewrite HZ in *. cbn [N.eqb negb andb] in *. exists s'. rewrite E1, E2, E3, E4, E5. split; auto.
        cbn [s1 qs_records qs_after_applied qs_offset_applied qs_limit_applied]. split; auto.
        destruct kp; [rewrite <- app_assoc|]; reflexivity.
  Qed.

  (** the rows skipped for the offset *)
  Lemma visit_skip q : forall n keys l s, length keys = length l -> q_filter q = None -> q_less q = None -> idle q s ->
    N.to_nat (q_offset q - qs_count s) = n -> (qs_count s <= q_offset q)%N ->
    exists s', visit (query_cb tb q) (combine keys l) s = visit (query_cb tb q) (combine (skipn n keys) (skipn n l)) s' /\
      idle q s' /\ qs_records s' = qs_records s /\ qs_skipped s' = qs_skipped s /\ qs_after_applied s' = qs_after_applied s /\
      qs_limit_applied s' = qs_limit_applied s /\ (n <= length l -> qs_count s' = q_offset q) /\
      qs_offset_applied s' = qs_offset_applied s || (negb (Nat.eqb n 0) && match l with [] => false | _ => true end).
  Proof.
    induction n as [|n IH]; intros keys l s LEN HF LS ID HN LE.
    - exists s. rewrite !skipn_O, orb_false_r. repeat split; auto. intros _. lia.
    - destruct keys as [|k keys], l as [|r l]; try discriminate; cbn [combine skipn].
      { exists s. rewrite orb_false_r. repeat split; auto. cbn. lia. }
      rewrite visit_cons. unfold query_cb at 1. rewrite idle_after by auto. rewrite HF, LS.
      rewrite (proj2 (N.ltb_lt _ _)) by lia. cbn [answer].
      set (s1 := Qst _ _ _ _ _ _). injection LEN as LEN.
      destruct (IH keys l s1 LEN HF LS) as [s' [E1 [E2 [E3 [E4 [E5 [E6 [E7 E8]]]]]]]].
      + unfold idle in *. subst s1. cbn [qs_skipped]. tauto.
      + cbn [s1 qs_count]. lia.
      + cbn [s1 qs_count]. lia.
      + exists s'. split; auto. split; auto. rewrite E3, E4, E5, E6, E8. cbn [length]. repeat split; auto; [intro; apply E7; lia|].
        cbn. rewrite orb_true_r. reflexivity.
  Qed.

  (** the callback stops once enough rows have passed *)
  Lemma visit_stops q keys : forall l s, length keys = length l -> q_less q = None -> idle q s -> (0 < q_limit q)%N ->
    (q_offset q + q_limit q < 2 ^ 64)%N -> (qs_count s < q_offset q + q_limit q)%N ->
    (q_offset q + q_limit q <= qs_count s + N.of_nat (length (keep (q_filter q) l)))%N ->
    exists out, visit_go (query_cb tb q) (combine keys l) s = inl out.
  Proof.
    induction keys as [|k keys IH]; intros [|r l] s LEN LS ID HL NW LT EN; try discriminate; cbn [combine].
    - replace (keep (q_filter q) []) with (@nil T) in EN by (destruct (q_filter q); reflexivity). cbn in EN. lia.
    - cbn [visit_go]. unfold query_cb at 1. rewrite idle_after by auto. rewrite LS. injection LEN as LEN.
      set (kp := match q_filter q with Some f => f r | None => true end).
      assert (KEEP : length (keep (q_filter q) (r :: l)) = (if kp then 1 else 0) + length (keep (q_filter q) l)).
      { unfold kp, keep. destruct (q_filter q) as [f|]; [cbn [filter]; destruct (f r)|]; reflexivity. }
      rewrite KEEP in EN.
      destruct (match q_filter q with Some _ => false | None => (qs_count s <? q_offset q)%N end) eqn:ED.
      + cbn [answer]. apply IH; auto; cbn [qs_count]; destruct (q_filter q); try discriminate; apply N.ltb_lt in ED; [lia|].
        cbn [kp] in EN. lia.
      + cbn [answer]. unfold cb_record. rewrite LS. replace (0 <? q_limit q)%N with true by (symmetry; apply N.ltb_lt; auto).
        rewrite N.mod_small by auto. fold kp. cbn [answer].
        destruct (N.ltb_spec (if kp then qs_count s + 1 else qs_count s)%N (q_offset q + q_limit q)) as [HC|HC]; [|eauto].
        apply IH; auto; cbn [qs_count]. destruct kp; lia.
  Qed.

  (** with order: everything that passes the filter *)
  Lemma visit_order q less keys : forall l s, length keys = length l -> q_less q = Some less ->
    exists s', visit (query_cb tb q) (combine keys l) s = (s', Ok tt) /\
      qs_records s' = qs_records s ++ keep (q_filter q) l /\
      qs_after_applied s' = qs_after_applied s /\ qs_offset_applied s' = qs_offset_applied s /\ qs_limit_applied s' = qs_limit_applied s.
  Proof.
    induction keys as [|k keys IH]; intros [|r l] s LEN LS; try discriminate; cbn [combine].
    - exists s. split; [reflexivity|]. replace (keep (q_filter q) []) with (@nil T) by (destruct (q_filter q); reflexivity).
      rewrite app_nil_r. auto.
    - rewrite visit_cons. unfold query_cb at 1. rewrite idle_after by (right; left; rewrite LS; discriminate).
      rewrite LS. replace (match q_filter q with Some _ | _ => false end) with false by (destruct (q_filter q); auto).
      cbn [answer]. unfold cb_record. rewrite LS. set (s1 := Qst _ _ _ _ _ _). cbn [answer]. injection LEN as LEN.
      destruct (IH l s1 LEN LS) as [s' [E1 [E2 [E3 [E4 E5]]]]]. exists s'. rewrite E1, E2, E3, E4, E5. split; auto.
      cbn [s1 qs_records qs_after_applied qs_offset_applied qs_limit_applied]. split; auto.
      unfold keep. destruct (q_filter q) as [f|]; [cbn [filter]; destruct (f r)|]; rewrite <- ?app_assoc; reflexivity.
  Qed.

  Lemma after_rec_spec a l : match after_rec tb a l with
    | None => forall r, In r l -> s_pk sc r <> s_pk sc a
    | Some l' => exists l1 r, l = l1 ++ r :: l' /\ s_pk sc r = s_pk sc a /\ forall x, In x l1 -> s_pk sc x <> s_pk sc a
    end.
  Proof.
    induction l as [|x l IH]; cbn [after_rec]; [easy|].
    destruct (beqb (t_pk tb (new_kb []) a) (t_pk tb (new_kb []) x)) eqn:E.
    - apply beqb_eq in E. exists [], x. split; [reflexivity|]. split; [symmetry; exact E|intros y []].
    - assert (NE : s_pk sc x <> s_pk sc a). { intro X. cbn in X. rewrite X, beqb_refl in E. discriminate. }
      destruct (after_rec tb a l) as [l'|].
      + destruct IH as [l1 [r [-> [E2 E3]]]]. exists (x :: l1), r. split; auto. split; auto. intros y [<-|Hy]; auto.
      + intros r [<-|Hr]; auto.
  Qed.

  Lemma drop_after_behind a l : behind sc a l (drop_after tb a l).
  Proof.
    unfold drop_after. pose proof (after_rec_spec a l) as H. destruct (after_rec tb a l) as [l'|].
    - destruct H as [l1 [r [-> [E1 E2]]]]. apply bh_at; auto.
    - apply bh_absent. auto.
  Qed.

  Variable srt : (T -> T -> bool) -> list T -> list T.

  Definition s0 : qst (T:=T) := Qst [] 0 false false false false.

  (** the whole query without order, from an idle state *)
  Lemma plain_query_list q keys l s : length keys = length l -> q_less q = None -> idle q s ->
    qs_records s = [] -> qs_count s = 0%N -> qs_offset_applied s = false -> qs_limit_applied s = false ->
    (q_after q <> None -> qs_after_applied s = true \/ l = []) ->
    (q_offset q < half)%N -> (q_limit q < half)%N ->
    exists s', visit (query_cb tb q) (combine keys l) s = (s', Ok tt) /\
      finish_query tb srt q s' = Ok (window (q_offset q) (q_limit q) (keep (q_filter q) l)).
  Proof.
    intros LEN LS ID R0 C0 O0 L0 AF HO HL.
    assert (NW : (q_offset q + q_limit q < 2 ^ 64)%N). { unfold half in *. change (2 ^ 64)%N with (2 ^ 63 + 2 ^ 63)%N. lia. }
    assert (FIN : forall s', qs_records s' = (if (q_limit q =? 0)%N then keep (q_filter q) l else firstn (N.to_nat (q_offset q + q_limit q)) (keep (q_filter q) l)) ->
      qs_offset_applied s' = false -> (qs_limit_applied s' = negb (q_limit q =? 0)%N \/ l = []) -> (q_after q <> None -> qs_after_applied s' = true \/ l = []) ->
      finish_query tb srt q s' = Ok (window (q_offset q) (q_limit q) (keep (q_filter q) l))).
    { intros s' E1 E2 E3 E4. unfold finish_query. rewrite LS, E1, E2.
      assert (EA : (match q_after q with Some a => if qs_after_applied s' then if (q_limit q =? 0)%N then keep (q_filter q) l else firstn (N.to_nat (q_offset q + q_limit q)) (keep (q_filter q) l)
         else drop_after tb a (if (q_limit q =? 0)%N then keep (q_filter q) l else firstn (N.to_nat (q_offset q + q_limit q)) (keep (q_filter q) l))
         | None => if (q_limit q =? 0)%N then keep (q_filter q) l else firstn (N.to_nat (q_offset q + q_limit q)) (keep (q_filter q) l) end)
         = if (q_limit q =? 0)%N then keep (q_filter q) l else firstn (N.to_nat (q_offset q + q_limit q)) (keep (q_filter q) l)).
      { destruct (q_after q) as [a|]; auto. destruct E4 as [->| ->]; [discriminate|auto|].
        replace (keep (q_filter q) []) with (@nil T) by (destruct (q_filter q); reflexivity). rewrite firstn_nil.
        destruct (q_limit q =? 0)%N, (qs_after_applied s'); reflexivity. }
      rewrite EA. clear EA. set (L := if (q_limit q =? 0)%N then _ else _).
      replace (if (0 <? q_offset q)%N && negb false then apply_offset (q_offset q) L else Ok L) with (Ok (skipn (N.to_nat (q_offset q)) L)).
      2:{ destruct (N.ltb_spec 0 (q_offset q)); cbn [negb andb]; [rewrite apply_offset_eq; auto|].
          replace (q_offset q) with 0%N by lia. reflexivity. }
      destruct (N.ltb_spec 0 (q_limit q)) as [H|H].
      - assert (NZ : (q_limit q =? 0)%N = false) by (apply N.eqb_neq; lia).
        assert (W : skipn (N.to_nat (q_offset q)) L = window (q_offset q) (q_limit q) (keep (q_filter q) l)).
        { unfold L, window. rewrite NZ.
          rewrite N2Nat.inj_add. generalize (N.to_nat (q_offset q)) (N.to_nat (q_limit q)). intros a b.
          generalize (keep (q_filter q) l) as x. clear. induction a as [|a IH]; intro x; [reflexivity|].
          destruct x; cbn [Nat.add firstn skipn]; [rewrite firstn_nil; reflexivity|]. apply IH. }
        rewrite W. destruct E3 as [E3| ->].
        + rewrite E3, NZ. reflexivity.
        + unfold window. replace (keep (q_filter q) []) with (@nil T) by (destruct (q_filter q); reflexivity). rewrite skipn_nil, NZ, firstn_nil.
          destruct (qs_limit_applied s'); cbn [negb andb]; auto. rewrite apply_limit_eq, firstn_nil; auto.
      - replace (q_limit q) with 0%N by lia. unfold window. cbn [N.eqb andb]. unfold L. replace (q_limit q) with 0%N by lia. reflexivity. }
    destruct (q_filter q) as [f|] eqn:HF.
    - destruct (visit_plain q keys l s LEN LS ID) as [s' [E1 [E2 [E3 [E4 E5]]]]]; auto.
      { rewrite HF. discriminate. }
      { rewrite C0. lia. }
      exists s'. split; auto. rewrite HF, R0, C0, N.sub_0_r in *. apply FIN; auto.
      + rewrite E4. auto.
      + rewrite E5, L0. destruct l; auto. left. cbn. rewrite andb_true_r. reflexivity.
      + intro X. rewrite E3. auto.
    - destruct (visit_skip q (N.to_nat (q_offset q)) keys l s LEN HF LS ID) as [s1 [E1 [I1 [R1 [K1 [A1 [L1 [C1 O1]]]]]]]].
      { rewrite C0. lia. }
      { lia. }
      rewrite E1. rewrite R0, L0, O0 in *. cbn [orb] in O1.
      destruct (Nat.le_gt_cases (N.to_nat (q_offset q)) (length l)) as [LE|GT].
      + specialize (C1 LE).
        destruct (visit_plain q (skipn (N.to_nat (q_offset q)) keys) (skipn (N.to_nat (q_offset q)) l) s1) as [s' [E2 [E3 [E4 [E5 E6]]]]]; auto.
        { rewrite !skipn_length. lia. }
        { intros _. lia. }
        { lia. }
        exists s'. split; auto. rewrite R1, C1, HF in E3. cbn [keep app] in E3.
        unfold finish_query. rewrite LS, E3.
        assert (EA : forall x, (match q_after q with Some a => if qs_after_applied s' then x else drop_after tb a x | None => x end) = x \/ l = []).
        { intro x. destruct (q_after q); auto. rewrite E4, A1. destruct AF as [->|]; auto. discriminate. }
        assert (NIL : l = [] -> q_offset q = 0%N). { intros ->. cbn in LE. lia. }
        destruct (Nat.eq_dec (length l) 0) as [Z|Z].
        * destruct l; [|discriminate]. rewrite (NIL eq_refl) in *. cbn [keep].
          rewrite skipn_nil in *. rewrite firstn_nil in *. cbn [andb N.ltb N.compare].
          replace (if (q_limit q =? 0)%N then [] else []) with (@nil T) by (destruct (q_limit q =? 0)%N; auto).
          replace (match q_after q with Some a => if qs_after_applied s' then [] else drop_after tb a [] | None => [] end) with (@nil T)
            by (destruct (q_after q), (qs_after_applied s'); reflexivity).
          rewrite apply_limit_eq by auto. unfold window. rewrite skipn_nil, !firstn_nil.
          destruct ((0 <? q_limit q)%N && negb (qs_limit_applied s')), (q_limit q =? 0)%N; reflexivity.
        * destruct (EA (if (q_limit q =? 0)%N then skipn (N.to_nat (q_offset q)) l else firstn (N.to_nat (q_offset q + q_limit q - q_offset q)) (skipn (N.to_nat (q_offset q)) l))) as [->|X]; [|subst l; easy].
          rewrite E5, O1. replace (match l with [] => false | _ => true end) with true by (destruct l; [easy|reflexivity]). rewrite andb_true_r, negb_involutive.
          replace ((0 <? q_offset q)%N && Nat.eqb (N.to_nat (q_offset q)) 0) with false.
          2:{ destruct (N.ltb_spec 0 (q_offset q)); auto. destruct (Nat.eqb_spec (N.to_nat (q_offset q)) 0); auto. lia. }
          replace (q_offset q + q_limit q - q_offset q)%N with (q_limit q) by lia.
          rewrite E6, L1. cbn [orb keep]. unfold window.
          destruct (N.ltb_spec 0 (q_limit q)) as [H|H].
          -- replace (q_limit q =? 0)%N with false by (symmetry; apply N.eqb_neq; lia). cbn [negb andb].
             destruct (skipn (N.to_nat (q_offset q)) l) eqn:ES; cbn [negb]; auto. rewrite firstn_nil, apply_limit_eq, firstn_nil; auto.
          -- replace (q_limit q) with 0%N by lia. reflexivity.
      + (* fewer rows than the offset *)
        rewrite !(skipn_all2 (n:=N.to_nat (q_offset q))) by lia. cbn [combine]. exists s1. split; auto.
        unfold finish_query. rewrite LS, R1.
        replace (match q_after q with Some a => if qs_after_applied s1 then [] else drop_after tb a [] | None => [] end) with (@nil T)
          by (destruct (q_after q), (qs_after_applied s1); reflexivity).
        rewrite apply_offset_eq, skipn_nil by auto. unfold window. cbn [keep]. rewrite skipn_all2 by lia. rewrite firstn_nil.
        replace (if (0 <? q_offset q)%N && negb (qs_offset_applied s1) then Ok [] else Ok []) with (Ok (@nil T))
          by (destruct ((0 <? q_offset q)%N && negb (qs_offset_applied s1)); reflexivity).
        rewrite apply_limit_eq, firstn_nil by auto.
        destruct ((0 <? q_limit q)%N && negb (qs_limit_applied s1)), (q_limit q =? 0)%N; reflexivity.
  Qed.

  (** the whole query with order *)
  Lemma order_query_list q less keys l : length keys = length l -> q_less q = Some less ->
    (q_offset q < half)%N -> (q_limit q < half)%N ->
    exists s', visit (query_cb tb q) (combine keys l) s0 = (s', Ok tt) /\
      finish_query tb srt q s' = Ok (window (q_offset q) (q_limit q)
        (match q_after q with Some a => drop_after tb a (srt less (keep (q_filter q) l)) | None => srt less (keep (q_filter q) l) end)).
  Proof.
    intros LEN LS HO HL. destruct (visit_order q less keys l s0 LEN LS) as [s' [E1 [E2 [E3 [E4 E5]]]]].
    exists s'. split; auto. unfold finish_query. rewrite LS, E2, E3, E4, E5. cbn [s0 qs_records qs_after_applied qs_offset_applied qs_limit_applied app negb].
    set (R := match q_after q with Some _ => _ | None => _ end). rewrite !andb_true_r.
    assert (EO : (if (0 <? q_offset q)%N then apply_offset (q_offset q) R else Ok R) = Ok (skipn (N.to_nat (q_offset q)) R)).
    { destruct (N.ltb_spec 0 (q_offset q)); [apply apply_offset_eq; auto|]. replace (q_offset q) with 0%N by lia. reflexivity. }
    rewrite EO. unfold window. destruct (N.ltb_spec 0 (q_limit q)) as [H|H].
    - rewrite apply_limit_eq by auto. replace (q_limit q =? 0)%N with false by (symmetry; apply N.eqb_neq; lia). reflexivity.
    - replace (q_limit q) with 0%N by lia. reflexivity.
  Qed.
End Q.
