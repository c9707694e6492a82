(** Scans when reads fail. *)

From Coq Require Import List NArith ZArith Lia Bool Arith.
From Verif.Model Require Import Bytes Go Keys Pebble Index Table Scan LiveScan Faults.
From Verif.Spec Require Import KeySpec StoreSpec TableSpec ScanSpec FaultSpec.
From Verif.Proofs Require Import BytesFacts KeysFacts PebbleFacts TableFacts WriteFacts ReadFacts IterFacts ScanFacts ScanRows ScanProps.
Import ListNotations.

(** ** Parts of lists *)

Inductive drops {A} : list (list A) -> list (list A) -> Prop :=
| dr_here R : drops R R
| dr_skip c R R' : drops R R' -> drops (c :: R) R'.

Lemma seen_nonempty {A} (R : list (list A)) l ok : in_parts R l ok -> R <> [].
Proof. destruct 1; discriminate. Qed.

Lemma seen_skip {A} c (R : list (list A)) l ok : in_parts R l ok -> in_parts (c :: R) l ok.
Proof. intro H. apply (seen_more [] c R l ok); auto. eapply seen_nonempty; eauto. Qed.

Lemma drops_seen {A} (R R' : list (list A)) l ok : drops R R' -> in_parts R' l ok -> in_parts R l ok.
Proof. induction 1; auto. intro H'. apply seen_skip. auto. Qed.

Lemma seen_cons {A} x c (R : list (list A)) l ok : in_parts (c :: R) l ok -> in_parts ((x :: c) :: R) (x :: l) ok.
Proof.
  intro H. inversion H; subst.
  - constructor.
  - apply (seen_cut (x :: l)).
  - apply (seen_more (x :: l1) l2); auto.
Qed.

Lemma seen_none {A} (R : list (list A)) : R <> [] -> in_parts R [] false.
Proof.
  induction R as [|c R IH]; [easy|]. intros _. destruct R as [|c' R]; [apply (seen_cut [] c)|]. apply seen_skip. apply IH. discriminate.
Qed.

Lemma seen_incl {A} (R : list (list A)) l ok : in_parts R l ok -> incl l (concat R).
Proof.
  induction 1; cbn; intros x Hx.
  - rewrite app_nil_r. auto.
  - rewrite app_nil_r. apply in_or_app. auto.
  - apply in_app_iff in Hx as [Hx|Hx]; apply in_or_app; [left; apply in_or_app; auto|right; auto].
Qed.

Lemma drops_length {A} (R R' : list (list A)) : drops R R' -> length (concat R') <= length (concat R).
Proof. induction 1; auto. cbn. rewrite app_length. lia. Qed.

Lemma drops_incl {A} (R R' : list (list A)) : drops R R' -> incl (concat R') (concat R).
Proof. induction 1 as [R|c R R' D IH]; [apply incl_refl|]. cbn. intros x Hx. apply in_or_app. right. auto. Qed.

(** ** One pebble iterator *)

Section One.
  Variable rv : bool.

  (** what is left, the current item first *)
  Definition pstands (p : piter) (cur : list entry) : Prop :=
    pi_err p = None /\
    match pi_pos p with
    | PAt k => k < length (pi_items p) /\ cur = (if rv then rev (firstn (S k) (pi_items p)) else skipn k (pi_items p))
    | PEnd => rv = false /\ cur = []
    | PStart => rv = true /\ cur = []
    | PNone => False
    end.

  Definition pnext (p : piter) : piter := if rv then it_prev p else it_next p.
  Definition pfirst (p : piter) : piter := if rv then it_last p else it_first p.
  Definition whole (l : list entry) : list entry := if rv then rev l else l.

  Lemma pstands_valid p cur : pstands p cur -> it_valid p = match cur with [] => false | _ => true end.
  Proof.
    intros [_ H]. unfold it_valid. destruct (pi_pos p); try easy.
    - destruct H as [H ->]. destruct rv.
      + assert (X : firstn (S n) (pi_items p) <> []) by (destruct (pi_items p); [cbn in H; lia|discriminate]).
        destruct (rev (firstn (S n) (pi_items p))) eqn:E; auto. apply (f_equal (@rev entry)) in E. rewrite rev_involutive in E. easy.
      + destruct (skipn n (pi_items p)) eqn:E; auto. apply (f_equal (@length entry)) in E. rewrite skipn_length in E. cbn in E.
        change (@length entry (pi_items p)) with (@length (bytes * bytes) (pi_items p)) in *. lia.
    - destruct H as [_ ->]. reflexivity.
    - destruct H as [_ ->]. reflexivity.
  Qed.

  Lemma skipn_at {A} (l : list A) k : k < length l -> exists x, nth_error l k = Some x /\ skipn k l = x :: skipn (S k) l.
  Proof.
    revert l. induction k as [|k IH]; destruct l as [|a l]; cbn; intro H; try lia; [eauto|]. apply IH. lia.
  Qed.

  Lemma firstn_at {A} (l : list A) k : k < length l -> exists x, nth_error l k = Some x /\ firstn (S k) l = firstn k l ++ [x].
  Proof.
    revert l. induction k as [|k IH]; intros [|a l]; cbn [length]; intro H; try lia; [exists a; auto|].
    destruct (IH l) as [x [E1 E2]]; [lia|]. exists x. split; [exact E1|]. change (firstn (S (S k)) (a :: l)) with (a :: firstn (S k) l). rewrite E2. reflexivity.
  Qed.

  Lemma pstands_item p x cur : pstands p (x :: cur) -> it_item p = Some x.
  Proof.
    intros [_ H]. unfold it_item. destruct (pi_pos p); try easy.
    destruct H as [H E]. destruct rv.
    - destruct (firstn_at _ _ H) as [y [E1 E2]]. rewrite E2, rev_app_distr in E. cbn in E. injection E as <- _. exact E1.
    - destruct (skipn_at _ _ H) as [y [E1 E2]]. rewrite E2 in E. injection E as <- _. exact E1.
  Qed.

  Lemma pnext_stands p cur : pstands p cur -> pstands (pnext p) (tl cur).
  Proof.
    intros [E H]. unfold pnext, pstands. destruct p as [l q e]. cbn [pi_items pi_pos pi_err] in *. subst e. destruct q; try easy.
    - destruct H as [H ->]. destruct rv.
      + destruct (firstn_at _ _ H) as [y [E1 E2]]. rewrite E2, rev_app_distr. cbn [rev app tl].
        unfold it_prev. cbn [pi_pos pi_items pi_err]. split; [reflexivity|]. cbn [pi_pos]. destruct n as [|n]; [split; reflexivity|]. split; [cbn [pi_items]; lia|reflexivity].
      + destruct (skipn_at _ _ H) as [y [E1 E2]]. rewrite E2. cbn [tl]. unfold it_next. cbn [pi_pos pi_items pi_err]. split; [reflexivity|].
        cbn [pi_pos pi_items]. destruct (Nat.ltb_spec (S n) (length l)); [split; [assumption|reflexivity]|]. split; [reflexivity|].
        apply skipn_all2. assumption.
    - destruct H as [-> ->]. cbn. repeat split.
    - destruct H as [-> ->]. cbn. repeat split.
  Qed.

  Lemma pfirst_stands p : pi_err p = None -> pstands (pfirst p) (whole (pi_items p)).
  Proof.
    intro E. unfold pfirst, whole, pstands. destruct p as [l q e]. cbn [pi_items pi_err] in *. subst e. destruct rv.
    - unfold it_last. cbn [pi_items]. split; [reflexivity|]. cbn [pi_pos pi_items]. destruct l as [|a l]; [split; reflexivity|].
      split; [cbn [length]; lia|]. f_equal. symmetry. apply firstn_all2. cbn [length]. lia.
    - unfold it_first. cbn [pi_items]. split; [reflexivity|]. cbn [pi_pos pi_items]. destruct l as [|a l]; [split; reflexivity|].
      split; [cbn [length]; lia|]. reflexivity.
  Qed.
End One.

(** ** Bond iterators *)

Section Bond.
  Variable io : faults.
  Hypothesis OPEN : forall n, ft_open io n = false.
  Variable open : bytes -> bytes -> piter.
  Hypothesis NOERR : forall lo hi, pi_err (open lo hi) = None.
  Variable rv : bool.

  Notation its o := (whole rv (items open o)).

  (** the options that come after number [i] in scan direction *)
  Definition others (opts : list (bytes * bytes)) (i : nat) : list (list entry) :=
    if rv then map (fun o => its o) (rev (firstn i opts)) else map (fun o => its o) (skipn (S i) opts).

  Inductive stands : fbiter -> list (list entry) -> Prop :=
  | st_one p cur : pstands rv p cur -> stands (FOne (FP p false)) [cur]
  | st_multi opts i p cur : i < length opts -> pstands rv p cur -> stands (FMulti opts i (FP p false)) (cur :: others opts i).

  (** on an item, at the end, or stopped by an error in the last list *)
  Inductive at_ : fbiter -> option (list (list entry)) -> Prop :=
  | at_item b x cur R : stands b ((x :: cur) :: R) -> at_ b (Some ((x :: cur) :: R))
  | at_end b : stands b [[]] -> at_ b (Some [[]])
  | at_bad b : (match b with FOne _ => True | FMulti opts i _ => i < length opts /\ others opts i = [] end) ->
      fp_bad (fb_cur b) = true -> pi_err (fp_it (fb_cur b)) = None -> pi_pos (fp_it (fb_cur b)) = PNone -> at_ b None.

  Definition seen_o (o : option (list (list entry))) (l : list entry) (ok : bool) : Prop :=
    match o with Some R => in_parts R l ok | None => l = [] /\ ok = false end.
  Definition size_o (o : option (list (list entry))) : nat := match o with Some R => length (concat R) | None => 0 end.
  Definition in_o (o : option (list (list entry))) : list entry := match o with Some R => concat R | None => [] end.

  (** where a move that leaves [R] ends *)
  Definition lands (b : fbiter) (R : list (list entry)) : Prop :=
    exists o, at_ b o /\ (forall l ok, seen_o o l ok -> in_parts R l ok) /\ size_o o <= length (concat R) /\ incl (in_o o) (concat R).

  Lemma lands_drops b R R' : drops R R' -> lands b R' -> lands b R.
  Proof.
    intros D (o & A & B & C & E). exists o. split; auto. split; [intros l ok H; eapply drops_seen; eauto|].
    split; [pose proof (drops_length _ _ D); lia|]. eapply incl_tran; [exact E|]. apply drops_incl; auto.
  Qed.

  Lemma lands_item b x cur R : stands b ((x :: cur) :: R) -> lands b ((x :: cur) :: R).
  Proof. intro H. exists (Some ((x :: cur) :: R)). split; [constructor; auto|]. split; auto. split; [cbn; lia|apply incl_refl]. Qed.

  Lemma lands_end b : stands b [[]] -> lands b [[]].
  Proof. intro H. exists (Some [[]]). split; [constructor; auto|]. split; auto. split; [cbn; lia|apply incl_refl]. Qed.

  Lemma lands_bad b R : R <> [] -> at_ b None -> lands b R.
  Proof.
    intros NE H. exists None. split; auto. split; [intros l ok [-> ->]; apply seen_none; auto|]. split; [cbn; lia|]. intros x [].
  Qed.

  (** a move of one pebble iterator *)
  Lemma move_again mv p n p' n' : pi_err p = None -> fp_move io true mv (FP p false) n = (p', n') ->
    p' = FP (mv p) false \/ (fp_bad p' = true /\ pi_err (fp_it p') = None /\ pi_pos (fp_it p') = PNone).
  Proof.
    unfold fp_move. cbn [fp_it fp_bad]. intros -> H. cbn [andb negb] in H. destruct (ft_move io n); injection H as <- _; cbn; auto.
  Qed.

  Lemma move_next mv p n p' n' : pi_err p = None -> fp_move io false mv (FP p false) n = (p', n') ->
    p' = FP (mv p) false \/ (fp_bad p' = true /\ pi_err (fp_it p') = None /\ pi_pos (fp_it p') = PNone).
  Proof.
    unfold fp_move. cbn [fp_it fp_bad]. intros -> H. cbn [andb negb] in H. destruct (ft_move io n); injection H as <- _; cbn; auto.
  Qed.

  Lemma move_bad mv p n : fp_bad p = true -> pi_err (fp_it p) = None -> fp_move io false mv p n = (p, n).
  Proof. unfold fp_move. intros -> ->. reflexivity. Qed.

  Lemma bad_invalid p : pi_pos (fp_it p) = PNone -> fp_valid p = false.
  Proof. unfold fp_valid, it_valid. intros ->. reflexivity. Qed.

  Lemma open_opened opts i n o : nth_error opts i = Some o -> fp_open_at io open opts i n = (FP (open (fst o) (snd o)) false, S n).
  Proof. intro E. unfold fp_open_at. rewrite E. destruct o. unfold fp_open. rewrite OPEN. reflexivity. Qed.

  (** ** Next and Prev *)

  Lemma others_fwd opts i o : rv = false -> nth_error opts (S i) = Some o -> others opts i = its o :: others opts (S i).
  Proof.
    intros RV E. unfold others. rewrite RV. destruct (skipn_at opts (S i)) as [x [E1 E2]]; [apply nth_error_Some; congruence|].
    rewrite E2. cbn [map]. congruence.
  Qed.

  Lemma others_back opts i o : rv = true -> nth_error opts i = Some o -> others opts (S i) = its o :: others opts i.
  Proof.
    intros RV E. unfold others. rewrite RV. destruct (firstn_at opts i) as [x [E1 E2]]; [apply nth_error_Some; congruence|].
    rewrite E2, rev_app_distr. cbn [rev app map]. congruence.
  Qed.

  Lemma others_last opts i : rv = false -> S i = length opts -> others opts i = [].
  Proof. intros RV E. unfold others. rewrite RV, skipn_all2; [reflexivity|lia]. Qed.

  Lemma others_zero opts : rv = true -> others opts 0 = [].
  Proof. intros RV. unfold others. rewrite RV. reflexivity. Qed.

  Lemma item_cases b cur R : stands b (cur :: R) -> cur <> [] -> lands b (cur :: R).
  Proof. intros S NE. destruct cur; [easy|]. apply lands_item; auto. Qed.

  Lemma multi_next_lands (RV : rv = false) : forall todo opts i p n cur i' p' n', i < length opts -> length opts <= i + S todo ->
    (pstands rv (fp_it p) cur /\ fp_bad p = false \/ fp_bad p = true /\ pi_err (fp_it p) = None /\ pi_pos (fp_it p) = PNone) ->
    fmulti_next io open opts todo i p n = (i', p', n') ->
    lands (FMulti opts i' p') (tl cur :: others opts i).
  Proof.
    induction todo as [|todo IH]; intros opts i p n cur i' p' n' LI LT ST E; cbn [fmulti_next] in E.
    - destruct (fp_move io false it_next p n) as [p1 n1] eqn:M.
      assert (L : S i = length opts) by lia. rewrite (proj2 (Nat.eqb_eq _ _) L) in E. rewrite (others_last opts i RV L).
      assert (E' : (i, p1, n1) = (i', p', n')) by (destruct (fp_valid p1); exact E). injection E' as <- <- <-.
      destruct ST as [[ST B]|[B [PE PP]]].
      + destruct p as [p b]. cbn [fp_it fp_bad] in *. subst b.
        destruct (move_next _ _ _ _ _ (proj1 ST) M) as [->|[X1 [X2 X3]]].
        * pose proof (pnext_stands rv p cur ST) as N. unfold pnext in N. rewrite RV in N. rewrite <- RV in N.
          assert (S' : stands (FMulti opts i (FP (it_next p) false)) [tl cur]).
          { rewrite <- (others_last opts i RV L). constructor; auto. }
          destruct (tl cur); [apply lands_end; auto|apply lands_item; auto].
        * apply lands_bad; [discriminate|]. constructor; auto. split; auto. apply others_last; auto.
      + rewrite (move_bad it_next p n B PE) in M. injection M as <- <-. apply lands_bad; [discriminate|]. constructor; auto. split; auto. apply others_last; auto.
    - destruct (fp_move io false it_next p n) as [p1 n1] eqn:M.
      assert (C : (exists q, p1 = FP q false /\ pstands rv q (tl cur)) \/ (fp_bad p1 = true /\ pi_err (fp_it p1) = None /\ pi_pos (fp_it p1) = PNone)).
      { destruct ST as [[ST B]|[B [PE PP]]].
        - destruct p as [p b]. cbn [fp_it fp_bad] in *. subst b.
          destruct (move_next _ _ _ _ _ (proj1 ST) M) as [->|X]; auto. left. exists (it_next p). split; auto.
          pose proof (pnext_stands rv p cur ST) as N. unfold pnext in N. destruct rv; [discriminate|exact N].
        - rewrite (move_bad it_next p n B PE) in M. injection M as <- <-. auto. }
      destruct (fp_valid p1) eqn:V.
      + injection E as <- <- <-. destruct C as [[q [-> PS]]|[_ [_ X]]]; [|rewrite bad_invalid in V by auto; discriminate].
        apply item_cases; [constructor; auto|]. pose proof (pstands_valid _ _ _ PS) as PV. unfold fp_valid in V. cbn [fp_it] in V. rewrite V in PV.
        intros Z. rewrite Z in PV. discriminate.
      + destruct (Nat.eqb_spec (S i) (length opts)) as [L|L].
        * injection E as <- <- <-. rewrite (others_last opts i RV L). destruct C as [[q [-> PS]]|[X1 [X2 X3]]].
          -- pose proof (pstands_valid _ _ _ PS) as PV. unfold fp_valid in V. cbn [fp_it] in V. rewrite V in PV. destruct (tl cur); [|discriminate].
             apply lands_end. rewrite <- (others_last opts i RV L). constructor; auto.
          -- apply lands_bad; [discriminate|]. constructor; auto. split; auto. apply others_last; auto.
        * destruct (nth_error opts (S i)) as [o|] eqn:NO; [|apply nth_error_None in NO; lia].
          rewrite (open_opened _ _ _ _ NO) in E. rewrite (others_fwd _ _ _ RV NO).
          destruct (fp_move io true it_first (FP (open (fst o) (snd o)) false) (S n1)) as [p2 n3] eqn:M2.
          assert (C2 : (p2 = FP (it_first (open (fst o) (snd o))) false /\ pstands rv (it_first (open (fst o) (snd o))) (its o)) \/
                       (fp_bad p2 = true /\ pi_err (fp_it p2) = None /\ pi_pos (fp_it p2) = PNone)).
          { destruct (move_again _ _ _ _ _ (NOERR (fst o) (snd o)) M2) as [->|X]; auto. left. split; auto.
            pose proof (pfirst_stands rv (open (fst o) (snd o)) (NOERR _ _)) as P. unfold pfirst in P. unfold items. destruct rv; [discriminate|exact P]. }
          apply (lands_drops _ _ (its o :: others opts (S i))); [apply dr_skip, dr_here|].
          destruct (fp_valid p2) eqn:V2.
          -- injection E as <- <- <-. destruct C2 as [[-> PS]|[_ [_ X]]]; [|rewrite bad_invalid in V2 by auto; discriminate].
             apply item_cases; [constructor; auto; lia|]. pose proof (pstands_valid _ _ _ PS) as PV. unfold fp_valid in V2. cbn [fp_it] in V2. rewrite V2 in PV.
             intros Z. rewrite Z in PV. discriminate.
          -- destruct C2 as [[-> PS]|X].
             ++ pose proof (pstands_valid _ _ _ PS) as PV. unfold fp_valid in V2. cbn [fp_it] in V2. rewrite V2 in PV. destruct (its o) eqn:EI; [|discriminate].
                eapply (IH opts (S i) (FP (it_first (open (fst o) (snd o))) false) n3 [] i' p' n'); auto; lia.
             ++ eapply (IH opts (S i) p2 n3 (([], []) :: its o) i' p' n'); auto; lia.
  Qed.

  Lemma multi_prev_lands (RV : rv = true) : forall i opts p n cur i' p' n', i < length opts ->
    (pstands rv (fp_it p) cur /\ fp_bad p = false \/ fp_bad p = true /\ pi_err (fp_it p) = None /\ pi_pos (fp_it p) = PNone) ->
    fmulti_prev io open opts i p n = (i', p', n') ->
    lands (FMulti opts i' p') (tl cur :: others opts i).
  Proof.
    induction i as [|i IH]; intros opts p n cur i' p' n' LI ST E; cbn [fmulti_prev] in E;
      destruct (fp_move io false it_prev p n) as [p1 n1] eqn:M;
      (assert (C : (exists q, p1 = FP q false /\ pstands rv q (tl cur)) \/ (fp_bad p1 = true /\ pi_err (fp_it p1) = None /\ pi_pos (fp_it p1) = PNone));
       [destruct ST as [[ST B]|[B [PE PP]]];
        [destruct p as [p b]; cbn [fp_it fp_bad] in *; subst b;
         destruct (move_next _ _ _ _ _ (proj1 ST) M) as [->|X]; auto; left; exists (it_prev p); split; auto;
         pose proof (pnext_stands rv p cur ST) as N; unfold pnext in N; destruct rv; [exact N|discriminate]
        |rewrite (move_bad it_prev p n B PE) in M; injection M as <- <-; auto]|]).
    - assert (E' : (0, p1, n1) = (i', p', n')) by (destruct (fp_valid p1); exact E). injection E' as <- <- <-. rewrite (others_zero opts RV).
      destruct C as [[q [-> PS]]|[X1 [X2 X3]]].
      + assert (S' : stands (FMulti opts 0 (FP q false)) [tl cur]).
        { rewrite <- (others_zero opts RV). constructor; auto. }
        destruct (tl cur); [apply lands_end; auto|apply lands_item; auto].
      + apply lands_bad; [discriminate|]. constructor; auto. split; auto. apply others_zero; auto.
    - destruct (fp_valid p1) eqn:V.
      + injection E as <- <- <-. destruct C as [[q [-> PS]]|[_ [_ X]]]; [|rewrite bad_invalid in V by auto; discriminate].
        apply item_cases; [constructor; auto|]. pose proof (pstands_valid _ _ _ PS) as PV. unfold fp_valid in V. cbn [fp_it] in V. rewrite V in PV.
        intros Z. rewrite Z in PV. discriminate.
      + destruct (nth_error opts i) as [o|] eqn:NO; [|apply nth_error_None in NO; lia].
        rewrite (open_opened _ _ _ _ NO) in E. rewrite (others_back _ _ _ RV NO).
        destruct (fp_move io true it_last (FP (open (fst o) (snd o)) false) (S n1)) as [p2 n3] eqn:M2.
        assert (C2 : (p2 = FP (it_last (open (fst o) (snd o))) false /\ pstands rv (it_last (open (fst o) (snd o))) (its o)) \/
                     (fp_bad p2 = true /\ pi_err (fp_it p2) = None /\ pi_pos (fp_it p2) = PNone)).
        { destruct (move_again _ _ _ _ _ (NOERR (fst o) (snd o)) M2) as [->|X]; auto. left. split; auto.
          pose proof (pfirst_stands rv (open (fst o) (snd o)) (NOERR _ _)) as P. unfold pfirst in P. unfold items. destruct rv; [exact P|discriminate]. }
        apply (lands_drops _ _ (its o :: others opts i)); [apply dr_skip, dr_here|].
        destruct (fp_valid p2) eqn:V2.
        * injection E as <- <- <-. destruct C2 as [[-> PS]|[_ [_ X]]]; [|rewrite bad_invalid in V2 by auto; discriminate].
          apply item_cases; [constructor; auto; lia|]. pose proof (pstands_valid _ _ _ PS) as PV. unfold fp_valid in V2. cbn [fp_it] in V2. rewrite V2 in PV.
          intros Z. rewrite Z in PV. discriminate.
        * destruct C2 as [[-> PS]|X].
          -- pose proof (pstands_valid _ _ _ PS) as PV. unfold fp_valid in V2. cbn [fp_it] in V2. rewrite V2 in PV. destruct (its o) eqn:EI; [|discriminate].
             eapply (IH opts (FP (it_last (open (fst o) (snd o))) false) n3 [] i' p' n'); auto; lia.
          -- eapply (IH opts p2 n3 (([], []) :: its o) i' p' n'); auto; lia.
  Qed.

  (** the loops of First and Last, from option [i] on *)
  Lemma multi_first_lands (RV : rv = false) : forall todo opts i cur n i' p' n', 0 < todo -> i + todo = length opts ->
    fmulti_first io open opts todo i cur n = (i', p', n') ->
    lands (FMulti opts i' p') (map (fun o => its o) (skipn i opts)).
  Proof.
    induction todo as [|todo IH]; intros opts i cur n i' p' n' L0 L E; [lia|]. clear L0. cbn [fmulti_first] in E.
    destruct (skipn_at opts i) as [o [NO EO]]; [lia|].
    rewrite (open_opened _ _ _ _ NO) in E. rewrite EO. cbn [map].
    destruct (fp_move io true it_first (FP (open (fst o) (snd o)) false) (S n)) as [p2 n3] eqn:M2.
    assert (C2 : (p2 = FP (it_first (open (fst o) (snd o))) false /\ pstands rv (it_first (open (fst o) (snd o))) (its o)) \/
                 (fp_bad p2 = true /\ pi_err (fp_it p2) = None /\ pi_pos (fp_it p2) = PNone)).
    { destruct (move_again _ _ _ _ _ (NOERR (fst o) (snd o)) M2) as [->|X]; auto. left. split; auto.
      pose proof (pfirst_stands rv (open (fst o) (snd o)) (NOERR _ _)) as P. unfold pfirst in P. unfold items. destruct rv; [discriminate|exact P]. }
    assert (OT : map (fun o => its o) (skipn (S i) opts) = others opts i) by (unfold others; rewrite RV; reflexivity).
    destruct (fp_valid p2) eqn:V2.
    - injection E as <- <- <-. destruct C2 as [[-> PS]|[_ [_ X]]]; [|rewrite bad_invalid in V2 by auto; discriminate]. rewrite OT.
      apply item_cases; [constructor; auto; lia|]. pose proof (pstands_valid _ _ _ PS) as PV. unfold fp_valid in V2. cbn [fp_it] in V2. rewrite V2 in PV.
      intros Z. rewrite Z in PV. discriminate.
    - destruct todo as [|todo].
      + cbn [fmulti_first] in E. injection E as <- <- <-. rewrite OT. assert (L' : S i = length opts) by lia. rewrite (others_last _ _ RV L').
        destruct C2 as [[-> PS]|[X1 [X2 X3]]].
        * pose proof (pstands_valid _ _ _ PS) as PV. unfold fp_valid in V2. cbn [fp_it] in V2. rewrite V2 in PV. destruct (its o) eqn:EI; [|discriminate].
          apply lands_end. rewrite <- (others_last opts i RV L'). constructor; auto; lia.
        * apply lands_bad; [discriminate|]. constructor; auto. split; [lia|]. apply others_last; auto.
      + apply (lands_drops _ _ (map (fun o => its o) (skipn (S i) opts))); [apply dr_skip, dr_here|].
        eapply IH; [| |exact E]; lia.
  Qed.

  Lemma multi_last_lands (RV : rv = true) : forall todo opts cur n i' p' n', 0 < todo -> todo <= length opts ->
    fmulti_last io open opts todo cur n = (i', p', n') ->
    lands (FMulti opts i' p') (map (fun o => its o) (rev (firstn todo opts))).
  Proof.
    induction todo as [|i IH]; intros opts cur n i' p' n' L0 L E; [lia|]. clear L0. cbn [fmulti_last] in E.
    destruct (firstn_at opts i) as [o [NO EO]]; [lia|].
    rewrite (open_opened _ _ _ _ NO) in E. rewrite EO, rev_app_distr. cbn [rev app map].
    destruct (fp_move io true it_last (FP (open (fst o) (snd o)) false) (S n)) as [p2 n3] eqn:M2.
    assert (C2 : (p2 = FP (it_last (open (fst o) (snd o))) false /\ pstands rv (it_last (open (fst o) (snd o))) (its o)) \/
                 (fp_bad p2 = true /\ pi_err (fp_it p2) = None /\ pi_pos (fp_it p2) = PNone)).
    { destruct (move_again _ _ _ _ _ (NOERR (fst o) (snd o)) M2) as [->|X]; auto. left. split; auto.
      pose proof (pfirst_stands rv (open (fst o) (snd o)) (NOERR _ _)) as P. unfold pfirst in P. unfold items. destruct rv; [exact P|discriminate]. }
    assert (OT : map (fun o => its o) (rev (firstn i opts)) = others opts i) by (unfold others; rewrite RV; reflexivity).
    destruct (fp_valid p2) eqn:V2.
    - injection E as <- <- <-. destruct C2 as [[-> PS]|[_ [_ X]]]; [|rewrite bad_invalid in V2 by auto; discriminate]. rewrite OT.
      apply item_cases; [constructor; auto; lia|]. pose proof (pstands_valid _ _ _ PS) as PV. unfold fp_valid in V2. cbn [fp_it] in V2. rewrite V2 in PV.
      intros Z. rewrite Z in PV. discriminate.
    - destruct i as [|i].
      + cbn [fmulti_last] in E. injection E as <- <- <-. rewrite OT. rewrite (others_zero _ RV).
        destruct C2 as [[-> PS]|[X1 [X2 X3]]].
        * pose proof (pstands_valid _ _ _ PS) as PV. unfold fp_valid in V2. cbn [fp_it] in V2. rewrite V2 in PV. destruct (its o) eqn:EI; [|discriminate].
          apply lands_end. rewrite <- (others_zero opts RV). constructor; auto; lia.
        * apply lands_bad; [discriminate|]. constructor; [split; [lia|apply others_zero; auto]|auto..].
      + apply (lands_drops _ _ (map (fun o => its o) (rev (firstn (S i) opts)))); [apply dr_skip, dr_here|].
        eapply IH; [| |exact E]; lia.
  Qed.

  (** ** Next and first of a scan *)

  Lemma next_lands b cur R b' n n' : stands b (cur :: R) -> fscan_next io open rv b n = (b', n') -> lands b' (tl cur :: R).
  Proof.
    intros ST E. inversion ST; subst; cbn [fscan_next] in E.
    - destruct (fp_move io false _ _ n) as [p1 n1] eqn:M. injection E as <- <-.
      match goal with H : pstands _ _ _ |- _ => pose proof H as PS end.
      destruct (move_next _ _ _ _ _ (proj1 PS) M) as [->|[X1 [X2 X3]]].
      + pose proof (pnext_stands rv _ _ PS) as N. unfold pnext in N.
        assert (S' : stands (FOne (FP ((if rv then it_prev else it_next) p) false)) [tl cur]) by (constructor; destruct rv; exact N).
        destruct (tl cur); [apply lands_end; auto|apply lands_item; auto].
      + apply lands_bad; [discriminate|]. constructor; auto.
    - destruct (bool_dec rv true) as [RV|RV]; [|apply not_true_is_false in RV]; rewrite RV in E; cbv iota in E.
      + destruct (fmulti_prev io open opts i (FP p false) n) as [[i' p'] n1] eqn:M. injection E as <- <-.
        apply (multi_prev_lands RV i opts (FP p false) n cur i' p' n1); auto.
      + destruct (fmulti_next io open opts (length opts) i (FP p false) n) as [[i' p'] n1] eqn:M. injection E as <- <-.
        apply (multi_next_lands RV (length opts) opts i (FP p false) n cur i' p' n1); auto; lia.
  Qed.

  (** at the end, or stopped: Next stays there *)
  Lemma end_next b b' n n' : stands b [[]] -> fscan_next io open rv b n = (b', n') -> at_ b' (Some [[]]) \/ at_ b' None.
  Proof.
    intros ST E. destruct (next_lands _ _ _ _ _ _ ST E) as (o & A & _ & B & _). inversion A; subst; auto. cbn in B. lia.
  Qed.

  Lemma bad_next b b' n n' : at_ b None -> fscan_next io open rv b n = (b', n') -> at_ b' None.
  Proof.
    intros A E. inversion A as [| |b0 OT B PE PP]; subst. destruct b as [p|opts i p]; cbn [fscan_next fb_cur] in *.
    - rewrite (move_bad _ p n B PE) in E. injection E as <- <-. constructor; auto.
    - destruct OT as [LI OT]. destruct (bool_dec rv true) as [RV|RV]; [|apply not_true_is_false in RV]; rewrite RV in E; cbv iota in E.
      + destruct i as [|i].
        * cbn [fmulti_prev] in E. rewrite (move_bad _ p n B PE) in E. rewrite bad_invalid in E by auto. injection E as <- <-. constructor; auto.
        * destruct (nth_error opts i) as [o|] eqn:NO; [|apply nth_error_None in NO; lia]. rewrite (others_back _ _ _ RV NO) in OT. discriminate.
      + assert (L : S i = length opts).
        { destruct (nth_error opts (S i)) as [o|] eqn:NO; [rewrite (others_fwd _ _ _ RV NO) in OT; discriminate|]. apply nth_error_None in NO. lia. }
        rewrite <- L in E. cbn [fmulti_next] in E. rewrite (move_bad _ p n B PE) in E. rewrite bad_invalid in E by auto.
        rewrite (proj2 (Nat.eqb_eq _ _) L) in E. injection E as <- <-. constructor; auto.
  Qed.

  Lemma first_one p b' n n' : pi_err p = None -> fscan_first io open rv (FOne (FP p false)) n = (b', n') -> lands b' [whole rv (pi_items p)].
  Proof.
    intros PE E. cbn [fscan_first] in E. destruct (fp_move io true _ _ n) as [p1 n1] eqn:M. injection E as <- <-.
    destruct (move_again _ _ _ _ _ PE M) as [->|[X1 [X2 X3]]].
    - pose proof (pfirst_stands rv _ PE) as N. unfold pfirst in N.
      assert (S' : stands (FOne (FP ((if rv then it_last else it_first) p) false)) [whole rv (pi_items p)]) by (constructor; destruct rv; exact N).
      destruct (whole rv (pi_items p)); [apply lands_end; auto|apply lands_item; auto].
    - apply lands_bad; [discriminate|]. constructor; auto.
  Qed.

  Lemma first_multi opts i p b' n n' : opts <> [] -> fscan_first io open rv (FMulti opts i p) n = (b', n') ->
    lands b' (map (fun o => its o) (if rv then rev opts else opts)).
  Proof.
    intros NE E. cbn [fscan_first] in E. assert (L : 0 < length opts) by (destruct opts; [easy|cbn; lia]).
    destruct (bool_dec rv true) as [RV|RV]; [|apply not_true_is_false in RV]; rewrite RV in E; cbv iota in E.
    - replace (if rv then rev opts else opts) with (rev opts) by (rewrite RV; reflexivity).
      destruct (fmulti_last io open opts (length opts) (i, p) n) as [[i' p'] n1] eqn:M. injection E as <- <-.
      pose proof (multi_last_lands RV (length opts) opts (i, p) n i' p' n1 L (le_n _) M) as X. rewrite firstn_all in X. exact X.
    - replace (if rv then rev opts else opts) with opts by (rewrite RV; reflexivity).
      destruct (fmulti_first io open opts (length opts) 0 (i, p) n) as [[i' p'] n1] eqn:M. injection E as <- <-.
      apply (multi_first_lands RV (length opts) opts 0 (i, p) n i' p' n1 L eq_refl M).
  Qed.

  (** ** What the iterator shows *)

  Lemma at_valid b o : at_ b o -> fb_valid b = match o with Some ((_ :: _) :: _) => true | _ => false end.
  Proof.
    intro A. unfold fb_valid. inversion A as [b0 x cur R ST|b0 ST|b0 OT B PE PP]; subst.
    - inversion ST; subst; cbn [fb_cur]; unfold fp_valid; cbn [fp_it]; erewrite pstands_valid; eauto; reflexivity.
    - inversion ST; subst; cbn [fb_cur]; unfold fp_valid; cbn [fp_it]; erewrite pstands_valid; eauto; reflexivity.
    - apply bad_invalid; auto.
  Qed.

  Lemma at_item_of b x cur R : stands b ((x :: cur) :: R) -> fb_key b = fst x /\ fb_value b = snd x.
  Proof.
    intro ST. unfold fb_key, fb_value, it_key, it_value.
    inversion ST; subst; cbn [fb_cur fp_it]; erewrite pstands_item by eauto; auto.
  Qed.

  Lemma at_close b o : at_ b o -> match o with Some _ => fb_close b = Ok tt | None => fb_close b = Err EOther end.
  Proof.
    intro A. unfold fb_close. inversion A as [b0 x cur R ST|b0 ST|b0 OT B PE PP]; subst.
    - inversion ST; subst; reflexivity.
    - inversion ST; subst; reflexivity.
    - rewrite B. reflexivity.
  Qed.
End Bond.

(** ** Get *)

Section Gets.
  Context {T F : Type}.
  Variable tb : table T F.
  Variable ev : env T.
  Variable io : faults.

  (** the iterator moves over the same items *)
  Lemma fget_values_eq fl keys : forall (q : piter) it n r n', pi_err q = None -> pi_err (fp_it it) = None -> pi_items (fp_it it) = pi_items q ->
    fget_values io tb fl it keys true n = (r, n') -> r = get_values tb fl q keys true \/ r = Err ENotFound.
  Proof.
    induction keys as [|k keys IH]; intros q it n r n' EQ PE IT E; cbn [fget_values get_values] in *; [injection E as <- _; auto|].
    unfold get_value. destruct (negb (flt_may tb fl k)); [injection E as <- _; auto|].
    unfold fp_move in E. rewrite PE in E. cbn [negb andb] in E. rewrite andb_false_r in E.
    destruct (ft_move io n).
    - cbn [fp_valid fp_it it_valid pi_pos negb orb] in E. injection E as <- _. auto.
    - assert (SK : it_seek_ge (fp_it it) k = it_seek_ge q k) by (unfold it_seek_ge; rewrite IT, PE, EQ; reflexivity).
      unfold fp_valid in E. cbn [fp_it] in E. rewrite SK in E.
      destruct (negb (it_valid (it_seek_ge q k)) || negb (beqb (it_key (it_seek_ge q k)) k)); [injection E as <- _; auto|].
      destruct (fget_values io tb fl _ keys true (S n)) as [r2 n2] eqn:E2.
      apply (IH q) in E2; auto.
      destruct E2 as [-> | ->]; [|injection E as <- _; auto].
      destruct (get_values tb fl q keys true); injection E as <- _; auto.
  Qed.

  Lemma fget_keys_eq db fl ob keys n r n' : (forall n, ft_open io n = false) -> readable ob ->
    fget_keys io tb ev db fl ob keys true n = (r, n') -> r = get_keys tb ev db fl ob keys true \/ r = Err ENotFound.
  Proof.
    intros OPEN RD E. unfold fget_keys, get_keys in *. destruct keys as [|k keys]; [injection E as <- _; auto|].
    destruct (sort_keys ev (k :: keys)) as [sk od]. unfold fp_open in E. rewrite OPEN in E. cbv beta iota in E.
    assert (PE : pi_err (db_iter db ob (hd [] sk) (data_key_space_end tb)) = None) by (unfold db_iter; destruct ob as [b|]; [rewrite RD|]; reflexivity).
    destruct (fget_values io tb fl _ sk true (S n)) as [r2 n2] eqn:E2. pose proof (fget_values_eq fl sk _ _ _ _ _ PE (PE : pi_err (fp_it (FP _ false)) = None) eq_refl E2) as E3. clear E2. rename E3 into E2.
    destruct E2 as [-> | ->]; [|injection E as <- _; auto].
    destruct (get_values tb fl _ sk true); injection E as <- _; auto.
  Qed.
End Gets.

(** ** The loops *)

Section FLoops.
  Context {T F W : Type}.
  Variable tb : table T F.
  Variable ev : env T.
  Hypothesis CTX : forall n, e_ctx ev n = false.
  Variable io : faults.
  Hypothesis OPEN : forall n, ft_open io n = false.
  Variable f : W -> bytes -> prog (T:=T) W.
  Variable open : bytes -> bytes -> piter.
  Hypothesis NOERR : forall lo hi, pi_err (open lo hi) = None.
  Variable rv : bool.
  Variable row : entry -> T.

  Notation at_ := (at_ open rv).
  Notation kd l := (map (fun e => (fst e, row e)) l).

  Lemma told_cons k r l ok s s' out : answer (Ok r) (f s k) = (s', true, None) -> told f l ok s' out -> told f ((k, r) :: l) ok s out.
  Proof. intros A H. unfold told in *. cbn [visit_go]. rewrite A. exact H. Qed.

  Lemma told_app l1 l2 ok s s' out : visit_go f l1 s = inr s' -> told f l2 ok s' out -> told f (l1 ++ l2) ok s out.
  Proof. intros A H. unfold told in *. rewrite visit_go_app, A. exact H. Qed.

  Lemma told_end l1 l2 ok s out : visit_go f l1 s = inl out -> told f (l1 ++ l2) ok s out.
  Proof. intros A. unfold told. rewrite visit_go_app, A. reflexivity. Qed.

  (** the loop is over *)
  Lemma told_over it o s : at_ it o -> fb_valid it = false -> exists l ok, seen_o o l ok /\ told f (kd l) ok s (s, fb_close it).
  Proof.
    intros A V. pose proof (at_close open rv it o A) as C. pose proof (at_valid open rv it o A) as V'. rewrite V in V'.
    inversion A; subst; try discriminate; rewrite C.
    - exists [], true. split; [constructor|reflexivity].
    - exists [], false. split; [split; auto|]. exists EOther, s. split; [reflexivity|left; reflexivity].
  Qed.

  Lemma fprimary_told : forall k o it fuel c n s, size_o o <= k -> size_o o <= fuel -> at_ it o ->
    (forall e, In e (in_o o) -> t_deser tb (snd e) (t_nil tb) = Some (row e)) ->
    exists l ok, seen_o o l ok /\ told f (kd l) ok s (fprimary_loop io tb ev f open rv fuel c it n s).
  Proof.
    induction k as [|k IH]; intros o it fuel c n s LK LF A DS; (destruct (fb_valid it) eqn:V;
      [|destruct fuel; cbn [fprimary_loop]; rewrite V; apply told_over; auto]);
      pose proof (at_valid open rv it o A) as V'; rewrite V in V'; destruct o as [[|[|x cur] R]|]; try discriminate; [cbn in LK; lia|].
    assert (ST : stands open rv it ((x :: cur) :: R)) by (inversion A; subst; auto).
    destruct (at_item_of open rv it x cur R ST) as [EK EV']. cbn [size_o concat app length in_o] in *.
    destruct fuel as [|fuel]; [lia|]. cbn [fprimary_loop]. rewrite V, CTX, EK.
    assert (DX : t_deser tb (snd x) (t_nil tb) = Some (row x)) by (apply DS; left; auto).
    assert (RP : run_prog (fget_value_of tb) (f s (fst x)) it = (it, Ok (answer (Ok (row x)) (f s (fst x))))).
    { apply run_prog_answer; try easy. unfold fget_value_of. rewrite EV', DX. reflexivity. }
    rewrite RP. destruct (answer (Ok (row x)) (f s (fst x))) as [[s' c'] oe] eqn:EA.
    assert (STOP : forall out, visit_go f [(fst x, row x)] s = inl out -> exists l ok, in_parts ((x :: cur) :: R) l ok /\ told f (kd l) ok s out).
    { intros out VG. exists [x], false. split; [apply seen_cons, seen_none; discriminate|]. unfold told. cbn [map]. rewrite VG. reflexivity. }
    destruct c', oe as [e|]; try (apply STOP; cbn [visit_go]; rewrite EA; reflexivity).
    destruct (fscan_next io open rv it n) as [it2 n2] eqn:EN.
    destruct (next_lands io OPEN open NOERR rv _ _ _ _ _ _ ST EN) as (o2 & A2 & S2 & L2 & I2). cbn [tl concat] in L2, I2.
    destruct (IH o2 it2 fuel (S c) n2 s') as (l & ok & SE & TO); auto; try lia.
    { intros e He. apply DS. right. apply I2. auto. }
    exists (x :: l), ok. split; [apply seen_cons; auto|]. cbn [map]. eapply told_cons; eauto.
  Qed.

  (** ** Secondary *)
  Variable db : kv.
  Variable fl : F.
  Variable ob : option batch.
  Variable dkf : entry -> bytes.
  Hypothesis RD : readable ob.

  Lemma fcollect_spec : forall cap o it st n, at_ it o -> (forall e, In e (in_o o) -> to_data_key_bytes (fst e) [] = Ok (dkf e)) -> 0 < cap ->
    exists it' n' blk, fcollect io open rv cap st it n =
        (Sst (ss_it st) (ss_keys st ++ map dkf blk) (ss_ikeys st ++ map fst blk) (ss_vals st) (ss_vi st), it', n', Ok tt) /\
      length blk <= cap /\ incl blk (in_o o) /\ (forall x cur R, o = Some ((x :: cur) :: R) -> exists b, blk = x :: b) /\
      forall b2 n2 n3, fscan_next io open rv it' n2 = (b2, n3) -> exists o2, at_ b2 o2 /\ (forall l ok, seen_o o2 l ok -> seen_o o (blk ++ l) ok) /\
        length blk + size_o o2 <= size_o o /\ incl (in_o o2) (in_o o).
  Proof.
    induction cap as [|cap IH]; intros o it st n A TD LC; [lia|]. cbn [fcollect].
    pose proof (at_valid open rv it o A) as V. rewrite V.
    inversion A as [b0 x cur R ST|b0 ST|b0 B1 B2 B3 B4]; subst o b0.
    - destruct (at_item_of open rv it x cur R ST) as [EK _]. rewrite EK. cbn [in_o concat] in TD.
      rewrite (TD x (or_introl eq_refl)). destruct cap as [|cap].
      + exists it, n, [x]. split; [reflexivity|]. split; [auto|]. split; [intros y [<-|[]]; left; auto|]. split; [intros ? ? ? E; injection E as <- _ _; eauto|].
        intros b2 n2 n3 EN. destruct (next_lands io OPEN open NOERR rv _ _ _ _ _ _ ST EN) as (o2 & A2 & S2 & L2 & I2). cbn [tl] in *.
        exists o2. split; auto. split; [intros l ok H; apply seen_cons; auto|]. split; [cbn in *; lia|]. intros y Hy. right. apply I2; auto.
      + destruct (fscan_next io open rv it n) as [it2 n2] eqn:EN.
        destruct (next_lands io OPEN open NOERR rv _ _ _ _ _ _ ST EN) as (o2 & A2 & S2 & L2 & I2). cbn [tl] in *.
        destruct (IH o2 it2 (Sst (ss_it st) (ss_keys st ++ [dkf x]) (ss_ikeys st ++ [fst x]) (ss_vals st) (ss_vi st)) n2 A2) as (it' & n' & blk & C & LB & IB & _ & N); [|lia|].
        { intros e He. apply TD. right. apply I2; auto. }
        exists it', n', (x :: blk). rewrite C. cbn [ss_it ss_keys ss_ikeys ss_vals ss_vi]. rewrite <- !app_assoc. split; [reflexivity|].
        split; [cbn; lia|]. split; [intros y [<-|Hy]; [left; auto|right; apply I2, IB; auto]|]. split; [intros ? ? ? E; injection E as <- _ _; eauto|].
        intros b2 n3 n4 EN2. destruct (N b2 n3 n4 EN2) as (o3 & A3 & S3 & L3 & I3). exists o3. split; auto.
        split; [intros l ok H; cbn [app]; apply seen_cons, S2, S3; auto|]. split; [cbn in *; lia|]. intros y Hy. right. apply I2, I3; auto.
    - exists it, n, []. cbn [map]. rewrite !app_nil_r. destruct st. split; [reflexivity|]. split; [cbn; lia|]. split; [intros y []|]. split; [discriminate|].
      intros b2 n2 n3 EN. destruct (end_next io OPEN open NOERR rv _ _ _ _ ST EN) as [A2|A2]; [exists (Some [[]])|exists None]; (split; [exact A2|]); cbn [app].
      + split; auto. split; [cbn; lia|apply incl_refl].
      + split; [intros l ok [-> ->]; apply (seen_cut [] [])|]. split; [cbn; lia|intros y []].
    - exists it, n, []. cbn [map]. rewrite !app_nil_r. destruct st. split; [reflexivity|]. split; [cbn; lia|]. split; [intros y []|]. split; [discriminate|].
      intros b2 n2 n3 EN. exists None. split; [eapply bad_next; eauto|]. cbn [app]. split; auto. split; [cbn; lia|apply incl_refl].
  Qed.

  Variable L : W -> Prop.
  Hypothesis LOAD : forall s k, L s -> one_get (f s k) L.
  Hypothesis STEADY : forall s k, no_get (f s k) \/ one_get (f s k) L.
  Hypothesis GIVES : gives_up f.
  Variable val : entry -> bytes.
  Hypothesis PRE : 0 < t_prefetch tb.

  Lemma fsecondary_told : forall k o it fuel c n s, size_o o <= k -> size_o o <= fuel -> at_ it o ->
    (forall e, In e (in_o o) -> to_data_key_bytes (fst e) [] = Ok (dkf e)) ->
    (forall e, In e (in_o o) -> t_deser tb (val e) (t_nil tb) = Some (row e)) ->
    (forall l', incl l' (in_o o) -> get_keys tb ev db fl ob (map dkf l') true = Ok (map val l')) ->
    exists l ok, seen_o o l ok /\ told f (kd l) ok s (fsecondary_loop io tb ev f open rv db fl ob fuel c it n s).
  Proof.
    induction k as [|k IH]; intros o it fuel c n s LK LF A TD DS GK; (destruct (fb_valid it) eqn:V;
      [|destruct fuel; cbn [fsecondary_loop]; rewrite V; apply told_over; auto]);
      pose proof (at_valid open rv it o A) as V'; rewrite V in V'; destruct o as [[|[|x cur] R]|]; try discriminate; [cbn in LK; lia|].
    assert (ST : stands open rv it ((x :: cur) :: R)) by (inversion A; subst; auto).
    destruct (at_item_of open rv it x cur R ST) as [EK EV'].
    destruct fuel as [|fuel]; [cbn in LF; lia|]. cbn [fsecondary_loop]. rewrite V, CTX, EK.
    set (st0 := Sst (BOne (err_iter EOther)) [] [] [] 0).
    assert (STOP : forall out, visit_go f [(fst x, row x)] s = inl out -> exists l ok, in_parts ((x :: cur) :: R) l ok /\ told f (kd l) ok s out).
    { intros out VG. exists [x], false. split; [apply seen_cons, seen_none; discriminate|]. unfold told. cbn [map]. rewrite VG. reflexivity. }
    destruct (STEADY s (fst x)) as [[s1 [c1 [oe E]]]|OG].
    - rewrite E. cbn [run_prog].
      destruct c1, oe as [e|]; try (apply STOP; cbn [visit_go]; rewrite E; reflexivity).
      assert (PL : prefetched_loop tb f fuel st0 s1 = inr (st0, s1)) by (destruct fuel; reflexivity). rewrite PL.
      destruct (fscan_next io open rv it n) as [it2 n2] eqn:EN.
      destruct (next_lands io OPEN open NOERR rv _ _ _ _ _ _ ST EN) as (o2 & A2 & S2 & L2 & I2). cbn [tl concat] in L2, I2.
      cbn [size_o in_o concat app length] in *.
      destruct (IH o2 it2 fuel (S c) n2 s1) as (l & ok & SE & TO); auto; try lia.
      { intros e He. apply TD. right. apply I2. auto. }
      { intros e He. apply DS. right. apply I2. auto. }
      { intros l' H. apply GK. intros y Hy. right. apply I2, H, Hy. }
      exists (x :: l), ok. split; [apply seen_cons; auto|]. cbn [map]. eapply told_cons; eauto. rewrite E. reflexivity.
    - destruct (fcollect_spec (t_prefetch tb) _ it st0 n A TD PRE) as (it' & n' & blk & C & LB & IB & HB & N).
      destruct (HB x cur R eq_refl) as [b EB]. clear HB. cbn [ss_it ss_keys ss_ikeys ss_vals ss_vi st0 app] in C.
      destruct (fget_into io tb ev db fl ob (map dkf blk) n') as [r n2] eqn:EG.
      assert (GR : r = Ok (map val blk) \/ r = Err ENotFound).
      { unfold fget_into in EG. rewrite map_length in EG. rewrite (proj2 (Nat.leb_le _ _) LB) in EG.
        apply fget_keys_eq in EG; auto. rewrite GK in EG; auto. }
      destruct GR as [-> | ->].
      2:{ (* the rows cannot be loaded *)
          assert (G : fprefetch io tb ev open rv db fl ob (st0, it, n) =
             ((Sst (BOne (err_iter EOther)) (left_sorted ev (map dkf blk)) (map fst blk) [] 0, it', n2), Err ENotFound)).
          { unfold fprefetch. cbn [ss_keys length st0]. rewrite Nat.sub_0_r. fold st0. rewrite C. cbn [ss_keys ss_ikeys ss_it ss_vi]. rewrite EG. reflexivity. }
          destruct OG as [g [EF _]]. destruct (GIVES s (fst x) g ENotFound EF) as [s3 [c1 [e' EE]]].
          rewrite EF. cbn [run_prog]. rewrite G, EE. cbn [run_prog].
          exists [], false. split; [apply seen_none; discriminate|]. unfold told. cbn [map visit_go]. exists e', s3. split; [destruct c1; reflexivity|]. right. exists (fst x), g, ENotFound, c1, e'. auto. }
      assert (G : fprefetch io tb ev open rv db fl ob (st0, it, n) =
             ((Sst (BOne (err_iter EOther)) (left_sorted ev (map dkf blk)) (map fst blk) (map val blk) 1, it', n2), Ok (row x))).
      { unfold fprefetch. cbn [ss_keys length st0]. rewrite Nat.sub_0_r. fold st0. rewrite C. cbn [ss_keys ss_ikeys ss_it ss_vi]. rewrite EG.
        unfold get_prefetched. cbn [ss_vals ss_vi]. rewrite EB. cbn [map nth_error]. rewrite (DS x (or_introl eq_refl)). reflexivity. }
      destruct (run_one_get _ _ _ _ _ _ OG G) as [RP HQ]. rewrite RP.
      destruct (answer (Ok (row x)) (f s (fst x))) as [[s1 c1] oe] eqn:EA.
      destruct c1, oe as [e|]; try (apply STOP; cbn [visit_go]; rewrite EA; reflexivity).
      assert (HL1 : L s1) by (apply HQ; reflexivity).
      destruct (fscan_next io open rv it' n2) as [it2 n3] eqn:EN.
      destruct (N it2 n2 n3 EN) as (o2 & A2 & S2 & L2 & I2).
      pose proof (prefetched_spec tb f L LOAD (map fst b) [fst x] (BOne (err_iter EOther)) (left_sorted ev (map dkf blk)) s1 fuel (map row blk) (map val blk) HL1) as PS.
      cbn [app length] in PS. replace (fst x :: map fst b) with (map fst blk) in PS by (rewrite EB; reflexivity).
      assert (CM : combine (map fst b) (skipn 1 (map row blk)) = kd b).
      { rewrite EB. cbn [map skipn]. clear. induction b as [|y b IH]; cbn; f_equal; auto. }
      assert (LN : length blk = S (length b)) by (rewrite EB; reflexivity).
      rewrite PS; clear PS.
      2:{ rewrite CM. left. rewrite map_length. apply le_S_n. refine (Nat.le_trans _ _ _ (Nat.eq_le_incl _ _ (eq_sym LN)) _). eapply Nat.le_trans; [|exact LF]. eapply Nat.le_trans; [|exact L2]. apply Nat.le_add_r. }
      2:{ clear - IB DS. induction blk as [|y blk IH]; cbn; constructor; auto.
          - apply DS, IB. left; auto.
          - apply IH. intros z Hz. apply IB. right; auto. }
      2:{ rewrite !map_length, EB. reflexivity. }
      rewrite CM.
      destruct (visit_go f (kd b) s1) as [out|s2] eqn:EV2.
      + assert (SX : exists l ok, seen_o o2 l ok).
        { inversion A2; subst; cbn [seen_o]; [exists [], false; apply seen_none; discriminate|exists [], true; constructor|eauto]. }
        destruct SX as (l & ok & SE). exists (blk ++ l), ok. split; [apply (S2 l ok SE)|].
        rewrite EB. cbn [app map]. eapply told_cons; [exact EA|]. rewrite map_app. apply told_end. exact EV2.
      + destruct (IH o2 it2 fuel (S c) n3 s2) as (l & ok & SE & TO); auto; try lia.
        { intros l' H. apply GK. intros y Hy. apply I2, H, Hy. }
        exists (blk ++ l), ok. split; [apply (S2 l ok SE)|].
        rewrite EB. cbn [app map]. eapply told_cons; [exact EA|]. rewrite map_app. exact (told_app (kd b) (kd l) ok s1 s2 _ EV2 TO).
    Unshelve. exact 0.
  Qed.
End FLoops.

(** ** The scans *)

Section Top.
  Context {T F : Type}.
  Variable tb : table T F.
  Hypothesis G : good_table tb.
  Variable ev : env T.
  Hypothesis EV : env_ok ev.
  Hypothesis CTX : forall n, e_ctx ev n = false.
  Notation sc := (schema_of tb).
  Let LAW := good_lawful _ G.

  Variable db : kv.
  Variable fl : F.
  Variable ob : option batch.
  Variable m : tmap T.
  Hypothesis KV : kv_ok db.
  Hypothesis RD : readable ob.
  Hypothesis CO : consistent tb (view db ob) fl m.
  Let REP := cons_rep _ _ _ _ CO.
  Notation open := (db_iter db ob).
  Let o' := match ob with Some b => ABatch b | None => NoBatch end.

  Lemma batch_back : batch_of o' = ob.
  Proof. unfold o'. destruct ob; reflexivity. Qed.

  Lemma open_fine lo hi : pi_err (open lo hi) = None.
  Proof. unfold db_iter. destruct ob as [b|]; [rewrite RD|]; reflexivity. Qed.

  Lemma open_items o : items open o = kv_range (view db ob) (fst o) (snd o).
  Proof. unfold items, db_iter. destruct ob as [b|]; [rewrite RD|]; reflexivity. Qed.

  Notation en idx r := (entry_key sc (sindex_of idx) r, val_of tb idx r).
  Notation sels idx sel := (selections sc (sindex_of idx) (Byte.eqb (ix_id idx) x00) sel).
  Notation hold idx := (holds tb idx db o' m).

  Lemma sel_bounds (idx : index T) sel : In idx (primary_index :: t_indexes tb) -> exact_selector tb idx m sel ->
    exists os, os <> [] /\ Forall2 (hold idx) os (sels idx sel) /\
      ((exists lo hi, os = [(lo, hi)] /\ forall open, iter_by tb open idx sel = Ok (BOne (open lo hi))) \/
       (forall open, exists p, iter_by tb open idx sel = Ok (BMulti os 0 p))).
  Proof.
    intros HI EX.
    assert (R : Rep sc (view db (batch_of o')) m) by (rewrite batch_back; exact REP).
    unfold exact_selector in EX. destruct sel as [p|ps|lo hi|rs|]; cbn [exact_sel selections] in *.
    - destruct (point_holds tb LAW idx HI db o' m KV R p EX) as [[lo hi] [E H]]. exists [(lo, hi)]. split; [easy|].
      split; [repeat (constructor; auto)|]. left. exists lo, hi. split; auto. intro open. cbn [iter_by]. rewrite E. reflexivity.
    - destruct EX as [NE EX]. destruct (points_holds tb LAW idx HI db o' m KV R ps EX) as [os [E H]]. exists os.
      assert (N : os <> []) by (intros ->; inversion H as [Y|]; destruct ps; easy). split; auto. split; auto.
      right. intro open. cbn [iter_by]. unfold prim in E. rewrite E. destruct os as [|[lo hi] os]; [easy|]. cbn [new_multi]. eauto.
    - destruct EX as [E1 E2]. pose proof (range_holds tb LAW idx HI db o' m KV R lo hi E1 E2) as H.
      destruct (range_bounds tb idx lo hi) as [a b] eqn:E. exists [(a, b)]. split; [easy|]. split; [repeat (constructor; auto)|].
      left. exists a, b. split; auto. intro open. cbn [iter_by]. rewrite E. reflexivity.
    - destruct EX as [NE EX]. destruct (ranges_holds tb LAW idx HI db o' m KV R rs EX) as [os [E H]]. exists os.
      assert (N : os <> []) by (intros ->; inversion H as [Y|]; destruct rs; easy). split; auto. split; auto.
      right. intro open. cbn [iter_by]. rewrite E. destruct os as [|[lo hi] os]; [easy|]. cbn [new_multi]. eauto.
    - destruct EX.
  Qed.

  Lemma lists_of (idx : index T) os Ps : Forall2 (hold idx) os Ps ->
    exists ls, Forall2 (listing sc (sindex_of idx) m) Ps ls /\ map (items open) os = map (map (fun r => en idx r)) ls.
  Proof.
    induction 1 as [|o P os Ps [l [E H]] F2 IH]; [exists []; split; [constructor|reflexivity]|].
    destruct IH as [ls [A B]]. exists (l :: ls). split; [constructor; auto|]. cbn [map]. rewrite B, open_items. f_equal.
    rewrite batch_back in E. exact E.
  Qed.

  Lemma seen_map {A B} (g : A -> B) (R : list (list A)) l ok : in_parts (map (map g) R) l ok -> exists l', l = map g l' /\ in_parts R l' ok.
  Proof.
    intro H. remember (map (map g) R) as R'. revert R HeqR'. induction H as [l|l1 l2|l1 l2 ls l ok NE H IH]; intros R E.
    - destruct R as [|c [|]]; try discriminate. injection E as E. subst l. exists c. split; auto. constructor.
    - destruct R as [|c [|]]; try discriminate. injection E as E. symmetry in E. apply map_eq_app in E as [c1 [c2 [-> [E1 E2]]]]. exists c1. split; auto. constructor.
    - destruct R as [|c R]; try discriminate. injection E as E1 E2. symmetry in E1. apply map_eq_app in E1 as [c1 [c2 [-> [<- <-]]]].
      destruct (IH _ E2) as [l' [-> S']]. exists (c1 ++ l'). split; [symmetry; apply map_app|]. constructor; auto. intros ->. rewrite E2 in NE. easy.
  Qed.

  Variable io : faults.
  Hypothesis OPEN : forall n, ft_open io n = false.

  (** the iterator of a scan after its first positioning *)
  Lemma scan_starts (idx : index T) sel : In idx (primary_index :: t_indexes tb) -> exact_selector tb idx m sel ->
    exists ls, Forall2 (listing sc (sindex_of idx) m) (sels idx sel) ls /\
    exists b, iter_by tb (fun lo hi => fp_it (fst (fp_open io open lo hi 0))) idx sel = Ok b /\
      forall rv n it n', fscan_first io open rv (fb_of b) n = (it, n') -> lands open rv it (map (map (fun r => en idx r)) (dirs rv ls)).
  Proof.
    intros HI EX. destruct (sel_bounds idx sel HI EX) as (os & NE & F2 & IB). destruct (lists_of idx os _ F2) as (ls & LS & EI).
    exists ls. split; auto.
    assert (WH : forall rv, map (fun o => whole rv (items open o)) (if rv then rev os else os) = map (map (fun r => en idx r)) (dirs rv ls)).
    { intros []; cbn [dirs whole].
      - rewrite map_rev. rewrite <- (map_map (items open) (@rev entry)). rewrite EI, map_rev, !map_map. f_equal. apply map_ext. intro l. symmetry. apply map_rev.
      - exact EI. }
    set (op := fun lo hi => fp_it (fst (fp_open io open lo hi 0))).
    destruct IB as [[lo [hi [-> E]]]|E].
    - exists (BOne (op lo hi)). rewrite E. split; auto. intros rv n it n' ES. rewrite <- WH.
      assert (OP : op lo hi = open lo hi) by (unfold op, fp_open; rewrite OPEN; reflexivity).
      cbn [fb_of] in ES. rewrite OP in ES. pose proof (first_one io open rv _ _ _ _ (open_fine lo hi) ES) as X.
      destruct rv; exact X.
    - destruct (E op) as [p E']. exists (BMulti os 0 p). rewrite E'. split; auto. intros rv n it n' ES. rewrite <- WH.
      exact (first_multi io OPEN open open_fine rv os 0 (FP p false) it n n' NE ES).
  Qed.

  Lemma dirs_size {A} rv (ls : list (list A)) : length (concat (dirs rv ls)) = length (concat ls).
  Proof.
    destruct rv; [|reflexivity]. cbn [dirs]. induction ls as [|l ls IH]; auto. cbn [map rev]. rewrite concat_app, app_length, IH. cbn. rewrite app_nil_r, !app_length, rev_length. lia.
  Qed.

  Lemma dirs_in {A} rv (ls : list (list A)) x : In x (concat (dirs rv ls)) -> In x (concat ls).
  Proof.
    destruct rv; auto. cbn [dirs]. rewrite !in_concat. intros [l [Hl Hx]]. apply in_rev in Hl. apply in_map_iff in Hl as [l0 [<- Hl]]. apply in_rev in Hx. eauto.
  Qed.

  Lemma concat_stored ix Ps ls : Forall2 (listing sc ix m) Ps ls -> forall r, In r (concat ls) -> m (s_pk sc r) = Some r.
  Proof.
    induction 1 as [|P l Ps ls [_ H] F2 IH]; [easy|]. intros r Hr. cbn in Hr. apply in_app_iff in Hr as [Hr|Hr]; auto. apply H in Hr. tauto.
  Qed.

  Lemma seen_o_of o (R : list (list entry)) l ok : (forall l ok, seen_o o l ok -> in_parts R l ok) -> seen_o o l ok -> in_parts R l ok.
  Proof. auto. Qed.

  Theorem scan_told (idx : index T) sel : In idx (primary_index :: t_indexes tb) -> 0 < t_prefetch tb -> exact_selector tb idx m sel ->
    exists ls, Forall2 (listing sc (sindex_of idx) m) (sels idx sel) ls /\
    forall rv W (f : W -> bytes -> prog W) fuel s, loads_steadily f -> gives_up f -> length (concat ls) <= fuel ->
      exists l ok, in_parts (dirs rv ls) l ok /\
        told f (keyed sc (sindex_of idx) l) ok s (fscan_index_for_each io tb ev fuel db fl idx sel f rv ob s).
  Proof.
    intros HI PRE EX. destruct (scan_starts idx sel HI EX) as (ls & LS & b & IT & ST). exists ls. split; auto.
    intros rv W f fuel s [L [L1 L2]] GU FU. unfold fscan_index_for_each. rewrite IT.
    destruct (fscan_first io open rv (fb_of b) 1) as [it n] eqn:ES. destruct (ST rv 1 it n ES) as (o & A & SE & SI & IN).
    set (R := dirs rv ls) in *.
    assert (SR : length (concat (map (map (fun r => en idx r)) R)) = length (concat ls)).
    { rewrite <- concat_map, map_length. apply dirs_size. }
    assert (STO : forall e, In e (in_o o) -> exists r, e = en idx r /\ m (s_pk sc r) = Some r).
    { intros e He. apply IN in He. rewrite <- concat_map in He. apply in_map_iff in He as [r [<- Hr]]. exists r. split; auto.
      eapply concat_stored; eauto. eapply dirs_in; eauto. }
    assert (FIN : forall row, (forall r, m (s_pk sc r) = Some r -> row (en idx r) = r) -> forall out,
       (exists l ok, seen_o o l ok /\ told f (map (fun e => (fst e, row e)) l) ok s out) ->
       exists l ok, in_parts R l ok /\ told f (keyed sc (sindex_of idx) l) ok s out).
    { intros row RW out (l & ok & SO & TO). apply SE in SO. pose proof (seen_incl _ _ _ SO) as IC.
      apply seen_map in SO as [l' [-> SO]]. exists l', ok. split; auto. rewrite map_map in TO. unfold keyed.
      erewrite map_ext_in; [exact TO|]. intros r Hr. cbn [fst]. rewrite RW; auto.
      apply (concat_stored _ _ _ LS). apply (dirs_in rv). apply (seen_incl _ _ _ SO). auto. }
    destruct HI as [<-|HI].
    - change (Byte.eqb (ix_id primary_index) primary_index_id) with true.
      set (row := fun e : entry => match t_deser tb (snd e) (t_nil tb) with Some r => r | None => t_nil tb end).
      assert (RW : forall r, m (s_pk sc r) = Some r -> t_deser tb (val_of tb primary_index r) (t_nil tb) = Some r).
      { intros r Hr. destruct (rep_some (LAW:=LAW) _ _ _ _ REP Hr) as [v [E1 E2]]. unfold val_of. cbn. rewrite E1. exact (good_ser _ G r v (t_nil tb) E1). }
      apply (FIN row). { intros r Hr. unfold row. cbn [snd]. rewrite RW; auto. }
      apply (fprimary_told tb ev CTX io OPEN f open open_fine rv row (size_o o) o); auto.
      + exact (Nat.le_trans _ _ _ SI (Nat.le_trans _ _ _ (Nat.eq_le_incl _ _ SR) FU)).
      + intros e He. destruct (STO e He) as [r [-> Hr]]. unfold row. cbn [snd]. rewrite RW; auto.
    - pose proof (law_nonzero _ LAW _ HI) as NZ.
      replace (Byte.eqb (ix_id idx) primary_index_id) with false.
      2:{ symmetry. destruct (Byte.eqb (ix_id idx) primary_index_id) eqn:X; auto. apply Byte.byte_dec_bl in X. easy. }
      set (dk := fun e : entry => match to_data_key_bytes (fst e) [] with Ok k => k | _ => [] end).
      set (val := fun e : entry => match kv_get (view db ob) (dk e) with Some v => v | None => [] end).
      set (row := fun e : entry => match t_deser tb (val e) (t_nil tb) with Some r => r | None => t_nil tb end).
      assert (DK : forall r, m (s_pk sc r) = Some r -> to_data_key_bytes (fst (en idx r)) [] = Ok (data_key tb r)).
      { intros r Hr. pose proof (stored_fits tb LAW idx (or_intror HI) _ _ r REP Hr) as [F1 F2].
        cbn [fst]. rewrite (data_key_eq tb LAW).
        apply (to_data_key_bytes_layout (t_id tb) (ix_id idx) (si_key (sindex_of idx) r) (si_ord (sindex_of idx) r) (s_pk sc r) [] F1 F2). }
      assert (DK' : forall r, m (s_pk sc r) = Some r -> dk (en idx r) = data_key tb r) by (intros r Hr; unfold dk; rewrite DK; auto).
      assert (VV : forall r, m (s_pk sc r) = Some r -> kv_get (view db ob) (data_key tb r) = Some (val (en idx r)) /\ t_deser tb (val (en idx r)) (t_nil tb) = Some r).
      { intros r Hr. destruct (rep_some (LAW:=LAW) _ _ _ _ REP Hr) as [v [E1 E2]]. unfold val. rewrite DK', E2 by auto. split; auto.
        exact (good_ser _ G r v (t_nil tb) E1). }
      assert (RW : forall r, m (s_pk sc r) = Some r -> row (en idx r) = r) by (intros r Hr; unfold row; rewrite (proj2 (VV r Hr)); auto).
      apply (FIN row RW).
      apply (fsecondary_told tb ev CTX io OPEN f open open_fine rv row db fl ob dk RD L L1 L2 GU val PRE (size_o o) o); auto.
      + exact (Nat.le_trans _ _ _ SI (Nat.le_trans _ _ _ (Nat.eq_le_incl _ _ SR) FU)).
      + intros e He. destruct (STO e He) as [r [-> Hr]]. rewrite DK, DK'; auto.
      + intros e He. destruct (STO e He) as [r [-> Hr]]. rewrite (proj2 (VV r Hr)), RW; auto.
      + intros l' INC. destruct (choose_list (fun e r => m (s_pk sc r) = Some r /\ e = en idx r) l') as [pts F2].
        { intros e He. apply INC in He. destruct (STO e He) as [r [-> Hr]]. eauto. }
        assert (E1 : map dk l' = map (data_key tb) pts).
        { clear - F2 DK'. induction F2 as [|e r es rs [H1 ->] F2 IH]; auto. cbn [map]. rewrite IH, DK'; auto. }
        assert (E2 : map val l' = map (value_at (tb:=tb) (view db ob)) pts).
        { clear - F2 VV. induction F2 as [|e r es rs [H1 ->] F2 IH]; auto. cbn [map]. rewrite IH. f_equal.
          unfold value_at. rewrite (proj1 (VV r H1)). reflexivity. }
        rewrite E1, E2. rewrite (get_keys_err_eq (tb:=tb) (ev:=ev) (LAW:=LAW) (EV:=EV) db fl ob pts KV (cons_covers _ _ _ _ CO) RD).
        replace (forallb _ pts) with true; auto. symmetry. apply forallb_forall. intros r Hr.
        assert (Hr' : m (s_pk sc r) = Some r).
        { clear - F2 Hr. induction F2 as [|e x es rs [H1 _] F2 IH]; [easy|]. destruct Hr as [->|Hr]; auto. }
        rewrite (proj1 (VV r Hr')). reflexivity.
  Qed.
End Top.
