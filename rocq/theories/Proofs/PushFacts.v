(** Filtering in the query and filtering its result. *)

From Coq Require Import List NArith Lia Bool Arith Sorting.Permutation Sorting.Sorted.
From Verif.Model Require Import Bytes Go Keys Pebble Index Table Scan Query.
From Verif.Spec Require Import KeySpec StoreSpec TableSpec HistSpec ScanSpec QuerySpec ChoiceSpec PushSpec.
From Verif.Proofs Require Import BytesFacts ScanProps QueryProps InterFacts OffsetFacts ChoiceFacts.
Import ListNotations.

Lemma keep_also {A} f g (l : list A) : keep (Some (also f g)) l = filter g (keep f l).
Proof.
  destruct f as [f|]; cbn [keep also]; [|reflexivity]. induction l as [|a l IH]; [reflexivity|]. cbn [filter].
  unfold also in *. destruct (f a); cbn [andb filter]; [destruct (g a)|]; now rewrite IH.
Qed.

Lemma perm_filter {A} (g : A -> bool) l k : Permutation l k -> Permutation (filter g l) (filter g k).
Proof.
  induction 1 as [|x l k P IH|x y l|l k j P IH P' IH']; cbn [filter].
  - constructor.
  - destruct (g x); [now constructor|exact IH].
  - destruct (g y), (g x); try apply Permutation_refl. constructor.
  - eapply Permutation_trans; eassumption.
Qed.

Lemma sorted_filter {A} (Rl : A -> A -> Prop) g l : StronglySorted Rl l -> StronglySorted Rl (filter g l).
Proof.
  induction 1 as [|x l S IH FA]; cbn [filter]; [constructor|]. destruct (g x); [|exact IH]. constructor; [exact IH|].
  rewrite Forall_forall in *. intros y I. apply filter_In in I as [I _]. auto.
Qed.

Lemma ordered_filter {A} (less : A -> A -> bool) g l s : ordered (Some less) l s -> ordered (Some less) (filter g l) (filter g s).
Proof. intros [P S]. split; [now apply perm_filter|]. intros W. apply sorted_filter, S, W. Qed.

Section Push.
  Context {T F : Type} (tb : table T F) (G : good_table tb) (ev : env T) (EV : env_ok ev).
  Variables (srt : (T -> T -> bool) -> list T -> list T) (db : kv) (fl : F) (ob : optb) (m : tmap T).
  Variables (R : reads tb db fl ob m) (PF : 0 < t_prefetch tb) (Q : quiet ev).
  Notation sc := (schema_of tb).
  Notation exec fuel q := (execute tb ev srt fuel db fl q ob).
  Notation isin idx := (In idx (primary_index :: t_indexes tb)).
  Notation whole q := (q_with_limit (q_with_offset q 0) 0).

  Theorem pushed q g : isin (q_index q) -> exact_selector tb (q_index q) m (q_sel q) -> q_inter q = [] -> q_less q = None -> q_after q = None ->
    exists l, selected tb (q_index q) m (q_sel q) l /\ forall fuel, length l <= fuel -> exists L, exec fuel (whole q) = Ok L /\
    forall o n, (o < 2 ^ 63)%N -> (n < 2 ^ 63)%N ->
      exec fuel (q_with_limit (q_with_offset (q_with_filter q (also (q_filter q) g)) o) n) = Ok (window o n (filter g L)).
  Proof.
    intros HI EX NI LS NA.
    destruct (query_plain tb G ev EV srt db fl ob m R PF Q (whole q)) as (l & SL & E); auto; try reflexivity.
    exists l. split; [exact SL|]. intros fuel LE. exists (keep (q_filter q) (dir (q_rev q) l)). split.
    - apply E. left. cbn [q_with_limit q_with_offset q_rev]. rewrite length_dir. exact LE.
    - intros o n HO HN.
      destruct (query_plain tb G ev EV srt db fl ob m R PF Q (q_with_limit (q_with_offset (q_with_filter q (also (q_filter q) g)) o) n)) as (l' & SL' & E'); auto.
      assert (X : l' = l) by (eapply (selected_unique tb G db fl ob m (reads_cons _ _ _ _ _ R)); eauto). subst l'.
      rewrite E' by (left; cbn [q_with_limit q_with_offset q_with_filter q_rev]; rewrite length_dir; exact LE).
      cbn [q_with_limit q_with_offset q_with_filter q_rev q_filter q_offset q_limit]. now rewrite keep_also.
  Qed.

  Theorem pushed_order q g less : sorts srt -> isin (q_index q) -> exact_selector tb (q_index q) m (q_sel q) -> once tb m q -> q_inter q = [] ->
    q_less q = Some less -> tells_apart sc m less -> q_after q = None ->
    exists l, selected tb (q_index q) m (q_sel q) l /\ forall fuel, length l <= fuel -> exists L, exec fuel (whole q) = Ok L /\
    forall o n, (o < 2 ^ 63)%N -> (n < 2 ^ 63)%N ->
      exec fuel (q_with_limit (q_with_offset (q_with_filter q (also (q_filter q) g)) o) n) = Ok (window o n (filter g L)).
  Proof.
    intros SR HI EX ON NI LS TA NA.
    destruct (has_selection tb G ev EV srt db fl ob m R PF Q q HI EX) as (l & SL).
    exists l. split; [exact SL|]. intros fuel LE. exists (sorted_rows srt q less l). split.
    - rewrite (query_order_eq tb G ev EV srt db fl ob m R PF Q (whole q) less HI EX NI LS eq_refl eq_refl l SL fuel LE).
      cbn [q_with_limit q_with_offset q_after q_offset q_limit]. rewrite NA. reflexivity.
    - intros o n HO HN.
      rewrite (query_order_eq tb G ev EV srt db fl ob m R PF Q (q_with_limit (q_with_offset (q_with_filter q (also (q_filter q) g)) o) n) less HI EX NI LS HO HN l SL fuel LE).
      cbn [q_with_limit q_with_offset q_with_filter q_after q_offset q_limit]. rewrite NA. f_equal. f_equal.
      unfold sorted_rows. cbn [q_with_limit q_with_offset q_with_filter q_rev q_filter]. rewrite keep_also.
      assert (ND : NoDup (filter g (keep (q_filter q) (dir (q_rev q) l)))) by (apply (nodup_keep (Some g)), nodup_keep, nodup_dir; exact (nodup_selected tb m q l ON SL)).
      apply (ordered_same sc m less TA (filter g (keep (q_filter q) (dir (q_rev q) l))) (filter g (keep (q_filter q) (dir (q_rev q) l)))); auto.
      + apply SR.
      + apply ordered_filter, SR.
      + intros r I. apply filter_In in I as [I _]. apply (asked tb m q l SL) in I. apply I.
      + tauto.
  Qed.

  Lemma same_lists qs ls ls' : (forall x, In x qs -> isin (q_index x)) ->
    Forall2 (fun x l => selected tb (q_index x) m (q_sel x) l) qs ls -> Forall2 (fun x l => selected tb (q_index x) m (q_sel x) l) qs ls' -> ls = ls'.
  Proof.
    intros H A. revert ls'. induction A as [|x l qs ls SL A IH]; intros ls' B; inversion B as [|? l' ? k' SL' B']; subst; [reflexivity|]. f_equal.
    - exact (selected_unique tb G db fl ob m (reads_cons _ _ _ _ _ R) (q_index x) (q_sel x) l l' (H x (or_introl eq_refl)) SL SL').
    - apply IH; [|exact B']. intros y I. apply H. now right.
  Qed.

  Lemma same_intersection ls b b' : intersection sc ls b -> intersection sc ls b' -> b = b'.
  Proof.
    intros [S E] [S' E']. apply (sorted_unique (fun x y => blt (s_pk sc x) (s_pk sc y))); auto.
    - intros a. apply blt_irrefl.
    - intros a c _ _ X Y. exact (blt_irrefl _ (blt_trans _ _ _ X Y)).
    - intros r. now rewrite E, E'.
  Qed.

  Theorem pushed_inter m0 q g : sorts srt -> consistent tb db fl m0 ->
    (forall x, In x (q :: q_inter q) -> isin (q_index x) /\ exact_selector tb (q_index x) m (q_sel x)) -> q_inter q <> [] -> (forall x, In x (q_inter q) -> plain_part x) ->
    q_less q = None -> q_after q = None ->
    exists ls b, Forall2 (fun x l => selected tb (q_index x) m (q_sel x) l) (q :: q_inter q) ls /\ intersection sc ls b /\
    ((forall r, In r b -> m0 (s_pk sc r) = Some r) -> forall fuel, (forall l, In l ls -> length l <= fuel) -> exists L, exec fuel (whole q) = Ok L /\
     forall o n, (o < 2 ^ 63)%N -> (n < 2 ^ 63)%N ->
      exec fuel (q_with_limit (q_with_offset (q_with_filter q (also (q_filter q) g)) o) n) = Ok (window o n (filter g L))).
  Proof.
    intros SR C0 H NE PP LS NA.
    assert (H' : forall o n f, (forall x, In x (q_with_limit (q_with_offset (q_with_filter q f) o) n :: q_inter q) -> isin (q_index x) /\ exact_selector tb (q_index x) m (q_sel x))).
    { intros o n f x [<-|I]; [exact (H q (or_introl eq_refl))|exact (H x (or_intror I))]. }
    assert (HW : forall x, In x (whole q :: q_inter q) -> isin (q_index x) /\ exact_selector tb (q_index x) m (q_sel x)).
    { intros x [<-|I]; [exact (H q (or_introl eq_refl))|exact (H x (or_intror I))]. }
    destruct (query_intersect tb G ev EV srt db fl ob m R Q m0 C0 (whole q) SR HW NE PP eq_refl eq_refl (or_introl NA)) as (ls & b & s & a & F2 & IS & OR & BE & X).
    cbn [q_with_limit q_with_offset q_less q_filter q_after q_offset q_limit q_inter] in OR, BE, X, F2. rewrite LS in OR. rewrite NA in BE. cbn [ordered behind_opt] in OR, BE. subst a s.
    assert (F2' : Forall2 (fun x l => selected tb (q_index x) m (q_sel x) l) (q :: q_inter q) ls) by (inversion F2; subst; constructor; assumption).
    exists ls, b. split; [exact F2'|]. split; [exact IS|]. intros B0 fuel LE. exists (keep (q_filter q) b). split; [exact (X B0 fuel LE)|].
    intros o n HO HN.
    destruct (query_intersect tb G ev EV srt db fl ob m R Q m0 C0 (q_with_limit (q_with_offset (q_with_filter q (also (q_filter q) g)) o) n) SR (H' o n _) NE PP HO HN (or_introl NA))
      as (ls' & b' & s' & a' & F3 & IS' & OR' & BE' & X').
    cbn [q_with_limit q_with_offset q_with_filter q_less q_filter q_after q_offset q_limit q_inter] in OR', BE', X', F3.
    rewrite LS in OR'. rewrite NA in BE'. cbn [ordered behind_opt] in OR', BE'. subst a' s'.
    assert (F3' : Forall2 (fun x l => selected tb (q_index x) m (q_sel x) l) (q :: q_inter q) ls') by (inversion F3; subst; constructor; assumption).
    assert (EL : ls' = ls) by (apply (same_lists (q :: q_inter q)); auto; intros x I; apply H, I). subst ls'.
    rewrite (same_intersection ls b' b IS' IS) in X'. rewrite (X' B0 fuel LE). now rewrite keep_also.
  Qed.

  Theorem pushed_inter_order m0 q g less : sorts srt -> consistent tb db fl m0 ->
    (forall x, In x (q :: q_inter q) -> isin (q_index x) /\ exact_selector tb (q_index x) m (q_sel x)) -> q_inter q <> [] -> (forall x, In x (q_inter q) -> plain_part x) ->
    q_less q = Some less -> tells_apart sc m less -> q_after q = None ->
    exists ls b, Forall2 (fun x l => selected tb (q_index x) m (q_sel x) l) (q :: q_inter q) ls /\ intersection sc ls b /\
    ((forall r, In r b -> m0 (s_pk sc r) = Some r) -> forall fuel, (forall l, In l ls -> length l <= fuel) -> exists L, exec fuel (whole q) = Ok L /\
     forall o n, (o < 2 ^ 63)%N -> (n < 2 ^ 63)%N ->
      exec fuel (q_with_limit (q_with_offset (q_with_filter q (also (q_filter q) g)) o) n) = Ok (window o n (filter g L))).
  Proof.
    intros SR C0 H NE PP LS TA NA.
    assert (H' : forall o n f, (forall x, In x (q_with_limit (q_with_offset (q_with_filter q f) o) n :: q_inter q) -> isin (q_index x) /\ exact_selector tb (q_index x) m (q_sel x))).
    { intros o n f x [<-|I]; [exact (H q (or_introl eq_refl))|exact (H x (or_intror I))]. }
    assert (HW : forall x, In x (whole q :: q_inter q) -> isin (q_index x) /\ exact_selector tb (q_index x) m (q_sel x)).
    { intros x [<-|I]; [exact (H q (or_introl eq_refl))|exact (H x (or_intror I))]. }
    destruct (query_intersect tb G ev EV srt db fl ob m R Q m0 C0 (whole q) SR HW NE PP eq_refl eq_refl (or_introl NA)) as (ls & b & s & a & F2 & IS & OR & BE & X).
    cbn [q_with_limit q_with_offset q_less q_filter q_after q_offset q_limit q_inter] in OR, BE, X, F2. rewrite LS in OR. rewrite NA in BE. cbn [behind_opt] in BE. subst a.
    assert (F2' : Forall2 (fun x l => selected tb (q_index x) m (q_sel x) l) (q :: q_inter q) ls) by (inversion F2; subst; constructor; assumption).
    exists ls, b. split; [exact F2'|]. split; [exact IS|]. intros B0 fuel LE. exists s. split; [exact (X B0 fuel LE)|].
    intros o n HO HN.
    destruct (query_intersect tb G ev EV srt db fl ob m R Q m0 C0 (q_with_limit (q_with_offset (q_with_filter q (also (q_filter q) g)) o) n) SR (H' o n _) NE PP HO HN (or_introl NA))
      as (ls' & b' & s' & a' & F3 & IS' & OR' & BE' & X').
    cbn [q_with_limit q_with_offset q_with_filter q_less q_filter q_after q_offset q_limit q_inter] in OR', BE', X', F3.
    rewrite LS in OR'. rewrite NA in BE'. cbn [behind_opt] in BE'. subst a'.
    assert (F3' : Forall2 (fun x l => selected tb (q_index x) m (q_sel x) l) (q :: q_inter q) ls') by (inversion F3; subst; constructor; assumption).
    assert (EL : ls' = ls) by (apply (same_lists (q :: q_inter q)); auto; intros x I; apply H, I). subst ls'.
    rewrite (same_intersection ls b' b IS' IS) in OR', X'. rewrite (X' B0 fuel LE). f_equal. f_equal. rewrite keep_also in OR'.
    assert (ND : NoDup (filter g (keep (q_filter q) b))).
    { apply (nodup_keep (Some g)), nodup_keep. destruct IS as [SB _]. clear - SB. induction SB as [|x l S IH FA]; [constructor|]. constructor; [|exact IH].
      intros I. rewrite Forall_forall in FA. exact (blt_irrefl _ (FA x I)). }
    apply (ordered_same sc m less TA _ _ s' (filter g s) OR' (ordered_filter less g _ _ OR) ND ND); [|tauto].
    intros r I. apply filter_In in I as [I _]. apply in_keep in I as [I _]. apply (proj2 IS) in I. rewrite Forall_forall in I.
    inversion F2' as [|? l0 ? ? SL F2'']; subst. exact (proj1 (proj1 (listings_in _ _ _ _ _ SL r) (I l0 (or_introl eq_refl)))).
  Qed.
End Push.
