(** Filters of the inspector for values of any type. *)

From Coq Require Import Strings.Byte List NArith ZArith Bool Arith Lia.
From Verif.Model Require Import Bytes Go Keys Pebble Index Table Scan Query Inspect.
From Verif.Spec Require Import KeySpec StoreSpec TableSpec ScanSpec QuerySpec InspectSpec LooseSpec.
From Verif.Proofs Require Import BytesFacts KeysFacts InspectFacts InspectProps.
Import ListNotations.
Local Open Scope Z_scope.

Lemma cont_byte n x : 0 <= x < 64 -> Z.of_N n = x -> cont (n2b (128 + n)) x.
Proof. intros H E. split; [|exact H]. rewrite b2n_n2b, N.mod_small by lia. lia. Qed.

Lemma lead n x base : Z.of_N n = x -> (n + base < 256)%N -> Z.of_N (b2n (n2b (base + n))) = Z.of_N base + x.
Proof. intros E L. rewrite b2n_n2b, N.mod_small by lia. lia. Qed.

Lemma rune_utf8 z : utf8 (if ((0 <=? z) && (z <? 1114112) && negb ((55296 <=? z) && (z <? 57344)))%Z%bool then z else 65533) (rune_bytes z).
Proof.
  unfold rune_bytes. match goal with |- utf8 ?x _ => set (u := x) end. assert (U : 0 <= u < 1114112).
  { unfold u. destruct (Z.leb_spec 0 z), (Z.ltb_spec z 1114112); cbn [andb]; try lia. destruct (negb _); lia. }
  set (n := Z.to_N u). assert (E : Z.of_N n = u) by (unfold n; lia). clearbody n u.
  assert (T : forall k, cont (n2b (128 + (n / 64 ^ k) mod 64)) (Z.of_N ((n / 64 ^ k) mod 64)%N)).
  { intro k. pose proof (N.mod_lt (n / 64 ^ k) 64 ltac:(lia)) as M. revert M. generalize ((n / 64 ^ k) mod 64)%N. intros x M. apply cont_byte; lia. }
  pose proof (T 0%N) as T0. pose proof (T 1%N) as T1. pose proof (T 2%N) as T2. clear T. change (64 ^ 0)%N with 1%N in *. change (64 ^ 1)%N with 64%N in *.
  change (64 ^ 2)%N with 4096%N in *. rewrite N.div_1_r in *.
  pose proof (N.div_mod n 64 ltac:(lia)) as D. pose proof (N.mod_lt n 64 ltac:(lia)) as M.
  pose proof (N.div_mod (n / 64) 64 ltac:(lia)) as D2. pose proof (N.mod_lt (n / 64) 64 ltac:(lia)) as M2. rewrite N.div_div in D2 by lia. change (64 * 64)%N with 4096%N in D2.
  pose proof (N.div_mod (n / 4096) 64 ltac:(lia)) as D3. pose proof (N.mod_lt (n / 4096) 64 ltac:(lia)) as M3. rewrite N.div_div in D3 by lia. change (4096 * 64)%N with 262144%N in D3.
  revert T0 T1 T2 D M D2 M2 D3 M3.
  generalize (n mod 64)%N ((n / 64) mod 64)%N ((n / 4096) mod 64)%N. generalize (n / 64)%N (n / 4096)%N (n / 262144)%N. intros q1 q2 q3 r0 r1 r2 T0 T1 T2 D M D2 M2 D3 M3.
  destruct (N.ltb_spec n 128); [|destruct (N.ltb_spec n 2048); [|destruct (N.ltb_spec n 65536)]].
  - apply u_one; [lia|]. rewrite b2n_n2b, N.mod_small by lia. lia.
  - apply (u_two _ _ _ (Z.of_N q1) (Z.of_N r0)); [lia|lia|rewrite b2n_n2b, N.mod_small by lia; lia|exact T0].
  - apply (u_three _ _ _ _ (Z.of_N q2) (Z.of_N r1) (Z.of_N r0)); [lia|lia|rewrite b2n_n2b, N.mod_small by lia; lia|exact T1|exact T0].
  - apply (u_four _ _ _ _ _ (Z.of_N q3) (Z.of_N r2) (Z.of_N r1) (Z.of_N r0)); [lia|lia|rewrite b2n_n2b, N.mod_small by lia; lia|exact T2|exact T1|exact T0].
Qed.

Lemma cont_fun b b' x : cont b x -> cont b' x -> b = b'.
Proof. intros [A _] [B _]. apply b2n_inj. lia. Qed.

Lemma utf8_fun z s s' : utf8 z s -> utf8 z s' -> s = s'.
Proof.
  intros H H'. inversion H; subst; inversion H'; subst; try lia.
  - f_equal. apply b2n_inj. lia.
  - unfold cont in *. f_equal; [apply b2n_inj; lia|]. f_equal. apply b2n_inj; lia.
  - unfold cont in *. f_equal; [apply b2n_inj; lia|]. f_equal; [apply b2n_inj; lia|]. f_equal. apply b2n_inj; lia.
  - unfold cont in *. f_equal; [apply b2n_inj; lia|]. f_equal; [apply b2n_inj; lia|]. f_equal; [apply b2n_inj; lia|]. f_equal. apply b2n_inj; lia.
Qed.

Lemma rune_spec z s : rune_bytes z = s <-> (scalar z /\ utf8 z s) \/ (~ scalar z /\ utf8 65533 s).
Proof.
  pose proof (rune_utf8 z) as R. unfold scalar.
  destruct (Z.leb_spec 0 z), (Z.ltb_spec z 1114112), (Z.leb_spec 55296 z), (Z.ltb_spec z 57344); cbn [andb negb] in R;
    (split; [intros <-; (left; split; [lia|exact R]) || (right; split; [lia|exact R])|]); intros [[S U]|[S U]]; try (exfalso; lia); exact (utf8_fun _ _ _ R U).
Qed.

Lemma trunc_spec m e t : truncated m e t <-> t = flt_trunc m e.
Proof.
  unfold truncated, flt_trunc. destruct (Z.leb_spec 0 e) as [H|H].
  - split; [intros [A _]; now apply A|]. intros ->. split; [reflexivity|lia].
  - assert (P : 0 < 2 ^ (- e)) by (apply Z.pow_pos_nonneg; lia). set (p := 2 ^ (- e)) in *. split.
    + intros [_ A]. destruct (A H) as [B S]. destruct (Z.le_gt_cases 0 m) as [M|M].
      * rewrite Z.quot_div_nonneg by lia. assert (0 <= t) by nia. apply (Z.div_unique m p t (m - t * p)); [left; nia|ring].
      * replace m with (- (- m)) by lia. rewrite Z.quot_opp_l by lia. rewrite Z.quot_div_nonneg by lia. assert (t <= 0) by nia.
        rewrite <- (Z.div_unique (- m) p (- t) (- m + t * p)); [lia|left; nia|ring].
    + intros ->. split; [lia|]. intros _. destruct (Z.le_gt_cases 0 m) as [M|M].
      * rewrite Z.quot_div_nonneg by lia. pose proof (Z.div_mod m p ltac:(lia)). pose proof (Z.mod_pos_bound m p P). assert (0 <= m / p) by (apply Z.div_pos; lia). split; [nia|nia].
      * replace (Z.quot m p) with (- ((- m) / p)) by (rewrite <- Z.quot_div_nonneg by lia; rewrite <- Z.quot_opp_l by lia; f_equal; lia).
        pose proof (Z.div_mod (- m) p ltac:(lia)). pose proof (Z.mod_pos_bound (- m) p P). assert (0 <= (- m) / p) by (apply Z.div_pos; lia). split; nia.
Qed.

Lemma signed_range w z : (0 < w)%nat -> int_range w (to_signed w z).
Proof.
  intro W. unfold int_range, to_signed. pose proof (pow256Z_pos w) as P.
  assert (E : 256 ^ Z.of_nat w mod 2 = 0).
  { destruct w as [|w]; [lia|]. rewrite Nat2Z.inj_succ, Z.pow_succ_r by lia. rewrite Z.mul_mod by lia. reflexivity. }
  pose proof (Z.div_mod (256 ^ Z.of_nat w) 2 ltac:(lia)) as D. rewrite E in D. pose proof (Z.mod_pos_bound z (256 ^ Z.of_nat w) P). cbv zeta.
  destruct (_ <? _)%Z eqn:L; [apply Z.ltb_lt in L|apply Z.ltb_ge in L]; lia.
Qed.

Lemma wraps_mod w a b : wraps w a b <-> a mod 256 ^ Z.of_nat w = b mod 256 ^ Z.of_nat w.
Proof.
  unfold wraps. pose proof (pow256Z_pos w) as P. split.
  - intros [k ->]. apply Z.mod_add. lia.
  - intro E. exists (a / 256 ^ Z.of_nat w - b / 256 ^ Z.of_nat w). pose proof (Z.div_mod a (256 ^ Z.of_nat w) ltac:(lia)). pose proof (Z.div_mod b (256 ^ Z.of_nat w) ltac:(lia)). nia.
Qed.

Lemma signed_wraps w a b : (0 < w)%nat -> int_range w b -> to_signed w a = b <-> wraps w a b.
Proof.
  intros W R. rewrite wraps_mod. split.
  - intros <-. symmetry. apply to_signed_mod.
  - intro E. rewrite <- (to_signed_in w b W R). unfold to_signed. rewrite E. reflexivity.
Qed.

Lemma unsigned_wraps w a b : 0 <= b < 256 ^ Z.of_nat w -> Z.of_N (to_unsigned w a) = b <-> wraps w a b.
Proof.
  intro R. rewrite wraps_mod. rewrite (Z.mod_small b) by exact R. unfold to_unsigned. pose proof (pow256Z_pos w) as P. pose proof (Z.mod_pos_bound a _ P). rewrite Z2N.id by lia. reflexivity.
Qed.

Lemma width_pos n : (0 < width n)%nat.
Proof. destruct n; cbn; lia. Qed.

Lemma wraps_same w a b : int_range w a -> int_range w b -> (0 < w)%nat -> wraps w a b <-> a = b.
Proof. intros A B W. rewrite <- signed_wraps by assumption. now rewrite to_signed_in. Qed.

Lemma wraps_same_u w a b : 0 <= a < 256 ^ Z.of_nat w -> 0 <= b < 256 ^ Z.of_nat w -> wraps w a b <-> a = b.
Proof. intros A B. rewrite <- unsigned_wraps by assumption. now rewrite to_unsigned_in. Qed.

Lemma gval_type_eqb t : gtype_eqb t t = true.
Proof. now apply gtype_eqb_eq. Qed.

Lemma float_held outside k m e lo hi : holds_float k m e -> (lo = match k with KUint _ => 0 | _ => - 2 ^ 63 end) -> (hi = match k with KUint _ => 2 ^ 64 | _ => 2 ^ 63 end) ->
  flt_int outside lo hi (FNum m e) = flt_trunc m e.
Proof.
  intros (t & T & R) -> ->. apply trunc_spec in T. subst. unfold flt_int. destruct k; rewrite (proj2 (Z.leb_le _ _)), (proj2 (Z.ltb_lt _ _)) by lia; reflexivity.
Qed.

Lemma match_exact outside r n v w : field r n = Some w -> well_typed v -> well_typed w -> decided v w ->
  field_matches outside r (n, v) = true <-> (gt_kind (gv_type v) = gt_kind (gv_type w) -> gv_type v = gv_type w) /\ taken_for v w.
Proof.
  intros HF WV WW DE. unfold field_matches. cbn [fst snd]. rewrite HF. destruct (kind_eqb _ _) eqn:K.
  - apply kind_eqb_eq in K. split.
    + intro D. assert (T : gv_type v = gv_type w) by (unfold deep_equal in D; apply andb_true_iff in D as [D _]; now apply gtype_eqb_eq). split; [auto|].
      unfold deep_equal in D. apply andb_true_iff in D as [_ D]. destruct v as [tv dv], w as [tw dw]. cbn [gv_type gv_data] in *. subst tw. unfold taken_for, well_typed in *. cbn [gv_data gv_type] in *.
      destruct dv as [a|a|[m e|s|]|a], dw as [b|b|[m' e'|s'|]|b]; try discriminate D; destruct (gt_kind tv) as [|i|i| | |]; try contradiction.
      * now apply Bool.eqb_true_iff.
      * apply Z.eqb_eq in D. subst. exists 0. lia.
      * apply Z.eqb_eq in D. subst. exists 0. lia.
      * now apply flt_eqb_num.
      * now apply Bool.eqb_true_iff.
      * now apply beqb_eq.
      * now apply beqb_eq.
    + intros [T H]. specialize (T K). destruct v as [tv dv], w as [tw dw]. unfold deep_equal. cbn [gv_type gv_data] in *. subst tw. rewrite gval_type_eqb. cbn [andb].
      unfold taken_for, well_typed in *. cbn [gv_data gv_type] in *.
      destruct dv as [a|a|[m e|s|]|a], dw as [b|b|[m' e'|s'|]|b]; destruct (gt_kind tv) as [|i|i| | |]; try contradiction.
      * now apply Bool.eqb_true_iff.
      * apply Z.eqb_eq. apply wraps_same in H; try apply width_pos; tauto.
      * apply Z.eqb_eq. apply wraps_same_u in H; tauto.
      * now apply flt_eqb_num.
      * cbn. now apply Bool.eqb_true_iff.
      * now apply beqb_eq.
      * now apply beqb_eq.
  - assert (K' : gt_kind (gv_type v) <> gt_kind (gv_type w)) by (intro E; apply kind_eqb_eq in E; congruence).
    enough (X : match convert outside v (gv_type w) with Some v' => deep_equal v' w | None => false end = true <-> taken_for v w) by (rewrite X; tauto).
    clear K HF. destruct v as [tv dv], w as [tw dw]. unfold convert, taken_for, decided, well_typed, deep_equal in *. cbn [gv_type gv_data] in *.
    destruct dv as [a|a|[m e|s|]|a], dw as [b|b|[m' e'|s'|]|b]; destruct (gt_kind tv) as [|i|i| | |]; try contradiction; destruct (gt_kind tw) as [|j|j| | |]; try contradiction;
      cbn [gv_type gv_data]; rewrite ?gval_type_eqb; cbn [andb]; try (split; [discriminate|contradiction]); try (now destruct K').
    all: try (rewrite Z.eqb_eq; apply signed_wraps; [apply width_pos|tauto]).
    all: try (rewrite Z.eqb_eq; apply unsigned_wraps; tauto).
    all: try apply flt_eqb_num.
    all: try (rewrite beqb_eq; apply rune_spec).
    all: try apply beqb_eq.
    all: try (exfalso; destruct DE as (m0 & e0 & E0 & _); discriminate E0).
    all: destruct DE as (m0 & e0 & E0 & H0); injection E0 as <- <-; rewrite Z.eqb_eq, (float_held outside _ m e _ _ H0 eq_refl eq_refl).
    + rewrite signed_wraps; [|apply width_pos|tauto]. split; [intro H; exists (flt_trunc m e); split; [now apply trunc_spec|exact H]|]. intros (t & T & H). apply trunc_spec in T. now subst.
    + rewrite unsigned_wraps by tauto. split; [intro H; exists (flt_trunc m e); split; [now apply trunc_spec|exact H]|]. intros (t & T & H). apply trunc_spec in T. now subst.
Qed.

(** A filter matches a row exactly if each of its values does. *)
Lemma filter_exact outside r fs : NoDup (map fst r) ->
  (forall n v w, In (n, v) fs -> In (n, w) r -> well_typed v /\ well_typed w /\ decided v w) ->
  filter_row outside fs r = true <->
  forall n v, In (n, v) fs -> exists w, In (n, w) r /\ (gt_kind (gv_type v) = gt_kind (gv_type w) -> gv_type v = gv_type w) /\ taken_for v w.
Proof.
  intros ND H. unfold filter_row. rewrite forallb_forall. split.
  - intros A n v I. specialize (A _ I). destruct (field r n) as [w|] eqn:F.
    + exists w. apply (field_in r n w ND) in F as J. split; [exact J|]. destruct (H n v w I J) as (WV & WW & D). now apply (match_exact outside r n).
    + unfold field_matches in A. cbn [fst] in A. rewrite F in A. discriminate A.
  - intros A [n v] I. destruct (A n v I) as (w & J & M). destruct (H n v w I J) as (WV & WW & D). apply (field_in r n w ND) in J. now apply (match_exact outside r n v w).
Qed.

Section Test.
  Context {T : Type}.
  Variables (outside : flt64 -> Z) (rf : refl T) (zero : T) (ok : T -> Prop).
  Hypothesis RF : reflects rf zero ok.

  Lemma test_tells fs : portable rf zero fs -> tells rf ok fs (the_test outside rf fs).
  Proof.
    destruct fs as [fs|]; cbn [portable the_test]; intros H r KR; [|tauto].
    assert (ND : NoDup (map fst (rf_map rf r))) by (rewrite (shape_fst _ _ (rfl_shape _ _ _ RF r)); apply (rfl_names _ _ _ RF)).
    apply filter_exact; [exact ND|]. intros n v w I J. destruct (shape_has _ _ n w (rfl_shape _ _ _ RF r) J) as [w' J'].
    assert (E : gv_type w = gv_type w') by (eapply (shape_type (rf_map rf r)); [exact ND|apply (rfl_shape _ _ _ RF)| |]; eauto).
    destruct (H n v w' I J') as [WV D]. split; [exact WV|]. split; [exact (rfl_typed _ _ _ RF r n w KR J)|]. unfold decided in *. now rewrite E.
  Qed.
End Test.

(** C67 *)
Lemma loose_rows : forall (T F : Type) (outside : flt64 -> Z) (tb : table T F), good_table tb -> forall ev, env_ok ev ->
  forall srt db fl (m : tmap T), reads tb db fl NoBatch m -> (0 < t_prefetch tb)%nat -> quiet ev ->
  forall rf ok, reflects rf (t_empty tb) ok ->
  forall names tis name fuel, name <> [] -> named_table tis name (info_of outside tb ev srt rf name names fuel db fl) ->
  forall q ix, named_index tb names (rq_index q) ix -> selectable tb rf ix (rq_sel q) -> portable rf (t_empty tb) (rq_filter q) -> (rq_limit q < 2 ^ 63)%N ->
  (forall p, start_point tb rf ix (rq_sel q) p -> exact_selector tb ix m (SPoint p)) ->
  exists p l f, start_point tb rf ix (rq_sel q) p /\ selected tb ix m (SPoint p) l /\ tells rf ok (rq_filter q) f /\ ((length l <= fuel)%nat ->
    (rq_after q = None -> inspect_query tis name q = Ok (map (rf_map rf) (window 0 (rq_limit q) (filter f l)))) /\
    (forall vs, rq_after q = Some vs -> rf_ptr rf = true -> settable (rf_map rf (t_empty tb)) vs ->
       exists a, described rf (t_empty tb) vs a /\
       (after_fits (schema_of tb) (sindex_of ix) (Byte.eqb (ix_id ix) x00) a (SPoint p) ->
        inspect_query tis name q = Ok (map (rf_map rf) (window 0 (rq_limit q) (filter f (rows_after (schema_of tb) (sindex_of ix) a l))))))).
Proof.
  intros T F outside tb G ev EV srt db fl m R PRE Q rf ok RF names tis name fuel NE NT q ix NI SE PO.
  pose proof (test_tells outside rf (t_empty tb) ok RF (rq_filter q) PO) as P.
  refine (inspect_rows_any outside tb G ev EV srt db fl m R PRE Q rf ok RF names tis name fuel NE NT (tells rf ok (rq_filter q)) q ix P NI SE).
Qed.
