(** Concrete queries of the inspector. *)

From Coq Require Import List NArith ZArith Lia Bool Arith Strings.String Strings.Byte Sorting.Sorted.
From Verif.Model Require Import Bytes Go Keys Pebble Index Table Scan Query Inspect.
From Verif.Spec Require Import KeySpec StoreSpec TableSpec HistSpec ScanSpec QuerySpec PagingSpec InspectSpec.
From Verif.Proofs Require Import BytesFacts TableFacts Witness TableBugs ScanBugs QueryProps QueryBugs PagingBugs InspectFacts InspectProps InspectRemote.
Import ListNotations.
Local Open Scope list_scope.

Notation txt s := (list_byte_of_string s).
Definition u64 (n : Z) : gval := GVal (GType 0 (KUint 8)) (DInt n).
Definition u32 (n : Z) : gval := GVal (GType 0 (KUint 4)) (DInt n).
Definition int (n : Z) : gval := GVal (GType 0 (KInt 0)) (DInt n).
Definition flt (m e : Z) : gval := GVal (GType 0 KFloat) (DFlt (FNum m e)).
Definition boolean (b : bool) : gval := GVal (GType 0 KBool) (DBool b).

Definition acct_fields (idt : gtype) (r : acct) : row :=
  [(txt "ID", GVal idt (DInt (Z.of_N (a_id r)))); (txt "Kind", u32 (Z.of_N (a_kind r)));
   (txt "Score", u64 (Z.of_N (a_score r))); (txt "On", boolean (a_on r))].

Definition as_n (v : gval) : N := match gv_data v with DInt z => Z.to_N z | _ => 0 end.
Definition as_b (v : gval) : bool := match gv_data v with DBool b => b | _ => false end.

Definition acct_of (x : row) : acct :=
  match x with
  | [(_, i); (_, k); (_, s); (_, o)] => Acct (as_n i) (as_n k) (as_n s) (as_b o)
  | _ => acct_zero
  end.

(** Accounts as a pointer to a struct, with the type of the field ID. *)
Definition acct_refl (idt : gtype) (ptr : bool) : refl acct := Refl (acct_fields idt) acct_of ptr.
Definition plain : refl acct := acct_refl (GType 0 (KUint 8)) true.

Definition acct_ok (r : acct) : Prop := (a_id r < 2 ^ 64)%N /\ (a_kind r < 2 ^ 32)%N /\ (a_score r < 2 ^ 64)%N.

Lemma of_N_range n w : (n < 2 ^ N.of_nat w)%N -> (0 <= Z.of_N n < 2 ^ Z.of_nat w)%Z.
Proof. intro H. split; [lia|]. rewrite <- (nat_N_Z w). change 2%Z with (Z.of_N 2). rewrite <- N2Z.inj_pow. lia. Qed.

Lemma to_N_range z w : (0 <= z < 2 ^ Z.of_nat w)%Z -> (Z.to_N z < 2 ^ N.of_nat w)%N.
Proof.
  intro H. apply N2Z.inj_lt. rewrite N2Z.inj_pow, Z2N.id by lia. rewrite nat_N_Z. change (Z.of_N 2) with 2%Z. lia.
Qed.

Lemma plain_reflects ptr : reflects (acct_refl (GType 0 (KUint 8)) ptr) acct_zero acct_ok.
Proof.
  constructor.
  - repeat split.
  - repeat constructor; cbn; intuition discriminate.
  - reflexivity.
  - intros [i k s o] n v [H1 [H2 H3]] I. cbn [a_id a_kind a_score rf_map acct_refl acct_fields] in *.
    pose proof (of_N_range i 64 H1). pose proof (of_N_range k 32 H2). pose proof (of_N_range s 64 H3).
    cbn [In] in I. destruct I as [I|[I|[I|[I|[]]]]];
      assert (E := f_equal (@snd _ _) I); cbn [snd] in E; rewrite <- E; unfold well_typed, u32, u64, boolean; cbn [gv_type gv_data gt_kind].
    + split; [cbn; auto 6|]. change (256 ^ Z.of_nat (width 8))%Z with (2 ^ Z.of_nat 64)%Z. exact H.
    + split; [cbn; auto 6|]. change (256 ^ Z.of_nat (width 4))%Z with (2 ^ Z.of_nat 32)%Z. exact H0.
    + split; [cbn; auto 6|]. change (256 ^ Z.of_nat (width 8))%Z with (2 ^ Z.of_nat 64)%Z. exact H4.
    + exact Logic.I.
  - intros [i k s o] _. cbn [rf_map rf_make acct_refl acct_fields acct_of]. unfold as_n, as_b, u32, u64, boolean. cbn [gv_data a_id a_kind a_score a_on].
    rewrite !N2Z.id. reflexivity.
  - intros x SH WT. cbn [rf_map rf_make acct_refl] in *.
    destruct x as [|[n1 v1] [|[n2 v2] [|[n3 v3] [|[n4 v4] [|]]]]]; try discriminate.
    unfold shape, acct_fields in SH. cbn [map fst snd gv_type u32 u64 boolean] in SH.
    assert (n1 = txt "ID" /\ gv_type v1 = GType 0 (KUint 8)) as [-> T1] by (split; congruence).
    assert (n2 = txt "Kind" /\ gv_type v2 = GType 0 (KUint 4)) as [-> T2] by (split; congruence).
    assert (n3 = txt "Score" /\ gv_type v3 = GType 0 (KUint 8)) as [-> T3] by (split; congruence).
    assert (n4 = txt "On" /\ gv_type v4 = GType 0 KBool) as [-> T4] by (split; congruence).
    pose proof (WT _ _ (or_introl eq_refl)) as W1. pose proof (WT _ _ (or_intror (or_introl eq_refl))) as W2.
    pose proof (WT _ _ (or_intror (or_intror (or_introl eq_refl)))) as W3. pose proof (WT _ _ (or_intror (or_intror (or_intror (or_introl eq_refl))))) as W4.
    clear WT SH. destruct v1 as [t1 d1], v2 as [t2 d2], v3 as [t3 d3], v4 as [t4 d4]. cbn [gv_type] in *. subst.
    unfold well_typed in *. cbn [gv_type gv_data gt_kind] in *.
    destruct d1 as [|z1| |]; try contradiction. destruct d2 as [|z2| |]; try contradiction. destruct d3 as [|z3| |]; try contradiction. destruct d4 as [b| | |]; try contradiction.
    destruct W1 as [_ W1], W2 as [_ W2], W3 as [_ W3].
    change (256 ^ Z.of_nat (width 8))%Z with (2 ^ Z.of_nat 64)%Z in *. change (256 ^ Z.of_nat (width 4))%Z with (2 ^ Z.of_nat 32)%Z in *.
    unfold acct_of, acct_ok, acct_fields, as_n, as_b, u32, u64, boolean. cbn [a_id a_kind a_score a_on gv_data]. split.
    + split; [exact (to_N_range _ 64 W1)|]. split; [exact (to_N_range _ 32 W2)|exact (to_N_range _ 64 W3)].
    + rewrite !Z2N.id by (clear - W1 W2 W3; tauto). reflexivity.
Qed.

(** The names of the indexes. *)
Definition acct_names (b : byte) : bytes :=
  match b with x00 => primary_name | x01 => txt "by_kind" | x02 => txt "by_score" | _ => [] end.

Definition inspector (rf : refl acct) (fuel : nat) (db : kv) : list tinfo :=
  [info_of (fun _ => 0%Z) accts env1 isort rf (txt "acct") acct_names fuel db tt].

Definition ask (rf : refl acct) (fuel : nat) (q : request) : res (list row) := inspect_query (inspector rf fuel abc_db) (txt "acct") q.
Definition show (rf : refl acct) (l : list acct) : list row := map (rf_map rf) l.
Definition filt_by (n : bytes) (v : gval) : request := Request [] [] (Some [(n, v)]) 0 None.

Lemma names_nodup : NoDup (map (fun ix => acct_names (ix_id ix)) (primary_index :: t_indexes accts)).
Proof. repeat constructor; cbn; intuition discriminate. Qed.

Lemma inspector_table rf fuel db : named_table (inspector rf fuel db) (txt "acct") (info_of (fun _ => 0%Z) accts env1 isort rf (txt "acct") acct_names fuel db tt).
Proof. exists [], []. repeat split. intros x []. Qed.

Lemma by_score_named : named_index accts acct_names (txt "by_score") acct_by_score.
Proof. split; [reflexivity|]. split; [exact names_nodup|]. split; [right; right; left; reflexivity|]. left. split; [discriminate|reflexivity]. Qed.
Lemma primary_is_named : named_index accts acct_names [] primary_index.
Proof. split; [reflexivity|]. split; [exact names_nodup|]. split; [left; reflexivity|]. right. split; reflexivity. Qed.

Lemma abc_rows_ok r : puts asc empty_map abc (s_pk asc r) = Some r -> acct_ok r.
Proof.
  assert (A : Forall acct_ok abc) by (repeat constructor). generalize dependent abc. intros l A H. revert H. generalize (s_pk asc r) as k. intro k.
  assert (X : forall rows m, Forall acct_ok rows -> (forall k r, m k = Some r -> acct_ok r) -> forall k r, puts asc m rows k = Some r -> acct_ok r).
  { clear. induction rows as [|x rows IH]; intros m A M k r; cbn [puts fold_left]; [apply M|]. inversion A; subst.
    apply IH; auto. intros k' r'. unfold put. destruct (beqb _ _); [|apply M]. intro E. inversion E. subst. auto. }
  eapply X; eauto. discriminate.
Qed.

(** rows with the score 5 through the index by score, from a JSON number *)
Definition score5 : request := Request (txt "by_score") [(txt "Score", Some (flt 5 0))] (Some [(txt "On", boolean true); (txt "Kind", int 10)]) 0 None.

Lemma score5_fits : val_fits (flt 5 0) (GType 0 (KUint 8)).
Proof.
  split; [exists 5%Z, 0%Z; split; [reflexivity|apply same_num_refl]|]. split; [discriminate|]. exists (DInt 5).
  split; [split; [cbn; auto 6|cbn; lia]|]. exists (5, 0)%Z, (5, 0)%Z. repeat split.
Qed.
Lemma score5_settable : settable (rf_map plain acct_zero) (rq_sel score5).
Proof.
  split; [repeat constructor; intros []|]. intros n ov [E|[]]. inversion E. subst. eexists _, (u64 0). split; [reflexivity|].
  split; [right; right; left; reflexivity|]. exact score5_fits.
Qed.
Lemma score5_fair : fair plain acct_zero (rq_filter score5).
Proof.
  intros n v w [E|[E|[]]] I; inversion E; subst; cbn [rf_map plain acct_refl acct_fields In] in I; left.
  - assert (w = boolean false) by (destruct I as [I|[I|[I|[I|[]]]]]; try discriminate; inversion I; reflexivity). subst w.
    split; [exact Logic.I|]. split; [reflexivity|]. exists (DBool true). split; [exact Logic.I|reflexivity].
  - assert (w = u32 0) by (destruct I as [I|[I|[I|[I|[]]]]]; try discriminate; inversion I; reflexivity). subst w.
    split; [split; [cbn; auto|split; vm_compute; congruence]|]. split; [discriminate|]. exists (DInt 10). split; [split; [cbn; auto 6|cbn; lia]|].
    apply int_same. reflexivity.
Qed.

Lemma score5_start p : start_point accts plain acct_by_score (rq_sel score5) p -> exact_selector accts acct_by_score (puts asc empty_map abc) (SPoint p).
Proof.
  intros [SH H].
  assert (I : In (txt "Score", u64 (Z.of_N (a_score p))) (rf_map plain p)) by (right; right; left; reflexivity).
  destruct (H _ _ I) as [[v [[E|[]] S]]|[NI _]]; [|exfalso; apply NI; left; reflexivity].
  inversion E. subst v. destruct S as [x [y [X [Y S]]]]. inversion X. inversion Y. subst. unfold same_num in S. cbn [fst snd] in S.
  change (2 ^ Z.max 0 (0 - 0))%Z with 1%Z in S. assert (a_score p = 5%N) as E5 by lia.
  assert (K : ix_key acct_by_score (new_kb []) p = [x01; x00; x00; x00; x00; x00; x00; x00; x05]).
  { unfold acct_by_score. cbn [ix_key new_index]. rewrite E5. reflexivity. }
  unfold exact_selector, exact_sel, exact_point, parts_fit. cbn [sindex_of si_key si_ord]. rewrite K. repeat split; try (vm_compute; congruence).
Qed.

Lemma case67 : 
  reflects plain (t_empty accts) acct_ok /\ (forall r, puts asc empty_map abc (s_pk asc r) = Some r -> acct_ok r) /\
  (forall fuel, named_table (inspector plain fuel abc_db) (txt "acct") (info_of (fun _ => 0%Z) accts env1 isort plain (txt "acct") acct_names fuel abc_db tt)) /\
  named_index accts acct_names (rq_index score5) acct_by_score /\ selectable accts plain acct_by_score (rq_sel score5) /\
  fair plain (t_empty accts) (rq_filter score5) /\
  (forall p, start_point accts plain acct_by_score (rq_sel score5) p -> exact_selector accts acct_by_score (puts asc empty_map abc) (SPoint p)) /\
  ask plain 5 score5 = Ok (show plain [a3]) /\
  ask plain 5 (Request [] [] None 2 (Some [(txt "ID", Some (int 1))])) = Ok (show plain [a2; a3]) /\
  ask plain 5 (Request (txt "by_what") [] None 0 None) = Err EOther /\
  ask plain 5 (Request [] [] None 0 (Some [(txt "Id", Some (int 1))])) = Err EOther.
Proof.
  split; [apply plain_reflects|]. split; [exact abc_rows_ok|]. split; [intro; apply inspector_table|]. split; [exact by_score_named|].
  split; [split; [reflexivity|exact score5_settable]|]. split; [exact score5_fair|]. split; [exact score5_start|]. repeat split; vm_compute; reflexivity.
Qed.

(** ** Values that do not fit *)

Lemma half_score fuel : 5 <= fuel -> ~ meets (rf_map plain a1) [(txt "Score", flt 13 (-1))] /\
  ask plain fuel (filt_by (txt "Score") (flt 13 (-1))) = Ok (show plain [a1]).
Proof.
  intro H. split.
  - intro M. destruct (M _ _ (or_introl eq_refl)) as [w [I [x [y [X [Y S]]]]]]. cbn [rf_map plain acct_refl acct_fields In] in I.
    destruct I as [I|[I|[I|[I|[]]]]]; inversion I; subst w. inversion X. inversion Y. subst. vm_compute in S. discriminate.
  - revert fuel H. fuels 5.
Qed.

Lemma wrapped_kind fuel : 5 <= fuel -> ~ meets (rf_map plain a1) [(txt "Kind", int (2 ^ 32 + 10))] /\
  ask plain fuel (filt_by (txt "Kind") (int (2 ^ 32 + 10))) = Ok (show plain [a1; a3]).
Proof.
  intro H. split.
  - intro M. destruct (M _ _ (or_introl eq_refl)) as [w [I [x [y [X [Y S]]]]]]. cbn [rf_map plain acct_refl acct_fields In] in I.
    destruct I as [I|[I|[I|[I|[]]]]]; inversion I; subst w. inversion X. inversion Y. subst. vm_compute in S. discriminate.
  - revert fuel H. fuels 5.
Qed.

(** ** Selectors *)

Lemma kind_lost fuel : 5 <= fuel -> 
  ask plain fuel (Request (txt "by_kind") [(txt "Kind", Some (u32 10))] None 0 None) = Ok [] /\
  ask plain fuel (filt_by (txt "Kind") (u32 10)) = Ok (show plain [a1; a3]) /\ ix_filter acct_by_kind a1 = true.
Proof. intro H. repeat split; revert fuel H; fuels 5. Qed.

Lemma id_ignored fuel : 5 <= fuel ->
  ask plain fuel (Request [] [(txt "ID", Some (u64 2))] None 0 None) = Ok (show plain [a1; a2; a3]).
Proof. revert fuel. fuels 5. Qed.

(** ** Types *)

(** The field ID has the named type type 1, of kind uint64. *)
Definition named : refl acct := acct_refl (GType 1 (KUint 8)) true.
Definition values : refl acct := acct_refl (GType 0 (KUint 8)) false.

Lemma named_field fuel : 5 <= fuel ->
  ask named fuel (filt_by (txt "ID") (u64 2)) = Ok [] /\
  ask named fuel (filt_by (txt "ID") (int 2)) = Ok (show named [a2]) /\
  ask named fuel (Request [] [] None 0 (Some [(txt "ID", Some (u64 2))])) = Panic.
Proof. intro H. repeat split; revert fuel H; fuels 5. Qed.

Lemma value_records fuel : 5 <= fuel ->
  ask values fuel (Request (txt "by_score") [] None 0 None) = Panic /\
  ask values fuel (Request [] [] None 0 (Some [])) = Panic /\
  ask values fuel (Request [] [] None 0 None) = Ok (show values [a1; a2; a3]).
Proof. intro H. repeat split; revert fuel H; fuels 5. Qed.

Lemma null_value fuel : 5 <= fuel -> ask plain fuel (Request [] [] None 0 (Some [(txt "ID", None)])) = Panic.
Proof. revert fuel. fuels 5. Qed.

(** ** Through JSON *)

Definition big : acct := Acct (2 ^ 53) 1 1 true.
Definition bigger : acct := Acct (2 ^ 53 + 1) 1 1 true.
Definition id_clean (l : bytes) : bytes := l.

Lemma big_reads : reads accts (mo_db (holding [big; bigger])) tt NoBatch (mo_rows (holding [big; bigger])).
Proof. holds. Qed.
Lemma bigger_reads : reads accts (mo_db (holding [bigger])) tt NoBatch (mo_rows (holding [bigger])).
Proof. holds. Qed.

Definition remote (rf : refl acct) (fuel : nat) (db : kv) (q : request) : res (list row) := remote_query id_clean (inspector rf fuel db) (txt "acct") q.

(** the row of [big], as JSON gives it *)
Definition big_json : row := [(txt "ID", flt (2 ^ 53) 0); (txt "Kind", flt 1 0); (txt "Score", flt 1 0); (txt "On", boolean true)].

Lemma big_id fuel : 5 <= fuel ->
  reads accts (mo_db (holding [big; bigger])) tt NoBatch (mo_rows (holding [big; bigger])) /\
  inspect_query (inspector plain fuel (mo_db (holding [big; bigger]))) (txt "acct") (filt_by (txt "ID") (u64 (2 ^ 53 + 1))) = Ok (show plain [bigger]) /\
  remote plain fuel (mo_db (holding [big; bigger])) (filt_by (txt "ID") (u64 (2 ^ 53 + 1))) = Ok [big_json] /\
  same_fields (rf_map plain big) big_json.
Proof.
  intro H. split; [exact big_reads|]. split; [revert fuel H; fuels 5|]. split; [revert fuel H; fuels 5|].
  repeat constructor; try (eexists _, _; split; [reflexivity|split; [reflexivity|reflexivity]]).
Qed.

Lemma remote_first fuel : 5 <= fuel -> remote plain fuel (mo_db (holding [bigger])) (Request [] [] None 1 None) = Ok [big_json].
Proof. revert fuel. fuels 5. Qed.
Lemma remote_next fuel : 5 <= fuel ->
  remote plain fuel (mo_db (holding [bigger])) (Request [] [] None 1 (Some (map (fun nv => (fst nv, Some (snd nv))) big_json))) = Ok [big_json].
Proof. revert fuel. fuels 5. Qed.

(** Asking for the page after a row that was shown. *)
Definition remote_page (rf : refl acct) (fuel : nat) (db : kv) (fs : option (list (bytes * gval))) (a : option row) : res (list row) :=
  remote rf fuel db (Request [] [] fs 1 (option_map (map (fun nv => (fst nv, Some (snd nv)))) a)).

Lemma remote_endless fuel : 5 <= fuel -> reads accts (mo_db (holding [bigger])) tt NoBatch (mo_rows (holding [bigger])) /\
  forall k, pages (remote_page plain fuel (mo_db (holding [bigger])) None) k None = Diverge.
Proof.
  intro H. split; [exact bigger_reads|]. intro k. set (run := remote_page plain fuel (mo_db (holding [bigger])) None).
  assert (A : run None = Ok [big_json]) by exact (remote_first fuel H).
  assert (B : run (Some big_json) = Ok [big_json]) by exact (remote_next fuel H).
  clearbody run.
  assert (X : forall k, pages run k (Some big_json) = Diverge).
  { clear k. induction k as [|n IH]; [reflexivity|]. cbn [pages]. rewrite B. cbn [last]. rewrite IH. reflexivity. }
  destruct k as [|k]; [reflexivity|]. cbn [pages]. rewrite A. cbn [last]. rewrite X. reflexivity.
Qed.

(** The field ID as a []byte. *)
Definition byte_fields (r : acct) : row :=
  [(txt "ID", GVal (GType 0 KBytes) (DBytes (be_bytes 8 (a_id r)))); (txt "Kind", u32 (Z.of_N (a_kind r)))].
Definition byte_refl : refl acct := Refl byte_fields (fun _ => acct_zero) true.

Lemma bytes_lost fuel : 5 <= fuel ->
  let q := filt_by (txt "ID") (GVal (GType 0 KBytes) (DBytes (be_bytes 8 2))) in
  ask byte_refl fuel q = Ok [byte_fields a2] /\ remote byte_refl fuel abc_db q = Ok [] /\
  remote byte_refl fuel abc_db (filt_by (txt "Kind") (u32 11)) = Ok [[(txt "ID", GVal (GType 0 KString) (DBytes (txt "AAAAAAAAAAI="))); (txt "Kind", flt 11 0)]].
Proof. intro H. repeat split; revert fuel H; fuels 5. Qed.

(** a page of the remote inspector and its case *)
Lemma case68 : safe_request id_clean score5 /\ (forall n w, In (n, w) (rf_map plain (t_empty accts)) -> json_type (gv_type w)) /\
  (forall r, In r [a1; a2; a3] -> safe_row id_clean (rf_map plain r)) /\
  remote plain 5 abc_db score5 = Ok [[(txt "ID", flt 3 0); (txt "Kind", flt 10 0); (txt "Score", flt 5 0); (txt "On", boolean true)]] /\
  pages (remote_page plain 5 abc_db (Some [(txt "Kind", flt 10 0)])) 4 None =
  Ok [[(txt "ID", flt 1 0); (txt "Kind", flt 10 0); (txt "Score", flt 6 0); (txt "On", boolean true)];
      [(txt "ID", flt 3 0); (txt "Kind", flt 10 0); (txt "Score", flt 5 0); (txt "On", boolean true)]].
Proof.
  assert (S : forall z, (Z.abs z < 2 ^ 53)%Z -> exists m e, (Z.abs m < 2 ^ 53)%Z /\ same_num (z, 0%Z) (m, e)).
  { intros z H. exists z, 0%Z. split; auto. apply same_num_refl. }
  split; [|split; [|split; [|split; vm_compute; reflexivity]]].
  - split; [|split; [|exact I]].
    + intros n v [E|[]]. inversion E. exact I.
    + intros n v [E|[E|[]]]; inversion E; subst; cbn; [reflexivity|apply S; reflexivity].
  - intros n w I. cbn [rf_map plain acct_refl acct_fields In] in I. destruct I as [I|[I|[I|[I|[]]]]]; inversion I; cbn; auto.
  - intros r I n w J. cbn [In] in I. destruct I as [<-|[<-|[<-|[]]]]; cbn [rf_map plain acct_refl acct_fields In] in J;
      destruct J as [J|[J|[J|[J|[]]]]]; inversion J; subst; cbn; try reflexivity; apply S; reflexivity.
Qed.
