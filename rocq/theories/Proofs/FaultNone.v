(** Without failing reads the calls are those of the other files. *)

From Coq Require Import List NArith ZArith Lia Bool Arith.
From Verif.Model Require Import Bytes Go Keys Pebble Index Table Scan ReIndex LiveScan Faults.
From Verif.Spec Require Import KeySpec StoreSpec TableSpec ScanSpec FaultSpec.
From Verif.Proofs Require Import BytesFacts PebbleFacts LiveFacts FaultScan FaultWrite.
Import ListNotations.

Section None.
  Variable io : faults.
  Hypothesis OPEN : forall n, ft_open io n = false.
  Hypothesis MOVE : forall n, ft_move io n = false.

  Lemma move_fine again mv p n : exists n', fp_move io again mv (FP p false) n = (FP (mv p) false, n').
  Proof. unfold fp_move. cbn [fp_it fp_bad andb]. destruct (pi_err p); [eauto|]. rewrite MOVE. eauto. Qed.

  Lemma open_at_fine open opts i n : exists n', fp_open_at io open opts i n = (FP (open_at open opts i) false, n').
  Proof. unfold fp_open_at, open_at, fp_open. destruct (nth_error opts i) as [[lo hi]|]; [rewrite OPEN|]; eauto. Qed.

  Ltac mv again := match goal with |- context [fp_move io again ?f (FP ?p false) ?n] =>
    let E := fresh "E" in let n' := fresh "n" in destruct (move_fine again f p n) as [n' E]; rewrite E end.
  Ltac opn := match goal with |- context [fp_open_at io ?o ?os ?i ?n] =>
    let E := fresh "E" in let n' := fresh "n" in destruct (open_at_fine o os i n) as [n' E]; rewrite E end.

  Lemma first_fine open opts todo : forall i j p n, exists n',
    fmulti_first io open opts todo i (j, FP p false) n = (let '(a, b) := multi_first open opts todo i (j, p) in (a, FP b false, n')).
  Proof.
    induction todo as [|todo IH]; intros i j p n; cbn [fmulti_first multi_first]; [eauto|]. opn. mv true. unfold fp_valid. cbn [fp_it].
    destruct (it_valid (it_first (open_at open opts i))); eauto.
  Qed.

  Lemma last_fine open opts todo : forall j p n, exists n',
    fmulti_last io open opts todo (j, FP p false) n = (let '(a, b) := multi_last open opts todo (j, p) in (a, FP b false, n')).
  Proof.
    induction todo as [|i IH]; intros j p n; cbn [fmulti_last multi_last]; [eauto|]. opn. mv true. unfold fp_valid. cbn [fp_it].
    destruct (it_valid (it_last (open_at open opts i))); eauto.
  Qed.

  Lemma next_fine open opts todo : forall i p n, exists n',
    fmulti_next io open opts todo i (FP p false) n = (let '(a, b, _) := multi_next open opts todo i p in (a, FP b false, n')).
  Proof.
    induction todo as [|todo IH]; intros i p n; cbn [fmulti_next multi_next]; mv false; unfold fp_valid; cbn [fp_it];
      destruct (it_valid (it_next p)); eauto; destruct (Nat.eqb (S i) (length opts)); eauto.
    opn. mv true. cbn [fp_it]. destruct (it_valid (it_first (open_at open opts (S i)))); eauto.
  Qed.

  Lemma prev_fine open opts : forall i p n, exists n',
    fmulti_prev io open opts i (FP p false) n = (let '(a, b, _) := multi_prev open opts i p in (a, FP b false, n')).
  Proof.
    induction i as [|i IH]; intros p n; cbn [fmulti_prev multi_prev]; mv false; unfold fp_valid; cbn [fp_it];
      destruct (it_valid (it_prev p)); eauto.
    opn. mv true. cbn [fp_it]. destruct (it_valid (it_last (open_at open opts i))); eauto.
  Qed.

  Lemma sfirst_fine open rv b n : exists n', fscan_first io open rv (fb_of b) n = (fb_of (scan_first open rv b), n').
  Proof.
    destruct b as [p|opts i p]; cbn [fb_of fscan_first].
    - mv true. unfold scan_first. destruct rv; cbn [bi_last bi_first fb_of]; eauto.
    - unfold scan_first. destruct rv; cbn [bi_last bi_first].
      + destruct (last_fine open opts (length opts) i p n) as [n' ->]. destruct (multi_last _ _ _ _). eexists; reflexivity.
      + destruct (first_fine open opts (length opts) 0 i p n) as [n' ->]. destruct (multi_first _ _ _ _ _). eexists; reflexivity.
  Qed.

  Lemma snext_fine open rv b n : exists n', fscan_next io open rv (fb_of b) n = (fb_of (scan_next open rv b), n').
  Proof.
    destruct b as [p|opts i p]; cbn [fb_of fscan_next].
    - mv false. unfold scan_next. destruct rv; unfold bi_prev, bi_next; cbn [bi_prev_ok bi_next_ok fst fb_of]; eauto.
    - unfold scan_next. destruct rv; unfold bi_prev, bi_next; cbn [bi_prev_ok bi_next_ok].
      + destruct (prev_fine open opts i p n) as [n' ->]. destruct (multi_prev _ _ _ _) as [[? ?] ?]. eexists; reflexivity.
      + destruct (next_fine open opts (length opts) i p n) as [n' ->]. destruct (multi_next _ _ _ _ _) as [[? ?] ?]. eexists; reflexivity.
  Qed.

  Lemma valid_of b : fb_valid (fb_of b) = bi_valid b.
  Proof. destruct b; reflexivity. Qed.
  Lemma key_of b : fb_key (fb_of b) = bi_key b.
  Proof. destruct b; reflexivity. Qed.
  Lemma value_of b : fb_value (fb_of b) = bi_value b.
  Proof. destruct b; reflexivity. Qed.
  Lemma close_of b : fb_close (fb_of b) = Ok tt.
  Proof. destruct b; reflexivity. Qed.

  Section Calls.
    Context {T F : Type}.
    Variable tb : table T F.
    Variable ev : env T.

    Lemma run_sim {W A B} (R : A -> B -> Prop) (ga : A -> A * res T) (gb : B -> B * res T) (p : prog (T:=T) W) :
      (forall a b, R a b -> R (fst (ga a)) (fst (gb b)) /\ snd (ga a) = snd (gb b)) ->
      forall a b, R a b -> R (fst (run_prog ga p a)) (fst (run_prog gb p b)) /\ snd (run_prog ga p a) = snd (run_prog gb p b).
    Proof.
      intro H. induction p as [s c e|k IH]; intros a b AB; cbn [run_prog]; [auto|].
      destruct (H a b AB) as [H1 H2]. destruct (ga a) as [a' va], (gb b) as [b' vb]. cbn [fst snd] in *. subst vb.
      destruct va; auto.
    Qed.

    Lemma primary_fine {W} (f : W -> bytes -> prog W) open rv fuel : forall c b n s,
      fprimary_loop io tb ev f open rv fuel c (fb_of b) n s = primary_loop tb ev f open rv fuel c b s.
    Proof.
      induction fuel as [|fuel IH]; intros c b n s; cbn [fprimary_loop primary_loop]; rewrite valid_of, close_of; destruct (bi_valid b); auto.
      destruct (e_ctx ev c); auto. rewrite key_of.
      destruct (run_sim (fun x y => x = fb_of y) (fget_value_of tb) (get_value_of tb) (f s (bi_key b))) with (a := fb_of b) (b := b) as [H1 H2]; auto.
      { intros x y ->. cbn. rewrite value_of. auto. }
      destruct (run_prog (fget_value_of tb) _ _) as [it1 r1], (run_prog (get_value_of tb) _ _) as [it2 r2]. cbn [fst snd] in *. subst it1 r2.
      destruct r1 as [[[s' [|]] [e|]]|e| |]; auto. destruct (snext_fine open rv it2 n) as [n' ->]. apply IH.
    Qed.

    Lemma values_fine fl keys eoa items e : forall it n, pi_items (fp_it it) = items -> pi_err (fp_it it) = e -> fp_bad it = false ->
      forall it0, pi_items it0 = items -> pi_err it0 = e ->
      fst (fget_values io tb fl it keys eoa n) = get_values tb fl it0 keys eoa.
    Proof.
      induction keys as [|k keys IH]; intros it n E1 E2 E3 it0 E4 E5; cbn [fget_values get_values]; auto.
      unfold get_value. destruct (flt_may tb fl k) eqn:FM; cbn [negb].
      - destruct it as [p bd]. cbn [fp_it fp_bad] in *. subst bd. mv true. unfold fp_valid. cbn [fp_it].
        assert (ES : it_seek_ge p k = it_seek_ge it0 k) by (unfold it_seek_ge; rewrite E1, E4; try rewrite E2, E5; reflexivity).
        rewrite ES.
        assert (P1 : pi_items (it_seek_ge it0 k) = items) by (unfold it_seek_ge; repeat match goal with |- context [match ?x with _ => _ end] => destruct x end; auto).
        assert (P2 : pi_err (it_seek_ge it0 k) = e) by (unfold it_seek_ge; repeat match goal with |- context [match ?x with _ => _ end] => destruct x end; auto).
        destruct (it_valid (it_seek_ge it0 k)); destruct (beqb (it_key (it_seek_ge it0 k)) k); cbn [negb orb andb];
          try (destruct eoa; [reflexivity|]); specialize (IH (FP (it_seek_ge it0 k) false) n0 P1 P2 eq_refl it0 E4 E5);
          destruct (fget_values io tb fl (FP (it_seek_ge it0 k) false) keys _ n0) as [[]]; cbn [fst] in *; rewrite <- IH; reflexivity.
      - destruct eoa; [reflexivity|]. specialize (IH it n E1 E2 E3 it0 E4 E5).
        destruct (fget_values io tb fl it keys false n) as [[]]; cbn [fst] in *; rewrite <- IH; reflexivity.
    Qed.

    Lemma keys_fine db fl ob keys eoa n : fst (fget_keys io tb ev db fl ob keys eoa n) = get_keys tb ev db fl ob keys eoa.
    Proof.
      unfold fget_keys, get_keys. destruct keys as [|k keys]; auto. destruct (sort_keys ev (k :: keys)) as [sk od]. unfold fp_open. rewrite OPEN.
      pose proof (values_fine fl sk eoa _ _ (FP (db_iter db ob (hd [] sk) (data_key_space_end tb)) false) (S n) eq_refl eq_refl eq_refl
        (db_iter db ob (hd [] sk) (data_key_space_end tb)) eq_refl eq_refl) as V.
      destruct (fget_values _ _ _ _ _ _ _) as [[]]; cbn [fst] in *; rewrite <- V; reflexivity.
    Qed.

    Lemma into_fine db fl ob keys n : fst (fget_into io tb ev db fl ob keys n) = get_into tb ev db fl ob keys.
    Proof.
      unfold fget_into, get_into. destruct (Nat.leb _ _); [apply keys_fine|]. destruct (sort_keys ev keys) as [sk od]. unfold fp_open. rewrite OPEN.
      pose proof (values_fine fl (firstn (S (t_prefetch tb)) sk) true _ _ (FP (db_iter db ob (hd [] sk) (data_key_space_end tb)) false) (S n) eq_refl eq_refl eq_refl
        (db_iter db ob (hd [] sk) (data_key_space_end tb)) eq_refl eq_refl) as V.
      destruct (fget_values _ _ _ _ _ _ _) as [[]]; cbn [fst] in *; rewrite <- V; reflexivity.
    Qed.

    Theorem points_fine db fl ob pts : fget_points io tb ev db fl ob pts =
      match pts with
      | [] => Ok []
      | _ => match get_keys tb ev db fl ob (map (data_key tb) pts) false with Ok vs => decode_values tb vs | Err e => Err e | Panic => Panic | Diverge => Diverge end
      end.
    Proof.
      unfold fget_points. destruct pts as [|p pts]; auto. rewrite <- (keys_fine db fl ob (map (data_key tb) (p :: pts)) false 0).
      destruct (fget_keys _ _ _ _ _ _ _ _ _) as [[]]; reflexivity.
    Qed.

    (** ** Secondary index *)

    Definition same (x : sst) (y : sst) : Prop := ss_keys x = ss_keys y /\ ss_ikeys x = ss_ikeys y /\ ss_vals x = ss_vals y /\ ss_vi x = ss_vi y.
    Definition like (x : sst * fbiter * nat) (y : sst) : Prop := same (fst (fst x)) y /\ snd (fst x) = fb_of (ss_it y).

    Lemma collect_fine open rv cap : forall st st' it n, like (st, it, n) st' ->
      like (fst (fcollect io open rv cap st it n)) (fst (collect open rv cap st')) /\
      snd (fcollect io open rv cap st it n) = snd (collect open rv cap st').
    Proof.
      induction cap as [|cap IH]; intros st st' it n ((A & B & C & D) & E); cbn [fst snd] in *; subst it; cbn [fcollect collect]; rewrite valid_of; destruct (bi_valid (ss_it st'));
        try solve [split; [split; [split; auto|reflexivity]|reflexivity]]; rewrite key_of;
        destruct (to_data_key_bytes (bi_key (ss_it st')) []) as [dk|e| |];
        try solve [split; [split; [split; cbn; auto|reflexivity]|reflexivity]].
      - split; [|reflexivity]. split; [|reflexivity]. unfold same; cbn; repeat split; congruence.
      - destruct cap as [|cap'].
        + split; [|reflexivity]. split; [|reflexivity]. unfold same; cbn; repeat split; congruence.
        + destruct (snext_fine open rv (ss_it st') n) as [n' ->]. apply IH. split; [|reflexivity]. unfold same; cbn; repeat split; congruence.
    Qed.

    Lemma prefetched_fine st st' : same st st' -> same (fst (get_prefetched tb st)) (fst (get_prefetched tb st')) /\ snd (get_prefetched tb st) = snd (get_prefetched tb st') /\
      ss_it (fst (get_prefetched tb st')) = ss_it st'.
    Proof.
      intros (A & B & C & D). unfold get_prefetched. rewrite C, D. destruct (nth_error _ _) as [v|]; [|cbn; unfold same; auto].
      destruct (t_deser tb v (t_nil tb)); cbn; unfold same; cbn; repeat split; auto; congruence.
    Qed.

    Lemma prefetch_fine open rv db fl ob x y : like x y ->
      like (fst (fprefetch io tb ev open rv db fl ob x)) (fst (prefetch_and_get tb ev open rv db fl ob y)) /\
      snd (fprefetch io tb ev open rv db fl ob x) = snd (prefetch_and_get tb ev open rv db fl ob y).
    Proof.
      intro L. destruct x as [[st it] n]. unfold fprefetch, prefetch_and_get.
      assert (K : ss_keys st = ss_keys y) by apply L. rewrite K.
      destruct (collect_fine open rv (t_prefetch tb - length (ss_keys y)) st y it n L) as [L1 L2].
      destruct (fcollect io open rv _ st it n) as [[[st1 it1] n1] r1]. destruct (collect open rv _ y) as [y1 r2]. cbn [fst snd] in *. subst r2.
      destruct r1 as [[]|e| |]; try (split; [exact L1|reflexivity]).
      destruct L1 as ((A & B & C & D) & E). cbn [fst snd] in *. rewrite A, B, D. rewrite <- (into_fine db fl ob (ss_keys y1) n1).
      destruct (fget_into io tb ev db fl ob (ss_keys y1) n1) as [r n2]. cbn [fst]. destruct r as [vs|e| |].
      - destruct (prefetched_fine (Sst (ss_it st1) (left_sorted ev (ss_keys y1)) (ss_ikeys y1) vs (ss_vi y1)) (Sst (ss_it y1) (left_sorted ev (ss_keys y1)) (ss_ikeys y1) vs (ss_vi y1))) as (P1 & P2 & P3);
          [unfold same; auto|].
        destruct (get_prefetched tb (Sst (ss_it st1) _ _ _ _)) as [a va]. destruct (get_prefetched tb (Sst (ss_it y1) _ _ _ _)) as [b vb]. cbn [fst snd ss_it] in *.
        split; [split; auto; cbn [fst snd]; congruence|exact P2].
      - split; [split; [unfold same; cbn; auto|exact E]|reflexivity].
      - split; [split; [unfold same; cbn; auto|exact E]|reflexivity].
      - split; [split; [unfold same; cbn; auto|exact E]|reflexivity].
    Qed.

    Lemma ploop_fine {W} (f : W -> bytes -> prog W) fuel : forall st st' s, same st st' ->
      match prefetched_loop tb f fuel st s, prefetched_loop tb f fuel st' s with
      | inl a, inl b => a = b
      | inr (_, a), inr (z, b) => a = b /\ ss_it z = ss_it st'
      | _, _ => False
      end.
    Proof.
      induction fuel as [|fuel IH]; intros st st' s SM; pose proof SM as (A & B & C & D); cbn [prefetched_loop]; rewrite C, D; destruct (Nat.ltb _ _); auto.
      rewrite B. destruct (nth_error (ss_ikeys st') (ss_vi st')) as [k|]; auto.
      destruct (run_sim (fun x y => same x y /\ ss_it y = ss_it st') (get_prefetched tb) (get_prefetched tb) (f s k)) with (a := st) (b := st') as [[H1 H3] H2]; auto.
      { intros x y [S1 S2]. destruct (prefetched_fine x y S1) as (P1 & P2 & P3). repeat split; try apply P1; auto. congruence. }
      destruct (run_prog (get_prefetched tb) (f s k) st) as [a r1], (run_prog (get_prefetched tb) (f s k) st') as [b r2]. cbn [fst snd] in *. subst r2.
      destruct r1 as [[[s' [|]] [e|]]|e| |]; auto. specialize (IH a b s' H1). rewrite H3 in IH. exact IH.
    Qed.

    Lemma secondary_fine {W} (f : W -> bytes -> prog W) open rv db fl ob fuel : forall c b n s,
      fsecondary_loop io tb ev f open rv db fl ob fuel c (fb_of b) n s = secondary_loop tb ev f open rv db fl ob fuel c b s.
    Proof.
      induction fuel as [|fuel IH]; intros c b n s; cbn [fsecondary_loop secondary_loop]; rewrite valid_of, close_of; destruct (bi_valid b); auto.
      destruct (e_ctx ev c); auto. rewrite key_of.
      destruct (run_sim like (fprefetch io tb ev open rv db fl ob) (prefetch_and_get tb ev open rv db fl ob) (f s (bi_key b)))
        with (a := (Sst (BOne (err_iter EOther)) [] [] [] 0, fb_of b, n)) (b := Sst b [] [] [] 0) as [H1 H2].
      { intros x y L. apply prefetch_fine. auto. }
      { split; [unfold same; cbn; auto|reflexivity]. }
      destruct (run_prog (fprefetch io tb ev open rv db fl ob) _ _) as [[[st1 it1] n1] r1], (run_prog (prefetch_and_get tb ev open rv db fl ob) _ _) as [st2 r2].
      cbn [fst snd] in *. subst r2. destruct H1 as [SM IT]. cbn [fst snd] in *. subst it1.
      destruct r1 as [[[s' [|]] [e|]]|e| |]; auto. pose proof (ploop_fine f fuel st1 st2 s' SM) as PL.
      destruct (prefetched_loop tb f fuel st1 s') as [o1|[z1 s1]], (prefetched_loop tb f fuel st2 s') as [o2|[z2 s2]]; try contradiction; auto.
      destruct PL as [-> EZ]. rewrite EZ. destruct (snext_fine open rv (ss_it st2) n1) as [n' ->]. apply IH.
    Qed.

    Theorem scan_fine {W} (f : W -> bytes -> prog W) fuel db fl idx sel rv ob s :
      fscan_index_for_each io tb ev fuel db fl idx sel f rv ob s =
      scan_index_for_each tb ev fuel db fl idx sel f rv (match ob with Some b => ABatch b | None => NoBatch end) s.
    Proof.
      unfold fscan_index_for_each, scan_index_for_each.
      assert (EB : batch_of (match ob with Some b => ABatch b | None => NoBatch end) = ob) by (destruct ob; reflexivity). rewrite EB.
      assert (EI : iter_by tb (fun lo hi => fp_it (fst (fp_open io (db_iter db ob) lo hi 0))) idx sel = index_iter tb db (match ob with Some b => ABatch b | None => NoBatch end) idx sel).
      { unfold fp_open. rewrite OPEN. cbn [fst fp_it]. destruct ob as [b|], sel; reflexivity. }
      rewrite EI. destruct (index_iter _ _ _ _ _) as [b|e| |]; auto. destruct (sfirst_fine (db_iter db ob) rv b 1) as [n ->].
      destruct (Byte.eqb _ _); [apply primary_fine|apply secondary_fine].
    Qed.

    (** ** Writes *)

    Lemma batched_ext {A St} (f g : list A -> St -> St * res unit) items bs : (forall c s, f c s = g c s) -> forall s, batched items bs f s = batched items bs g s.
    Proof.
      intros H s. unfold batched. generalize (S (length items)) as fuel. intro fuel. generalize 0 as num. revert s.
      induction fuel as [|fuel IH]; intros s num; cbn [batched_loop]; auto.
      repeat match goal with |- (if ?c then _ else _) = _ => destruct c; auto end. rewrite H.
      destruct (g _ s) as [s' [[]|e| |]]; auto.
    Qed.

    Lemma exist_fine fl it key n : fexist_key io tb fl it key n = exist_key tb fl it key.
    Proof. unfold fexist_key. rewrite MOVE. reflexivity. Qed.

    Theorem insert_fine db fl ob trs : finsert io tb ev db fl ob trs = insert tb ev db fl ob trs.
    Proof.
      assert (R : forall it c rows prev s, finsert_rows io tb ev it c prev rows s = insert_rows tb ev it c prev rows s).
      { intros it c. induction rows as [|[key o] rows IH]; intros prev s; cbn [finsert_rows insert_rows]; auto. rewrite exist_fine.
        destruct (e_ctx ev (w_tick s)); auto. destruct (_ || _); auto. destruct (nth_error c o); auto. destruct (t_ser tb t); auto. }
      assert (C : forall rw c s, finsert_chunk io tb ev db rw c s = insert_chunk tb ev db rw c s).
      { intros rw c s. unfold finsert_chunk, insert_chunk. destruct (sort_keys ev _) as [keys order]. destruct keys; auto. }
      unfold finsert, insert, run_write. destruct ob as [b|]; rewrite (batched_ext _ _ _ _ (C _)); reflexivity.
    Qed.

    Theorem update_fine db fl ob trs : fupdate io tb ev db fl ob trs = update tb ev db fl ob trs.
    Proof.
      assert (R : forall it c rows s, fupdate_rows io tb ev it c rows s = update_rows tb ev it c rows s).
      { intros it c. induction rows as [|[key o] rows IH]; intros s; cbn [fupdate_rows update_rows]; auto. rewrite MOVE. cbn [orb].
        destruct (e_ctx ev (w_tick s)); auto. destruct (match rows with (k2, _) :: _ => beqb k2 key | [] => false end); auto. cbv zeta.
        destruct (negb _ || _); auto. destruct (t_deser tb _ _); auto. destruct (nth_error c o); auto. destruct (t_ser tb _); auto. }
      assert (C : forall rw c s, fupdate_chunk io tb ev db rw c s = update_chunk tb ev db rw c s).
      { intros rw c s. unfold fupdate_chunk, update_chunk. destruct (sort_keys ev _) as [keys order]. destruct keys; auto. }
      unfold fupdate, update, run_write. destruct ob as [b|]; rewrite (batched_ext _ _ _ _ (C _)); reflexivity.
    Qed.

    Theorem upsert_fine oc db fl ob trs : fupsert io tb ev oc db fl ob trs = upsert tb ev oc db fl ob trs.
    Proof.
      assert (R : forall it c keys order fuel i s, fupsert_rows io tb ev oc fuel it c keys order i s = upsert_rows tb ev oc fuel it c keys order i s).
      { intros it c keys order. induction fuel as [|fuel IH]; intros i s; cbn [fupsert_rows upsert_rows]; auto. cbv zeta. rewrite exist_fine.
        destruct (Nat.ltb i (length keys)); auto. destruct (nth_error c _); auto. destruct (e_ctx ev (w_tick s)); auto.
        destruct (if exist_key _ _ _ _ then _ else _); auto. destruct (upsert_dups _ _ _ _ _ _ _) as [[[i' old'] tr']|]; auto. destruct (t_ser tb tr'); auto. }
      assert (C : forall rw c s, fupsert_chunk io tb ev oc db rw c s = upsert_chunk tb ev oc db rw c s).
      { intros rw c s. unfold fupsert_chunk, upsert_chunk. destruct (sort_keys ev _) as [keys order]. destruct keys; auto. }
      unfold fupsert, upsert, run_write. destruct ob as [b|]; rewrite (batched_ext _ _ _ _ (C _)); reflexivity.
    Qed.

    Theorem re_index_fine (rv : renv) (tbl : table T F) db idxs : fre_index io rv tbl db idxs = re_index rv tbl db idxs.
    Proof. unfold fre_index, re_index. destruct (re_delete _ _ _ _ _) as [[db' n] [|]]; auto. cbv zeta. rewrite (met_all io MOVE). reflexivity. Qed.
  End Calls.
End None.
