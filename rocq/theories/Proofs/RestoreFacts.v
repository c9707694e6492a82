(** What Restore does with what Dump wrote. *)

From Coq Require Import List FinFun NArith Lia Bool Arith Sorting.Sorted Strings.String Strings.Byte DecimalN.
From Verif.Model Require Import Bytes Go Keys Pebble Bloom Backup.
From Verif.Spec Require Import StoreSpec BackupSpec.
From Verif.Proofs Require Import BytesFacts PebbleFacts BackupFacts.
Import ListNotations.
Local Open Scope list_scope.

(** ** Strings *)
Lemma digits_chars u : Forall (fun b => 48 <= b2n b <= 57)%N (digits u).
Proof. induction u; cbn [digits]; constructor; auto; (split; vm_compute; discriminate). Qed.

Lemma dec_chars n c : In c (dec n) -> (48 <= b2n c <= 57)%N.
Proof. intros H. pose proof (digits_chars (N.to_uint n)) as F. rewrite Forall_forall in F. now apply F. Qed.

Lemma digits_inj u : forall u', digits u = digits u' -> u = u'.
Proof. induction u; intros u' E; destruct u'; cbn [digits] in E; try discriminate; try reflexivity; (injection E as E; f_equal; auto). Qed.

Lemma dec_inj a b : dec a = dec b -> a = b.
Proof. intros E. apply digits_inj in E. now apply Unsigned.to_uint_inj in E. Qed.

Lemma prefix_refl l : has_prefix l l = true.
Proof. rewrite <- (app_nil_r l) at 2. apply has_prefix_app. Qed.

Lemma prefix_app_both p a b : has_prefix (p ++ a) (p ++ b) = has_prefix a b.
Proof. induction p as [|x p IH]; cbn [app]; auto. cbn [has_prefix]. rewrite IH. now rewrite N.eqb_refl. Qed.

Lemma prefix_sep c sub : ~ In c sub -> forall a b, has_prefix sub (a ++ c :: b) = has_prefix sub a.
Proof.
  induction sub as [|s sub IH]; intros N a b; [now destruct a|]. destruct a as [|x a]; cbn [app has_prefix].
  - destruct (N.eqb_spec (b2n s) (b2n c)) as [E|E]; [|reflexivity]. apply b2n_inj in E. exfalso. apply N. now left.
  - rewrite IH; auto. intros H. apply N. now right.
Qed.

Lemma prefix_in sub : forall l c, has_prefix sub l = true -> In c sub -> In c l.
Proof. intros l c H I. apply has_prefix_spec in H as [s ->]. apply in_app_iff. auto. Qed.

Lemma contains_in sub l c : contains sub l = true -> In c sub -> In c l.
Proof.
  induction l as [|x l IH]; cbn [contains]; intros H I; apply orb_true_iff in H as [H|H].
  - eapply prefix_in; eauto.
  - discriminate.
  - eapply prefix_in; eauto.
  - right. auto.
Qed.

Lemma contains_not sub l c : In c sub -> ~ In c l -> contains sub l = false.
Proof. intros I N. destruct (contains sub l) eqn:E; auto. exfalso. apply N. eapply contains_in; eauto. Qed.

Lemma contains_sep c sub : ~ In c sub -> forall a b, contains sub (a ++ c :: b) = contains sub a || contains sub b.
Proof.
  intros N. induction a as [|x a IH]; intros b; cbn [app contains].
  - destruct sub as [|s sub]; [reflexivity|]. cbn [has_prefix]. destruct (N.eqb_spec (b2n s) (b2n c)) as [E|E]; [|reflexivity]. apply b2n_inj in E. exfalso. apply N. now left.
  - rewrite IH. change (x :: a ++ c :: b) with ((x :: a) ++ c :: b). rewrite prefix_sep by auto. now rewrite orb_assoc.
Qed.

Lemma contains_first c sub l : ~ In c l -> contains (c :: sub) (c :: l) = has_prefix sub l.
Proof.
  intros N. cbn [contains]. rewrite (contains_not (c :: sub) l c); [|now left|auto]. rewrite orb_false_r. cbn [has_prefix].
  now rewrite N.eqb_refl.
Qed.

Lemma contains_mid sub a b : contains sub (a ++ sub ++ b) = true.
Proof.
  induction a as [|x a IH]; cbn [app].
  - destruct (sub ++ b) eqn:E; cbn [contains]; rewrite <- ?E; now rewrite has_prefix_app.
  - cbn [contains]. rewrite IH. apply orb_true_r.
Qed.

(** ** Names *)
Ltac not_char := let H := fresh in intros H; repeat (apply in_app_iff in H as [H|H]); try (apply dec_chars in H; vm_compute in H; destruct H; congruence);
  cbn in H; repeat (destruct H as [H|H]; [discriminate H|]); destruct H.

Lemma table_dir_table r d : contains (table_dir r) (table_dir d) = has_prefix (dec (b2n r)) (dec (b2n d)).
Proof.
  unfold table_dir. change (str "table_") with (x74 :: str "able_"). cbn [app]. rewrite contains_first.
  - apply (prefix_app_both (str "able_")).
  - not_char.
Qed.

Lemma table_dir_index r d i : contains (table_dir r) (index_dir d i) = has_prefix (dec (b2n r)) (dec (b2n d)).
Proof.
  unfold index_dir, table_dir. change (str "table_") with (x74 :: str "able_"). cbn [app]. rewrite contains_first.
  - rewrite <- app_assoc. rewrite (prefix_app_both (str "able_")). change (str "_index_") with (x5f :: str "index_"). cbn [app]. apply prefix_sep. not_char.
  - not_char.
Qed.

Lemma table_dir_sst r n : contains (table_dir r) (sst_name n) = false.
Proof. apply (contains_not _ _ x61); [cbn; auto|]. unfold sst_name. not_char. Qed.

Lemma index_table d : contains (str "index") (table_dir d) = false.
Proof. apply (contains_not _ _ x69); [cbn; auto|]. unfold table_dir. not_char. Qed.

Lemma index_index d i : contains (str "index") (index_dir d i) = true.
Proof.
  unfold index_dir. replace (table_dir d ++ str "_index_" ++ dec (b2n i)) with ((table_dir d ++ [x5f]) ++ str "index" ++ [x5f] ++ dec (b2n i)).
  - apply contains_mid.
  - rewrite <- !app_assoc. reflexivity.
Qed.

Lemma index_sst n : contains (str "index") (sst_name n) = false.
Proof. apply (contains_not _ _ x69); [cbn; auto|]. unfold sst_name. not_char. Qed.

Lemma table_dir_inj a b : table_dir a = table_dir b -> a = b.
Proof. unfold table_dir. intros E. apply app_inv_head in E. apply dec_inj in E. now apply b2n_inj. Qed.

Lemma table_not_index a b i : table_dir a <> index_dir b i.
Proof.
  unfold index_dir, table_dir. rewrite <- app_assoc. intros E. apply app_inv_head in E.
  assert (I : In x5f (dec (b2n a))) by (rewrite E; apply in_app_iff; right; cbn; auto). apply dec_chars in I. vm_compute in I. destruct I; congruence.
Qed.

Lemma split_at_char c (a b x y : bytes) : ~ In c a -> ~ In c x -> a ++ c :: b = x ++ c :: y -> a = x /\ b = y.
Proof.
  revert x. induction a as [|h a IH]; intros x N M E; destruct x as [|g x]; cbn [app] in E.
  - injection E as E. auto.
  - injection E as -> _. exfalso. apply M. now left.
  - injection E as -> _. exfalso. apply N. now left.
  - injection E as -> E. destruct (IH x) as [-> ->]; auto; intros H; [apply N|apply M]; now right.
Qed.

Lemma index_dir_inj a i b j : index_dir a i = index_dir b j -> a = b /\ i = j.
Proof.
  unfold index_dir, table_dir. rewrite <- !app_assoc. intros E. apply app_inv_head in E.
  change (str "_index_") with (x5f :: str "index_") in E. cbn [app] in E. apply split_at_char in E as [E1 E2]; [|not_char|not_char].
  apply dec_inj, b2n_inj in E1. change (x69 :: x6e :: x64 :: x65 :: x78 :: x5f :: dec (b2n i)) with (str "index_" ++ dec (b2n i)) in E2.
  apply (app_inv_head (str "index_")) in E2. apply dec_inj, b2n_inj in E2. auto.
Qed.

(** ** The directory that Dump makes *)
Lemma tree_get_none d p : ~ In p (map fst d) -> tree_get d p = None.
Proof.
  induction d as [|[q n] d IH]; cbn [tree_get map fst]; intros N; auto. match goal with |- context [list_eq_dec ?f p q] => destruct (list_eq_dec f p q) as [-> |E] end.
  - exfalso. apply N. now left.
  - apply IH. intros H. apply N. now right.
Qed.

Lemma tree_get_some d p : In p (map fst d) -> exists n, tree_get d p = Some n.
Proof.
  induction d as [|[q n] d IH]; cbn [tree_get map fst]; intros I; [easy|]. match goal with |- context [list_eq_dec ?f p q] => destruct (list_eq_dec f p q) as [-> |E] end; [eauto|].
  destruct I as [-> |I]; [now destruct E|auto].
Qed.

Lemma sst_files_paths dir l : forall n p, In p (map fst (sst_files dir n l)) -> exists x, p = [dir; x].
Proof. induction l as [|f l IH]; intros n p; cbn [sst_files map fst]; intros H; [easy|]. destruct H as [<-|H]; eauto. Qed.

Lemma one_inj (a b : bytes) : [a] = [b] -> a = b.
Proof. now intros [=]. Qed.

Section Dump.
  Variable full : kv -> bool.
  Variable snap : kv.

  Definition part (dir : bytes) (items : kv) : tree := ([dir], NDir) :: sst_files dir 1 (sst_split full items []).
  Definition bounds (a : byte * byte) : bytes * bytes := if Byte.eqb (snd a) x00 then row_bounds (fst a) else index_bounds (fst a) (snd a).
  Definition area_items (a : byte * byte) : kv := kv_range snap (fst (bounds a)) (snd (bounds a)).
  Definition area_dir (a : byte * byte) : bytes := if Byte.eqb (snd a) x00 then table_dir (fst a) else index_dir (fst a) (snd a).
  Definition area_part (a : byte * byte) : tree := part (area_dir a) (area_items a).

  Lemma area_dir_inj a b : area_dir a = area_dir b -> a = b.
  Proof.
    destruct a as [t i], b as [u j]. unfold area_dir. cbn [fst snd]. destruct (Byte.eqb i x00) eqn:I, (Byte.eqb j x00) eqn:J; intros E.
    - apply byte_eqb_eq in I, J. apply table_dir_inj in E. congruence.
    - now apply table_not_index in E.
    - symmetry in E. now apply table_not_index in E.
    - apply index_dir_inj in E as [-> ->]. reflexivity.
  Qed.

  Lemma area_part_paths a p : In p (map fst (area_part a)) -> p = [area_dir a] \/ exists x, p = [area_dir a; x].
  Proof. unfold area_part, part. cbn [map fst]. intros [<-|H]; [auto|]. right. eapply sst_files_paths; eauto. Qed.

  Lemma dump_indexes_ok t ids : forall d, NoDup ids -> ~ In x00 ids -> (forall i, In i ids -> ~ In [index_dir t i] (map fst d)) ->
    dump_indexes full snap t ids d = (d ++ flat_map area_part (map (pair t) ids), Ok tt).
  Proof.
    induction ids as [|i ids IH]; intros d N Z D; cbn [dump_indexes map flat_map]; [now rewrite app_nil_r|].
    assert (I0 : Byte.eqb i x00 = false) by (apply byte_eqb_neq; intros ->; apply Z; now left).
    unfold dump_dir. rewrite tree_get_none by (apply D; now left). inversion N; subst.
    rewrite IH; auto.
    - f_equal. rewrite <- app_assoc. f_equal. unfold area_part, part, area_dir, area_items, bounds. cbn [fst snd]. rewrite I0. reflexivity.
    - intros H. apply Z. now right.
    - intros j J H. rewrite map_app in H. apply in_app_iff in H as [H|H]; [apply (D j); [now right|exact H]|].
      cbn [map fst] in H. destruct H as [H|H].
      + apply one_inj in H. apply index_dir_inj in H as [_ ->]. now destruct H1.
      + apply sst_files_paths in H as [x H]. discriminate.
  Qed.

  Variable live : nat -> kv.

  Definition table_ids (n : nat) (t : byte) : list byte := match get_index_ids (live n) t with Ok ids => ids | _ => [] end.
  Definition table_areas (wi : bool) (n : nat) (t : byte) : list (byte * byte) := (t, x00) :: if wi then map (pair t) (table_ids n t) else [].

  Fixpoint areas (wi : bool) (n : nat) (tables : list byte) : list (byte * byte) :=
    match tables with
    | [] => []
    | t :: tables' => table_areas wi n t ++ areas wi (S n) tables'
    end.

  Hypothesis LIVE : forall n, kv_ok (live n).
  Hypothesis LEN : forall n k v, kv_get (live n) k = Some v -> 2 <= List.length k.

  Lemma table_ids_ok n t : get_index_ids (live n) t = Ok (table_ids n t) /\ NoDup (table_ids n t) /\ ~ In x00 (table_ids n t) /\
    forall i, In i (table_ids n t) <-> i <> x00 /\ exists rest v, kv_get (live n) (t :: i :: rest) = Some v.
  Proof.
    unfold table_ids. destruct (get_index_ids_ok (live n) t (LIVE n) (LEN n)) as (ids & E & S & IN). rewrite E. split; [reflexivity|]. split.
    - clear - S. induction S as [|i ids S IH F]; constructor; auto. intros H. rewrite Forall_forall in F. specialize (F i H). lia.
    - split; [|exact IN]. intros H. apply IN in H as [H _]. now apply H.
  Qed.

  Lemma dump_tables_ok wi tables :
    forall n d, NoDup tables -> (forall t p, In t tables -> (p = table_dir t \/ exists i, p = index_dir t i) -> ~ In [p] (map fst d)) ->
    dump_tables full snap live n wi tables d = (d ++ flat_map area_part (areas wi n tables), Ok tt).
  Proof.
    induction tables as [|t tables IH]; intros n d N D; cbn [dump_tables areas flat_map]; [now rewrite app_nil_r|].
    inversion N; subst. unfold dump_dir. rewrite tree_get_none by (apply (D t); [now left|auto]).
    change (d ++ ([table_dir t], NDir) :: sst_files (table_dir t) 1 (sst_split full (kv_range snap (fst (row_bounds t)) (snd (row_bounds t))) []))
      with (d ++ area_part (t, x00)).
    assert (OTHER : forall u p, In u tables -> (p = table_dir u \/ exists i, p = index_dir u i) -> forall a, fst a = t -> ~ In [p] (map fst (area_part a))).
    { intros u p U P a A H. apply area_part_paths in H as [H|[x H]]; [|discriminate]. apply one_inj in H. destruct a as [t' i]. cbn [fst] in A. subst t'.
      apply H1. replace t with u; auto. unfold area_dir in H. cbn [fst snd] in H. destruct (Byte.eqb i x00), P as [P|[j P]]; subst p.
      - now apply table_dir_inj in H.
      - symmetry in H. now apply table_not_index in H.
      - now apply table_not_index in H.
      - now apply index_dir_inj in H as [-> _]. }
    unfold table_areas. destruct wi.
    - destruct (table_ids_ok n t) as (E & ND & NZ & _). rewrite E. cbn [flat_map app].
      rewrite dump_indexes_ok; auto.
      2: { intros i I H. rewrite map_app in H. apply in_app_iff in H as [H|H]; [apply (D t _ (or_introl eq_refl) (or_intror (ex_intro _ i eq_refl)) H)|].
           apply area_part_paths in H as [H|[x H]]; [|discriminate]. apply one_inj in H. symmetry in H. now apply table_not_index in H. }
      rewrite IH; auto.
      + rewrite <- !app_assoc. rewrite flat_map_app. reflexivity.
      + intros u p U P H. rewrite !map_app in H. apply in_app_iff in H as [H|H]; [apply in_app_iff in H as [H|H]|].
        * apply (D u p); [now right|auto|auto].
        * eapply (OTHER u p U P (t, x00)); eauto.
        * apply in_map_iff in H as [e [EQ H]]. apply in_flat_map in H as [a [A H]]. apply in_map_iff in A as [i [<- _]].
          eapply (OTHER u p U P (t, i)); [reflexivity|]. rewrite <- EQ. now apply in_map.
    - cbn [flat_map app]. rewrite IH; auto; [now rewrite <- !app_assoc|]. intros u p U P H. rewrite map_app in H. apply in_app_iff in H as [H|H].
      + apply (D u p); [now right|auto|auto].
      + eapply (OTHER u p U P (t, x00)); eauto.
  Qed.

  Definition version_node : list bytes * node := ([str "VERSION"], NFile (be_bytes 4 data_version)).

  Lemma dump_ok wi tables : NoDup tables ->
    dump full snap live false wi tables = (version_node :: flat_map area_part (areas wi 0 tables), Ok tt).
  Proof.
    intros N. unfold dump. rewrite dump_tables_ok; auto. intros t p _ P H. cbn [map fst] in H. destruct H as [H|[]]. apply one_inj in H.
    destruct P as [->|[i ->]]; unfold index_dir, table_dir in H; cbn in H; discriminate.
  Qed.

  Lemma areas_in wi tables : forall n t i, In (t, i) (areas wi n tables) <->
    exists m, nth_error tables m = Some t /\ (i = x00 \/ wi = true /\ In i (table_ids (n + m) t)).
  Proof.
    induction tables as [|u tables IH]; intros n t i; cbn [areas].
    - split; [easy|]. intros ([|m] & H & _); discriminate.
    - rewrite in_app_iff, IH. unfold table_areas. split.
      + intros [[H|H]|(m & H & I)].
        * injection H as -> <-. exists 0. split; [reflexivity|now left].
        * destruct wi; [|easy]. apply in_map_iff in H as [j [[= -> ->] H]]. exists 0. split; [reflexivity|]. right. now rewrite Nat.add_0_r.
        * exists (S m). split; [exact H|]. now rewrite Nat.add_succ_r.
      + intros ([|m] & H & I).
        * cbn in H. injection H as ->. left. destruct I as [->|[-> I]]; [now left|]. right. rewrite Nat.add_0_r in I. now apply in_map.
        * right. exists m. split; [exact H|]. now rewrite Nat.add_succ_r in I.
  Qed.

  Lemma areas_nodup wi tables : forall n, NoDup tables -> NoDup (areas wi n tables).
  Proof.
    induction tables as [|t tables IH]; intros n N; cbn [areas]; [constructor|]. inversion N; subst.
    assert (APP : forall (l l' : list (byte * byte)), NoDup l -> NoDup l' -> (forall x, In x l -> ~ In x l') -> NoDup (l ++ l')).
    { clear. induction l as [|x l IH]; intros l' A B C; auto. inversion A; subst. cbn [app]. constructor.
      - rewrite in_app_iff. intros [H|H]; [auto|]. apply (C x); [now left|auto].
      - apply IH; auto. intros y Y. apply C. now right. }
    apply APP; auto.
    - unfold table_areas. destruct wi; [|repeat constructor; easy]. destruct (table_ids_ok n t) as (_ & ND & NZ & _). constructor.
      + intros H. apply in_map_iff in H as [i [[= ->] H]]. contradiction.
      + apply FinFun.Injective_map_NoDup; [intros a b [= ->]; reflexivity|exact ND].
    - intros [u i] A B. apply areas_in in B as (m & B & _). apply nth_error_In in B. apply H1. replace t with u; [exact B|].
      destruct A as [A|A]; [now injection A|]. destruct wi; [|easy]. apply in_map_iff in A as [j [A _]]. now injection A.
  Qed.

  (** ** The files that Restore picks *)
  Section Pick.
    Variable root : bytes.
    Variable want : list byte.
    Variable wi : bool.
    Hypothesis ROOT : forall r, In r want -> contains (table_dir r) root = false.
    Hypothesis IROOT : wi = true \/ contains (str "index") root = false.

    Lemma full_path_contains sub dir x : ~ In x2f sub -> contains sub (full_path root [dir; x]) = contains sub root || contains sub dir || contains sub x.
    Proof.
      intros N. cbn [full_path]. change (str "/") with [x2f]. cbn [app]. rewrite (contains_sep x2f); auto. rewrite (contains_sep x2f); auto.
    Qed.

    Definition wanted_area (a : byte * byte) : bool :=
      existsb (fun r => has_prefix (dec (b2n r)) (dec (b2n (fst a)))) want && (Byte.eqb (snd a) x00 || wi).

    Lemma picked_area a n : picked want wi (full_path root [area_dir a; sst_name n]) = wanted_area a.
    Proof.
      unfold picked, wanted_area. rewrite (full_path_contains (str "index")) by (cbn; intuition discriminate). rewrite index_sst, orb_false_r.
      assert (E : existsb (fun t => contains (table_dir t) (full_path root [area_dir a; sst_name n])) want =
                  existsb (fun r => has_prefix (dec (b2n r)) (dec (b2n (fst a)))) want).
      { clear IROOT. induction want as [|r l IH]; [reflexivity|]. cbn [existsb]. rewrite IH by (intros q Q; apply ROOT; now right). f_equal.
        rewrite full_path_contains by (unfold table_dir; not_char). rewrite ROOT by now left. rewrite table_dir_sst, orb_false_r. cbn [orb].
        unfold area_dir. destruct (Byte.eqb (snd a) x00); [apply table_dir_table|apply table_dir_index]. }
      rewrite E. f_equal. unfold area_dir. destruct (Byte.eqb (snd a) x00); rewrite ?index_table, ?index_index, ?orb_true_r, ?orb_false_r; cbn [orb negb].
      - destruct IROOT as [-> | ->]; [apply orb_true_r|reflexivity].
      - reflexivity.
    Qed.

    Lemma pick_files dir (b : bool) l : forall n, (forall m, picked want wi (full_path root [dir; sst_name m]) = b) ->
      pick_ssts root want wi (sst_files dir n l) = if b then l else [].
    Proof.
      induction l as [|f l IH]; intros n H; cbn [sst_files pick_ssts]; [now destruct b|]. rewrite H, IH by auto. now destruct b.
    Qed.

    Lemma pick_app d d' : pick_ssts root want wi (d ++ d') = pick_ssts root want wi d ++ pick_ssts root want wi d'.
    Proof. induction d as [|[p [ | c | f]] d IH]; cbn [app pick_ssts]; auto. rewrite IH. destruct (picked _ _ _); reflexivity. Qed.

    Definition area_files (a : byte * byte) : list kv := sst_split full (area_items a) [].

    Lemma pick_areas l : pick_ssts root want wi (flat_map area_part l) = flat_map area_files (filter wanted_area l).
    Proof.
      induction l as [|a l IH]; [reflexivity|]. cbn [flat_map filter]. rewrite pick_app, IH. unfold area_part at 1, part. cbn [pick_ssts].
      rewrite (pick_files _ (wanted_area a)) by apply picked_area. destruct (wanted_area a); reflexivity.
    Qed.
  End Pick.

  (** ** Pieces *)
  Lemma split_concat items : forall cur, List.concat (sst_split full items cur) = cur ++ items.
  Proof.
    induction items as [|e items IH]; intros cur; cbn [sst_split List.concat]; [reflexivity|]. destruct (full _); cbn [List.concat]; rewrite IH; [|now rewrite <- app_assoc].
    now rewrite <- app_assoc.
  Qed.

  Lemma files_concat a : List.concat (area_files a) = area_items a.
  Proof. apply split_concat. Qed.
End Dump.

Lemma last_in {A} (l : list A) d : l <> [] -> In (last l d) l.
Proof. induction l as [|x l IH]; intros N; [easy|]. destruct l as [|y l]; [now left|]. right. apply IH. discriminate. Qed.

Lemma overlap_lt (f g : kv) : (forall a b, In a f -> In b g -> blt (fst a) (fst b)) -> overlap f g = false /\ overlap g f = false.
Proof.
  intros H. destruct f as [|[k v] f], g as [|[l w] g]; cbn [overlap]; auto.
  match goal with |- context [bleb l (fst ?z)] => assert (X : bleb l (fst z) = false); [|rewrite X] end.
  - apply bleb_gt. apply (H _ (l, w)); [|now left]. apply last_in. discriminate.
  - split; [apply andb_false_r|reflexivity].
Qed.

Lemma overlapping_app a : forall b, overlapping a = false -> overlapping b = false -> (forall f g, In f a -> In g b -> overlap f g = false) -> overlapping (a ++ b) = false.
Proof.
  induction a as [|f a IH]; intros b A B X; auto. cbn [app overlapping] in *. apply orb_false_iff in A as [A1 A2]. apply orb_false_iff. split.
  - rewrite existsb_app, A1. cbn [orb]. destruct (existsb (overlap f) b) eqn:E; auto. apply existsb_exists in E as [g [G E]].
    rewrite (X f g) in E; [discriminate|now left|auto].
  - apply IH; auto. intros g h G H. apply X; [now right|auto].
Qed.

Lemma kv_ok_app_lt (a : kv) : forall b, kv_ok (a ++ b) -> kv_ok a /\ kv_ok b /\ forall x y, In x a -> In y b -> blt (fst x) (fst y).
Proof.
  induction a as [|e a IH]; intros b H; cbn [app] in H; [split; [constructor|split; [exact H|intros x y []]]|]. apply kv_ok_cons in H as [H1 H2]. destruct (IH b H1) as (A & B & C).
  rewrite Forall_forall in H2. split; [|split; [auto|]].
  - apply kv_ok_cons. split; auto. apply Forall_forall. intros x X. apply H2. apply in_app_iff. auto.
  - intros x y [<-|X] Y; [apply H2; apply in_app_iff; auto|auto].
Qed.

Lemma overlapping_pieces l : kv_ok (List.concat l) -> overlapping l = false.
Proof.
  induction l as [|f l IH]; intros K; auto. cbn [List.concat] in K. apply kv_ok_app_lt in K as (A & B & C). cbn [overlapping]. rewrite IH by auto. rewrite orb_false_r.
  destruct (existsb (overlap f) l) eqn:E; auto. apply existsb_exists in E as [g [G E]]. destruct (overlap_lt f g) as [X _]; [|congruence].
  intros a b I J. apply C; auto. apply in_concat. eauto.
Qed.

(** ** Ranges *)
Lemma range_rows t k : 6 <= List.length k -> in_range (fst (row_bounds t)) (snd (row_bounds t)) k = true <-> exists rest, k = t :: x00 :: rest.
Proof.
  intros L. unfold in_range, row_bounds. cbn [fst snd]. rewrite andb_true_iff, bleb_le, bltb_lt. split.
  - intros [A B]. destruct k as [|a [|b rest]]; cbn [List.length] in L; try lia. unfold ble, blt in A, B. rewrite bcmp_cons in A, B.
    rewrite (N.compare_antisym (b2n t) (b2n a)) in B. destruct (N.compare (b2n t) (b2n a)) eqn:C; cbn [CompOpp] in B; try congruence.
    apply N.compare_eq, b2n_inj in C. subst a. rewrite bcmp_cons in B. destruct (N.compare (b2n b) (b2n x01)) eqn:D; try congruence.
    + exfalso. apply N.compare_eq, b2n_inj in D. subst b. destruct rest as [|c0 [|c1 [|c2 [|c3 rest]]]]; cbn [List.length] in L; try lia.
      assert (H : ble [x00; x00; x00; x00] (c0 :: c1 :: c2 :: c3 :: rest)).
      { change (c0 :: c1 :: c2 :: c3 :: rest) with ([c0; c1; c2; c3] ++ rest). eapply ble_trans; [|apply ble_app].
        unfold ble. rewrite bcmp_be_val by reflexivity. change (be_val [x00; x00; x00; x00]) with 0%N. intros Q. apply N.compare_gt_iff in Q. lia. }
      apply (blt_not_le (c0 :: c1 :: c2 :: c3 :: rest) [x00; x00; x00; x00]); auto.
    + apply (proj1 (N.compare_lt_iff _ _)) in D. exists rest. do 2 f_equal. apply b2n_inj. change (b2n x01) with 1%N in D. change (b2n x00) with 0%N. lia.
  - intros [rest ->]. split.
    + destruct rest as [|c0 [|c1 [|c2 [|c3 rest]]]]; cbn [List.length] in L; try lia. apply (ble_app_l [t; x00]).
      change (c0 :: c1 :: c2 :: c3 :: rest) with ([c0; c1; c2; c3] ++ rest). eapply ble_trans; [|apply ble_app].
      unfold ble. rewrite bcmp_be_val by reflexivity. change (be_val [x00; x00; x00; x00]) with 0%N. intros Q. apply N.compare_gt_iff in Q. lia.
    + unfold blt. rewrite bcmp_cons, N.compare_refl. reflexivity.
Qed.

Lemma range_index t i k : 6 <= List.length k -> firstn 4 (skipn 2 k) <> [xff; xff; xff; xff] ->
  in_range (fst (index_bounds t i)) (snd (index_bounds t i)) k = true <-> exists rest, k = t :: i :: rest.
Proof.
  intros L NF. unfold in_range, index_bounds. cbn [fst snd]. rewrite andb_true_iff, bleb_le, bltb_lt. split.
  - intros [A B]. destruct k as [|a [|b rest]]; cbn [List.length] in L; try lia. unfold ble, blt in A, B. rewrite bcmp_cons in A, B.
    rewrite (N.compare_antisym (b2n t) (b2n a)) in B. destruct (N.compare (b2n t) (b2n a)) eqn:C; cbn [CompOpp] in B; try congruence.
    apply N.compare_eq, b2n_inj in C. subst a. rewrite bcmp_cons in A, B. rewrite (N.compare_antisym (b2n i) (b2n b)) in B.
    destruct (N.compare (b2n i) (b2n b)) eqn:D; cbn [CompOpp] in B; try congruence. apply N.compare_eq, b2n_inj in D. subst b. eauto.
  - intros [rest ->]. destruct rest as [|c0 [|c1 [|c2 [|c3 rest]]]]; cbn [List.length] in L; try lia. cbn [skipn firstn] in NF. split.
    + apply (ble_app_l [t; i]).
      change (c0 :: c1 :: c2 :: c3 :: rest) with ([c0; c1; c2; c3] ++ rest). eapply ble_trans; [|apply ble_app].
      unfold ble. rewrite bcmp_be_val by reflexivity. change (be_val [x00; x00; x00; x00]) with 0%N. intros Q. apply N.compare_gt_iff in Q. lia.
    + apply (blt_app_l [t; i]). change (c0 :: c1 :: c2 :: c3 :: rest) with ([c0; c1; c2; c3] ++ rest).
      change [xff; xff; xff; xff] with ([xff; xff; xff; xff] ++ []). apply blt_app_same_len; [reflexivity|]. left.
      unfold blt. rewrite bcmp_be_val by reflexivity. apply N.compare_lt_iff. change (be_val [xff; xff; xff; xff]) with 4294967295%N.
      pose proof (be_val_lt [c0; c1; c2; c3]) as V. cbn [List.length] in V. change (256 ^ N.of_nat 4)%N with 4294967296%N in V.
      assert (be_val [c0; c1; c2; c3] <> 4294967295%N); [|lia]. intros Q. apply NF. apply be_val_inj; [reflexivity|]. rewrite Q. reflexivity.
Qed.

Lemma area_items_in snap a k v : kv_ok snap -> bond_keys snap ->
  In (k, v) (area_items snap a) <-> kv_get snap k = Some v /\ exists rest, k = fst a :: snd a :: rest.
Proof.
  intros K BK. unfold area_items. rewrite <- (kv_get_in _ _ _ (kv_range_ok snap _ _ K)), kv_get_range by auto. split.
  - destruct (in_range _ _ k) eqn:R; [|discriminate]. intros G. split; [auto|]. destruct (BK k v G) as [L NF]. unfold bounds in R.
    destruct (Byte.eqb (snd a) x00) eqn:Z; [apply range_rows in R; auto; apply byte_eqb_eq in Z; now rewrite Z|apply range_index in R; auto].
  - intros [G X]. destruct (BK k v G) as [L NF]. replace (in_range _ _ k) with true; [auto|]. symmetry. unfold bounds.
    destruct (Byte.eqb (snd a) x00) eqn:Z; [apply range_rows; auto; apply byte_eqb_eq in Z; now rewrite <- Z|apply range_index; auto].
Qed.

Lemma area_lt snap a b : kv_ok snap -> bond_keys snap -> a <> b ->
  (forall x y, In x (area_items snap a) -> In y (area_items snap b) -> blt (fst x) (fst y)) \/
  (forall x y, In x (area_items snap a) -> In y (area_items snap b) -> blt (fst y) (fst x)).
Proof.
  intros K BK N. destruct a as [t i], b as [u j].
  assert (C : (b2n t < b2n u \/ b2n t = b2n u /\ b2n i < b2n j)%N \/ (b2n u < b2n t \/ b2n u = b2n t /\ b2n j < b2n i)%N).
  { destruct (N.lt_trichotomy (b2n t) (b2n u)) as [C|[C|C]]; [lia| |lia]. destruct (N.lt_trichotomy (b2n i) (b2n j)) as [D|[D|D]]; [lia| |lia].
    exfalso. apply N. apply b2n_inj in C, D. congruence. }
  assert (LT : forall t i u j r s, (b2n t < b2n u \/ b2n t = b2n u /\ b2n i < b2n j)%N -> blt (t :: i :: r) (u :: j :: s)).
  { clear. intros t i u j r s H. unfold blt. rewrite bcmp_cons. destruct (N.compare_spec (b2n t) (b2n u)) as [C|C|C]; [|reflexivity|lia].
    rewrite bcmp_cons. destruct (N.compare_spec (b2n i) (b2n j)) as [D|D|D]; [lia|reflexivity|lia]. }
  destruct C as [C|C]; [left|right]; intros [k v] [l w] X Y; apply (area_items_in snap _ _ _ K BK) in X as [_ [r ->]]; apply (area_items_in snap _ _ _ K BK) in Y as [_ [s ->]]; cbn [fst snd]; now apply LT.
Qed.

Lemma overlapping_areas full snap l : kv_ok snap -> bond_keys snap -> NoDup l -> overlapping (flat_map (area_files full snap) l) = false.
Proof.
  intros K BK. induction l as [|a l IH]; intros N; auto. inversion N; subst. cbn [flat_map]. apply overlapping_app; auto.
  - apply overlapping_pieces. rewrite files_concat. apply kv_range_ok; auto.
  - intros f g F G. apply in_flat_map in G as [b [B G]].
    assert (AB : a <> b) by (intros ->; contradiction).
    assert (FI : forall x, In x f -> In x (area_items snap a)) by (intros x X; rewrite <- (files_concat full snap a); apply in_concat; eauto).
    assert (GI : forall x, In x g -> In x (area_items snap b)) by (intros x X; rewrite <- (files_concat full snap b); apply in_concat; eauto).
    destruct (area_lt snap a b K BK AB) as [H|H]; [apply (overlap_lt f g)|apply (overlap_lt g f)]; auto.
Qed.

Lemma sets_effect (snap : kv) (es : kv) k : (forall x v, In (x, v) es -> kv_get snap x = Some v) ->
  ops_effect (map (fun e => BSet (fst e) (snd e)) es) k = if existsb (fun e => beqb k (fst e)) es then Some (kv_get snap k) else None.
Proof.
  induction es as [|[x v] es IH]; intros H; [reflexivity|]. cbn [map ops_effect existsb fst snd op_touches op_result]. rewrite IH by (intros y w I; apply H; now right).
  match goal with |- context [existsb ?f es] => destruct (existsb f es); [now rewrite orb_true_r|] end. rewrite orb_false_r. destruct (beqb k x) eqn:E; auto. apply beqb_eq in E. subst. now rewrite (H x v (or_introl eq_refl)).
Qed.

Lemma flat_map_concat_map {A B} (f : A -> B) l : flat_map (map f) l = map f (List.concat l).
Proof. induction l as [|a l IH]; [reflexivity|]. cbn [flat_map List.concat]. now rewrite IH, map_app. Qed.

Theorem restore_ok full snap live root db tables want wiD wiR :
  kv_ok snap -> kv_ok db -> bond_keys snap -> (forall n, kv_ok (live n)) -> (forall n, bond_keys (live n)) -> NoDup tables -> incl want tables ->
  (wiR = true -> wiD = true) ->
  (wiR = true -> forall n t i rest v, nth_error tables n = Some t -> kv_get snap (t :: i :: rest) = Some v ->
   exists rest' v', kv_get (live n) (t :: i :: rest') = Some v') ->
  (forall r, In r want -> contains (table_dir r) root = false) -> (wiR = true \/ contains (str "index") root = false) ->
  (forall r d, In r want -> In d tables -> has_prefix (dec (b2n r)) (dec (b2n d)) = true -> In d want) ->
  exists d db', dump full snap live false wiD tables = (d, Ok tt) /\ restore root d db want wiR = (db', Ok tt) /\ kv_ok db' /\
  (forall k, wanted want wiR k -> kv_get db' k = match kv_get snap k with Some v => Some v | None => kv_get db k end) /\
  (forall k, ~ wanted want wiR k -> kv_get db' k = kv_get db k).
Proof.
  intros K KD BK KL BL N INC WI KEEP ROOT IROOT PRE.
  assert (LEN : forall n k v, kv_get (live n) k = Some v -> 2 <= List.length k) by (intros n k v G; destruct (BL n k v G); lia).
  eexists. eexists. split; [apply dump_ok; auto|].
  set (ars := areas live wiD 0 tables).
  assert (R : restore root (version_node :: flat_map (area_part full snap) ars) db want wiR =
    (apply_ops db (map (fun e => BSet (fst e) (snd e)) (List.concat (flat_map (area_files full snap) (filter (wanted_area want wiR) ars)))), Ok tt)).
  { unfold restore. replace (tree_get (version_node :: _) [str "VERSION"]) with (Some (NFile (be_bytes 4 data_version))).
    2: { unfold version_node. cbn [tree_get]. match goal with |- context [list_eq_dec ?f ?p ?q] => destruct (list_eq_dec f p q) end; [reflexivity|congruence]. }
    replace (Nat.ltb (List.length (be_bytes 4 data_version)) 4) with false by reflexivity.
    replace (negb (be_val (firstn 4 (be_bytes 4 data_version)) =? data_version)%N) with false by reflexivity.
    replace (forallb _ want) with true.
    2: { symmetry. apply forallb_forall. intros r R. destruct (tree_get_some (version_node :: flat_map (area_part full snap) ars) [table_dir r]) as [n ->]; [|reflexivity].
         cbn [map]. right. apply in_map_iff. exists ([table_dir r], NDir). split; [reflexivity|]. apply in_flat_map. exists (r, x00). split.
         - apply areas_in. apply INC, In_nth_error in R as [m R]. exists m. split; [exact R|now left].
         - unfold area_part, part, area_dir. cbn [snd fst]. now left. }
    cbn [pick_ssts]. unfold version_node at 1. cbn [pick_ssts]. rewrite (pick_areas full snap root want wiR ROOT IROOT). unfold ingest.
    rewrite overlapping_areas; auto.
    - now rewrite flat_map_concat_map.
    - apply NoDup_filter. apply areas_nodup; auto. }
  split; [exact R|].
  set (es := List.concat (flat_map (area_files full snap) (filter (wanted_area want wiR) ars))) in *.
  assert (IN : forall k v, In (k, v) es <-> kv_get snap k = Some v /\ wanted want wiR k).
  { intros k v. unfold es. rewrite in_concat. split.
    - intros (f & F & I). apply in_flat_map in F as [a [A F]].
      assert (J : In (k, v) (area_items snap a)) by (rewrite <- (files_concat full snap a); apply in_concat; eauto).
      apply (area_items_in snap _ _ _ K BK) in J as [G [rest ->]]. split; [auto|]. apply filter_In in A as [A W].
      unfold wanted_area in W. apply andb_true_iff in W as [W1 W2]. apply existsb_exists in W1 as [r [R1 R2]].
      assert (T : In (fst a) tables) by (destruct a as [t i]; apply areas_in in A as (m & A & _); now apply nth_error_In in A).
      exists (fst a), (snd a), rest. split; [reflexivity|]. split; [now apply (PRE r)|]. apply orb_true_iff in W2 as [W2|W2]; [left; now apply byte_eqb_eq|now right].
    - intros [G (t & i & rest & -> & T & I)].
      assert (J : In (t :: i :: rest, v) (area_items snap (t, i))) by (apply (area_items_in snap _ _ _ K BK); split; [auto|eexists; reflexivity]).
      rewrite <- (files_concat full snap (t, i)) in J. apply in_concat in J as [f [F J]]. exists f. split; [|auto]. apply in_flat_map. exists (t, i). split; [|auto].
      apply filter_In. split.
      + apply areas_in. pose proof (INC t T) as M. apply In_nth_error in M as [m M]. exists m. split; [exact M|]. destruct (byte_eq_dec i x00) as [-> |NZ]; [now left|]. right.
        destruct I as [I|I]; [contradiction|]. split; [auto|]. apply table_ids_ok; auto. split; [exact NZ|]. apply (KEEP I m t i rest v M G).
      + unfold wanted_area. cbn [fst snd]. apply andb_true_iff. split; [|apply orb_true_iff; destruct I as [-> |I]; [now left|now right]].
        apply existsb_exists. exists t. split; [auto|apply prefix_refl]. }
  split; [apply apply_ops_ok; auto|].
  assert (EFF : forall k, kv_get (apply_ops db (map (fun e => BSet (fst e) (snd e)) es)) k = if existsb (fun e => beqb k (fst e)) es then kv_get snap k else kv_get db k).
  { intros k. rewrite kv_get_apply_ops by auto. rewrite (sets_effect snap es k) by (intros x v I; now apply IN in I). match goal with |- context [existsb ?f es] => destruct (existsb f es); reflexivity end. }
  split; intros k W; rewrite EFF; match goal with |- context [existsb ?f es] => destruct (existsb f es) eqn:E end.
  - apply existsb_exists in E as [[x v] [E1 E2]]. cbn [fst] in E2. apply beqb_eq in E2. subst x. apply IN in E1 as [G _]. now rewrite G.
  - destruct (kv_get snap k) as [v|] eqn:G; auto. exfalso. assert (I : In (k, v) es) by (apply IN; auto).
    assert (X : existsb (fun e => beqb k (fst e)) es = true) by (apply existsb_exists; exists (k, v); split; [auto|apply beqb_refl]). congruence.
  - exfalso. apply existsb_exists in E as [[x v] [E1 E2]]. cbn [fst] in E2. apply beqb_eq in E2. subst x. apply IN in E1 as [_ G]. contradiction.
  - reflexivity.
Qed.

(** A table that was not dumped, or a dump of another version: Restore fails and changes nothing. *)
Lemma restore_fails full snap live root db tables want wiD wiR t : (forall n, kv_ok (live n)) -> (forall n, bond_keys (live n)) -> NoDup tables ->
  In t want -> ~ In t tables -> restore root (fst (dump full snap live false wiD tables)) db want wiR = (db, Err EOther).
Proof.
  intros KL BL N T NT. assert (LEN : forall n k v, kv_get (live n) k = Some v -> 2 <= List.length k) by (intros n k v G; destruct (BL n k v G); lia).
  rewrite dump_ok by auto. cbn [fst]. unfold restore. replace (tree_get (version_node :: _) [str "VERSION"]) with (Some (NFile (be_bytes 4 data_version))).
  2: { unfold version_node. cbn [tree_get]. match goal with |- context [list_eq_dec ?f ?p ?q] => destruct (list_eq_dec f p q) end; [reflexivity|congruence]. }
  replace (Nat.ltb (List.length (be_bytes 4 data_version)) 4) with false by reflexivity.
  replace (negb (be_val (firstn 4 (be_bytes 4 data_version)) =? data_version)%N) with false by reflexivity.
  replace (forallb _ want) with false; [reflexivity|]. symmetry. match goal with |- ?x = false => destruct x eqn:E; auto end. exfalso. rewrite forallb_forall in E. specialize (E t T). cbv beta in E.
  rewrite tree_get_none in E; [discriminate|]. cbn [map]. intros [H|H].
  - unfold version_node in H. cbn [fst] in H. apply one_inj in H. unfold table_dir in H. cbn in H. discriminate.
  - apply in_map_iff in H as [e [EQ H]]. apply in_flat_map in H as [a [A H]]. apply (in_map fst) in H. rewrite EQ in H.
    apply area_part_paths in H as [H|[x H]]; [|discriminate]. apply one_inj in H. change (table_dir t) with (area_dir (t, x00)) in H. apply area_dir_inj in H. subst a.
    apply areas_in in A as (m & A & _). apply nth_error_In in A. contradiction.
Qed.
