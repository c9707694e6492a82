(** The write loops: what they do to the represented map. *)

From Coq Require Import List NArith Lia Bool Sorting.Sorted Sorting.Permutation Arith.
From Verif.Model Require Import Bytes Go Keys Pebble Index Table.
From Verif.Spec Require Import KeySpec TableSpec.
From Verif.Proofs Require Import BytesFacts KeysFacts PebbleFacts TableFacts.
Import ListNotations.

(** ** Chunks *)

Lemma is_chunks_nonempty {A} n (l : list A) cs : 0 < n -> is_chunks n l cs -> Forall (fun c => c <> []) cs.
Proof.
  intros Hn H. induction H; constructor; auto.
  - destruct l; cbn in *; [lia|easy].
  - destruct c; cbn in *; [lia|easy].
Qed.

Lemma is_chunks_concat {A} n (l : list A) cs : is_chunks n l cs -> concat cs = l.
Proof. intro H; induction H; cbn; rewrite ?app_nil_r; congruence. Qed.

Lemma is_chunks_small {A} n (l : list A) cs : is_chunks n l cs -> length l <= n -> l <> [] -> cs = [l].
Proof.
  intros H Hl Hn. inversion H; subst; auto; try easy.
  rewrite app_length in Hl. destruct l0; [easy|cbn in Hl; lia].
Qed.

Lemma is_chunks_len {A} n (l : list A) cs : is_chunks n l cs -> Forall (fun c => length c <= n) cs.
Proof. intro H; induction H; constructor; auto; lia. Qed.

Lemma skipn_skipn_add {A} (l : list A) a b : skipn a (skipn b l) = skipn (b + a) l.
Proof.
  revert l. induction b as [|b IH]; intro l; cbn; auto.
  destruct l; cbn; auto. destruct a; reflexivity.
Qed.

(** [batched] runs the function over the chunks, in order. *)
Lemma batched_loop_chunks {A St} bs (items : list A) : 0 < bs ->
  forall fuel num, length (skipn (num * bs) items) < fuel ->
  exists cs, is_chunks bs (skipn (num * bs) items) cs /\
    forall (f : list A -> St -> St * res unit) s, batched_loop fuel items bs num f s = run_chunks f cs s.
Proof.
  intro Hb. induction fuel as [|fuel IH]; intros num Hf; [lia|].
  destruct (Nat.ltb (num * bs) (length items)) eqn:L.
  - pose proof L as L'. apply Nat.ltb_lt in L'.
    rewrite skipn_length in Hf.
    destruct (IH (S num)) as [cs [H1 H2]].
    { rewrite skipn_length. cbn. lia. }
    set (rest := skipn (num * bs) items) in *.
    assert (Er : skipn (S num * bs) items = skipn bs rest).
    { unfold rest. rewrite skipn_skipn_add. f_equal. lia. }
    assert (Lr : length rest = length items - num * bs) by (unfold rest; apply skipn_length).
    destruct (Nat.ltb (length items) (num * bs + bs)) eqn:Q.
    + pose proof Q as Q'. apply Nat.ltb_lt in Q'.
      exists [rest]. split.
      * apply ic_last. lia.
      * intros f s. cbn [batched_loop]. rewrite L, Q. cbn zeta.
        assert (M : length items mod bs = length items - num * bs).
        { symmetry. apply (Nat.mod_unique _ _ num); lia. }
        rewrite M.
        replace (num * bs + (length items - num * bs) - num * bs) with (length rest) by lia.
        fold rest. rewrite firstn_all. cbn [run_chunks].
        destruct (f rest s) as [s' r]. destruct r; auto.
        rewrite H2. 
        assert (E0 : skipn (S num * bs) items = []) by (apply skipn_all2; cbn; lia).
        rewrite E0 in H1. inversion H1; subst; auto.
        -- cbn in H. lia.
        -- destruct c; cbn in H; [|easy]. destruct l; easy.
    + pose proof Q as Q'. apply Nat.ltb_ge in Q'.
      exists (firstn bs rest :: cs). rewrite Er in H1. split.
      * destruct (skipn bs rest) eqn:E.
        -- inversion H1; subst.
           ++ assert (X : firstn bs rest = rest).
              { rewrite <- (firstn_skipn bs rest) at 2. rewrite E, app_nil_r. reflexivity. }
              rewrite X. apply ic_last.
              assert (length (skipn bs rest) = 0) by (rewrite E; reflexivity).
              rewrite skipn_length in H. lia.
           ++ cbn in H. lia.
           ++ destruct c; cbn in H; [|easy]. destruct l; easy.
        -- rewrite <- (firstn_skipn bs rest) at 1. rewrite E.
           apply ic_cons; auto; [|easy]. rewrite firstn_length. lia.
      * intros f s. cbn [batched_loop]. rewrite L, Q. cbn zeta.
        replace (num * bs + bs - num * bs) with bs by lia. fold rest. cbn [run_chunks].
        destruct (f (firstn bs rest) s) as [s' r]. destruct r; auto.
  - pose proof L as L'. apply Nat.ltb_ge in L'.
    exists []. rewrite (skipn_all2 items) by lia. split; [constructor|].
    intros f s. cbn [batched_loop]. rewrite L. reflexivity.
Qed.

Lemma batched_chunks {A St} bs (items : list A) : 0 < bs ->
  exists cs, is_chunks bs items cs /\
    forall (f : list A -> St -> St * res unit) s, batched items bs f s = run_chunks f cs s.
Proof.
  intro Hb. unfold batched. destruct (@batched_loop_chunks A St bs items Hb (Datatypes.S (length items)) 0) as [cs [H1 H2]].
  - cbn. lia.
  - cbn in H1. eauto.
Qed.

Lemma batched_nil {A St} bs (f : list A -> St -> St * res unit) s : batched [] bs f s = (s, Ok tt).
Proof. unfold batched. cbn. destruct bs; reflexivity. Qed.

(** ** Sorted keys *)

Lemma map_nth_seq {A} (l : list A) d : map (fun i => nth i l d) (seq 0 (length l)) = l.
Proof.
  induction l as [|x l IH]; cbn; auto. f_equal. rewrite <- seq_shift, map_map. exact IH.
Qed.

Lemma nodup_app_iff {A} (l l' : list A) :
  NoDup (l ++ l') <-> NoDup l /\ NoDup l' /\ (forall x, In x l -> ~ In x l').
Proof.
  induction l as [|a l IH]; cbn.
  - split; [intro; repeat split; auto; constructor|tauto].
  - rewrite !NoDup_cons_iff, IH, in_app_iff. split.
    + intros [H1 [H2 [H3 H4]]]. repeat split; auto. intros x [<-|Hx]; auto.
    + intros [[H1 H2] [H3 H4]]. repeat split; auto.
      * intros [H|H]; auto. apply (H4 a); auto.
Qed.

Lemma nodup_map_app {A B} (f : A -> B) (l l' : list A) :
  NoDup (map f (l ++ l')) <->
  NoDup (map f l) /\ NoDup (map f l') /\ (forall x y, In x l -> In y l' -> f x <> f y).
Proof.
  rewrite map_app, nodup_app_iff. split; intros [H1 [H2 H3]]; repeat split; auto.
  - intros x y Hx Hy E. apply (H3 (f x)); [apply in_map; auto|]. rewrite E. apply in_map; auto.
  - intros a Ha Hb. apply in_map_iff in Ha as [x [<- Hx]]. apply in_map_iff in Hb as [y [Ey Hy]].
    apply (H3 x y); auto.
Qed.

Existing Class lawful.
Existing Class env_ok.

Section Loops.
  Context {T F : Type} {tb : table T F} {ev : env T} {LAW : lawful tb} {EV : env_ok ev}.
  Notation sc := (schema_of tb).
  Notation dk := (data_key tb).
  Notation pk := (s_pk (schema_of tb)).

  Lemma sort_keys_rows trs : exists keys order rs,
    sort_keys ev (map dk trs) = (keys, order) /\ keys = map dk rs /\ Permutation rs trs /\
    StronglySorted ble (map dk rs) /\
    Forall2 (fun o r => nth_error trs o = Some r) order rs.
  Proof.
    destruct trs as [|d trs'] eqn:ET.
    - pose proof (env_sort_perm _ EV []) as P. cbn in P. apply Permutation_sym, Permutation_nil in P.
      exists [], [], []. cbn. unfold sort_keys. rewrite P. repeat split; auto; constructor.
    - rewrite <- ET. set (keys := map dk trs).
      pose proof (env_sort_perm _ EV keys) as P. pose proof (env_sort_sorted _ EV keys) as S.
      set (order := e_sort ev keys) in *.
      assert (LK : length keys = length trs) by (unfold keys; apply map_length).
      rewrite LK in P.
      assert (IN : forall i, In i order -> i < length trs).
      { intros i Hi. apply (Permutation_in _ P) in Hi. apply in_seq in Hi. lia. }
      assert (EQ : map (fun i => nth i keys []) order = map dk (map (fun i => nth i trs d) order)).
      { rewrite map_map. apply map_ext_in. intros i Hi. apply IN in Hi.
        unfold keys. rewrite (nth_indep _ [] (dk d)) by (rewrite map_length; auto). apply map_nth. }
      exists (map (fun i => nth i keys []) order), order, (map (fun i => nth i trs d) order).
      repeat split; auto.
      + transitivity (map (fun i => nth i trs d) (seq 0 (length trs))).
        * apply Permutation_map; auto.
        * rewrite map_nth_seq. reflexivity.
      + rewrite <- EQ. exact S.
      + clear - IN. induction order as [|i order IH]; cbn; constructor.
        * rewrite (nth_error_nth' trs d); auto. apply IN; left; auto.
        * apply IH. intros; apply IN; right; auto.
  Qed.

  Lemma dk_inj r r' : dk r = dk r' <-> pk r = pk r'.
  Proof.
    rewrite !(data_key_eq _ LAW). split; [apply row_key_inj|congruence].
  Qed.

  Lemma dk_hi r : blt (dk r) (data_key_space_end tb).
  Proof.
    rewrite (data_key_eq _ LAW). unfold row_key, data_key_space_end. cbn [s_id schema_of].
    unfold spec_key. unfold blt. cbn [app]. rewrite bcmp_cons, N.compare_refl, bcmp_cons. reflexivity.
  Qed.

  (** ** Abstract maps *)

  Lemma put_same m r : put sc m r (pk r) = Some r.
  Proof. unfold put. rewrite beqb_refl. reflexivity. Qed.
  Lemma put_other m r p : p <> pk r -> put sc m r p = m p.
  Proof. intro H. unfold put. apply beqb_neq in H. rewrite H. reflexivity. Qed.

  Lemma puts_notin l : forall m p, (forall r, In r l -> pk r <> p) -> puts sc m l p = m p.
  Proof.
    induction l as [|r l IH]; intros m p H; cbn; auto.
    change (puts sc (put sc m r) l p = m p). rewrite IH by (intros; apply H; right; auto).
    apply put_other. intro E. apply (H r); [left|]; auto.
  Qed.

  Lemma puts_in l : forall m r, NoDup (map pk l) -> In r l -> puts sc m l (pk r) = Some r.
  Proof.
    induction l as [|x l IH]; intros m r N H; [easy|]. cbn [map] in N. inversion N; subst.
    change (puts sc (put sc m x) l (pk r) = Some r). destruct H as [->|H].
    - rewrite puts_notin. apply put_same. intros r' Hr' E. apply H2. apply in_map_iff. exists r'. auto.
    - apply IH; auto.
  Qed.

  Lemma in_pk_dec l p : {exists r, In r l /\ pk r = p} + {forall r, In r l -> pk r <> p}.
  Proof.
    induction l as [|x l IH]; [right; intros r []|].
    destruct (bytes_eq_dec (pk x) p) as [E|E].
    - left. exists x. split; [left|]; auto.
    - destruct IH as [IH|IH].
      + left. destruct IH as [r [H1 H2]]. exists r. split; [right|]; auto.
      + right. intros r [<-|H]; auto.
  Qed.

  Lemma puts_perm m l l' : NoDup (map pk l) -> Permutation l l' -> forall p, puts sc m l p = puts sc m l' p.
  Proof.
    intros N P p. assert (N' : NoDup (map pk l')) by (eapply Permutation_NoDup; [apply Permutation_map; eauto|auto]).
    destruct (in_pk_dec l p) as [[r [H1 <-]]|H].
    - rewrite !puts_in; auto. eapply Permutation_in; eauto.
    - rewrite !puts_notin; auto. intros r Hr. apply H. eapply Permutation_in; [symmetry|]; eauto.
  Qed.

  Lemma puts_app m a b : puts sc m (a ++ b) = puts sc (puts sc m a) b.
  Proof. apply fold_left_app. Qed.

  Lemma put_ext m m' r : (forall p, m p = m' p) -> forall p, put sc m r p = put sc m' r p.
  Proof. intros E p. unfold put. destruct (beqb p (pk r)); auto. Qed.

  Lemma puts_ext l : forall m m', (forall p, m p = m' p) -> forall p, puts sc m l p = puts sc m' l p.
  Proof.
    induction l as [|r l IH]; intros m m' E p; cbn; auto.
    apply IH. apply put_ext; auto.
  Qed.

  Lemma rep_none db m r : Rep sc db m -> (kv_get db (dk r) = None <-> m (pk r) = None).
  Proof.
    intro R. rewrite (data_key_eq _ LAW), (rep_get _ _ _ R). destruct (m (pk r)) as [o|] eqn:E; split; auto.
    - intro H. destruct (rep_rows _ _ _ R _ _ E) as [_ [_ V]]. contradiction.
    - easy.
  Qed.

  Lemma rep_some db m r o : Rep sc db m -> m (pk r) = Some o -> exists v, t_ser tb o = Some v /\ kv_get db (dk r) = Some v.
  Proof.
    intros R H. destruct (rep_rows _ _ _ R _ _ H) as [_ [_ V]]. cbn in V.
    destruct (t_ser tb o) as [v|] eqn:E; [|easy]. exists v. split; auto.
    rewrite (data_key_eq _ LAW), (rep_get _ _ _ R), H. exact E.
  Qed.

  (** ** Filter growth *)

  Definition flt_le (a b : F) : Prop := forall k, flt_may tb a k = true -> flt_may tb b k = true.

  Lemma flt_le_refl a : flt_le a a.
  Proof. intros k H; exact H. Qed.
  Lemma flt_le_trans a b c : flt_le a b -> flt_le b c -> flt_le a c.
  Proof. intros H1 H2 k H. auto. Qed.

  Lemma flt_add_le (s : wst T F) key : filter_ok tb -> flt_le (w_flt s) (w_flt (flt_add tb key s)).
  Proof.
    intros FO k. unfold flt_may, flt_add. destruct (t_filter tb) as [f|] eqn:E; auto.
    cbn. destruct (FO f E) as [_ H]. apply H.
  Qed.

  Lemma flt_add_has (s : wst T F) key : filter_ok tb -> flt_may tb (w_flt (flt_add tb key s)) key = true.
  Proof.
    intros FO. unfold flt_may, flt_add. destruct (t_filter tb) as [f|] eqn:E; auto.
    cbn. destruct (FO f E) as [H _]. apply H.
  Qed.

  Lemma flt_add_ops (s : wst T F) key : w_ops (flt_add tb key s) = w_ops s.
  Proof. unfold flt_add. destruct (t_filter tb); reflexivity. Qed.
  Lemma flt_add_tick (s : wst T F) key : w_tick (flt_add tb key s) = w_tick s.
  Proof. unfold flt_add. destruct (t_filter tb); reflexivity. Qed.
  Lemma flt_add_old (s : wst T F) key : w_old (flt_add tb key s) = w_old s.
  Proof. unfold flt_add. destruct (t_filter tb); reflexivity. Qed.

  Lemma covers_may fl db r v : covers tb fl db -> kv_get db (dk r) = Some v -> flt_may tb fl (dk r) = true.
  Proof.
    intros C H. unfold flt_may. destruct (t_filter tb) as [f|] eqn:E; auto.
    rewrite (data_key_eq _ LAW) in *. eapply C; eauto.
  Qed.

  Lemma covers_le fl fl' db : flt_le fl fl' -> covers tb fl db -> covers tb fl' db.
  Proof.
    intros L C f rest v Ef Hg. specialize (C f rest v Ef Hg).
    specialize (L (t_id tb :: x00 :: rest)). unfold flt_may in L. rewrite Ef in L. auto.
  Qed.

  (** ** Probing the iterator *)

  Lemma probe snap lo r : kv_ok snap -> ble lo (dk r) ->
    let it := it_seek_ge (new_iter snap lo (data_key_space_end tb)) (dk r) in
    match kv_get snap (dk r) with
    | Some v => it_valid it = true /\ it_key it = dk r /\ it_value it = v
    | None => it_valid it && beqb (it_key it) (dk r) = false
    end.
  Proof. intros K L. apply seek_ge_lookup; auto using dk_hi. Qed.

  Lemma exist_key_eq snap lo fl r : kv_ok snap -> ble lo (dk r) ->
    exist_key tb fl (new_iter snap lo (data_key_space_end tb)) (dk r) =
    flt_may tb fl (dk r) && match kv_get snap (dk r) with Some _ => true | None => false end.
  Proof.
    intros K L. unfold exist_key. pose proof (probe snap lo r K L) as P. cbn zeta in P |- *.
    destruct (kv_get snap (dk r)).
    - destruct P as [P1 [P2 _]]. rewrite P1, P2, beqb_refl. reflexivity.
    - rewrite P. reflexivity.
  Qed.

  (** no cancellation at the next [n] checks *)
  Definition live (s : wst T F) (n : nat) : Prop :=
    forall i, w_tick s <= i < w_tick s + n -> e_ctx ev i = false.

  Definition V (db : kv) (s : wst T F) : kv := apply_ops db (w_ops s).

  Lemma V_add db s os : V db (add_ops s os) = apply_ops (V db s) os.
  Proof. unfold V, add_ops. cbn. apply apply_ops_app. Qed.

  Lemma V_tick db s : V db (tick s) = V db s.
  Proof. reflexivity. Qed.
  Lemma V_old db s o : V db (set_old s o) = V db s.
  Proof. reflexivity. Qed.
  Lemma V_flt db s k : V db (flt_add tb k s) = V db s.
  Proof. unfold V. rewrite flt_add_ops. reflexivity. Qed.

  Lemma V_ok db s : kv_ok db -> kv_ok (V db s).
  Proof. apply apply_ops_ok. Qed.

  Lemma same_outside_refl db : same_outside sc db db.
  Proof. intros k _. reflexivity. Qed.
  Lemma same_outside_trans a b c : same_outside sc a b -> same_outside sc b c -> same_outside sc a c.
  Proof. intros H1 H2 k N. rewrite H2, H1; auto. Qed.

  (** ** Insert *)

  Definition insertable (snap : kv) (r : T) : Prop :=
    kv_get snap (dk r) = None /\ t_ser tb r <> None.

  Lemma insert_rows_fwd snap lo trs db : kv_ok snap -> kv_ok db -> filter_ok tb ->
    forall rs os prev s m,
    Forall2 (fun o r => nth_error trs o = Some r) os rs ->
    Forall (fun r => ble lo (dk r)) rs ->
    StronglySorted blt (map dk rs) ->
    (forall p, prev = Some p -> Forall (fun r => blt p (dk r)) rs) ->
    Forall (insertable snap) rs -> Forall (row_ok sc) rs ->
    live s (length rs) ->
    Rep sc (V db s) m -> (forall r, In r rs -> m (pk r) = None) ->
    exists s', insert_rows tb ev (new_iter snap lo (data_key_space_end tb)) trs prev (combine (map dk rs) os) s = (s', Ok tt)
      /\ Rep sc (V db s') (puts sc m rs) /\ same_outside sc (V db s) (V db s')
      /\ flt_le (w_flt s) (w_flt s') /\ (forall r, In r rs -> flt_may tb (w_flt s') (dk r) = true)
      /\ w_tick s' = w_tick s + length rs.
  Proof.
    intros KS KD FO. induction rs as [|r rs IH]; intros os prev s m F2 LO SS PV INS OK LV R ABS.
    - inversion F2; subst. exists s. cbn [map combine insert_rows length]. split; [reflexivity|]. split; [exact R|].
      split; [apply same_outside_refl|]. split; [apply flt_le_refl|]. split; [intros r []|]. lia.
    - inversion F2 as [|o r' os' rs' Ho F2']; subst. cbn [map combine insert_rows].
      inversion LO as [|? ? LO1 LO2]; subst. inversion INS as [|? ? [I1 I2] INS2]; subst.
      inversion OK as [|? ? OK1 OK2]; subst. cbn [map] in SS. apply StronglySorted_inv in SS as [SS1 SS2].
      assert (EC : e_ctx ev (w_tick s) = false) by (apply LV; cbn; lia).
      rewrite EC.
      assert (EP : match prev with Some p => beqb (dk r) p | None => false end = false).
      { destruct prev as [p|]; auto. specialize (PV p eq_refl). inversion PV; subst.
        apply beqb_neq. intro E. rewrite E in H1. apply (blt_irrefl _ H1). }
      rewrite EP. rewrite exist_key_eq by auto. rewrite I1, andb_false_r. cbn [orb]. rewrite Ho.
      destruct (t_ser tb r) as [v|] eqn:EV'; [|easy].
      set (s1 := flt_add tb (dk r) _).
      assert (V1 : V db s1 = apply_ops (V db s) (insert_ops tb (e_map ev (w_tick s) (t_indexes tb)) r v)).
      { unfold s1. rewrite V_flt, V_add, V_tick. reflexivity. }
      assert (Vk : kv_ok (V db s)) by (apply V_ok; auto).
      destruct (IH os' (Some (dk r)) s1 (put sc m r)) as [s' [E1 [E2 [E3 [E4 [E5 E6]]]]]]; auto.
      + intros p [= <-]. rewrite Forall_forall in SS2 |- *. intros x Hx. apply SS2. apply in_map; auto.
      + intros i Hi. apply LV. unfold s1 in Hi. rewrite flt_add_tick in Hi. cbn in Hi |- *. lia.
      + rewrite V1. apply insert_ops_rep; auto.
        * apply (env_map_perm _ EV).
        * apply ABS; left; auto.
      + intros x Hx. rewrite put_other. { apply ABS; right; auto. }
        intro E. apply dk_inj in E. rewrite Forall_forall in SS2. specialize (SS2 (dk x) (in_map _ _ _ Hx)).
        rewrite E in SS2. apply (blt_irrefl _ SS2).
      + exists s'. split; [exact E1|]. split; [exact E2|]. split; [|split; [|split]].
        * eapply same_outside_trans; [|exact E3]. rewrite V1. apply insert_ops_outside; auto.
          apply (env_map_perm _ EV).
        * eapply flt_le_trans; [|exact E4]. unfold s1. apply (flt_add_le (add_ops (tick s) _)); auto.
        * intros x [<-|Hx]; auto. apply E4. unfold s1. apply flt_add_has; auto.
        * rewrite E6. unfold s1. rewrite flt_add_tick. cbn. lia.
  Qed.

  Lemma insert_rows_inv snap lo trs : kv_ok snap -> filter_ok tb ->
    forall rs os prev s s',
    Forall2 (fun o r => nth_error trs o = Some r) os rs ->
    Forall (fun r => ble lo (dk r)) rs ->
    StronglySorted ble (map dk rs) ->
    (forall p, prev = Some p -> Forall (fun r => ble p (dk r)) rs) ->
    covers tb (w_flt s) snap ->
    insert_rows tb ev (new_iter snap lo (data_key_space_end tb)) trs prev (combine (map dk rs) os) s = (s', Ok tt) ->
    StronglySorted blt (map dk rs) /\ (forall p, prev = Some p -> Forall (fun r => blt p (dk r)) rs) /\
    Forall (insertable snap) rs /\ live s (length rs).
  Proof.
    intros KS FO. induction rs as [|r rs IH]; intros os prev s s' F2 LO SS PV CV RUN.
    - cbn. repeat split; auto; try constructor. intros i Hi. cbn in Hi. lia.
    - inversion F2 as [|o r' os' rs' Ho F2']; subst. cbn [map combine insert_rows] in RUN.
      inversion LO as [|? ? LO1 LO2]; subst. cbn [map] in SS. apply StronglySorted_inv in SS as [SS1 SS2].
      destruct (e_ctx ev (w_tick s)) eqn:EC; [easy|].
      destruct (match prev with Some p => beqb (dk r) p | None => false end) eqn:EP; [easy|].
      rewrite exist_key_eq in RUN by auto. cbn [orb] in RUN.
      destruct (kv_get snap (dk r)) as [v|] eqn:G.
      { change (w_flt (tick s)) with (w_flt s) in RUN. rewrite (covers_may _ _ _ _ CV G) in RUN. easy. }
      rewrite andb_false_r in RUN. rewrite Ho in RUN.
      destruct (t_ser tb r) as [v|] eqn:EV'; [|easy].
      set (s1 := flt_add tb (dk r) _) in RUN.
      assert (T1 : w_tick s1 = S (w_tick s)) by (unfold s1; rewrite flt_add_tick; reflexivity).
      apply IH in RUN; auto.
      2: { intros p [= <-]. rewrite Forall_forall in SS2 |- *. intros x Hx. apply SS2. apply in_map; auto. }
      2: { eapply covers_le; [|exact CV]. unfold s1. apply (flt_add_le (add_ops (tick s) _)); auto. }
      destruct RUN as [R1 [R2 [R3 R4]]]. specialize (R2 _ eq_refl).
      assert (R2' : Forall (blt (dk r)) (map dk rs)).
      { rewrite Forall_forall in R2 |- *. intros x Hx. apply in_map_iff in Hx as [y [<- Hy]]. auto. }
      repeat split.
      + cbn [map]. constructor; auto.
      + intros p ->. specialize (PV p eq_refl). inversion PV; subst. constructor.
        * apply ble_lteq in H1 as [H1|H1]; auto. subst. rewrite beqb_refl in EP. easy.
        * rewrite Forall_forall in R2 |- *. intros x Hx. eapply ble_lt_trans; [|apply R2; auto]. auto.
      + constructor; auto. split; auto. congruence.
      + intros i Hi. cbn in Hi. destruct (Nat.eq_dec i (w_tick s)) as [->|]; auto.
        apply R4. lia.
  Qed.

  (** The rows can only fail with an error; no panic, no divergence. *)
  Definition err_only {A} (r : res A) : Prop := (exists a, r = Ok a) \/ exists e, r = Err e.

  Lemma insert_rows_err it trs : forall rs os prev s,
    Forall2 (fun o r => nth_error trs o = Some r) os rs ->
    err_only (snd (insert_rows tb ev it trs prev (combine (map dk rs) os) s)).
  Proof.
    induction rs as [|r rs IH]; intros os prev s F2.
    - cbn. left; eauto.
    - inversion F2 as [|o r' os' rs' Ho F2']; subst. cbn [map combine insert_rows].
      destruct (e_ctx ev (w_tick s)); [right; eexists; reflexivity|].
      destruct (_ || _); [right; eexists; reflexivity|].
      rewrite Ho. destruct (t_ser tb r); [|right; eexists; reflexivity].
      apply IH; auto.
  Qed.

  Lemma sorted_nodup_strict l : StronglySorted ble l -> NoDup l -> StronglySorted blt l.
  Proof.
    induction l as [|x l IH]; intros S N; constructor.
    - apply IH; [apply StronglySorted_inv in S; tauto|inversion N; auto].
    - apply StronglySorted_inv in S as [S1 S2]. inversion N; subst.
      rewrite Forall_forall in S2 |- *. intros y Hy. specialize (S2 y Hy).
      apply ble_lteq in S2 as [S2|S2]; auto. subst. contradiction.
  Qed.

  Lemma strict_nodup l : StronglySorted blt l -> NoDup l.
  Proof.
    induction l as [|x l IH]; intros S; constructor.
    - apply StronglySorted_inv in S as [S1 S2]. intro H. rewrite Forall_forall in S2.
      apply (blt_irrefl x). auto.
    - apply StronglySorted_inv in S as [S1 S2]. auto.
  Qed.

  Lemma nodup_dk l : NoDup (map dk l) <-> NoDup (map pk l).
  Proof.
    induction l as [|x l IH]; [split; constructor|].
    change (NoDup (dk x :: map dk l) <-> NoDup (pk x :: map pk l)).
    rewrite !NoDup_cons_iff, IH.
    assert (E : In (dk x) (map dk l) <-> In (pk x) (map pk l)).
    { rewrite !in_map_iff. split; intros [y [Ey Hy]]; exists y; split; auto; apply dk_inj; auto. }
    rewrite E. reflexivity.
  Qed.

  Lemma hd_le (rs : list T) : StronglySorted ble (map dk rs) -> Forall (fun r => ble (hd [] (map dk rs)) (dk r)) rs.
  Proof.
    destruct rs as [|x rs]; intro S; constructor.
    - apply ble_refl.
    - cbn [map hd] in *. apply StronglySorted_inv in S as [_ S]. rewrite Forall_forall in S |- *.
      intros y Hy. apply S. apply in_map; auto.
  Qed.

  Lemma live_le s n m : n <= m -> live s m -> live s n.
  Proof. intros H L i Hi. apply L. lia. Qed.

  Lemma snapshot_ok db rw (s : wst T F) : kv_ok db -> kv_ok (chunk_snapshot db rw (w_ops s)).
  Proof. intro K. unfold chunk_snapshot. destruct rw; auto. apply apply_ops_ok; auto. Qed.

  (** unfolding of one chunk *)
  Lemma insert_chunk_unfold db rw c s : c <> [] -> exists order rs,
    Permutation rs c /\ StronglySorted ble (map dk rs)  /\    Forall2 (fun o r => nth_error c o = Some r) order rs  /\
    insert_chunk tb ev db rw c s =
      insert_rows tb ev (new_iter (chunk_snapshot db rw (w_ops s)) (hd [] (map dk rs)) (data_key_space_end tb))
        c None (combine (map dk rs) order) s.
  Proof.
    intro NE. destruct (sort_keys_rows c) as [keys [order [rs [E1 [E2 [E3 [E4 E5]]]]]]].
    exists order, rs. repeat split; auto. unfold insert_chunk. rewrite E1. subst keys.
    destruct (map dk rs) as [|k ks] eqn:E; auto.
    exfalso. apply NE. destruct rs; [|easy]. apply Permutation_nil; auto.
  Qed.

  Lemma Forall_perm {A} (P : A -> Prop) l l' : Permutation l l' -> Forall P l -> Forall P l'.
  Proof. intros Hp. rewrite !Forall_forall. intros H x Hx. apply H. eapply Permutation_in; [symmetry|]; eauto. Qed.

  Lemma insert_chunk_fwd db rw c s m : kv_ok db -> filter_ok tb -> c <> [] ->
    NoDup (map pk c) -> Forall (row_ok sc) c -> (forall r, In r c -> t_ser tb r <> None) ->
    live s (length c) -> Rep sc (V db s) m -> (forall r, In r c -> m (pk r) = None) ->
    (rw = true \/ forall r, In r c -> kv_get db (dk r) = None) ->
    exists s', insert_chunk tb ev db rw c s = (s', Ok tt)
      /\ Rep sc (V db s') (puts sc m c) /\ same_outside sc (V db s) (V db s')
      /\ flt_le (w_flt s) (w_flt s') /\ (forall r, In r c -> flt_may tb (w_flt s') (dk r) = true)
      /\ w_tick s' = w_tick s + length c.
  Proof.
    intros K FO NE ND OK SER LV R ABS AG.
    destruct (insert_chunk_unfold db rw c s NE) as [order [rs [P [S [F2 E]]]]]. rewrite E.
    assert (NDr : NoDup (map pk rs)) by (eapply Permutation_NoDup; [apply Permutation_map; symmetry; eauto|auto]).
    assert (INr : forall r, In r rs -> In r c) by (intros; eapply Permutation_in; eauto).
    assert (LEN : length rs = length c) by (apply Permutation_length; auto).
    destruct (insert_rows_fwd (chunk_snapshot db rw (w_ops s)) (hd [] (map dk rs)) c db (snapshot_ok db rw s K) K FO
                rs order None s m) as [s' [E1 [E2 [E3 [E4 [E5 E6]]]]]]; auto.
    - apply hd_le; auto.
    - apply sorted_nodup_strict; auto. apply nodup_dk; auto.
    - easy.
    - rewrite Forall_forall. intros r Hr. split; auto. unfold chunk_snapshot.
      destruct rw; [apply (rep_none _ _ _ R); auto|]. destruct AG as [|AG]; [easy|auto].
    - eapply Forall_perm; [symmetry; eauto|auto].
    - rewrite LEN. auto.
    - exists s'. split; [exact E1|]. split.
      { eapply (Rep_ext tb); [exact E2|]. intro p. apply puts_perm; auto. }
      split; [exact E3|]. split; [exact E4|]. split; [|lia].
      intros r Hr. apply E5. eapply Permutation_in; [symmetry|]; eauto.
  Qed.

  Lemma insert_chunk_inv db rw c s s' : kv_ok db -> filter_ok tb -> c <> [] ->
    covers tb (w_flt s) (chunk_snapshot db rw (w_ops s)) ->
    insert_chunk tb ev db rw c s = (s', Ok tt) ->
    NoDup (map pk c) /\ (forall r, In r c -> insertable (chunk_snapshot db rw (w_ops s)) r) /\ live s (length c).
  Proof.
    intros K FO NE CV RUN.
    destruct (insert_chunk_unfold db rw c s NE) as [order [rs [P [S [F2 E]]]]]. rewrite E in RUN.
    apply insert_rows_inv in RUN; auto using snapshot_ok, hd_le; [|easy].
    destruct RUN as [R1 [_ [R2 R3]]]. repeat split.
    - eapply Permutation_NoDup; [apply Permutation_map; eauto|]. apply nodup_dk. apply strict_nodup; auto.
    - rewrite Forall_forall in R2. apply R2. eapply Permutation_in; [symmetry|]; eauto.
    - rewrite Forall_forall in R2. apply R2. eapply Permutation_in; [symmetry|]; eauto.
    - rewrite <- (Permutation_length P). exact R3.
  Qed.

  Lemma insert_chunk_err db rw c s : c <> [] -> err_only (snd (insert_chunk tb ev db rw c s)).
  Proof.
    intro NE. destruct (insert_chunk_unfold db rw c s NE) as [order [rs [P [S [F2 E]]]]]. rewrite E.
    apply insert_rows_err; auto.
  Qed.

  Lemma run_chunks_err {A} (f : list A -> wst T F -> wst T F * res unit) cs :
    (forall c s, In c cs -> err_only (snd (f c s))) -> forall s, err_only (snd (run_chunks f cs s)).
  Proof.
    induction cs as [|c cs IH]; intros H s; cbn; [left; eauto|].
    pose proof (H c s (or_introl eq_refl)) as Hc. destruct (f c s) as [s' r]. cbn in Hc.
    destruct Hc as [[a ->]|[e ->]]; cbn; [|right; eauto]. apply IH. intros; apply H; right; auto.
  Qed.

  Lemma puts_snapshot_keep m c db s s' r : Rep sc (V db s) m -> Rep sc (V db s') (puts sc m c) ->
    (forall x, In x c -> pk x <> pk r) -> kv_get (V db s') (dk r) = kv_get (V db s) (dk r).
  Proof.
    intros R R' N. rewrite (data_key_eq _ LAW), (rep_get _ _ _ R), (rep_get _ _ _ R').
    rewrite puts_notin; auto.
  Qed.

  Lemma concat_nonempty_in {A} (c : list A) cs x : In x c -> In x (concat (c :: cs)).
  Proof. intro H. cbn. apply in_or_app. left; auto. Qed.

  Lemma insert_run_fwd db rw : kv_ok db -> filter_ok tb -> forall cs s m,
    Forall (fun c => c <> []) cs ->
    NoDup (map pk (concat cs)) -> Forall (row_ok sc) (concat cs) ->
    (forall r, In r (concat cs) -> t_ser tb r <> None) ->
    live s (length (concat cs)) -> Rep sc (V db s) m -> (forall r, In r (concat cs) -> m (pk r) = None) ->
    (rw = true \/ forall r, In r (concat cs) -> kv_get db (dk r) = None) ->
    exists s', run_chunks (insert_chunk tb ev db rw) cs s = (s', Ok tt)
      /\ Rep sc (V db s') (puts sc m (concat cs)) /\ same_outside sc (V db s) (V db s')
      /\ flt_le (w_flt s) (w_flt s') /\ (forall r, In r (concat cs) -> flt_may tb (w_flt s') (dk r) = true).
  Proof.
    intros K FO. induction cs as [|c cs IH]; intros s m NE ND OK SER LV R ABS AG.
    - exists s. cbn. split; [auto|]. split; [exact R|]. split; [apply same_outside_refl|].
      split; [apply flt_le_refl|]. intros; contradiction.
    - inversion NE as [|? ? NE1 NE2]; subst. cbn [concat] in *.
      apply nodup_map_app in ND as [ND1 [ND2 DIS]].
      rewrite app_length in LV. apply Forall_app in OK as [OK1 OK2].
      destruct (insert_chunk_fwd db rw c s m) as [s1 [E1 [E2 [E3 [E4 [E5 E6]]]]]]; auto.
      { intros; apply SER; apply in_or_app; auto. }
      { eapply live_le; [|exact LV]. lia. }
      { intros; apply ABS; apply in_or_app; auto. }
      { destruct AG as [|AG]; [left; auto|right]. intros; apply AG; apply in_or_app; auto. }
      destruct (IH s1 (puts sc m c)) as [s' [G1 [G2 [G3 [G4 G5]]]]]; auto.
      { intros; apply SER; apply in_or_app; auto. }
      { intros i Hi. apply LV. lia. }
      { intros r Hr. rewrite puts_notin. { apply ABS; apply in_or_app; auto. } intros x Hx. apply DIS; auto. }
      { destruct AG as [|AG]; [left; auto|right]. intros; apply AG; apply in_or_app; auto. }
      exists s'. cbn [run_chunks]. rewrite E1. split; [exact G1|]. split; [rewrite puts_app; exact G2|].
      split; [eapply same_outside_trans; eauto|]. split; [eapply flt_le_trans; eauto|].
      intros r Hr. apply in_app_or in Hr as [Hr|Hr]; auto.
  Qed.

  Lemma covers_puts db s s' m l : Rep sc (V db s) m -> Rep sc (V db s') (puts sc m l) ->
    flt_le (w_flt s) (w_flt s') -> (forall r, In r l -> flt_may tb (w_flt s') (dk r) = true) ->
    covers tb (w_flt s) (V db s) -> covers tb (w_flt s') (V db s').
  Proof.
    intros R R' LE M C f rest v Ef Hg.
    destruct (rep_data _ _ _ R' rest v Hg) as [p Ep]. cbn [s_id schema_of] in Ep.
    rewrite Ep in *. rewrite (rep_get _ _ _ R') in Hg.
    destruct (in_pk_dec l p) as [[r [Hr <-]]|N].
    - specialize (M r Hr). rewrite (data_key_eq _ LAW) in M. unfold flt_may in M. rewrite Ef in M. exact M.
    - rewrite puts_notin in Hg by auto. specialize (LE (row_key sc p)). unfold flt_may in LE. rewrite Ef in LE.
      apply LE. rewrite <- (rep_get _ _ _ R) in Hg. eapply C; eauto.
  Qed.

  Lemma insert_run_inv db rw : kv_ok db -> filter_ok tb -> forall cs s m s',
    Forall (fun c => c <> []) cs -> Forall (row_ok sc) (concat cs) ->
    Rep sc (V db s) m -> 
    (rw = true /\ covers tb (w_flt s) (V db s)) \/
    (rw = false /\ covers tb (w_flt s) db /\ NoDup (map pk (concat cs)) /\
       forall r, In r (concat cs) -> kv_get db (dk r) = kv_get (V db s) (dk r)) ->
    run_chunks (insert_chunk tb ev db rw) cs s = (s', Ok tt) ->
    NoDup (map pk (concat cs)) /\ (forall r, In r (concat cs) -> m (pk r) = None /\ t_ser tb r <> None) /\
    live s (length (concat cs)).
  Proof.
    intros K FO. induction cs as [|c cs IH]; intros s m s' NE OK R CASES RUN.
    - cbn. repeat split; try constructor; try (intros; contradiction). intros i Hi; lia.
    - inversion NE as [|? ? NE1 NE2]; subst. cbn [run_chunks] in RUN. cbn [concat] in *.
      apply Forall_app in OK as [OK1 OK2].
      destruct (insert_chunk tb ev db rw c s) as [s1 r1] eqn:E1. destruct r1 as [[]| | |]; try easy.
      assert (I : NoDup (map pk c) /\ (forall r, In r c -> insertable (chunk_snapshot db rw (w_ops s)) r) /\ live s (length c)).
      { apply (insert_chunk_inv db rw c s s1); auto. destruct CASES as [[-> C]|[-> [C _]]]; exact C. }
      destruct I as [I1 [I2 I3]].
      assert (ABS : forall r, In r c -> m (pk r) = None).
      { intros r Hr. destruct (I2 r Hr) as [G _]. apply (rep_none _ _ _ R).
        destruct CASES as [[-> C]|[-> [_ [_ A]]]]; [exact G|]. rewrite <- A by (apply in_or_app; auto). exact G. }
      destruct (insert_chunk_fwd db rw c s m) as [s1' [F1 [F2 [F3 [F4 [F5 F6]]]]]]; auto.
      { intros r Hr. apply (I2 r Hr). }
      { destruct CASES as [[-> _]|[-> _]]; [left; auto|right]. intros r Hr. apply (I2 r Hr). }
      rewrite F1 in E1. injection E1 as ->.
      assert (CASES' : (rw = true /\ covers tb (w_flt s1) (V db s1)) \/
         (rw = false /\ covers tb (w_flt s1) db /\ NoDup (map pk (concat cs)) /\
            forall r, In r (concat cs) -> kv_get db (dk r) = kv_get (V db s1) (dk r))).
      { destruct CASES as [[-> C]|[-> [C [ND A]]]].
        - left. split; auto. exact (covers_puts db s s1 m c R F2 F4 F5 C).
        - right. split; auto. apply nodup_map_app in ND as [ND1 [ND2 DIS]]. split; [eapply covers_le; eauto|].
          split; [auto|]. intros r Hr.
          rewrite (puts_snapshot_keep m c db s s1 r R F2).
          + apply A. apply in_or_app; auto.
          + intros x Hx. apply DIS; auto. }
      destruct (IH s1 (puts sc m c) s' NE2 OK2 F2 CASES' RUN) as [J1 [J2 J3]].
      assert (DIS : forall x r, In x c -> In r (concat cs) -> pk x <> pk r).
      { intros x r Hx Hr Epk. destruct (J2 r Hr) as [J _]. rewrite <- Epk, puts_in in J; auto. easy. }
      split; [apply nodup_map_app; auto|]. split.
      + intros r Hr. apply in_app_or in Hr as [Hr|Hr].
        * split; [auto|]. apply (I2 r Hr).
        * destruct (J2 r Hr) as [J J']. split; auto. rewrite puts_notin in J; auto.
      + intros i Hi. rewrite app_length in Hi.
        destruct (Nat.lt_ge_cases i (w_tick s + length c)) as [L|L].
        * apply I3. lia.
        * apply J3. lia.
  Qed.
End Loops.
Arguments flt_le {T F} tb a b.
Arguments in_pk_dec {T F} tb l p.
Arguments live {T F} ev s n.
Arguments insertable {T F} tb snap r.

