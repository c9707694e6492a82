(** Histories in which Delete is given any record. *)

From Coq Require Import List NArith Lia Bool Sorting.Sorted Sorting.Permutation Arith.
From Verif.Model Require Import Bytes Go Keys Pebble Index Table.
From Verif.Spec Require Import KeySpec TableSpec HistSpec.
From Verif.Proofs Require Import BytesFacts KeysFacts PebbleFacts TableFacts WriteFacts UpdateFacts UpsertFacts CallFacts LocalFacts HistFacts.
Import ListNotations.

(** ** Deletions only *)

Definition is_del (o : bop) : Prop := exists k, o = BDel k.

Lemma dels_effect ops k : Forall is_del ops ->
  In (BDel k) ops /\ ops_effect ops k = Some None \/ ~ In (BDel k) ops /\ ops_effect ops k = None.
Proof.
  induction 1 as [|o ops [j ->] H IH]; [right; split; auto|]. cbn [ops_effect].
  destruct IH as [[I ->]|[I ->]]; [left; split; [right; exact I|reflexivity]|].
  cbn [op_touches op_result]. destruct (beqb k j) eqn:B.
  - apply beqb_eq in B as ->. left. split; [now left|reflexivity].
  - right. split; [|reflexivity]. intros [[= ->]|X]; [|auto]. rewrite beqb_refl in B. discriminate.
Qed.

Section Any.
  Context {T F : Type} (tb : table T F) (G : good_table tb).
  Notation sc := (schema_of tb).
  Notation dk := (data_key tb).
  Notation pk := (s_pk (schema_of tb)).

  Let LAW : lawful tb := good_lawful _ G.

  Definition gone (l : list T) (k : bytes) : Prop :=
    exists r, In r l /\ (k = row_key sc (pk r) \/
      exists ix, In ix (s_indexes sc) /\ si_filter ix r = true /\ k = entry_key sc ix r).

  Lemma delete_ops_in (ev : env T) (EV : env_ok ev) n r k :
    In (BDel k) (BDel (dk r) :: flat_map (fun idx => on_delete (t_id tb) (t_pk tb) idx r) (e_map ev n (t_indexes tb)))
    <-> gone [r] k.
  Proof.
    split.
    - intros [E|X].
      + injection E as <-. exists r. split; [now left|]. left. apply (data_key_eq tb LAW).
      + apply in_flat_map in X as [ix [I X]]. pose proof (Permutation_in _ (env_map_perm _ EV n (t_indexes tb)) I) as J.
        unfold on_delete in X. destruct (ix_filter ix r) eqn:E; [|easy]. destruct X as [X|[]]. injection X as <-.
        exists r. split; [now left|]. right. exists (sindex_of ix). split; [apply in_sc_index; auto|]. split; [exact E|].
        apply (encode_index_key_eq tb LAW ix r J).
    - intros [r' [[<-|[]] [->|[ix [I [E ->]]]]]].
      + left. f_equal. apply (data_key_eq tb LAW).
      + right. apply sc_index_inv in I as [j [J ->]]. apply in_flat_map. exists j. split.
        * eapply Permutation_in; [apply Permutation_sym, (env_map_perm _ EV)|exact J].
        * unfold on_delete. cbn [sindex_of si_filter] in E. rewrite E. left. f_equal. apply (encode_index_key_eq tb LAW j r J).
  Qed.

  Lemma on_delete_dels (ev : env T) n r :
    Forall is_del (BDel (dk r) :: flat_map (fun idx => on_delete (t_id tb) (t_pk tb) idx r) (e_map ev n (t_indexes tb))).
  Proof.
    constructor; [eexists; reflexivity|]. apply Forall_forall. intros o I. apply in_flat_map in I as [ix [_ I]].
    unfold on_delete in I. destruct (ix_filter ix r); [|easy]. destruct I as [<-|[]]. eexists; reflexivity.
  Qed.

  Lemma gone_cons r l k : gone (r :: l) k <-> gone [r] k \/ gone l k.
  Proof.
    unfold gone. split.
    - intros [x [[<-|I] H]]; [left; exists r|right; exists x]; (split; [|exact H]); [now left|exact I].
    - intros [[x [[<-|[]] H]]|[x [I H]]]; [exists r|exists x]; (split; [|exact H]); [now left|now right].
  Qed.

  (** two Deletes of as many records go the same way *)
  Lemma delete_rows_twice (ev : env T) (EV : env_ok ev) : forall l l' (s s' : wst T F), length l = length l' ->
    w_tick s = w_tick s' -> w_flt s = w_flt s' ->
    exists os os' s1 s1' res, delete_rows tb ev l s = (s1, res) /\ delete_rows tb ev l' s' = (s1', res) /\
      w_flt s1 = w_flt s /\ w_flt s1' = w_flt s /\ w_ops s1 = w_ops s ++ os /\ w_ops s1' = w_ops s' ++ os' /\
      Forall is_del os /\ Forall is_del os' /\
      (res = Ok tt -> (forall k, In (BDel k) os <-> gone l k) /\ (forall k, In (BDel k) os' <-> gone l' k)) /\
      (os = [] <-> os' = []).
  Proof.
    induction l as [|r l IH]; intros [|r' l'] s s' L ET EF; try discriminate L; cbn [delete_rows].
    - exists [], [], s, s', (Ok tt). rewrite !app_nil_r. do 8 (split; [now auto|]).
      split; [|tauto]. intros _. split; intro k; (split; [intros []|intros [x [[] _]]]).
    - rewrite <- ET. destruct (e_ctx ev (w_tick s)) eqn:E.
      + exists [], [], (tick s), (tick s'), (Err ECtx). rewrite !app_nil_r.
        do 8 (split; [now auto|]). split; [discriminate|tauto].
      + injection L as L.
        destruct (IH l' (add_ops (tick s) (BDel (dk r) :: flat_map (fun idx => on_delete (t_id tb) (t_pk tb) idx r) (e_map ev (w_tick s) (t_indexes tb))))
                        (add_ops (tick s') (BDel (dk r') :: flat_map (fun idx => on_delete (t_id tb) (t_pk tb) idx r') (e_map ev (w_tick s) (t_indexes tb)))) L)
          as (os & os' & s1 & s1' & res & E1 & E2 & F1 & F2 & O1 & O2 & D1 & D2 & GO & NN).
        { cbn. now rewrite ET. }
        { exact EF. }
        pose proof (on_delete_dels ev (w_tick s) r) as A. pose proof (on_delete_dels ev (w_tick s) r') as A'.
        pose proof (delete_ops_in ev EV (w_tick s) r) as B. pose proof (delete_ops_in ev EV (w_tick s) r') as B'.
        set (X := BDel (dk r) :: _) in *. set (X' := BDel (dk r') :: _) in *.
        exists (X ++ os), (X' ++ os'), s1, s1', res. split; [exact E1|]. split; [exact E2|]. split; [exact F1|]. split; [exact F2|].
        split; [rewrite O1; symmetry; apply app_assoc|]. split; [rewrite O2; symmetry; apply app_assoc|].
        split; [apply Forall_app; auto|]. split; [apply Forall_app; auto|]. split.
        * intro R. destruct (GO R) as [G1 G2]. split; intro k; rewrite in_app_iff, gone_cons; [rewrite B, G1|rewrite B', G2]; tauto.
        * subst X X'. split; discriminate.
  Qed.
  
  (** ** A database over the one that a careful user would have *)

  Definition left_by (Q : list T -> Prop) (k : bytes) : Prop :=
    exists ix r l d, In ix (s_indexes sc) /\ si_filter ix r = true /\ k = entry_key sc ix r /\
      Q l /\ In d l /\ pk d = pk r /\ ~ (si_filter ix d = true /\ entry_key sc ix d = entry_key sc ix r).

  Definition over (Q : list T -> Prop) (db db0 : kv) : Prop :=
    forall k, kv_get db k = kv_get db0 k \/ kv_get db0 k = None /\ kv_get db k = Some [] /\ left_by Q k.

  Lemma left_index Q k : left_by Q k -> exists ix rest, In ix (s_indexes sc) /\ k = t_id tb :: si_id ix :: rest.
  Proof. intros (ix & r & l & d & I & _ & -> & _). eexists ix, _. split; [exact I|reflexivity]. Qed.

  Lemma over_row Q db db0 rest : over Q db db0 -> kv_get db (t_id tb :: x00 :: rest) = kv_get db0 (t_id tb :: x00 :: rest).
  Proof.
    intro O. destruct (O (t_id tb :: x00 :: rest)) as [E|[_ [_ L]]]; [exact E|].
    apply left_index in L as [ix [rest' [I [= Z _]]]]. exfalso. apply (sc_nonzero tb LAW ix I). auto.
  Qed.

  Lemma over_outside Q db db0 k : over Q db db0 -> ~ in_table sc k -> kv_get db k = kv_get db0 k.
  Proof.
    intros O N. destruct (O k) as [E|[_ [_ L]]]; [exact E|]. apply left_index in L as [ix [rest' [I ->]]].
    exfalso. apply N. eexists _, _. split; [reflexivity|]. right. exists ix. auto.
  Qed.

  Lemma over_ops Q db db0 ops : kv_ok db -> kv_ok db0 -> over Q db db0 -> over Q (apply_ops db ops) (apply_ops db0 ops).
  Proof.
    intros K K0 O k. rewrite !kv_get_apply_ops by auto. destruct (ops_effect ops k) as [v|]; [left; reflexivity|apply O].
  Qed.

  Definition swap (m : tmap T) (r : T) : T := match m (pk r) with Some o => o | None => r end.

  Lemma swap_pk db m r : Rep sc db m -> pk (swap m r) = pk r.
  Proof. intro R. unfold swap. destruct (m (pk r)) as [o|] eqn:E; [|reflexivity]. apply (rep_rows _ _ _ R) in E. tauto. Qed.

  Lemma removes_swap db m0 l : Rep sc db m0 -> forall m, removes sc m (map (swap m0) l) = removes sc m l.
  Proof.
    intro R. induction l as [|r l IH]; intro m; [reflexivity|].
    change (removes sc (remove sc m (swap m0 r)) (map (swap m0) l) = removes sc (remove sc m r) l). rewrite IH.
    f_equal. unfold remove. rewrite (swap_pk db m0 r R). reflexivity.
  Qed.

  Lemma removes_out l : forall m p r, removes sc m l p = Some r -> ~ In p (map pk l).
  Proof.
    induction l as [|x l IH]; intros m p r H; [easy|]. change (removes sc (remove sc m x) l p = Some r) in H.
    intros [E|I]; [|eapply IH; eauto]. apply removes_le in H. unfold remove in H. rewrite E, beqb_refl in H. discriminate.
  Qed.

  Lemma over_step ev (EV : env_ok ev) (Q : list T -> Prop) c db db0 fl m w res :
    kv_ok db -> consistent tb db0 fl m -> over Q db db0 -> tame sc c ->
    run_call tb ev db fl None c = (w, res) -> (forall l, c = CDelete l -> res = Ok tt -> Q l) ->
    exists db0', kv_ok (r_db w) /\ consistent tb db0' (r_flt w) (if ok_of res then effect sc m c else m) /\
      over Q (r_db w) db0' /\ same_outside sc db (r_db w).
  Proof.
    intros K C O TM RUN HQ. pose proof C as [K0 R0 C0].
    assert (OUT : forall x y, same_outside sc db0 y -> over Q x y -> same_outside sc db x).
    { intros x y S O' k N. rewrite (over_outside Q x y k O' N), (over_outside Q db db0 k O N). apply S; exact N. }
    assert (NOTDEL : (forall l, c <> CDelete l) -> exists db0', kv_ok (r_db w) /\
      consistent tb db0' (r_flt w) (if ok_of res then effect sc m c else m) /\ over Q (r_db w) db0' /\ same_outside sc db (r_db w)).
    { intro ND. assert (AD : admissible sc m c) by (destruct c; try exact TM; exfalso; eapply ND; reflexivity).
      destruct (call_step tb G ev c db0 fl m EV C AD) as [w0 [res0 [X1 [_ [X2 [X3 _]]]]]].
      rewrite run_call_eq in RUN, X1. unfold run_write in RUN, X1.
      rewrite (body_local (LAW:=LAW) (EV:=EV) c db db0 false _ K K0) in RUN.
      2: { intros r _. rewrite (data_key_eq tb LAW). apply (over_row Q _ _ _ O). }
      destruct (body (tb:=tb) (ev:=ev) c db0 false (WSt [] fl (t_nil tb) 0)) as [s r]. destruct r as [[]|e| |].
      - destruct (w_ops s) as [|o ops].
        + injection RUN as <- <-. injection X1 as <- <-. exists db0. repeat (split; [solve [auto]|]). intros ? ?; reflexivity.
        + destruct (e_commit ev); injection RUN as <- <-; injection X1 as <- <-.
          * exists (apply_ops db0 (o :: ops)). cbn [r_db] in *. split; [exact (apply_ops_ok (o :: _) db K)|]. split; [exact X3|].
            assert (O' := over_ops Q db db0 (o :: ops) K K0 O). split; [exact O'|]. exact (OUT _ _ X2 O').
          * exists db0. repeat (split; [solve [auto]|]). intros ? ?; reflexivity.
      - injection RUN as <- <-. injection X1 as <- <-. exists db0. repeat (split; [solve [auto]|]). intros ? ?; reflexivity.
      - injection RUN as <- <-. injection X1 as <- <-. exists db0. repeat (split; [solve [auto]|]). intros ? ?; reflexivity.
      - injection RUN as <- <-. injection X1 as <- <-. exists db0. repeat (split; [solve [auto]|]). intros ? ?; reflexivity. }
    destruct c as [l|l|f l|l]; try (apply NOTDEL; discriminate). clear NOTDEL.
    set (l' := map (swap m) l).
    assert (AD : admissible sc m (CDelete l')).
    { split.
      - cbn [rows_of]. apply Forall_forall. intros r I. apply in_map_iff in I as [x [<- I]]. unfold swap.
        destruct (m (pk x)) as [o|] eqn:E; [apply (rep_rows _ _ _ R0) in E; tauto|].
        cbn [tame] in TM. rewrite Forall_forall in TM. auto.
      - intros r o I E. apply in_map_iff in I as [x [<- I]]. unfold swap in *.
        destruct (m (pk x)) as [o'|] eqn:E'.
        + pose proof (rep_rows _ _ _ R0 _ _ E') as [P _]. rewrite P, E' in E. injection E as <-. intros ix _ FX. auto.
        + rewrite E' in E. discriminate. }
    destruct (call_step tb G ev (CDelete l') db0 fl m EV C AD) as [w0 [res0 [X1 [_ [X2 [X3 _]]]]]].
    cbn [run_call] in RUN, X1. unfold delete, run_write in RUN, X1.
    destruct (delete_rows_twice ev EV l l' (WSt [] fl (t_nil tb) 0) (WSt [] fl (t_nil tb) 0))
      as (os & os' & s1 & s1' & r1 & E1 & E2 & F1 & F2 & O1 & O2 & D1 & D2 & GO & NN); [unfold l'; now rewrite map_length|reflexivity|reflexivity|].
    rewrite E1 in RUN. rewrite E2 in X1. cbn [w_ops app w_flt] in F1, F2, O1, O2. rewrite F1 in RUN. rewrite F2 in X1. rewrite O1 in RUN. rewrite O2 in X1.
    destruct r1 as [[]|e| |];
      try (injection RUN as <- <-; injection X1 as <- <-; exists db0; repeat (split; [solve [auto]|]); intros ? ?; reflexivity).
    destruct (GO eq_refl) as [G1 G2]. clear GO.
    destruct os as [|o os].
    { rewrite (proj1 NN eq_refl) in X1. injection RUN as <- <-; injection X1 as <- <-. exists db0. cbn [ok_of effect] in X3 |- *.
      unfold l' in X3. rewrite (removes_swap db0 m l R0) in X3. repeat (split; [solve [auto]|]). intros ? ?; reflexivity. }
    destruct os' as [|o' os']; [discriminate (proj2 NN eq_refl)|].
    destruct (e_commit ev); injection RUN as <- <-; injection X1 as <- <-;
      [|exists db0; repeat (split; [solve [auto]|]); intros ? ?; reflexivity].
    exists (apply_ops db0 (o' :: os')). cbn [r_db r_flt ok_of effect] in X2, X3 |- *.
    unfold l' in X3. rewrite (removes_swap db0 m l R0) in X3.
    split; [exact (apply_ops_ok (o :: _) db K)|]. split; [exact X3|].
    assert (QL : Q l) by (eapply HQ; reflexivity). destruct X3 as [K3 R3 _].
    assert (O' : over Q (apply_ops db (o :: os)) (apply_ops db0 (o' :: os'))).
    { intro k. specialize (O k). specialize (G1 k). specialize (G2 k).
      pose proof (dels_effect (o :: os) k D1) as A1. pose proof (dels_effect (o' :: os') k D2) as A2.
      destruct (kv_get (apply_ops db0 (o' :: os')) k) as [v|] eqn:E0.
      - (* kept by the careful Delete: neither touches it *)
        assert (NG : ~ gone l k).
        { intros [r [I H]]. destruct H as [->|[ix [Ix [Fx ->]]]].
          - rewrite (rep_get _ _ _ R3) in E0. destruct (removes sc m l (pk r)) eqn:E; [|discriminate].
            apply removes_out in E. apply E. apply in_map; auto.
          - change (entry_key sc ix r) with (s_id sc :: si_id ix :: tl (tl (entry_key sc ix r))) in E0.
            apply (rep_index _ _ _ R3 ix) in E0 as [_ [x [M [_ KX]]]]; [|exact Ix].
            change (s_id sc :: si_id ix :: tl (tl (entry_key sc ix r))) with (entry_key sc ix r) in KX.
            pose proof (rep_rows _ _ _ R3 _ _ M) as [_ [OKx _]].
            assert (OKr : row_ok sc r) by (cbn [tame] in TM; rewrite Forall_forall in TM; auto).
            apply entry_key_inj in KX as [_ [_ P]]; auto.
            apply removes_out in M. apply M. rewrite <- P. apply in_map; auto. }
        rewrite kv_get_apply_ops in E0 by exact K0. rewrite kv_get_apply_ops by exact K.
        destruct A1 as [[A1 _]|[_ A1]]; [exfalso; tauto|]. rewrite A1.
        destruct A2 as [[_ A2]|[_ A2]]; rewrite A2 in E0; [discriminate|]. left.
        destruct O as [O|[O _]]; congruence.
      - rewrite kv_get_apply_ops by exact K. destruct A1 as [[_ A1]|[N1 A1]]; rewrite A1; [left; reflexivity|].
        rewrite kv_get_apply_ops in E0 by exact K0.
        destruct A2 as [[I2 A2]|[N2 A2]]; rewrite A2 in E0.
        + apply G2 in I2 as [r' [I2 H]]. unfold l' in I2. apply in_map_iff in I2 as [x [<- Ix]].
          destruct H as [->|[ix [Hix [Fx ->]]]].
          * exfalso. apply N1, G1. exists x. split; [exact Ix|]. left. now rewrite (swap_pk db0 m x R0).
          * destruct O as [O|[_ [O L]]]; [|right; auto]. rewrite O.
            destruct (kv_get db0 (entry_key sc ix (swap m x))) as [v|] eqn:EV0; [right|left; reflexivity].
            split; [reflexivity|].
            assert (v = []) as ->.
            { change (entry_key sc ix (swap m x)) with (s_id sc :: si_id ix :: tl (tl (entry_key sc ix (swap m x)))) in EV0.
              apply (rep_index _ _ _ R0 ix) in EV0; [tauto|exact Hix]. }
            split; [reflexivity|]. exists ix, (swap m x), l, x. repeat (split; [solve [auto]|]).
            split; [symmetry; apply (swap_pk db0 m x R0)|].
            intros [Fd KD]. apply N1, G1. exists x. split; [exact Ix|]. right. exists ix. auto.
        + destruct O as [O|[_ O]]; [left; congruence|right; auto]. }
    split; [exact O'|]. exact (OUT _ _ X2 O').
  Qed.

  Lemma over_hist : forall h db db0 fl m db' fl' oks (Q : list T -> Prop),
    Forall (fun ec => env_ok (fst ec)) h -> kv_ok db -> consistent tb db0 fl m -> over Q db db0 ->
    run_hist tb db fl h = (db', fl', oks) -> Forall (fun co => tame sc (fst co)) oks ->
    (forall l, In l (deleted oks) -> Q l) ->
    exists db0', kv_ok db' /\ consistent tb db0' fl' (outcome sc m oks) /\ over Q db' db0' /\ same_outside sc db db'.
  Proof.
    induction h as [|[ev c] h IH]; intros db db0 fl m db' fl' oks Q EVS K C O RUN AD HQ; cbn [run_hist] in RUN.
    - injection RUN as <- <- <-. exists db0. split; [exact K|]. split; [exact C|]. split; [exact O|]. intros ? ?; reflexivity.
    - inversion EVS as [|? ? EV1 EV2]; subst. cbn [fst] in EV1.
      destruct (run_call tb ev db fl None c) as [w res] eqn:E.
      destruct (run_hist tb (r_db w) (r_flt w) h) as [[db1 fl1] oks1] eqn:E2.
      injection RUN as <- <- <-. inversion AD as [|? ? AD1 AD2]; subst. cbn [fst] in AD1.
      destruct (over_step ev EV1 Q c db db0 fl m w res K C O AD1 E) as (db0' & K' & C' & O' & S').
      { intros l -> ->. apply HQ. cbn [deleted ok_of]. now left. }
      destruct (IH _ _ _ _ _ _ _ Q EV2 K' C' O' E2 AD2) as (db0'' & K'' & C'' & O'' & S'').
      { intros l I. apply HQ. cbn [deleted]. destruct c; auto. destruct (ok_of res); [right|]; exact I. }
      exists db0''. split; [exact K''|]. split; [cbn [outcome]; destruct (ok_of res); exact C''|]. split; [exact O''|].
      intros k N. rewrite (S'' k N). apply S'; exact N.
  Qed.

  Lemma over_rep (Q : list T -> Prop) dels db db0 m : (forall l, Q l -> In l dels) -> Rep sc db0 m -> over Q db db0 -> RepOver sc dels db m.
  Proof.
    intros HQ R O. pose proof (fun rest => over_row Q db db0 rest O) as ROW. constructor.
    - apply (rep_rows _ _ _ R).
    - intro p. rewrite <- (rep_get _ _ _ R). apply ROW.
    - intros rest v H. change (s_id sc) with (t_id tb) in H. rewrite ROW in H. eapply (rep_data _ _ _ R). exact H.
    - intros ix p r I M FX. destruct (rep_rows _ _ _ R _ _ M) as [<- _].
      assert (E0 : kv_get db0 (entry_key sc ix r) = Some []).
      { change (entry_key sc ix r) with (s_id sc :: si_id ix :: tl (tl (entry_key sc ix r))). apply (rep_index _ _ _ R ix); [exact I|].
        split; [reflexivity|]. exists r. auto. }
      destruct (O (entry_key sc ix r)) as [O1|[O1 _]]; congruence.
    - intros ix rest v I H. destruct (O (s_id sc :: si_id ix :: rest)) as [O1|[_ [O1 L]]].
      + rewrite O1 in H. apply (rep_index _ _ _ R ix) in H as [-> [r [M [FX KX]]]]; [|exact I]. split; [reflexivity|]. exists r. auto.
      + rewrite H in O1. injection O1 as ->. split; [reflexivity|].
        destruct L as (ix' & r & l & d & I' & FX & KX & QL & IN & P & N).
        assert (ix' = ix) as ->.
        { injection KX as ID _. apply sc_index_inv in I as [j [J ->]]. apply sc_index_inv in I' as [j' [J' ->]].
          f_equal. apply (index_by_id tb LAW); auto. }
        exists r. split; [exact FX|]. split; [exact KX|]. right. exists l, d. auto.
  Qed.

  Lemma hist_any_deletes h db fl m db' fl' oks : Forall (fun ec => env_ok (fst ec)) h -> consistent tb db fl m ->
    run_hist tb db fl h = (db', fl', oks) -> Forall (fun co => tame sc (fst co)) oks ->
    RepOver sc (deleted oks) db' (outcome sc m oks) /\ same_outside sc db db'.
  Proof.
    intros EVS C RUN AD. pose proof C as [K _ _].
    destruct (over_hist h db db fl m db' fl' oks (fun l => In l (deleted oks)) EVS K C) as (db0 & _ & [_ R _] & O & S); auto.
    - intro k. left. reflexivity.
    - split; [|exact S]. eapply over_rep; eauto. cbn. auto.
  Qed.

  Lemma delete_rows_quiet ev : (forall n, e_ctx ev n = false) -> forall l (s : wst T F), snd (delete_rows tb ev l s) = Ok tt.
  Proof. intro Q. induction l as [|r l IH]; intro s; [reflexivity|]. cbn [delete_rows]. rewrite Q. apply IH. Qed.

  Lemma delete_any ev db fl m rows : env_ok ev -> quiet ev -> consistent tb db fl m -> Forall (row_ok sc) rows ->
    exists w, delete tb ev db fl None rows = (w, Ok tt) /\ RepOver sc [rows] (r_db w) (removes sc m rows) /\ same_outside sc db (r_db w).
  Proof.
    intros EV [QC QM] C OK. destruct (delete tb ev db fl None rows) as [w r] eqn:E.
    assert (r = Ok tt) as ->.
    { unfold delete, run_write in E. pose proof (delete_rows_quiet ev QC rows (WSt [] fl (t_nil tb) 0)) as D.
      destruct (delete_rows tb ev rows (WSt [] fl (t_nil tb) 0)) as [s r0]. cbn [snd] in D. subst r0. rewrite QM in E.
      destruct (w_ops s); injection E as _ <-; reflexivity. }
    exists w. split; [reflexivity|].
    apply (hist_any_deletes [(ev, CDelete rows)] db fl m (r_db w) (r_flt w) [(CDelete rows, true)]); auto.
    cbn [run_hist run_call]. rewrite E. reflexivity.
  Qed.
End Any.
