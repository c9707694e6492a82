(** UnsafeInsert and UnsafeUpdate on valid input; cancellation. *)

From Coq Require Import List NArith Lia Bool Sorting.Sorted Sorting.Permutation Arith.
From Verif.Model Require Import Bytes Go Keys Pebble Index Table.
From Verif.Spec Require Import KeySpec TableSpec HistSpec.
From Verif.Proofs Require Import BytesFacts KeysFacts PebbleFacts TableFacts WriteFacts UpdateFacts UpsertFacts CallFacts ErrFacts.
Import ListNotations.

Section Unsafe.
  Context {T F : Type} {tb : table T F} {ev : env T} {LAW : lawful tb} {EV : env_ok ev}.
  Notation sc := (schema_of tb).
  Notation dk := (data_key tb).
  Notation pk := (s_pk (schema_of tb)).

  Lemma unsafe_insert_rows_fwd db : kv_ok db -> filter_ok tb -> forall l s m,
    NoDup (map pk l) -> Forall (row_ok sc) l -> (forall r, In r l -> m (pk r) = None /\ t_ser tb r <> None) ->
    live ev s (length l) -> Rep sc (V db s) m ->
    exists s', unsafe_insert_rows tb ev l s = (s', Ok tt)
      /\ Rep sc (V db s') (puts sc m l) /\ same_outside sc (V db s) (V db s')
      /\ flt_le tb (w_flt s) (w_flt s') /\ (forall r, In r l -> flt_may tb (w_flt s') (dk r) = true)
      /\ w_tick s' = w_tick s + length l.
  Proof.
    intros K FO. induction l as [|r l IH]; intros s m ND OK AB LV R.
    - exists s. cbn. split; auto. split; [exact R|]. split; [apply same_outside_refl|]. split; [apply flt_le_refl|]. split; [easy|lia].
    - cbn [unsafe_insert_rows]. inversion OK as [|? ? O1 O2]; subst. cbn [map] in ND. apply NoDup_cons_iff in ND as [N1 N2].
      rewrite LV by (cbn; lia). destruct (AB r (or_introl eq_refl)) as [A1 A2]. destruct (t_ser tb r) as [v|] eqn:ES; [|easy].
      set (s1 := flt_add tb (dk r) _).
      assert (V1 : V db s1 = apply_ops (V db s) (insert_ops tb (e_map ev (w_tick s) (t_indexes tb)) r v)).
      { unfold s1. rewrite V_flt, V_add, V_tick. reflexivity. }
      assert (VK : kv_ok (V db s)) by (apply V_ok; auto).
      assert (PM : Permutation (e_map ev (w_tick s) (t_indexes tb)) (t_indexes tb)) by apply (env_map_perm _ EV).
      assert (T1 : w_tick s1 = S (w_tick s)) by (unfold s1; rewrite flt_add_tick; reflexivity).
      assert (L1 : flt_le tb (w_flt s) (w_flt s1)).
      { unfold s1. match goal with |- context [flt_add tb _ ?x] => apply (flt_add_le x); auto end. }
      destruct (IH s1 (put sc m r)) as [s' [E1 [E2 [E3 [E4 [E5 E6]]]]]]; auto.
      + intros x Hx. rewrite put_other; [apply AB; right; auto|]. intro E. apply N1. rewrite <- E. apply in_map; auto.
      + intros i Hi. apply LV. cbn. lia.
      + rewrite V1. apply (insert_ops_rep tb LAW); auto.
      + exists s'. split; [exact E1|]. split; [exact E2|]. split.
        { eapply same_outside_trans; [|exact E3]. rewrite V1. apply (insert_ops_outside tb LAW); auto. }
        split; [eapply flt_le_trans; eauto|]. split; [|cbn; lia].
        intros x [<-|Hx]; auto. apply E4. unfold s1. apply flt_add_has; auto.
  Qed.

  Lemma unsafe_insert_fwd db fl m l : kv_ok db -> filter_ok tb -> quiet ev -> Rep sc db m -> covers tb fl db ->
    NoDup (map pk l) -> Forall (row_ok sc) l -> (forall r, In r l -> m (pk r) = None /\ t_ser tb r <> None) ->
    exists w, unsafe_insert tb ev db fl None l = (w, Ok tt) /\ consistent tb (r_db w) (r_flt w) (puts sc m l)
      /\ same_outside sc db (r_db w).
  Proof.
    intros K FO [Q1 Q2] R C ND OK AB. unfold unsafe_insert, run_write.
    destruct (batched_chunks (St := wst T F) (e_chunk ev) l (env_chunk_pos _ EV)) as [cs [C1 C2]]. rewrite C2.
    apply is_chunks_concat in C1. subst l.
    assert (RUN : forall cs s m, NoDup (map pk (concat cs)) -> Forall (row_ok sc) (concat cs) ->
      (forall r, In r (concat cs) -> m (pk r) = None /\ t_ser tb r <> None) -> Rep sc (V db s) m ->
      exists s', run_chunks (unsafe_insert_rows tb ev) cs s = (s', Ok tt)
        /\ Rep sc (V db s') (puts sc m (concat cs)) /\ same_outside sc (V db s) (V db s')
        /\ flt_le tb (w_flt s) (w_flt s') /\ (forall r, In r (concat cs) -> flt_may tb (w_flt s') (dk r) = true)).
    { clear - LAW EV K FO Q1. induction cs as [|c cs IH]; intros s m ND OK AB R.
      - exists s. cbn. split; auto. split; [exact R|]. split; [apply same_outside_refl|]. split; [apply flt_le_refl|easy].
      - cbn [concat] in *. apply nodup_map_app in ND as [N1 [N2 N3]]. apply Forall_app in OK as [O1 O2].
        destruct (unsafe_insert_rows_fwd db K FO c s m N1 O1) as [s1 [E1 [E2 [E3 [E4 [E5 _]]]]]]; auto.
        { intros; apply AB; apply in_or_app; auto. }
        { intros i _. apply Q1. }
        cbn [run_chunks]. rewrite E1.
        destruct (IH s1 (puts sc m c) N2 O2) as [s' [G1 [G2 [G3 [G4 G5]]]]]; auto.
        { intros r Hr. rewrite puts_notin; [apply AB; apply in_or_app; auto|]. intros x Hx. apply N3; auto. }
        exists s'. split; [exact G1|]. split; [rewrite puts_app; exact G2|]. split; [eapply same_outside_trans; eauto|].
        split; [eapply flt_le_trans; eauto|]. intros r Hr. apply in_app_or in Hr as [Hr|Hr]; auto. }
    destruct (RUN cs (WSt [] fl (t_nil tb) 0) m ND OK AB R) as [s' [G1 [G2 [G3 [G4 G5]]]]]. rewrite G1.
    assert (CV : covers tb (w_flt s') (V db s')) by (apply (covers_puts db (WSt [] fl (t_nil tb) 0) s' m (concat cs)); auto).
    assert (KV : kv_ok (V db s')) by (apply V_ok; auto).
    unfold V in *. destruct (w_ops s') as [|o os] eqn:EO; [|rewrite Q2]; eexists; (split; [reflexivity|]); cbn [r_db r_flt];
      (split; [constructor|]); auto.
  Qed.

  Lemma unsafe_update_rows_fwd db : kv_ok db -> forall l olds s m,
    NoDup (map pk l) -> Forall (row_ok sc) l -> Forall2 (fun r o => m (pk r) = Some o) l olds -> (forall r, In r l -> t_ser tb r <> None) ->
    live ev s (length l) -> Rep sc (V db s) m ->
    exists s', unsafe_update_rows tb ev l olds s = (s', Ok tt)
      /\ Rep sc (V db s') (puts sc m l) /\ same_outside sc (V db s) (V db s') /\ w_flt s' = w_flt s.
  Proof.
    intros K. induction l as [|r l IH]; intros olds s m ND OK F2 SE LV R; inversion F2 as [|? o ? olds' H1 H2]; subst.
    - exists s. cbn. split; auto. split; [exact R|]. split; [apply same_outside_refl|auto].
    - cbn [unsafe_update_rows]. inversion OK as [|? ? O1 O2]; subst. cbn [map] in ND. apply NoDup_cons_iff in ND as [N1 N2].
      rewrite LV by (cbn; lia). destruct (t_ser tb r) as [v|] eqn:ES; [|exfalso; apply (SE r); [left|]; auto].
      set (s1 := add_ops (tick s) _).
      assert (V1 : V db s1 = apply_ops (V db s) (update_ops tb (e_map ev (w_tick s) (t_indexes tb)) o r v)).
      { unfold s1. rewrite V_add, V_tick. reflexivity. }
      assert (VK : kv_ok (V db s)) by (apply V_ok; auto).
      assert (PM : Permutation (e_map ev (w_tick s) (t_indexes tb)) (t_indexes tb)) by apply (env_map_perm _ EV).
      destruct (IH olds' s1 (put sc m r)) as [s' [E1 [E2 [E3 E4]]]]; auto.
      + assert (X : forall x, In x l -> put sc m r (pk x) = m (pk x)).
        { intros x Hx. apply put_other. intro E. apply N1. rewrite <- E. apply in_map; auto. }
        clear - H2 X. induction H2; constructor; auto.
        * rewrite X; auto. left; auto.
        * apply IHForall2. intros; apply X; right; auto.
      + intros; apply SE; right; auto.
      + intros i Hi. apply LV. cbn in *. lia.
      + rewrite V1. apply (update_ops_rep tb LAW); auto.
      + exists s'. split; [exact E1|]. split; [exact E2|]. split; [|exact E4].
        eapply same_outside_trans; [|exact E3]. rewrite V1. apply (update_ops_outside tb LAW); auto.
  Qed.

  Lemma unsafe_update_fwd db fl m l olds : kv_ok db -> filter_ok tb -> quiet ev -> Rep sc db m -> covers tb fl db ->
    NoDup (map pk l) -> Forall (row_ok sc) l -> Forall2 (fun r o => m (pk r) = Some o) l olds -> (forall r, In r l -> t_ser tb r <> None) ->
    exists w, unsafe_update tb ev db fl None l olds = (w, Ok tt) /\ consistent tb (r_db w) (r_flt w) (puts sc m l)
      /\ same_outside sc db (r_db w).
  Proof.
    intros K FO [Q1 Q2] R C ND OK F2 SE. unfold unsafe_update, run_write.
    assert (LEN : length l = length olds) by (clear - F2; induction F2; cbn; auto). rewrite LEN, Nat.eqb_refl.
    destruct (unsafe_update_rows_fwd db K l olds (WSt [] fl (t_nil tb) 0) m ND OK F2 SE) as [s' [G1 [G2 [G3 G4]]]]; auto.
    { intros i _. apply Q1. }
    rewrite G1.
    assert (CV : covers tb (w_flt s') (V db s')).
    { apply (covers_puts db (WSt [] fl (t_nil tb) 0) s' m l); auto.
      - rewrite G4. apply flt_le_refl.
      - intros r Hr. rewrite G4. cbn [w_flt].
        assert (X : exists o, m (pk r) = Some o).
        { clear - F2 Hr. induction F2; [easy|]. destruct Hr as [<-|Hr]; eauto. }
        destruct X as [o X]. destruct (rep_some _ _ _ _ R X) as [v [_ Gv]]. apply (covers_may _ _ _ _ C Gv). }
    assert (KV : kv_ok (V db s')) by (apply V_ok; auto).
    unfold V in *. destruct (w_ops s') as [|o os] eqn:EO; [|rewrite Q2]; eexists; (split; [reflexivity|]); cbn [r_db r_flt];
      (split; [constructor|]); auto.
  Qed.

  (** ** Cancellation *)

  Definition done (n : nat) (s s' : wst T F) : Prop := live ev s n /\ w_tick s' = w_tick s + n.

  Lemma done_S n (s s1 s' : wst T F) : e_ctx ev (w_tick s) = false -> w_tick s1 = S (w_tick s) -> done n s1 s' -> done (S n) s s'.
  Proof.
    intros E T1 [L1 T2]. split; [|lia]. intros i Hi. destruct (Nat.eq_dec i (w_tick s)) as [->|]; auto. apply L1. lia.
  Qed.

  Lemma done_app a b s s1 s' : done a s s1 -> done b s1 s' -> done (a + b) s s'.
  Proof.
    intros [L1 T1] [L2 T2]. split; [|lia]. intros i Hi. destruct (Nat.lt_ge_cases i (w_tick s + a)); [apply L1|apply L2]; lia.
  Qed.

  Lemma insert_rows_done it trs : forall rows prev s s', insert_rows tb ev it trs prev rows s = (s', Ok tt) -> done (length rows) s s'.
  Proof.
    induction rows as [|[k o] rows IH]; intros prev s s' H; cbn [insert_rows] in H.
    - injection H as <-. split; [intros i Hi; cbn in Hi; lia|cbn; lia].
    - destruct (e_ctx ev (w_tick s)) eqn:E; [easy|]. destruct (_ || _); [easy|]. destruct (nth_error trs o); [|easy].
      destruct (t_ser tb t); [|easy]. apply IH in H. eapply (done_S _ _ _ _ E); [|exact H]. rewrite flt_add_tick. reflexivity.
  Qed.

  Lemma update_rows_done it trs : forall rows s s', update_rows tb ev it trs rows s = (s', Ok tt) -> done (length rows) s s'.
  Proof.
    induction rows as [|[k o] rows IH]; intros s s' H; cbn [update_rows] in H.
    - injection H as <-. split; [intros i Hi; cbn in Hi; lia|cbn; lia].
    - destruct (e_ctx ev (w_tick s)) eqn:E; [easy|].
      destruct (match rows with [] => false | _ => _ end); [apply IH in H; eapply (done_S _ _ _ _ E); [|exact H]; reflexivity|].
      cbn zeta in H. destruct (_ || _); [easy|]. destruct (t_deser tb _ _); [|easy]. destruct (nth_error trs o); [|easy].
      destruct (t_ser tb t0); [|easy]. apply IH in H. eapply (done_S _ _ _ _ E); [|exact H]; reflexivity.
  Qed.

  Lemma delete_rows_done : forall trs s s', delete_rows tb ev trs s = (s', Ok tt) -> done (length trs) s s'.
  Proof.
    induction trs as [|r trs IH]; intros s s' H; cbn [delete_rows] in H.
    - injection H as <-. split; [intros i Hi; cbn in Hi; lia|cbn; lia].
    - destruct (e_ctx ev (w_tick s)) eqn:E; [easy|]. apply IH in H. eapply (done_S _ _ _ _ E); [|exact H]; reflexivity.
  Qed.

  Lemma unsafe_insert_rows_done : forall trs s s', unsafe_insert_rows tb ev trs s = (s', Ok tt) -> done (length trs) s s'.
  Proof.
    induction trs as [|r trs IH]; intros s s' H; cbn [unsafe_insert_rows] in H.
    - injection H as <-. split; [intros i Hi; cbn in Hi; lia|cbn; lia].
    - destruct (e_ctx ev (w_tick s)) eqn:E; [easy|]. destruct (t_ser tb r); [|easy]. apply IH in H. eapply (done_S _ _ _ _ E); [|exact H]. rewrite flt_add_tick. reflexivity.
  Qed.

  Lemma unsafe_update_rows_done : forall trs olds s s', length trs = length olds ->
    unsafe_update_rows tb ev trs olds s = (s', Ok tt) -> done (length trs) s s'.
  Proof.
    induction trs as [|r trs IH]; intros [|o olds] s s' L H; try easy; cbn [unsafe_update_rows] in H.
    - injection H as <-. split; [intros i Hi; cbn in Hi; lia|cbn; lia].
    - destruct (e_ctx ev (w_tick s)) eqn:E; [easy|]. destruct (t_ser tb r); [|easy]. apply IH in H; [|cbn in L; lia]. eapply (done_S _ _ _ _ E); [|exact H]; reflexivity.
  Qed.

  Lemma sort_keys_len (c : list T) keys order : sort_keys ev (map dk c) = (keys, order) -> length (combine keys order) = length c.
  Proof.
    intro E. destruct (sort_keys_rows (tb := tb) (ev := ev) c) as [keys' [order' [rs [E1 [E2 [P [_ F2]]]]]]].
    rewrite E1 in E. injection E as <- <-. subst keys'. rewrite combine_length, map_length.
    assert (length order' = length rs) by (clear - F2; induction F2; cbn; auto).
    rewrite (Permutation_length P) in *. lia.
  Qed.

  Lemma insert_chunk_done db rw c s s' : insert_chunk tb ev db rw c s = (s', Ok tt) -> done (length c) s s'.
  Proof.
    unfold insert_chunk. destruct (sort_keys ev (map dk c)) as [keys order] eqn:E. rewrite <- (sort_keys_len _ _ _ E).
    destruct keys; [easy|]. apply insert_rows_done.
  Qed.

  Lemma update_chunk_done db rw c s s' : update_chunk tb ev db rw c s = (s', Ok tt) -> done (length c) s s'.
  Proof.
    unfold update_chunk. destruct (sort_keys ev (map dk c)) as [keys order] eqn:E. rewrite <- (sort_keys_len _ _ _ E).
    destruct keys; [easy|]. apply update_rows_done.
  Qed.

  Lemma run_chunks_done {A} (g : list A -> wst T F -> wst T F * res unit) :
    (forall c s s', g c s = (s', Ok tt) -> done (length c) s s') ->
    forall cs s s', run_chunks g cs s = (s', Ok tt) -> done (length (concat cs)) s s'.
  Proof.
    intros H. induction cs as [|c cs IH]; intros s s' E; cbn [run_chunks concat] in *.
    - injection E as <-. split; [intros i Hi; cbn in Hi; lia|cbn; lia].
    - destruct (g c s) as [s1 r1] eqn:E1. destruct r1 as [[]| | |]; try easy. rewrite app_length. eapply done_app; eauto.
  Qed.

  Lemma batched_done {A} (l : list A) (g : list A -> wst T F -> wst T F * res unit) s s' :
    (forall c s s', g c s = (s', Ok tt) -> done (length c) s s') ->
    batched l (e_chunk ev) g s = (s', Ok tt) -> done (length l) s s'.
  Proof.
    intros H E. destruct (batched_chunks (St := wst T F) (e_chunk ev) l (env_chunk_pos _ EV)) as [cs [C1 C2]]. rewrite C2 in E.
    rewrite <- (is_chunks_concat _ _ _ C1). eapply run_chunks_done; eauto.
  Qed.

  Lemma run_write_ok db fl ob g w : run_write tb ev db fl ob g = (w, Ok tt) ->
    exists rw s s', g rw s = (s', Ok tt) /\ w_tick s = 0.
  Proof.
    unfold run_write. destruct ob as [b|].
    - destruct (g (b_rw b) _) as [s r] eqn:E. intros [= <- ->]. eauto.
    - destruct (g false _) as [s r] eqn:E. destruct r as [[]| | |]; try easy. eauto.
  Qed.

  Lemma cancelled db fl ob g w n i : (forall rw s s', g rw s = (s', Ok tt) -> done n s s') ->
    i < n -> e_ctx ev i = true -> run_write tb ev db fl ob g <> (w, Ok tt).
  Proof.
    intros H Hi C E. apply run_write_ok in E as [rw [s [s' [E T0]]]]. apply H in E as [L _]. rewrite L in C; [easy|lia].
  Qed.
End Unsafe.
