(** Point reads. *)

From Coq Require Import List NArith Lia Bool Sorting.Sorted Sorting.Permutation Arith.
From Verif.Model Require Import Bytes Go Keys Pebble Index Table.
From Verif.Spec Require Import KeySpec TableSpec HistSpec.
From Verif.Proofs Require Import BytesFacts KeysFacts PebbleFacts TableFacts WriteFacts UpdateFacts UpsertFacts CallFacts.
Import ListNotations.

Section Read.
  Context {T F : Type} {tb : table T F} {ev : env T} {LAW : lawful tb} {EV : env_ok ev}.
  Notation sc := (schema_of tb).
  Notation dk := (data_key tb).
  Notation pk := (s_pk (schema_of tb)).
  Notation hi := (data_key_space_end tb).

  Lemma db_get_eq db ob k : readable ob ->
    db_get db ob k = match kv_get (view db ob) k with Some v => Ok v | None => Err ENotFound end.
  Proof. destruct ob as [b|]; cbn; auto. intros ->. reflexivity. Qed.

  Lemma exist_eq db fl ob m r : Rep sc (view db ob) m -> covers tb fl (view db ob) -> readable ob ->
    exist tb db fl ob r = match m (pk r) with Some _ => true | None => false end.
  Proof.
    intros R C RD. unfold exist. rewrite db_get_eq by auto. destruct (m (pk r)) as [o|] eqn:E.
    - destruct (rep_some _ _ _ _ R E) as [v [_ G]]. rewrite G, (covers_may _ _ _ _ C G). reflexivity.
    - apply (rep_none _ _ _ R) in E. rewrite E. apply andb_false_r.
  Qed.

  Lemma get_point_eq db fl ob m r : ser_fresh tb -> Rep sc (view db ob) m -> covers tb fl (view db ob) -> readable ob ->
    get_point tb db fl ob r = match m (pk r) with Some x => Ok x | None => Err ENotFound end.
  Proof.
    intros SF R C RD. unfold get_point, get_one. rewrite db_get_eq by auto. destruct (m (pk r)) as [o|] eqn:E.
    - destruct (rep_some _ _ _ _ R E) as [v [EV' G]]. rewrite G, (covers_may _ _ _ _ C G). cbn [negb].
      rewrite (SF _ _ EV'). reflexivity.
    - apply (rep_none _ _ _ R) in E. rewrite E. destruct (negb _); reflexivity.
  Qed.

  Definition value_at (st : kv) (r : T) : bytes := match kv_get st (dk r) with Some v => v | None => [] end.

  Lemma get_value_eq st lo fl r : kv_ok st -> ble lo (dk r) -> covers tb fl st ->
    get_value tb fl (new_iter st lo hi) (dk r) = kv_get st (dk r).
  Proof.
    intros K L C. unfold get_value. pose proof (probe st lo r K L) as P. cbn zeta in P |- *.
    destruct (kv_get st (dk r)) as [v|] eqn:G.
    - rewrite (covers_may _ _ _ _ C G). destruct P as [P1 [P2 P3]]. rewrite P1, P2, P3, beqb_refl. reflexivity.
    - destruct (negb (flt_may _ _ _)); auto. rewrite <- negb_andb, P. reflexivity.
  Qed.

  Lemma get_values_eq st lo fl : kv_ok st -> covers tb fl st -> forall rs,
    Forall (fun r => ble lo (dk r)) rs ->
    get_values tb fl (new_iter st lo hi) (map dk rs) false = Ok (map (value_at st) rs).
  Proof.
    intros K C. induction rs as [|r rs IH]; intro LO; auto. inversion LO as [|? ? L1 L2]; subst.
    cbn [map get_values]. rewrite get_value_eq by auto. rewrite IH by auto. unfold value_at.
    destruct (kv_get st (dk r)); reflexivity.
  Qed.

  (** with errorOnNotExist: the values if all are present, else ErrNotFound *)
  Lemma get_values_err_eq st lo fl : kv_ok st -> covers tb fl st -> forall rs,
    Forall (fun r => ble lo (dk r)) rs ->
    get_values tb fl (new_iter st lo hi) (map dk rs) true =
    if forallb (fun r => match kv_get st (dk r) with Some _ => true | None => false end) rs
    then Ok (map (value_at st) rs) else Err ENotFound.
  Proof.
    intros K C. induction rs as [|r rs IH]; intro LO; auto. inversion LO as [|? ? L1 L2]; subst.
    cbn [map get_values forallb]. rewrite get_value_eq by auto. unfold value_at at 1.
    destruct (kv_get st (dk r)) as [v|] eqn:G; cbn [andb]; auto.
    rewrite IH by auto. destruct (forallb _ rs); reflexivity.
  Qed.

  Lemma index_of_spec x l : In x l -> exists j, index_of x l = Some j /\ nth_error l j = Some x.
  Proof.
    induction l as [|y l IH]; intro H; [easy|]. cbn. destruct (Nat.eqb x y) eqn:E.
    - apply Nat.eqb_eq in E. subst. exists 0. auto.
    - destruct H as [->|H]; [rewrite Nat.eqb_refl in E; easy|]. destruct (IH H) as [j [J1 J2]].
      exists (S j). rewrite J1. auto.
  Qed.

  Lemma Forall2_nth_error {A B} (P : A -> B -> Prop) l l' : Forall2 P l l' -> forall j a, nth_error l j = Some a ->
    exists b, nth_error l' j = Some b /\ P a b.
  Proof.
    intro H. induction H; intros j a E; [destruct j; easy|]. destruct j as [|j]; cbn in *; [injection E as <-; eauto|auto].
  Qed.

  Lemma Forall2_len {A B} (P : A -> B -> Prop) l l' : Forall2 P l l' -> length l = length l'.
  Proof. intro H; induction H; cbn; auto. Qed.

  (** putting the values back in the order of the points *)
  Lemma reorder_eq (g : T -> bytes) pts rs order : Permutation order (seq 0 (length pts)) ->
    Forall2 (fun o r => nth_error pts o = Some r) order rs ->
    reorder_values (map g rs) order = map g pts.
  Proof.
    intros P F2. unfold reorder_values.
    assert (LEN : length rs = length pts).
    { rewrite <- (Forall2_len _ _ _ F2), (Permutation_length P), seq_length. reflexivity. }
    rewrite map_length, LEN. apply nth_ext with (d := []) (d' := []); [rewrite !map_length, seq_length; auto|].
    intros n Hn. rewrite map_length, seq_length in Hn.
    set (h := fun i => _). rewrite (nth_indep _ [] (h 0)) by (rewrite map_length, seq_length; auto).
    rewrite map_nth, seq_nth by auto. cbn [Nat.add]. unfold h.
    destruct (index_of_spec n order) as [j [J1 J2]].
    { eapply Permutation_in; [symmetry; exact P|]. apply in_seq. lia. }
    rewrite J1. destruct (Forall2_nth_error _ _ _ F2 j n J2) as [r [R1 R2]].
    rewrite (nth_error_nth (map g rs) j [] (map_nth_error g _ _ R1)).
    symmetry. apply nth_error_nth. apply map_nth_error. auto.
  Qed.

  Lemma sort_keys_rows_order pts : exists keys order rs,
    sort_keys ev (map dk pts) = (keys, order) /\ keys = map dk rs /\ Permutation order (seq 0 (length pts)) /\
    StronglySorted ble (map dk rs) /\ Forall2 (fun o r => nth_error pts o = Some r) order rs /\ Permutation rs pts.
  Proof.
    destruct (sort_keys_rows (tb:=tb) (ev:=ev) pts) as [keys [order [rs [E1 [E2 [P [S F2]]]]]]].
    exists keys, order, rs. split; auto. split; auto. split; [|auto].
    unfold sort_keys in E1. injection E1 as _ <-. rewrite <- (map_length dk pts). apply (env_sort_perm _ EV).
  Qed.

  Lemma get_keys_eq db fl ob pts : kv_ok db -> covers tb fl (view db ob) -> readable ob ->
    get_keys tb ev db fl ob (map dk pts) false = Ok (map (value_at (view db ob)) pts).
  Proof.
    intros K C RD. unfold get_keys. destruct (map dk pts) as [|k ks] eqn:EM.
    { destruct pts; [reflexivity|easy]. }
    rewrite <- EM. destruct (sort_keys_rows_order pts) as [keys [order [rs [E1 [E2 [P [S [F2 _]]]]]]]].
    rewrite E1. subst keys.
    assert (IT : db_iter db ob (hd [] (map dk rs)) hi = new_iter (view db ob) (hd [] (map dk rs)) hi).
    { destruct ob as [b|]; cbn; auto. cbn in RD. rewrite RD. reflexivity. }
    rewrite IT, get_values_eq; auto using view_ok.
    - f_equal. apply reorder_eq; auto.
    - apply hd_le; auto.
  Qed.

  Lemma get_keys_err_eq db fl ob pts : kv_ok db -> covers tb fl (view db ob) -> readable ob ->
    get_keys tb ev db fl ob (map dk pts) true =
    if forallb (fun r => match kv_get (view db ob) (dk r) with Some _ => true | None => false end) pts
    then Ok (map (value_at (view db ob)) pts) else Err ENotFound.
  Proof.
    intros K C RD. unfold get_keys. destruct (map dk pts) as [|k ks] eqn:EM.
    { destruct pts; [reflexivity|easy]. }
    rewrite <- EM. destruct (sort_keys_rows_order pts) as [keys [order [rs [E1 [E2 [P [S [F2 PR]]]]]]]].
    rewrite E1. subst keys.
    assert (IT : db_iter db ob (hd [] (map dk rs)) hi = new_iter (view db ob) (hd [] (map dk rs)) hi).
    { destruct ob as [b|]; cbn; auto. cbn in RD. rewrite RD. reflexivity. }
    rewrite IT, get_values_err_eq; auto using view_ok.
    - assert (FB : forall (g : T -> bool), forallb g rs = forallb g pts).
      { intro g. clear - PR. induction PR; cbn; auto; try congruence. destruct (g x), (g y); auto. }
      rewrite FB. destruct (forallb _ pts); auto. f_equal. apply reorder_eq; auto.
    - apply hd_le; auto.
  Qed.

  Lemma decode_values_eq st m pts : ser_fresh tb -> Rep sc st m ->
    (forall p x, m p = Some x -> s_val sc x <> Some []) ->
    decode_values tb (map (value_at st) pts) =
      Ok (map (fun p => match m (pk p) with Some x => x | None => t_nil tb end) pts).
  Proof.
    intros SF R NE. induction pts as [|p pts IH]; auto. cbn [map decode_values]. rewrite IH. unfold value_at.
    destruct (m (pk p)) as [x|] eqn:E.
    - destruct (rep_some _ _ _ _ R E) as [v [EV' G]]. rewrite G. specialize (NE _ _ E). cbn [s_val schema_of] in NE.
      destruct v as [|b v]; [exfalso; apply NE; exact EV'|]. rewrite (SF _ _ EV'). reflexivity.
    - apply (rep_none _ _ _ R) in E. rewrite E. reflexivity.
  Qed.

  Lemma get_points_eq db fl ob m pts : kv_ok db -> ser_fresh tb -> Rep sc (view db ob) m -> covers tb fl (view db ob) -> readable ob ->
    (forall p x, m p = Some x -> s_val sc x <> Some []) ->
    get_points tb ev db fl ob pts = Ok (map (fun p => match m (pk p) with Some x => x | None => t_nil tb end) pts).
  Proof.
    intros K SF R C RD NE. unfold get_points. destruct pts as [|p0 pts']; [reflexivity|]. set (pts := p0 :: pts').
    destruct (batched_chunks (St := list T) (length pts) pts) as [cs [C1 C2]]; [cbn; lia|]. rewrite C2.
    rewrite (is_chunks_small _ _ _ C1) by (auto; easy). cbn [run_chunks].
    rewrite get_keys_eq by auto. rewrite (decode_values_eq (view db ob) m pts) by auto. reflexivity.
  Qed.
End Read.
