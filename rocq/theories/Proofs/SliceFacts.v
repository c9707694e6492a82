(** Builders and queries over shared memory. *)

From Coq Require Import List NArith ZArith Bool Arith Lia.
From Verif.Model Require Import Bytes Go Keys Slices.
From Verif.Spec Require Import SliceSpec.
From Verif.Proofs Require Import BytesFacts.
Import ListNotations.

Section Heap.
  Context {A : Type}.
  Implicit Types (h : heap A) (l : list A).

  Lemma nth_error_firstn_lt l : forall n i, i < n -> nth_error (firstn n l) i = nth_error l i.
  Proof. induction l as [|x l IH]; intros [|n] [|i] H; cbn; auto; try lia. apply IH. lia. Qed.

  Lemma nth_error_skipn l : forall n i, nth_error (skipn n l) i = nth_error l (n + i).
  Proof. induction l as [|x l IH]; intros [|n] i; cbn; auto. now destruct i. Qed.

  Lemma list_ext l : forall l', (forall i, nth_error l i = nth_error l' i) -> l = l'.
  Proof.
    induction l as [|x l IH]; intros [|y l'] H; auto.
    - discriminate (H 0).
    - discriminate (H 0).
    - pose proof (H 0) as E. injection E as ->. f_equal. apply IH. intros i. apply (H (S i)).
  Qed.

  Lemma read_nth h s i : nth_error (sl_read h s) i = if Nat.ltb i (sl_len s) then nth_error (cells h (sl_arr s)) (sl_off s + i) else None.
  Proof.
    unfold sl_read. destruct (Nat.ltb_spec i (sl_len s)).
    - now rewrite nth_error_firstn_lt, nth_error_skipn.
    - apply nth_error_None. rewrite firstn_length. lia.
  Qed.

  Lemma overwrite_nth l pos xs i : pos + length xs <= length l ->
    nth_error (overwrite l pos xs) i = if (Nat.leb pos i && Nat.ltb i (pos + length xs))%bool then nth_error xs (i - pos) else nth_error l i.
  Proof.
    intros L. unfold overwrite. destruct (Nat.leb_spec pos i) as [LE|LT]; cbn [andb].
    - rewrite nth_error_app2 by (rewrite firstn_length; lia). rewrite firstn_length, Nat.min_l by lia.
      destruct (Nat.ltb_spec i (pos + length xs)).
      + rewrite nth_error_app1 by lia. reflexivity.
      + rewrite nth_error_app2 by lia. rewrite nth_error_skipn. f_equal. lia.
    - rewrite nth_error_app1 by (rewrite firstn_length; lia). now apply nth_error_firstn_lt.
  Qed.

  Lemma overwrite_length l pos xs : pos + length xs <= length l -> length (overwrite l pos xs) = length l.
  Proof. intros L. unfold overwrite. rewrite !app_length, firstn_length, skipn_length. lia. Qed.

  Lemma set_cells_length h a l : a < length h -> length (set_cells h a l) = length h.
  Proof. intros L. unfold set_cells. rewrite app_length, firstn_length. cbn [length]. rewrite skipn_length. lia. Qed.

  Lemma nth_firstn_lt {B} (l : list B) : forall n i d, i < n -> nth i (firstn n l) d = nth i l d.
  Proof. induction l as [|x l IH]; intros [|n] [|i] d H; cbn; auto; try lia. apply IH. lia. Qed.
  Lemma nth_skipn {B} (l : list B) : forall n i d, nth i (skipn n l) d = nth (n + i) l d.
  Proof. induction l as [|x l IH]; intros [|n] i d; cbn; auto. now destruct i. Qed.

  Lemma set_cells_same h a l : a < length h -> cells (set_cells h a l) a = l.
  Proof. intros L. unfold cells, set_cells. rewrite app_nth2 by (rewrite firstn_length; lia). rewrite firstn_length, Nat.min_l, Nat.sub_diag by lia. reflexivity. Qed.

  Lemma set_cells_other h a l b : a < length h -> b <> a -> cells (set_cells h a l) b = cells h b.
  Proof.
    intros L N. unfold cells, set_cells. destruct (Nat.lt_ge_cases b a) as [LT|GE].
    - rewrite app_nth1 by (rewrite firstn_length; lia). now apply nth_firstn_lt.
    - rewrite app_nth2 by (rewrite firstn_length; lia). rewrite firstn_length, Nat.min_l by lia.
      destruct (b - a) as [|d] eqn:D; [lia|]. change (nth (S d) (l :: skipn (S a) h) []) with (nth d (skipn (S a) h) []).
      rewrite nth_skipn. f_equal. lia.
  Qed.

  (** ** What an extension of [s0] may change *)
  Record frame (s0 : slc) (h0 h : heap A) : Prop := {
    fr_len : length h0 <= length h;
    fr_size : forall a, a < length h0 -> length (cells h a) = length (cells h0 a);
    fr_cell : forall a i, a < length h0 -> (a = sl_arr s0 -> ~ (sl_off s0 + sl_len s0 <= i /\ i < sl_off s0 + sl_cap s0)) ->
      nth_error (cells h a) i = nth_error (cells h0 a) i
  }.

  (** [s] in [h] is [s0] in [h0] followed by [v]. *)
  Record ext (s0 : slc) (h0 h : heap A) (s : slc) (v : list A) : Prop := {
    ex_frame : frame s0 h0 h;
    ex_ok : sl_ok h s;
    ex_where : length h0 <= sl_arr s \/ (sl_arr s = sl_arr s0 /\ sl_off s = sl_off s0 /\ sl_cap s = sl_cap s0);
    ex_len : sl_len s = sl_len s0 + length v;
    ex_read : sl_read h s = sl_read h0 s0 ++ v
  }.

  Lemma frame_read s0 h0 h t : frame s0 h0 h -> sl_ok h0 t -> apart s0 t -> sl_read h t = sl_read h0 t /\ sl_ok h t.
  Proof.
    intros [FL FS FC] [L O] AP. split.
    - apply list_ext. intros i. rewrite !read_nth. destruct (Nat.ltb_spec i (sl_len t)); auto.
      apply FC; [lia|]. intros E [B1 B2]. destruct AP as [N|N]; [now apply N|]. apply (N _ B1 B2). lia.
    - split; auto. destruct O as [O|[O1 O2]]; [now left|right]. split; [lia|]. change (sl_off t + sl_cap t <= length (cells h (sl_arr t))). rewrite FS; auto.
  Qed.

  Lemma read_length h s : sl_ok h s -> length (sl_read h s) = sl_len s.
  Proof.
    intros [L [O|[O1 O2]]]; unfold sl_read; rewrite firstn_length, skipn_length; [lia|]. unfold cells. lia.
  Qed.

  Lemma ext_refl h s : sl_ok h s -> ext s h h s [].
  Proof.
    intros O. constructor.
    - constructor; auto.
    - exact O.
    - right. auto.
    - cbn. lia.
    - now rewrite app_nil_r.
  Qed.

  (** Writing where the extension is. *)
  Lemma ext_write s0 h0 h s v pos xs : ext s0 h0 h s v -> sl_len s0 <= pos -> pos + length xs <= sl_cap s -> 0 < length xs ->
    frame s0 h0 (sl_write h s pos xs) /\ cells (sl_write h s pos xs) (sl_arr s) = overwrite (cells h (sl_arr s)) (sl_off s + pos) xs /\
    length (sl_write h s pos xs) = length h /\ sl_off s + pos + length xs <= length (cells h (sl_arr s)).
  Proof.
    intros [[FL FS FC] [OL O] W L R] P Q X. destruct O as [O|[O1 O2]]; [lia|].
    assert (B : sl_off s + pos + length xs <= length (cells h (sl_arr s))) by (unfold cells; lia).
    unfold sl_write. destruct xs as [|x0 xs0] eqn:XS; [cbn in X; lia|]. rewrite <- XS in *. clear XS.
    rewrite set_cells_same, set_cells_length by auto. repeat split; auto.
    - now rewrite set_cells_length.
    - intros a LA. destruct (Nat.eq_dec a (sl_arr s)) as [->|N]; [|rewrite set_cells_other by auto; auto].
      rewrite set_cells_same, overwrite_length by auto. auto.
    - intros a i LA C. destruct (Nat.eq_dec a (sl_arr s)) as [->|N]; [|rewrite set_cells_other by auto; auto].
      rewrite set_cells_same by auto. rewrite overwrite_nth by auto.
      destruct W as [W|(W1 & W2 & W3)]; [lia|]. specialize (C W1).
      destruct (Nat.leb_spec (sl_off s + pos) i); cbn [andb]; [destruct (Nat.ltb_spec i (sl_off s + pos + length xs))|].
      + lia.
      + apply FC; auto.
      + apply FC; auto.
  Qed.

  Lemma ext_append grow z s0 h0 h s v xs h' s' : sl_ok h0 s0 -> ext s0 h0 h s v -> sl_append grow z h s xs = (h', s') -> ext s0 h0 h' s' (v ++ xs).
  Proof.
    intros O0 E AP. unfold sl_append in AP. destruct xs as [|x xs]; [injection AP as <- <-; now rewrite app_nil_r|].
    set (ys := x :: xs) in *. assert (Y : 0 < length ys) by (cbn; lia). clearbody ys. clear x xs.
    destruct (Nat.leb_spec (sl_len s + length ys) (sl_cap s)) as [LE|GT]; injection AP as <- <-.
    - pose proof E as E0. destruct E as [FR OK W L R]. destruct (ext_write s0 h0 h s v (sl_len s) ys E0) as (F1 & C1 & L1 & B1); auto; [lia|].
      constructor; cbn [sl_len sl_cap sl_off sl_arr]; auto.
      + split; [exact LE|]. right. destruct OK as [_ [OK|[OK1 OK2]]]; [lia|]. cbn [sl_len sl_cap sl_off sl_arr].
        split; [lia|]. change (sl_off s + sl_cap s <= length (cells (sl_write h s (sl_len s) ys) (sl_arr s))). rewrite C1, overwrite_length; auto.
      + rewrite app_length. lia.
      + rewrite app_assoc, <- R. apply list_ext. intros i. rewrite read_nth. cbn [sl_len sl_arr sl_off].
        pose proof (read_length h s OK) as RL. rewrite C1, overwrite_nth by auto.
        destruct (Nat.ltb_spec i (sl_len s + length ys)).
        * destruct (Nat.leb_spec (sl_off s + sl_len s) (sl_off s + i)); cbn [andb].
          -- destruct (Nat.ltb_spec (sl_off s + i) (sl_off s + sl_len s + length ys)); [|lia]. rewrite nth_error_app2 by lia. f_equal. lia.
          -- rewrite nth_error_app1 by lia. rewrite read_nth. destruct (Nat.ltb_spec i (sl_len s)); [reflexivity|lia].
        * symmetry. apply nth_error_None. rewrite app_length. lia.
    - destruct E as [[FL FS FC] OK W L R]. pose proof (read_length h s OK) as RL.
      assert (CO : forall a, a < length h0 -> cells (h ++ [sl_read h s ++ ys ++ repeat z (grow (sl_cap s) (sl_len s + length ys))]) a = cells h a).
      { intros a LA. unfold cells. rewrite app_nth1 by lia. reflexivity. }
      assert (CN : cells (h ++ [sl_read h s ++ ys ++ repeat z (grow (sl_cap s) (sl_len s + length ys))]) (length h) = sl_read h s ++ ys ++ repeat z (grow (sl_cap s) (sl_len s + length ys))).
      { unfold cells. rewrite app_nth2, Nat.sub_diag by lia. reflexivity. }
      constructor; cbn [sl_len sl_cap sl_off sl_arr].
      + constructor.
        * rewrite app_length. lia.
        * intros a LA. rewrite CO by auto. auto.
        * intros a i LA C. rewrite CO by auto. auto.
      + split; cbn [sl_len sl_cap sl_off sl_arr]; [lia|]. right. split; [rewrite app_length; cbn; lia|].
        change (0 + (sl_len s + length ys + grow (sl_cap s) (sl_len s + length ys)) <= length (cells (h ++ [sl_read h s ++ ys ++ repeat z (grow (sl_cap s) (sl_len s + length ys))]) (length h))).
        rewrite CN, !app_length, repeat_length. lia.
      + left. lia.
      + rewrite app_length. lia.
      + rewrite (app_assoc (sl_read h0 s0)), <- R. unfold sl_read at 1. cbn [sl_len sl_cap sl_off sl_arr skipn]. rewrite CN, app_assoc.
        rewrite firstn_app, !app_length, firstn_all2 by (rewrite app_length; lia). replace (sl_len s + length ys - _) with 0 by lia.
        cbn. now rewrite app_nil_r.
  Qed.

  Lemma ext_put s0 h0 h s v ys xs : ext s0 h0 h s (v ++ ys) -> length xs = length ys ->
    ext s0 h0 (sl_write h s (sl_len s - length xs) xs) s (v ++ xs).
  Proof.
    intros E LX. destruct (Nat.eq_dec (length xs) 0) as [Z|NZ].
    - destruct xs; [|discriminate]. destruct ys; [|discriminate]. exact E.
    - pose proof E as E0. destruct E as [FR OK W L R]. pose proof (read_length h s OK) as RL.
      rewrite app_length in L. destruct OK as [OL O]. destruct O as [O|[O1 O2]]; [lia|].
      destruct (ext_write s0 h0 h s (v ++ ys) (sl_len s - length xs) xs E0) as (F1 & C1 & L1 & B1); try lia.
      constructor; auto.
      + split; auto. right. split; [lia|]. change (sl_off s + sl_cap s <= length (cells (sl_write h s (sl_len s - length xs) xs) (sl_arr s))).
        rewrite C1, overwrite_length by auto. auto.
      + rewrite app_length. lia.
      + assert (RL0 : length (sl_read h0 s0) = sl_len s0).
        { rewrite R, !app_length in RL. lia. }
        apply list_ext. intros i. rewrite read_nth, C1, overwrite_nth by auto. pose proof (read_nth h s i) as RN. rewrite R in RN.
        destruct (Nat.ltb_spec i (sl_len s)).
        * destruct (Nat.leb_spec (sl_off s + (sl_len s - length xs)) (sl_off s + i)); cbn [andb].
          -- destruct (Nat.ltb_spec (sl_off s + i) (sl_off s + (sl_len s - length xs) + length xs)); [|lia].
             rewrite app_assoc, nth_error_app2 by (rewrite app_length; lia). rewrite app_length. f_equal. lia.
          -- rewrite <- RN. rewrite !app_assoc. rewrite (nth_error_app1 (sl_read h0 s0 ++ v) xs), (nth_error_app1 (sl_read h0 s0 ++ v) ys) by (rewrite app_length; lia). reflexivity.
        * symmetry. apply nth_error_None. rewrite !app_length. lia.
  Qed.
End Heap.

Section Builder.
  Variable grow : nat -> nat -> nat.

  (** The builder [b] in [h] is [b0] in [h0] and the bytes [v]; its field number is [f]. *)
  Definition bext (b0 : hkb) (h0 h : heap byte) (b : hkb) (v : bytes) (f : byte) : Prop :=
    ext (hb_buff b0) h0 h (hb_buff b) v /\ hb_fid b = f.

  Variable b0 : hkb.
  Variable h0 : heap byte.
  Hypothesis OK0 : sl_ok h0 (hb_buff b0).

  Lemma b_fid h b v f h' b' : bext b0 h0 h b v f -> h_put_field_id grow h b = (h', b') ->
    bext b0 h0 h' b' (v ++ [n2b (b2n f + 1)]) (n2b (b2n f + 1)).
  Proof.
    intros [E F] H. unfold h_put_field_id in H. destruct (sl_append grow x00 h (hb_buff b) _) as [h1 s1] eqn:AP. injection H as <- <-.
    rewrite F in *. split; auto. eapply ext_append; eauto.
  Qed.

  Lemma b_append h b v f xs h' b' : bext b0 h0 h b v f -> h_append grow h b xs = (h', b') -> bext b0 h0 h' b' (v ++ xs) f.
  Proof.
    intros [E F] H. unfold h_append in H. destruct (sl_append grow x00 h (hb_buff b) xs) as [h1 s1] eqn:AP. injection H as <- <-.
    split; auto. eapply ext_append; eauto.
  Qed.

  Lemma b_put h b v f ys xs : bext b0 h0 h b (v ++ ys) f -> length xs = length ys -> bext b0 h0 (h_put_last h b xs) b (v ++ xs) f.
  Proof. intros [E F] L. split; auto. eapply ext_put; eauto. Qed.

  Lemma b_zeros w : forall h b v f h' b', bext b0 h0 h b v f -> h_zeros grow w h b = (h', b') -> bext b0 h0 h' b' (v ++ repeat x00 w) f.
  Proof.
    induction w as [|w IH]; intros h b v f h' b' E H; cbn [h_zeros repeat] in *.
    - injection H as <- <-. now rewrite app_nil_r.
    - destruct (h_append grow h b [x00]) as [h1 b1] eqn:AP. eapply b_append in AP; [|exact E].
      eapply IH in H; [|exact AP]. now rewrite <- app_assoc in H.
  Qed.

  Definition next_fid (f : byte) : byte := n2b (b2n f + 1).

  Lemma b_int w h b v f i h' b' : bext b0 h0 h b v f -> h_add_int grow w h b i = (h', b') ->
    bext b0 h0 h' b' (v ++ next_fid f :: int_field_bytes w i) (next_fid f).
  Proof.
    intros E H. unfold h_add_int in H. destruct (h_put_field_id grow h b) as [h1 b1] eqn:P. eapply b_fid in P; [|exact E].
    destruct (h_append grow h1 b1 _) as [h2 b2] eqn:Q. eapply b_append in Q; [|exact P].
    destruct (h_append grow h2 b2 _) as [h3 b3] eqn:R. eapply b_append in R; [|exact Q]. injection H as <- <-.
    eapply b_put in R; [|rewrite be_bytes_length, repeat_length; reflexivity].
    rewrite <- !app_assoc in R. exact R.
  Qed.

  Lemma b_uint w h b v f i h' b' : bext b0 h0 h b v f -> h_add_uint grow w h b i = (h', b') ->
    bext b0 h0 h' b' (v ++ next_fid f :: be_bytes w i) (next_fid f).
  Proof.
    intros E H. unfold h_add_uint in H. destruct (h_put_field_id grow h b) as [h1 b1] eqn:P. eapply b_fid in P; [|exact E].
    destruct (h_append grow h1 b1 _) as [h2 b2] eqn:Q. eapply b_append in Q; [|exact P]. injection H as <- <-.
    eapply b_put in Q; [|rewrite be_bytes_length, repeat_length; reflexivity].
    rewrite <- !app_assoc in Q. exact Q.
  Qed.

  Lemma b_string h b v f l h' b' : bext b0 h0 h b v f -> h_add_string grow h b l = (h', b') ->
    bext b0 h0 h' b' (v ++ next_fid f :: l) (next_fid f).
  Proof.
    intros E H. unfold h_add_string in H. destruct (h_put_field_id grow h b) as [h1 b1] eqn:P. eapply b_fid in P; [|exact E].
    eapply b_append in H; [|exact P]. now rewrite <- app_assoc in H.
  Qed.

  Lemma b_bytes h b v f s h' b' : bext b0 h0 h b v f -> sl_ok h0 s -> apart (hb_buff b0) s -> h_add_bytes grow h b s = (h', b') ->
    bext b0 h0 h' b' (v ++ next_fid f :: sl_read h0 s) (next_fid f).
  Proof.
    intros E O AP H. unfold h_add_bytes in H. destruct (h_put_field_id grow h b) as [h1 b1] eqn:P. eapply b_fid in P; [|exact E].
    eapply b_append in H; [|exact P]. destruct P as [[FR _ _ _ _] _]. destruct (frame_read _ _ _ _ FR O AP) as [R _]. rewrite R in H.
    now rewrite <- app_assoc in H.
  Qed.

  Lemma b_big h b v f bi bits : bext b0 h0 h b v f ->
    match big_int_field_bytes bi bits with
    | Some l => exists h' b', h_add_big_int grow h b bi bits = Ok (h', b') /\ bext b0 h0 h' b' (v ++ next_fid f :: l) (next_fid f)
    | None => h_add_big_int grow h b bi bits = Panic
    end.
  Proof.
    intros E. unfold big_int_field_bytes, h_add_big_int.
    destruct (h_put_field_id grow h b) as [h1 b1] eqn:P. eapply b_fid in P; [|exact E].
    destruct (h_append grow h1 b1 _) as [h2 b2] eqn:Q. eapply b_append in Q; [|exact P].
    destruct (h_zeros grow _ h2 b2) as [h3 b3] eqn:R. eapply b_zeros in R; [|exact Q].
    destruct (N.ltb _ _); [|reflexivity].
    pose proof (b_put _ _ _ _ _ (be_bytes (N.to_nat (bits / 8)) (Z.to_N (Z.abs bi))) R ltac:(rewrite be_bytes_length, repeat_length; reflexivity)) as S1.
    destruct (Z.ltb_spec bi 0); eexists _, _; (split; [reflexivity|]).
    - eapply b_put in S1; [rewrite <- !app_assoc in S1; exact S1|]. now rewrite map_length.
    - rewrite <- !app_assoc in S1. exact S1.
  Qed.

  (** One call that changes nothing in place, against the builder as a value. *)
  Lemma b_step h b v f x : bext b0 h0 h b v f -> ~ in_place x -> Forall (fun s => sl_ok h0 s /\ apart (hb_buff b0) s) (step_slices x) ->
    match add_field (KB (sl_read h0 (hb_buff b0) ++ v) f) (step_value h0 x) with
    | Ok k => exists h' b' v', h_step grow h b x = Ok (h', b') /\ k = KB (sl_read h0 (hb_buff b0) ++ v') (next_fid f) /\ bext b0 h0 h' b' v' (next_fid f)
    | Err e => h_step grow h b x = Err e
    | Panic => h_step grow h b x = Panic
    | Diverge => h_step grow h b x = Diverge
    end.
  Proof.
    intros E NP SL. destruct x as [y|s|s d].
    - cbn [step_value h_step]. destruct y; cbn [add_field].
      1-3: match goal with |- context [h_add_int ?gr ?w ?g ?c ?i] => destruct (h_add_int gr w g c i) as [h' b'] eqn:H; eapply b_int in H; [|eassumption] end;
        eexists _, _, _; split; [reflexivity|split; [|exact H]]; unfold add_int64, add_int32, add_int16, kb_append, put_field_id; cbn [kb_buff kb_fid]; now rewrite <- !app_assoc.
      1-3: match goal with |- context [h_add_uint ?gr ?w ?g ?c ?i] => destruct (h_add_uint gr w g c i) as [h' b'] eqn:H; eapply b_uint in H; [|eassumption] end;
        eexists _, _, _; split; [reflexivity|split; [|exact H]]; unfold add_uint64, add_uint32, add_uint16, kb_append, put_field_id; cbn [kb_buff kb_fid]; now rewrite <- !app_assoc.
      + destruct (h_add_string grow h b [b1]) as [h' b'] eqn:H. eapply b_string in H; [|exact E].
        eexists _, _, _; split; [reflexivity|split; [|exact H]]; unfold add_byte, kb_append, put_field_id; cbn [kb_buff kb_fid]; now rewrite <- !app_assoc.
      + destruct (h_add_string grow h b l) as [h' b'] eqn:H. eapply b_string in H; [|exact E].
        eexists _, _, _; split; [reflexivity|split; [|exact H]]; unfold add_bytes, kb_append, put_field_id; cbn [kb_buff kb_fid]; now rewrite <- !app_assoc.
      + pose proof (b_big h b v f i bits E) as B. unfold add_big_int. destruct (big_int_field_bytes i bits) as [l|]; auto.
        destruct B as (h' & b' & B1 & B2). eexists _, _, _; split; [exact B1|split; [|exact B2]]; unfold kb_append, put_field_id; cbn [kb_buff kb_fid]; now rewrite <- !app_assoc.
    - cbn [step_value h_step add_field step_slices] in *. inversion SL as [|? ? [O AP] _]; subst.
      destruct (h_add_bytes grow h b s) as [h' b'] eqn:H. eapply b_bytes in H; eauto.
      eexists _, _, _; split; [reflexivity|split; [|exact H]]; unfold add_bytes, kb_append, put_field_id; cbn [kb_buff kb_fid]; now rewrite <- !app_assoc.
    - destruct d; [destruct NP; exact Logic.I|]. cbn [step_value h_step add_field step_slices] in *. inversion SL as [|? ? [O AP] _]; subst.
      destruct (h_order_bytes grow h b s false) as [h' b'] eqn:H. eapply b_bytes in H; eauto.
      eexists _, _, _; split; [reflexivity|split; [|exact H]]; unfold add_bytes, kb_append, put_field_id; cbn [kb_buff kb_fid]; now rewrite <- !app_assoc.
  Qed.

  Lemma b_run xs : forall h b v f, bext b0 h0 h b v f -> Forall (fun x => ~ in_place x) xs ->
    Forall (fun x => Forall (fun s => sl_ok h0 s /\ apart (hb_buff b0) s) (step_slices x)) xs ->
    match add_fields (KB (sl_read h0 (hb_buff b0) ++ v) f) (map (step_value h0) xs) with
    | Ok k => exists h' b' v' f', h_run grow h b xs = Ok (h', b') /\ k = KB (sl_read h0 (hb_buff b0) ++ v') f' /\ bext b0 h0 h' b' v' f'
    | Err e => h_run grow h b xs = Err e
    | Panic => h_run grow h b xs = Panic
    | Diverge => h_run grow h b xs = Diverge
    end.
  Proof.
    induction xs as [|x xs IH]; intros h b v f E NP SL; cbn [map add_fields h_run].
    - exists h, b, v, f. auto.
    - inversion NP; subst. inversion SL; subst. pose proof (b_step h b v f x E) as ST. destruct (add_field _ _) as [k|e| |].
      + destruct ST as (h' & b' & v' & R & -> & E'); auto. rewrite R. now apply IH.
      + now rewrite ST.
      + now rewrite ST.
      + now rewrite ST.
  Qed.
End Builder.

(** A chain of calls without OrderBytes DESC: the value, and everything else unchanged. *)
Lemma chain grow h b xs : sl_ok h (hb_buff b) -> Forall (fun x => ~ in_place x) xs ->
  Forall (fun x => Forall (fun s => sl_ok h s /\ apart (hb_buff b) s) (step_slices x)) xs ->
  match add_fields (KB (sl_read h (hb_buff b)) (hb_fid b)) (map (step_value h) xs) with
  | Ok k => exists h' b', h_run grow h b xs = Ok (h', b') /\ KB (sl_read h' (hb_buff b')) (hb_fid b') = k /\ sl_ok h' (hb_buff b') /\
      forall t, sl_ok h t -> apart (hb_buff b) t -> sl_read h' t = sl_read h t /\ sl_ok h' t
  | r => match h_run grow h b xs with Ok _ => False | Err e => r = Err e | Panic => r = Panic | Diverge => r = Diverge end
  end.
Proof.
  intros O NP SL. pose proof (b_run grow b h O xs h b [] (hb_fid b) (conj (ext_refl h _ O) eq_refl) NP SL) as R. rewrite app_nil_r in R.
  destruct (add_fields _ _) as [k|e| |]; try now rewrite R.
  destruct R as (h' & b' & v' & f' & R & -> & E & F). exists h', b'. split; auto. destruct E as [FR OK W L RD]. rewrite RD, F.
  split; auto. split; auto. intros t OT AT. eapply frame_read; eauto.
Qed.

(** A builder without free room can be extended twice. *)
Lemma full_builder grow h b xs ys h1 b1 h2 b2 : sl_ok h (hb_buff b) -> sl_len (hb_buff b) = sl_cap (hb_buff b) ->
  Forall (fun x => ~ in_place x) (xs ++ ys) -> Forall (fun x => Forall (sl_ok h) (step_slices x)) (xs ++ ys) ->
  h_run grow h b xs = Ok (h1, b1) -> h_run grow h1 b ys = Ok (h2, b2) ->
  add_fields (KB (sl_read h (hb_buff b)) (hb_fid b)) (map (step_value h) xs) = Ok (KB (sl_read h2 (hb_buff b1)) (hb_fid b1)) /\
  add_fields (KB (sl_read h (hb_buff b)) (hb_fid b)) (map (step_value h) ys) = Ok (KB (sl_read h2 (hb_buff b2)) (hb_fid b2)).
Proof.
  intros O FU NP SL R1 R2. assert (AP : forall t, apart (hb_buff b) t) by (intros t; right; intros i; lia).
  apply Forall_app in NP. apply Forall_app in SL. destruct NP as [N1 N2], SL as [S1 S2].
  assert (G : forall (h : heap byte) zs, Forall (fun x => Forall (sl_ok h) (step_slices x)) zs -> Forall (fun x => Forall (fun s => sl_ok h s /\ apart (hb_buff b) s) (step_slices x)) zs).
  { intros h' zs F. eapply Forall_impl; [|exact F]. intros x FX. eapply Forall_impl; [|exact FX]. auto. }
  pose proof (chain grow h b xs O N1 (G _ _ S1)) as C1. rewrite R1 in C1.
  destruct (add_fields (KB (sl_read h (hb_buff b)) (hb_fid b)) (map (step_value h) xs)) as [k1|e| |]; try contradiction.
  destruct C1 as (h1' & b1' & E1 & <- & OK1 & F1). injection E1 as <- <-.
  assert (S2' : Forall (fun x => Forall (sl_ok h1) (step_slices x)) ys).
  { eapply Forall_impl; [|exact S2]. intros x FX. eapply Forall_impl; [|exact FX]. intros t OT. now apply F1. }
  assert (V : map (step_value h1) ys = map (step_value h) ys).
  { apply map_ext_in. intros x IX. rewrite Forall_forall in S2. specialize (S2 x IX). destruct x as [y|s|s d]; auto; cbn in *; inversion S2; subst; now rewrite (proj1 (F1 s ltac:(auto) (AP s))). }
  destruct (F1 (hb_buff b) O (AP _)) as [RB OB].
  pose proof (chain grow h1 b ys OB N2 (G _ _ S2')) as C2. rewrite R2, RB, V in C2.
  destruct (add_fields (KB (sl_read h (hb_buff b)) (hb_fid b)) (map (step_value h) ys)) as [k2|e| |]; try contradiction.
  destruct C2 as (h2' & b2' & E2 & <- & OK2 & F2). injection E2 as <- <-.
  now rewrite (proj1 (F2 (hb_buff b1) OK1 (AP _))).
Qed.

(** Any builder with room for one more field of one byte: the second extension overwrites the first. *)
Lemma shared_builder grow h b x y : sl_ok h (hb_buff b) -> sl_len (hb_buff b) + 2 <= sl_cap (hb_buff b) ->
  exists h1 b1 h2 b2, h_run grow h b [SVal (FByte x)] = Ok (h1, b1) /\ h_run grow h1 b [SVal (FByte y)] = Ok (h2, b2) /\
  sl_read h1 (hb_buff b1) = sl_read h (hb_buff b) ++ [next_fid (hb_fid b); x] /\
  sl_read h2 (hb_buff b1) = sl_read h (hb_buff b) ++ [next_fid (hb_fid b); y].
Proof.
  intros O RM.
  assert (K : forall g u, sl_ok g (hb_buff b) -> exists g' c, h_run grow g b [SVal (FByte u)] = Ok (g', c) /\ hb_buff c = Slc (sl_arr (hb_buff b)) (sl_off (hb_buff b)) (sl_len (hb_buff b) + 2) (sl_cap (hb_buff b))).
  { intros g u OG. cbn [h_run h_step]. unfold h_add_string, h_put_field_id, h_append, sl_append. cbn [length].
    destruct (Nat.leb_spec (sl_len (hb_buff b) + 1) (sl_cap (hb_buff b))); [|lia]. cbn [hb_buff sl_len sl_cap sl_arr sl_off].
    destruct (Nat.leb_spec (sl_len (hb_buff b) + 1 + 1) (sl_cap (hb_buff b))); [|lia].
    eexists _, _. split; [reflexivity|]. cbn. f_equal. lia. }
  destruct (K h x O) as (h1 & b1 & R1 & B1).
  pose proof (b_run grow b h O [SVal (FByte x)] h b [] (hb_fid b) (conj (ext_refl h _ O) eq_refl) ltac:(repeat constructor; intros []) ltac:(repeat constructor)) as C1.
  cbn [map step_value add_fields add_field] in C1. destruct C1 as (h1' & b1' & v1 & f1 & E1 & V1 & X1 & _). rewrite R1 in E1. injection E1 as <- <-.
  assert (AB : apart (hb_buff b) (hb_buff b)) by (right; intros i; lia).
  destruct (frame_read _ _ _ (hb_buff b) (ex_frame _ _ _ _ _ X1) O AB) as [RB OB].
  destruct (K h1 y OB) as (h2 & b2 & R2 & B2).
  pose proof (b_run grow b h1 OB [SVal (FByte y)] h1 b [] (hb_fid b) (conj (ext_refl h1 _ OB) eq_refl) ltac:(repeat constructor; intros []) ltac:(repeat constructor)) as C2.
  cbn [map step_value add_fields add_field] in C2. destruct C2 as (h2' & b2' & v2 & f2 & E2 & V2 & X2 & _). rewrite R2 in E2. injection E2 as <- <-.
  exists h1, b1, h2, b2. split; [exact R1|]. split; [exact R2|]. rewrite app_nil_r in *.
  unfold add_byte, kb_append, put_field_id in V1, V2. cbn [kb_buff kb_fid] in V1, V2. injection V1 as V1 _. injection V2 as V2 _.
  split.
  - rewrite (ex_read _ _ _ _ _ X1), <- V1, <- app_assoc. reflexivity.
  - rewrite B1, <- B2. rewrite (ex_read _ _ _ _ _ X2), <- V2, <- app_assoc, RB. reflexivity.
Qed.

(** ** OrderBytes DESC *)
Lemma complement_read h s : sl_ok h s -> sl_read (sl_write h s 0 (map byte_not (sl_read h s))) s = map byte_not (sl_read h s) /\
  length (sl_write h s 0 (map byte_not (sl_read h s))) = length h /\
  forall t, sl_ok h t -> sl_ok (sl_write h s 0 (map byte_not (sl_read h s))) t /\
    (sl_arr t <> sl_arr s \/ sl_off t + sl_len t <= sl_off s \/ sl_off s + sl_len s <= sl_off t -> sl_read (sl_write h s 0 (map byte_not (sl_read h s))) t = sl_read h t).
Proof.
  intros O. pose proof (read_length h s O) as RL. set (c := map byte_not (sl_read h s)). assert (CL : length c = sl_len s) by (unfold c; now rewrite map_length).
  destruct c as [|c0 c'] eqn:C.
  - cbn [sl_write]. split; [|split; auto]. cbn in CL. unfold sl_read. now rewrite <- CL.
  - rewrite <- C in *. assert (W : sl_write h s 0 c = set_cells h (sl_arr s) (overwrite (cells h (sl_arr s)) (sl_off s) c)).
    { unfold sl_write. rewrite C, Nat.add_0_r. reflexivity. }
    assert (P : 0 < sl_len s) by (rewrite <- CL, C; cbn; lia). destruct O as [OL [O|[O1 O2]]]; [lia|].
    assert (B : sl_off s + length c <= length (cells h (sl_arr s))) by (unfold cells; lia).
    rewrite W. split; [|split].
    + apply list_ext. intros i. rewrite read_nth, set_cells_same, overwrite_nth by auto.
      destruct (Nat.ltb_spec i (sl_len s)).
      * destruct (Nat.leb_spec (sl_off s) (sl_off s + i)); [|lia]. destruct (Nat.ltb_spec (sl_off s + i) (sl_off s + length c)); [|lia]. cbn. f_equal. lia.
      * symmetry. apply nth_error_None. lia.
    + now apply set_cells_length.
    + intros t [TL TO]. split.
      * split; auto. destruct TO as [TO|[T1 T2]]; [now left|right]. rewrite set_cells_length by auto. split; auto.
        change (sl_off t + sl_cap t <= length (cells (set_cells h (sl_arr s) (overwrite (cells h (sl_arr s)) (sl_off s) c)) (sl_arr t))).
        destruct (Nat.eq_dec (sl_arr t) (sl_arr s)) as [E|N]; [|now rewrite set_cells_other by auto].
        rewrite E, set_cells_same, overwrite_length by auto. rewrite <- E. exact T2.
      * intros D. apply list_ext. intros i. rewrite !read_nth. destruct (Nat.ltb_spec i (sl_len t)); auto.
        destruct (Nat.eq_dec (sl_arr t) (sl_arr s)) as [E|N]; [|now rewrite set_cells_other by auto].
        rewrite E, set_cells_same, overwrite_nth by auto.
        destruct (Nat.leb_spec (sl_off s) (sl_off t + i)), (Nat.ltb_spec (sl_off t + i) (sl_off s + length c)); cbn [andb]; auto. lia.
Qed.

(** The key is right the first time, and the caller's bytes are complemented afterwards. *)
Lemma order_bytes_in_place grow h b s : sl_ok h (hb_buff b) -> sl_ok h s -> 
  (sl_arr s <> sl_arr (hb_buff b) \/ sl_off s + sl_len s <= sl_off (hb_buff b) \/ sl_off (hb_buff b) + sl_cap (hb_buff b) <= sl_off s) ->
  exists h' b', h_run grow h b [SOrderBytes s true] = Ok (h', b') /\
  KB (sl_read h' (hb_buff b')) (hb_fid b') = fst (order_bytes (KB (sl_read h (hb_buff b)) (hb_fid b)) (sl_read h s) true) /\
  sl_read h' s = snd (order_bytes (KB (sl_read h (hb_buff b)) (hb_fid b)) (sl_read h s) true).
Proof.
  intros OB OS D. destruct (complement_read h s OS) as (R & L & F). cbn [h_run h_step]. unfold h_order_bytes.
  set (h1 := sl_write h s 0 (map byte_not (sl_read h s))) in *.
  destruct (F _ OB) as [OB1 RB1]. rewrite <- RB1 by (destruct OB as [OB _]; lia). clear RB1. destruct (F _ OS) as [OS1 _].
  assert (AP : apart (hb_buff b) s).
  { destruct D as [D|D]; [now left|right]. intros i. destruct OB1. lia. }
  destruct (h_add_bytes grow h1 b s) as [h' b'] eqn:H.
  pose proof (b_bytes grow b h1 OB1 h1 b [] (hb_fid b) s h' b' (conj (ext_refl h1 _ OB1) eq_refl) OS1 AP H) as [E FI].
  exists h', b'. split; auto. unfold order_bytes, add_bytes, kb_append, put_field_id. cbn [fst snd kb_buff kb_fid].
  rewrite (ex_read _ _ _ _ _ E), FI. rewrite R. cbn [app]. split; [now rewrite <- app_assoc|].
  rewrite (proj1 (frame_read _ _ _ s (ex_frame _ _ _ _ _ E) OS1 AP)). exact R.
Qed.

(** ** Queries *)
Lemma q_ext {Q} grow z (h0 : heap (hquery Q)) (q0 : hquery Q) xs : sl_ok h0 (hq_inter q0) -> forall h q v h' q',
  ext (hq_inter q0) h0 h (hq_inter q) v -> hq_run grow z h q xs = (h', q') ->
  exists w, ext (hq_inter q0) h0 h' (hq_inter q') (v ++ w) /\ q_chain (hq_val q) (sl_read h0 (hq_inter q0) ++ v) xs = (hq_val q', sl_read h' (hq_inter q')).
Proof.
  intros O. induction xs as [|x xs IH]; intros h q v h' q' E R; cbn [hq_run q_chain] in *.
  - injection R as <- <-. exists []. rewrite app_nil_r. split; auto. f_equal. symmetry. apply (ex_read _ _ _ _ _ E).
  - destruct x as [qs|f]; cbn [hq_step] in R.
    + destruct (sl_append grow z h (hq_inter q) qs) as [h1 s1] eqn:AP. eapply ext_append in AP; [|exact O|exact E].
      destruct (IH _ (HQ (hq_val q) s1) _ _ _ AP R) as (w & W1 & W2). exists (qs ++ w). rewrite app_assoc. split; auto.
      cbn [hq_val] in W2. now rewrite <- app_assoc.
    + destruct (IH _ (HQ (f (hq_val q)) (hq_inter q)) _ _ _ E R) as (w & W1 & W2). exists w. auto.
Qed.

Lemma q_chain_ok {Q} grow z (h : heap (hquery Q)) (q : hquery Q) xs h' q' : sl_ok h (hq_inter q) -> hq_run grow z h q xs = (h', q') ->
  q_chain (hq_val q) (sl_read h (hq_inter q)) xs = (hq_val q', sl_read h' (hq_inter q')) /\ sl_ok h' (hq_inter q') /\
  forall t, sl_ok h t -> apart (hq_inter q) t -> sl_read h' t = sl_read h t /\ sl_ok h' t.
Proof.
  intros O R. destruct (q_ext grow z h q xs O h q [] h' q' (ext_refl h _ O) R) as (w & W1 & W2). rewrite app_nil_r in W2.
  split; auto. split; [apply W1|]. intros t OT AT. eapply frame_read; eauto. apply W1.
Qed.

Lemma q_full {Q} grow z (h : heap (hquery Q)) (q : hquery Q) xs ys h1 q1 h2 q2 : sl_ok h (hq_inter q) -> sl_len (hq_inter q) = sl_cap (hq_inter q) ->
  hq_run grow z h q xs = (h1, q1) -> hq_run grow z h1 q ys = (h2, q2) ->
  q_chain (hq_val q) (sl_read h (hq_inter q)) xs = (hq_val q1, sl_read h2 (hq_inter q1)) /\
  q_chain (hq_val q) (sl_read h (hq_inter q)) ys = (hq_val q2, sl_read h2 (hq_inter q2)).
Proof.
  intros O FU R1 R2. assert (AP : forall t, apart (hq_inter q) t) by (intros t; right; intros i; lia).
  destruct (q_chain_ok grow z h q xs h1 q1 O R1) as (C1 & O1 & F1). destruct (F1 _ O (AP _)) as [RB OB].
  destruct (q_chain_ok grow z h1 q ys h2 q2 OB R2) as (C2 & O2 & F2). rewrite RB in C2. rewrite (proj1 (F2 _ O1 (AP _))). auto.
Qed.

(** Three intersects in a row leave room for a fourth; the second fourth overwrites the first. *)
Lemma q_shared {Q} (v : Q) (a b c d e : hquery Q) : d <> e -> exists h q h1 q1 h2 q2,
  hq_run (fun old n => 2 * old - n) a [] (HQ v (Slc 0 0 0 0)) [QIntersects [a]; QIntersects [b]; QIntersects [c]] = (h, q) /\
  hq_run (fun old n => 2 * old - n) a h q [QIntersects [d]] = (h1, q1) /\ hq_run (fun old n => 2 * old - n) a h1 q [QIntersects [e]] = (h2, q2) /\
  sl_read h1 (hq_inter q1) = [a; b; c; d] /\ sl_read h2 (hq_inter q1) = [a; b; c; e].
Proof. intros N. eexists _, _, _, _, _, _. split; [reflexivity|]. split; [reflexivity|]. split; [reflexivity|]. split; reflexivity. Qed.

(** Keys of the same record are the same every time. *)
Lemma again grow h b xs h1 b1 b2 h2 b3 : sl_ok h (hb_buff b) -> Forall (fun x => ~ in_place x) xs ->
  Forall (fun x => Forall (fun s => sl_ok h s /\ apart (hb_buff b) s /\ apart (hb_buff b2) s) (step_slices x)) xs ->
  h_run grow h b xs = Ok (h1, b1) ->
  sl_ok h1 (hb_buff b2) -> sl_read h1 (hb_buff b2) = sl_read h (hb_buff b) -> hb_fid b2 = hb_fid b ->
  h_run grow h1 b2 xs = Ok (h2, b3) -> sl_read h2 (hb_buff b3) = sl_read h1 (hb_buff b1).
Proof.
  intros O NP SL R1 O2 RB FB R2.
  assert (S1 : Forall (fun x => Forall (fun s => sl_ok h s /\ apart (hb_buff b) s) (step_slices x)) xs).
  { eapply Forall_impl; [|exact SL]. intros x FX. eapply Forall_impl; [|exact FX]. intros t (T1 & T2 & T3). auto. }
  pose proof (chain grow h b xs O NP S1) as C1. rewrite R1 in C1.
  destruct (add_fields (KB (sl_read h (hb_buff b)) (hb_fid b)) (map (step_value h) xs)) as [k1|e| |] eqn:A1; try contradiction.
  destruct C1 as (h1' & b1' & E1 & K1 & OK1 & F1). injection E1 as <- <-.
  assert (S2 : Forall (fun x => Forall (fun s => sl_ok h1 s /\ apart (hb_buff b2) s) (step_slices x)) xs).
  { eapply Forall_impl; [|exact SL]. intros x FX. eapply Forall_impl; [|exact FX]. intros t (T1 & T2 & T3). split; auto. now apply F1. }
  assert (V : map (step_value h1) xs = map (step_value h) xs).
  { apply map_ext_in. intros x IX. rewrite Forall_forall in S1. specialize (S1 x IX).
    destruct x as [y|s|s d]; auto; cbn in *; inversion S1 as [|? ? [T1 T2]]; subst; now rewrite (proj1 (F1 s T1 T2)). }
  pose proof (chain grow h1 b2 xs O2 NP S2) as C2. rewrite R2, RB, FB, V, A1 in C2.
  destruct C2 as (h2' & b2' & E2 & K2 & _). injection E2 as <- <-. congruence.
Qed.

Lemma byte_not_differs x : byte_not x <> x.
Proof. destruct x; discriminate. Qed.
Lemma byte_not_involutive x : byte_not (byte_not x) = x.
Proof. destruct x; reflexivity. Qed.

Lemma complement_differs l : l <> [] -> map byte_not l <> l.
Proof. destruct l as [|x l]; intros N E; [now apply N|]. injection E as E _. now apply byte_not_differs in E. Qed.

(** Two keys of one record with OrderBytes DESC. *)
Lemma desc_twice grow h s : sl_ok h s -> 0 < sl_len s -> exists h1 b1 h2 b2, let b := HKB (Slc 0 0 0 0) x00 in
  h_run grow h b [SOrderBytes s true] = Ok (h1, b1) /\ h_run grow h1 b [SOrderBytes s true] = Ok (h2, b2) /\
  sl_read h1 s <> sl_read h s /\ sl_read h2 (hb_buff b2) <> sl_read h1 (hb_buff b1) /\ sl_read h2 s = sl_read h s.
Proof.
  intros O P. set (b := HKB (Slc 0 0 0 0) x00).
  assert (NB : forall g : heap byte, sl_ok g (hb_buff b)) by (intros g; split; [auto|left; reflexivity]).
  assert (D : sl_arr s <> sl_arr (hb_buff b) \/ sl_off s + sl_len s <= sl_off (hb_buff b) \/ sl_off (hb_buff b) + sl_cap (hb_buff b) <= sl_off s) by (right; right; cbn; lia).
  destruct (order_bytes_in_place grow h b s (NB h) O D) as (h1 & b1 & R1 & K1 & V1).
  assert (O1 : sl_ok h1 s).
  { cbn [h_run h_step] in R1. unfold h_order_bytes in R1. destruct (complement_read h s O) as (_ & _ & F). destruct (F s O) as [OS _].
    set (g := sl_write h s 0 (map byte_not (sl_read h s))) in *.
    destruct (h_add_bytes grow g b s) as [g1 c1] eqn:H. injection R1 as <- <-.
    assert (AP : apart (hb_buff b) s) by (right; intros i; cbn; lia).
    pose proof (b_bytes grow b g (NB g) g b [] (hb_fid b) s g1 c1 (conj (ext_refl g _ (NB g)) eq_refl) OS AP H) as [E _].
    apply (frame_read _ _ _ s (ex_frame _ _ _ _ _ E) OS AP). }
  destruct (order_bytes_in_place grow h1 b s (NB h1) O1 D) as (h2 & b2 & R2 & K2 & V2).
  exists h1, b1, h2, b2. split; [exact R1|]. split; [exact R2|].
  assert (NE : sl_read h s <> []) by (intros E; pose proof (read_length h s O) as L; rewrite E in L; cbn in L; lia).
  unfold order_bytes in *. cbn [snd fst] in *. rewrite V1 in *. split; [now apply complement_differs|]. split.
  - injection K1 as K1 _. injection K2 as K2 _. rewrite K1, K2. unfold add_bytes, kb_append. cbn [kb_buff put_field_id]. cbn [sl_read sl_len hb_buff b firstn app hb_fid].
    intros E. injection E as E. apply (complement_differs (map byte_not (sl_read h s))); auto. destruct (sl_read h s); [now destruct NE|discriminate].
  - rewrite V2. rewrite map_map. erewrite map_ext; [apply map_id|]. apply byte_not_involutive.
Qed.
