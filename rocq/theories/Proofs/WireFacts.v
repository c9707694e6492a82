(** The handler of the inspector answers every request. *)

From Coq Require Import Strings.String Strings.Byte List NArith ZArith Bool Arith Lia.
From Verif.Model Require Import Bytes Go Inspect Remote.
From Verif.Spec Require Import RemoteSpec CliSpec WireSpec.
From Verif.Proofs Require Import BytesFacts RemoteFacts CliFacts.
Import ListNotations.
Local Open Scope list_scope.

(** ** Names *)

Definition low (c : byte) : byte := if ((65 <=? b2n c) && (b2n c <=? 90))%N%bool then n2b (b2n c + 32) else c.

Lemma fold_view k : match k with
  | [] => fold_name k = []
  | c :: k' => (exists k2, k = xc5 :: xbf :: k2 /\ fold_name k = x73 :: fold_name k2) \/
               (exists k2, k = xe2 :: x84 :: xaa :: k2 /\ fold_name k = x6b :: fold_name k2) \/
               fold_name k = low c :: fold_name k'
  end.
Proof.
  destruct k as [|c k1]; [reflexivity|]. destruct k1 as [|d k2]; [right; right; reflexivity|]. cbn [fold_name]. fold (fold_name (d :: k2)).
  destruct (Byte.eqb c xc5 && Byte.eqb d xbf)%bool eqn:E.
  { apply andb_true_iff in E as [E1 E2]. apply Byte.byte_dec_bl in E1, E2. subst. left. exists k2. split; reflexivity. }
  destruct k2 as [|e k3]; [right; right; reflexivity|].
  destruct (Byte.eqb c xe2 && Byte.eqb d x84 && Byte.eqb e xaa)%bool eqn:E'; [|right; right; reflexivity].
  apply andb_true_iff in E' as [E' E3]. apply andb_true_iff in E' as [E1 E2]. apply Byte.byte_dec_bl in E1, E2, E3. subst. right. left. exists k3. split; reflexivity.
Qed.

Lemma fold_plain c k : (b2n c < 128)%N -> fold_name (c :: k) = low c :: fold_name k.
Proof.
  intro L. destruct (fold_view (c :: k)) as [(k2 & E & _)|[(k2 & E & _)|E]]; [injection E as -> _; vm_compute in L; discriminate L|injection E as -> _; vm_compute in L; discriminate L|exact E].
Qed.

Lemma low_num c : b2n (low c) = (if ((65 <=? b2n c) && (b2n c <=? 90))%N%bool then b2n c + 32 else b2n c)%N.
Proof.
  unfold low. destruct ((65 <=? b2n c)%N) eqn:A; [|reflexivity]. destruct ((b2n c <=? 90)%N) eqn:B; [|reflexivity]. cbn [andb].
  apply N.leb_le in A, B. rewrite b2n_n2b. apply N.mod_small. lia.
Qed.

Lemma low_same a b : low a = low b <-> a = b \/ (65 <= b2n a <= 90 /\ b2n b = b2n a + 32)%N \/ (65 <= b2n b <= 90 /\ b2n a = b2n b + 32)%N.
Proof.
  assert (I : low a = low b <-> b2n (low a) = b2n (low b)) by (split; [now intros ->|apply b2n_inj]).
  assert (J : a = b <-> b2n a = b2n b) by (split; [now intros ->|apply b2n_inj]).
  rewrite I, J, !low_num.
  destruct (N.leb_spec 65 (b2n a)), (N.leb_spec (b2n a) 90), (N.leb_spec 65 (b2n b)), (N.leb_spec (b2n b) 90); cbn [andb]; lia.
Qed.

Definition ascii (n : bytes) : Prop := forall c, In c n -> (b2n c < 128)%N.

Lemma spelled_fold n k : ascii n -> spelled n k -> fold_name k = fold_name n.
Proof.
  intros A S. induction S as [|c n k S IH|a b n k L S IH|c n k L S IH|c n k L S IH].
  - reflexivity.
  - assert (B : (b2n c < 128)%N) by (apply A; now left). rewrite !fold_plain by exact B. rewrite IH; [reflexivity|]. intros x H. apply A. now right.
  - assert (B : (b2n a < 128)%N) by (apply A; now left). rewrite (fold_plain a) by exact B. rewrite (fold_plain b) by lia. rewrite IH by (intros x H; apply A; now right).
    f_equal. apply low_same. lia.
  - assert (B : (b2n c < 128)%N) by (apply A; now left). rewrite (fold_plain c) by exact B. change (fold_name (xc5 :: xbf :: k)) with (x73 :: fold_name k).
    rewrite IH by (intros x H; apply A; now right). f_equal. destruct L as [->| ->]; reflexivity.
  - assert (B : (b2n c < 128)%N) by (apply A; now left). rewrite (fold_plain c) by exact B. change (fold_name (xe2 :: x84 :: xaa :: k)) with (x6b :: fold_name k).
    rewrite IH by (intros x H; apply A; now right). f_equal. destruct L as [->| ->]; reflexivity.
Qed.

Lemma low_s c : low c = x73 -> c = "s"%byte \/ c = "S"%byte.
Proof. destruct c; vm_compute; intro H; try discriminate H; tauto. Qed.

Lemma low_k c : low c = x6b -> c = "k"%byte \/ c = "K"%byte.
Proof. destruct c; vm_compute; intro H; try discriminate H; tauto. Qed.

Lemma fold_spelled n k : ascii n -> fold_name k = fold_name n -> spelled n k.
Proof.
  revert k. induction n as [|c n IH]; intros k A E.
  - pose proof (fold_view k) as V. destruct k as [|d k]; [constructor|]. change (fold_name []) with (@nil byte) in E. destruct V as [(k2 & _ & V)|[(k2 & _ & V)|V]]; rewrite V in E; discriminate E.
  - assert (B : (b2n c < 128)%N) by (apply A; now left). rewrite fold_plain in E by exact B. assert (A' : ascii n) by (intros x H; apply A; now right).
    pose proof (fold_view k) as V. destruct k as [|d k]; [discriminate E|]. destruct V as [(k2 & K & V)|[(k2 & K & V)|V]]; rewrite V in E; try rewrite K.
    + apply (f_equal (hd x00)) in E as E1. apply (f_equal (@tl byte)) in E. cbn [hd tl] in *. apply sp_long; [apply low_s; now symmetry|]. now apply IH.
    + apply (f_equal (hd x00)) in E as E1. apply (f_equal (@tl byte)) in E. cbn [hd tl] in *. apply sp_kelvin; [apply low_k; now symmetry|]. now apply IH.
    + apply (f_equal (hd x00)) in E as E1. apply (f_equal (@tl byte)) in E. cbn [hd tl] in *. apply low_same in E1 as [->|E1]; [apply sp_same; now apply IH|].
      apply sp_case; [lia|]. now apply IH.
Qed.

Definition names6 : list string := ["table"; "index"; "indexSelector"; "filter"; "limit"; "after"]%string.

Lemma names_ascii n : In n names6 -> ascii (list_byte_of_string n).
Proof. intro H. cbn in H. repeat destruct H as [<-|H]; try destruct H; intros c I; cbn in I; repeat destruct I as [<-|I]; try destruct I; vm_compute; reflexivity. Qed.

Lemma matches_spelled n k : In n names6 -> beqb (fold_name k) (fold_name (list_byte_of_string n)) = true <-> spelled (list_byte_of_string n) k.
Proof.
  intro H. apply names_ascii in H. rewrite beqb_eq. split; [now apply fold_spelled|now apply spelled_fold].
Qed.

Lemma given_field o n j : In n names6 -> once o -> gives o n j <-> jfield o (list_byte_of_string n) = j.
Proof.
  intros H O. unfold jfield. set (f := fun e : bytes * json => beqb (fold_name (fst e)) (fold_name (list_byte_of_string n))).
  assert (F : forall e, f e = true <-> spelled (list_byte_of_string n) (fst e)) by (intro e; apply (matches_spelled n (fst e) H)).
  destruct (find f (rev o)) as [[k j0]|] eqn:E.
  - apply find_some in E as [I E]. apply in_rev in I. apply F in E. cbn [fst snd] in *. split.
    + intros [(k' & I' & S)|[_ N]]; [|now destruct (N k j0 I)].
      assert (X : (k', j) = (k, j0)); [|now injection X as _ ->].
      apply in_split in I as (l1 & l2 & ->). apply in_app_or in I' as [I'|[I'|I']]; [| now symmetry |].
      * exfalso. apply in_split in I' as (a & b & ->). refine (O n a (k', j) b (k, j0) l2 H _ S E). now rewrite <- app_assoc.
      * exfalso. apply in_split in I' as (a & b & ->). exact (O n l1 (k, j0) a (k', j) b H eq_refl E S).
    + intros <-. left. exists k. split; assumption.
  - split.
    + intros [(k & I & S)|[-> _]]; [|reflexivity]. exfalso. apply in_rev in I. apply (find_none _ _ E) in I. assert (T : f (k, j) = true) by (apply F; exact S). rewrite T in I. discriminate I.
    + intros <-. right. split; [reflexivity|]. intros k j' I S. apply in_rev in I. apply (find_none _ _ E) in I. assert (T : f (k, j') = true) by (apply F; exact S). rewrite T in I. discriminate I.
Qed.

(** ** Values *)

Lemma text_dec j s : text_of j s <-> dec_string j = Some s.
Proof.
  unfold text_of. split.
  - intros [->|[-> ->]]; reflexivity.
  - destruct j; cbn; intro H; try discriminate H; injection H as <-; [now right|now left].
Qed.

Lemma limit_dec j n : limit_of j n <-> dec_limit j = Some n.
Proof.
  unfold limit_of. split.
  - intros [[-> L]|[-> ->]]; [|reflexivity]. unfold dec_limit. replace (0 <=? Z.of_N n)%Z with true by (symmetry; apply Z.leb_le; lia).
    replace (Z.of_N n <? 2 ^ 64)%Z with true by (symmetry; apply Z.ltb_lt; lia). cbn [andb]. f_equal. lia.
  - destruct j as [| |z| | | |]; cbn [dec_limit]; intro H; try discriminate H; [injection H as <-; now right|].
    destruct (0 <=? z)%Z eqn:A; [|discriminate H]. destruct (z <? 2 ^ 64)%Z eqn:B; [|discriminate H]. cbn [andb] in H. injection H as <-.
    apply Z.leb_le in A. apply Z.ltb_lt in B. left. split; [f_equal; lia|lia].
Qed.

Lemma value_dec j v : value_of j v <-> dec_val j = Some v.
Proof.
  split; [intros []; reflexivity|]. destruct j; cbn [dec_val]; intro H; try discriminate H; injection H as <-; constructor.
Qed.

Lemma fields_dec j r : fields_of j r <-> dec_opts j = Some r.
Proof.
  assert (E : forall (o : list (bytes * json)) l, fold_right (fun e acc => match dec_val (snd e), acc with Some v, Some r => Some ((fst e, v) :: r) | _, _ => None end) (Some []) o = Some l <->
    Forall2 (fun e e' => fst e = fst e' /\ value_of (snd e) (snd e')) o l).
  { clear. induction o as [|[n j] o IH]; intro l; cbn [fold_right fst snd].
    - split; [intro H; injection H as <-; constructor|intro H; now inversion H].
    - split.
      + destruct (dec_val j) as [v|] eqn:V; [|discriminate]. match goal with |- context [fold_right ?f ?a ?b] => destruct (fold_right f a b) as [o'|] eqn:F end; [|discriminate].
        intro H. injection H as <-. constructor; [|now apply IH]. split; [reflexivity|]. now apply value_dec.
      + intro H. inversion H as [|? [n' v] ? o' [N V] H']; subst. cbn in N, V. subst. apply value_dec in V. apply IH in H'. rewrite V, H'. reflexivity. }
  destruct r as [l|]; cbn [fields_of]; split.
  - intros (o & -> & F). apply E in F. cbn [dec_opts]. now rewrite F.
  - destruct j as [| | | | | |o]; cbn [dec_opts]; try discriminate. match goal with |- context [fold_right ?f ?a ?b] => destruct (fold_right f a b) as [o'|] eqn:F end; [|discriminate].
    intro H. injection H as <-. exists o. split; [reflexivity|]. now apply E.
  - intros ->. reflexivity.
  - destruct j as [| | | | | |o]; cbn [dec_opts]; try discriminate; [reflexivity|]. match goal with |- context [fold_right ?f ?a ?b] => destruct (fold_right f a b) as [o'|] eqn:F end; discriminate.
Qed.

Lemma row_dec j r : fields_of j (option_map (map (fun e => (fst e, Some (snd e)))) r) <-> dec_row j = Some r.
Proof.
  assert (E : forall (o : list (bytes * json)) (l : row), fold_right (fun e acc => match dec_val (snd e), acc with Some (Some v), Some r => Some ((fst e, v) :: r) | _, _ => None end) (Some []) o = Some l <->
    Forall2 (fun e e' => fst e = fst e' /\ value_of (snd e) (snd e')) o (map (fun e => (fst e, Some (snd e))) l)).
  { clear. induction o as [|[n j] o IH]; intro l; cbn [fold_right fst snd].
    - split; [intro H; injection H as <-; constructor|]. intro H. inversion H. now destruct l.
    - split.
      + destruct (dec_val j) as [[v|]|] eqn:V; [|discriminate|discriminate]. match goal with |- context [fold_right ?f ?a ?b] => destruct (fold_right f a b) as [o'|] eqn:F end; [|discriminate].
        intro H. injection H as <-. constructor; [|now apply IH]. split; [reflexivity|]. now apply value_dec.
      + intro H. destruct l as [|[n' v] l]; inversion H as [|? ? ? o' [N V] H']; subst. cbn in N, V. subst. apply value_dec in V. apply IH in H'. rewrite V, H'. reflexivity. }
  destruct r as [l|]; cbn [fields_of option_map]; split.
  - intros (o & -> & F). apply E in F. cbn [dec_row]. now rewrite F.
  - destruct j as [| | | | | |o]; cbn [dec_row]; try discriminate. match goal with |- context [fold_right ?f ?a ?b] => destruct (fold_right f a b) as [o'|] eqn:F end; [|discriminate].
    intro H. injection H as <-. exists o. split; [reflexivity|]. now apply E.
  - intros ->. reflexivity.
  - destruct j as [| | | | | |o]; cbn [dec_row]; try discriminate; [reflexivity|]. match goal with |- context [fold_right ?f ?a ?b] => destruct (fold_right f a b) as [o'|] eqn:F end; discriminate.
Qed.

(** ** Requests *)

Definition once_body (q : hreq) : Prop := forall o, body_object q o -> once o.

Lemma object_dec q o : body_object q o <-> dec_obj (hq_body q) = Some o.
Proof.
  unfold body_object. split.
  - intros [->|[-> ->]]; reflexivity.
  - destruct (hq_body q) as [[]|]; cbn; intro H; try discriminate H; injection H as <-; [now right|now left].
Qed.

Ltac six := cbn; tauto.

Lemma table_dec q t : once_body q -> names_table q t <-> exists o, dec_obj (hq_body q) = Some o /\ dec_string (jfield o f_table) = Some t.
Proof.
  intro O. split.
  - intros (o & j & B & G & T). exists o. pose proof (O o B) as N. apply object_dec in B. split; [exact B|]. apply given_field in G; [|six|exact N]. unfold f_table. rewrite G. now apply text_dec.
  - intros (o & B & T). apply object_dec in B. pose proof (O o B) as N. exists o, (jfield o f_table). split; [exact B|]. split; [apply given_field; [six|exact N|reflexivity]|]. now apply text_dec.
Qed.

Lemma query_dec q t r : once_body q -> asks_query q t r <-> exists o, dec_obj (hq_body q) = Some o /\ dec_query o = Some (t, r).
Proof.
  intro O. split.
  - intros (o & jt & ji & js & jf & jl & ja & sel & B & Gt & Vt & Gi & Vi & Gs & Vs & Es & Gf & Vf & Gl & Vl & Ga & Va). exists o. pose proof (O o B) as N. apply object_dec in B.
    split; [exact B|]. apply given_field in Gt, Gi, Gs, Gf, Gl, Ga; try six; try exact N. unfold dec_query.
    change f_table with (list_byte_of_string "table"). change f_index with (list_byte_of_string "index"). change f_selector with (list_byte_of_string "indexSelector").
    change f_filter with (list_byte_of_string "filter"). change f_limit with (list_byte_of_string "limit"). change f_after with (list_byte_of_string "after").
    rewrite Gt, Gi, Gs, Gf, Gl, Ga. apply text_dec in Vt, Vi. apply fields_dec in Vs, Va. apply row_dec in Vf. apply limit_dec in Vl. rewrite Vt, Vi, Vs, Vf, Vl, Va.
    destruct r as [i s fs lim af]. cbn [rq_index rq_limit rq_sel rq_filter rq_after] in *. subst. reflexivity.
  - intros (o & B & D). apply object_dec in B. pose proof (O o B) as N. unfold dec_query in D.
    destruct (dec_string (jfield o f_table)) as [t0|] eqn:Vt; [|discriminate]. destruct (dec_string (jfield o f_index)) as [i|] eqn:Vi; [|discriminate].
    destruct (dec_opts (jfield o f_selector)) as [s|] eqn:Vs; [|discriminate]. destruct (dec_row (jfield o f_filter)) as [f|] eqn:Vf; [|discriminate].
    destruct (dec_limit (jfield o f_limit)) as [l|] eqn:Vl; [|discriminate]. destruct (dec_opts (jfield o f_after)) as [a|] eqn:Va; [|discriminate].
    injection D as <- <-. exists o, (jfield o f_table), (jfield o f_index), (jfield o f_selector), (jfield o f_filter), (jfield o f_limit), (jfield o f_after), s.
    cbn [rq_index rq_limit rq_sel rq_filter rq_after].
    repeat match goal with |- _ /\ _ => split end; try (apply given_field; [six|exact N|reflexivity]); try reflexivity; try exact B;
      (now apply text_dec) || (now apply fields_dec) || (now apply row_dec) || (now apply limit_dec).
Qed.

(** ** Responses *)

Lemma ends_dec s p : ends_in (list_byte_of_string s) p = true <-> ends_with s p.
Proof.
  unfold ends_in, ends_with. rewrite has_prefix_spec. split.
  - intros [r E]. exists (rev r). rewrite <- (rev_involutive p), E, rev_app_distr, rev_involutive. reflexivity.
  - intros [pre ->]. exists (rev pre). apply rev_app_distr.
Qed.

Lemma accepts_dec q : accepts q = true <-> wants_json (hq_accept q).
Proof.
  unfold accepts, wants_json. destruct (hq_accept q) as [|c a].
  - split; [now left|reflexivity].
  - rewrite beqb_eq. split; [now right|]. intros [H|H]; [discriminate H|exact H].
Qed.

Section Serve.
  Variable clean : bytes -> bytes.
  Variable err_text : error -> bytes.
  Variable tis : list tinfo.

  Lemma reply_answer {A} (as_json : A -> json -> Prop) (enc : A -> option json) r x : (forall a j, enc a = Some j <-> as_json a j) ->
    reply clean err_text as_json r x <-> answer clean err_text enc r = x.
  Proof.
    intro H. split.
    - intros [a j J|a N|e| |]; cbn [answer]; try reflexivity.
      + apply H in J. now rewrite J.
      + destruct (enc a) as [j|] eqn:E; [apply H in E; now destruct (N j)|reflexivity].
    - intros <-. destruct r as [a|e| |]; cbn [answer]; [|apply rp_err|apply rp_panic|apply rp_diverge]. destruct (enc a) as [j|] eqn:E; [apply rp_ok; now apply H|].
      apply rp_none. intros j J. apply H in J. congruence.
  Qed.

  Lemma names_enc_iff l j : Some (enc_strings clean l) = Some j <-> names_json clean l j.
  Proof.
    split; [intro H; injection H as <-; apply names_enc|]. intros [[-> ->]|[N (js & -> & F)]]; [reflexivity|]. destruct l as [|a l]; [now destruct N|]. cbn [enc_strings]. do 2 f_equal.
    clear N. induction F as [|s x l' js -> F IH]; [reflexivity|]. cbn [map]. now f_equal.
  Qed.

  Lemma kinds_enc_iff l j : Some (JObj (map (fun e : bytes * kind => (fst e, JStr (clean (kind_name (snd e))))) l)) = Some j <-> kinds_json clean l j.
  Proof.
    split.
    - intro H. injection H as <-. eexists. split; [reflexivity|]. induction l as [|x l IH]; constructor; [split; reflexivity|exact IH].
    - intros (o & -> & F). do 2 f_equal. induction F as [|a [n x] l o [E F] H IH]; [reflexivity|]. cbn [map fst snd] in *. subst. now f_equal.
  Qed.

  Lemma suffix_clash s1 s2 p : ends_with s1 p -> ends_with s2 p ->
    has_prefix (rev (list_byte_of_string s1)) (rev (list_byte_of_string s2)) = true \/ has_prefix (rev (list_byte_of_string s2)) (rev (list_byte_of_string s1)) = true.
  Proof.
    intros [a E] [b F]. rewrite E in F. apply (f_equal (@rev byte)) in F. rewrite !rev_app_distr in F. rewrite !has_prefix_spec.
    revert F. generalize (rev (list_byte_of_string s1)) (rev (list_byte_of_string s2)) (rev a) (rev b). clear. intro x. induction x as [|c x IH]; intros y u v F.
    - left. exists y. reflexivity.
    - destruct y as [|d y]; [right; exists (c :: x); reflexivity|]. cbn [app] in F. injection F as -> F. destruct (IH y u v F) as [[s ->]|[s ->]]; [left|right]; exists s; reflexivity.
  Qed.

  Ltac clash := exfalso; match goal with A : ends_with ?s1 ?p, B : ends_with ?s2 ?p |- _ => destruct (suffix_clash s1 s2 p A B) as [X|X]; vm_compute in X; discriminate X end.

  Ltac path_of p v := match goal with
    | H : ends_with v p |- _ => apply ends_dec in H as ?
    end.

  Lemma serve_responds q x : once_body q -> responds clean err_text tis q x <-> serve clean err_text tis q = x.
  Proof.
    intro O. unfold serve.
    change tables_path with (list_byte_of_string "/tables"). change indexes_path with (list_byte_of_string "/indexes").
    change fields_path with (list_byte_of_string "/entryFields"). change query_path with (list_byte_of_string "/query").
    pose proof (ends_dec "/tables" (hq_path q)) as D1. pose proof (ends_dec "/indexes" (hq_path q)) as D2.
    pose proof (ends_dec "/entryFields" (hq_path q)) as D3. pose proof (ends_dec "/query" (hq_path q)) as D4.
    pose proof (accepts_dec q) as D5.
    destruct (ends_in (list_byte_of_string "/tables") (hq_path q)) eqn:E1.
    { assert (P : ends_with "/tables" (hq_path q)) by tauto. unfold tables_handler. split.
      - intros [N _ _ _|j _ W J|_ W|[B|B] _|t [B|B] _ _|t r B _ _ _|t r B _ _ _|B _|t r B _ _|t rq r B _ _ _]; try clash; [contradiction| |].
        + rewrite (proj2 D5 W). cbn [answer]. apply names_enc_iff in J. unfold inspect_tables. now injection J as ->.
        + destruct (accepts q); [exfalso; tauto|reflexivity].
      - intros <-. destruct (accepts q).
        + cbn [answer]. apply rs_tables; [exact P|tauto|]. apply names_enc_iff. reflexivity.
        + apply rs_tables_other; [exact P|]. intro W. apply D5 in W. discriminate W. }
    assert (N1 : ~ ends_with "/tables" (hq_path q)) by (intro P; apply D1 in P; discriminate P).
    destruct (ends_in (list_byte_of_string "/indexes") (hq_path q)) eqn:E2.
    { assert (P : ends_with "/indexes" (hq_path q)) by tauto. unfold indexes_handler, with_table. split.
      - intros [_ N _ _|j B _ _|B _|_ N|t _ T W|t r _ T W R|t r B _ _ _|B _|t r B _ _|t rq r B _ _ _]; try clash; try contradiction.
        + destruct (dec_obj (hq_body q)) as [o|] eqn:B; [|reflexivity]. destruct (dec_string (jfield o f_table)) as [t|] eqn:S; [|reflexivity].
          destruct (N t). apply table_dec; [exact O|]. exists o. split; assumption.
        + apply table_dec in T as (o & -> & ->); [|exact O]. destruct (accepts q); [exfalso; tauto|reflexivity].
        + apply table_dec in T as (o & -> & ->); [|exact O]. rewrite (proj2 D5 W). apply (reply_answer _ _ _ _ names_enc_iff). exact R.
      - intros <-. destruct (dec_obj (hq_body q)) as [o|] eqn:B.
        2:{ apply rs_unreadable; [now left|]. intros t T. apply table_dec in T as (o & H & _); [congruence|exact O]. }
        destruct (dec_string (jfield o f_table)) as [t|] eqn:S.
        2:{ apply rs_unreadable; [now left|]. intros t T. apply table_dec in T as (o' & H & H'); [congruence|exact O]. }
        assert (T : names_table q t) by (apply table_dec; [exact O|]; exists o; split; assumption).
        destruct (accepts q).
        + apply (rs_indexes _ _ _ _ t); [exact P|exact T|tauto|]. apply (reply_answer _ _ _ _ names_enc_iff). reflexivity.
        + apply (rs_other _ _ _ _ t); [now left|exact T|]. intro W. apply D5 in W. discriminate W. }
    assert (N2 : ~ ends_with "/indexes" (hq_path q)) by (intro P; apply D2 in P; discriminate P).
    destruct (ends_in (list_byte_of_string "/entryFields") (hq_path q)) eqn:E3.
    { assert (P : ends_with "/entryFields" (hq_path q)) by tauto. unfold fields_handler, with_table. split.
      - intros [_ _ N _|j B _ _|B _|_ N|t _ T W|t r B _ _ _|t r _ T W R|B _|t r B _ _|t rq r B _ _ _]; try clash; try contradiction.
        + destruct (dec_obj (hq_body q)) as [o|] eqn:B; [|reflexivity]. destruct (dec_string (jfield o f_table)) as [t|] eqn:S; [|reflexivity].
          destruct (N t). apply table_dec; [exact O|]. exists o. split; assumption.
        + apply table_dec in T as (o & -> & ->); [|exact O]. destruct (accepts q); [exfalso; tauto|reflexivity].
        + apply table_dec in T as (o & -> & ->); [|exact O]. rewrite (proj2 D5 W). apply (reply_answer _ _ _ _ kinds_enc_iff). exact R.
      - intros <-. destruct (dec_obj (hq_body q)) as [o|] eqn:B.
        2:{ apply rs_unreadable; [now right|]. intros t T. apply table_dec in T as (o & H & _); [congruence|exact O]. }
        destruct (dec_string (jfield o f_table)) as [t|] eqn:S.
        2:{ apply rs_unreadable; [now right|]. intros t T. apply table_dec in T as (o' & H & H'); [congruence|exact O]. }
        assert (T : names_table q t) by (apply table_dec; [exact O|]; exists o; split; assumption).
        destruct (accepts q).
        + apply (rs_fields _ _ _ _ t); [exact P|exact T|tauto|]. apply (reply_answer _ _ _ _ kinds_enc_iff). reflexivity.
        + apply (rs_other _ _ _ _ t); [now right|exact T|]. intro W. apply D5 in W. discriminate W. }
    assert (N3 : ~ ends_with "/entryFields" (hq_path q)) by (intro P; apply D3 in P; discriminate P).
    destruct (ends_in (list_byte_of_string "/query") (hq_path q)) eqn:E4.
    { assert (P : ends_with "/query" (hq_path q)) by tauto. unfold query_handler. split.
      - intros [_ _ _ N|j B _ _|B _|[B|B] _|t [B|B] _ _|t r B _ _ _|t r B _ _ _|_ N|t r _ T W|t rq r _ T W R]; try contradiction.
        + destruct (dec_obj (hq_body q)) as [o|] eqn:B; [|reflexivity]. destruct (dec_query o) as [[t r]|] eqn:S; [|reflexivity].
          destruct (N t r). apply query_dec; [exact O|]. exists o. split; assumption.
        + apply query_dec in T as (o & -> & ->); [|exact O]. destruct (accepts q); [exfalso; tauto|reflexivity].
        + apply query_dec in T as (o & -> & ->); [|exact O]. rewrite (proj2 D5 W). apply (reply_answer _ _ _ _ (rows_enc clean)). exact R.
      - intros <-. destruct (dec_obj (hq_body q)) as [o|] eqn:B.
        2:{ apply rs_query_unreadable; [exact P|]. intros t r T. apply query_dec in T as (o & H & _); [congruence|exact O]. }
        destruct (dec_query o) as [[t r]|] eqn:S.
        2:{ apply rs_query_unreadable; [exact P|]. intros t r T. apply query_dec in T as (o' & H & H'); [congruence|exact O]. }
        assert (T : asks_query q t r) by (apply query_dec; [exact O|]; exists o; split; assumption).
        destruct (accepts q).
        + apply (rs_query _ _ _ _ t r); [exact P|exact T|tauto|]. apply (reply_answer _ _ _ _ (rows_enc clean)). reflexivity.
        + apply (rs_query_other _ _ _ _ t r); [exact P|exact T|]. intro W. apply D5 in W. discriminate W. }
    assert (N4 : ~ ends_with "/query" (hq_path q)) by (intro P; apply D4 in P; discriminate P).
    split.
    - intros [_ _ _ _|j B _ _|B _|[B|B] _|t [B|B] _ _|t r B _ _ _|t r B _ _ _|B _|t r B _ _|t rq r B _ _ _]; try contradiction. reflexivity.
    - intros <-. now apply rs_elsewhere.
  Qed.
End Serve.
