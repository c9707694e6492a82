(** What scans return when reads fail. *)

From Coq Require Import List NArith ZArith Lia Bool Arith.
From Verif.Model Require Import Bytes Go Keys Pebble Index Table Scan LiveScan Faults.
From Verif.Spec Require Import KeySpec StoreSpec TableSpec ScanSpec FaultSpec.
From Verif.Proofs Require Import BytesFacts PebbleFacts TableFacts ScanFacts ScanProps FaultScan.
Import ListNotations.

Lemma visit_app {T W} (f : W -> bytes -> prog (T:=T) W) l1 : forall l2 s,
  visit_go f (l1 ++ l2) s = match visit_go f l1 s with inl o => inl o | inr s' => visit_go f l2 s' end.
Proof.
  induction l1 as [|[k r] l1 IH]; intros l2 s; cbn [app visit_go]; auto. destruct (answer (Ok r) (f s k)) as [[s' [|]] [e|]]; auto.
Qed.

Lemma seen_one {A} (l k : list A) ok : in_parts [l] k ok -> exists l2, l = k ++ l2 /\ (ok = true -> l2 = []).
Proof.
  intro H. remember [l] as ls eqn:E. destruct H as [l0|l1 l2|l1 l2 ls l0 ok N S].
  - injection E as ->. exists []. rewrite app_nil_r. auto.
  - injection E as <-. exists l2. split; auto. discriminate.
  - injection E as _ ->. destruct (N eq_refl).
Qed.

Lemma append_gives_up {T} : gives_up (@append_cb T).
Proof. intros s k g e [= <-]. eexists _, _, _. reflexivity. Qed.

Lemma append_left {T} (s s' : list T) : left_in append_cb s s' -> s' = s.
Proof. intros [-> |(k & g & e & c & e' & [= <-] & [= <- _ _])]; reflexivity. Qed.

Lemma append_go {T} (l : list (bytes * T)) acc : visit_go append_cb l acc = inr (acc ++ map snd l).
Proof.
  revert acc. induction l as [|[k r] l IH]; intro acc; cbn [visit_go append_cb answer map snd]; [rewrite app_nil_r; auto|]. rewrite IH, <- app_assoc. reflexivity.
Qed.

Section Top.
  Context {T F : Type}.
  Variable tb : table T F.
  Hypothesis G : good_table tb.
  Variable ev : env T.
  Hypothesis EV : env_ok ev.
  Hypothesis CTX : forall n, e_ctx ev n = false.
  Notation sc := (schema_of tb).
  Variable db : kv.
  Variable fl : F.
  Variable ob : option batch.
  Variable m : tmap T.
  Hypothesis KV : kv_ok db.
  Hypothesis RD : readable ob.
  Hypothesis CO : consistent tb (view db ob) fl m.
  Variable io : faults.
  Hypothesis OPEN : forall n, ft_open io n = false.

  Theorem scan_one (idx : index T) sel : In idx (primary_index :: t_indexes tb) -> 0 < t_prefetch tb -> exact_selector tb idx m sel -> one_selection sel ->
    exists l, selected tb idx m sel l /\
    forall rv W (f : W -> bytes -> prog W) fuel s, loads_steadily f -> gives_up f -> length l <= fuel ->
      fscan_index_for_each io tb ev fuel db fl idx sel f rv ob s = visit f (keyed sc (sindex_of idx) (dir rv l)) s \/
      exists l1 l2 s1 s2 e, dir rv l = l1 ++ l2 /\ visit_go f (keyed sc (sindex_of idx) l1) s = inr s1 /\ left_in f s1 s2 /\
        fscan_index_for_each io tb ev fuel db fl idx sel f rv ob s = (s2, Err e).
  Proof.
    intros HI PRE EX ONE. destruct (scan_told tb G ev EV CTX db fl ob m KV RD CO io OPEN idx sel HI PRE EX) as (ls & LS & H).
    assert (X : exists P, selections sc (sindex_of idx) (Byte.eqb (ix_id idx) x00) sel = [P]) by (destruct sel; try contradiction ONE; cbn; eauto).
    destruct X as [P EP]. rewrite EP in LS. inversion LS as [|P' l Ps ls' LL NIL]; subst. inversion NIL; subst. exists l. split.
    { unfold selected. rewrite EP. rewrite <- (app_nil_r l). apply ls_cons; [exact LL|apply ls_nil]. }
    intros rv W f fuel s ST GU FU. destruct (H rv W f fuel s ST GU) as (k & ok & SE & TO). { cbn [concat]. rewrite app_nil_r. exact FU. }
    assert (ED : dirs rv [l] = [dir rv l]) by (destruct rv; reflexivity). rewrite ED in SE. apply seen_one in SE as (l2 & E & FULL).
    unfold told in TO. destruct (visit_go f (keyed sc (sindex_of idx) k) s) as [o|s'] eqn:V.
    - left. rewrite TO. unfold visit. rewrite E. unfold keyed. rewrite map_app. rewrite visit_app. unfold keyed in V. rewrite V. reflexivity.
    - destruct ok.
      + left. rewrite TO. rewrite FULL, app_nil_r in E by auto. rewrite E. unfold visit. rewrite V. reflexivity.
      + right. destruct TO as (e & s2 & TO & LI). exists k, l2, s', s2, e. auto.
  Qed.

  Theorem scan_index_one (idx : index T) sel : In idx (primary_index :: t_indexes tb) -> 0 < t_prefetch tb -> exact_selector tb idx m sel -> one_selection sel ->
    exists l, selected tb idx m sel l /\
    forall rv fuel acc, length l <= fuel ->
      fscan_index io tb ev fuel db fl idx sel acc rv ob = (acc ++ dir rv l, Ok tt) \/
      exists l1 l2 e, dir rv l = l1 ++ l2 /\ fscan_index io tb ev fuel db fl idx sel acc rv ob = (acc ++ l1, Err e).
  Proof.
    intros HI PRE EX ONE. destruct (scan_one idx sel HI PRE EX ONE) as (l & SL & H). exists l. split; auto. intros rv fuel acc FU. unfold fscan_index.
    destruct (H rv _ append_cb fuel acc append_steady append_gives_up FU) as [E|(l1 & l2 & s1 & s2 & e & E1 & E2 & LI & E3)].
    - left. rewrite E, append_visit, keyed_rows. reflexivity.
    - right. exists l1, l2, e. split; auto. rewrite E3. apply append_left in LI as ->. rewrite append_go, keyed_rows in E2. injection E2 as <-. reflexivity.
  Qed.

  Theorem scan_index_all (idx : index T) sel : In idx (primary_index :: t_indexes tb) -> 0 < t_prefetch tb -> exact_selector tb idx m sel ->
    exists ls, Forall2 (listing sc (sindex_of idx) m) (selections sc (sindex_of idx) (Byte.eqb (ix_id idx) x00) sel) ls /\
    forall rv fuel acc, length (concat ls) <= fuel ->
      exists l ok, in_parts (dirs rv ls) l ok /\ fst (fscan_index io tb ev fuel db fl idx sel acc rv ob) = acc ++ l /\
        (if ok then snd (fscan_index io tb ev fuel db fl idx sel acc rv ob) = Ok tt else exists e, snd (fscan_index io tb ev fuel db fl idx sel acc rv ob) = Err e).
  Proof.
    intros HI PRE EX. destruct (scan_told tb G ev EV CTX db fl ob m KV RD CO io OPEN idx sel HI PRE EX) as (ls & LS & H). exists ls. split; auto.
    intros rv fuel acc FU. destruct (H rv _ append_cb fuel acc append_steady append_gives_up FU) as (l & ok & SE & TO). exists l, ok. split; auto.
    unfold fscan_index. unfold told in TO. rewrite append_go, keyed_rows in TO. destruct ok; [rewrite TO; auto|]. destruct TO as (e & s2 & -> & LI). apply append_left in LI as ->. split; [reflexivity|]. exists e. reflexivity.
  Qed.
End Top.
