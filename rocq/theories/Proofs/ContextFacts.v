(** Contexts: C81. *)

From Coq Require Import String List Bool Arith Lia NArith ZArith Sorting.Permutation.
From Verif.Model Require Import Bytes Go Keys Pebble Index Table Scan Query Context.
From Verif.Spec Require Import KeySpec StoreSpec TableSpec HistSpec ScanSpec QuerySpec ContextSpec.
From Verif.Proofs Require Import BytesFacts PebbleFacts TableFacts IterFacts ScanFacts ScanRows ScanProps QueryFacts QueryProps InterFacts.
Import ListNotations.

(** ** Values *)

Lemma ckey_eqb_eq a b : ckey_eqb a b = true <-> a = b.
Proof.
  destruct a as [x|x], b as [y|y]; cbn; split; intro H; try discriminate.
  - apply String.eqb_eq in H. congruence.
  - injection H as ->. apply String.eqb_refl.
  - apply Nat.eqb_eq in H. congruence.
  - injection H as ->. apply Nat.eqb_refl.
Qed.

Lemma ckey_neq a b : a <> b -> ckey_eqb a b = false.
Proof. intro H. destruct (ckey_eqb a b) eqn:E; auto. apply ckey_eqb_eq in E. contradiction. Qed.

Section Values.
  Context {B P X : Type}.
  Notation step := (cstep B P X).

  Lemma derive_snoc (l : list step) st : derive (l ++ [st]) = cstep_run (derive l) st.
  Proof. unfold derive. rewrite fold_left_app. reflexivity. Qed.

  Lemma last_snoc {A} (pick : step -> option (option A)) l st x : last_picked pick (l ++ [st]) x <->
    match pick st with Some y => x = y | None => last_picked pick l x end.
  Proof.
    unfold last_picked. destruct (pick st) as [y|] eqn:E.
    - split.
      + intros [[l1 [s [l2 [H [PS FA]]]]]|[FA _]].
        * destruct l2 as [|s2 l2 _] using rev_ind.
          -- apply app_inj_tail in H as [_ <-]. congruence.
          -- rewrite app_comm_cons, app_assoc in H. apply app_inj_tail in H as [_ <-].
             apply Forall_app in FA as [_ FA]. inversion FA; congruence.
        * apply Forall_app in FA as [_ FA]. inversion FA; congruence.
      + intros ->. left. exists l, st, []. auto.
    - split.
      + intros [[l1 [s [l2 [H [PS FA]]]]]|[FA ->]].
        * destruct l2 as [|s2 l2 _] using rev_ind.
          -- apply app_inj_tail in H as [_ <-]. congruence.
          -- rewrite app_comm_cons, app_assoc in H. apply app_inj_tail in H as [-> <-].
             apply Forall_app in FA as [FA _]. left. eauto 8.
        * apply Forall_app in FA as [FA _]. auto.
      + intros [[l1 [s [l2 [-> [PS FA]]]]]|[FA ->]].
        * left. exists l1, s, (l2 ++ [st]). rewrite <- app_assoc. split; auto. split; auto. apply Forall_app. auto.
        * right. split; auto. apply Forall_app. auto.
  Qed.

  Lemma last_exists {A} (pick : step -> option (option A)) l : exists x, last_picked pick l x.
  Proof.
    induction l as [|st l [x IH]] using rev_ind; [exists None; right; auto|].
    destruct (pick st) as [y|] eqn:E; [exists y|exists x]; apply last_snoc; rewrite E; auto.
  Qed.

  Lemma derived (l : list step) : Forall keeps_off l -> exists c, derive l = Ok c /\
    (forall x, last_picked gives_batch l x -> context_retrieve_batch (Some c) = Ok x) /\
    (forall x, last_picked gives_sync l x -> context_retrieve_sync_batch (Some c) = Ok x).
  Proof.
    induction l as [|st l IH] using rev_ind; intro FA.
    - exists []. split; auto. split; intros x [[l1 [s [l2 [H _]]]]|[_ ->]]; try (destruct l1; discriminate); reflexivity.
    - apply Forall_app in FA as [FA K]. inversion K as [|? ? KO _]; subst. destruct (IH FA) as [c [E [HB HS]]].
      rewrite derive_snoc, E. destruct st as [b|p|k v|]; cbn [cstep_run].
      + eexists. split; [reflexivity|]. split; intros x H; apply last_snoc in H; cbn [gives_batch gives_sync] in H.
        * subst x. destruct b; reflexivity.
        * exact (HS x H).
      + eexists. split; [reflexivity|]. split; intros x H; apply last_snoc in H; cbn [gives_batch gives_sync] in H.
        * exact (HB x H).
        * subst x. reflexivity.
      + cbn in KO. destruct KO as [K1 K2]. eexists. split; [reflexivity|].
        split; intros x H; apply last_snoc in H; cbn [gives_batch gives_sync] in H.
        * specialize (HB x H). unfold context_retrieve_batch in *. cbn [ctx_value]. rewrite ckey_neq by (unfold context_key_name; congruence). exact HB.
        * specialize (HS x H). unfold context_retrieve_sync_batch in *. cbn [ctx_value]. rewrite ckey_neq by (unfold context_sync_key_name; congruence). exact HS.
      + exists c. split; auto. split; intros x H; apply last_snoc in H; cbn [gives_batch gives_sync] in H; auto.
  Qed.
End Values.

(** ** Cancellation gives the error or changes nothing *)

Section Cancel.
  Context {T F : Type}.
  Variable tb : table T F.
  Variable ev : env T.

  (** for a step of a write call *)
  Definition same (a b : wst T F * res unit) : Prop := snd a = Err ECtx \/ a = b.

  Lemma insert_rows_calm it trs : forall rows prev s, same (insert_rows tb ev it trs prev rows s) (insert_rows tb (calm ev) it trs prev rows s).
  Proof.
    induction rows as [|[key o] rows IH]; intros prev s; cbn [insert_rows]; [right; auto|].
    cbn [e_ctx calm]. destruct (e_ctx ev (w_tick s)); [left; auto|].
    match goal with |- context[if ?c then _ else _] => destruct c end; [right; auto|].
    destruct (nth_error trs o); [|right; auto]. destruct (t_ser tb t); [|right; auto]. apply IH.
  Qed.

  Lemma update_rows_calm it trs : forall rows s, same (update_rows tb ev it trs rows s) (update_rows tb (calm ev) it trs rows s).
  Proof.
    induction rows as [|[key o] rows IH]; intros s; cbn [update_rows]; [right; auto|].
    cbn [e_ctx calm]. destruct (e_ctx ev (w_tick s)); [left; auto|].
    match goal with |- context[if ?c then _ else _] => destruct c end; [apply IH|].
    match goal with |- context[if ?c then _ else _] => destruct c end; [right; auto|].
    match goal with |- context[match ?c with None => _ | Some _ => _ end] => destruct c end; [|right; auto].
    match goal with |- context[match ?c with None => _ | Some _ => _ end] => destruct c end; [|right; auto].
    match goal with |- context[match ?c with None => _ | Some _ => _ end] => destruct c end; [|right; auto]. apply IH.
  Qed.

  Lemma upsert_rows_calm f it trs keys order : forall fuel i s, same (upsert_rows tb ev f fuel it trs keys order i s) (upsert_rows tb (calm ev) f fuel it trs keys order i s).
  Proof.
    induction fuel as [|fuel IH]; intros i s; cbn [upsert_rows]; [right; auto|].
    destruct (Nat.ltb i (length keys)); [|right; auto]. destruct (nth_error trs (nth i order 0)); [|right; auto].
    cbn [e_ctx calm]. destruct (e_ctx ev (w_tick s)); [left; auto|].
    match goal with |- context[match ?c with None => (_, Err EDeserialize) | Some _ => _ end] => destruct c end; [|right; auto].
    match goal with |- context[match ?c with None => (_, Panic) | Some _ => _ end] => destruct c as [[[i' o'] t']|] end; [|right; auto].
    match goal with |- context[match ?c with None => _ | Some _ => _ end] => destruct c end; [|right; auto]. apply IH.
  Qed.

  Lemma delete_rows_calm : forall trs s, same (delete_rows tb ev trs s) (delete_rows tb (calm ev) trs s).
  Proof.
    induction trs as [|tr trs IH]; intro s; cbn [delete_rows]; [right; auto|].
    cbn [e_ctx calm]. destruct (e_ctx ev (w_tick s)); [left; auto|]. apply IH.
  Qed.

  Lemma unsafe_insert_rows_calm : forall trs s, same (unsafe_insert_rows tb ev trs s) (unsafe_insert_rows tb (calm ev) trs s).
  Proof.
    induction trs as [|tr trs IH]; intro s; cbn [unsafe_insert_rows]; [right; auto|].
    cbn [e_ctx calm]. destruct (e_ctx ev (w_tick s)); [left; auto|]. destruct (t_ser tb tr); [|right; auto]. apply IH.
  Qed.

  Lemma unsafe_update_rows_calm : forall trs olds s, same (unsafe_update_rows tb ev trs olds s) (unsafe_update_rows tb (calm ev) trs olds s).
  Proof.
    induction trs as [|tr trs IH]; intros [|o olds] s; cbn [unsafe_update_rows]; try (right; auto; fail).
    cbn [e_ctx calm]. destruct (e_ctx ev (w_tick s)); [left; auto|]. destruct (t_ser tb tr); [|right; auto]. apply IH.
  Qed.

  Lemma batched_calm (f g : list T -> wst T F -> wst T F * res unit) items bs : (forall c s, same (f c s) (g c s)) ->
    forall s, same (batched items bs f s) (batched items bs g s).
  Proof.
    intro H. unfold batched. generalize (Datatypes.S (length items)) as fuel. intros fuel s. generalize 0 as num. revert s.
    induction fuel as [|fuel IH]; intros s num; cbn [batched_loop]; [right; auto|].
    destruct (Nat.ltb (num * bs) (length items)); [|right; auto].
    match goal with |- context[f ?c s] => destruct (H c s) as [E|E] end.
    - destruct (f _ s) as [s' r]. cbn [snd] in E. subst r. left. reflexivity.
    - rewrite E. destruct (g _ s) as [s' [u|e| |]]; try (right; auto; fail). apply IH.
  Qed.

  Lemma run_write_calm db fl ob f g : (forall rw s, same (f rw s) (g rw s)) ->
    let out := run_write tb ev db fl ob f in snd out = Err ECtx \/ out = run_write tb (calm ev) db fl ob g.
  Proof.
    intro H. unfold run_write. destruct ob as [b|]; cbn zeta.
    - match goal with |- context[f ?rw ?s] => destruct (H rw s) as [E|E] end.
      + destruct (f _ _) as [s' r]. cbn [snd] in E. subst r. left. reflexivity.
      + rewrite E. right. destruct (g _ _); reflexivity.
    - match goal with |- context[f ?rw ?s] => destruct (H rw s) as [E|E] end.
      + destruct (f _ _) as [s' r]. cbn [snd] in E. subst r. left. reflexivity.
      + rewrite E. right. reflexivity.
  Qed.

  Lemma call_calm db fl ob c : let out := run_call tb ev db fl ob c in
    snd out = Err ECtx \/ out = run_call tb (calm ev) db fl ob c.
  Proof.
    destruct c as [l|l|f l|l]; cbn [run_call]; apply run_write_calm; intros rw s.
    - apply batched_calm. intros c s'. unfold insert_chunk. change (sort_keys (calm ev)) with (sort_keys ev).
      destruct (sort_keys ev (map (data_key tb) c)) as [[|k ks] o]; [right; auto|]. apply insert_rows_calm.
    - apply batched_calm. intros c s'. unfold update_chunk. change (sort_keys (calm ev)) with (sort_keys ev).
      destruct (sort_keys ev (map (data_key tb) c)) as [[|k ks] o]; [right; auto|]. apply update_rows_calm.
    - apply batched_calm. intros c s'. unfold upsert_chunk. change (sort_keys (calm ev)) with (sort_keys ev).
      destruct (sort_keys ev (map (data_key tb) c)) as [[|k ks] o]; [right; auto|]. apply upsert_rows_calm.
    - apply delete_rows_calm.
  Qed.

  Lemma unsafe_calm db fl ob l olds :
    (let out := unsafe_insert tb ev db fl ob l in snd out = Err ECtx \/ out = unsafe_insert tb (calm ev) db fl ob l) /\
    (let out := unsafe_update tb ev db fl ob l olds in snd out = Err ECtx \/ out = unsafe_update tb (calm ev) db fl ob l olds).
  Proof.
    split.
    - apply run_write_calm. intros rw s. apply batched_calm. intros. apply unsafe_insert_rows_calm.
    - unfold unsafe_update. destruct (Nat.eqb (length l) (length olds)); [|right; auto].
      apply run_write_calm. intros rw s. apply unsafe_update_rows_calm.
  Qed.

  (** ** Scans *)

  Section Scan.
    Context {W : Type}.
    Variable f : W -> bytes -> prog (T:=T) W.
    Variables (open : bytes -> bytes -> piter) (rv : bool).

    Lemma primary_calm : forall fuel n it s, let out := primary_loop tb ev f open rv fuel n it s in
      snd out = Err ECtx \/ out = primary_loop tb (calm ev) f open rv fuel n it s.
    Proof.
      induction fuel as [|fuel IH]; intros n it s; cbn [primary_loop]; [right; auto|].
      destruct (bi_valid it); [|right; auto]. cbn [e_ctx calm]. destruct (e_ctx ev n); [left; auto|].
      destruct (run_prog _ _ _) as [it' [[[s' [|]] [e|]]|e| |]]; try (right; reflexivity). apply IH.
    Qed.

    Lemma secondary_calm db fl ob : forall fuel n it s, let out := secondary_loop tb ev f open rv db fl ob fuel n it s in
      snd out = Err ECtx \/ out = secondary_loop tb (calm ev) f open rv db fl ob fuel n it s.
    Proof.
      induction fuel as [|fuel IH]; intros n it s; cbn [secondary_loop]; [right; auto|].
      destruct (bi_valid it); [|right; auto]. cbn [e_ctx calm]. destruct (e_ctx ev n); [left; auto|].
      change (prefetch_and_get tb (calm ev)) with (prefetch_and_get tb ev).
      destruct (run_prog _ _ _) as [st1 [[[s' [|]] [e|]]|e| |]]; try (right; reflexivity).
      destruct (prefetched_loop _ _ _ _ _) as [out|[st2 s2]]; [right; reflexivity|]. apply IH.
    Qed.
  End Scan.

  Lemma scan_calm {W} fuel db fl idx sel (f : W -> bytes -> prog (T:=T) W) rv ob s :
    let out := scan_index_for_each tb ev fuel db fl idx sel f rv ob s in
    snd out = Err ECtx \/ out = scan_index_for_each tb (calm ev) fuel db fl idx sel f rv ob s.
  Proof.
    unfold scan_index_for_each. destruct (index_iter tb db ob idx sel); try (right; reflexivity).
    destruct (Byte.eqb (ix_id idx) primary_index_id); [apply primary_calm|apply secondary_calm].
  Qed.

  (** ** Queries *)

  Lemma collect_keys_calm open within : forall fuel n it acc,
    error_or (collect_keys ev open within fuel n it acc) (collect_keys (calm ev) open within fuel n it acc).
  Proof.
    induction fuel as [|fuel IH]; intros n it acc; cbn [collect_keys]; [right; auto|].
    destruct (bi_valid it); [|right; auto]. cbn [e_ctx calm]. destruct (e_ctx ev n); [left; auto|].
    destruct (to_data_key_bytes (bi_key it) []); try (right; reflexivity). apply IH.
  Qed.

  Lemma intersect_rest_calm fuel db ob : forall qs n keys,
    error_or (intersect_rest tb ev fuel db ob n qs keys) (intersect_rest tb (calm ev) fuel db ob n qs keys).
  Proof.
    induction qs as [|q qs IH]; intros n keys; cbn [intersect_rest]; [right; auto|].
    destruct (index_iter tb db ob (q_index q) (q_sel q)); try (right; reflexivity).
    match goal with |- context[collect_keys ev ?o ?w fuel n ?i []] => destruct (collect_keys_calm o w fuel n i []) as [E|E]; rewrite E; clear E end; [left; auto|].
    destruct (collect_keys _ _ _ _ _ _ _) as [[n' keys']| | |]; try (right; reflexivity). apply IH.
  Qed.

  Lemma intersect_calm fuel db q ob : error_or (intersect tb ev fuel db q ob) (intersect tb (calm ev) fuel db q ob).
  Proof.
    unfold intersect. destruct (index_iter tb db ob (q_index q) (q_sel q)); try (right; reflexivity).
    match goal with |- context[collect_keys ev ?o ?w fuel 0 ?i []] => destruct (collect_keys_calm o w fuel 0 i []) as [E|E]; rewrite E; clear E end; [left; auto|].
    destruct (collect_keys _ _ _ _ _ _ _) as [[n' keys']| | |]; try (right; reflexivity). apply intersect_rest_calm.
  Qed.

  Lemma execute_calm srt fuel db fl q ob : error_or (execute tb ev srt fuel db fl q ob) (execute tb (calm ev) srt fuel db fl q ob).
  Proof.
    unfold execute. destruct (q_inter q) as [|q' qs] eqn:EQ.
    - unfold execute_query. destruct (match q_after q with Some _ => _ | None => _ end); try (right; reflexivity).
      match goal with |- context[scan_index_for_each tb ev fuel db fl ?i ?x ?f ?rv ob ?z] => destruct (scan_calm fuel db fl i x f rv ob z) as [E|E] end.
      + destruct (scan_index_for_each tb ev _ _ _ _ _ _ _ _ _) as [z r]. cbn [snd] in E. subst r. left. reflexivity.
      + rewrite E. right. reflexivity.
    - unfold execute_intersect. destruct (forallb plain_query (q_inter q)); [|right; auto].
      destruct (intersect_calm fuel db q ob) as [E|E]; rewrite E; [left; auto|]. right.
      change (get_keys tb (calm ev)) with (get_keys tb ev). reflexivity.
  Qed.
End Cancel.

(** ** Contexts cancelled from the start *)

Section Dead.
  Context {T F : Type}.
  Variable tb : table T F.
  Variable ev : env T.
  Hypothesis D : dead ev.

  Definition ticked (s : wst T F) : wst T F := WSt (w_ops s) (w_flt s) (w_old s) (S (w_tick s)).

  Lemma batched_dead (f : list T -> wst T F -> wst T F * res unit) items bs s : 0 < bs -> items <> [] ->
    (forall c, c <> [] -> f c s = (ticked s, Err ECtx)) -> batched items bs f s = (ticked s, Err ECtx).
  Proof.
    intros BS NE H. unfold batched. cbn [batched_loop]. destruct items as [|x items]; [congruence|].
    change (0 * bs) with 0. cbn [length]. change (Nat.ltb 0 (S (length items))) with true. cbv iota zeta. rewrite H; auto.
    cbn [skipn Nat.add]. destruct (Nat.ltb (S (length items)) bs) eqn:E.
    - apply Nat.ltb_lt in E. rewrite Nat.mod_small by auto. discriminate.
    - destruct bs as [|bs]; [lia|]. discriminate.
  Qed.

  Lemma run_write_dead db fl ob f : (forall rw s, f rw s = (ticked s, Err ECtx)) -> run_write tb ev db fl ob f = (WRes db fl ob, Err ECtx).
  Proof. intro H. unfold run_write. destruct ob as [[rw ops]|]; rewrite H; reflexivity. Qed.

  Lemma sorted_some c : env_ok ev -> c <> [] -> exists k ks o os, sort_keys ev (map (data_key tb) c) = (k :: ks, o :: os) /\ length ks = length os /\ o < length c.
  Proof.
    intros EV NE. unfold sort_keys. pose proof (env_sort_perm _ EV (map (data_key tb) c)) as PE.
    destruct (e_sort ev (map (data_key tb) c)) as [|o os].
    - apply Permutation_nil in PE. destruct c; [congruence|discriminate].
    - exists (nth o (map (data_key tb) c) []), (map (fun i => nth i (map (data_key tb) c) []) os), o, os.
      split; auto. split; [apply map_length|].
      assert (IN : In o (seq 0 (length (map (data_key tb) c)))) by (eapply Permutation_in; [exact PE|left; auto]).
      apply in_seq in IN. rewrite map_length in IN. lia.
  Qed.

  Lemma call_dead db fl ob c rows : env_ok ev -> (c = CInsert rows \/ c = CUpdate rows \/ (exists f, c = CUpsert f rows) \/ c = CDelete rows) ->
    run_call tb ev db fl ob c = match rows with [] => (WRes db fl ob, Ok tt) | _ => (WRes db fl ob, Err ECtx) end.
  Proof.
    intros EV HC. destruct rows as [|r0 rows].
    - destruct HC as [->|[->|[[f ->]| ->]]]; cbn [run_call]; unfold insert, update, upsert, delete, run_write, batched; cbn;
        destruct ob as [[rw ops]|]; reflexivity.
    - destruct HC as [->|[->|[[f ->]| ->]]]; cbn [run_call]; apply run_write_dead; intros rw s.
      + apply batched_dead; [apply EV|discriminate|]. intros c NE. unfold insert_chunk.
        destruct (sorted_some c EV NE) as [k [ks [o [os [E _]]]]]. rewrite E. cbn [combine insert_rows]. rewrite D. reflexivity.
      + apply batched_dead; [apply EV|discriminate|]. intros c NE. unfold update_chunk.
        destruct (sorted_some c EV NE) as [k [ks [o [os [E _]]]]]. rewrite E. cbn [combine update_rows]. rewrite D. reflexivity.
      + apply batched_dead; [apply EV|discriminate|]. intros c NE. unfold upsert_chunk.
        destruct (sorted_some c EV NE) as [k [ks [o [os [E [L O]]]]]]. rewrite E. cbn [length upsert_rows nth]. cbn [Nat.ltb Nat.leb].
        destruct (nth_error c o) eqn:EN; [|apply nth_error_None in EN; lia]. rewrite D. reflexivity.
      + cbn [delete_rows]. rewrite D. reflexivity.
  Qed.

  Lemma unsafe_dead db fl ob (rows olds : list T) : env_ok ev -> rows <> [] ->
    unsafe_insert tb ev db fl ob rows = (WRes db fl ob, Err ECtx) /\
    (length rows = length olds -> unsafe_update tb ev db fl ob rows olds = (WRes db fl ob, Err ECtx)).
  Proof.
    intros EV NE. split.
    - apply run_write_dead. intros rw s. apply batched_dead; [apply EV|auto|]. intros [|x c] NE'; [congruence|].
      cbn [unsafe_insert_rows]. rewrite D. reflexivity.
    - intro L. unfold unsafe_update. rewrite L, Nat.eqb_refl. apply run_write_dead. intros rw s.
      destruct rows as [|x rows]; [congruence|]. destruct olds as [|o olds]; [discriminate|]. cbn [unsafe_update_rows]. rewrite D. reflexivity.
  Qed.

  Variable srt : (T -> T -> bool) -> list T -> list T.
  Variables (db : kv) (fl : F) (ob : optb).

  Lemma scan_dead {W} idx sel l : opens tb db ob idx sel l -> forall (f : W -> bytes -> prog (T:=T) W) rv fuel s, 0 < fuel ->
    scan_index_for_each tb ev fuel db fl idx sel f rv ob s = (s, match l with [] => Ok tt | _ => Err ECtx end).
  Proof.
    intros [b [E [FR C]]] f rv fuel s LE. unfold scan_index_for_each. rewrite E. destruct fuel as [|fuel]; [lia|].
    pose proof (scan_delivers (db_iter db (batch_of ob)) rv b FR) as DL. rewrite C in DL.
    destruct l as [|r l].
    - assert (N : bi_valid (scan_first (db_iter db (batch_of ob)) rv b) = false).
      { assert (DL' : delivers (db_iter db (batch_of ob)) rv (scan_first (db_iter db (batch_of ob)) rv b) []) by (destruct rv; exact DL).
        inversion DL' as [b' N EQ1 EQ2|]. exact (N 0). }
      destruct (Byte.eqb _ _); cbn [primary_loop secondary_loop]; rewrite N; reflexivity.
    - assert (V : bi_valid (scan_first (db_iter db (batch_of ob)) rv b) = true).
      { inversion DL as [b' N EQ1 EQ2|b' e l' V _ _ _ EQ1 EQ2]; auto. exfalso. destruct rv; [|discriminate].
        cbn [map rev] in EQ2. symmetry in EQ2. apply app_eq_nil in EQ2 as [_ H]. discriminate. }
      destruct (Byte.eqb _ _); cbn [primary_loop secondary_loop]; rewrite V, D; reflexivity.
  Qed.

  Lemma first_valid_dead idx sel l it within acc n fuel : opens tb db ob idx sel l -> index_iter tb db ob idx sel = Ok it -> 0 < fuel ->
    collect_keys ev (db_iter db (batch_of ob)) within fuel n (bi_first (db_iter db (batch_of ob)) it) acc =
      match l with [] => Ok (n, acc) | _ => Err ECtx end.
  Proof.
    intros [b [E [FR C]]] E' LE. rewrite E in E'. injection E' as <-. destruct fuel as [|fuel]; [lia|].
    pose proof (scan_delivers (db_iter db (batch_of ob)) false b FR) as DL. rewrite C in DL. cbn [scan_first] in DL.
    cbn [collect_keys]. destruct l as [|r l]; inversion DL as [b' N EQ1 EQ2|b' e l' V _ _ _ EQ1 EQ2]; subst.
    - specialize (N 0). cbn in N. rewrite N. reflexivity.
    - rewrite V, D. reflexivity.
  Qed.

  Lemma finish_nothing q : sorts srt -> (q_limit q < half)%N -> (q_offset q < half)%N -> finish_query tb srt q (Qst [] 0 false false false false) = Ok [].
  Proof.
    intros SO HL HO. unfold finish_query. cbn [qs_records qs_after_applied qs_offset_applied qs_limit_applied].
    assert (E1 : match q_less q with Some less => srt less [] | None => [] end = []).
    { destruct (q_less q) as [less|]; auto. apply Permutation_nil. apply Permutation_sym. apply SO. }
    rewrite E1. assert (E2 : match q_after q with Some a => drop_after tb a [] | None => [] end = []) by (destruct (q_after q); reflexivity).
    rewrite E2, (apply_offset_eq _ _ HO), skipn_nil. destruct (_ && _); rewrite (apply_limit_eq _ _ HL), firstn_nil; destruct (_ && _); reflexivity.
  Qed.

  Lemma query_dead q l fuel : sorts srt -> q_inter q = [] -> (q_after q = None \/ q_less q <> None) ->
    (q_limit q < half)%N -> (q_offset q < half)%N -> opens tb db ob (q_index q) (q_sel q) l -> 0 < fuel ->
    execute tb ev srt fuel db fl q ob = match l with [] => Ok [] | _ => Err ECtx end.
  Proof.
    intros SO NI AF HL HO O LE. unfold execute. rewrite NI. unfold execute_query.
    assert (ES : match q_after q, q_less q with Some a, None => selector_with_after tb (q_index q) a (q_sel q) | _, _ => Ok (q_sel q) end = Ok (q_sel q)).
    { destruct (q_after q); auto. destruct (q_less q); auto. destruct AF; congruence. }
    rewrite ES, (scan_dead _ _ l O); auto. destruct l; auto. apply finish_nothing; auto.
  Qed.

  Lemma rest_dead fuel : 0 < fuel -> forall qs ls n, Forall2 (fun x l => opens tb db ob (q_index x) (q_sel x) l) qs ls ->
    intersect_rest tb ev fuel db ob n qs [] = if forallb (fun l => match l with [] => true | _ => false end) ls then Ok [] else Err ECtx.
  Proof.
    intro LE. induction qs as [|x qs IH]; intros ls n F2; inversion F2 as [|? l ? ls' O F2']; subst; [reflexivity|].
    cbn [intersect_rest forallb]. pose proof O as [b [E _]]. rewrite E.
    rewrite (first_valid_dead _ _ l b (Some []) [] n fuel O E LE). destruct l; auto. apply IH; auto.
  Qed.

  Lemma intersect_dead q ls fuel : sorts srt -> q_inter q <> [] -> Forall plain_part (q_inter q) ->
    (q_limit q < half)%N -> (q_offset q < half)%N ->
    Forall2 (fun x l => opens tb db ob (q_index x) (q_sel x) l) (q :: q_inter q) ls -> 0 < fuel ->
    execute tb ev srt fuel db fl q ob = if forallb (fun l => match l with [] => true | _ => false end) ls then Ok [] else Err ECtx.
  Proof.
    intros SO NI PL HL HO F2 LE. unfold execute. destruct (q_inter q) as [|q' qs] eqn:EQ; [congruence|]. rewrite <- EQ in *. clear EQ NI.
    unfold execute_intersect.
    replace (forallb plain_query (q_inter q)) with true
      by (symmetry; apply forallb_forall; intros x Hx; apply plain_query_ok; rewrite Forall_forall in PL; auto).
    inversion F2 as [|? l ? ls' O F2']; subst. unfold intersect. pose proof O as [b [E _]]. rewrite E.
    rewrite (first_valid_dead _ _ l b None [] 0 fuel O E LE). cbn [forallb]. destruct l as [|r l]; [|reflexivity].
    rewrite (rest_dead fuel LE _ ls' 0 F2'). cbn [andb]. destruct (forallb _ ls'); [|reflexivity].
    assert (E1 : (if 0 <? q_offset q then apply_offset (q_offset q) [] else Ok [])%N = Ok (@nil T))
      by (rewrite (apply_offset_eq _ _ HO), skipn_nil; destruct (0 <? q_offset q)%N; reflexivity).
    assert (E2 : (if 0 <? q_limit q then apply_limit (q_limit q) [] else Ok [])%N = Ok (@nil T))
      by (rewrite (apply_limit_eq _ _ HL), firstn_nil; destruct (0 <? q_limit q)%N; reflexivity).
    assert (E1' : (if 0 <? q_offset q then apply_offset (q_offset q) [] else Ok [])%N = Ok (@nil bytes))
      by (rewrite (apply_offset_eq _ _ HO), skipn_nil; destruct (0 <? q_offset q)%N; reflexivity).
    assert (E2' : (if 0 <? q_limit q then apply_limit (q_limit q) [] else Ok [])%N = Ok (@nil bytes))
      by (rewrite (apply_limit_eq _ _ HL), firstn_nil; destruct (0 <? q_limit q)%N; reflexivity).
    assert (SN : forall less, srt less [] = []) by (intro less; apply Permutation_nil, Permutation_sym, SO).
    destruct (q_filter q), (q_less q), (q_after q); cbn [andb]; rewrite ?E1', ?E2'; cbn [get_keys decode_records]; rewrite ?SN;
      cbn [drop_after after_rec]; unfold drop_after; cbn [after_rec]; rewrite ?E1, ?E2; reflexivity.
  Qed.
End Dead.

(** ** In the form of the theorems *)

Section Top.
  Context {T F : Type}.
  Variable tb : table T F.
  Hypothesis G : good_table tb.
  Variable ev : env T.
  Hypothesis D : dead ev.
  Variable srt : (T -> T -> bool) -> list T -> list T.
  Variables (db : kv) (fl : F) (ob : optb) (m : tmap T).
  Hypothesis R : reads tb db fl ob m.
  Notation isin idx := (In idx (primary_index :: t_indexes tb)).

  Lemma really idx sel : isin idx -> short_sel (sindex_of idx) sel -> exists l, visits tb idx m sel l /\ opens tb db ob idx sel l.
  Proof.
    intros HI SS. destruct (really_opens tb G db fl ob m (reads_ok _ _ _ _ _ R) (reads_batch _ _ _ _ _ R) (reads_rw _ _ _ _ _ R) (reads_cons _ _ _ _ _ R) idx sel HI SS)
      as [l [V [O _]]]. eauto.
  Qed.

  Lemma scan_cancelled idx sel : isin idx -> short_sel (sindex_of idx) sel -> exists l, visits tb idx m sel l /\
    forall W (f : W -> bytes -> prog (T:=T) W) rv fuel s, 0 < fuel ->
      scan_index_for_each tb ev fuel db fl idx sel f rv ob s = (s, match l with [] => Ok tt | _ => Err ECtx end).
  Proof.
    intros HI SS. destruct (really idx sel HI SS) as [l [V O]]. exists l. split; auto. intros. apply scan_dead; auto.
  Qed.

  Lemma query_cancelled q : sorts srt -> isin (q_index q) -> short_sel (sindex_of (q_index q)) (q_sel q) ->
    q_inter q = [] -> (q_after q = None \/ q_less q <> None) -> (q_offset q < 2 ^ 63)%N -> (q_limit q < 2 ^ 63)%N ->
    exists l, visits tb (q_index q) m (q_sel q) l /\
    forall fuel, 0 < fuel -> execute tb ev srt fuel db fl q ob = match l with [] => Ok [] | _ => Err ECtx end.
  Proof.
    intros SO HI SS NI AF HO HL. destruct (really _ _ HI SS) as [l [V O]]. exists l. split; auto. intros. apply query_dead; auto.
  Qed.

  Lemma inter_cancelled q : sorts srt -> (forall x, In x (q :: q_inter q) -> isin (q_index x) /\ short_sel (sindex_of (q_index x)) (q_sel x)) ->
    q_inter q <> [] -> (forall x, In x (q_inter q) -> plain_part x) -> (q_offset q < 2 ^ 63)%N -> (q_limit q < 2 ^ 63)%N ->
    exists ls, Forall2 (fun x l => visits tb (q_index x) m (q_sel x) l) (q :: q_inter q) ls /\
    forall fuel, 0 < fuel -> execute tb ev srt fuel db fl q ob =
      if forallb (fun l => match l with [] => true | _ => false end) ls then Ok [] else Err ECtx.
  Proof.
    intros SO H NI PP HO HL.
    assert (X : exists ls, Forall2 (fun x l => visits tb (q_index x) m (q_sel x) l) (q :: q_inter q) ls /\
                           Forall2 (fun x l => opens tb db ob (q_index x) (q_sel x) l) (q :: q_inter q) ls).
    { revert H. generalize (q :: q_inter q) as xs. induction xs as [|x xs IH]; intro H; [exists []; auto|].
      destruct IH as [ls [F1 F2]]; [intros; apply H; right; auto|]. destruct (H x (or_introl eq_refl)) as [HI SS].
      destruct (really _ _ HI SS) as [l [V O]]. exists (l :: ls). auto. }
    destruct X as [ls [F1 F2]]. exists ls. split; auto. intros. apply intersect_dead; auto. apply Forall_forall; auto.
  Qed.
End Top.
