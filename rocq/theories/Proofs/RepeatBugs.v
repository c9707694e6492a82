(** An Update after which a stored row cannot be found by its index. *)

From Coq Require Import List NArith Lia Bool Arith.
From Verif.Model Require Import Bytes Go Keys Pebble Index Table.
From Verif.Spec Require Import KeySpec TableSpec HistSpec RepeatSpec.
From Verif.Proofs Require Import BytesFacts KeysFacts PebbleFacts TableFacts WriteFacts UpdateFacts ReadFacts Witness TableProps TableBugs Repeats.
Import ListNotations.

(** in the first chunk the row gets another kind, in the second it keeps the stored one *)
Lemma update_loses_entry n : 1 <= n -> (N.of_nat n < 2 ^ 64)%N ->
  exists db m rows w, consistent accts db tt m /\ length rows = S n /\
    update accts (demo_env n) db tt None rows = (w, Ok tt) /\
    kv_get (r_db w) (row_key asc (s_pk asc (Acct 0 0 0 true))) = s_val asc (Acct 0 0 0 true) /\
    si_filter (sindex_of acct_by_kind) (Acct 0 0 0 true) = true /\
    kv_get (r_db w) (entry_key asc (sindex_of acct_by_kind) (Acct 0 0 0 true)) = None.
Proof.
  intros P B.
  destruct (insert_ok accts accts_good (demo_env n) (demo_env_ok n P) [] tt empty_map (many n 0)) as [w [E [C _]]].
  - apply demo_env_quiet.
  - apply accts_empty.
  - apply acct_rows_ok.
  - apply many_nodup; auto.
  - intros r Hr. split; [reflexivity|]. apply (many_ser n 0 r); auto. lia.
  - assert (PR : forall r, In r (many n 1 ++ [Acct 0 0 0 true]) -> puts asc empty_map (many n 0) (s_pk asc r) <> None /\ s_val asc r <> None).
    { intros r Hr. assert (exists i, i < n /\ s_pk asc r = s_pk asc (Acct (N.of_nat i) 0 0 true)) as [i [Hi EP]].
      { apply in_app_or in Hr as [Hr|[<-|[]]]; [|exists 0; split; [lia|reflexivity]]. apply in_map_iff in Hr as [i [<- Hi]]. exists i.
        apply in_seq in Hi. split; [lia|reflexivity]. }
      split.
      - rewrite EP, (puts_in (tb:=accts) (many n 0) empty_map (Acct (N.of_nat i) 0 0 true)); [discriminate|apply many_nodup; auto|].
        apply in_map_iff. exists i. split; auto. apply in_seq. lia.
      - apply in_app_or in Hr as [Hr|[<-|[]]]; [apply (many_ser n 1 r); auto; lia|vm_compute; discriminate]. }
    destruct w as [d [] ob]. cbn [r_db r_flt] in C.
    destruct (update accts (demo_env n) d tt None (many n 1 ++ [Acct 0 0 0 true])) as [w' res] eqn:EU.
    assert (res = Ok tt) as ->.
    { destruct (update_any accts accts_good (demo_env n) (demo_env_ok n P) d tt _ _ w' res C EU) as [[-> _]|[e [_ [_ H]]]]; [reflexivity|exfalso].
      destruct H as [[_ [i [_ H]]]|[[_ [r [I H]]]|[[_ H]|[r [I [_ H]]]]]]; try discriminate; destruct (PR r I) as [X1 X2]; auto. }
    exists d, (puts asc empty_map (many n 0)), (many n 1 ++ [Acct 0 0 0 true]), w'.
    split; [exact C|]. split; [rewrite app_length, many_length; cbn; lia|]. split; [exact EU|].
    assert (CH : is_chunks n (many n 1 ++ [Acct 0 0 0 true]) [many n 1; [Acct 0 0 0 true]]).
    { apply ic_cons; [apply many_length|discriminate|]. apply ic_last. cbn. lia. }
    destruct (update_any_rows accts accts_good (demo_env n) (demo_env_ok n P) d tt _ _ _ w' C (acct_rows_ok None _) CH EU) as (wss & F2 & RV).
    inversion F2 as [|? ws1 ? wss1 O1 F2']; subst. inversion F2' as [|? ws2 ? wss2 O2 F2'']; subst. inversion F2''; subst. clear F2 F2' F2''.
    cbn [concat] in RV. rewrite app_nil_r in RV.
    assert (WS2 : forall x, In x ws2 -> x = Acct 0 0 0 true) by (intros x X; apply O2 in X as [<-|[]]; reflexivity).
    assert (LASTV : In (Acct 0 0 0 true) ws2).
    { destruct O2 as (_ & _ & O2). destruct (O2 (Acct 0 0 0 true)) as [x [X _]]; [now left|]. rewrite <- (WS2 x X). exact X. }
    assert (FIRSTV : exists x, In x ws1 /\ x = Acct 0 1 0 true).
    { destruct O1 as (OI & _ & O1). destruct (O1 (Acct 0 1 0 true)) as [x [X EP]]; [apply many_first; exact P|]. exists x. split; [exact X|].
      apply OI in X. apply in_map_iff in X as [i [<- X]]. apply in_seq in X. change (2 ^ 64)%N with (256 ^ 8)%N in B.
      apply acct_pk_inj in EP; cbn [a_id] in *; [|lia|lia]. rewrite EP. reflexivity. }
    assert (STORED : puts asc empty_map (many n 0) (s_pk asc (Acct 0 0 0 true)) = Some (Acct 0 0 0 true)).
    { apply (puts_in (tb:=accts)); [apply many_nodup; auto|apply many_first; auto]. }
    split.
    { rewrite (rv_get _ _ _ _ RV). rewrite puts_app, (puts_in (tb:=accts) ws2 _ (Acct 0 0 0 true)); [reflexivity|apply O2|exact LASTV]. }
    split; [reflexivity|].
    destruct (kv_get (r_db w') (entry_key asc (sindex_of acct_by_kind) (Acct 0 0 0 true))) as [v|] eqn:EG; [exfalso|reflexivity].
    set (k := entry_key asc (sindex_of acct_by_kind) (Acct 0 0 0 true)) in *.
    change k with (s_id asc :: si_id (sindex_of acct_by_kind) :: tl (tl k)) in EG.
    apply (rv_index _ _ _ _ RV (sindex_of acct_by_kind)) in EG as [_ EG]; [|left; reflexivity].
    change (s_id asc :: si_id (sindex_of acct_by_kind) :: tl (tl k)) with k in EG.
    destruct EG as [(o & M & [_ KO] & ALL)|(x & X & [_ KX] & NO)].
    + apply entry_key_inj in KO as [_ [_ KO]]; [|left; reflexivity|apply acct_row_ok|apply acct_row_ok].
      destruct FIRSTV as [x [X ->]]. destruct (ALL (Acct 0 1 0 true)) as [_ KE]; [apply in_or_app; now left|rewrite <- KO; reflexivity|].
      apply (kinds_differ 0 1); try lia. exact KE.
    + assert (PX : s_pk asc x = s_pk asc (Acct 0 0 0 true)).
      { symmetry. apply entry_key_inj in KX as [_ [_ KX]]; [exact KX|left; reflexivity|apply acct_row_ok|apply acct_row_ok]. }
      apply (NO (Acct 0 0 0 true)); [rewrite PX; exact STORED|]. split; reflexivity.
Qed.
