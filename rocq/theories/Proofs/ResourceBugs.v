(** Runs that leave something open. *)

From Coq Require Import List Arith Bool Lia.
From Verif.Model Require Import Resource.
From Verif.Spec Require Import ResourceSpec.
From Verif.Proofs Require Import ResourceFacts.
Import ListNotations.

(** ** An interpreter that is told what to choose: the left or another round is true, a panic is true *)
Fixpoint interp (n : nat) (s : stmt) (cs : list bool) : option (list event * list res_var * outcome * list bool) :=
  match n with
  | O => None
  | S n =>
    match s with
    | Skip => Some ([], [], Next, cs)
    | Open x => Some ([EOpen x], [], Next, cs)
    | Close x => Some ([EClose x], [], Next, cs)
    | Use x => Some ([EUse x], [], Next, cs)
    | Defer x => Some ([], [x], Next, cs)
    | User => match cs with true :: cs => Some ([], [], Panicked, cs) | _ :: cs => Some ([], [], Next, cs) | [] => Some ([], [], Next, []) end
    | Ret e => Some ([], [], Returned e, cs)
    | Seq a b =>
        match interp n a cs with
        | Some (t1, d1, Next, cs) => match interp n b cs with Some (t2, d2, o, cs) => Some (t1 ++ t2, d2 ++ d1, o, cs) | None => None end
        | r => r
        end
    | Or a b => match cs with true :: cs => interp n a cs | _ :: cs => interp n b cs | [] => interp n b [] end
    | Loop a =>
        match cs with
        | true :: cs =>
            match interp n a cs with
            | Some (t1, d1, Next, cs) => match interp n (Loop a) cs with Some (t2, d2, o, cs) => Some (t1 ++ t2, d2 ++ d1, o, cs) | None => None end
            | r => r
            end
        | _ :: cs => Some ([], [], Next, cs)
        | [] => Some ([], [], Next, [])
        end
    | Call f e =>
        match interp n f cs with
        | Some (t, d, Returned true, cs) =>
            match interp n e cs with Some (t2, d2, o, cs) => Some (t ++ map EClose d ++ t2, d2, o, cs) | None => None end
        | Some (t, d, Panicked, cs) => Some (t ++ map EClose d, [], Panicked, cs)
        | Some (t, d, _, cs) => Some (t ++ map EClose d, [], Next, cs)
        | None => None
        end
    end
  end.

Lemma interp_sound n : forall s cs t d o cs', interp n s cs = Some (t, d, o, cs') -> exec s t d o.
Proof.
  induction n as [|n IH]; intros s cs t d o cs' H; [discriminate|]. destruct s; cbn [interp] in H; try (inversion H; constructor; fail).
  - destruct cs as [|[|] cs]; inversion H; constructor.
  - destruct (interp n s1 cs) as [[[[t1 d1] [|e|]] cs1]|] eqn:E; [|inversion H; subst; apply x_seq_end; [eauto|discriminate]..|discriminate].
    destruct (interp n s2 cs1) as [[[[t2 d2] o2] cs2]|] eqn:E2; [|discriminate]. inversion H. subst. eapply x_seq; eauto.
  - destruct cs as [|[|] cs]; [apply x_right|apply x_left|apply x_right]; eauto.
  - destruct cs as [|[|] cs]; [inversion H; constructor| |inversion H; constructor].
    destruct (interp n s cs) as [[[[t1 d1] [|e|]] cs1]|] eqn:E; [|inversion H; subst; apply x_loop_stop; [eauto|discriminate]..|discriminate].
    destruct (interp n (Loop s) cs1) as [[[[t2 d2] o2] cs2]|] eqn:E2; [|discriminate]. inversion H. subst. eapply x_loop; eauto.
  - destruct (interp n s1 cs) as [[[[t1 d1] [|[|]|]] cs1]|] eqn:E; [| | | |discriminate].
    + inversion H. subst. eapply x_call; eauto.
    + destruct (interp n s2 cs1) as [[[[t2 d2] o2] cs2]|] eqn:E2; [|discriminate]. inversion H. subst. eapply x_call_err; eauto.
    + inversion H. subst. eapply x_call; eauto.
    + inversion H. subst. apply x_call_panic. eauto.
Qed.

Definition outcome_of (s : stmt) (cs : list bool) : outcome := match interp 200 s cs with Some (_, _, o, _) => o | None => Next end.
Definition trace_of (s : stmt) (cs : list bool) : list event := match interp 200 s cs with Some (t, d, _, _) => t ++ map EClose d | None => [] end.

Lemma interp_runs s cs : interp 200 s cs <> None -> runs s (trace_of s cs) (outcome_of s cs).
Proof.
  unfold trace_of, outcome_of. destruct (interp 200 s cs) as [[[[t d] o] cs']|] eqn:E; [|congruence]. intros _. exists t, d. split; auto. eapply interp_sound. eauto.
Qed.

Local Notation y := true (only parsing).
Local Notation n := false (only parsing).

Ltac there s cs := exists (trace_of s cs); split; [apply (interp_runs s cs); vm_compute; discriminate|vm_compute].

Lemma unsafe_update_given : exists t, runs (unsafe_update_call true) t (Returned true) /\ In (EClose RGiven) t.
Proof. there (unsafe_update_call true) [n; y; n; n; n; y]. tauto. Qed.

Lemma scan_panic : exists t, runs (scan_primary false) t Panicked /\ opens RIter t = 1 /\ closes RIter t = 0.
Proof. there (scan_primary false) [n; y; n; y; y]. auto. Qed.

Lemma query_panic : exists t, runs (query_call false) t Panicked /\ opens RIter t = 1 /\ closes RIter t = 0.
Proof. there (query_call false) [y; n; n; n; y; n; n; y]. auto. Qed.

Lemma reindex_fails : exists t, runs reindex_call t (Returned true) /\ opens RIter t = 1 /\ closes RIter t = 0.
Proof. there reindex_call [n; n; y; n; y]. auto. Qed.

(** two batches, one closed *)
Lemma reindex_batches : exists t, runs reindex_call t (Returned false) /\ opens RBatch t = 2 /\ closes RBatch t = 1.
Proof. there reindex_call [n; n; y; n; n; n; y; n; n; n]. auto. Qed.

Lemma add_index_locked : exists t, runs add_index_call t (Returned true) /\ t = [EOpen RTableLock].
Proof. there add_index_call [y; y]. auto. Qed.

Lemma open_locked : exists t, runs open_call t (Returned true) /\ opens RStore t = 1 /\ closes RStore t = 0.
Proof. there open_call [n; n; y; n; y; y]. auto. Qed.

Lemma dump_leaks : exists t, runs (dump_call true) t (Returned false) /\ opens RIter t = 2 /\ closes RIter t = 1.
Proof. there (dump_call true) [n; n; y; n; n; n; n; n; n; n; n; n]. auto. Qed.

Lemma dump_file : exists t, runs (dump_call false) t (Returned true) /\ opens RFile t = 1 /\ closes RFile t = 0.
Proof. there (dump_call false) [n; n; y; n; n; n; y; y]. auto. Qed.

Lemma load_fails : exists t, runs load_call t (Returned true) /\ closes RCount t = 0 /\ opens RCount t = 1 /\ opens RValue t = 1 /\ closes RValue t = 0 /\ opens RReader t = 1 /\ closes RReader t = 0.
Proof. there load_call [n; n; n; y; n; n; y]. auto 10. Qed.
