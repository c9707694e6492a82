(** Property C44: any life of a FilterInitializable. *)

From Coq Require Import List Bool Arith.
From Verif.Model Require Import Bytes Go Keys Table Bloom FSStore FilterLife.
From Verif.Spec Require Import BloomSpec FilterLifeSpec.
From Verif.Proofs Require Import FilterFacts FilterBugs FilterLifeFacts.
Import ListNotations.

(** C44. After any calls of Add, Initialize and Save: while no Initialize has succeeded (none was called, or all failed, wherever they
    stopped) the filter reports every key, and Save returns an error and changes neither the store nor the filter. From the first
    Initialize that succeeds on, also after later ones that fail, it answers and saves as the filter inside does. Initialize and Add
    reach the filter inside all along, so keys of rows inserted meanwhile are in it. *)
Theorem C44_initializable_lives : forall (S F : Type) (f : filt F) os (s : S) fl0 s1 z rs, iz_run f s (Initz fl0 false) os = (s1, z, rs) ->
  (readied os rs -> (forall k, f_may (iz_filt f) z k = f_may f (iz_flt z) k) /\
    forall save s2 fl2 r, save s1 (iz_flt z) = (s2, fl2, r) -> exists z2, iz_step f s1 z (ICSave save) = (s2, z2, r) /\ iz_flt z2 = fl2) /\
  (~ readied os rs -> (forall k, f_may (iz_filt f) z k = true) /\ forall save, iz_step f s1 z (ICSave save) = (s1, z, Err EOther)) /\
  (forall init s2 fl2 r, init s1 (iz_flt z) = (s2, fl2, r) -> exists z2, iz_step f s1 z (ICInit init) = (s2, z2, r) /\ iz_flt z2 = fl2) /\
  (forall k, exists z2, iz_step f s1 z (ICAdd k) = (s1, z2, Ok tt) /\ iz_flt z2 = f_add f (iz_flt z) k).
Proof. exact @life. Qed.
Print Assumptions C44_initializable_lives.

(** A bloom filter: two keys are added, the first Initialize fails in a scanner, the Save after it returns an error and stores
    nothing, the second Initialize succeeds and then Save stores the filter. *)
Example C44_lives_case :
  let os := [ICAdd [x41]; ICInit (life_init (Err EOther)); ICSave life_save; ICAdd [x07]] in
  let more := [ICInit (life_init (Ok tt)); ICSave life_save] in
  let '(s1, z1, rs1) := iz_run life_filt [] (Initz (new_bloom demo_config) false) os in
  let '(s2, z2, rs2) := iz_run life_filt [] (Initz (new_bloom demo_config) false) (os ++ more) in
  s1 = [] /\ rs1 = [Ok tt; Err EOther; Err EOther; Ok tt] /\ f_may (iz_filt life_filt) z1 [x42] = true /\
  rs2 = rs1 ++ [Ok tt; Ok tt] /\ readied (os ++ more) rs2 /\ s2 <> [] /\ f_may (iz_filt life_filt) z2 [x42] = false /\
  f_may (iz_filt life_filt) z2 [x41] = true /\ f_may (iz_filt life_filt) z2 [x07] = true.
Proof.
  vm_compute. repeat split; try reflexivity; try discriminate. exists 4. eexists. split; reflexivity.
Qed.
