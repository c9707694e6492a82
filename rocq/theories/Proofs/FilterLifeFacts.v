(** Any life of a FilterInitializable; properties C44, C42. *)

From Coq Require Import List Bool.
From Verif.Model Require Import Bytes Go Keys Table Bloom FSStore FilterLife.
From Verif.Spec Require Import FilterLifeSpec.
From Verif.Proofs Require Import FilterBugs.
Import ListNotations.

Section Life.
  Context {S F : Type} (f : filt F).

  Lemma ready_flag os : forall (s : S) z s1 z1 rs, iz_run f s z os = (s1, z1, rs) ->
    (iz_on z1 = true <-> iz_on z = true \/ readied os rs).
  Proof.
    induction os as [|o os IH]; intros s z s1 z1 rs E; cbn [iz_run] in E.
    - injection E as <- <- <-. split; auto. intros [H|(i & init & H & _)]; auto. destruct i; discriminate.
    - destruct (iz_step f s z o) as [[s2 z2] r] eqn:E1. destruct (iz_run f s2 z2 os) as [[s3 z3] rs1] eqn:E2. injection E as <- <- <-.
      rewrite (IH _ _ _ _ _ E2).
      assert (X : iz_on z2 = true <-> iz_on z = true \/ (exists init, o = ICInit init) /\ r = Ok tt).
      { destruct o as [k|init|save]; cbn [iz_step] in E1.
        - injection E1 as <- <- <-. cbn [iz_filt f_add iz_on]. split; auto. intros [H|[[x H] _]]; auto. discriminate.
        - unfold iz_init in E1. destruct (init s (iz_flt z)) as [[s4 fl] [[]| | |]]; injection E1 as <- <- <-; cbn [iz_on].
          + split; auto. intros _. right. split; eauto.
          + split; auto. intros [H|[_ H]]; auto. discriminate.
          + split; auto. intros [H|[_ H]]; auto. discriminate.
          + split; auto. intros [H|[_ H]]; auto. discriminate.
        - unfold iz_save in E1. destruct (iz_on z) eqn:O.
          + destruct (save s (iz_flt z)) as [[s4 fl] r4]. injection E1 as <- <- <-. cbn. split; auto.
          + injection E1 as <- <- <-. rewrite O. split; auto. intros [H|[[x H] _]]; auto. discriminate. }
      rewrite X. split.
      + intros [[H|[[init ->] ->]]|(i & init & H & H')]; auto.
        * right. exists 0, init. auto.
        * right. exists (Datatypes.S i), init. auto.
      + intros [H|(i & init & H & H')]; auto. destruct i as [|i]; cbn in H, H'.
        * injection H as ->. injection H' as ->. left. right. split; eauto.
        * right. exists i, init. auto.
  Qed.

  Lemma life os (s : S) fl0 s1 z rs : iz_run f s (Initz fl0 false) os = (s1, z, rs) ->
    (readied os rs -> (forall k, f_may (iz_filt f) z k = f_may f (iz_flt z) k) /\
      forall save s2 fl2 r, save s1 (iz_flt z) = (s2, fl2, r) -> exists z2, iz_step f s1 z (ICSave save) = (s2, z2, r) /\ iz_flt z2 = fl2) /\
    (~ readied os rs -> (forall k, f_may (iz_filt f) z k = true) /\ forall save, iz_step f s1 z (ICSave save) = (s1, z, Err EOther)) /\
    (forall init s2 fl2 r, init s1 (iz_flt z) = (s2, fl2, r) -> exists z2, iz_step f s1 z (ICInit init) = (s2, z2, r) /\ iz_flt z2 = fl2) /\
    (forall k, exists z2, iz_step f s1 z (ICAdd k) = (s1, z2, Ok tt) /\ iz_flt z2 = f_add f (iz_flt z) k).
  Proof.
    intros E. pose proof (ready_flag _ _ _ _ _ _ E) as R. cbn [iz_on] in R.
    split; [|split; [|split]].
    - intros H. assert (O : iz_on z = true) by (apply R; auto). split.
      + intros k. cbn [iz_filt f_may]. now rewrite O.
      + intros save s2 fl2 r X. cbn [iz_step]. unfold iz_save. rewrite O, X. eexists. split; [reflexivity|]. reflexivity.
    - intros H. assert (O : iz_on z = false). { destruct (iz_on z); auto. destruct (proj1 R eq_refl); [discriminate|contradiction]. } split.
      + intros k. cbn [iz_filt f_may]. now rewrite O.
      + intros save. cbn [iz_step]. unfold iz_save. now rewrite O.
    - intros init s2 fl2 r X. cbn [iz_step]. unfold iz_init. rewrite X. destruct r as [[]| | |]; eexists; (split; [reflexivity|]); reflexivity.
    - intros k. eexists. split; reflexivity.
  Qed.
End Life.

(** A bloom filter whose scanner ends as told. *)
Definition life_init (r : res unit) (s : list (bytes * bytes)) (bs : list bucket) :=
  filter_init db_storer demo_codec demo_config s [fun bs => (bs, r)] bs.
Definition life_save (s : list (bytes * bytes)) (bs : list bucket) := bloom_save db_storer demo_codec demo_config None s bs.
Definition life_filt : filt (list bucket) := Filt (bloom_add demo_hashes demo_config) (bloom_may demo_hashes demo_config).
