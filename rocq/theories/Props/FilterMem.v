(** Property C90: a filter's keys are its prefix and a number, whatever memory the prefix is in. *)

From Coq Require Import List NArith Bool Arith Lia.
From Verif.Model Require Import Bytes Go Keys Pebble Slices Bloom FilterMem.
From Verif.Spec Require Import SliceSpec BloomSpec FilterMemSpec.
From Verif.Proofs Require Import FilterBugs FilterMemFacts FilterMemBugs.
Import ListNotations.

(** C90. Any filters, with prefixes anywhere in memory, over any store, with any calls in any order, stopped saves included: they do what filters
    with prefixes of their own do, and no byte in view of a slice apart from the prefixes' free room changes.
    Missing: prefixes whose free room holds bytes of another prefix; false there, see [C90_shared_prefix_refuted]. *)
Theorem C90_filters_partial : forall St grow (st : storer St) cd hs fs os, no_sharing (map mc_pre fs) -> forall h s bss h' x,
  Forall (fun c => sl_ok h (mc_pre c)) fs -> m_run grow st cd hs fs h s bss os = (h', x) ->
  filters_run st cd hs (map (mc_view h) fs) s bss os = x /\
  (forall t, sl_ok h t -> Forall (fun c => apart (mc_pre c) t) fs -> sl_read h' t = sl_read h t).
Proof. exact @filters_value. Qed.
Print Assumptions C90_filters_partial.

(** Two filters with prefixes in different arrays, one of them with free room: both are saved and loaded, and the second process finds all keys. *)
Example C90_filters_case : no_sharing (map mc_pre [own_a; own_b]) /\ Forall (fun c => sl_ok own_buf (mc_pre c)) [own_a; own_b] /\
  exists a b, two_lives [own_a; own_b] own_buf = ([a; b], [Ok tt; Ok tt]) /\ bloom_may demo_hashes (mc_view own_buf own_b) b [x05] = true.
Proof. split; [exact own_no_sharing|]. split; [exact own_ok|exact own_keeps]. Qed.

(** C90. One filter alone always works, whatever room its prefix has: no call changes its own prefix, and each does what it does with
    a prefix of its own. *)
Theorem C90_one_filter : forall St grow (st : storer St) cd c hs h s bs o h' x, sl_ok h (mc_pre c) ->
  m_step grow st cd c hs h s bs o = (h', x) ->
  bloom_step st cd hs (mc_view h c) s bs o = x /\ sl_ok h' (mc_pre c) /\ sl_read h' (mc_pre c) = sl_read h (mc_pre c).
Proof.
  exact (fun St grow st cd c hs h s bs o h' x O E =>
    conj (proj1 (step_value_of grow st cd c hs h s bs o h' x O E)) (proj2 (proj2 (step_value_of grow st cd c hs h s bs o h' x O E)))).
Qed.
Print Assumptions C90_one_filter.

(** B's first save, in the memory it shares with A: its own prefix stays, three keys are stored. *)
Example C90_one_filter_case : sl_ok shared_buf (mc_pre flt_b) /\
  let '(h', (s', _, r)) := m_step no_grow db_storer demo_codec flt_b demo_hashes shared_buf [] (new_bloom (mc_view shared_buf flt_b)) (FSave None) in
  r = Ok tt /\ map fst s' = [[x62; x5f; x30]; [x62; x5f; x31]; [x62; x5f; x62; x6e]] /\ h' <> shared_buf /\ sl_read h' (mc_pre flt_b) = [x62; x5f].
Proof. split; [cbn; split; [cbn; lia|right; cbn; lia]|]. vm_compute. repeat split. discriminate. Qed.

(** C90. A prefix without free room: no call changes any byte that any slice shows. *)
Theorem C90_full_prefix : forall St grow (st : storer St) cd c hs h s bs o h' x t, sl_ok h (mc_pre c) ->
  sl_cap (mc_pre c) = sl_len (mc_pre c) -> m_step grow st cd c hs h s bs o = (h', x) -> sl_ok h t -> sl_read h' t = sl_read h t.
Proof.
  exact (fun St grow st cd c hs h s bs o h' x t O L E OT => proj1 (call_memory grow st cd c hs h s bs o h' x t O E OT (full_apart _ _ L))).
Qed.
Print Assumptions C90_full_prefix.

(** Saving A with its own array leaves the array of B as it was. *)
Example C90_full_prefix_case : sl_ok own_buf (mc_pre own_a) /\ sl_cap (mc_pre own_a) = sl_len (mc_pre own_a) /\ sl_ok own_buf (Slc 1 0 14 14) /\
  let '(h', (s', _, r)) := m_step no_grow db_storer demo_codec own_a demo_hashes own_buf [] (new_bloom (mc_view own_buf own_a)) (FSave None) in
  r = Ok tt /\ length s' = 3 /\ length h' = 5 /\ sl_read h' (Slc 1 0 14 14) = sl_read own_buf (Slc 1 0 14 14).
Proof. split; [split; [cbn; lia|right; cbn; lia]|]. split; [reflexivity|]. split; [split; [cbn; lia|right; cbn; lia]|]. vm_compute. repeat split. Qed.

(** C90, refuted for memory behind a prefix: already loading a filter that was never saved overwrites the caller's two bytes behind a
    prefix with that much room, for every memory, store and filter. *)
Theorem C90_spare_refuted : forall St grow (st : storer St) cd c h s bs h' bs' r, sl_ok h (mc_pre c) ->
  sl_len (mc_pre c) + 2 <= sl_cap (mc_pre c) -> st_get st s (count_key (mc_view h c)) = None ->
  m_load grow st cd c h s bs = (h', bs', r) ->
  bs' = bs /\ r = Err EOther /\ sl_read h' (behind (mc_pre c)) = [x62; x6e] ++ skipn 2 (sl_read h (behind (mc_pre c))).
Proof. exact @load_leaves. Qed.
Print Assumptions C90_spare_refuted.

(** Loading A from an empty database: the prefix of B becomes "bn". *)
Example C90_spare_case : sl_ok shared_buf (mc_pre flt_a) /\
  let '(h', _, r) := m_load no_grow db_storer demo_codec flt_a shared_buf [] (new_bloom (mc_view shared_buf flt_a)) in
  r = Err EOther /\ sl_read shared_buf (mc_pre flt_b) = [x62; x5f] /\ sl_read h' (mc_pre flt_b) = [x62; x6e].
Proof. split; [split; [cbn; lia|right; cbn; lia]|]. vm_compute. repeat split. Qed.

(** C90, refuted for prefixes in one buffer: with the distinct prefixes buf[0:2] and buf[2:4] of "a_b_", saving A renames B. B's next save succeeds
    under other keys, so the next process loads, without an error, a B that denies a key that was added and saved. *)
Theorem C90_shared_prefix_refuted : exists fa fb h a b k, Forall (fun c => sl_ok h (mc_pre c)) [fa; fb] /\
  prefixes_apart (sl_read h (mc_pre fa)) (sl_read h (mc_pre fb)) /\ In (1, FAdd k) first_life /\
  two_lives [fa; fb] h = ([a; b], [Ok tt; Ok tt]) /\ bloom_may demo_hashes (mc_view h fb) b k = false.
Proof.
  exact (match shared_forgets with
         | ex_intro _ a (ex_intro _ b P) =>
             ex_intro _ flt_a (ex_intro _ flt_b (ex_intro _ shared_buf (ex_intro _ a (ex_intro _ b (ex_intro _ [x05]
               (conj shared_ok (conj ab_apart (conj (or_intror (or_intror (or_intror (or_intror (or_introl eq_refl))))) P))))))))
         end).
Qed.
Print Assumptions C90_shared_prefix_refuted.
