(** Concrete filters: a codec and hash functions that satisfy the assumptions, and histories on which unguarded claims fail. *)

From Coq Require Import List NArith ZArith Bool Arith Lia.
From Verif.Model Require Import Bytes Go Keys Pebble Index Table Scan AnyScan Bloom FSStore BloomRace.
From Verif.Spec Require Import KeySpec StoreSpec TableSpec HistSpec ScanSpec BloomSpec.
From Verif.Proofs Require Import BytesFacts PebbleFacts Witness HistFacts TableProps TableBugs ScanBugs BloomFacts FilterFacts FSFacts RaceFacts.
Import ListNotations.

(** ** A codec: numbers in unary, and an end mark *)
Definition enc_nat (n : nat) : bytes := repeat x01 n ++ [x00].
Definition enc_nats (l : list nat) : bytes := flat_map enc_nat l.
Fixpoint dec_nats (acc : nat) (b : bytes) : list nat :=
  match b with
  | [] => []
  | x :: b' => if Byte.eqb x x01 then dec_nats (S acc) b' else acc :: dec_nats 0 b'
  end.

Lemma dec_enc l : dec_nats 0 (enc_nats l) = l.
Proof.
  assert (H : forall n acc r, dec_nats acc (repeat x01 n ++ x00 :: r) = (n + acc) :: dec_nats 0 r).
  { intros n0. induction n0 as [|n0 IHn]; intros acc r; cbn; auto. rewrite IHn. f_equal. lia. }
  induction l as [|n l IH]; auto.
  assert (E : enc_nats (n :: l) = repeat x01 n ++ x00 :: enc_nats l) by (unfold enc_nats; cbn; unfold enc_nat; now rewrite <- app_assoc).
  rewrite E, H, Nat.add_0_r. f_equal. exact IH.
Qed.

Lemma enc_no_mark l : ~ In xff (enc_nats l).
Proof.
  intros H. apply in_flat_map in H. destruct H as (n & _ & H). apply in_app_or in H. destruct H as [H|[H|[]]]; [|discriminate].
  apply repeat_spec in H. discriminate.
Qed.

Definition demo_pack (x : image) : bytes := let '(m, k, bits) := x in enc_nats (N.to_nat m :: k :: map N.to_nat bits) ++ [xff].
Definition demo_unpack (b : bytes) : option image :=
  if Byte.eqb (last b x00) xff then
    match dec_nats 0 (removelast b) with
    | m :: k :: bits => Some (N.of_nat m, k, map N.of_nat bits)
    | _ => None
    end
  else None.
Definition demo_codec : codec := Codec demo_pack demo_unpack.

Lemma demo_codec_ok : codec_ok demo_codec.
Proof.
  split.
  - intros [[m k] bits]. change (demo_unpack (demo_pack (m, k, bits)) = Some (m, k, bits)). unfold demo_pack, demo_unpack. rewrite last_last, removelast_last, dec_enc.
    assert (E : map (fun x => N.of_nat (N.to_nat x)) bits = bits) by (induction bits as [|b bits IH]; cbn; auto; now rewrite N2Nat.id, IH).
    rewrite N2Nat.id, map_map, E. reflexivity.
  - intros [[m k] bits] j L. change (j < length (demo_pack (m, k, bits))) in L. change (demo_unpack (firstn j (demo_pack (m, k, bits))) = None). unfold demo_unpack. unfold demo_pack in *.
    set (e := enc_nats (N.to_nat m :: k :: map N.to_nat bits)) in *. pose proof (enc_no_mark (N.to_nat m :: k :: map N.to_nat bits)) as NM. fold e in NM. rewrite app_length in L. cbn [length] in L. clearbody e.
    rewrite firstn_app. replace (j - length e) with 0 by lia. cbn [firstn]. rewrite app_nil_r.
    assert (N : last (firstn j e) x00 <> xff).
    { intros H. destruct (firstn j e) as [|b l] eqn:F; [discriminate|].
      assert (I : In (last (firstn j e) x00) e).
      { rewrite <- (firstn_skipn j e) at 2. apply in_or_app. left. rewrite F. clear. revert b. induction l as [|y l IH]; intros b; [now left|].
        right. apply (IH y). }
      rewrite F, H in I. contradiction. }
    destruct (Byte.eqb (last (firstn j e) x00) xff) eqn:E; auto. apply Byte.byte_dec_bl in E. now destruct N.
Qed.

Definition demo_hashes : hashes := Hashes (fun k => (be_val k, be_val k + 1, 1, 1))%N (fun k n => N.to_nat (be_val k mod N.of_nat n)).
Lemma demo_hashes_ok : hashes_ok demo_hashes.
Proof. intros k n L. cbn. pose proof (N.mod_lt (be_val k) (N.of_nat n)). lia. Qed.

Definition demo_config : config := Config 64 2 2 bloom_prefix.

(** The default prefix is what KeyEncode makes. *)
Lemma bloom_prefix_encoded : bloom_prefix = key_encode (MkKey x00 x00 [] [] [x62; x66; x5f]) [].
Proof. reflexivity. Qed.

(** ** A table with a filter *)
Notation dfilt := (bloom_filt demo_hashes demo_config).
Definition bl_accts : table acct (bloom demo_config) := acct_table (Some dfilt).
Lemma bl_accts_good : good_table bl_accts.
Proof. apply acct_good. intros f E. injection E as <-. apply bloom_filt_ok; [exact demo_hashes_ok|cbn; lia]. Qed.

Definition new_demo : bloom demo_config := Bloom (new_bloom demo_config) (new_length demo_config).

(** Process 1 inserts account 1, saves the filter, inserts account 2 and dies. *)
Definition p1_first := fst (insert bl_accts env1 [] new_demo None [Acct 1 10 6 true]).
Definition p1_saved := bloom_save db_storer demo_codec demo_config None [] (bl_bs (r_flt p1_first)).
Definition p1_second := insert bl_accts env1 (r_db p1_first) (r_flt p1_first) None [Acct 2 11 0 true].
(** Process 2 initializes a new filter. *)
Definition p2_init (fuel : nat) := filter_init db_storer demo_codec demo_config (fst (fst p1_saved))
  [table_scanner demo_hashes demo_config bl_accts env1 (fun r => r) fuel (r_db (fst p1_second)) new_demo] (new_bloom demo_config).

Lemma stale_filter : exists bs2 (L : length bs2 = c_n demo_config) v,
  snd p1_saved = Ok tt /\ snd p1_second = Ok tt /\
  (forall fuel, p2_init fuel = (fst (fst p1_saved), bs2, Ok tt)) /\
  kv_get (r_db (fst p1_second)) (row_key asc (s_pk asc (Acct 2 0 0 true))) = Some v /\
  get_point bl_accts (r_db (fst p1_second)) (Bloom bs2 L) None (Acct 2 0 0 true) = Err ENotFound /\
  snd (insert bl_accts env1 (r_db (fst p1_second)) (Bloom bs2 L) None [Acct 2 55 55 true]) = Ok tt.
Proof.
  exists (snd (fst (p2_init 0))), eq_refl. eexists.
  split; [vm_compute; reflexivity|]. split; [vm_compute; reflexivity|].
  split; [intros fuel; vm_compute; reflexivity|]. split; [vm_compute; reflexivity|]. split; vm_compute; reflexivity.
Qed.

(** A table of numbers: the rescan starts at the zero record. *)
Definition bl_nums : table Z (bloom demo_config) := MkTable x05 (fun b z => kb_buff (add_int64 b z)) [] num_ser num_deser 0%Z 0%Z 3 (Some dfilt).
Definition nums_db : kv := stored nums tt [7; -1]%Z.
Definition nums_init (fuel : nat) := filter_init db_storer demo_codec demo_config []
  [table_scanner demo_hashes demo_config bl_nums env1 (fun r => r) fuel nums_db new_demo] (new_bloom demo_config).

Lemma rescan_omits : exists m bs2 (L : length bs2 = c_n demo_config),
  consistent nums nums_db tt m /\ m (s_pk (schema_of nums) (-1)%Z) = Some (-1)%Z /\
  (forall fuel, 2 <= fuel -> snd (nums_init fuel) = Ok tt /\ snd (fst (nums_init fuel)) = bs2) /\
  get_point bl_nums nums_db (Bloom bs2 L) None (-1)%Z = Err ENotFound /\
  get_point bl_nums nums_db (Bloom bs2 L) None 7%Z = Ok 7%Z.
Proof.
  exists (puts (schema_of nums) empty_map [7; -1]%Z), (snd (fst (nums_init 3))), eq_refl.
  split.
  { apply stored_consistent; [exact nums_good|reflexivity| | |].
    - apply Forall_forall. intros r _ ix [].
    - cbn [map]. repeat constructor; cbn [In]; intros H; vm_compute in H; intuition discriminate.
    - intros r [<-|[<-|[]]]; vm_compute; discriminate. }
  split; [vm_compute; reflexivity|]. split.
  { intros fuel LE. destruct fuel as [|[|fuel]]; [lia|lia|]. split; vm_compute; reflexivity. }
  split; vm_compute; reflexivity.
Qed.

(** ** Saving after Clear *)
Lemma clear_then_save : exists os s' bs' , os = [FAdd [x41]; FSave None; FClear; FSave None; FNew; FLoad] /\
  bloom_run db_storer demo_codec demo_hashes demo_config [] (new_bloom demo_config) os =
    (s', bs', [Ok tt; Ok tt; Ok tt; Ok tt; Ok tt; Err ENotFound]).
Proof. eexists _, _, _. split; [reflexivity|]. vm_compute. reflexivity. Qed.

(** ** A Save into files that is interrupted in its first write: Load panics from then on *)
Lemma torn_count : exists s scs, s = fst (fst (bloom_save fs_storer demo_codec demo_config (Some (0, 3)) [] (new_bloom demo_config))) /\
  snd (bloom_load fs_storer demo_codec demo_config s (new_bloom demo_config)) = Panic /\
  snd (filter_init fs_storer demo_codec demo_config s scs (new_bloom demo_config)) = Panic.
Proof. eexists _, []. split; [reflexivity|]. split; vm_compute; reflexivity. Qed.

(** ** Another number of buckets, and a prefix that ends in 0xFF *)
Definition ff_config (n : nat) : config := Config 64 2 n [x41; xff].
Definition ff_key : bytes := [x41].
(* saved with 2 buckets *)
Definition ff_s1 : kv := fst (fst (bloom_save db_storer demo_codec (ff_config 2) None [] (bloom_add demo_hashes (ff_config 2) (new_bloom (ff_config 2)) ff_key))).
(* opened with 1: Load fails, Clear does nothing, the rescan adds the key *)
Definition ff_init := filter_init db_storer demo_codec (ff_config 1) ff_s1 [fun bs => (bloom_add demo_hashes (ff_config 1) bs ff_key, Ok tt)] (new_bloom (ff_config 1)).
(* a Save that stops after its first write *)
Definition ff_s2 : kv := fst (fst (bloom_save db_storer demo_codec (ff_config 1) (Some (1, 0)) (fst (fst ff_init)) (snd (fst ff_init)))).

Lemma count_changed : snd ff_init = Ok tt /\ bloom_may demo_hashes (ff_config 1) (snd (fst ff_init)) ff_key = true /\
  snd (bloom_load db_storer demo_codec (ff_config 1) ff_s2 (new_bloom (ff_config 1))) = Ok tt /\
  bloom_may demo_hashes (ff_config 1) (fst (bloom_load db_storer demo_codec (ff_config 1) ff_s2 (new_bloom (ff_config 1)))) ff_key = false.
Proof. repeat split; vm_compute; reflexivity. Qed.

(** ** Two filters with the default prefix in one store *)
Lemma shared_prefix : exists ka kb s1 s2 a b a',
  a = bloom_add demo_hashes demo_config (new_bloom demo_config) ka /\ b = bloom_add demo_hashes demo_config (new_bloom demo_config) kb /\
  bloom_save db_storer demo_codec demo_config None [] a = (s1, snd (fst (bloom_save db_storer demo_codec demo_config None [] a)), Ok tt) /\
  bloom_save db_storer demo_codec demo_config None s1 b = (s2, snd (fst (bloom_save db_storer demo_codec demo_config None s1 b)), Ok tt) /\
  bloom_load db_storer demo_codec demo_config s2 (new_bloom demo_config) = (a', Ok tt) /\
  bloom_may demo_hashes demo_config a' ka = false.
Proof.
  exists [x41], [x43]. eexists _, _, _, _, _. split; [reflexivity|]. split; [reflexivity|].
  split; [vm_compute; reflexivity|]. split; [vm_compute; reflexivity|]. split; vm_compute; reflexivity.
Qed.

(** ** Concurrent Adds *)
Definition race_config : config := Config 64 1 1 bloom_prefix.
(* both read the word before either writes it *)
Lemma lost_bit : exists sched bs' pcs, race_run demo_hashes race_config [[x01]; [x02]] (new_bloom race_config) sched = (bs', pcs) /\
  all_done pcs /\ bloom_may demo_hashes race_config bs' [x02] = false.
Proof.
  exists [0; 0; 1; 1; 1; 1; 1; 0; 0; 0]. eexists _, _. split; [vm_compute; reflexivity|]. split.
  - intros pc [<-|[<-|[]]]; reflexivity.
  - vm_compute. reflexivity.
Qed.

(* the first key is present and saved; its Add reads hasChanges before the other Add sets it, and writes it back after *)
Definition lf_saved := bloom_save db_storer demo_codec race_config None [] (bloom_add demo_hashes race_config (new_bloom race_config) [x01]).
Lemma lost_flag : exists sched bs' pcs s2 r2, race_run demo_hashes race_config [[x01]; [x02]] (snd (fst lf_saved)) sched = (bs', pcs) /\
  all_done pcs /\ bloom_may demo_hashes race_config bs' [x02] = true /\
  (s2, r2) = (fst (fst (bloom_save db_storer demo_codec race_config None (fst (fst lf_saved)) bs')), snd (bloom_save db_storer demo_codec race_config None (fst (fst lf_saved)) bs')) /\
  r2 = Ok tt /\ snd (bloom_load db_storer demo_codec race_config s2 (new_bloom race_config)) = Ok tt /\
  bloom_may demo_hashes race_config (fst (bloom_load db_storer demo_codec race_config s2 (new_bloom race_config))) [x02] = false.
Proof.
  exists [0; 0; 1; 1; 1; 1; 1; 0]. eexists _, _, _, _. split; [vm_compute; reflexivity|]. split.
  - intros pc [<-|[<-|[]]]; reflexivity.
  - split; [vm_compute; reflexivity|]. split; [reflexivity|]. split; [vm_compute; reflexivity|]. split; vm_compute; reflexivity.
Qed.

(** ** The file store *)
Lemma fs_range_end_ignored : exists d lo hi k v, blt [x2e] (file_name lo) /\ plain lo /\ plain hi /\ plain k /\ ble hi k /\
  fs_get d k = Some v /\ fs_get (fst (fs_del_range d lo hi)) k = None.
Proof.
  exists [([x7a], [x01])], [x61], [x62], [x7a], [x01].
  split; [vm_compute; reflexivity|]. split; [split; vm_compute; reflexivity|]. split; [split; vm_compute; reflexivity|].
  split; [split; vm_compute; reflexivity|]. split; [vm_compute; discriminate|]. split; vm_compute; reflexivity.
Qed.

Lemma fs_keys_collide : exists d k k' v v', k <> k' /\ fs_get d k = Some v /\ snd (fs_set d k' v') = true /\ v <> v' /\
  fs_get (fst (fs_set d k' v')) k = Some v'.
Proof.
  exists [([x61], [x01])], [x61], [x00; x61], [x01], [x02]. split; [discriminate|]. split; [vm_compute; reflexivity|].
  split; [vm_compute; reflexivity|]. split; [discriminate|]. vm_compute. reflexivity.
Qed.

Lemma fs_clear_fails : exists d lo hi k, file_name lo = [] /\ fs_del_range d lo hi = (d, false) /\ fs_get d k <> None /\ in_range lo hi k = true.
Proof.
  exists [([x61], [x01])], [x00], [xff], [x61]. split; [reflexivity|]. split; [vm_compute; reflexivity|]. split; [vm_compute; discriminate|]. reflexivity.
Qed.
