(** Scans of the accounts on memory, and callbacks that look at the key too late. *)

From Coq Require Import List NArith Bool Arith Lia.
From Verif.Model Require Import Bytes Go Keys Pebble Index Table Scan Query Slices Mem MemScan MemQuery.
From Verif.Spec Require Import SliceSpec TableSpec MemSpec MemScanSpec.
From Verif.Proofs Require Import SliceFacts MemFacts MemCalls MemBounds MemScanFacts MemQueryFacts Witness TableBugs ScanBugs MemWitness.
Import ListNotations.

Lemma accts_by_kind_mem : implements_index accts_mem acct_by_kind.
Proof. constructor; intros r; cbn; apply fields_append; intros b; eexists; split; reflexivity. Qed.

Lemma accts_by_score_mem : implements_index accts_mem acct_by_score.
Proof. constructor; intros r; cbn; [apply fields_append; intros b; eexists; split; reflexivity|apply nothing_appends]. Qed.

Lemma accts_primary_mem : implements_index accts_mem primary_index.
Proof. constructor; intros r; apply nothing_appends. Qed.

(** Five accounts of one kind; the table fetches three at a time. *)
Definition five : list acct := map (fun i => Acct i 10 i true) [1; 2; 3; 4; 5]%N.
Definition five_db : kv := stored accts tt five.

(** Array 0 holds the buffers for the bounds of two points or ranges, array 1 those for the iterator's key and for all keys of one fetch, which has too little
    room; array 2 the three value buffers, one without room; array 3 somebody else's bytes, array 4 free buffers of the pool. *)
Definition hall : mem := Mem [repeat xaa 160; repeat xbb 130; repeat xcc 34; [x01; x02; x03]; [xdd; xdd; xdd; xdd]] [].
Definition bnd : list (slc * slc) := [(Slc 0 0 0 60, Slc 0 60 0 40); (Slc 0 100 0 10, Slc 0 110 0 50)].
Definition itb : slc := Slc 1 0 0 50.
Definition mkb1 : slc := Slc 1 50 0 80.
Definition vbs : list slc := [Slc 2 0 0 16; Slc 2 16 0 18; Slc 2 34 0 0].

Lemma hall_room n : scan_room others hall (firstn n bnd) itb mkb1 vbs.
Proof.
  assert (ALL : scan_room others hall bnd itb mkb1 vbs).
  { unfold scan_room, bnd, vbs, others. cbn [sides flat_map fst snd app]. split.
    - repeat (apply Forall_cons || apply Forall_nil); (split; [cbn; lia|right; split; cbn; lia]).
    - unfold itb, mkb1, disjoint.
      repeat (first [apply FOP_cons|apply FOP_nil|apply Forall_cons|apply Forall_nil]); cbn [sl_arr sl_off sl_cap];
        first [left; lia|right; left; lia|right; right; left; lia|right; right; right; lia]. }
  unfold scan_room in *. eapply buffers_part; [|exact ALL]. rewrite <- (firstn_skipn n bnd) at 1.
  instantiate (1 := sides (skipn n bnd)). rewrite sides_app. perm.
Qed.

Definition busy := scribble 4 others.
Definition kind10 : selector acct := SPoint (Acct 0 10 100 true).

(** Collects the keys; looks at the key behind Get. *)
Definition late_look (w : list bytes) (k : slc) : mprog acct (list bytes) := MGet (fun _ => MRead k (fun b => MRet (w ++ [b]) true None)).
(** The same with the key as a value. *)
Definition late_value (w : list bytes) (b : bytes) : prog (T:=acct) (list bytes) := PGet (fun _ => PRet (w ++ [b]) true None).

Lemma late_any w b s : looks_any_time b s (late_value w b) (late_look w s).
Proof. apply la_get. intros v. apply la_read. constructor. Qed.

(** Collects the keys without copying them. *)
Definition keep_key (w : list slc) (k : slc) : mprog acct (list slc) := MRet (w ++ [k]) true None.

Lemma late_key : exists W (fm : W -> slc -> mprog acct W) fv m bufs kb mkb vals db sel w fuel, 
  (forall w b s, looks_any_time b s (fv w b) (fm w s)) /\ implements accts_mem /\ implements_index accts_mem acct_by_kind /\ leaves busy others /\
  scan_room others m bufs kb mkb vals /\ length bufs = bounds_of sel /\ length vals = t_prefetch accts /\
  snd (scan_index_for_each accts env1 fuel db tt acct_by_kind sel fv false NoBatch w) = Ok tt /\
  snd (m_scan_index_for_each dbl busy accts_mem env1 fuel m bufs kb mkb vals db tt acct_by_kind sel fm false NoBatch w)
    <> scan_index_for_each accts env1 fuel db tt acct_by_kind sel fv false NoBatch w.
Proof.
  exists (list bytes), late_look, late_value, hall, (firstn 1 bnd), itb, mkb1, vbs, five_db, kind10, [], 20.
  split; [exact late_any|]. split; [exact accts_implements|]. split; [exact accts_by_kind_mem|]. split; [apply scribble_leaves|]. split; [apply hall_room|].
  split; [reflexivity|]. split; [reflexivity|]. split; [vm_compute; reflexivity|vm_compute; discriminate].
Qed.

Lemma kept_key idx : In idx [primary_index; acct_by_kind] -> exists m bufs kb mkb vals db sel fuel,
  implements accts_mem /\ implements_index accts_mem idx /\ leaves busy others /\ scan_room others m bufs kb mkb vals /\ length bufs = bounds_of sel /\
  length vals = t_prefetch accts /\
  let '(m', _, (ks, r)) := m_scan_index_for_each dbl busy accts_mem env1 fuel m bufs kb mkb vals db tt idx sel keep_key false NoBatch [] in
  let '(bs, r') := scan_index_for_each accts env1 fuel db tt idx sel (fun w b => PRet (w ++ [b]) true None) false NoBatch [] in
  r = Ok tt /\ r' = Ok tt /\ length ks = 5 /\ NoDup bs /\ map (m_read m') ks = repeat (nth 4 bs []) 5.
Proof.
  intros IN. exists hall, (firstn 1 bnd), itb, mkb1, vbs, five_db, kind10, 20.
  split; [exact accts_implements|]. split; [destruct IN as [<-|[<-|[]]]; [exact accts_primary_mem|exact accts_by_kind_mem]|].
  split; [apply scribble_leaves|]. split; [apply hall_room|]. split; [reflexivity|]. split; [reflexivity|].
  destruct IN as [<-|[<-|[]]]; vm_compute; (split; [reflexivity|split; [reflexivity|split; [reflexivity|split; [|reflexivity]]]]);
    repeat (constructor; [cbn; intuition discriminate|]); constructor.
Qed.
