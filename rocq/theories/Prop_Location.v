(* C60: location strings of all processes (laik_sync_location, laik_group_location) *)
From Coq Require Import ZArith List Bool Lia ZifyBool ZifyNat Sorted Permutation.
From Verif Require Import Base Model_RangeList Model_KVS Spec_RangeList Spec_KVS Proof_RangeList5 Proof_KVS Proof_KVS2 Proof_KVS3 Proof_KVS5 Proof_KVS6 Prop_KVS.
From Verif Require Import Model_SpaceStore Spec_SpaceStore Proof_SpaceStore Model_Tcp2 Proof_Tcp2 Proof_Tcp3 Model_Switch.
From Verif Require Import Model_Tcp2Sync Spec_Tcp2Sync Proof_Tcp2Sync1 Proof_Tcp2Sync2 Proof_Tcp2Sync4 Proof_Tcp2Sync6 Prop_Tcp2Sync.
From Verif Require Import Model_Location Spec_Location Proof_Location1 Proof_Location2 Proof_Location3.
Import ListNotations.
Open Scope Z_scope.

(* ---------- MPI backend ---------- *)

(* The first call succeeds, and afterwards every process gets the location string of every process; for location
   IDs without process there is none. *)
Theorem C60_mpi : forall qj qk n ps, is_qsort entrycmp qj -> is_qsort kvs_cmp qk -> Processes n ps ->
  exists l, sync_location_mpi qj qk n ps (repeat None (length ps)) = Ok l /\ length l = length ps /\
    forall s u, In (s, u) l ->
      (forall lid str, In (lid, str) ps -> group_location (Some u) lid = Ok (Some str)) /\
      (forall lid, 0 <= lid < n -> ~ In lid (map fst ps) -> group_location (Some u) lid = Ok None).
Proof.
  intros qj qk n ps Qj Qk (Hn & Hne & ND & HP).
  assert (Hn0 : 0 <= n <= 10 ^ 9).
  { split; [|lia]. destruct ps as [|[lid str] ps]; [congruence|]. specialize (HP lid str (or_introl eq_refl)). lia. }
  assert (HP' : Forall (fun p => 0 <= fst p < n /\ StrOk (snd p)) ps).
  { apply Forall_forall. intros [lid str] Hi. destruct (HP lid str Hi) as (A & B & C). split; [exact A|]. split; auto. }
  destruct (mpi_first n Hn0 qj qk Qj Qk ps Hne ND HP') as (l & L1 & L2 & L3 & L4 & B' & L5 & L6 & L7).
  exists l. split; [exact L1|]. split; [exact L2|]. intros s u Hi. rewrite Forall_forall in L3. destruct (L3 (s, u) Hi) as (K & A1 & A2 & A3). cbn [fst snd] in *.
  assert (S : forall k, seen (ks_ent s) k = B' k).
  { intros k. assert (X := L5 s (in_map fst _ _ Hi) k). rewrite kvs_get_seen in X by auto. congruence. }
  assert (G : forall lid, 0 <= lid < n -> group_location (Some u) lid = Ok (option_map cstr (B' (locationkey lid)))).
  { intros lid Hl. unfold group_location. rewrite A1, A2. replace ((0 <=? lid) && (lid <? n)) with true by lia. replace (lid <? n) with true by lia. cbn [cassert]. rewrite A3, S by auto. reflexivity. }
  split.
  - intros lid str Hp. destruct (HP lid str Hp) as (H1 & H2 & H3). rewrite G by auto. specialize (L6 (lid, str) Hp). cbn [kv fst snd] in L6. rewrite L6. cbn [option_map]. now rewrite cstr_app.
  - intros lid Hl Hp. rewrite G by auto. rewrite L7; auto. intros [lid' str'] Hi' E. cbn [kv fst snd] in E. destruct (HP lid' str' Hi') as (H1 & _). apply key_inj in E; try lia. subst lid'. apply Hp. apply (in_map fst _ _ Hi').
Qed.

(* ... but later calls never succeed, as nothing changed *)
Lemma set_cb_fst {U} (f : list Z -> list Z -> U -> outcome U) x k v y : kvs_set_cb f x k v = Ok y -> kvs_set (fst x) k v = Ok (fst y).
Proof. unfold kvs_set_cb. intros H. apply obind_ok in H. destruct H as (b & _ & H). apply obind_ok in H. destruct H as (s & E & H). apply obind_ok in H. destruct H as (u & _ & H). injection H as <-. exact E. Qed.
Lemma loop_cb_fst {U} (f : list Z -> list Z -> U -> outcome U) data : forall m off x y, (length off <= m)%nat -> apply_loop_cb f off data x = Ok y -> apply_loop off data (fst x) = Ok (fst y).
Proof.
  induction m as [|m IH]; intros off x y Hm E.
  { destruct off; [|simpl in Hm; lia]. injection E as <-. reflexivity. }
  destruct off as [|o0 [|o1 [|o2 t]]]; try (injection E as <-; reflexivity); [discriminate E|].
  rewrite apply_loop_cb_step in E. rewrite apply_loop_step. destruct (o1 >? o0); [|discriminate]. destruct (o2 >? o1); [|discriminate]. cbn [cassert] in *.
  apply obind_ok in E. destruct E as (x' & E1 & E2). rewrite (set_cb_fst _ _ _ _ _ E1). cbn [obind]. apply IH; auto. simpl in *; lia.
Qed.
Lemma changes_cb_fst {U} (f : list Z -> list Z -> U -> outcome U) c x y : changes_apply_cb f c x = Ok y -> changes_apply c (fst x) = Ok (fst y).
Proof.
  unfold changes_apply_cb, changes_apply. destruct (offused c =? 0); [intros [= <-]; reflexivity|]. destruct (Z.odd (offused c)); [|discriminate]. destruct (0 <? dataused c); [|discriminate]. cbn [cassert].
  apply (loop_cb_fst f (j_data c) (length (j_off c))). auto.
Qed.
Lemma recv_cb_fst {U} (f : list Z -> list Z -> U -> outcome U) d x y : recv_merged_cb f d x = Ok y -> recv_merged d (fst x) = Ok (fst y).
Proof.
  unfold recv_merged_cb, recv_merged. destruct (0 <? offused d).
  - destruct (0 <? dataused d); [|discriminate]. cbn [cassert]. intros E. apply obind_ok in E. destruct E as (c1 & -> & E). cbn [obind]. apply obind_ok in E. destruct E as (c2 & -> & E). cbn [obind]. apply changes_cb_fst in E. exact E.
  - destruct (dataused d =? 0); [|discriminate]. intros [= <-]. reflexivity.
Qed.
Lemma fold_fst {A B} (f : A -> outcome A) (g : B -> outcome B) (h : A -> B) : (forall x y, f x = Ok y -> g (h x) = Ok (h y)) ->
  forall l acc r, ofold (fun acc p => do p' <- f p; Ok (acc ++ [p'])) l acc = Ok r -> ofold (fun acc p => do p' <- g p; Ok (acc ++ [p'])) (map h l) (map h acc) = Ok (map h r).
Proof.
  intros H. induction l as [|x l IH]; intros acc r E; cbn [ofold map] in *; [injection E as <-; reflexivity|]. apply obind_ok in E. destruct E as (a & E1 & E). apply obind_ok in E1. destruct E1 as (y & E1 & E2). injection E2 as <-.
  rewrite (H _ _ E1). cbn [obind]. apply IH in E. rewrite map_app in E. exact E.
Qed.
Lemma sync_cb_fst {U} (f : list Z -> list Z -> U -> outcome U) qj qk l r : kvs_sync_mpi_cb f qj qk l = Ok r -> kvs_sync_mpi qj qk (map fst l) = Ok (map fst r).
Proof.
  unfold kvs_sync_mpi_cb, kvs_sync_mpi. intros E. apply obind_ok in E. destruct E as (l1 & E1 & E2).
  assert (X : mpi_sync qj (map sync_begin (map fst l)) = Ok (map fst l1)).
  { replace (map sync_begin (map fst l)) with (map fst (map (fun x : store * U => (sync_begin (fst x), snd x)) l)) by (rewrite !map_map; reflexivity). revert E1. generalize (map (fun x : store * U => (sync_begin (fst x), snd x)) l). clear. intros l E.
    destruct l as [|x l]; [discriminate E|]. unfold mpi_sync_cb in E. unfold mpi_sync. cbn [map].
    destruct (changes_sort qj (ks_changes (fst x))) as [c0| | | |]; try discriminate. cbn [obind] in *.
    destruct (ofold (mpi_gather qj) (map fst l) _) as [[[[dst src] rc] own]| | | |]; try discriminate. cbn [obind] in *.
    destruct (dataused dst >? offused dst); [|discriminate]. cbn [cassert] in *. apply obind_ok in E. destruct E as (m' & E1 & E). apply obind_ok in E. destruct E as (o' & E2 & E). injection E as <-.
    apply changes_cb_fst in E1. cbn [fst] in E1. rewrite E1. cbn [obind]. apply (fold_fst _ _ fst (recv_cb_fst f dst)) in E2. cbn [map] in E2. rewrite E2. reflexivity. }
  rewrite X. cbn [obind]. clear X E1.
  assert (G : forall l acc r, ofold (fun acc (p : store * U) => do s <- sync_end qk (fst p); Ok (acc ++ [(s, snd p)])) l acc = Ok r -> ofold (fun acc p => do p' <- sync_end qk p; Ok (acc ++ [p'])) (map fst l) (map fst acc) = Ok (map fst r)).
  { clear. induction l as [|x l IH]; intros acc r E; cbn [ofold map] in *; [injection E as <-; reflexivity|]. apply obind_ok in E. destruct E as (a & E1 & E). apply obind_ok in E1. destruct E1 as (y & E1 & E2). injection E2 as <-.
    rewrite E1. cbn [obind]. apply IH in E. rewrite map_app in E. exact E. }
  exact (G l1 [] r E2).
Qed.

Theorem C60_mpi_again_refuted : forall qj qk n ps l, is_qsort entrycmp qj -> is_qsort kvs_cmp qk -> Processes n ps ->
  sync_location_mpi qj qk n ps (repeat None (length ps)) = Ok l ->
  forall l', sync_location_mpi qj qk n ps (map Some l) <> Ok l'.
Proof.
  intros qj qk n ps l Qj Qk (Hn & Hne & ND & HP) E l' E'.
  assert (Hn0 : 0 <= n <= 10 ^ 9).
  { split; [|lia]. destruct ps as [|[lid str] ps]; [congruence|]. specialize (HP lid str (or_introl eq_refl)). lia. }
  assert (HP' : Forall (fun p => 0 <= fst p < n /\ StrOk (snd p)) ps).
  { apply Forall_forall. intros [lid str] Hi. destruct (HP lid str Hi) as (A & B & C). split; [exact A|]. split; auto. }
  destruct (mpi_first n Hn0 qj qk Qj Qk ps Hne ND HP') as (l0 & L1 & L2 & L3 & L4 & B' & L5 & L6 & L7). rewrite E in L1. injection L1 as <-.
  unfold sync_location_mpi in E'. apply obind_ok in E'. destruct E' as (l1 & E1 & E2). apply sync_cb_fst in E2.
  assert (X : map fst l1 = map fst l).
  { assert (G : forall ps l acc r, length l = length ps -> (forall p x, In (p, x) (combine ps l) -> kvs_set (fst x) (fst (kv p)) (snd (kv p)) = Ok (fst x)) ->
      ofold (fun acc p => do x <- loc_create n (snd p); do x' <- loc_set (fst (fst p)) (snd (fst p)) x; Ok (acc ++ [x'])) (combine ps (map Some l)) acc = Ok r -> map fst r = map fst acc ++ map fst l).
    { clear. induction ps as [|p ps IH]; intros l acc r HL HS E; destruct l as [|x l]; try discriminate HL; cbn [map combine ofold] in E.
      - injection E as <-. cbn [map]. now rewrite app_nil_r.
      - cbn [loc_create snd obind fst] in E. apply obind_ok in E. destruct E as (a & E1 & E). apply obind_ok in E1. destruct E1 as (x' & E1 & E2). injection E2 as <-. unfold loc_set in E1. apply obind_ok in E1. destruct E1 as (u & _ & E1). apply obind_ok in E1. destruct E1 as (s & E1 & E2). injection E2 as <-.
        assert (Y := HS p x (or_introl eq_refl)). unfold kvs_sets in E1. cbn [kv fst snd] in Y. rewrite Y in E1. injection E1 as <-.
        apply IH in E; [|simpl in HL; lia|intros p0 x0 Hi; apply HS; right; exact Hi]. rewrite E, map_app, <- app_assoc. reflexivity. }
    apply (G ps l [] l1 L2); auto. intros p x Hi. assert (Hp := in_combine_l _ _ _ _ Hi). assert (Hx := in_combine_r _ _ _ _ Hi). rewrite Forall_forall in L3. destruct (L3 x Hx) as (K & _).
    assert (S := L5 (fst x) (in_map fst _ _ Hx) (fst (kv p))). rewrite (L6 p Hp) in S. unfold kvs_get in S. unfold kvs_set. destruct (kvs_entry_spec (fst x) (fst (kv p)) K) as [r [Er R]]. rewrite Er in S |- *. cbn [obind] in *.
    destruct r as [i|]; [|discriminate]. destruct R as (e & R1 & R2 & R3). rewrite R1 in S |- *. injection S as S. rewrite S. unfold kv. cbn [fst snd].
    destruct (memcmp_cases (snd p ++ [0]) (snd p ++ [0])) as [[M _]|[[_ M]|[_ (t & T1 & T2)]]]; [rewrite M; reflexivity|congruence|].
    exfalso. apply T1. apply (app_inv_head (snd p ++ [0])). rewrite <- T2, app_nil_r. reflexivity. }
  rewrite X in E2. apply (C43_no_changes CString qj qk (length ps) (map fst l) (map fst l') C41_strings Qj Qk L4).
  unfold exec_round.
  assert (Y : exec_all qk (map fst l) (repeat [] (length ps)) = Ok (map fst l)).
  { unfold exec_all. rewrite <- L2. clear. assert (G : forall (w acc : list store), ofold (fun acc p => do s <- exec_ops qk (fst p) (snd p); Ok (acc ++ [s])) (combine w (repeat [] (length w))) acc = Ok (acc ++ w)).
    { induction w as [|s w IH]; intros acc; cbn [length repeat combine ofold]; [now rewrite app_nil_r|]. cbn [fst snd exec_ops ofold obind]. unfold exec_ops. cbn [ofold obind]. rewrite IH, <- app_assoc. reflexivity. }
    specialize (G (map fst l) []). rewrite map_length in G. exact G. }
  rewrite Y. cbn [obind]. exact E2.
Qed.

(* ---------- TCP2 backend ---------- *)

Lemma loc_sync N str calls : 1 <= N <= 10 ^ 9 -> Fits N str -> Z.of_nat calls * N < 2 ^ 31 -> SyncOk location_name N (repeat (loc_round N str) calls).
Proof.
  intros HN HF HC. split; [apply name_b; reflexivity|]. split; [lia|]. split.
  - apply Forall_forall. intros r Hr. apply repeat_spec in Hr. subst r. split.
    + intros p1 p2 k v1 v2 H1 H2. unfold loc_round. replace ((0 <=? p1) && (p1 <? N)) with true by lia. replace ((0 <=? p2) && (p2 <? N)) with true by lia. cbn [last_set].
      destruct (list_eq_dec Z.eq_dec k (locationkey p1)) as [E1|]; [|discriminate]. destruct (list_eq_dec Z.eq_dec k (locationkey p2)) as [E2|]; [|discriminate].
      intros [= <-] [= <-]. rewrite E1 in E2. apply key_inj in E2; try lia. congruence.
    + intros p Hp. unfold loc_round. replace ((0 <=? p) && (p <? N)) with true by lia. constructor; [|constructor]. split; [|apply HF; auto].
      destruct (LK_word N ltac:(lia) (locationkey p) ltac:(exists p; auto)) as (A & B & C). split; [exact A|]. split; [exact C|].
      rewrite key_print by lia. eapply Forall_impl; [|apply print_dec_range; lia]. intros c Hc. cbn beta in Hc. unfold is_space. lia.
  - assert (G : forall r, (forall p, (length (r p) <= 1)%nat) -> Z.of_nat (length (all_ops N r)) <= N).
    { intros r Hr. unfold all_ops. assert (X : forall l, (length (flat_map (fun p => r (Z.of_nat p)) l) <= length l)%nat).
      { induction l as [|a l IH]; cbn [flat_map length]; [lia|]. rewrite app_length. specialize (Hr (Z.of_nat a)). lia. }
      specialize (X (seq 0 (Z.to_nat N))). rewrite seq_length in X. lia. }
    assert (G2 : Z.of_nat (length (flat_map (all_ops N) (repeat (loc_round N str) calls))) <= Z.of_nat calls * N); [|lia].
    clear HC. induction calls as [|c IH]; cbn [repeat flat_map length]; [lia|]. rewrite app_length.
    assert (X := G (loc_round N str)). assert (Y : forall p, (length (loc_round N str p) <= 1)%nat) by (intros p; unfold loc_round; destruct ((0 <=? p) && (p <? N)); simpl; lia). specialize (X Y). lia.
Qed.
Lemma loc_inv N str calls s : 1 <= N <= 10 ^ 9 -> Fits N str -> loc_start N str calls = Ok s -> NInv N s /\ snet_start (program (repeat (loc_round N str) calls)) = Ok (ln_net s).
Proof.
  intros HN HF E. unfold loc_start in E. apply obind_ok in E. destruct E as (s0 & E & E1). injection E1 as <-. cbn [ln_net]. split; [|exact E]. unfold snet_start in E. apply obind_ok in E. destruct E as (st & E0 & E). injection E as <-.
  destruct (new_LInv CString) as (s1 & N1 & N2 & _). rewrite E0 in N1. injection N1 as <-. destruct N2 as (K & I & S & _).
  split; cbn [ln_net ln_locs sn_proc sn_wire]; [|intros; constructor]. intros p. unfold PInv. cbn [sq_st sq_kvs sq_prog sq_ph]. conjs; auto.
  - split; [reflexivity|]. split; [reflexivity|]. intros l Hl. rewrite S. reflexivity.
  - intros k Hk. rewrite S in Hk. congruence.
  - apply Forall_forall. intros x Hx. unfold program in Hx. apply in_flat_map in Hx. destruct Hx as (r & Hr & Hx). apply repeat_spec in Hr. subst r. apply in_app_or in Hx. destruct Hx as [Hx|[<-|[]]]; [|exact Logic.I].
    apply in_map_iff in Hx. destruct Hx as (o & <- & Hx). unfold loc_round in Hx. destruct ((0 <=? p) && (p <? N)) eqn:Ep; [|destruct Hx]. destruct Hx as [<-|[]]. split; [exists p; split; [lia|auto]|].
    apply (Fit_nz (locationkey p)). apply HF. lia.
Qed.

(* No call fails, for all schedules *)
Theorem C60_tcp2_safe : forall q N str calls s0 sched, 1 <= N <= 10 ^ 9 -> Fits N str -> Z.of_nat calls * N < 2 ^ 31 -> is_qsort kvs_cmp q ->
  loc_start N str calls = Ok s0 -> sched_ok N sched ->
  forall n, exists s, lrun location_name q N s0 (ssteps sched n) = Ok s.
Proof.
  intros q N str calls s0 sched HN HF HC Q E0 SO n. destruct (loc_inv N str calls s0 HN HF E0) as (I0 & E1).
  destruct (C54_sync location_name q N _ _ sched (loc_sync N str calls HN HF HC) Q E1 SO n) as (t & R & _).
  destruct (run_sim N ltac:(lia) location_name q N Q (ssteps sched n) s0 t I0 R) as (s & R1 & _). eauto.
Qed.

(* When all are done, every process gets the location string of every process *)
Theorem C60_tcp2 : forall q N str calls s0 sched n s, 1 <= N <= 10 ^ 9 -> Fits N str -> Z.of_nat calls * N < 2 ^ 31 -> (1 <= calls)%nat -> is_qsort kvs_cmp q ->
  loc_start N str calls = Ok s0 -> sched_ok N sched ->
  lrun location_name q N s0 (ssteps sched n) = Ok s -> sdone N (ln_net s) = true ->
  forall p r, 0 <= p < N -> 0 <= r < N -> group_location (Some (ln_locs s p)) r = Ok (Some (str r)).
Proof.
  intros q N str calls s0 sched n s HN HF HC H1 Q E0 SO R HD p r Hp Hr. destruct (loc_inv N str calls s0 HN HF E0) as (I0 & E1).
  assert (SOK := loc_sync N str calls HN HF HC).
  destruct (C54_sync location_name q N _ _ sched SOK Q E1 SO n) as (t & Rt & _).
  destruct (run_sim N ltac:(lia) location_name q N Q (ssteps sched n) s0 t I0 Rt) as (s' & R1 & R2 & (HI & _)). rewrite R in R1. injection R1 as <-. subst t.
  destruct (C54_agree location_name q N _ _ sched n (ln_net s) SOK Q E1 SO Rt HD) as (HO & _ & _). specialize (HO p Hp (locationkey r)).
  destruct (HI p) as (K & (A1 & A2 & A3) & _). rewrite kvs_get_seen in HO by auto. injection HO as HO.
  assert (C : common N (repeat (loc_round N str) calls) (locationkey r) = Some (str r ++ [0])).
  { destruct calls as [|c]; [lia|]. replace (repeat (loc_round N str) (S c)) with (repeat (loc_round N str) c ++ [loc_round N str]) by (symmetry; apply (repeat_cons c (loc_round N str))).
    rewrite common_snoc. apply (after_set N (loc_round N str) r).
    - destruct SOK as (_ & _ & RO & _). rewrite Forall_forall in RO. apply RO. cbn [repeat]. left. reflexivity.
    - auto.
    - unfold loc_round. replace ((0 <=? r) && (r <? N)) with true by lia. cbn [last_set]. destruct (list_eq_dec Z.eq_dec (locationkey r) (locationkey r)); congruence. }
  unfold group_location. rewrite A1, A2. replace ((0 <=? r) && (r <? N)) with true by lia. replace (r <? N) with true by lia. cbn [cassert]. rewrite A3, HO, C by auto. cbn [option_map].
  rewrite cstr_app; auto. apply (Fit_nz (locationkey r)). apply HF. auto.
Qed.

(* All calls end *)
Theorem C60_tcp2_terminates : forall q N str calls s0 sched, 1 <= N <= 10 ^ 9 -> Fits N str -> Z.of_nat calls * N < 2 ^ 31 -> is_qsort kvs_cmp q ->
  loc_start N str calls = Ok s0 -> sched_ok N sched -> sfair N sched ->
  exists n, forall k, (n <= k)%nat -> exists s, lrun location_name q N s0 (ssteps sched k) = Ok s /\ sdone N (ln_net s) = true.
Proof.
  intros q N str calls s0 sched HN HF HC Q E0 SO SF. destruct (loc_inv N str calls s0 HN HF E0) as (I0 & E1).
  destruct (C54_terminates location_name q N _ _ sched (loc_sync N str calls HN HF HC) Q E1 SO SF) as (n & T). exists n. intros k Hk. destruct (T k Hk) as (t & R & D).
  destruct (run_sim N ltac:(lia) location_name q N Q (ssteps sched k) s0 t I0 R) as (s & R1 & R2 & _). exists s. split; auto. now rewrite R2.
Qed.

(* ---------- cases ---------- *)

Definition zps : list (Z * list Z) := [(0, [104; 48]); (2, [104; 50]); (1, [104; 49; 32; 97])].
Example C60_mpi_case : Processes 4 zps.
Proof.
  split; [lia|]. split; [discriminate|]. split; [repeat constructor; cbn; intuition lia|]. intros lid str H. cbn in H.
  repeat (destruct H as [[= <- <-]|H]; [split; [lia|]; split; [cbn; lia|discriminate]|]). destruct H.
Qed.
Definition zview (r : outcome (list (store * locs))) : outcome (list (list (outcome (option (list Z))))) :=
  do l <- r; Ok (map (fun x => map (group_location (Some (snd x))) [0; 1; 2; 3; 4]) l).
Example C60_mpi_evaluates : let v := [Ok (Some [104; 48]); Ok (Some [104; 49; 32; 97]); Ok (Some [104; 50]); Ok None; Abort] in
  zview (sync_location_mpi (isort entrycmp) (isort kvs_cmp) 4 zps [None; None; None]) = Ok [v; v; v].
Proof. vm_compute. reflexivity. Qed.
Example C60_mpi_again_evaluates :
  (do l <- sync_location_mpi (isort entrycmp) (isort kvs_cmp) 4 zps [None; None; None];
   sync_location_mpi (isort entrycmp) (isort kvs_cmp) 4 zps (map Some l)) = Abort.
Proof. vm_compute. reflexivity. Qed.

Definition zstr (p : Z) : list Z := [104; 48 + p; 32; 97].
Example C60_tcp2_case : Fits 3 zstr /\ (exists s0, loc_start 3 zstr 2 = Ok s0) /\ sched_ok 3 ysched /\ sfair 3 ysched.
Proof.
  split.
  { intros p Hp. assert (C : p = 0 \/ p = 1 \/ p = 2) by lia.
    assert (G : SetFits (OSets (locationkey p) (zstr p))) by (apply setfits_b; destruct C as [->|[->| ->]]; reflexivity). apply G. }
  split; [eexists; reflexivity|]. destruct C54_case as (_ & _ & _ & H1 & H2 & _). auto.
Qed.
Definition tview (r : outcome lnet) (N : Z) (ps : list Z) : outcome (bool * list (list (outcome (option (list Z))))) :=
  do s <- r; Ok (sdone N (ln_net s), map (fun p => map (group_location (Some (ln_locs s p))) ps) ps).
Example C60_tcp2_evaluates : let v := map (fun p => Ok (Some (zstr p))) [0; 1; 2] in
  tview (do s0 <- loc_start 3 zstr 2; lrun location_name (isort kvs_cmp) 3 s0 (ssteps ysched 400)) 3 [0; 1; 2] = Ok (true, [v; v; v]).
Proof. vm_compute. reflexivity. Qed.

(* ---------- what does not hold when the world grows ---------- *)

(* The array is created for the processes at the first call. If location IDs are added later, strings of new processes
   are written behind its end, and read from there. *)
Theorem C60_growth_refuted : forall n n' f lid v, 0 <= n <= lid -> lid < n' -> n' <= 10 ^ 9 ->
  update_location (locationkey lid) v (mkLocs n' n f) = UB /\ group_location (Some (mkLocs n' n f)) lid = UB.
Proof.
  intros n n' f lid v H1 H2 H3. unfold update_location, group_location, put_loc. rewrite atoi_key by lia. cbn [lo_n lo_size].
  replace ((0 <=? lid) && (lid <? n')) with true by lia. replace (lid <? n) with false by lia. rewrite andb_false_r. cbn [cassert]. auto.
Qed.
(* Also with an array which is large enough: a new process does not get the strings of the others, as they were
   already synchronised. Processes 0 and 1 call the function, then process 2 joins, then all three call it. *)
Definition grown : outcome lnet :=
  do s0 <- loc_start 2 zstr 1;
  do s1 <- lrun location_name (isort kvs_cmp) 2 (mkLn (ln_net s0) (fun _ => mkLocs 2 3 (fun _ => None))) (flat_map (fun _ => [(0, Go); (1, Go); (0, Msg 1); (1, Msg 0)]) (seq 0 20));
  do s2 <- snet_start (program [loc_round 3 zstr]);
  lrun location_name (isort kvs_cmp) 3
    (mkLn (mkSn (fun p => if p =? 2 then sn_proc s2 2 else let x := sn_proc (ln_net s1) p in
                   mkSq (sq_prog (sn_proc s2 p)) (sq_ph x) (sq_st x) (sq_kvs x) (sq_name x) (sq_chg x) (sq_rcv x)) (sn_wire (ln_net s1)))
          (fun p => if p =? 2 then mkLocs 3 3 (fun _ => None) else mkLocs 3 3 (lo_loc (ln_locs s1 p))))
    (ssteps ysched 400).
Theorem C60_newcomer_refuted : let v := map (fun p => Ok (Some (zstr p))) [0; 1; 2] in
  tview grown 3 [0; 1; 2] = Ok (true, [v; v; [Ok None; Ok None; Ok (Some (zstr 2))]]).
Proof. vm_compute. reflexivity. Qed.

Print Assumptions C60_mpi.
Print Assumptions C60_mpi_again_refuted.
Print Assumptions C60_tcp2_safe.
Print Assumptions C60_tcp2.
Print Assumptions C60_tcp2_terminates.
Print Assumptions C60_mpi_case.
Print Assumptions C60_mpi_evaluates.
Print Assumptions C60_mpi_again_evaluates.
Print Assumptions C60_tcp2_case.
Print Assumptions C60_tcp2_evaluates.
Print Assumptions C60_growth_refuted.
Print Assumptions C60_newcomer_refuted.
