(* Property C54 *)
From Coq Require Import ZArith List Bool Lia ZifyBool ZifyNat Sorted Permutation.
From Verif Require Import Base ListFacts Model_RangeList Model_KVS Model_SpaceStore Model_Tcp2 Model_Switch Spec_RangeList Spec_KVS Model_Tcp2Sync Spec_Tcp2Sync
  Proof_RangeList5 Proof_KVS Proof_KVS2 Proof_KVS3 Proof_KVS5 Proof_KVS6 Proof_KVS8 Proof_Tcp2Sync1 Proof_Tcp2Sync2 Proof_Tcp2Sync3 Proof_Tcp2Sync4 Proof_Tcp2Sync5
  Proof_Tcp2Sync6 Prop_KVS.
Import ListNotations.
Open Scope Z_scope.

Definition op_keys (o : kop) : list (list Z) := match o with OSets k _ => [k] | _ => [] end.
Lemma common_keys h : Forall SetFits h -> forall B k, fold_left map_op h B k <> None -> B k <> None \/ In k (flat_map op_keys h).
Proof.
  induction h as [|o h IH]; intros HF B k; cbn [fold_left flat_map]; auto. apply Forall_cons_iff in HF. destruct HF as (H2 & H3). intros H. destruct (IH H3 _ _ H) as [X|X]; [|right; apply in_or_app; auto].
  destruct o; cbn in H2; try easy; cbn in X; auto. unfold mput in X. destruct (list_eq_dec _ _ _) as [->|]; auto. right. left. auto.
Qed.
Lemma op_keys_len h : (length (flat_map op_keys h) <= length h)%nat.
Proof. induction h as [|o h IH]; cbn; auto. rewrite app_length. destruct o; cbn; lia. Qed.
Lemma flat_ops_fit N rounds : Forall (RoundOk N) rounds -> Forall SetFits (flat_map (all_ops N) rounds).
Proof.
  intros H. rewrite Forall_forall in *. intros o Ho. apply in_flat_map in Ho. destruct Ho as (r & Hr & Ho). apply in_flat_map in Ho. destruct Ho as (p & Hp & Ho).
  apply in_seq in Hp. destruct (H r Hr) as (_ & F). specialize (F (Z.of_nat p) ltac:(lia)). rewrite Forall_forall in F. auto.
Qed.
Lemma small_common N rounds : Forall (RoundOk N) rounds -> Z.of_nat (length (flat_map (all_ops N) rounds)) < 2 ^ 31 -> forall dn rds, rounds = dn ++ rds -> Small (common N dn).
Proof.
  intros HR HL dn rds ->. rewrite flat_map_app, app_length in HL. apply Forall_app in HR. exists (flat_map op_keys (flat_map (all_ops N) dn)). split.
  - assert (X := op_keys_len (flat_map (all_ops N) dn)). lia.
  - intros k Hk. destruct (common_keys _ (flat_ops_fit N dn (proj1 HR)) (fun _ => None) k Hk); auto. congruence.
Qed.

Lemma RI_same B s1 s2 : RI B [] s1 -> RI B [] s2 -> ks_sorted s1 = used s1 -> ks_sorted s2 = used s2 -> ks_ent s1 = ks_ent s2.
Proof.
  assert (S : forall s, KI s -> ks_sorted s = used s -> StronglySorted slt (map ke_key (ks_ent s))).
  { intros s (_ & _ & S & _) E. rewrite E in S. unfold used in S. rewrite Nat2Z.id, firstn_all in S. exact S. }
  assert (L : forall s k, RI B [] s -> look (ks_ent s) k = match B k with Some w => Some (Some w, false) | None => None end).
  { intros s k (_ & _ & _ & H). specialize (H k). cbn in H. destruct (look _ k) as [[v u]|]; [|rewrite H; auto]. destruct H as (-> & (w & E & _) & H). rewrite E. destruct u; congruence. }
  intros H1 H2 E1 E2. apply ent_from_keys; [apply H1| |intros k; rewrite !L by auto; auto]. apply sorted_unique; [apply S; auto; apply H1|apply S; auto; apply H2|].
  intros k. assert (X := look_none (ks_ent s1) k). assert (Y := look_none (ks_ent s2) k). rewrite L in X, Y by auto.
  destruct (in_dec keq k (map ke_key (ks_ent s1))) as [I|I]; destruct (in_dec keq k (map ke_key (ks_ent s2))) as [J|J]; tauto.
Qed.

(* What a process which runs (is not in laik_kvs_sync) sees: all changes of all processes up to the last
   synchronisation it took part in, then its own changes *)
Definition Sees (N : Z) (rounds : list round) (p : Z) (x : sproc) : Prop :=
  (sq_prog x = [] /\ Holds (sq_st x) (common N rounds)) \/
  (exists done r rest h1 h2, rounds = done ++ r :: rest /\ r p = h1 ++ h2 /\ sq_prog x = map SOp h2 ++ SSync :: program rest p /\
     Holds (sq_st x) (fold_left map_op h1 (common N done))).

(* Hypotheses: a name, keys and values which fit into the messages; in each round, processes setting the
   same key set the same value; fewer than 2^31 operations *)
Definition SyncOk (name : list Z) (N : Z) (rounds : list round) : Prop :=
  NameFits name /\ 1 <= N /\ Forall (fun r => NoConflict N r /\ forall p, 0 <= p < N -> Forall SetFits (r p)) rounds /\
  Z.of_nat (length (flat_map (all_ops N) rounds)) < 2 ^ 31.

(* Whatever the order in which processes run and handle messages: nothing fails, and whenever a process runs
   it sees the merged contents with its own changes since then. *)
Theorem C54_sync : forall name q N rounds s0 sched, SyncOk name N rounds -> is_qsort kvs_cmp q -> snet_start (program rounds) = Ok s0 -> sched_ok N sched ->
  forall n, exists s, srun name q N s0 (ssteps sched n) = Ok s /\
    (forall p, 0 <= p < N -> sq_ph (sn_proc s p) = PUser -> Sees N rounds p (sn_proc s p)).
Proof.
  intros name q N rounds s0 sched (NF & HN & HR & HL) Q E0 SO n. assert (HSM := small_common N rounds HR HL).
  destruct (run_inv name q N rounds NF Q C41_strings HN HR HSM sched SO s0 (start_ok name N rounds HR HSM s0 E0) n) as (s & E & HS).
  exists s. split; auto. intros p Hp Hph. destruct HS as (W1 & W2 & dn & rds & ER & HM).
  assert (SE : RunP (common N dn) rds p (sn_proc s p) -> Sees N rounds p (sn_proc s p)).
  { intros (_ & _ & h1 & h2 & R1 & R2 & R3). assert (HO : Holds (sq_st (sn_proc s p)) (fold_left map_op h1 (common N dn))).
    { intros k. rewrite kvs_get_seen by apply R1. rewrite (RI_seen _ _ _ k R1). reflexivity. }
    destruct rds as [|r rs].
    - destruct R3 as (-> & -> & R3). left. split; auto. rewrite ER, app_nil_r. exact HO.
    - destruct R3 as (R3 & R4). right. exists dn, r, rs, h1, h2. auto. }
  destruct HM as [(M1 & M2 & M3)|HM].
  - destruct (Z.eq_dec p 0) as [->|Hp0]; [apply SE; auto|]. destruct (M3 p ltac:(lia)) as (_ & _ & [(X & _)|[(_ & X)|(_ & X & _)]]); try congruence. auto.
  - destruct HM as (r & rs & lid & E1 & Hlid & H). cbv zeta in H. destruct H as (H1 & H2 & H3 & H4 & H5 & H6 & H7 & H8).
    destruct (Z.eq_dec p 0) as [->|Hp0]; [congruence|]. destruct (Z_lt_ge_dec p lid) as [Hlt|Hge]; [destruct (H6 p ltac:(lia)) as ((X & _) & _); congruence|].
    destruct (Z.eq_dec p lid) as [->|Hne].
    + destruct H8 as [((_ & [(_ & pre & _ & [(X & _)|[(_ & X)|(_ & X & _)]])|(_ & _ & [(X & _)|[(_ & X)|(_ & X & _)]])]) & _)|((X & _) & _)]; try congruence; auto.
    + destruct (H7 p ltac:(lia)) as (_ & _ & [(X & _)|[(_ & X)|(_ & X & _)]]); try congruence. auto.
Qed.

(* When all processes are done, their stores have the contents of one store on which all operations were done
   round by round; positions and numbers of entries are the same; and there are no messages left. *)
Theorem C54_agree : forall name q N rounds s0 sched n s, SyncOk name N rounds -> is_qsort kvs_cmp q -> snet_start (program rounds) = Ok s0 -> sched_ok N sched ->
  srun name q N s0 (ssteps sched n) = Ok s -> sdone N s = true ->
  (forall p, 0 <= p < N -> Holds (sq_st (sn_proc s p)) (common N rounds)) /\
  (forall p1 p2, 0 <= p1 < N -> 0 <= p2 < N -> kvs_count (sq_st (sn_proc s p1)) = kvs_count (sq_st (sn_proc s p2)) /\
     forall i, kvs_getn (sq_st (sn_proc s p1)) i = kvs_getn (sq_st (sn_proc s p2)) i) /\
  (forall a b, 0 <= a < N -> 0 <= b < N -> sn_wire s a b = []).
Proof.
  intros name q N rounds s0 sched n s (NF & HN & HR & HL) Q E0 SO E HD. assert (HSM := small_common N rounds HR HL).
  destruct (run_inv name q N rounds NF Q C41_strings HN HR HSM sched SO s0 (start_ok name N rounds HR HSM s0 E0) n) as (s' & E' & HS). rewrite E in E'. injection E' as <-.
  destruct (done_state name N rounds HN HSM s HS HD) as (W & R). split; [|split]; auto.
  - intros p Hp k. destruct (R p Hp) as (R1 & _). rewrite kvs_get_seen by apply R1. rewrite (RI_seen _ _ _ k R1). reflexivity.
  - intros p1 p2 H1 H2. destruct (R p1 H1) as (X1 & X2). destruct (R p2 H2) as (Y1 & Y2). assert (X := RI_same _ _ _ X1 Y1 X2 Y2). unfold kvs_count, kvs_getn, used. rewrite X. auto.
Qed.

(* If no process is left out forever, all processes get done. *)
Theorem C54_terminates : forall name q N rounds s0 sched, SyncOk name N rounds -> is_qsort kvs_cmp q -> snet_start (program rounds) = Ok s0 -> sched_ok N sched -> sfair N sched ->
  exists n, forall k, (n <= k)%nat -> exists s, srun name q N s0 (ssteps sched k) = Ok s /\ sdone N s = true.
Proof.
  intros name q N rounds s0 sched (NF & HN & HR & HL) Q E0 SO SF. assert (HSM := small_common N rounds HR HL).
  apply (run_fair name q N rounds NF Q C41_strings HN HR HSM sched SO s0 (start_ok name N rounds HR HSM s0 E0) SF).
Qed.

(* ---------- cases ---------- *)

Definition ynm : list Z := [115; 116; 111].
Definition ykey (i : Z) : list Z := [107; 48 + i].
(* 3 processes: in the first round all set keys, two of them the same one; in the second round, process 1 changes a
   value set by process 2 *)
Definition yr1 : round := fun p => if p =? 0 then [OSets (ykey 0) [65]; OSets (ykey 5) [90; 32; 90]]
                                   else if p =? 1 then [OSets (ykey 1) [66]; OSort; OSets (ykey 1) [67]]
                                   else [OSets (ykey 5) [90; 32; 90]; OSets (ykey 2) [68]].
Definition yr2 : round := fun p => if p =? 1 then [OSets (ykey 2) [70; 71]] else [].
Definition yrounds := [yr1; yr2].
(* a fair schedule *)
Definition yacts : list (Z * sact) :=
  flat_map (fun p => (p, Go) :: map (fun r => (p, Msg r)) [0; 1; 2]) [0; 1; 2].
Definition ysched (n : nat) : Z * sact := nth (n mod 12) yacts (0, Go).
(* and one in which the last process is fast *)
Definition yacts2 : list (Z * sact) := rev yacts.
Definition ysched2 (n : nat) : Z * sact := nth (n mod 12) yacts2 (0, Go).
Definition ys0 : snet := match snet_start (program yrounds) with Ok s => s | _ => mkSn (fun _ => mkSq [] PUser xs0 false None 0 0) (fun _ _ => []) end.

Lemma setfits_b k v : (match k with [] => false | _ => true end) && (length k <=? 30)%nat && forallb (fun c => (0 <? c) && (c <? 256) && negb (is_space c) && negb (c =? 4)) k &&
  (match v with [] => false | _ => true end) && negb (is_space (hd 0 v)) && (length k + length v <=? 89)%nat &&
  forallb (fun c => (0 <? c) && (c <? 256) && negb (c =? 10) && negb (c =? 13) && negb (c =? 4)) v = true -> SetFits (OSets k v).
Proof.
  intros H. repeat (apply andb_true_iff in H; destruct H as [H ?]). cbn. split.
  - split; [destruct k; discriminate|]. split; [lia|]. rewrite Forall_forall. rewrite forallb_forall in H4. intros c Hc. specialize (H4 c Hc). destruct (is_space c); lia.
  - split; [destruct v; discriminate|]. split; [destruct (is_space (hd 0 v)); auto; discriminate|]. split; [lia|]. rewrite Forall_forall. rewrite forallb_forall in H0. intros c Hc. specialize (H0 c Hc). lia.
Qed.
Lemma name_b n : (match n with [] => false | _ => true end) && (length n <=? 29)%nat && forallb (fun c => (0 <? c) && (c <? 256) && negb (is_space c) && negb (c =? 4)) n = true -> NameFits n.
Proof.
  intros H. repeat (apply andb_true_iff in H; destruct H as [H ?]). split; [destruct n; discriminate|]. split; [lia|]. rewrite Forall_forall. rewrite forallb_forall in H0.
  intros c Hc. specialize (H0 c Hc). destruct (is_space c); lia.
Qed.
Lemma periodic (l : list (Z * sact)) p a : In (p, a) l -> (length l = 12)%nat -> forall n, exists k, (n <= k)%nat /\ nth (k mod 12) l (0, Go) = (p, a).
Proof.
  intros H L n. apply In_nth with (d := (0, Go)) in H. destruct H as (i & Hi & E). exists (12 * n + i)%nat. split; [lia|]. rewrite L in Hi.
  replace ((12 * n + i) mod 12)%nat with i; auto. rewrite Nat.add_comm, Nat.mul_comm, Nat.mod_add by lia. symmetry. apply Nat.mod_small. auto.
Qed.

Lemma fair_of l : (forall p, 0 <= p < 3 -> In (p, Go) l) -> (forall p r, 0 <= p < 3 -> 0 <= r < 3 -> In (p, Msg r) l) -> (length l = 12)%nat ->
  Forall (fun x => 0 <= fst x < 3 /\ match snd x with Go => True | Msg r => 0 <= r < 3 end) l -> sched_ok 3 (fun n => nth (n mod 12) l (0, Go)) /\ sfair 3 (fun n => nth (n mod 12) l (0, Go)).
Proof.
  intros H1 H2 L F. split.
  - intros n. rewrite Forall_forall in F. apply (F (nth (n mod 12) l (0, Go))). apply nth_In. rewrite L. apply Nat.mod_upper_bound. lia.
  - intros p n Hp. split; [apply periodic; auto|]. intros r Hr. apply periodic; auto.
Qed.

Example C54_case : SyncOk ynm 3 yrounds /\ is_qsort kvs_cmp (isort kvs_cmp) /\ snet_start (program yrounds) = Ok ys0 /\ sched_ok 3 ysched /\ sfair 3 ysched /\ sched_ok 3 ysched2 /\ sfair 3 ysched2.
Proof.
  split.
  { split; [apply name_b; reflexivity|]. split; [lia|]. split; [|vm_compute; reflexivity].
    assert (C : forall p, 0 <= p < 3 -> p = 0 \/ p = 1 \/ p = 2) by (intros; lia).
    constructor; [|constructor; [|constructor]]; split.
    - intros p1 p2 k v1 v2 H1 H2. unfold yr1. destruct (C p1 H1) as [->|[->| ->]]; destruct (C p2 H2) as [->|[->| ->]]; cbv [Z.eqb Pos.eqb]; cbn [last_set];
        repeat (destruct (list_eq_dec _ _ _); cbn); intros X Y; repeat match goal with E : _ = ykey _ |- _ => vm_compute in E | E : _ <> ykey _ |- _ => vm_compute in E end; congruence.
    - intros p Hp. unfold yr1. destruct (C p Hp) as [->|[->| ->]]; cbv [Z.eqb Pos.eqb]; repeat (constructor; [first [exact I | apply setfits_b; reflexivity]|]); constructor.
    - intros p1 p2 k v1 v2 H1 H2. unfold yr2. destruct (C p1 H1) as [->|[->| ->]]; destruct (C p2 H2) as [->|[->| ->]]; cbv [Z.eqb Pos.eqb]; cbn [last_set];
        repeat (destruct (list_eq_dec _ _ _); cbn); intros X Y; repeat match goal with E : _ = ykey _ |- _ => vm_compute in E | E : _ <> ykey _ |- _ => vm_compute in E end; congruence.
    - intros p Hp. unfold yr2. destruct (C p Hp) as [->|[->| ->]]; cbv [Z.eqb Pos.eqb]; repeat (constructor; [first [exact I | apply setfits_b; reflexivity]|]); constructor. }
  split; [apply qk_ok|]. split; [reflexivity|].
  assert (C : forall p, 0 <= p < 3 -> p = 0 \/ p = 1 \/ p = 2) by (intros; lia).
  assert (A : sched_ok 3 ysched /\ sfair 3 ysched).
  { apply fair_of; [intros p Hp|intros p r Hp Hr|reflexivity|].
    - destruct (C p Hp) as [->|[->| ->]]; cbn; tauto.
    - destruct (C p Hp) as [->|[->| ->]]; destruct (C r Hr) as [->|[->| ->]]; cbn; tauto.
    - rewrite Forall_forall; intros x Hx; cbn in Hx; repeat (destruct Hx as [<-|Hx]; [cbn; lia|]); destruct Hx. }
  assert (A2 : sched_ok 3 ysched2 /\ sfair 3 ysched2).
  { apply fair_of; [intros p Hp|intros p r Hp Hr|reflexivity|].
    - destruct (C p Hp) as [->|[->| ->]]; cbn; tauto.
    - destruct (C p Hp) as [->|[->| ->]]; destruct (C r Hr) as [->|[->| ->]]; cbn; tauto.
    - rewrite Forall_forall; intros x Hx; cbn in Hx; repeat (destruct Hx as [<-|Hx]; [cbn; lia|]); destruct Hx. }
  destruct A, A2. auto.
Qed.

(* the contents of the stores at the end (values without the zero), for both schedules *)
Definition yview (rounds : list round) (sched : nat -> Z * sact) (n : nat) (keys : list (list Z)) : outcome (bool * list (list (outcome (option (list Z))))) :=
  do s0 <- snet_start (program rounds);
  do s <- srun ynm (isort kvs_cmp) 3 s0 (ssteps sched n);
  Ok (sdone 3 s, map (fun p => map (fun k => kvs_get (sq_st (sn_proc s p)) k) keys) [0; 1; 2]).
Example C54_evaluates :
  let r := [Ok (Some [65; 0]); Ok (Some [67; 0]); Ok (Some [70; 71; 0]); Ok None; Ok (Some [90; 32; 90; 0])] in
  let keys := map ykey [0; 1; 2; 4; 5] in
  yview yrounds ysched 400 keys = Ok (true, [r; r; r]) /\ yview yrounds ysched2 400 keys = Ok (true, [r; r; r]).
Proof. vm_compute. split; reflexivity. Qed.

(* ---------- what does not hold without the hypotheses ---------- *)

Definition only (p : Z) (ops : list kop) : round := fun p' => if p' =? p then ops else [].
Definition yk : list Z := ykey 1.
(* a removal is not propagated: afterwards stores do not agree ... *)
Theorem C54_remove_refuted : yview [only 1 [OSets yk [66]]; only 1 [ORemove yk]] ysched 400 [yk] = Ok (true, [[Ok (Some [66; 0])]; [Ok None]; [Ok (Some [66; 0])]]) /\
  yview [only 1 [OSets yk [66]]; only 1 [OClean]] ysched 400 [yk] = Ok (true, [[Ok (Some [66; 0])]; [Ok None]; [Ok (Some [66; 0])]]).
Proof. vm_compute. split; reflexivity. Qed.
(* ... and if the key was set in the same round, NULL is printed *)
Theorem C54_set_remove_refuted : yview [only 1 [OSets yk [66]; ORemove yk]] ysched 400 [yk] = UB.
Proof. vm_compute. reflexivity. Qed.
(* values have to end with a zero *)
Theorem C54_binary_refuted : yview [only 1 [OSet yk [66; 67]]] ysched 400 [yk] = UB.
Proof. vm_compute. reflexivity. Qed.
(* keys with more than 30 characters arrive as another key *)
Theorem C54_long_key_refuted : yview [only 1 [OSets (repeat 97 31) [66]]] ysched 400 [repeat 97 31; repeat 97 30] =
  Ok (true, [[Ok None; Ok (Some [97; 32; 66; 0])]; [Ok (Some [66; 0]); Ok (Some [97; 32; 66; 0])]; [Ok None; Ok (Some [97; 32; 66; 0])]]).
Proof. vm_compute. reflexivity. Qed.
(* key and value with 90 characters do not fit into the buffer for messages; 89 characters do *)
Theorem C54_long_value_refuted : yview [only 1 [OSets yk (repeat 66 88)]] ysched 400 [yk] = UB /\
  yview [only 1 [OSets yk (repeat 66 87)]] ysched 400 [yk] = let r := [Ok (Some (repeat 66 87 ++ [0]))] in Ok (true, [r; r; r]).
Proof. vm_compute. split; reflexivity. Qed.
(* a value with a blank at its begin is sent back without it, which is taken as a change by two processes *)
Theorem C54_blank_refuted : yview [only 1 [OSets yk [32; 66]]] ysched 400 [yk] = Panic.
Proof. vm_compute. reflexivity. Qed.
(* two processes setting a key to different values *)
Theorem C54_conflict_refuted : yview [fun p => [OSets yk [66 + p]]] ysched 400 [yk] = Panic.
Proof. vm_compute. reflexivity. Qed.
(* names with 30 characters: cut when received *)
Theorem C54_long_name_refuted : (do s0 <- snet_start (program [only 1 [OSets yk [66]]]); srun (repeat 97 30) (isort kvs_cmp) 3 s0 (ssteps ysched 400)) = Abort.
Proof. vm_compute. reflexivity. Qed.

(* an empty value is ignored by the receiver, which then waits forever *)
Lemma forever name q N acts s0 s m : (length acts = 12)%nat -> srun name q N s0 (ssteps (fun n => nth (n mod 12) acts (0, Go)) m) = Ok s ->
  forallb (fun x => match sstep name q N s (fst x) (snd x) with Ok None => true | _ => false end) acts = true ->
  forall k, srun name q N s0 (ssteps (fun n => nth (n mod 12) acts (0, Go)) (m + k)) = Ok s.
Proof.
  intros L E H. rewrite forallb_forall in H. induction k as [|k IH]; [rewrite Nat.add_0_r; auto|]. rewrite Nat.add_succ_r. unfold ssteps in *. rewrite seq_S, map_app, srun_app, IH. cbn [obind map srun].
  assert (I : In (nth ((m + k) mod 12) acts (0, Go)) acts) by (apply nth_In; rewrite L; apply Nat.mod_upper_bound; lia). apply H in I. rewrite Nat.add_0_l.
  destruct (nth ((m + k) mod 12) acts (0, Go)) as [p a]. cbn [fst snd] in I. destruct (sstep name q N s p a) as [[x|]| | | |]; try discriminate. reflexivity.
Qed.
Theorem C54_empty_refuted : forall s0, snet_start (program [only 1 [OSets yk []]]) = Ok s0 ->
  forall n, exists s, srun ynm (isort kvs_cmp) 3 s0 (ssteps ysched n) = Ok s /\ sdone 3 s = false.
Proof.
  intros s0 [= <-] n. destruct (Nat.lt_ge_cases n 60) as [H|H].
  - match goal with |- exists s, srun _ _ _ ?z _ = _ /\ _ => assert (X : forallb (fun n => match srun ynm (isort kvs_cmp) 3 z (ssteps ysched n) with Ok s => negb (sdone 3 s) | _ => false end) (seq 0 60) = true)
      by (vm_compute; reflexivity) end.
    rewrite forallb_forall in X. specialize (X n). rewrite in_seq in X. specialize (X ltac:(lia)). destruct (srun _ _ _ _ _) as [s| | | |]; try discriminate. exists s. split; auto. destruct (sdone 3 s); auto; discriminate.
  - match goal with |- exists s, srun _ _ _ ?z _ = _ /\ _ => assert (X : match srun ynm (isort kvs_cmp) 3 z (ssteps ysched 60) with Ok s => negb (sdone 3 s) && forallb (fun x => match sstep ynm (isort kvs_cmp) 3 s (fst x) (snd x) with Ok None => true | _ => false end) yacts | _ => false end = true)
      by (vm_compute; reflexivity); remember z as z0 eqn:Ez; clear Ez end.
    destruct (srun ynm (isort kvs_cmp) 3 z0 (ssteps ysched 60)) as [s| | | |] eqn:E; try discriminate. apply andb_true_iff in X. destruct X as [X1 X2]. exists s. split; [|destruct (sdone 3 s); auto; discriminate].
    replace n with (60 + (n - 60))%nat by lia. apply (forever ynm (isort kvs_cmp) 3 yacts z0 s 60 eq_refl E X2).
Qed.

Print Assumptions C54_sync.
Print Assumptions C54_agree.
Print Assumptions C54_terminates.
Print Assumptions C54_case.
Print Assumptions C54_evaluates.
Print Assumptions C54_remove_refuted.
Print Assumptions C54_set_remove_refuted.
Print Assumptions C54_binary_refuted.
Print Assumptions C54_long_key_refuted.
Print Assumptions C54_long_value_refuted.
Print Assumptions C54_blank_refuted.
Print Assumptions C54_conflict_refuted.
Print Assumptions C54_long_name_refuted.
Print Assumptions C54_empty_refuted.
