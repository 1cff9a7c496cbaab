(* Property C53: switching a 1d container to another partitioning with the TCP2 backend *)
From Coq Require Import ZArith List Bool Lia ZifyBool ZifyNat Sorted Permutation.
From Verif Require Import Base ListFacts Model_Space Model_Mem Model_Type Model_RangeList Model_Layout Model_Partitioner Model_Group Model_Transition Model_Data Model_Action Model_ActionTrans Model_ActionExec Model_ActionExec2 Model_Net Model_Switch Model_Tcp2 Model_Tcp2Exec.
From Verif Require Import Spec_Space Spec_RangeList Spec_Partitioner Spec_Type Spec_Layout Spec_Data Spec_Transition Spec_Action Spec_ActionTrans Spec_Async Spec_Reduce Spec_Net Spec_Switch Spec_Tcp2Exec.
From Verif Require Import Proof_RangeList Proof_Partitioner2 Proof_RangeList4 Proof_RangeList5 Proof_Trans1 Proof_Trans2 Proof_Trans3 Proof_Trans4 Proof_Data Proof_Data3 Proof_Type Proof_Comb3 Proof_Group Proof_Net Proof_Reduce1 Proof_Switch4 Proof_Switch8 Proof_Switch9 Proof_Tcp2Exec2 Proof_Tcp2Exec8.
From Verif Require Import Prop_Partitioner Prop_Layout Prop_Transition Prop_Data Prop_Reduce Prop_Switch Proof_Action5.
Import ListNotations.
Open Scope Z_scope.

(* A group of N processes switches a 1d container from the ranges [fl] to the ranges [tl] with the
   TCP2 backend. Values are preserved, or reduced with [red]. Each process has memory for its
   indexes before, and calculated its transition and its mappings on its own. Every index used
   afterwards has an owner before, and every index with several owners before is used afterwards.
   Then the first part of the switch (reuse of memory, allocation, order of the messages) succeeds
   on each process, and with every schedule of the processes
   - no process fails, and if the schedule is fair all processes get done: there is no deadlock
   - then all messages are received and all permissions to send used
   - the switch ends on each process, with memory for all its new indexes, which do not overlap
   - for each new index of each process, it has the value which its only owner had before, or the
     reduction of the values which all its owners had before
   - nothing else was changed. *)
Theorem C53_switch : forall d qb N fl tl red T x gen ini bin q,
  0 < dc_es d -> dc_map0 d = None -> Good1d (dc_space d) N fl tl -> c_qsort rb_cmp qb ->
  (forall p, 0 <= p < N -> Ready d qb N fl tl red p (x p)) ->
  (red <> RO_None -> Elementwise T (dc_es d) red) -> FitsTcp bin (dc_es d) ->
  (forall p, 0 <= p < N -> is_qsort (cmp2phase p) (q p)) ->
  (forall i p, Owns tl p i -> exists s, Owns fl s i) ->
  (forall i s s', Owns fl s i -> Owns fl s' i -> s <> s' -> exists p, Owns tl p i) ->
  exists t code,
    (forall p, 0 <= p < N -> tcp_start (q p) d N p (pc_addr (x p)) (pc_ops (x p)) (Some (pc_old (x p))) (pc_next (x p)) = Ok (t p, code p)) /\
    TcpEnds (fun o a b => Ok (dt_red T o 1 a b)) gen bin (dc_space d) N (tnet_start code (fun p => pc_mem (x p)))
      (fun p mm => exists m' fr,
        do_transition gen d ini (fun _ _ _ => Ok mm) (pc_addr (x p)) (pc_ops (x p)) (Some (pc_old (x p))) (pc_next (x p)) (pc_mem (x p)) = Ok (t p, m', fr) /\
        GoodList (dc_space d) (dc_es d) (t p) /\ Covers tl p (t p) /\
        (forall i, Owns tl p i -> exists v, Holds (dc_es d) tl p (t p) m' i v /\ Expected (dc_es d) T red fl x i v) /\
        (forall a, (forall b, In b (blocks (t p)) -> ~ region (fst b) (snd b) a) -> m' a = pc_mem (x p) a)).
Proof.
  intros d qb N fl tl red T x gen ini bin q Hes Hm0 G Hq HX HT Hfit Hqs Hsrc Hdst.
  destruct (choice_range (mkMl None None [], mkMl None None []) (fun p v => Alloc d tl p (pc_old (x p)) (pc_next (x p)) (pc_addr (x p)) (fst v) (snd v)) N) as (tF & HA).
  { intros p Hp. destruct (HX p Hp) as [X1 X2 X3 X4 X5 X6 X7].
    destruct (alloc_ok d Hes Hm0 N fl tl G p (pc_old (x p)) (pc_next (x p)) (pc_addr (x p)) X1 X3 X4 X5) as (t & F' & H). exists (t, F'). exact H. }
  set (t := fun p => fst (tF p)). set (F' := fun p => snd (tF p)). change (forall p, 0 <= p < N -> Alloc d tl p (pc_old (x p)) (pc_next (x p)) (pc_addr (x p)) (t p) (F' p)) in HA.
  clearbody t F'. clear tF.
  eexists t, _. split.
  { intros p Hp. destruct (al_run _ _ _ _ _ _ _ _ (HA p Hp)) as (t1 & R1 & R2). unfold tcp_start. rewrite R1. cbn [obind fst snd]. rewrite R2. cbn [obind].
    rewrite (h_code d N fl tl G red qb Hq x HX Hsrc Hdst t F' HA (q p) p Hp (Hqs p Hp)). cbn [obind].
    match goal with |- Ok (_, ?c) = Ok (_, ?h p) => let f := eval pattern p in c in match f with ?g _ => unify h g end end. reflexivity. }
  destruct (h_run d Hes N fl tl G red qb Hq T HT x HX bin Hfit Hsrc Hdst t F' HA gen _ (fun p _ => eq_refl)) as (E & R & HE).
  intros sched Hs. destruct (R sched Hs) as [R1 R2]. split; [|exact R2].
  intros n. destruct (R1 n) as (s & S1 & S2). exists s. split; [exact S1|]. intros HD p Hp. destruct (S2 HD p Hp) as [Q1 Q2]. split; [|exact Q2].
  rewrite Q1. destruct (h_finish d Hes N fl tl G red qb Hq T HT x HX Hsrc Hdst t F' HA gen ini p (E p) Hp (HE p)) as (m' & fr & M1 & M2 & M3).
  exists m', fr. split; [exact M1|]. split; [apply (al_good _ _ _ _ _ _ _ _ (HA p Hp))|]. split; [apply (al_cov _ _ _ _ _ _ _ _ (HA p Hp))|]. split; auto.
Qed.

(* ---------- cases ---------- *)

(* as for C26: 3 processes, 20 uint32: [0,12), [6,20), and nothing; afterwards blocks, with a sum *)
Definition tx_q (p : Z) : list aptr -> list aptr := isort (cmp2phase p).
Definition tx_code (x : Z -> proc) (p : Z) : list top :=
  match tcp_start (tx_q p) sw_d 3 p (pc_addr (x p)) (pc_ops (x p)) (Some (pc_old (x p))) (pc_next (x p)) with Ok (_, c) => c | _ => [] end.
Definition tx_rd : redop -> list Z -> list Z -> outcome (list Z) := fun o a b => Ok (dt_red (int_dt T_uint32) o 1 a b).
Definition tx_end (x : Z -> proc) (sched : list Z) : outcome tnet := trun tx_rd false (fun a b => a =? 0) (dc_space sw_d) (tnet_start (tx_code x) (fun p => pc_mem (x p))) sched.
Definition tx_final (x : Z -> proc) (sched : list Z) (p : Z) : option (list (Z * Z) * list (list Z)) :=
  match tx_end x sched with
  | Ok s => if tdone 3 s then
    match do_transition false sw_d xini (fun _ _ _ => Ok (tq_mem (tn_proc s p))) (pc_addr (x p)) (pc_ops (x p)) (Some (pc_old (x p))) (pc_next (x p)) (pc_mem (x p)) with
    | Ok (t, m, _) => Some (blocks t, flat_map (fun k => map (fun i => mread m (m_base k + 4 * Z.of_nat i) 1) (seq 0 (Z.to_nat (m_count k)))) (ml_maps t))
    | _ => None
    end else None
  | _ => None
  end.

Example C53_case : 0 < dc_es sw_d /\ dc_map0 sw_d = None /\ Good1d (dc_space sw_d) 3 ex_two ex_blk /\ c_qsort rb_cmp ex_qb /\
  (forall p, 0 <= p < 3 -> Ready sw_d ex_qb 3 ex_two ex_blk RO_Sum p (sw_x p)) /\
  Elementwise (int_dt T_uint32) (dc_es sw_d) RO_Sum /\ FitsTcp (fun a b => a =? 0) (dc_es sw_d) /\
  (forall p, 0 <= p < 3 -> is_qsort (cmp2phase p) (tx_q p)) /\
  (forall i p, Owns ex_blk p i -> exists s, Owns ex_two s i) /\
  (forall i s s', Owns ex_two s i -> Owns ex_two s' i -> s <> s' -> exists p, Owns ex_blk p i).
Proof.
  destruct C26_case as (E1 & E2 & E3 & E4 & E5 & E6 & _).
  split; [exact E1|]. split; [exact E2|]. split; [exact E3|]. split; [exact E4|]. split; [exact E5|]. split; [exact E6|]. split; [intros a q; destruct (a =? 0); vm_compute; congruence|].
  split; [intros p _; apply isort_2phase|].
  assert (W : forall i p, 0 <= i0 i < 20 -> In p (owners 3 (rl_trs ex_blk) (i0 i)) <-> Owns ex_blk p i) by (intros i p _; symmetry; apply (g_own_owns _ _ _ _ ex_good_tb false p i)).
  assert (V : forall i p, In p (owners 3 (rl_trs ex_two) (i0 i)) <-> Owns ex_two p i) by (intros i p; symmetry; apply (g_own_owns _ _ _ _ ex_good_tb true p i)).
  assert (R : forall z, 0 <= z < 20 -> owners 3 (rl_trs ex_blk) z <> [] /\ owners 3 (rl_trs ex_two) z <> []).
  { intros z Hz. assert (C : forallb (fun z => match owners 3 (rl_trs ex_blk) z, owners 3 (rl_trs ex_two) z with [], _ => false | _, [] => false | _, _ => true end) (map Z.of_nat (seq 0 20)) = true) by (vm_compute; reflexivity).
    rewrite forallb_forall in C. specialize (C z). assert (H : In z (map Z.of_nat (seq 0 20))) by (apply in_map_iff; exists (Z.to_nat z); split; [lia|apply in_seq; lia]). specialize (C H). cbv beta in C.
    destruct (owners 3 (rl_trs ex_blk) z); [discriminate|]. destruct (owners 3 (rl_trs ex_two) z); [discriminate|]. split; discriminate. }
  assert (B : forall l p i, FrozenList l -> sp_dims (rl_space l) = 1%nat -> forallb (fun x => (0 <=? i0 (b_from (t_box x))) && (i0 (b_to (t_box x)) <=? 20)) (rl_trs l) = true -> Owns l p i -> 0 <= i0 i < 20).
  { intros l p i FL Hd HB (n & y & Rn & HI). rewrite forallb_forall in HB. apply (frozen_range_in _ _ _ _ FL) in Rn. destruct Rn as [R1 R2]. specialize (HB y R1). rewrite Hd in HI. destruct HI as [HI _]. lia. }
  split.
  - intros i p H. assert (Hi := B _ _ _ ex_blk_frozen eq_refl eq_refl H). destruct (R _ Hi) as [_ R2]. destruct (owners 3 (rl_trs ex_two) (i0 i)) as [|s r] eqn:E; [congruence|].
    exists s. apply V. rewrite E. left; auto.
  - intros i s s' H _ _. assert (Hi := B _ _ _ ex_two_frozen eq_refl eq_refl H). destruct (R _ Hi) as [R1 _]. destruct (owners 3 (rl_trs ex_blk) (i0 i)) as [|p r] eqn:E; [congruence|].
    exists p. apply W; auto. rewrite E. left; auto.
Qed.
(* two executions: processes in turn, and process 2 (then 1) as long as it can go on *)
Definition tx_turn : list Z := concat (repeat [0; 1; 2] 60).
Definition tx_skew : list Z := concat (repeat (repeat 2 20 ++ repeat 1 20 ++ [0]) 30).
Example C53_case_run : Forall (fun sched =>
  tx_final sw_x sched 0 = Some ([(1000, 48)], [[0]; [1]; [2]; [3]; [4]; [5]; [112]; [114]]) /\
  tx_final sw_x sched 1 = Some ([(1000, 56)], [[116]; [118]; [120]; [122]; [112]; [113]]) /\
  tx_final sw_x sched 2 = Some ([(2000, 24)], [[114]; [115]; [116]; [117]; [118]; [119]])) [tx_turn; tx_skew].
Proof. repeat constructor; vm_compute; reflexivity. Qed.

(* ---------- limits ---------- *)

(* The copy of the own input for a reduction copies memory onto itself if memory was reused: here
   memcpy is called with overlapping areas, which is undefined (see tcp_copy) *)
Theorem C53_self_copy : exists b f t, In (TCopy b f t) (tx_code sw_x 0) /\ forall m, data_copy false (dc_space sw_d) b f t m = UB.
Proof.
  assert (E : exists b f t r, tx_code sw_x 0 = TCopy b f t :: r /\ forall m, data_copy false (dc_space sw_d) b f t m = UB).
  { do 4 eexists. split; [vm_compute; reflexivity|]. intros m. reflexivity. }
  destruct E as (b & f & t & r & E1 & E2). exists b, f, t. rewrite E1. split; [left; auto|exact E2].
Qed.

(* only process 0, with the last 6 indexes *)
Definition ex_latep : outcome rlist := run_partitioner exq (mkPartitioner (fun _ => Ok [ACrange 0 (exrng 20 14 20) 0]) false true) (mkParams (exsp 20) (exgroup 3 0) None) None.
Definition ex_late : rlist := Eval vm_compute in match ex_latep with Ok l => l | _ => rl_new (exsp 0) 0 end.
Lemma ex_late_frozen : FrozenList ex_late.
Proof.
  assert (E : ex_latep = Ok ex_late) by (vm_compute; reflexivity).
  unfold ex_latep in E. refine (run_frozen _ _ _ _ _ exq_good _ _ E); [left; reflexivity|cbn; lia].
Qed.
Definition tx_old (fl : rlist) (p : Z) : mlist :=
  match (do r <- check_map_reuse 4 (sw_prep fl p) None; allocate_mappings 4 sw_a1 (fst r)) with Ok t => t | _ => mkMl None None [] end.
Definition tx_ops (fl tl : rlist) (p : Z) : tops :=
  match calc_transition ex_qb (exsp 20) (Some (ex_np 1 20 3 p fl)) (Some (ex_np 2 20 3 p tl)) DF_Preserve RO_Sum with Ok (Some tr) => tr_ops tr | _ => tops_empty end.
Definition tx_x (fl tl : rlist) (p : Z) : proc := mkProc (tx_old fl p) (sw_prep tl p) (fun _ => 7) (ex_np 1 20 3 p fl) (ex_np 2 20 3 p tl) (tx_ops fl tl p) sw_a2.

Lemma tx_ready fl tl : Good1d (exsp 20) 3 fl tl -> rl_space fl = exsp 20 -> rl_space tl = exsp 20 ->
  forallb (fun x => t_mapNo x =? 0) (rl_trs fl) = true -> forallb (fun x => t_mapNo x =? 0) (rl_trs tl) = true ->
  (forall p, 0 <= p < 3 -> FreshFor 4 sw_a1 (sw_prep fl p) [] /\ FreshFor 4 sw_a2 (sw_prep tl p) (blocks (tx_old fl p)) /\ prepare_maps sw_d tl p = Ok (sw_prep tl p) /\
     exists tr, calc_transition ex_qb (exsp 20) (Some (ex_np 1 20 3 p fl)) (Some (ex_np 2 20 3 p tl)) DF_Preserve RO_Sum = Ok (Some tr)) ->
  forall p, 0 <= p < 3 -> Ready sw_d ex_qb 3 fl tl RO_Sum p (tx_x fl tl p).
Proof.
  intros G S1 S2 M1 M2 HF p Hp. destruct (HF p Hp) as (F1 & F2 & F3 & tr & F4).
  assert (O1 : OwnRanges (exsp 20) fl p) by (apply sw_own; auto; [apply G|apply (gd_flne _ _ _ _ G)|rewrite (gd_fltids _ _ _ _ G); auto]).
  assert (O2 : OwnRanges (exsp 20) tl p) by (apply sw_own; auto; [apply G|apply (gd_tlne _ _ _ _ G)|rewrite (gd_tltids _ _ _ _ G); auto]).
  assert (K : GoodList (exsp 20) 4 (tx_old fl p) /\ Covers fl p (tx_old fl p)).
  { destruct (C37_switch sw_d (mkDs None []) fl p (or_introl eq_refl) eq_refl eq_refl (Reached_new _) O1) as (l & P1 & P2 & P3).
    assert (El : sw_prep fl p = l) by (unfold sw_prep; rewrite P1; reflexivity). rewrite El in F1.
    destruct (P3 sw_a1 F1) as (t1 & f & t & T1 & T2 & T3 & T4 & _).
    unfold tx_old. rewrite El. cbn [ds_act] in T1. change (dc_es sw_d) with 4 in T1, T2. rewrite T1. cbn [obind fst]. rewrite T2. split; auto. }
  split; cbn [tx_x pc_old pc_next pc_mem pc_from pc_to pc_ops pc_addr]; [apply K|apply K|exact O2|exact F3|exact F2|apply ex_sees; auto|].
  exists tr. split; [exact F4|]. unfold tx_ops. rewrite F4. reflexivity.
Qed.
Ltac tx_check := apply sw_three; (split; [apply fresh_ok; vm_compute; reflexivity|split; [apply fresh_ok; vm_compute; reflexivity|split; [vm_compute; reflexivity|eexists; vm_compute; reflexivity]]]).
Lemma tx_good_tl : Good1d (exsp 20) 3 ex_two ex_late.
Proof. apply ex_good1d; try reflexivity; try lia; [exact ex_two_frozen|exact ex_late_frozen]. Qed.
Lemma tx_good_lb : Good1d (exsp 20) 3 ex_late ex_blk.
Proof. apply ex_good1d; try reflexivity; try lia; [exact ex_late_frozen|exact ex_blk_frozen]. Qed.

(* An index with several owners before which nobody uses afterwards: the owners abort (assertion on
   the group of receivers) *)
Theorem C53_nobody_after_refuted : exists fl tl x q,
  Good1d (dc_space sw_d) 3 fl tl /\ (forall p, 0 <= p < 3 -> Ready sw_d ex_qb 3 fl tl RO_Sum p (x p)) /\
  (forall p, 0 <= p < 3 -> is_qsort (cmp2phase p) (q p)) /\ (forall i p, Owns tl p i -> exists s, Owns fl s i) /\
  tcp_start (q 0) sw_d 3 0 (pc_addr (x 0)) (pc_ops (x 0)) (Some (pc_old (x 0))) (pc_next (x 0)) = Abort.
Proof.
  exists ex_two, ex_late, (tx_x ex_two ex_late), tx_q. split; [exact tx_good_tl|]. split; [apply tx_ready; try reflexivity; [exact tx_good_tl|tx_check]|].
  split; [intros p _; apply isort_2phase|]. split.
  - intros i p (n & y & R & HI). apply (frozen_range_in _ _ _ _ ex_late_frozen) in R. destruct R as [R1 R2]. destruct R1 as [<-|[]]. destruct HI as [HI _]. cbn in HI.
    exists 1. apply (g_own_owns _ _ _ _ ex_good_tb true 1 i). unfold owners. apply filter_In. split; [apply zcount_In; lia|].
    change (rl_trs ex_two) with [mkTrg 0 (box1 0 12) 0 0; mkTrg 1 (box1 6 20) 0 0]. unfold cov, has, tf, tt. cbn [filter t_task t_box b_from b_to box1 i0].
    change (0 =? 1) with false. change (1 =? 1) with true. cbn [andb]. replace (6 <=? i0 i) with true by lia. replace (i0 i <? 20) with true by lia. reflexivity.
  - vm_compute. reflexivity.
Qed.

Lemma tx_ok {A} (o : outcome A) (d : A) : match o with Ok _ => true | _ => false end = true -> o = Ok (match o with Ok y => y | _ => d end).
Proof. destruct o; auto; discriminate. Qed.
Definition tx_n : Z -> proc := tx_x ex_late ex_blk.
Definition tx_tc (p : Z) : mlist * list top :=
  match tcp_start (tx_q p) sw_d 3 p (pc_addr (tx_n p)) (pc_ops (tx_n p)) (Some (pc_old (tx_n p))) (pc_next (tx_n p)) with Ok y => y | _ => (mkMl None None [], []) end.
Definition tx_ne : outcome tnet := trun tx_rd false (fun _ _ => true) (dc_space sw_d) (tnet_start (fun p => snd (tx_tc p)) (fun p => pc_mem (tx_n p))) tx_turn.
Definition tx_ns : tnet := match tx_ne with Ok s => s | _ => tnet_start (fun _ => []) (fun _ _ => 0) end.
Definition tx_no : outcome (mlist * mem * list Z) :=
  do_transition false sw_d xini (fun _ _ _ => Ok (tq_mem (tn_proc tx_ns 0))) (pc_addr (tx_n 0)) (pc_ops (tx_n 0)) (Some (pc_old (tx_n 0))) (pc_next (tx_n 0)) (pc_mem (tx_n 0)).
Definition tx_nt : mlist * mem * list Z := match tx_no with Ok y => y | _ => (mkMl None None [], fun _ => 0, []) end.
Lemma tx_ne_ok : tx_ne = Ok tx_ns.
Proof. unfold tx_ns. apply tx_ok. vm_compute. reflexivity. Qed.
Lemma tx_no_ok : tx_no = Ok tx_nt.
Proof. unfold tx_nt. apply tx_ok. vm_compute. reflexivity. Qed.
(* An index without owner before: no neutral element (C26) is written: its value is what is found in
   the memory just allocated. With index 0 of process 0: 4 bytes 7 in memory before, so it is
   7 * (1 + 2^8 + 2^16 + 2^24) instead of 0 *)
Theorem C53_nobody_before_refuted : exists fl tl x q,
  Good1d (dc_space sw_d) 3 fl tl /\ (forall p, 0 <= p < 3 -> Ready sw_d ex_qb 3 fl tl RO_Sum p (x p)) /\
  (forall p, 0 <= p < 3 -> is_qsort (cmp2phase p) (q p)) /\ (forall i s s', Owns fl s i -> Owns fl s' i -> s <> s' -> exists p, Owns tl p i) /\
  exists t code s m' fr sched,
    (forall p, 0 <= p < 3 -> tcp_start (q p) sw_d 3 p (pc_addr (x p)) (pc_ops (x p)) (Some (pc_old (x p))) (pc_next (x p)) = Ok (t p, code p)) /\
    trun tx_rd false (fun _ _ => true) (dc_space sw_d) (tnet_start code (fun p => pc_mem (x p))) sched = Ok s /\ tdone 3 s = true /\
    do_transition false sw_d xini (fun _ _ _ => Ok (tq_mem (tn_proc s 0))) (pc_addr (x 0)) (pc_ops (x 0)) (Some (pc_old (x 0))) (pc_next (x 0)) (pc_mem (x 0)) = Ok (t 0, m', fr) /\
    Owns tl 0 (mkIdx 0 0 0) /\ Holds 4 tl 0 (t 0) m' (mkIdx 0 0 0) [7; 7; 7; 7] /\ ~ Expected 4 (int_dt T_uint32) RO_Sum fl x (mkIdx 0 0 0) [7; 7; 7; 7].
Proof.
  exists ex_late, ex_blk, tx_n, tx_q. split; [exact tx_good_lb|]. split; [apply tx_ready; try reflexivity; [exact tx_good_lb|tx_check]|].
  split; [intros p _; apply isort_2phase|]. split.
  - intros i s s' (n & y & R & HI) (n' & y' & R' & HI') Hne. apply (frozen_range_in _ _ _ _ ex_late_frozen) in R. apply (frozen_range_in _ _ _ _ ex_late_frozen) in R'.
    destruct R as [R1 R2]. destruct R' as [R1' R2']. destruct R1 as [<-|[]]. destruct R1' as [<-|[]]. cbn in R2, R2'. lia.
  - assert (NO : forall t, ~ Owns ex_late t (mkIdx 0 0 0)).
    { intros t (n & y & R & HI). apply (frozen_range_in _ _ _ _ ex_late_frozen) in R. destruct R as [R1 R2]. destruct R1 as [<-|[]]. destruct HI as [HI _]. cbn in HI. lia. }
    exists (fun p => fst (tx_tc p)), (fun p => snd (tx_tc p)), tx_ns, (snd (fst tx_nt)), (snd tx_nt), tx_turn. split; [apply sw_three; vm_compute; reflexivity|].
    split; [|split; [vm_compute; reflexivity|split; [|split; [|split]]]].
    + pose proof tx_ne_ok as E. unfold tx_ne in E. exact E.
    + assert (E2 : fst (tx_tc 0) = fst (fst tx_nt)) by (vm_compute; reflexivity). rewrite E2, <- !surjective_pairing. pose proof tx_no_ok as E. unfold tx_no in E. exact E.
    + apply (g_own_owns _ _ _ _ ex_good_tb false 0 (mkIdx 0 0 0)). vm_compute. auto.
    + exists 0. assert (H : exists y m, rl_tidrange ex_blk 0 0 = Ok (Some y) /\ aread (ml_maps (fst (tx_tc 0))) (t_mapNo y) = Ok m /\
        i0 (b_from (t_box y)) = 0 /\ i0 (b_to (t_box y)) = 8 /\ i0 (b_from (r_box (m_req m))) = 0 /\ i0 (b_to (r_box (m_req m))) = 8 /\ m_base m = 2000).
      { do 2 eexists. split; [vm_compute; reflexivity|]. split; [vm_compute; reflexivity|]. vmsplit. }
      destruct H as (y & m & H1 & H2 & H3 & H4 & H5 & H6 & H7). exists y, m. split; [exact H1|].
      split; [unfold InBox; cbn [i0]; rewrite H3, H4; repeat split; try lia; intros; lia|]. split; [exact H2|]. cbn [i0]. split; [lia|]. rewrite H5, H7. vm_compute. reflexivity.
    + intros (ts & vs & T1 & T2 & T3 & T4). destruct ts as [|t ts]; [|apply (NO t), T2; left; auto]. inversion T3; subst. vm_compute in T4. discriminate.
Qed.

Print Assumptions C53_switch.
Print Assumptions C53_self_copy.
Print Assumptions C53_nobody_after_refuted.
Print Assumptions C53_nobody_before_refuted.
Print Assumptions C53_case.
Print Assumptions C53_case_run.
