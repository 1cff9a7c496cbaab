(* Property C56: switching a 1d container with the MPI backend, with all its transformations *)
From Coq Require Import ZArith List Bool Lia ZifyBool ZifyNat Sorted Permutation.
From Verif Require Import Base ListFacts Model_Space Model_Mem Model_Type Model_RangeList Model_Layout Model_Partitioner Model_Group Model_Transition Model_Data Model_Action Model_ActionTrans Model_ActionExec Model_ActionExec2 Model_Net Model_Switch Model_MpiPrepare.
From Verif Require Import Spec_Space Spec_RangeList Spec_Partitioner Spec_Type Spec_Layout Spec_Data Spec_Transition Spec_Action Spec_ActionTrans Spec_Async Spec_Reduce Spec_Net Spec_Switch Spec_MpiPrepare.
From Verif Require Import Proof_RangeList Proof_Partitioner2 Proof_Trans1 Proof_Trans2 Proof_Trans3 Proof_Data Proof_Data3 Proof_Type Proof_Comb1 Proof_Comb4 Proof_Net Proof_Switch1 Proof_Switch4 Proof_Switch8 Proof_Switch9 Proof_Switch10.
From Verif Require Import Proof_Prepare1 Proof_Prepare2 Proof_Prepare3 Proof_Prepare4 Proof_Prepare5 Proof_Prepare6 Proof_Prepare7.
From Verif Require Import Prop_Partitioner Prop_Layout Prop_Transition Prop_Data Prop_Reduce Prop_Switch Prop_Tcp2Exec.
Import ListNotations.
Open Scope Z_scope.

Lemma filter_one (f : action -> bool) L : ForallOrdPairs (fun a b => same_kind a b = false) L -> (forall a b, In a L -> In b L -> f a = true -> f b = true -> same_kind a b = true) ->
  (length (filter f L) <= 1)%nat.
Proof.
  induction 1 as [|a l Ha Hl IH]; intros H; simpl; [lia|]. destruct (f a) eqn:E; [|apply IH; intros; apply H; auto; right; auto].
  assert (Z0 : filter f l = []); [|simpl; rewrite Z0; simpl; lia].
  destruct (filter f l) as [|b r] eqn:Ef; auto. assert (Hb : In b (filter f l)) by (rewrite Ef; left; auto). apply filter_In in Hb as [B1 B2].
  rewrite Forall_forall in Ha. specialize (Ha b B1). cbv beta in Ha. rewrite (H a b) in Ha; [discriminate|left; auto|right; auto|auto|auto].
Qed.
Lemma one_message N me L : Prepared (peer_ok N me) L -> OneMessage L.
Proof.
  intros [A (rm & B) C] q.
  assert (K : forall f a b, (f = to_q q \/ f = from_q q) -> In a L -> In b L -> f a = true -> f b = true -> same_kind a b = true).
  { intros f a b Hf Ha Hb Fa Fb. destruct (A a Ha) as [Pa _]. destruct (A b Hb) as [Pb _].
    destruct a as [ra pa], b as [rb pb].
    destruct Hf; subst f; unfold to_q, from_q in Fa, Fb; cbn [a_par] in *; destruct pa; try discriminate; simpl in Pa; try tauto; destruct pb; try discriminate; simpl in Pb; try tauto;
      destruct (B _ _ Ha eq_refl) as [E1 _]; destruct (B _ _ Hb eq_refl) as [E2 _]; cbn [a_round] in E1, E2; unfold same_kind; cbn; lia. }
  split; (apply filter_one; [exact C|]); intros a b Ha Hb Fa Fb; [apply (K (to_q q))|apply (K (from_q q))]; auto.
Qed.

Theorem C56_blocking : forall d qb N fl tl red x rd qs b1 b2 b3,
  0 < dc_es d -> dc_map0 d = None -> Good1d (dc_space d) N fl tl -> c_qsort rb_cmp qb ->
  (forall p, 0 <= p < N -> Ready d qb N fl tl red p (x p)) -> OneOwner fl tl ->
  (forall p, 0 <= p < N -> Moved (pc_ops (x p)) * dc_es d < 2 ^ 32) -> (forall p, 0 <= p < N -> SortsOk p (qs p)) ->
  exists t cx s,
    (forall p, 0 <= p < N ->
       mpi_switch_start rd false (qs p) (b1 p) (b2 p) (b3 p) d N p (pc_addr (x p)) (pc_ops (x p)) (Some (pc_old (x p))) (pc_next (x p)) = Ok (t p, cx p, s p) /\
       OneMessage (as_acts (s p)) /\ (as_bufs (s p) = [] \/ exists n, as_bufs (s p) = [(b1 p, n)] /\ 0 < n <= Moved (pc_ops (x p)) * dc_es d)) /\
    ((forall p, 0 <= p < N -> BuffersApart (as_bufs (s p)) (blocks (pc_old (x p)) ++ blocks (t p))) ->
     forall place T oth,
     AlwaysEndsUnbuffered N (nstart (fun p => map (den2 (cx p) (place p) T (oth p)) (as_acts (s p))) (fun p => pc_mem (x p)))
       (fun p st => (forall q, 0 <= q < N -> p_in st (Peer q) = []) /\ SwitchDone d fl tl x (as_bufs (s p)) (t p) p (p_mem st))).
Proof.
  intros d qb N fl tl red x rd qs b1 b2 b3 Hes Hm0 G Hq HX H1 HM HQ.
  destruct (choice_range (mkMl None None [], mkMl None None []) (fun p v => Alloc d tl p (pc_old (x p)) (pc_next (x p)) (pc_addr (x p)) (fst v) (snd v)) N) as (tF & HA).
  { intros p Hp. destruct (HX p Hp) as [X1 X2 X3 X4 X5 X6 X7].
    destruct (alloc_ok d Hes Hm0 N fl tl G p (pc_old (x p)) (pc_next (x p)) (pc_addr (x p)) X1 X3 X4 X5) as (t & F' & H). exists (t, F'). exact H. }
  set (t := fun p => fst (tF p)). set (F' := fun p => snd (tF p)). change (forall p, 0 <= p < N -> Alloc d tl p (pc_old (x p)) (pc_next (x p)) (pc_addr (x p)) (t p) (F' p)) in HA.
  clearbody t F'. clear tF. pose (cx := mcx d N x t F').
  destruct (choice_range (mkSeq [] 0 [] 0) (fun p s => mpi_prepare rd false (qs p) (b1 p) (b2 p) (b3 p) (cx p) (pc_ops (x p)) = Ok s /\
    (as_bufs s = [] \/ exists n, as_bufs s = [(b1 p, n)] /\ 0 < n <= Moved (pc_ops (x p)) * dc_es d) /\ Prepared (peer_ok N p) (as_acts s) /\ key_order N p (as_acts s) /\
    (BuffersApart (as_bufs s) (blocks (pc_old (x p)) ++ blocks (t p)) -> forall place T' oth place' oth' st,
       SameRun (bufs_area (as_bufs s)) (exec_is (map (den2 (cx p) place' (first_dt (dc_es d)) oth') (msgs d fl tl x t p)) st) (exec_is (map (den2 (cx p) place T' oth) (as_acts s)) st))) N) as (s & HS).
  { intros p Hp. destruct (HQ p Hp) as [Q1 Q2 Q3].
    destruct (prep_one d Hes N fl tl G red qb Hq x HX H1 t F' HA p (qs p) rd false (b1 p) (b2 p) (b3 p) Hp (HM p Hp) Q1 Q2 Q3) as (F & bufs & nce & E1 & E2 & E3 & E4 & E5 & _ & _ & E6).
    exists (mkSeq F 0 bufs nce). split; [exact E1|]. split; [exact E2|]. split; [exact E4|]. split; [exact E5|]. intros HB place T' oth place' oth' st. apply E6; auto. }
  exists t, cx, s. split.
  { intros p Hp. destruct (HS p Hp) as (S1 & S2 & S3 & _). split; [|split; [eapply one_message; exact S3|exact S2]].
    destruct (al_run _ _ _ _ _ _ _ _ (HA p Hp)) as (t1 & R1 & R2).
    unfold mpi_switch_start. rewrite R1. cbn [obind fst snd]. rewrite R2. cbn [obind]. change (trans_ctx d N p (pc_ops (x p)) (Some (F' p)) (t p)) with (cx p). rewrite S1. reflexivity. }
  intros HB place T oth.
  pose proof (prepared_unb N (fun p => bufs_area (as_bufs (s p))) _ (fun p => map (den2 (cx p) (place p) T (oth p)) (as_acts (s p))) _ _ (base_net d Hes N fl tl G red qb Hq x HX H1 t F' HA place oth)) as PN.
  intros sched y Hs Hy. destruct (PN) with (sched := sched) (y := y) as [R1 R2]; auto.
  - intros p st Hp [Q1 _]. exact Q1.
  - intros p Hp st. destruct (HS p Hp) as (_ & _ & _ & _ & S5). apply (S5 (HB p Hp)).
  - intros p Hp. destruct (HS p Hp) as (_ & _ & S3 & S4 & _). apply key_sorted; auto.
  - intros p Hp. destruct (HS p Hp) as (_ & _ & S3 & _). apply (prep_not_empty (cx p) (place p) T (oth p) (peer_ok N p)); auto.
  - split; auto. intros HD p Hp. destruct (R2 HD p Hp) as (st0 & [Q1 Q2] & Q3 & Q4). split; [intros q Hq'; rewrite Q4; auto|].
    intros gen ini. destruct (Q2 (bufs_area (as_bufs (s p))) gen ini (pr_st (y p))) as (m' & fr & E & A1 & A2); auto.
    { intros b z Hb Hz (e & E1 & E2). pose proof (HB p Hp e b E1 Hb) as W. unfold AwayB, Away in W. unfold region in Hz, E2. lia. }
    exists m', fr. split; [exact E|]. split; [apply (al_good _ _ _ _ _ _ _ _ (HA p Hp))|]. split; [apply (al_cov _ _ _ _ _ _ _ _ (HA p Hp))|]. split; [exact A1|].
    intros a Ha Hb. apply A2; auto. intros (e & E1 & E2). exact (Hb e E1 E2).
Qed.
Print Assumptions C56_blocking.

(* ---------- a concrete case: 3 processes, 20 indexes; the messages from process 0 to 1 and from 1 to
   2 consist of several pieces which go through a buffer ---------- *)
Definition mp_flp : outcome rlist := run_partitioner exq (mkPartitioner (fun _ => Ok [ACrange 0 (exrng 20 0 10) 0; ACrange 1 (exrng 20 10 20) 0]) false true) (mkParams (exsp 20) (exgroup 3 0) None) None.
Definition mp_tlp : outcome rlist := run_partitioner exq (mkPartitioner (fun _ => Ok [ACrange 0 (exrng 20 12 14) 0; ACrange 1 (exrng 20 4 16) 0; ACrange 2 (exrng 20 8 20) 0]) false true) (mkParams (exsp 20) (exgroup 3 0) None) None.
Definition mp_fl : rlist := Eval vm_compute in match mp_flp with Ok l => l | _ => rl_new (exsp 0) 0 end.
Definition mp_tl : rlist := Eval vm_compute in match mp_tlp with Ok l => l | _ => rl_new (exsp 0) 0 end.
Lemma mp_fl_frozen : FrozenList mp_fl.
Proof.
  assert (E : mp_flp = Ok mp_fl) by (vm_compute; reflexivity).
  unfold mp_flp in E. refine (run_frozen _ _ _ _ _ exq_good _ _ E); [left; reflexivity|cbn; lia].
Qed.
Lemma mp_tl_frozen : FrozenList mp_tl.
Proof.
  assert (E : mp_tlp = Ok mp_tl) by (vm_compute; reflexivity).
  unfold mp_tlp in E. refine (run_frozen _ _ _ _ _ exq_good _ _ E); [left; reflexivity|cbn; lia].
Qed.
Lemma mp_good : Good1d (exsp 20) 3 mp_fl mp_tl.
Proof. apply ex_good1d; try reflexivity; try lia; [exact mp_fl_frozen|exact mp_tl_frozen]. Qed.
Definition mp_mem (p a : Z) : Z := if (a mod 4 =? 0) && (1000 <=? a) then (a - 1000) / 4 + (if p =? 1 then 10 else 0) else 0.
Definition mp_x (p : Z) : proc := let y := tx_x mp_fl mp_tl p in mkProc (pc_old y) (pc_next y) (mp_mem p) (pc_from y) (pc_to y) (pc_ops y) (pc_addr y).
Lemma mp_ready : forall p, 0 <= p < 3 -> Ready sw_d ex_qb 3 mp_fl mp_tl RO_Sum p (mp_x p).
Proof.
  intros p Hp. assert (R : Ready sw_d ex_qb 3 mp_fl mp_tl RO_Sum p (tx_x mp_fl mp_tl p)).
  { revert p Hp. apply tx_ready; try reflexivity; [exact mp_good|tx_check]. }
  destruct R as [X1 X2 X3 X4 X5 X6 X7]. split; assumption.
Qed.
Lemma mp_one : OneOwner mp_fl mp_tl.
Proof.
  assert (O : forall t i, Owns mp_fl t i <-> t = (if i0 i <? 10 then 0 else 1) /\ 0 <= i0 i < 20).
  { intros t i. rewrite (g_own_owns _ _ _ _ mp_good true t i). unfold owners. rewrite filter_In, zcount_In.
    change (rl_trs mp_fl) with [mkTrg 0 (box1 0 10) 0 0; mkTrg 1 (box1 10 20) 0 0]. unfold cov, has, tf, tt. cbn [filter t_task t_box b_from b_to box1 i0].
    destruct (0 =? t) eqn:E1, (1 =? t) eqn:E2; cbn [andb]; try lia;
      [destruct (0 <=? i0 i) eqn:E3, (i0 i <? 10) eqn:E4|destruct (10 <=? i0 i) eqn:E3, (i0 i <? 20) eqn:E4|]; cbn [andb filter length]; change (0 <? Z.of_nat 1) with true; change (0 <? Z.of_nat 0) with false;
      destruct (i0 i <? 10) eqn:E5; lia. }
  intros i t H. exists (if i0 i <? 10 then 0 else 1). intros s. rewrite O. split; [tauto|]. intros ->. split; auto.
  destruct H as [H|H]; [apply O in H; lia|]. destruct H as (n & y & R & HI).
  apply (frozen_range_in _ _ _ _ mp_tl_frozen) in R. destruct R as [R1 R2]. destruct HI as [HI _]. destruct R1 as [<-|[<-|[<-|[]]]]; cbn in HI; lia.
Qed.
Definition mp_q (p : Z) : sorts := mkSorts (isort cmp_rounds) (isort (cmp2phase p)) (isort cmp_rounds).
Lemma mp_sorts p : SortsOk p (mp_q p).
Proof. split; [apply Proof_Action5.isort_rounds|apply Proof_Action5.isort_2phase|apply Proof_Action5.isort_rounds]. Qed.
Definition mp_go (asyn : bool) (p : Z) : mlist * actx * aseq :=
  match mpi_switch_start true asyn (mp_q p) 5000 6000 7000 sw_d 3 p (pc_addr (mp_x p)) (pc_ops (mp_x p)) (Some (pc_old (mp_x p))) (pc_next (mp_x p)) with
  | Ok r => r | _ => (mkMl None None [], mkCtx 4 1 3 p [] None None, mkSeq [] 0 [] 0) end.
Lemma mp_apart asyn : forall p, 0 <= p < 3 -> BuffersApart (as_bufs (snd (mp_go asyn p))) (blocks (pc_old (mp_x p)) ++ blocks (fst (fst (mp_go asyn p)))).
Proof.
  assert (B1 : forall p, 0 <= p < 3 -> forallb (fun b => 5000 <=? fst b) (as_bufs (snd (mp_go asyn p))) = true) by (destruct asyn; apply sw_three; vm_compute; reflexivity).
  assert (B2 : forall p, 0 <= p < 3 -> forallb (fun b => fst b + snd b <=? 5000) (blocks (pc_old (mp_x p)) ++ blocks (fst (fst (mp_go asyn p)))) = true) by (destruct asyn; apply sw_three; vm_compute; reflexivity).
  intros p Hp b u Hb Hu. assert (E := proj1 (forallb_forall _ _) (B1 p Hp) _ Hb). assert (E' := proj1 (forallb_forall _ _) (B2 p Hp) _ Hu). cbv beta in E, E'. unfold AwayB, Away. lia.
Qed.
Example C56_case : 0 < dc_es sw_d /\ dc_map0 sw_d = None /\ Good1d (dc_space sw_d) 3 mp_fl mp_tl /\ c_qsort rb_cmp ex_qb /\
  (forall p, 0 <= p < 3 -> Ready sw_d ex_qb 3 mp_fl mp_tl RO_Sum p (mp_x p)) /\ OneOwner mp_fl mp_tl /\
  (forall p, 0 <= p < 3 -> Moved (pc_ops (mp_x p)) * dc_es sw_d < 2 ^ 32) /\ (forall p, 0 <= p < 3 -> SortsOk p (mp_q p)) /\
  (forall p, 0 <= p < 3 -> mpi_switch_start true false (mp_q p) 5000 6000 7000 sw_d 3 p (pc_addr (mp_x p)) (pc_ops (mp_x p)) (Some (pc_old (mp_x p))) (pc_next (mp_x p)) = Ok (mp_go false p)) /\
  (forall p, 0 <= p < 3 -> BuffersApart (as_bufs (snd (mp_go false p))) (blocks (pc_old (mp_x p)) ++ blocks (fst (fst (mp_go false p))))).
Proof.
  split; [reflexivity|]. split; [reflexivity|]. split; [exact mp_good|]. split; [exact ex_qb_ok|]. split; [exact mp_ready|]. split; [exact mp_one|].
  split; [apply sw_three; vm_compute; reflexivity|]. split; [intros; apply mp_sorts|]. split; [|exact (mp_apart false)].
  apply sw_three; vm_compute; reflexivity.
Qed.
(* one execution: process 1 has its send to process 2 (the 10 last elements) done before process 0
   has received anything *)
Definition mp_end : option net := nrun [0; 0; 0; 1; 1; 1; 2; 2; 2; 1; 1; 0]
  (nstart (fun p => map (den2 (snd (fst (mp_go false p))) (fun _ => 0) (int_dt T_uint32) (fun _ => skip)) (as_acts (snd (mp_go false p)))) mp_mem).
Definition mp_final (p : Z) : option (list (Z * Z) * list (list Z)) :=
  match mp_end with
  | None => None
  | Some y =>
    match do_transition false sw_d xini (fun _ _ _ => Ok (p_mem (pr_st (y p)))) (pc_addr (mp_x p)) (pc_ops (mp_x p)) (Some (pc_old (mp_x p))) (pc_next (mp_x p)) (mp_mem p), pr_code (y p) with
    | Ok (t, m, _), [] => Some (blocks t, flat_map (fun k => map (fun i => mread m (m_base k + 4 * Z.of_nat i) 1) (seq 0 (Z.to_nat (m_count k)))) (ml_maps t))
    | _, _ => None
    end
  end.
Example C56_case_run : mp_final 0 = Some ([(2000, 8)], [[12]; [13]]) /\
  mp_final 1 = Some ([(2000, 48)], [[4]; [5]; [6]; [7]; [8]; [9]; [10]; [11]; [12]; [13]; [14]; [15]]) /\
  mp_final 2 = Some ([(2000, 48)], [[8]; [9]; [10]; [11]; [12]; [13]; [14]; [15]; [16]; [17]; [18]; [19]]).
Proof. vmsplit. Qed.
Print Assumptions C56_case.
Print Assumptions C56_case_run.
