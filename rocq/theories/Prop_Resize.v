(* Property C58: resizing the world with the TCP2 backend *)
From Coq Require Import ZArith List Bool Lia ZifyBool ZifyNat.
From Verif Require Import Base Model_Space Model_RangeList Model_Partitioner Model_Resize Model_Startup Spec_Resize.
From Verif Require Import Proof_Resize1 Proof_Resize2 Proof_Resize3 Proof_Resize4 Proof_Resize5 Proof_Resize6 Proof_Resize7 Proof_Resize8 Proof_Resize9.
Import ListNotations.
Open Scope Z_scope.

(* In all theorems: [n] processes at start; [next]: the phase the program hands to the next call, from
   the phase of the last one; [junk]: contents of new memory; [regs]: the processes which registered at startup, in order; [log]: the
   requests handled up to now *)

(* no failed assertion, no panic, no access outside of memory: whatever happens next, it succeeds *)
Theorem C58_safe next junk n regs s log ev r :
  1 <= n <= max_peers -> (forall p, next p <> -1) ->
  reach next junk n regs s log -> fine n log s ev -> exec next junk s ev = Some r ->
  exists s', r = Ok s'.
Proof.
  intros Hn Hx HR Hf He. destruct (inv_exec next junk n Hn Hx s log ev r (reach_inv next junk n Hn Hx regs s log HR) Hf He) as (s' & E & _). eauto.
Qed.

(* all processes in the application see the world which results from the requests *)
Theorem C58_agree next junk n regs s log :
  1 <= n <= max_peers -> (forall p, next p <> -1) ->
  reach next junk n regs s log ->
  let world := fst (world_after n log) in
  exists phase,
    (forall q p, s_n s q = Some p -> np_pc p = NApp ->
       d_lid (np_d p) = lid_of n regs log q /\ 0 <= lid_of n regs log q /\
       exists i, d_inst (np_d p) = Some i /\ world_ok n log (lid_of n regs log q) i /\
         (In (lid_of n regs log q) world -> i_epoch i = zlen log /\ i_phase i = phase /\ forall a r, s_mpc s <> MWaitOk a r) /\
         (~ In (lid_of n regs log q) world -> w_myid (i_world i) = -1)) /\
    (s_mpc s = MApp ->
       exists i, d_inst (m_d (s_m s)) = Some i /\ world_ok n log 0 i /\ i_epoch i = zlen log /\ i_phase i = phase).
Proof.
  intros Hn Hx HR world. destruct (member_app next junk n Hn Hx s log (reach_inv next junk n Hn Hx regs s log HR)) as (P & HA & HB).
  pose proof (reach_lids next junk n Hn Hx regs s log HR) as HL. exists P. split.
  - intros q p Hq Hpc. specialize (HA q p Hq Hpc). rewrite HL in HA. destruct HA as (A1 & [(A2 & A3 & A4)|(A2 & A3)]).
    + split; [apply (se_lid _ _ _ _ _ A3)|]. split; auto. destruct (se_inst _ _ _ _ _ A3) as (i & I1 & I2 & I3 & I4 & _). exists i.
      split; auto. split; auto. split; auto. intros C. exfalso. apply C. exact A2.
    + split; [apply (go_lid _ _ _ _ A3)|]. split; auto. destruct (go_inst _ _ _ _ A3) as (i & I1 & I2 & I3). exists i.
      split; auto. split; auto. split; auto. intros C. exfalso. apply A2. exact C.
  - intros Epc. rewrite Epc in HB. destruct HB as (i & B1 & B2 & B3 & B4). exists i. auto.
Qed.

(* the call of a member waits; the call of a removed process returns at once *)
Theorem C58_call next junk n regs s log q p :
  1 <= n <= max_peers -> (forall p, next p <> -1) ->
  reach next junk n regs s log -> s_n s q = Some p -> np_pc p = NApp ->
  exists s' p', exec next junk s (EvCall q) = Some (Ok s') /\ s_n s' q = Some p' /\
    np_pc p' = (if zin (lid_of n regs log q) (fst (world_after n log)) then NWait else NApp).
Proof.
  intros Hn Hx HR Hq Hpc. pose proof (reach_inv next junk n Hn Hx regs s log HR) as HI.
  destruct (member_app next junk n Hn Hx s log HI) as (P & HA & _). specialize (HA q p Hq Hpc).
  rewrite (reach_lids next junk n Hn Hx regs s log HR) in HA. destruct p as [d pc]. simpl in Hpc. subst pc. cbn [np_d] in HA.
  cbn [exec]. rewrite Hq. destruct HA as (A1 & [(A2 & A3 & A4)|(A2 & A3)]).
  - replace (zin _ _) with true by (symmetry; apply zin_In; auto).
    assert (H0 : In 0 (WL n log)).
    { destruct HI as (_ & P' & HM). unfold Mode in HM. destruct (s_mpc s) as [| |a r] eqn:E; [apply (o_zero _ _ _ _ _ _ _ _ _ _ HM)..|].
      exfalso. eapply A4. reflexivity. }
    destruct (call_settled next junk n ltac:(lia) log P (lid_of n regs log q) d H0 A2 A3) as (d' & ph & e & E & _).
    rewrite E. cbn [obind]. eexists; eexists. split; [reflexivity|]. simpl. rewrite setz_eq. split; reflexivity.
  - replace (zin _ _) with false by (symmetry; apply zin_not; auto).
    destruct (call_gone n log (lid_of n regs log q) d (next (phase_of d)) A3) as (d' & E & _).
    rewrite E. cbn [obind]. eexists; eexists. split; [reflexivity|]. simpl. rewrite setz_eq. split; reflexivity.
Qed.

(* what is left to be done by the library itself ends *)
Theorem C58_terminates next junk n regs s log :
  1 <= n <= max_peers -> (forall p, next p <> -1) ->
  reach next junk n regs s log -> Acc (istep next junk n) (s, log).
Proof. intros Hn Hx HR. apply ends; auto. apply (reach_inv next junk n Hn Hx regs); auto. Qed.

(* and then the only processes which wait are joining ones, until the next resize, and members in their next
   call, because the master or another member did not call yet *)
Theorem C58_rest next junk n regs s log :
  1 <= n <= max_peers -> (forall p, next p <> -1) ->
  reach next junk n regs s log -> at_rest next junk s ->
  let world := fst (world_after n log) in
  (forall a r, s_mpc s <> MWaitOk a r) /\
  (s_mpc s = MIn -> exists q p, s_n s q = Some p /\ np_pc p = NApp /\ In (lid_of n regs log q) world) /\
  (forall l, In l world -> l <> 0 -> exists q p, s_n s q = Some p /\ lid_of n regs log q = l) /\
  (forall q p, s_n s q = Some p -> np_pc p <> NApp ->
     (np_pc p = NReg /\ lid_of n regs log q < 0) \/
     (np_pc p = NWait /\ In (lid_of n regs log q) world /\
      exists i j, d_inst (np_d p) = Some i /\ d_inst (m_d (s_m s)) = Some j /\ i_epoch i = zlen log /\ i_epoch j = zlen log /\
        i_phase i = match s_mpc s with MApp => next (i_phase j) | _ => i_phase j end)).
Proof.
  intros Hn Hx HR Hrest world. pose proof (reach_inv next junk n Hn Hx regs s log HR) as HI. pose proof (reach_lids next junk n Hn Hx regs s log HR) as HL.
  destruct (rest next junk n Hx s log HI Hrest) as (_ & A & B). split; auto. split; [|split].
  - intros E. destruct (B E) as (q & p & B1 & B2 & B3). exists q, p. rewrite <- HL. auto.
  - intros l Hl Hl0. destruct (rest_members next junk n Hn Hx s log l HI Hrest Hl Hl0) as (q & p & C1 & C2). exists q, p. rewrite <- HL. auto.
  - intros q p Hq Hpc. destruct (rest_waits next junk n Hn Hx s log q p HI Hrest Hq Hpc) as [(D1 & D2 & _)|(D1 & D2 & D3)]; rewrite HL in *; auto.
Qed.

(* a cutoff asks for the removal of exactly the matching members; in addition at most for processes
   removed by a resize not finished yet *)
Theorem C58_cutoff next junk n regs s log pat s' :
  1 <= n <= max_peers -> (forall p, next p <> -1) ->
  reach next junk n regs s log -> fine n log s (EvCut pat) -> (forall a r, s_mpc s <> MWaitOk a r) ->
  exec next junk s (EvCut pat) = Some (Ok s') ->
  exists ls, m_reqs (s_m s') = m_reqs (s_m s) ++ map RRemove ls /\ NoDup ls /\
    (forall l, In l (fst (world_after n log)) -> (In l ls <-> l <> 0 /\ pat l = true)) /\
    (forall l, In l ls -> ~ In l (fst (world_after n log)) ->
       exists i, d_inst (m_d (s_m s)) = Some i /\ w_parent (i_world i) <> None).
Proof.
  intros Hn Hx HR Hf Hpc He. destruct (cutoff_adds next junk n Hn Hx s log pat (reach_inv next junk n Hn Hx regs s log HR) Hf Hpc) as (m' & ls & E & A & B & C & D).
  exists ls. cbn [exec] in He. rewrite E in He. cbn [obind] in He. injection He as <-. simpl. auto.
Qed.

(* a process which registered is asked for, at the latest, with the next call of the master *)
Theorem C58_join next junk n regs s log q p s' :
  1 <= n <= max_peers -> (forall p, next p <> -1) ->
  reach next junk n regs s log -> fine n log s EvCallM -> exec next junk s EvCallM = Some (Ok s') ->
  s_n s q = Some p -> np_pc p = NReg -> lid_of n regs log q < 0 -> s_up s q = [] ->
  In q (joins (m_reqs (s_m s'))).
Proof.
  intros Hn Hx HR Hf He Hq Hpc Hl Hu. rewrite <- (reach_lids next junk n Hn Hx regs s log HR) in Hl.
  eapply (call_collects next junk n Hn Hx s log); eauto. apply (reach_inv next junk n Hn Hx regs); auto.
Qed.

(** Examples: 3 processes (process 2 registers before process 1); two more join, location 1 is removed; then another round *)
Definition nx (p : Z) : Z := p + 1.
Definition jk (p : Z) : Z := 77 + p.
Definition ex_events : list event := [EvJoin 10; EvJoin 11; EvCut (Z.eqb 1); EvCallM; EvCall 2; EvCall 1].
Notation ex_run := (boot_play true nx jk 3 [2; 1] [10; 11] ex_events).
Lemma some_of {A B C} (r : option (A * B)) (f : A * B -> C) c : option_map f r = Some c -> exists x y, r = Some (x, y) /\ f (x, y) = c.
Proof. destruct r as [[x y]|]; simpl; intros E; [|discriminate]. injection E as E. eauto. Qed.
Lemma ex_log : option_map snd ex_run = Some [[RRemove 1; RJoin 10; RJoin 11]].
Proof. vm_compute. reflexivity. Qed.
Lemma ex_regs : option_map snd (boot jk 3 [2; 1]) = Some [2; 1].
Proof. vm_compute. reflexivity. Qed.
Example C58_ex_reach : exists s log, ex_run = Some (s, log) /\ reach nx jk 3 [2; 1] s log /\ log = [[RRemove 1; RJoin 10; RJoin 11]].
Proof.
  destruct (some_of _ _ _ ex_log) as (s & log & E & El). exists s, log. split; [exact E|]. split; [|exact El].
  destruct (boot_play_reach _ _ _ _ _ _ _ _ E) as (s0 & regs & Eb & HR).
  destruct (some_of _ _ _ ex_regs) as (s1 & regs1 & Eb1 & El1). rewrite Eb in Eb1. injection Eb1 as <- <-. simpl in El1. subst regs. exact HR.
Qed.
Example C58_ex_world : fst (world_after 3 [[RRemove 1; RJoin 10; RJoin 11]]) = [0; 2; 3; 4] /\
  lid_of 3 [2; 1] [[RRemove 1; RJoin 10; RJoin 11]] 11 = 4.
Proof. split; reflexivity. Qed.
Example C58_ex_sees :
  map (see ex_run) [2; 1; 10; 11] =
  map (fun r => Some (Some (NApp, 1, 1, r, [0; 2; 3; 4], Some ([0; 1; 2], [0; 2; -1; -1], [0; -1; 1])))) [-1; 1; 2; 3].
Proof. vm_compute. reflexivity. Qed.
(* the next round: the master and some members called, one did not yet *)
Example C58_ex_waits :
  map (see (boot_play true nx jk 3 [1; 2] [10; 11] (ex_events ++ [EvCall 10; EvCallM; EvCall 1; EvCall 11]))) [1; 2; 10] =
  [Some (Some (NApp, 1, 2, -1, [0; 2; 3; 4], None));
   Some (Some (NApp, 1, 1, 1, [0; 2; 3; 4], Some ([0; 1; 2], [0; 2; -1; -1], [0; -1; 1])));
   Some (Some (NWait, 1, 2, 2, [0; 2; 3; 4], None))].
Proof. vm_compute. reflexivity. Qed.
(* and then it did, too *)
Example C58_ex_round2 :
  map (see (boot_play true nx jk 3 [1; 2] [10; 11] (ex_events ++ [EvCall 10; EvCallM; EvCall 1; EvCall 11; EvCut (Z.eqb 3); EvCall 2]))) [1; 2; 10; 11] =
  [Some (Some (NApp, 1, 2, -1, [0; 2; 3; 4], None));
   Some (Some (NApp, 2, 2, 1, [0; 2; 4], Some ([0; 2; 3; 4], [0; 1; 3], [0; 1; -1; 2])));
   Some (Some (NApp, 2, 2, -1, [0; 2; 4], Some ([0; 2; 3; 4], [0; 1; 3], [0; 1; -1; 2])));
   Some (Some (NApp, 2, 2, 2, [0; 2; 4], Some ([0; 2; 3; 4], [0; 1; 3], [0; 1; -1; 2])))].
Proof. vm_compute. reflexivity. Qed.

(** Findings: why the conditions on the requests are needed *)

(* Four processes, two are removed and one joins: the array of a joining process for the ranks of the previous
   processes is too short, and writing it overwrites ranks in the previous group: the new process sees that the
   first process of the world had rank 1 before, the others see rank 0 *)
Theorem C58_leave_more_than_join_refuted :
  let r := boot_play false nx jk 4 [1; 2; 3] [10]
             [EvJoin 10; EvCut (fun l => (l =? 1) || (l =? 2)); EvCallM; EvCall 2; EvCall 1; EvCall 3] in
  see r 3 = Some (Some (NApp, 1, 1, 1, [0; 3; 4], Some ([0; 1; 2; 3], [0; 3; -1], [0; -1; -1; 1]))) /\
  see r 10 = Some (Some (NApp, 1, 1, 2, [0; 3; 4], Some ([0; 1; 2; 3], [1; 3; -1], [0; -1; -1; 1]))).
Proof. vm_compute. split; reflexivity. Qed.

(* the outcome of the master's step after events *)
Definition then_master (n : Z) (qs more : list Z) (evs last : list event) (ev : event) : option (outcome unit) :=
  match boot_play false nx jk n qs more evs with
  | Some (s, log) => match run false nx jk n s log last with
                     | Some (s', _) => option_map (fun o => do _ <- o; Ok tt) (exec nx jk s' ev)
                     | None => None
                     end
  | None => None
  end.
(* two cutoffs for the same process before it is removed: the master fails with an assertion *)
Theorem C58_cutoff_twice_refuted :
  then_master 3 [1; 2] [] [EvCut (Z.eqb 1); EvCut (Z.eqb 1); EvCallM; EvCall 1] [EvCall 2; EvUp 2] EvGoM = Some Abort.
Proof. vm_compute. reflexivity. Qed.
(* a cutoff for a process which was removed by a resize, before the master finished that resize: same with the next call *)
Theorem C58_cutoff_removed_refuted :
  then_master 3 [1; 2] [] [EvCut (Z.eqb 1); EvCallM; EvCall 1; EvCall 2; EvCut (Z.eqb 1); EvCallM] [EvCall 2; EvUp 2] EvGoM = Some Abort.
Proof. vm_compute. reflexivity. Qed.
(* more than 100 processes want to join *)
Theorem C58_many_requests_refuted :
  then_master 1 [] [] [] (flat_map (fun q => [EvJoin q; EvUp q]) (zfrom 1 101)) EvCallM = Some Abort.
Proof. vm_compute. reflexivity. Qed.
(* a cutoff which comes while the master waits for confirmations is forgotten: process 2 is still there after the
   next resize, without any request left *)
Theorem C58_cutoff_forgotten_refuted :
  let r := match boot_play true nx jk 3 [1; 2] [] [EvCut (Z.eqb 1); EvCallM; EvCall 1] with
           | Some (s, log) =>
             match run true nx jk 3 s log [EvCall 2; EvUp 2; EvGoM; EvCut (Z.eqb 2)] with
             | Some (s', log') => play true nx jk 3 [1; 2] s' log' [EvCut (fun _ => false); EvCallM; EvCall 2]
             | None => None
             end
           | None => None
           end in
  see r 2 = Some (Some (NApp, 1, 2, 1, [0; 2], None)) /\
  option_map (fun x => (s_mpc (fst x), m_reqs (s_m (fst x)), snd x)) r = Some (MApp, [], [[RRemove 1]]).
Proof. vm_compute. split; reflexivity. Qed.

Print Assumptions C58_safe.
Print Assumptions C58_agree.
Print Assumptions C58_call.
Print Assumptions C58_terminates.
Print Assumptions C58_rest.
Print Assumptions C58_cutoff.
Print Assumptions C58_join.
Print Assumptions C58_leave_more_than_join_refuted.
Print Assumptions C58_cutoff_twice_refuted.
Print Assumptions C58_cutoff_removed_refuted.
Print Assumptions C58_many_requests_refuted.
Print Assumptions C58_cutoff_forgotten_refuted.
