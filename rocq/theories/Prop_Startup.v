(* Property C59: startup with the TCP2 backend *)
From Coq Require Import ZArith List Bool Lia ZifyBool ZifyNat.
From Verif Require Import Base Model_Space Model_RangeList Model_Partitioner Model_Resize Model_Startup Spec_Resize.
From Verif Require Import Proof_Resize1 Proof_Resize2 Proof_Resize3 Proof_Resize4 Proof_Resize5 Proof_Resize6 Proof_Resize7 Proof_Startup Proof_Resize8 Proof_Resize9 Proof_Startup2.
Import ListNotations.
Open Scope Z_scope.

(* In all theorems: LAIK_SIZE is [n]; [junk]: contents of new memory; [regs]: the processes which registered with
   the master before it finished startup, in the order of registration. Any number of processes may start, at
   any time. *)

(* no failed assertion, no panic, no access outside of memory *)
Theorem C59_safe junk n t regs ev r :
  1 <= n <= max_peers -> treach junk n t regs -> texec junk n t ev = Some r -> exists t', r = Ok t'.
Proof.
  intros Hn HR He. destruct (tinv_exec (fun _ => 0) junk n Hn t regs ev r (treach_inv (fun _ => 0) junk n Hn t regs HR) He) as (t' & E & _). eauto.
Qed.

(* the steps of the library end *)
Theorem C59_terminates junk n t regs :
  1 <= n <= max_peers -> treach junk n t regs -> Acc (tstep junk n) t.
Proof. intros Hn HR. apply (t_ends (fun _ => 0) junk n Hn t regs). apply treach_inv; auto. Qed.

(* and then the master is done, or fewer processes started than asked for *)
Theorem C59_rest junk n t regs :
  1 <= n <= max_peers -> treach junk n t regs -> t_rest junk n t -> t_pc t = TDone \/ procs (t_s t) + 1 < n.
Proof.
  intros Hn HR Hr. destruct (t_at_rest (fun _ => 0) junk n Hn t regs (treach_inv (fun _ => 0) junk n Hn t regs HR) Hr) as [A|(_ & A)]; auto.
Qed.

(* when the master is done it sees the world of all [n] processes, in epoch and phase 0 *)
Theorem C59_master junk n t regs :
  1 <= n <= max_peers -> treach junk n t regs -> t_pc t = TDone ->
  exists i, d_inst (m_d (s_m (t_s t))) = Some i /\ i_epoch i = 0 /\ i_phase i = 0 /\ world_ok n [] 0 i.
Proof. intros Hn. apply (done_master (fun _ => 0) junk n Hn). Qed.

(* the other processes get there too, without any further call: the one which registered as number k has rank
   k in the same world; a process which registered later, or not yet, waits *)
Theorem C59_started next junk n t regs s :
  1 <= n <= max_peers -> (forall p, next p <> -1) ->
  treach junk n t regs -> t_pc t = TDone -> later next junk (t_s t) s -> at_rest next junk s ->
  (forall k, 1 <= k < n -> exists q p i, nth_error regs (Z.to_nat (k - 1)) = Some q /\
     s_n s q = Some p /\ np_pc p = NApp /\ d_lid (np_d p) = k /\ d_inst (np_d p) = Some i /\
     i_epoch i = 0 /\ i_phase i = 0 /\ world_ok n [] k i) /\
  (forall q p, s_n s q = Some p -> ~ In q (firstn (Z.to_nat (n - 1)) regs) -> np_pc p = NReg).
Proof. intros Hn Hx. apply started; auto. Qed.
(* nothing fails on the way, and it ends *)
Theorem C59_later_safe next junk n t regs s ev r :
  1 <= n <= max_peers -> (forall p, next p <> -1) ->
  treach junk n t regs -> t_pc t = TDone -> later next junk (t_s t) s -> (internal ev \/ exists q, ev = EvJoin q) ->
  exec next junk s ev = Some r -> exists s', r = Ok s'.
Proof.
  intros Hn Hx HT Hd HL Hev He. destruct (later_reach next junk n t regs s HT Hd HL) as (HR & Hm & _).
  destruct (inv_exec next junk n Hn Hx s [] ev r (reach_inv next junk n Hn Hx regs s [] HR)) as (s' & E & _); eauto.
  destruct Hev as [Hi|(q & ->)]; [|exact Logic.I]. destruct ev; try contradiction; try exact Logic.I. simpl. rewrite Hm. exact Logic.I.
Qed.
Theorem C59_later_terminates next junk n t regs s :
  1 <= n <= max_peers -> (forall p, next p <> -1) ->
  treach junk n t regs -> t_pc t = TDone -> later next junk (t_s t) s -> Acc (istep next junk n) (s, []).
Proof.
  intros Hn Hx HT Hd HL. destruct (later_reach next junk n t regs s HT Hd HL) as (HR & _).
  apply ends; auto. apply (reach_inv next junk n Hn Hx regs); auto.
Qed.

(** Example: LAIK_SIZE is 3; processes 7, 2, 9 and 4 start *)
Definition jk (p : Z) : Z := 77 + p.
Notation ex_boot := (boot jk 3 [7; 2; 9; 4]).
Notation ex_settled := (match ex_boot with Some (s, _) => settle 500 true (Z.add 1) jk 3 [2; 4; 7; 9] s [] | None => None end).
Lemma ex_regs : option_map snd ex_boot = Some [7; 2; 9; 4].
Proof. vm_compute. reflexivity. Qed.
Example C59_ex_done : exists t, treach jk 3 t [7; 2; 9; 4] /\ t_pc t = TDone.
Proof.
  destruct ex_boot as [[s regs]|] eqn:E; [|pose proof ex_regs as H; rewrite E in H; discriminate].
  assert (Er : regs = [7; 2; 9; 4]). { pose proof ex_regs as H. rewrite E in H. injection H as ->. reflexivity. }
  subst regs. destruct (boot_treach _ _ _ _ _ E) as (t & A & B & _). eauto.
Qed.
Example C59_ex_sees : map (see ex_settled) [7; 2; 9; 4] =
  [Some (Some (NApp, 0, 0, 1, [0; 1; 2], None)); Some (Some (NApp, 0, 0, 2, [0; 1; 2], None)); Some None; Some None].
Proof. vm_compute. reflexivity. Qed.
(* one process is missing: the master waits *)
Example C59_ex_missing :
  match trun jk 3 tstart [] [TJoin 7; TUp 7; TDown 7] with
  | Some (t, regs) => (t_pc t, regs, procs (t_s t), map (texec jk 3 t) [TGo; TUp 7; TDown 7]) = (TReg, [7], 1, [None; None; None])
  | None => False
  end.
Proof. vm_compute. reflexivity. Qed.

(** Finding: a negative LAIK_SIZE is accepted, and then the master waits forever *)
Theorem C59_negative_size_refuted junk n t regs : n < 0 -> treach junk n t regs -> t_pc t <> TDone.
Proof. intros Hn HR. destruct (negative junk n t regs Hn HR) as (-> & _). discriminate. Qed.

Print Assumptions C59_safe.
Print Assumptions C59_terminates.
Print Assumptions C59_rest.
Print Assumptions C59_master.
Print Assumptions C59_started.
Print Assumptions C59_later_safe.
Print Assumptions C59_later_terminates.
Print Assumptions C59_negative_size_refuted.
