(* Vocabulary for C53: executions of a group of N processes with the TCP2 backend. *)
From Coq Require Import ZArith List Bool Lia.
From Verif Require Import Base Model_Space Model_Mem Model_Layout Model_Partitioner Model_Transition Model_Tcp2 Model_Tcp2Exec.
Import ListNotations.
Open Scope Z_scope.

(* A schedule tells for each step which process does it. It is fair if every process gets its turn
   again and again. *)
Definition Within (N : Z) (sched : nat -> Z) : Prop := forall k, 0 <= sched k < N.
Definition Fair (N : Z) (sched : nat -> Z) : Prop := forall p n, 0 <= p < N -> exists k, (n <= k)%nat /\ sched k = p.
Definition steps (sched : nat -> Z) (n : nat) : list Z := map sched (seq 0 n).

(* With every schedule no process fails; with every fair schedule, all processes have done all
   after some time; and then [Q] holds for the memory of each process, all messages were received,
   and all permissions to send were used. *)
Definition TcpEnds (rd : redop -> list Z -> list Z -> outcome (list Z)) (gen : bool) (bin : Z -> Z -> bool) (sp : space) (N : Z) (s0 : tnet) (Q : Z -> mem -> Prop) : Prop :=
  forall sched, Within N sched ->
    (forall n, exists s, trun rd gen bin sp s0 (steps sched n) = Ok s /\
      (tdone N s = true -> forall p, 0 <= p < N -> Q p (tq_mem (tn_proc s p)) /\
         forall q, 0 <= q < N -> tn_wire s p q = [] /\ fst (tn_perm s p q) = 0)) /\
    (Fair N sched -> exists n, forall k, (n <= k)%nat -> exists s, trun rd gen bin sp s0 (steps sched k) = Ok s /\ tdone N s = true).

(* The largest elements which can be sent (C51): 8189 bytes in binary mode, 9 bytes as text *)
Definition FitsTcp (bin : Z -> Z -> bool) (es : Z) : Prop := forall a q, if bin a q then es <= 8189 else es <= 9.
