(* Vocabulary for statements about all executions of a group of processes. *)
From Coq Require Import ZArith List Bool Lia.
From Verif Require Import Base Model_Space Model_Mem Model_Transition Model_Action Model_ActionTrans Model_ActionExec Model_Net.
Import ListNotations.
Open Scope Z_scope.

(* the processes 0 .. N-1 are the ones which can be scheduled *)
Definition Sched (N : Z) (sched : list Z) : Prop := forall p, In p sched -> 0 <= p < N.
Definition AllDone (N : Z) (x : net) : Prop := forall p, 0 <= p < N -> pr_code (x p) = [].

(* every execution, however the processes are scheduled, can go on until all processes are
   done, and then Q holds for each process and its state *)
Definition AlwaysEnds (N : Z) (x : net) (Q : Z -> pst -> Prop) : Prop :=
  forall sched y, Sched N sched -> nrun sched x = Some y ->
    (exists sched' z, Sched N sched' /\ nrun sched' y = Some z /\ AllDone N z) /\
    (AllDone N y -> forall p, 0 <= p < N -> Q p (pr_st (y p))).
