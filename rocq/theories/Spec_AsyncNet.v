(* Vocabulary for C57: executions of processes with asynchronous messages. *)
From Coq Require Import ZArith List.
From Verif Require Import Base Model_Space Model_Mem Model_Transition Model_Action Model_ActionTrans Model_ActionExec Model_ActionExec2 Model_Type Model_Async Model_AsyncNet.
Import ListNotations.
Open Scope Z_scope.

Definition Events (N : Z) (es : list event) : Prop := forall e, In e es -> 0 <= at_proc e < N.
Definition AllEnded (N : Z) (x : anet) : Prop := forall p, 0 <= p < N -> nd_code (x p) = [].

(* no request is pending *)
Definition NonePending (v : node) : Prop := forall q, nd_rq v q = None \/ nd_rq v q = Some NDone.
(* each message started to another process was received: same number of sends and receives *)
Definition AllReceived (N : Z) (x : anet) : Prop :=
  forall p t, 0 <= p < N -> 0 <= t < N -> length (nd_out (x p) t) = nd_got (x t) p.

(* Every execution, in whichever order processes go on and requests get completed, also with buffering
   of messages:
   - has at most B steps,
   - can go on until all processes are done, even if MPI does not buffer any further message,
   - if all processes are done, no request is pending, all messages were received and Q holds. *)
Definition AlwaysEndsAsync (sz : Z) (d : Z -> apar -> instr) (N : Z) (x : anet) (Q : Z -> mem -> Prop) : Prop :=
  exists B, forall ev y, Events N ev -> arun sz d false ev x = Some y ->
    (length ev <= B)%nat /\
    (exists ev' z, Events N ev' /\ arun sz d true ev' y = Some z /\ AllEnded N z) /\
    (AllEnded N y -> AllReceived N y /\ forall p, 0 <= p < N -> NonePending (y p) /\ Q p (nd_mem (y p))).

(* what an action does which is not an asynchronous message *)
Definition local_i (cx : actx) (place : Z -> Z) (T : dtype) (oth : apar -> instr) (a : apar) : instr := den2 cx place T oth (mkAct 0 a).
