(* Processes executing their action sequences at the same time: the loop of
   src/backend-mpi.c laik_mpi_exec (735-955) on every process of a group. A message is
   appended to the stream from sender to receiver and can be received from then on: MPI keeps
   the order of the messages between two processes with the same tag and communicator.
   Simplification: sending does not wait for the receiver. This is what the asynchronous
   messages of the default configuration do (see C33); that blocking messages do not wait
   for each other in a cycle is C29. Streams of reductions over groups (Grp, Coll) are not
   connected: a process needing data from them does not go on. *)
From Coq Require Import ZArith List Bool Lia.
From Verif Require Import Base Model_Space Model_Mem Model_Transition Model_Action Model_ActionTrans Model_ActionExec.
Import ListNotations.
Open Scope Z_scope.

(* a process: what it still has to do, and its state; a group of processes, by rank *)
Record proc := mkProc { pr_code : list instr; pr_st : pst }.
Definition net := Z -> proc.

(* bytes sent by instruction i to process q *)
Definition sent (i : instr) (m : mem) (q : Z) : list Z :=
  match i_out i with Some (Peer t) => if t =? q then i_send i m else [] | _ => [] end.
Definition deliver (p : Z) (bs : Z -> list Z) (x : net) : net := fun q =>
  mkProc (pr_code (x q))
    (mkP (p_mem (pr_st (x q)))
         (fun ch => if on ch (Some (Peer p)) then p_in (pr_st (x q)) ch ++ bs q else p_in (pr_st (x q)) ch)
         (p_out (pr_st (x q)))).
Definition upd (x : net) (p : Z) (v : proc) : net := fun q => if q =? p then v else x q.

(* process p executes its next instruction, if it does not have to wait *)
Definition nexec (p : Z) (x : net) : option net :=
  match pr_code (x p) with
  | [] => None
  | i :: l =>
      match exec_i i (pr_st (x p)) with
      | None => None
      | Some s' => Some (deliver p (sent i (p_mem (pr_st (x p)))) (upd x p (mkProc l s')))
      end
  end.
(* an execution: in which order the processes execute their instructions *)
Fixpoint nrun (sched : list Z) (x : net) : option net :=
  match sched with
  | [] => Some x
  | p :: sched' => match nexec p x with Some y => nrun sched' y | None => None end
  end.

(* the program of a process: its actions in the order of their rounds, see exec_seq *)
Definition program (d : action -> instr) (acts : list action) : list instr :=
  map d (flat_map (fun k => filter (in_rd k) acts) (map Z.of_nat (seq 0 255))).
(* at the start, nothing is sent yet *)
Definition nstart (code : Z -> list instr) (m : Z -> mem) : net :=
  fun p => mkProc (code p) (mkP (m p) (fun _ => []) (fun _ => [])).
