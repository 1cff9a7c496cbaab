(* A 1d container of a group of processes over its life: writes of the program to its own part,
   and switches to other partitionings (src/data.c:1292-1350 laik_switchto_partitioning and
   laik_switchto_flow, data.c:1189-1209 laik_exec_transition, data.c:779-872 doTransition). *)
From Coq Require Import ZArith List Bool.
From Verif Require Import Base Model_Space Model_RangeList Model_Mem Model_Layout Model_Partitioner Model_Group Model_Transition Model_Data
  Model_Action Model_ActionTrans Model_ActionExec Model_ActionExec2 Model_Net Model_Switch.
Import ListNotations.
Open Scope Z_scope.

(* data.h, data.c:43-60 struct _Laik_Data, for all processes: ranges of the active partitioning,
   active mappings and memory of each process *)
Record cstate := mkC { c_l : rlist; c_maps : Z -> mlist; c_mem : Z -> mem }.

(* What a process has for a switch: the new mappings (prepareMaps), the two partitionings, the
   calculated transition, the addresses given by the allocator and used for temporary buffers,
   and the meaning of actions which do not occur *)
Record join := mkJoin {
  j_next : mlist; j_from : npart; j_to : npart; j_ops : tops;
  j_addr : Z -> Z; j_place : Z -> Z; j_oth : apar -> instr }.

(* data.c:1318-1325, 779-826: up to the execution of the messages *)
Definition switch_begin (d : dcont) (N p : Z) (old : mlist) (j : join) : outcome (mlist * actx * list action) :=
  switch_start d N p (j_addr j) (j_ops j) (Some old) (j_next j).
(* data.c:826 the messages of all processes *)
Definition switch_net (T : dtype) (js : Z -> join) (cx : Z -> actx) (acts : Z -> list action) (m : Z -> mem) : net :=
  nstart (fun p => program (den2 (cx p) (j_place (js p)) T (j_oth (js p))) (acts p)) m.
(* data.c:826-872, 1334-1336: the rest, with the memory [m1] after the messages. Result: the
   mappings which are active then, the memory, the addresses freed *)
Definition switch_finish (gen : bool) (d : dcont) (ini : mem -> Z -> Z -> redop -> outcome mem) (old : mlist) (j : join) (m m1 : mem)
    : outcome (mlist * mem * list Z) :=
  do_transition gen d ini (fun _ _ _ => Ok m1) (j_addr j) (j_ops j) (Some old) (j_next j) m.
(* data.c:1318-1336 for a container without a partitioning: no messages *)
Definition switch_first (gen : bool) (d : dcont) (ini : mem -> Z -> Z -> redop -> outcome mem) (j : join) (m : mem)
    : outcome (mlist * mem * list Z) :=
  do_transition gen d ini (fun _ _ m' => Ok m') (j_addr j) (j_ops j) None (j_next j) m.

(* The program stores value [v] at address [a] of process [p] (plain C assignment) *)
Definition store_at (s : cstate) (p a : Z) (v : list Z) : cstate :=
  mkC (c_l s) (c_maps s) (fun q => if q =? p then mwrite (c_mem s p) a v else c_mem s q).
