(* Specification vocabulary for reductions done by one collective operation of all processes *)
From Coq Require Import ZArith List Bool.
From Verif Require Import Base Model_Space Spec_Space Model_RangeList Spec_RangeList Model_Partitioner Model_Transition Spec_Transition Model_Action Model_ActionTrans.
Import ListNotations.
Open Scope Z_scope.

(* The process prepares the reduction [x] of its transition: the root of the collective
   operation it is replaced by (-1: all processes get the result), None if it is not replaced.
   (Round, buffers and number of elements do not matter, see C67_replaced.) *)
Definition collective (cx : actx) (x : redTOp) : option Z :=
  match allred_one cx (mkAct 0 (GroupReduce (rd_in x) (rd_out x) 0 0 1 (rd_redOp x))) with
  | Ok ([a], true) => match a_par a with Reduce _ _ _ root _ => Some root | _ => None end
  | _ => None
  end.
(* the collective operations of a process, in order: range, operation and root *)
Definition collectives (cx : actx) (o : tops) : list (box * redop * Z) :=
  flat_map (fun x => match collective cx x with Some r => [(rd_box x, rd_redOp x, r)] | None => [] end) (tp_red o).

(* a context for actions of the transition with operations [o] *)
Definition ContextOf (gsize : Z) (cx : actx) (o : tops) : Prop := cx_size cx = gsize /\ cx_groups cx = tp_groups o.
