(* Vocabulary for C56: a switch with the MPI backend, with all its transformations of messages. *)
From Coq Require Import ZArith List.
From Verif Require Import Base Model_Space Model_Mem Model_Type Model_RangeList Model_Layout Model_Partitioner Model_Transition Model_Data Model_Switch Model_Action Model_ActionTrans Model_ActionExec Model_Net Model_MpiPrepare.
From Verif Require Import Spec_Space Spec_ActionTrans Spec_RangeList Spec_Partitioner Spec_Type Spec_Layout Spec_Data Spec_Transition Spec_Net Spec_Switch.
Import ListNotations.
Open Scope Z_scope.

(* no reductions needed: each index used before or after has exactly one owner before *)
Definition OneOwner (fl tl : rlist) : Prop := forall i t, Owns fl t i \/ Owns tl t i -> exists s, OnlyOwner fl s i.

(* number of elements a process sends and receives *)
Definition width (b : box) : Z := i0 (b_to b) - i0 (b_from b).
Definition Moved (o : tops) : Z :=
  fold_right Z.add 0 (map (fun x => width (sd_box x)) (tp_send o)) + fold_right Z.add 0 (map (fun x => width (rc_box x)) (tp_recv o)).

(* the buffers do not overlap with memory blocks in use: address and size for both *)
Definition BuffersApart (bufs used : list (Z * Z)) : Prop := forall b u, In b bufs -> In u used -> AwayB b u.

(* at most one message to, and one from each other process: [to] and [from] count the actions for
   sending to and receiving from process q *)
Definition to_q (q : Z) (a : action) : bool := match a_par a with BufSend _ _ t | MpiIsend _ _ t _ => t =? q | _ => false end.
Definition from_q (q : Z) (a : action) : bool := match a_par a with BufRecv _ _ f | MpiIrecv _ _ f _ => f =? q | _ => false end.
Definition OneMessage (acts : list action) : Prop :=
  forall q, (length (filter (to_q q) acts) <= 1)%nat /\ (length (filter (from_q q) acts) <= 1)%nat.

(* an execution in which no message has to be buffered: a process only sends when the receiver is
   at a receive from it (MPI_Send may wait for that) *)
Definition CanSend (p : Z) (x : net) : Prop := forall i c t, pr_code (x p) = i :: c -> i_out i = Some (Peer t) ->
  exists j c', pr_code (x t) = j :: c' /\ i_in j = Some (Peer p).
Fixpoint Unbuffered (sched : list Z) (x : net) : Prop :=
  match sched with
  | [] => True
  | p :: sched' => CanSend p x /\ forall y, nexec p x = Some y -> Unbuffered sched' y
  end.
(* every execution, also one in which messages were buffered, can go on without further buffering until
   all processes are done, and then Q holds *)
Definition AlwaysEndsUnbuffered (N : Z) (x : net) (Q : Z -> pst -> Prop) : Prop :=
  forall sched y, Sched N sched -> nrun sched x = Some y ->
    (exists sched' z, Sched N sched' /\ nrun sched' y = Some z /\ Unbuffered sched' y /\ AllDone N z) /\
    (AllDone N y -> forall p, 0 <= p < N -> Q p (pr_st (y p))).

(* qsort sorts, whatever it does with equal elements *)
Record SortsOk (me : Z) (q : sorts) : Prop := {
  sq_1 : is_qsort cmp_rounds (so_rounds1 q);
  sq_2 : is_qsort (cmp2phase me) (so_2phases q);
  sq_3 : is_qsort cmp_rounds (so_rounds2 q) }.

(* what holds on process p after the switch, with new mappings tp and memory st after the messages *)
Definition SwitchDone (d : dcont) (fl tl : rlist) (x : Z -> proc) (bufs : list (Z * Z)) (tp : mlist) (p : Z) (st : mem) : Prop :=
  forall gen ini, exists m' fr, do_transition gen d ini (fun _ _ _ => Ok st) (pc_addr (x p)) (pc_ops (x p)) (Some (pc_old (x p))) (pc_next (x p)) (pc_mem (x p)) = Ok (tp, m', fr) /\
    GoodList (dc_space d) (dc_es d) tp /\ Covers tl p tp /\
    (forall i, Owns tl p i -> exists s v, OnlyOwner fl s i /\ Holds (dc_es d) fl s (pc_old (x s)) (pc_mem (x s)) i v /\ Holds (dc_es d) tl p tp m' i v) /\
    (forall a, (forall b, In b (blocks tp) -> ~ region (fst b) (snd b) a) -> (forall b, In b bufs -> ~ region (fst b) (snd b) a) -> m' a = pc_mem (x p) a).
