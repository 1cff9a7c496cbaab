(* Model of action sequences: src/action.c, include/laik/action-internal.h (actions, adding
   actions, sorting). The transformations are in Model_ActionTrans.v. *)
From Coq Require Import ZArith List Bool Lia.
From Verif Require Import Base Model_Space Model_Transition.
Import ListNotations.
Open Scope Z_scope.

(* action-internal.h:58-62 Laik_CopyEntry: address, offset into the buffer, bytes *)
Record centry := mkCE { ce_ptr : Z; ce_off : Z; ce_bytes : Z }.

(* include/laik/action.h:54-118 Laik_ActionType with the parameters of the action structs
   (action-internal.h:64-185, backend-mpi.c:99-171). Addresses are integers, ranges are boxes
   of the transition's space, mappings (the field map) are the position in the list of
   mappings. An array of copy entries (ce, count) is a list. LAIK_AT_Copy and
   LAIK_AT_Invalid are left out: no function adds them. *)
Inductive apar :=
| Halt | Nop | TExec
| BufReserve (size bufID offset : Z)
| MapSend (mapNo off count to : Z)
| BufSend (buf count to : Z)
| RBufSend (bufID off count to : Z)
| MapRecv (mapNo off count from : Z)
| BufRecv (buf count from : Z)
| RBufRecv (bufID off count from : Z)
| RBufLocalReduce (redOp : redop) (bufID off toBuf count : Z)
| BufInit (redOp : redop) (toBuf count : Z)
| CopyFromBuf (ce : list centry) (fromBuf : Z)
| CopyToBuf (ce : list centry) (toBuf : Z)
| CopyFromRBuf (ce : list centry) (bufID off : Z)
| CopyToRBuf (ce : list centry) (bufID off : Z)
| MapPackAndSend (mapNo : Z) (range : box) (count to : Z)
| PackAndSend (map : Z) (range : box) (count to : Z)
| MapPackToRBuf (mapNo : Z) (range : box) (bufID off count : Z)
| PackToRBuf (map : Z) (range : box) (bufID off count : Z)
| MapPackToBuf (mapNo : Z) (range : box) (toBuf count : Z)
| PackToBuf (map : Z) (range : box) (toBuf count : Z)
| MapRecvAndUnpack (mapNo : Z) (range : box) (count from : Z)
| RecvAndUnpack (map : Z) (range : box) (count from : Z)
| MapUnpackFromRBuf (bufID off : Z) (mapNo : Z) (range : box) (count : Z)
| UnpackFromRBuf (bufID off : Z) (map : Z) (range : box) (count : Z)
| MapUnpackFromBuf (fromBuf : Z) (mapNo : Z) (range : box) (count : Z)
| UnpackFromBuf (fromBuf : Z) (map : Z) (range : box) (count : Z)
| Reduce (fromBuf toBuf count root : Z) (redOp : redop)
| RBufReduce (bufID off count root : Z) (redOp : redop)
| MapGroupReduce (inG outG fromMapNo toMapNo : Z) (range : box) (count : Z) (redOp : redop)
| GroupReduce (inG outG fromBuf toBuf count : Z) (redOp : redop)
| RBufGroupReduce (inG outG bufID off count : Z) (redOp : redop)
| BufCopy (fromBuf toBuf count : Z)
| RBufCopy (bufID off toBuf count : Z)
| MpiReq (count : Z)
| MpiIrecv (buf count from req : Z)
| MpiIsend (buf count to req : Z)
| MpiWait (req : Z).

(* action-internal.h:46-52 the header. type and len follow from the parameters; tid is 0
   because a sequence has at most one transition context (ASEQ_CONTEXTS_MAX); mark is
   used by combineActions only, and kept there. *)
Record action := mkAct { a_round : Z; a_par : apar }.

(* action.c:130-162 laik_aseq_addAction: an action is appended to the new sequence. The
   sequence under construction is the result list of the callers. Memory for the sequence is
   always available. *)
Definition add_action (round : Z) (p : apar) : outcome action :=
  cassert (round <? 255) (Ok (mkAct round p)).

(* action.c:1061-1076 laik_aseq_add: copy an action, with another round if round >= 0 *)
Definition aseq_add (a : action) (round : Z) : outcome (list action) :=
  match a_par a with
  | Nop => Ok []
  | p => do x <- add_action (if round <? 0 then a_round a else round) p; Ok [x]
  end.

(* action.c:763-774 laik_action_isSend *)
Definition isSend (a : action) : bool :=
  match a_par a with
  | MapSend _ _ _ _ | BufSend _ _ _ | RBufSend _ _ _ _ | MapPackAndSend _ _ _ _ | PackAndSend _ _ _ _ => true
  | _ => false
  end.

(* action.c:776-787 laik_action_isRecv *)
Definition isRecv (a : action) : bool :=
  match a_par a with
  | MapRecv _ _ _ _ | BufRecv _ _ _ | RBufRecv _ _ _ _ | MapRecvAndUnpack _ _ _ _ | RecvAndUnpack _ _ _ _ => true
  | _ => false
  end.

(* action.c:1600-1620 getActionPeer; None: assert(0) *)
Definition getPeer (a : action) : option Z :=
  match a_par a with
  | RBufSend _ _ _ p | RBufRecv _ _ _ p | BufSend _ _ p | BufRecv _ _ p
  | MapPackAndSend _ _ _ p | MapRecvAndUnpack _ _ _ p
  | MapSend _ _ _ p | MapRecv _ _ _ p | PackAndSend _ _ _ p | RecvAndUnpack _ _ _ p => Some p
  | _ => None
  end.
Definition peer0 (a : action) : Z := match getPeer a with Some p => p | None => 0 end.

(* The sort functions sort an array of pointers to actions. A pointer is modelled by the
   position of the action in the sequence; the difference of two pointers has the same sign
   as the difference of the positions. *)
Definition aptr := (Z * action)%type.

(* action.c:1625-1667 cmp2phase *)
Definition phase2 (myid : Z) (a : action) : Z :=
  if isSend a then (if peer0 a <? myid then 3 else 2)
  else if isRecv a then (if peer0 a <? myid then 1 else 4)
  else 0.
Definition cmp2phase (myid : Z) (x y : aptr) : Z :=
  let a1 := snd x in let a2 := snd y in
  if negb (a_round a1 =? a_round a2) then a_round a1 - a_round a2 else
  let p1 := phase2 myid a1 in let p2 := phase2 myid a2 in
  if negb (p1 =? p2) then p1 - p2 else
  if (p1 >? 0) && negb (peer0 a1 =? peer0 a2) then peer0 a1 - peer0 a2
  else fst x - fst y.

(* action.c:1728-1735: the loop over the bits of an int (bits 0..31); result is the position
   of the first bit in which the ranks differ, 32 if there is none *)
Fixpoint low_diff (fuel : nat) (b : Z) (x y : Z) : Z :=
  match fuel with
  | O => b
  | S f => if negb (Bool.eqb (Z.testbit x b) (Z.testbit y b)) then b else low_diff f (b + 1) x y
  end.
Definition diffbit (x y : Z) : Z := low_diff 32 0 x y.

(* action.c:1714-1765 cmp_rankdigits, if it does not abort. With bit 32 the mask is 0. *)
Definition cmp_rankdigits (myid : Z) (x y : aptr) : Z :=
  let a1 := snd x in let a2 := snd y in
  if negb (a_round a1 =? a_round a2) then a_round a1 - a_round a2 else
  let sr1 := isSend a1 || isRecv a1 in
  let sr2 := isSend a2 || isRecv a2 in
  let p1 := if sr1 then 1 + diffbit (peer0 a1) myid else 0 in
  let p2 := if sr2 then 1 + diffbit (peer0 a2) myid else 0 in
  if negb (p1 =? p2) then p1 - p2 else
  if p1 >? 0 then
    let one := (p2 <=? 32) && Z.testbit myid (p2 - 1) in   (* (myid4cmp & mask) != 0 *)
    let s1 := if one then (if isSend a1 then 2 else 1) else (if isSend a1 then 1 else 2) in
    let s2 := if one then (if isSend a2 then 2 else 1) else (if isSend a2 then 1 else 2) in
    if negb (s1 =? s2) then s1 - s2 else
    if negb (peer0 a1 =? peer0 a2) then peer0 a1 - peer0 a2 else fst x - fst y
  else fst x - fst y.

(* action.c:1814-1826 cmp_rounds *)
Definition cmp_rounds (x y : aptr) : Z :=
  let a1 := snd x in let a2 := snd y in
  if negb (a_round a1 =? a_round a2) then a_round a1 - a_round a2 else fst x - fst y.

(* action.c:1580-1598 addResorted, after the first action: oldRound and newRound are the
   variables of the loop *)
Fixpoint resort_loop (oldRound newRound : Z) (l : list action) : outcome (list action) :=
  match l with
  | [] => Ok []
  | a :: l' =>
      cassert (oldRound <=? a_round a)
      (let nr := if oldRound <? a_round a then newRound + 1 else newRound in
       do x <- aseq_add a nr;
       do r <- resort_loop (a_round a) nr l';
       Ok (x ++ r))
  end.
Definition addResorted (l : list action) : outcome (list action) :=
  match l with
  | [] => Abort
  | a :: _ => resort_loop (a_round a) 0 l
  end.

(* the array "order" before sorting *)
Definition number (l : list action) : list aptr := combine (map Z.of_nat (seq 0 (length l))) l.

Fixpoint same_order (l1 l2 : list aptr) : bool :=
  match l1, l2 with
  | [], [] => true
  | x :: l1', y :: l2' => (fst x =? fst y) && same_order l1' l2'
  | _, _ => false
  end.

(* common part of action.c:1681-1712, 1778-1809, 1829-1857: q is the call of qsort. The
   result is the returned flag and the sequence afterwards. *)
Definition sort_with (q : list aptr -> list aptr) (as_ : list action) : outcome (bool * list action) :=
  match as_ with
  | [] => Ok (false, [])
  | _ =>
      let l := number as_ in
      let l' := q l in
      if same_order l l' then Ok (false, as_)
      else do r <- addResorted (map snd l'); Ok (true, r)
  end.

(* action.c:1681-1712 laik_aseq_sort_2phases; q sorts with cmp2phase *)
Definition sort_2phases (q : list aptr -> list aptr) (as_ : list action) : outcome (bool * list action) :=
  sort_with q as_.

(* action.c:1829-1857 laik_aseq_sort_rounds; q sorts with cmp_rounds *)
Definition sort_rounds (q : list aptr -> list aptr) (as_ : list action) : outcome (bool * list action) :=
  sort_with q as_.

(* action.c:1778-1809 laik_aseq_sort_rankdigits. cmp_rankdigits calls getActionPeer, which
   aborts for actions which are neither send nor receive, when it compares two actions of
   the same round. To sort the actions of a round, each of them has to be compared with
   another one of that round (if there are at least two). *)
Definition digit_abort (as_ : list action) : bool :=
  existsb (fun x => negb (isSend (snd x) || isRecv (snd x)) &&
             existsb (fun y => negb (fst x =? fst y) && (a_round (snd x) =? a_round (snd y))) (number as_))
          (number as_).
Definition sort_rankdigits (q : list aptr -> list aptr) (as_ : list action) : outcome (bool * list action) :=
  if digit_abort as_ then Abort else sort_with q as_.
