(* Vocabulary for C31: reservations of temporary memory, and references to it. *)
From Coq Require Import ZArith List Bool Lia.
From Verif Require Import Base Model_Space Model_Mem Model_Transition Model_Action Model_ActionTrans Model_ActionExec Model_ActionExec2.
Import ListNotations.
Open Scope Z_scope.

(* an ID below 5 is the number of a buffer which is already allocated *)
Definition is_new (id : Z) : bool := 5 <=? id.

(* the reservations of a sequence: ID and bytes *)
Definition reservation (a : action) : option (Z * Z) :=
  match a_par a with BufReserve n id _ => if is_new id then Some (id, n) else None | _ => None end.
Definition reservations (l : list action) : list (Z * Z) :=
  flat_map (fun a => match reservation a with Some x => [x] | None => [] end) l.
Definition bytes_of (rs : list (Z * Z)) : Z := fold_right Z.add 0 (map snd rs).

(* references: ID, offset and number of bytes; for copy entries see below *)
Definition reference (es : Z) (a : action) : option (Z * Z * Z) :=
  match a_par a with
  | RBufSend id o c _ | RBufRecv id o c _ | RBufCopy id o _ c | RBufLocalReduce _ id o _ c | RBufReduce id o c _ _
  | PackToRBuf _ _ id o c | UnpackFromRBuf id o _ _ c | MapPackToRBuf _ _ id o c | MapUnpackFromRBuf id o _ _ c
  | RBufGroupReduce _ _ id o c _ => Some (id, o, c * es)
  | _ => None
  end.
Definition copy_reference (a : action) : option (Z * Z * list centry) :=
  match a_par a with CopyFromRBuf ce id o | CopyToRBuf ce id o => Some (id, o, ce) | _ => None end.

(* the action after allocation: off tells where in the new buffer (which is at address buf and
   has number nbuf) the reservation with an ID starts *)
Definition placed (buf nbuf : Z) (off : Z -> Z) (a : action) : list action :=
  let at_ id o := buf + (off id + o) in
  match a_par a with
  | BufReserve _ _ _ | Nop => []
  | RBufSend id o c t => [mkAct (a_round a) (BufSend (at_ id o) c t)]
  | RBufRecv id o c f => [mkAct (a_round a) (BufRecv (at_ id o) c f)]
  | PackToRBuf k rg id o c => [mkAct (a_round a) (PackToBuf k rg (at_ id o) c)]
  | UnpackFromRBuf id o k rg c => [mkAct (a_round a) (UnpackFromBuf (at_ id o) k rg c)]
  | MapPackToRBuf k rg id o c => [mkAct (a_round a) (MapPackToBuf k rg (at_ id o) c)]
  | MapUnpackFromRBuf id o k rg c => [mkAct (a_round a) (MapUnpackFromBuf (at_ id o) k rg c)]
  | CopyFromRBuf ce id o => [mkAct (a_round a) (CopyFromBuf ce (at_ id o))]
  | CopyToRBuf ce id o => [mkAct (a_round a) (CopyToBuf ce (at_ id o))]
  | RBufReduce id o c root op => [mkAct (a_round a) (Reduce (at_ id o) (at_ id o) c root op)]
  | RBufGroupReduce i u id o c op => [mkAct (a_round a) (GroupReduce i u (at_ id o) (at_ id o) c op)]
  | RBufCopy id o t c => [mkAct (a_round a) (if is_new id then RBufCopy nbuf (off id + o) t c else RBufCopy id o t c)]
  | RBufLocalReduce op id o t c => [mkAct (a_round a) (if is_new id then RBufLocalReduce op nbuf (off id + o) t c else RBufLocalReduce op id o t c)]
  | _ => [a]
  end.

(* What is assumed: reservations have different IDs, sizes and offsets are not negative,
   and sizes fit into 32 bits, also the sum of the sizes of reservations. Only copying and
   reducing may refer to a buffer allocated before. Packing has the number of elements in
   the range as count. *)
Record Reserving (cx : actx) (l : list action) : Prop := {
  rv_ids : NoDup (map fst (reservations l));
  rv_size : forall id n, In (id, n) (reservations l) -> 0 <= n;
  rv_total : bytes_of (reservations l) < 2 ^ 32;
  rv_ref : forall a id o n, In a l -> reference (cx_es cx) a = Some (id, o, n) -> 0 <= o /\ 0 <= n < 2 ^ 32;
  rv_copy : forall a id o ce, In a l -> copy_reference a = Some (id, o, ce) -> 0 <= o /\ 0 <= Z.of_nat (length ce) * cx_es cx < 2 ^ 32;
  rv_old : forall a id, In a l -> is_new id = false ->
     (exists o n, reference (cx_es cx) a = Some (id, o, n)) \/ (exists o ce, copy_reference a = Some (id, o, ce)) ->
     match a_par a with RBufCopy _ _ _ _ | RBufLocalReduce _ _ _ _ _ => True | _ => False end;
  rv_pack : forall a, In a l ->
     match a_par a with
     | PackToRBuf _ rg _ _ c | UnpackFromRBuf _ _ _ rg c | MapPackToRBuf _ rg _ _ c | MapUnpackFromRBuf _ _ _ rg c =>
         box_size (cx_dims cx) rg = Ok c
     | _ => True
     end }.

(* what is needed for the allocation not to abort: IDs are given from 100 on, each is
   reserved before it is used, accesses are not empty and inside *)
Fixpoint Sound (es nres : Z) (seen : list (Z * Z)) (l : list action) : Prop :=
  match l with
  | [] => True
  | a :: l' =>
      match reservation a with
      | Some (id, n) => 100 <= id < 100 + nres /\ Sound es nres ((id, n) :: seen) l'
      | None =>
          (forall id o n, reference es a = Some (id, o, n) -> is_new id = true -> 0 < n /\ exists m, In (id, m) seen /\ o + n <= m) /\
          (forall id o ce, copy_reference a = Some (id, o, ce) -> is_new id = true -> ce <> [] /\ exists m, In (id, m) seen /\ o + Z.of_nat (length ce) * es <= m) /\
          Sound es nres seen l'
      end
  end.
