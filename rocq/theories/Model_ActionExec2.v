(* Execution of the actions on buffers which are not messages: src/backend-mpi.c:860-888 (packing)
   and 931-950 (copying, reducing, initialising). *)
From Coq Require Import ZArith List Bool Lia.
From Verif Require Import Base Model_Space Model_Mem Model_Type Model_Transition Model_Action Model_ActionTrans Model_ActionExec.
Import ListNotations.
Open Scope Z_scope.

(* an action which only changes memory *)
Definition local_i (w : mem -> mem) : instr := mkI None 0 None (fun _ => []) (fun m _ => w m).

(* What the actions do with the data type and with mappings is a parameter: redf, initf are
   the functions of the data type (type->reduce with out = first input, type->init) on the
   bytes of count elements; packf, unpackf are laik_exec_pack, laik_exec_unpack for a mapping
   (true: given by its number in the list of mappings) and a range, with an address. *)
Record dtype := mkDT {
  dt_red : redop -> Z -> list Z -> list Z -> list Z;
  dt_init : redop -> Z -> list Z;
  dt_pack : bool -> Z -> box -> Z -> mem -> mem;
  dt_unpack : bool -> Z -> box -> Z -> mem -> mem }.

(* type.c: the functions of the predefined integer and floating point types, on lists of bytes:
   in1 at address 0, where the result goes to, and in2 behind. The value for a reduction
   which is not defined (see C38) is arbitrary: in1. *)
Definition bytes_red (sz : Z) (red : mem -> option Z -> option Z -> option Z -> Z -> redop -> outcome mem)
    (o : redop) (c : Z) (a b : list Z) : list Z :=
  match red (mwrite (mwrite (fun _ => 0) 0 a) (c * sz) b) (Some 0) (Some 0) (Some (c * sz)) c o with
  | Ok m => rdb m 0 (c * sz) | _ => a end.
Definition bytes_init (sz : Z) (ini : mem -> Z -> Z -> redop -> outcome mem) (o : redop) (c : Z) : list Z :=
  match ini (fun _ => 0) 0 c o with Ok m => rdb m 0 (c * sz) | _ => rdb (fun _ => 0) 0 (c * sz) end.
Definition int_dt (T : itype) : dtype :=
  mkDT (bytes_red (Z.of_nat (it_size T)) (it_reduce T)) (bytes_init (Z.of_nat (it_size T)) (it_init T)) (fun _ _ _ _ m => m) (fun _ _ _ _ m => m).
Definition float_dt (F : ftype) : dtype :=
  mkDT (bytes_red (Z.of_nat (ft_size F)) (ft_reduce F)) (bytes_init (Z.of_nat (ft_size F)) (ft_init F)) (fun _ _ _ _ m => m) (fun _ _ _ _ m => m).

Section Den2.
  Variable cx : actx.
  Variable place : Z -> Z.        (* as->buf[bufID], or where a reservation will be *)
  Variable T : dtype.
  Variable oth : apar -> instr.

  (* backend-mpi.c:931-936 *)
  Definition localreduce_i (op : redop) (from to count : Z) : instr :=
    local_i (fun m => mwrite m to (dt_red T op count (rdb m to (count * cx_es cx)) (rdb m from (count * cx_es cx)))).
  (* backend-mpi.c:938-945 *)
  Definition copy_i (from to count : Z) : instr :=
    local_i (fun m => mwrite m to (rdb m from (count * cx_es cx))).
  (* backend-mpi.c:947-950 *)
  Definition init_i (op : redop) (to count : Z) : instr :=
    local_i (fun m => mwrite m to (dt_init T op count)).

  Definition oth2 (p : apar) : instr :=
    match p with
    | RBufLocalReduce op id off to c => localreduce_i op (place id + off) to c
    | RBufCopy id off to c => copy_i (place id + off) to c
    | BufCopy from to c => copy_i from to c
    | BufInit op to c => init_i op to c
    | PackToRBuf k rg id off _ => local_i (dt_pack T false k rg (place id + off))
    | PackToBuf k rg b _ => local_i (dt_pack T false k rg b)
    | MapPackToRBuf k rg id off _ => local_i (dt_pack T true k rg (place id + off))
    | MapPackToBuf k rg b _ => local_i (dt_pack T true k rg b)
    | UnpackFromRBuf id off k rg _ => local_i (dt_unpack T false k rg (place id + off))
    | UnpackFromBuf b k rg _ => local_i (dt_unpack T false k rg b)
    | MapUnpackFromRBuf id off k rg _ => local_i (dt_unpack T true k rg (place id + off))
    | MapUnpackFromBuf b k rg _ => local_i (dt_unpack T true k rg b)
    | p => oth p
    end.
  Definition den2 : action -> instr := den cx place oth2.
End Den2.
