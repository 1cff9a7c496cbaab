(* Execution of an action sequence by one process: src/backend-mpi.c laik_mpi_exec (681-940).
   MPI messages between two processes keep their order, so what a process sees is, for each
   partner, a stream of bytes it receives, and what it does is to write its memory and to
   append to the streams of bytes it sends. Reductions over a group are streams, too: the
   process appends its input, and takes the result from a stream of results. How the streams
   of different processes belong together is said in the theorems. *)
From Coq Require Import ZArith List Bool Lia.
From Verif Require Import Base Model_Space Model_Mem Model_Transition Model_Action Model_ActionTrans.
Import ListNotations.
Open Scope Z_scope.

(* partner of a communication: a process, the processes of a group reduction (input group,
   output group, operation), all processes (root or -1, operation) *)
Inductive chan := Peer (p : Z) | Grp (i o : Z) (r : redop) | Coll (root : Z) (r : redop).

(* what an action does: take i_take bytes from stream i_in, append to stream i_out, write
   memory (given the bytes taken) *)
Record instr := mkI {
  i_in : option chan; i_take : Z;
  i_out : option chan; i_send : mem -> list Z;
  i_write : mem -> list Z -> mem }.
Definition skip : instr := mkI None 0 None (fun _ => []) (fun m _ => m).

(* memory, bytes still to come in, bytes sent so far *)
Record pst := mkP { p_mem : mem; p_in : chan -> list Z; p_out : chan -> list Z }.

Definition chan_eq_dec (a b : chan) : {a = b} + {a <> b}.
Proof. repeat decide equality. Defined.
Definition on (c : chan) (o : option chan) : bool :=
  match o with Some d => if chan_eq_dec c d then true else false | None => false end.

Definition bytes (n : Z) : nat := Z.to_nat n.
Definition rdb (m : mem) (p n : Z) : list Z := mread m p (bytes n).

(* memcpy for each copy entry. Overlapping areas are not treated as undefined here. *)
Definition copy_to (ce : list centry) (buf : Z) (m : mem) : mem :=
  fold_left (fun m e => mwrite m (buf + ce_off e) (rdb m (ce_ptr e) (ce_bytes e))) ce m.
Definition copy_from (ce : list centry) (buf : Z) (m : mem) : mem :=
  fold_left (fun m e => mwrite m (ce_ptr e) (rdb m (buf + ce_off e) (ce_bytes e))) ce m.

Definition ing (cx : actx) (g : Z) : bool := match in_group cx g with Ok b => b | _ => false end.

(* place: address of a buffer or reservation. oth: all actions not given here. *)
Section Den.
  Variable cx : actx.
  Variable place : Z -> Z.
  Variable oth : apar -> instr.

  Definition send_i (buf count t : Z) : instr :=
    mkI None 0 (Some (Peer t)) (fun m => rdb m buf (count * cx_es cx)) (fun m _ => m).
  Definition recv_i (buf count f : Z) : instr :=
    mkI (Some (Peer f)) (count * cx_es cx) None (fun _ => []) (fun m bs => mwrite m buf bs).
  (* backend-mpi.c:522-558 laik_mpi_exec_reduce: input from all, output to root or all *)
  Definition reduce_i (from to count root : Z) (r : redop) : instr :=
    let out := (root =? cx_me cx) || (root =? -1) in
    mkI (if out then Some (Coll root r) else None) (if out then count * cx_es cx else 0)
        (Some (Coll root r)) (fun m => rdb m from (count * cx_es cx))
        (fun m bs => if out then mwrite m to bs else m).
  Definition groupreduce_i (i o from to count : Z) (r : redop) : instr :=
    mkI (if ing cx o then Some (Grp i o r) else None) (if ing cx o then count * cx_es cx else 0)
        (if ing cx i then Some (Grp i o r) else None)
        (fun m => if ing cx i then rdb m from (count * cx_es cx) else [])
        (fun m bs => if ing cx o then mwrite m to bs else m).

  Definition den (a : action) : instr :=
    match a_par a with
    | BufReserve _ _ _ | Nop => skip
    | BufSend b c t => send_i b c t
    | BufRecv b c f => recv_i b c f
    | RBufSend id off c t => send_i (place id + off) c t
    | RBufRecv id off c f => recv_i (place id + off) c f
    | Reduce f t c root r => reduce_i f t c root r
    | RBufReduce id off c root r => reduce_i (place id + off) (place id + off) c root r
    | GroupReduce i o f t c r => groupreduce_i i o f t c r
    | RBufGroupReduce i o id off c r => groupreduce_i i o (place id + off) (place id + off) c r
    | CopyToBuf ce b => mkI None 0 None (fun _ => []) (fun m _ => copy_to ce b m)
    | CopyFromBuf ce b => mkI None 0 None (fun _ => []) (fun m _ => copy_from ce b m)
    | CopyToRBuf ce id off => mkI None 0 None (fun _ => []) (fun m _ => copy_to ce (place id + off) m)
    | CopyFromRBuf ce id off => mkI None 0 None (fun _ => []) (fun m _ => copy_from ce (place id + off) m)
    | p => oth p
    end.
End Den.

(* one step; None: not enough bytes in the stream *)
Definition exec_i (i : instr) (s : pst) : option pst :=
  let avail := match i_in i with Some c => p_in s c | None => [] end in
  if (Z.of_nat (length avail) <? i_take i) then None else
  let bs := firstn (bytes (i_take i)) avail in
  Some (mkP (i_write i (p_mem s) bs)
            (fun c => if on c (i_in i) then skipn (bytes (i_take i)) (p_in s c) else p_in s c)
            (fun c => if on c (i_out i) then p_out s c ++ i_send i (p_mem s) else p_out s c)).
Fixpoint exec_is (l : list instr) (s : pst) : option pst :=
  match l with
  | [] => Some s
  | i :: l' => match exec_i i s with Some s' => exec_is l' s' | None => None end
  end.

(* a sequence: rounds ascending, in a round the order of the list (see laik_aseq_sort_rounds) *)
Definition in_rd (r : Z) (a : action) : bool := a_round a =? r.
Fixpoint exec_rounds (d : action -> instr) (l : list action) (rs : list Z) (s : pst) : option pst :=
  match rs with
  | [] => Some s
  | r :: rs' => match exec_is (map d (filter (in_rd r) l)) s with Some s' => exec_rounds d l rs' s' | None => None end
  end.
Definition exec_seq (d : action -> instr) (l : list action) (s : pst) : option pst :=
  exec_rounds d l (map Z.of_nat (seq 0 255)) s.
