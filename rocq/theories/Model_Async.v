(* Execution of asynchronous messages by one process: src/backend-mpi.c:745-785 (actions MpiReq,
   MpiIsend, MpiIrecv, MpiWait in laik_mpi_exec). MPI may read the buffer of a send and write
   the buffer of a receive at any time between the call which starts it and the end of
   MPI_Wait. Messages of two processes are matched in the order in which the operations are
   started (the tag is always the same). MPI_Wait returns when the operation is done. *)
From Coq Require Import ZArith List Bool Lia.
From Verif Require Import Base Model_Space Model_Mem Model_Transition Model_Action Model_ActionTrans Model_ActionExec.
Import ListNotations.
Open Scope Z_scope.

(* a part of the bytes sent to a partner: known, or still to be read for a request *)
Inductive slot := Filled (bs : list Z) | Waiting (q : Z).
(* a request: send from address buf, receive to address buf (bs: the bytes which the receive
   is matched with, or less if they never come), done *)
Inductive rq := RSend (buf n : Z) | RRecv (buf n : Z) (bs : list Z) | RDone.

(* memory, bytes still to come in, sent so far, the MPI_Request array *)
Record ast := mkX { x_mem : mem; x_in : chan -> list Z; x_out : chan -> list slot; x_rq : Z -> option rq }.

Definition setc {A} (f : chan -> A) (c : chan) (v : A) : chan -> A := fun d => if chan_eq_dec d c then v else f d.
Definition setq (f : Z -> option rq) (q : Z) (v : rq) : Z -> option rq := fun k => if k =? q then Some v else f k.

Section Async.
  Variable es : Z.
  Variable d : apar -> instr.   (* what the other actions do *)

  (* the next action; None: it has to wait *)
  Definition do_op (p : apar) (A : ast) : option ast :=
    match p with
    | MpiReq _ => Some A
    | MpiIsend b c t q =>
        Some (mkX (x_mem A) (x_in A) (setc (x_out A) (Peer t) (x_out A (Peer t) ++ [Waiting q])) (setq (x_rq A) q (RSend b (c * es))))
    | MpiIrecv b c f q =>
        let n := bytes (c * es) in
        Some (mkX (x_mem A) (setc (x_in A) (Peer f) (skipn n (x_in A (Peer f)))) (x_out A)
                  (setq (x_rq A) q (RRecv b (c * es) (firstn n (x_in A (Peer f))))))
    | MpiWait q => match x_rq A q with Some RDone => Some A | _ => None end
    | p =>
        let i := d p in
        match exec_i i (mkP (x_mem A) (x_in A) (fun _ => [])) with
        | None => None
        | Some s => Some (mkX (p_mem s) (p_in s)
                      (fun c => if on c (i_out i) then x_out A c ++ [Filled (i_send i (x_mem A))] else x_out A c) (x_rq A))
        end
    end.

  Definition fill (q : Z) (bs : list Z) (s : slot) : slot :=
    match s with Waiting k => if k =? q then Filled bs else s | _ => s end.

  (* a step: the process executes its next action, or MPI completes a request *)
  Inductive astep : list apar * ast -> list apar * ast -> Prop :=
  | st_run p l A A' : do_op p A = Some A' -> astep (p :: l, A) (l, A')
  | st_send l A q b n : x_rq A q = Some (RSend b n) ->
      astep (l, A) (l, mkX (x_mem A) (x_in A) (fun c => map (fill q (rdb (x_mem A) b n)) (x_out A c)) (setq (x_rq A) q RDone))
  | st_recv l A q b n bs : x_rq A q = Some (RRecv b n bs) -> Z.of_nat (length bs) = n ->
      astep (l, A) (l, mkX (mwrite (x_mem A) b bs) (x_in A) (x_out A) (setq (x_rq A) q RDone)).

  Inductive asteps : list apar * ast -> list apar * ast -> Prop :=
  | as_refl c : asteps c c
  | as_step c c' c'' : astep c c' -> asteps c' c'' -> asteps c c''.
End Async.

(* nothing is pending *)
Definition initial (s : pst) : ast := mkX (p_mem s) (p_in s) (fun c => [Filled (p_out s c)]) (fun _ => None).
