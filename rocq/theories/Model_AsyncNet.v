(* Processes executing sequences with asynchronous messages at the same time: the loop of
   src/backend-mpi.c laik_mpi_exec (735-955) on every process of a group, with the actions MpiReq,
   MpiIsend, MpiIrecv and MpiWait (745-785).
   - MPI_Isend and MPI_Irecv return at once. MPI reads the buffer of a send, and writes the
     buffer of a receive, at any time before the MPI_Wait for the request returns.
   - The messages between two processes are matched in the order in which they are started
     (always the same tag and communicator): the k-th receive with the k-th send.
   - An MPI library may complete a send before the receive is started (it buffers the bytes), or
     not: [strict].
   Simplification: reading or writing a buffer is one step. Blocking messages and reductions are
   not part of this network: a process does not go on there. *)
From Coq Require Import ZArith List Bool.
From Verif Require Import Base Model_Space Model_Mem Model_Transition Model_Action Model_ActionTrans Model_ActionExec Model_Async.
Import ListNotations.
Open Scope Z_scope.

(* a request (MPI_Request): a send of n bytes from address buf to a process; the k-th receive from
   a process, up to n bytes to address buf; done *)
Inductive nrq := NSend (buf n to : Z) | NRecv (buf n from : Z) (k : nat) | NDone.

(* a process: what it still has to do, memory, messages it started to send to each process, the
   MPI_Request array, number of receives started from each process *)
Record node := mkNode { nd_code : list apar; nd_mem : mem; nd_out : Z -> list slot; nd_rq : Z -> option nrq; nd_got : Z -> nat }.
Definition anet := Z -> node.

Definition setz {A} (f : Z -> A) (k : Z) (v : A) : Z -> A := fun j => if j =? k then v else f j.

Section Net.
  Variable es : Z.                     (* element size *)
  Variable d : Z -> apar -> instr.     (* what the other actions do, on each process *)

  (* process p executes its next action; None: it has to wait, or is done *)
  Definition node_run (p : Z) (v : node) : option node :=
    match nd_code v with
    | [] => None
    | a :: l =>
        match a with
        | MpiReq _ => Some (mkNode l (nd_mem v) (nd_out v) (nd_rq v) (nd_got v))
        | MpiIsend b c t q =>
            Some (mkNode l (nd_mem v) (setz (nd_out v) t (nd_out v t ++ [Waiting q])) (setz (nd_rq v) q (Some (NSend b (c * es) t))) (nd_got v))
        | MpiIrecv b c f q =>
            Some (mkNode l (nd_mem v) (nd_out v) (setz (nd_rq v) q (Some (NRecv b (c * es) f (nd_got v f)))) (setz (nd_got v) f (S (nd_got v f))))
        | MpiWait q =>
            match nd_rq v q with Some NDone => Some (mkNode l (nd_mem v) (nd_out v) (nd_rq v) (nd_got v)) | _ => None end
        | a =>
            match i_in (d p a), i_out (d p a) with
            | None, None => Some (mkNode l (i_write (d p a) (nd_mem v) []) (nd_out v) (nd_rq v) (nd_got v))
            | _, _ => None
            end
        end
    end.

  (* position of the message of request q among the messages started *)
  Fixpoint slot_of (q : Z) (l : list slot) : nat :=
    match l with
    | [] => 0
    | Waiting k :: l' => if k =? q then 0%nat else S (slot_of q l')
    | _ :: l' => S (slot_of q l')
    end.

  (* MPI completes a send of process p. [strict]: only if the receive was started *)
  Definition node_sent (strict : bool) (x : anet) (p q : Z) : option node :=
    let v := x p in
    match nd_rq v q with
    | Some (NSend b n t) =>
        if negb strict || (slot_of q (nd_out v t) <? nd_got (x t) p)%nat then
          Some (mkNode (nd_code v) (nd_mem v) (fun u => map (fill q (rdb (nd_mem v) b n)) (nd_out v u)) (setz (nd_rq v) q (Some NDone)) (nd_got v))
        else None
    | _ => None
    end.

  (* MPI completes a receive of process p. A longer message than expected is an error. *)
  Definition node_recvd (x : anet) (p q : Z) : option node :=
    let v := x p in
    match nd_rq v q with
    | Some (NRecv b n f k) =>
        match nth_error (nd_out (x f) p) k with
        | Some (Filled bs) =>
            if Z.of_nat (length bs) <=? n
            then Some (mkNode (nd_code v) (mwrite (nd_mem v) b bs) (nd_out v) (setz (nd_rq v) q (Some NDone)) (nd_got v))
            else None
        | _ => None
        end
    | _ => None
    end.

  (* what can happen: a process executes its next action, MPI completes request q of a process *)
  Inductive event := Run (p : Z) | Sent (p q : Z) | Recvd (p q : Z).
  Definition at_proc (e : event) : Z := match e with Run p | Sent p _ | Recvd p _ => p end.
  Definition happen (strict : bool) (e : event) (x : anet) : option anet :=
    match match e with Run p => node_run p (x p) | Sent p q => node_sent strict x p q | Recvd p q => node_recvd x p q end with
    | Some v => Some (setz x (at_proc e) v)
    | None => None
    end.
  Fixpoint arun (strict : bool) (es : list event) (x : anet) : option anet :=
    match es with
    | [] => Some x
    | e :: es' => match happen strict e x with Some y => arun strict es' y | None => None end
    end.
End Net.

(* nothing is started *)
Definition astart (code : Z -> list apar) (m : Z -> mem) : anet :=
  fun p => mkNode (code p) (m p) (fun _ => []) (fun _ => None) (fun _ => 0%nat).
