(* Vocabulary for C33. *)
From Coq Require Import ZArith List Bool Lia Sorted.
From Verif Require Import Base Model_Space Model_Mem Model_Transition Model_Action Model_ActionTrans Model_ActionExec Model_Async Spec_ActionTrans.
Import ListNotations.
Open Scope Z_scope.

(* the meaning of the actions before the transformation: blocking messages *)
Definition sync_i (cx : actx) (o : apar -> instr) (p : apar) : instr :=
  match p with BufSend b c t => send_i cx b c t | BufRecv b c f => recv_i cx b c f | p => o p end.

(* what actions read and write *)
Definition ard (cx : actx) (rd : apar -> area) (p : apar) : area :=
  match p with BufSend b c _ => region b (c * cx_es cx) | BufRecv _ _ _ => fun _ => False | p => rd p end.
Definition awr (cx : actx) (wr : apar -> area) (p : apar) : area :=
  match p with BufRecv b c _ => region b (c * cx_es cx) | BufSend _ _ _ => fun _ => False | p => wr p end.

Definition is_mpi (p : apar) : Prop :=
  match p with MpiReq _ | MpiIsend _ _ _ _ | MpiIrecv _ _ _ _ | MpiWait _ => True | _ => False end.

(* What the transformation relies on. For an action i before another action j:
   - if i is a send, then j does not write what is sent,
   - if j is a receive, then i does not use the memory j writes, and if i takes bytes from the
     same partner, it is such a receive, too. *)
Record AsyncSafe (cx : actx) (o : apar -> instr) (rd wr : apar -> area) (l : list apar) : Prop := {
  sf_plain : forall p, In p l -> ~ is_mpi p;
  sf_frame : forall p, In p l -> (forall b c t, p <> BufSend b c t) -> (forall b c f, p <> BufRecv b c f) -> Frame (o p) (rd p) (wr p);
  sf_count : forall p, In p l -> match p with BufSend _ c _ | BufRecv _ c _ => 0 <= c | _ => True end;
  sf_pairs : ForallOrdPairs (fun i j =>
     (forall b c t, i = BufSend b c t -> apart (awr cx wr j) (ard cx rd i)) /\
     (forall b c f, j = BufRecv b c f -> apart (awr cx wr j) (ard cx rd i) /\ apart (awr cx wr j) (awr cx wr i) /\
        ((exists b' c', i = BufRecv b' c' f) \/ i_in (sync_i cx o i) <> Some (Peer f)))) l }.

(* ---- the shape of the result ---- *)

(* requests are numbered in the order of the messages, from q on *)
Definition is_m (p : apar) : bool := match p with BufSend _ _ _ | BufRecv _ _ _ => true | _ => false end.
Definition nextq (q : Z) (p : apar) : Z := if is_m p then q + 1 else q.
(* starting the receives *)
Fixpoint posts (q : Z) (l : list apar) : list apar :=
  match l with
  | [] => []
  | p :: l' => match p with BufRecv b c f => [MpiIrecv b c f q] | _ => [] end ++ posts (nextq q p) l'
  end.
(* in place of the messages: starting the sends, waiting for the receives *)
Fixpoint body (q : Z) (l : list apar) : list apar :=
  match l with
  | [] => []
  | p :: l' => match p with BufSend b c t => MpiIsend b c t q | BufRecv _ _ _ => MpiWait q | p => p end :: body (nextq q p) l'
  end.
(* waiting for the sends *)
Fixpoint waits (q : Z) (l : list apar) : list apar :=
  match l with
  | [] => []
  | p :: l' => match p with BufSend _ _ _ => [MpiWait q] | _ => [] end ++ waits (nextq q p) l'
  end.
Definition async_prog (l : list apar) : list apar :=
  MpiReq (Z.of_nat (length (filter is_m l))) :: posts 0 l ++ body 0 l ++ waits 0 l.

(* the result of a run: everything sent is known *)
Definition ResultIs (A : ast) (s : pst) : Prop :=
  (forall x, x_mem A x = p_mem s x) /\ (forall c, x_in A c = p_in s c) /\
  (forall c, exists bs, x_out A c = map Filled bs /\ concat bs = p_out s c).

(* the request an action is about *)
Definition req_of (p : apar) : option Z :=
  match p with MpiIsend _ _ _ q | MpiIrecv _ _ _ q | MpiWait q => Some q | _ => None end.
Definition starts (q : Z) (p : apar) : Prop :=
  match p with MpiIsend _ _ _ k | MpiIrecv _ _ _ k => k = q | _ => False end.

(* ascending rounds *)
Definition by_round (l : list action) : Prop := StronglySorted (fun a b => a_round a <= a_round b) l.
