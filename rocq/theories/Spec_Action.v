(* Vocabulary for the properties of action sequences: messages, and how several processes
   execute their sequences. Does not use the helper functions of the model. *)
From Coq Require Import ZArith List Bool Lia Permutation Sorted.
From Verif Require Import Base Model_Transition Model_Action.
Import ListNotations.
Open Scope Z_scope.

(* ---- what an action does in communication ---- *)

(* an action sends to / receives from the given rank *)
Definition sends_to (q : Z) (a : action) : bool :=
  match a_par a with
  | MapSend _ _ _ t | BufSend _ _ t | RBufSend _ _ _ t | MapPackAndSend _ _ _ t | PackAndSend _ _ _ t => t =? q
  | _ => false
  end.
Definition recvs_from (q : Z) (a : action) : bool :=
  match a_par a with
  | MapRecv _ _ _ t | BufRecv _ _ t | RBufRecv _ _ _ t | MapRecvAndUnpack _ _ _ t | RecvAndUnpack _ _ _ t => t =? q
  | _ => false
  end.

(* number of elements in the message *)
Definition msg_count (a : action) : Z :=
  match a_par a with
  | MapSend _ _ c _ | BufSend _ c _ | RBufSend _ _ c _ | MapPackAndSend _ _ c _ | PackAndSend _ _ c _ => c
  | MapRecv _ _ c _ | BufRecv _ c _ | RBufRecv _ _ c _ | MapRecvAndUnpack _ _ c _ | RecvAndUnpack _ _ c _ => c
  | _ => 0
  end.

(* a collective operation: all processes take part *)
Definition collective (a : action) : bool :=
  match a_par a with Reduce _ _ _ _ _ => true | _ => false end.

(* actions which only work on memory of the process *)
Definition local_only (a : action) : bool :=
  match a_par a with
  | Halt | Nop | BufReserve _ _ _ | RBufLocalReduce _ _ _ _ _ | BufInit _ _ _
  | CopyFromBuf _ _ | CopyToBuf _ _ | CopyFromRBuf _ _ _ | CopyToRBuf _ _ _
  | MapPackToRBuf _ _ _ _ _ | PackToRBuf _ _ _ _ _ | MapPackToBuf _ _ _ _ | PackToBuf _ _ _ _
  | MapUnpackFromRBuf _ _ _ _ _ | UnpackFromRBuf _ _ _ _ _ | MapUnpackFromBuf _ _ _ _ | UnpackFromBuf _ _ _ _
  | BufCopy _ _ _ | RBufCopy _ _ _ _ => true
  | _ => false
  end.

(* the actions of one round *)
Definition in_round (r : Z) (a : action) : bool := a_round a =? r.

(* the messages of a sequence to rank q in round r, in the order of the sequence; from q *)
Definition sent (q r : Z) (l : list action) : list action := filter (fun a => sends_to q a && in_round r a) l.
Definition received (q r : Z) (l : list action) : list action := filter (fun a => recvs_from q a && in_round r a) l.

(* the same, for all rounds in ascending order (rounds are between 0 and 254) *)
Definition all_rounds : list Z := map Z.of_nat (seq 0 255).
Definition sent_all (q : Z) (l : list action) : list action := flat_map (fun r => sent q r l) all_rounds.
Definition received_all (q : Z) (l : list action) : list action := flat_map (fun r => received q r l) all_rounds.

(* ---- execution by n processes ---- *)

(* what the processes still have to do; messages which are on their way from p to q, oldest
   first; pairs of (send action, receive action) delivered from p to q so far, oldest first *)
Record conf := mkConf {
  todo : Z -> list action;
  wire : Z -> Z -> list action;
  dlv : Z -> Z -> list (action * action) }.

Definition set1 {A} (f : Z -> A) (p : Z) (x : A) : Z -> A := fun p' => if p' =? p then x else f p'.
Definition set2 {A} (f : Z -> Z -> A) (p q : Z) (x : A) : Z -> Z -> A :=
  fun p' q' => if (p' =? p) && (q' =? q) then x else f p' q'.

Definition start (prog : Z -> list action) : conf := mkConf prog (fun _ _ => []) (fun _ _ => []).

(* steps which are possible without any buffering of messages:
   - a local action
   - sender and receiver meet: the send and the receive complete together
   - a receive of a message which is on its way
   - a collective operation in which all processes have arrived *)
Inductive sync_step (n : Z) (c : conf) : conf -> Prop :=
| S_local p a l :
    0 <= p < n -> todo c p = a :: l -> local_only a = true ->
    sync_step n c (mkConf (set1 (todo c) p l) (wire c) (dlv c))
| S_meet p q a b l m :
    0 <= p < n -> 0 <= q < n -> p <> q ->
    todo c p = a :: l -> sends_to q a = true ->
    todo c q = b :: m -> recvs_from p b = true ->
    wire c p q = [] ->
    sync_step n c (mkConf (set1 (set1 (todo c) p l) q m) (wire c) (set2 (dlv c) p q (dlv c p q ++ [(a, b)])))
| S_arrive p q a b m w :
    0 <= p < n -> 0 <= q < n -> p <> q ->
    todo c q = b :: m -> recvs_from p b = true ->
    wire c p q = a :: w ->
    sync_step n c (mkConf (set1 (todo c) q m) (set2 (wire c) p q w) (set2 (dlv c) p q (dlv c p q ++ [(a, b)])))
| S_coll f :
    (forall p, 0 <= p < n -> exists a, todo c p = a :: f p /\ collective a = true) ->
    sync_step n c (mkConf (fun p => if (0 <=? p) && (p <? n) then f p else todo c p) (wire c) (dlv c)).

(* a send may also complete before the message is received *)
Inductive buf_step (n : Z) (c : conf) : conf -> Prop :=
| B_send p q a l :
    0 <= p < n -> 0 <= q < n -> p <> q ->
    todo c p = a :: l -> sends_to q a = true ->
    buf_step n c (mkConf (set1 (todo c) p l) (set2 (wire c) p q (wire c p q ++ [a])) (dlv c)).

(* all executions: any mix of the steps, in any order *)
Inductive run (n : Z) (c0 : conf) : nat -> conf -> Prop :=
| R_start : run n c0 0 c0
| R_sync k c c' : run n c0 k c -> sync_step n c c' -> run n c0 (S k) c'
| R_buf k c c' : run n c0 k c -> buf_step n c c' -> run n c0 (S k) c'.

Definition finished (n : Z) (c : conf) : Prop :=
  (forall p, 0 <= p < n -> todo c p = []) /\
  (forall p q, 0 <= p < n -> 0 <= q < n -> wire c p q = []).

(* number of actions still to do, over all processes *)
Definition work (n : Z) (c : conf) : nat :=
  list_sum (map (fun p => length (todo c (Z.of_nat p))) (seq 0 (Z.to_nat n))).

(* ---- sequences as they are given to the sort functions ---- *)

(* rounds are in the range of the header field; every action is local, collective or a
   message with another process *)
Definition SeqOk (n p : Z) (l : list action) : Prop :=
  forall a, In a l -> 0 <= a_round a < 255 /\
    (local_only a = true \/ collective a = true \/
     exists q, 0 <= q < n /\ q <> p /\ (sends_to q a = true \/ recvs_from q a = true)).

(* in each round the k-th message from p to q has a counterpart at q of the same number of
   elements, and all processes have the same number of collective operations *)
Definition Matching (n : Z) (seqs : Z -> list action) : Prop :=
  (forall p q r, 0 <= p < n -> 0 <= q < n -> p <> q ->
     map msg_count (sent q r (seqs p)) = map msg_count (received p r (seqs q))) /\
  (forall p q r, 0 <= p < n -> 0 <= q < n ->
     length (filter (fun a => collective a && in_round r a) (seqs p)) =
     length (filter (fun a => collective a && in_round r a) (seqs q))).

(* ---- reordering ---- *)

(* the action with its round changed *)
Definition renum (f : Z -> Z) (a : action) : action := mkAct (f (a_round a)) (a_par a).

(* l' has the actions of l (without the no-operations) with new round numbers: the rounds
   keep their order and do not merge, and their number does not exceed the old ones *)
Definition Renumbering (f : Z -> Z) (l : list action) : Prop :=
  (forall a b, In a l -> In b l -> a_round a < a_round b -> f (a_round a) < f (a_round b)) /\
  (forall a, In a l -> 0 <= f (a_round a) <= a_round a).
Definition not_nop (a : action) : bool := match a_par a with Nop => false | _ => true end.

(* rounds used without gaps from 0 on *)
Definition Dense (f : Z -> Z) (l : list action) : Prop :=
  forall a k, In a l -> 0 <= k <= f (a_round a) -> exists b, In b l /\ f (a_round b) = k.

(* what every sort function has to keep: r is the sorted sequence, ch tells if it was changed *)
Definition SortKeeps (l : list action) (ch : bool) (r : list action) (f : Z -> Z) : Prop :=
  Renumbering f l /\
  (* ascending rounds *)
  StronglySorted (fun a b => a_round a <= a_round b) r /\
  (* the same actions, each in its renumbered round *)
  Permutation (filter not_nop r) (map (renum f) (filter not_nop l)) /\
  (ch = false -> r = l) /\
  (ch = true -> Dense f l /\ forall b, In b r -> not_nop b = true) /\
  (* the messages of a round with the same partner keep their order *)
  (forall a t, In a l ->
     sent t (f (a_round a)) r = map (renum f) (sent t (a_round a) l) /\
     received t (f (a_round a)) r = map (renum f) (received t (a_round a) l)).

(* all actions of a round of a kind given by P keep their order *)
Definition KeepsOrder (P : action -> bool) (l r : list action) (f : Z -> Z) : Prop :=
  forall a, In a l ->
    filter (fun b => P b && in_round (f (a_round a)) b) r =
    map (renum f) (filter (fun b => P b && in_round (a_round a) b) l).

(* neither a message nor a no-operation *)
Definition other (a : action) : bool := not_nop a && negb (isSend a || isRecv a).
