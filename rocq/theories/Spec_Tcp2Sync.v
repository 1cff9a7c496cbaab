(* Vocabulary for C54: synchronisation of key-value stores with the TCP2 backend *)
From Coq Require Import ZArith List Bool.
From Verif Require Import Base Model_KVS Model_SpaceStore Model_Tcp2 Spec_KVS Model_Tcp2Sync.
Import ListNotations.
Open Scope Z_scope.

(* names: up to 29 characters, without white space and control characters of the protocol *)
Definition NameFits (n : list Z) : Prop :=
  n <> [] /\ (length n <= 29)%nat /\ Forall (fun c => 0 < c < 256 /\ is_space c = false /\ c <> 4) n.
(* keys: up to 30 characters *)
Definition KeyFits (k : list Z) : Prop :=
  k <> [] /\ (length k <= 30)%nat /\ Forall (fun c => 0 < c < 256 /\ is_space c = false /\ c <> 4) k.
(* values: not empty, without leading white space, and with their key up to 89 characters *)
Definition ValueFits (k v : list Z) : Prop :=
  v <> [] /\ is_space (hd 0 v) = false /\ (length k + length v <= 89)%nat /\
  Forall (fun c => 0 < c < 256 /\ c <> 10 /\ c <> 13 /\ c <> 4) v.
(* operations of a process between synchronisations: values are set, and the store is sorted *)
Definition SetFits (o : kop) : Prop :=
  match o with OSets k v => KeyFits k /\ ValueFits k v | OSort => True | _ => False end.

(* A round: the operations of each process before a synchronisation. *)
Definition round := Z -> list kop.
Definition program (rounds : list round) (p : Z) : list kstep :=
  flat_map (fun r => map SOp (r p) ++ [SSync]) rounds.

(* the last value set for a key *)
Fixpoint last_set (h : list kop) (k : list Z) : option (list Z) :=
  match h with
  | [] => None
  | o :: h' =>
    match last_set h' k with
    | Some v => Some v
    | None => match o with OSets k' v => if list_eq_dec Z.eq_dec k k' then Some v else None | _ => None end
    end
  end.
(* If processes set the same key in a round, they set it to the same value *)
Definition NoConflict (N : Z) (r : round) : Prop :=
  forall p1 p2 k v1 v2, 0 <= p1 < N -> 0 <= p2 < N -> last_set (r p1) k = Some v1 -> last_set (r p2) k = Some v2 -> v1 = v2.

(* the contents when all operations are done on one store, round by round *)
Definition all_ops (N : Z) (r : round) : list kop := flat_map (fun p => r (Z.of_nat p)) (seq 0 (Z.to_nat N)).
Definition common (N : Z) (rounds : list round) : kmap := fold_left map_op (flat_map (all_ops N) rounds) (fun _ => None).

(* schedules *)
Definition sched_ok (N : Z) (sched : nat -> Z * sact) : Prop :=
  forall n, 0 <= fst (sched n) < N /\ match snd (sched n) with Go => True | Msg r => 0 <= r < N end.
Definition sfair (N : Z) (sched : nat -> Z * sact) : Prop :=
  forall p n, 0 <= p < N ->
    (exists k, (n <= k)%nat /\ sched k = (p, Go)) /\
    (forall r, 0 <= r < N -> exists k, (n <= k)%nat /\ sched k = (p, Msg r)).
Definition ssteps (sched : nat -> Z * sact) (n : nat) : list (Z * sact) := map sched (seq 0 n).
