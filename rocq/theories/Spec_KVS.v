(* Vocabulary for the properties of the key-value store (C41-C43) *)
From Coq Require Import ZArith List Bool.
From Verif Require Import Base Model_KVS.
Import ListNotations.
Open Scope Z_scope.

(* a store as a user thinks of it: a map from keys to values *)
Definition kmap := list Z -> option (list Z).
Definition mput (m : kmap) (k : list Z) (v : option (list Z)) : kmap :=
  fun k' => if list_eq_dec Z.eq_dec k' k then v else m k'.

(* operations of one process on its store *)
Inductive kop :=
| OSet (k v : list Z)
| OSets (k str : list Z)
| ORemove (k : list Z)
| OClean
| OSort.

(* their effect on the map *)
Definition map_op (m : kmap) (o : kop) : kmap :=
  match o with
  | OSet k v => mput m k (Some v)
  | OSets k str => mput m k (Some (str ++ [0]))
  | ORemove k => mput m k None
  | OClean => fun _ => None
  | OSort => m
  end.

(* their execution by the model *)
Definition exec_op (q : list kentry -> list kentry) (s : store) (o : kop) : outcome store :=
  match o with
  | OSet k v => kvs_set s k v
  | OSets k str => kvs_sets s k str
  | ORemove k => do r <- kvs_remove s k; Ok (snd r)
  | OClean => kvs_clean s
  | OSort => Ok (kvs_sort q s)
  end.
Definition exec_ops (q : list kentry -> list kentry) (s : store) (h : list kop) : outcome store := ofold (exec_op q) h s.

(* keys are C strings: no zero byte *)
Definition KeyOk (k : list Z) : Prop := ~ In 0 k.

(* a class of values in which no value is a proper prefix of another one, e.g. C strings with
   their terminating zero, or blocks of equal size *)
Definition PrefixFree (V : list Z -> Prop) : Prop := forall v w t, V v -> V w -> w = v ++ t -> t = [].

(* operation with allowed key and value *)
Definition OpOk (V : list Z -> Prop) (o : kop) : Prop :=
  match o with
  | OSet k v => KeyOk k /\ V v
  | OSets k str => KeyOk k /\ V (str ++ [0])
  | ORemove k => KeyOk k
  | OClean | OSort => True
  end.

(* C strings with terminating zero *)
Definition CString (v : list Z) : Prop := exists str, ~ In 0 str /\ v = str ++ [0].

(* One round: every process executes its operations, then all call laik_kvs_sync (MPI backend) *)
Definition exec_all (q : list kentry -> list kentry) (w : list store) (ops : list (list kop)) : outcome (list store) :=
  ofold (fun acc p => do s <- exec_ops q (fst p) (snd p); Ok (acc ++ [s])) (combine w ops) [].
Definition exec_round (qj : list jentry -> list jentry) (q : list kentry -> list kentry) (w : list store) (ops : list (list kop))
  : outcome (list store) :=
  do w1 <- exec_all q w ops; kvs_sync_mpi qj q w1.

(* The states of [n] processes that are reached by any number of rounds from new stores *)
Inductive World (V : list Z -> Prop) (qj : list jentry -> list jentry) (q : list kentry -> list kentry) (n : nat) : list store -> Prop :=
| World_new s : kvs_new = Ok s -> World V qj q n (repeat s n)
| World_round w ops w' : World V qj q n w -> length ops = n -> Forall (Forall (OpOk V)) ops ->
    exec_round qj q w ops = Ok w' -> World V qj q n w'.

(* the store has the contents m *)
Definition Holds (s : store) (m : kmap) : Prop := forall k, kvs_get s k = Ok (m k).

(* bytes needed for a change: key with terminating zero, and value *)
Definition change_bytes (c : list Z * list Z) : Z := Z.of_nat (length (fst c)) + 1 + Z.of_nat (length (snd c)).
Definition total (l : list Z) : Z := fold_right Z.add 0 l.

(* steps of a program using the single backend: an operation or laik_kvs_sync *)
Inductive kstep := SOp (o : kop) | SSync.
Definition exec_step (q : list kentry -> list kentry) (s : store) (x : kstep) : outcome store :=
  match x with SOp o => exec_op q s o | SSync => kvs_sync_single q s end.
Definition map_step (m : kmap) (x : kstep) : kmap := match x with SOp o => map_op m o | SSync => m end.
Definition StepOk (V : list Z -> Prop) (x : kstep) : Prop := match x with SOp o => OpOk V o | SSync => True end.
