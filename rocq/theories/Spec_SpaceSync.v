(* Vocabulary for shared index spaces (C61) *)
From Coq Require Import ZArith List Bool.
From Verif Require Import Base Model_Space Model_KVS Spec_KVS Model_SpaceStore Spec_SpaceStore Model_SpaceSync.
Import ListNotations.
Open Scope Z_scope.

(* what a user may pass: names are C strings, borders are 64-bit integers *)
Definition SpOpOk (o : spop) : Prop :=
  match o with
  | PPublish name s => KeyOk name /\ Space64 s
  | PChange name d f t => KeyOk name /\ Index64 f /\ Index64 t
  | PGet name => KeyOk name
  end.
(* memory holds 64-bit integers *)
Definition MemOk (mem : list Z -> nat * (option nat * box)) : Prop :=
  forall k, Index64 (b_from (snd (snd (mem k)))) /\ Index64 (b_to (snd (snd (mem k)))).

(* the states of [n] processes reached by any number of rounds of calls, each followed by laik_sync_spaces *)
Inductive SpWorld (qj : list jentry -> list jentry) (q : list kentry -> list kentry) (n : nat) : list (store * sobjs) -> Prop :=
| SpWorld_new s mems : kvs_new = Ok s -> length mems = n -> Forall MemOk mems -> SpWorld qj q n (map (fun m => (s, mkSos (fun _ => None) m)) mems)
| SpWorld_round w ops w1 w' : SpWorld qj q n w -> length ops = n -> Forall (Forall SpOpOk) ops ->
    exec_sps w ops = Ok w1 -> sync_spaces qj q w1 = Ok w' -> SpWorld qj q n w'.

(* the space a process gets for a name *)
Definition Gets (x : store * sobjs) (name : list Z) (o : option sobj) : Prop := exists x', get_space name x = Ok (x', o).
(* the same index space, or none for both *)
Definition SameOpt (a b : option sobj) : Prop :=
  match a, b with Some s, Some t => SameSpace s t | None, None => True | _, _ => False end.
