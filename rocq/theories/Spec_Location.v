(* Vocabulary for the property of location strings (C60) *)
From Coq Require Import ZArith List Bool.
From Verif Require Import Base Model_KVS Spec_KVS Model_Tcp2 Model_Tcp2Sync Spec_Tcp2Sync Model_Location.
Import ListNotations.
Open Scope Z_scope.

(* "location" *)
Definition location_name : list Z := [108; 111; 99; 97; 116; 105; 111; 110].

(* MPI: [ps] are location IDs and location strings (C strings, not empty) of all processes; there are [n] location IDs *)
Definition Processes (n : Z) (ps : list (Z * list Z)) : Prop :=
  n <= 10 ^ 9 /\ ps <> [] /\ NoDup (map fst ps) /\ forall lid str, In (lid, str) ps -> 0 <= lid < n /\ ~ In 0 str /\ str <> [].

(* TCP2: what process [p] of processes 0..N-1 does in a call of laik_sync_location before laik_kvs_sync *)
Definition loc_round (N : Z) (str : Z -> list Z) : round :=
  fun p => if (0 <=? p) && (p <? N) then [OSets (locationkey p) (str p)] else [].
(* [calls] calls of laik_sync_location by all processes. The store and the array are created in the first one. *)
Definition loc_start (N : Z) (str : Z -> list Z) (calls : nat) : outcome lnet :=
  do s <- snet_start (program (repeat (loc_round N str) calls)); Ok (mkLn s (fun _ => mkLocs N N (fun _ => None))).
(* location strings which fit into the messages of this backend (see C54) *)
Definition Fits (N : Z) (str : Z -> list Z) : Prop := forall p, 0 <= p < N -> ValueFits (locationkey p) (str p).
