(* Specification vocabulary for switches of programs with one process *)
From Coq Require Import ZArith List.
From Verif Require Import Base Model_Space Spec_Space Model_RangeList Spec_RangeList Spec_Partitioner Model_Transition Spec_Transition.
Import ListNotations.
Open Scope Z_scope.

(* The process owns index [i] after the switch only if it owns it before: nothing is missing *)
Definition NothingNew (fl tl : rlist) : Prop := forall i, Owns tl 0 i -> Owns fl 0 i.

(* a reduction of the program itself, not given to laik *)
Definition Custom (red : redop) : Prop := exists n, red = RO_Custom n.

(* index [i] is copied within the process *)
Definition CopiedLocally (d : nat) (o : tops) (i : index) : Prop := exists x, In x (tp_local o) /\ InBox d i (lo_box x).

(* there is nothing for the backend to do *)
Record Silent (o : tops) : Prop := { si_send : tp_send o = []; si_recv : tp_recv o = []; si_red : tp_red o = []; si_init : tp_init o = [] }.
