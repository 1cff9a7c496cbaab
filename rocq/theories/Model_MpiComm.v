(* Model of MPI communicators of process groups (src/backend-mpi.c): one communicator per
   group, made by MPI_Comm_split when a group is created from another one *)
From Coq Require Import ZArith List Bool Lia.
From Verif Require Import Base Model_Space Model_RangeList Model_Partitioner Model_Group.
Import ListNotations.
Open Scope Z_scope.

(* A communicator: the world ranks of its processes; the MPI rank is the position. The
   empty list is MPI_COMM_NULL. *)
Definition comm := list Z.

(* A process with a group and backend_data of this group (None: 0). backend-mpi.c:64-66
   MPIGroupData has only the communicator *)
Record mproc := mkMproc { mp_group : group; mp_comm : option comm }.

(* backend-mpi.c:330-355 in laik_init_mpi: world of [n] processes at rank [r], with the
   duplicate of MPI_COMM_WORLD *)
Definition mpi_world (gid n r : Z) : mproc :=
  mkMproc (mkGroup gid n r None [] [] None [] [] (zcount n)) (Some (zcount n)).

(* MPI standard, MPI_Comm_split: processes of one colour are ordered by key, then by old
   rank. [key x]: key of the process with world rank [x], None for MPI_UNDEFINED *)
Fixpoint key_ins (a : Z * Z) (l : list (Z * Z)) : list (Z * Z) :=
  match l with
  | [] => [a]
  | b :: r => if fst a <=? fst b then a :: l else b :: key_ins a r
  end.
Definition comm_split (c : comm) (key : Z -> option Z) : comm :=
  map snd (fold_right key_ins [] (flat_map (fun x => match key x with Some k => [(k, x)] | None => [] end) c)).

(* backend-mpi.c:404-437 laik_mpi_updateGroup up to the call of MPI_Comm_split: the
   communicator and the key given to it, None if it is not called. Malloc failure dropped *)
Definition update_call (parent : mproc) (g : group) : outcome (option (comm * option Z)) :=
  cassert (match g_parent g with Some _ => true | None => false end)
    (cassert (g_size g <=? g_size (mp_group parent))
      (if g_myid (mp_group parent) <? 0 then Ok None else
       match mp_comm parent with
       | None => Abort
       | Some c => Ok (Some (c, if g_myid g <? 0 then None else Some (g_myid g)))
       end)).

Fixpoint collect {A B} (f : A -> outcome B) (l : list A) : outcome (list B) :=
  match l with
  | [] => Ok []
  | x :: r => do y <- f x; do ys <- collect f r; Ok (y :: ys)
  end.

Definition comm_eqb (a b : comm) : bool := if list_eq_dec Z.eq_dec a b then true else false.

(* MPI_Comm_split is collective: it returns if all processes of the communicator call it
   with this communicator; otherwise the caller waits forever ([NoFuel]). [calls]: by world
   rank *)
Definition split_result (calls : list (group * option (comm * option Z))) (x : group * option (comm * option Z))
  : outcome mproc :=
  match snd x with
  | None => Ok (mkMproc (fst x) None)
  | Some (c, k) =>
      let call r := match nth_error calls (Z.to_nat r) with Some (_, Some y) => Some y | _ => None end in
      if forallb (fun r => match call r with Some (c', _) => comm_eqb c c' | None => false end) c then
        Ok (mkMproc (fst x)
          (Some (match k with
                 | None => []
                 | Some _ => comm_split c (fun r => match call r with Some (_, k') => k' | None => None end)
                 end)))
      else NoFuel
  end.

(* core.c:493-533 laik_new_shrinked_group with the notification of the backend (515-517),
   called by all processes with the same list *)
Definition mpi_shrink (sys : list mproc) (gid : Z) (rm : list Z) : outcome (list mproc) :=
  do calls <- collect (fun p => do g <- new_shrinked_group gid (mp_group p) rm;
                                do c <- update_call p g; Ok (g, c)) sys;
  collect (split_result calls) calls.

(* a group made by a sequence of shrinks, starting from the world *)
Fixpoint mpi_shrinks (sys : list mproc) (path : list (Z * list Z)) : outcome (list mproc) :=
  match path with
  | [] => Ok sys
  | (gid, rm) :: r => do s <- mpi_shrink sys gid rm; mpi_shrinks s r
  end.

Definition mpi_start (gid n : Z) : list mproc := map (mpi_world gid n) (zcount n).
