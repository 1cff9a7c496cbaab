(* Model of shared index spaces (src/space.c:461-580): publishing, changing and synchronising index spaces by
   the space store, with the callback updating space objects. MPI backend (stores as in Model_KVS.v, callbacks of
   stores as in Model_Location.v).
   An instance has a space store (created with the first use: a new store has no entry, as no store) and the space
   objects which entries of the store point to (e->data). Space objects not in the store are not part of the state.
   [sp_mem]: address and contents of memory when a space object is allocated for a key. *)
From Coq Require Import ZArith List Bool.
From Verif Require Import Base Model_Space Model_KVS Model_SpaceStore Model_Location.
Import ListNotations.
Open Scope Z_scope.

Record sobjs := mkSos { sp_obj : list Z -> option sobj; sp_mem : list Z -> nat * (option nat * box) }.
Definition sp_put (u : sobjs) (name : list Z) (s : sobj) : sobjs :=
  mkSos (fun k => if list_eq_dec Z.eq_dec k name then Some s else sp_obj u k) (sp_mem u).

(* space.c:461-473 update_space, callback for created and changed entries *)
Definition update_space (key v : list Z) (u : sobjs) : outcome sobjs :=
  let s := match sp_obj u key with Some s => s | None => new_space (fst (sp_mem u key)) (snd (sp_mem u key)) end in
  let '(res, s') := space_set s (cstr v) in
  cassert res (Ok (sp_put u key s')).

(* space.c:487-497 laik_spacestore_set, with the pointer to the object in the entry *)
Definition space_publish (name : list Z) (s : sobj) (x : store * sobjs) : outcome (store * sobjs) :=
  do st <- spacestore_set (fst x) name s; Ok (st, sp_put (snd x) name s).

(* the comparisons and assignments in space.c:523-580, for [d] dimensions *)
Definition same_borders (d : nat) (f t : index) (s : sobj) : bool :=
  let bf := b_from (so_box s) in let bt := b_to (so_box s) in
  (i0 bf =? i0 f) && (i0 bt =? i0 t) &&
  (if (2 <=? d)%nat then (i1 bf =? i1 f) && (i1 bt =? i1 t) else true) &&
  (if (3 <=? d)%nat then (i2 bf =? i2 f) && (i2 bt =? i2 t) else true).
Definition set_index (d : nat) (a i : index) : index :=
  mkIdx (i0 i) (if (2 <=? d)%nat then i1 i else i1 a) (if (3 <=? d)%nat then i2 i else i2 a).
Definition set_borders (d : nat) (f t : index) (s : sobj) : sobj :=
  mkSo (so_id s) (so_dims s) (so_rspace s) (mkBox (set_index d (b_from (so_box s)) f) (set_index d (b_to (so_box s)) t)).
(* space.c:523-580 laik_change_space_1d/2d/3d, for a space which is in the store under [name]. No object: UB *)
Definition change_space (name : list Z) (d : nat) (f t : index) (x : store * sobjs) : outcome (store * sobjs) :=
  match sp_obj (snd x) name with
  | None => UB
  | Some s => cassert (Nat.eqb (so_dims s) d)
              (if same_borders d f t s then Ok x else space_publish name (set_borders d f t s) x)
  end.

(* space.c:499-514 laik_spacestore_get *)
Definition get_space (name : list Z) (x : store * sobjs) : outcome ((store * sobjs) * option sobj) :=
  do r <- kvs_entry (fst x) name;
  match r with
  | None => Ok (x, None)
  | Some _ =>
    match sp_obj (snd x) name with
    | Some s => Ok (x, Some s)
    | None => do o <- spacestore_get (fst x) name (fst (sp_mem (snd x) name)) (snd (sp_mem (snd x) name));
              match o with
              | Some s => Ok ((fst x, sp_put (snd x) name s), Some s)
              | None => UB
              end
    end
  end.

(* calls of one process *)
Inductive spop :=
| PPublish (name : list Z) (s : sobj)
| PChange (name : list Z) (d : nat) (f t : index)
| PGet (name : list Z).
Definition exec_sp (x : store * sobjs) (o : spop) : outcome (store * sobjs) :=
  match o with
  | PPublish name s => space_publish name s x
  | PChange name d f t => change_space name d f t x
  | PGet name => do r <- get_space name x; Ok (fst r)
  end.
(* all processes do their calls ... *)
Definition exec_sps (w : list (store * sobjs)) (ops : list (list spop)) : outcome (list (store * sobjs)) :=
  ofold (fun acc p => do x <- ofold exec_sp (snd p) (fst p); Ok (acc ++ [x])) (combine w ops) [].
(* ... and then space.c:516-520 laik_sync_spaces, MPI backend *)
Definition sync_spaces (qj : list jentry -> list jentry) (qk : list kentry -> list kentry) (w : list (store * sobjs)) : outcome (list (store * sobjs)) :=
  kvs_sync_mpi_cb update_space qj qk w.
