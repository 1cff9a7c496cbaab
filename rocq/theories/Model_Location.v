(* Model of src/core.c:633-708 (location strings of the processes, laik_sync_location) with the callbacks of
   stores (src/kvs.c:404-428) which it uses, with the MPI and the TCP2 backend.
   A location string is the list of its bytes before the terminating zero; NULL is None. Pointers to strings are the
   strings: the value of an entry of the store is only replaced together with the pointer (update_location). *)
From Coq Require Import ZArith List Bool.
From Verif Require Import Base Model_RangeList Model_KVS Model_SpaceStore Model_Tcp2 Model_Switch Spec_KVS Model_Tcp2Sync.
Import ListNotations.
Open Scope Z_scope.

(* core.c:641-646 locationkey: snprintf of at most 9 characters *)
Definition locationkey (loc : Z) : list Z := firstn 9 (print_dec loc).
(* atoi (as strtol with base 10, cast to int) *)
Definition atoi (l : list Z) : Z := match scan_dec l with Some (n, _) => as_int n | None => 0 end.

(* instance->locations, the size of the array instance->location, and its contents *)
Record locs := mkLocs { lo_n : Z; lo_size : Z; lo_loc : Z -> option (list Z) }.
Definition put_loc (u : locs) (lid : Z) (v : list Z) : outcome locs :=
  if (0 <=? lid) && (lid <? lo_size u)
  then Ok (mkLocs (lo_n u) (lo_size u) (fun l => if l =? lid then Some v else lo_loc u l)) else UB.
(* core.c:648-655 update_location (created and changed callback); removal callback: entries are not removed here *)
Definition update_location (key v : list Z) (u : locs) : outcome locs :=
  let lid := atoi key in
  cassert ((0 <=? lid) && (lid <? lo_n u)) (put_loc u lid (cstr v)).

(* core.c:699-708 laik_group_location, with the location ID of the process; no array: NULL *)
Definition group_location (u : option locs) (lid : Z) : outcome (option (list Z)) :=
  match u with
  | None => Ok None
  | Some u => cassert ((0 <=? lid) && (lid <? lo_n u)) (if lid <? lo_size u then Ok (lo_loc u lid) else UB)
  end.

(** Callbacks of stores *)
Section Callbacks.
  Variable U : Type.
  Variable f : list Z -> list Z -> U -> outcome U.  (* created_func and changed_func *)

  (* kvs.c:362-428: does laik_kvs_set of a value call one of the callbacks? *)
  Definition cb_fires (s : store) (key v : list Z) : outcome bool :=
    if negb (ks_insync s) then Ok false else
    do r <- kvs_entry s key;
    match r with
    | None => Ok true
    | Some i => match nth_error (ks_ent s) i with
                | None => UB
                | Some e => match ke_val e with
                            | Some old => do eq <- memcmp_eq old v; Ok (negb eq)
                            | None => Ok true
                            end
                end
    end.
  (* kvs.c:362-435 laik_kvs_set with its callback (after the value is set) *)
  Definition kvs_set_cb (x : store * U) (key v : list Z) : outcome (store * U) :=
    do b <- cb_fires (fst x) key v;
    do s <- kvs_set (fst x) key v;
    do u <- (if b : bool then f key v (snd x) else Ok (snd x));
    Ok (s, u).

  (* kvs.c:269-285 laik_kvs_changes_apply, as apply_loop and changes_apply of Model_KVS.v *)
  Fixpoint apply_loop_cb (off data : list Z) (x : store * U) : outcome (store * U) :=
    match off with
    | o0 :: t =>
      match t with
      | o1 :: t2 =>
        match t2 with
        | o2 :: _ =>
          cassert (o1 >? o0) (
          cassert (o2 >? o1) (
          do x' <- kvs_set_cb x (cstr (skipn (Z.to_nat o0) data)) (slice data o1 o2);
          apply_loop_cb t2 data x'))
        | [] => UB
        end
      | [] => Ok x
      end
    | [] => Ok x
    end.
  Definition changes_apply_cb (c : journal) (x : store * U) : outcome (store * U) :=
    if offused c =? 0 then Ok x else
    cassert (Z.odd (offused c)) (
    cassert (0 <? dataused c) (
    apply_loop_cb (j_off c) (j_data c) x)).

  (* backend-mpi.c:1109-1126, as recv_merged *)
  Definition recv_merged_cb (d : journal) (x : store * U) : outcome (store * U) :=
    if 0 <? offused d then
      cassert (0 <? dataused d) (
      do c1 <- ensure_size (ks_changes (fst x)) (offused d) (dataused d);
      do c2 <- set_size c1 (j_off d) (j_data d);
      changes_apply_cb c2 (set_changes (fst x) c2, snd x))
    else cassert (dataused d =? 0) (Ok x).
  (* backend-mpi.c:1080-1190 laik_mpi_sync, as mpi_sync *)
  Definition mpi_sync_cb (q : list jentry -> list jentry) (l : list (store * U)) : outcome (list (store * U)) :=
    match l with
    | [] => UB
    | m :: others =>
      do c0 <- changes_sort q (ks_changes (fst m));
      do st <- ofold (mpi_gather q) (map fst others) (c0, changes_init, changes_init, true);
      let '(dst, src, _, own) := st in
      cassert (dataused dst >? offused dst) (
      do m' <- changes_apply_cb dst (set_changes (fst m) (if own : bool then dst else src), snd m);
      do others' <- ofold (fun acc p => do p' <- recv_merged_cb dst p; Ok (acc ++ [p'])) others [];
      Ok (m' :: others'))
    end.
  (* kvs.c:445-465 laik_kvs_sync called by all processes, MPI backend *)
  Definition kvs_sync_mpi_cb (qj : list jentry -> list jentry) (qk : list kentry -> list kentry) (l : list (store * U)) : outcome (list (store * U)) :=
    do l1 <- mpi_sync_cb qj (map (fun x => (sync_begin (fst x), snd x)) l);
    ofold (fun acc p => do s <- sync_end qk (fst p); Ok (acc ++ [(s, snd p)])) l1 [].

  (** TCP2 backend: the steps of Model_Tcp2Sync.v, with callbacks *)

  (* key and value of a "kvs data" command, as in backend-tcp2.c:1350-1363 and 1374-1392 *)
  Definition data_of (msg : list Z) : option (list Z * list Z) :=
    match skip1 32 (skip1 115 (skip1 118 (tl msg))) with
    | (c :: _) as m =>
      if c =? 100 then
        match scan_word 20 m with
        | None => None
        | Some (_, l1) =>
          match scan_word 30 l1 with
          | None => None
          | Some (key, l2) => match take_line 100 (skip_space l2) with [] => None | v => Some (key, v) end
          end
        end
      else None
    | [] => None
    end.
  (* backend-tcp2.c:1374-1392 got_kvs *)
  Definition got_kvs_cb (lid : Z) (x : sproc) (u : U) (msg : list Z) : outcome (sproc * U) :=
    do b <- match data_of msg with Some (key, v) => cb_fires (sq_st x) key (v ++ [0]) | None => Ok false end;
    do x' <- got_kvs lid x msg;
    do u' <- match data_of msg with Some (key, v) => if b : bool then f key (v ++ [0]) u else Ok u | None => Ok u end;
    Ok (x', u').
End Callbacks.
Arguments kvs_set_cb {U}.
Arguments apply_loop_cb {U}.
Arguments changes_apply_cb {U}.
Arguments recv_merged_cb {U}.
Arguments mpi_sync_cb {U}.
Arguments kvs_sync_mpi_cb {U}.
Arguments got_kvs_cb {U}.

(** laik_sync_location, core.c:668-696 *)

(* store and array of a process, None before the first call *)
Definition linst := option (store * locs).
(* 670-680: [n] is instance->locations *)
Definition loc_create (n : Z) (st : linst) : outcome (store * locs) :=
  match st with
  | Some x => Ok x
  | None => do s <- kvs_new; Ok (s, mkLocs n n (fun _ => None))
  end.
(* 682-690: [lid], [my]: own location ID and location string. The pointer to the own string is put into the array
   first, then the string is set in the store. *)
Definition loc_set (lid : Z) (my : list Z) (x : store * locs) : outcome (store * locs) :=
  do u <- put_loc (snd x) lid my;
  do s <- kvs_sets (fst x) (locationkey lid) my;
  Ok (s, u).
(* all processes call laik_sync_location, MPI backend; [ps]: location IDs and strings of the processes *)
Definition sync_location_mpi (qj : list jentry -> list jentry) (qk : list kentry -> list kentry) (n : Z)
    (ps : list (Z * list Z)) (sts : list linst) : outcome (list (store * locs)) :=
  do l <- ofold (fun acc p => do x <- loc_create n (snd p); do x' <- loc_set (fst (fst p)) (snd (fst p)) x; Ok (acc ++ [x'])) (combine ps sts) [];
  kvs_sync_mpi_cb update_location qj qk l.

(* TCP2 backend: the network of Model_Tcp2Sync.v, with the arrays of all processes. The program of a process is a
   sequence of calls of laik_sync_location, each with the two steps SOp (OSets ...) and SSync. *)
Record lnet := mkLn { ln_net : snet; ln_locs : Z -> locs }.
Definition lset (L : Z -> locs) (p : Z) (u : locs) : Z -> locs := fun r => if r =? p then u else L r.
Definition lstep (name : list Z) (q : list kentry -> list kentry) (N : Z) (s : lnet) (p : Z) (a : sact) : outcome (option lnet) :=
  let x := sn_proc (ln_net s) p in
  match a with
  | Go => do u <- match sq_ph x, sq_prog x with
                  | PUser, SOp (OSets k v) :: _ => put_loc (ln_locs s p) (atoi k) v
                  | _, _ => Ok (ln_locs s p)
                  end;
          do y <- sstep name q N (ln_net s) p Go;
          Ok (match y with None => None | Some s' => Some (mkLn s' (lset (ln_locs s) p u)) end)
  | Msg r => match sn_wire (ln_net s) r p with
             | [] => Ok None
             | m :: w => do y <- got_kvs_cb update_location r x (ln_locs s p) m;
                         Ok (Some (mkLn (mkSn (supd (sn_proc (ln_net s)) p (fst y)) (supd2 (sn_wire (ln_net s)) r p w)) (lset (ln_locs s) p (snd y))))
             end
  end.
Fixpoint lrun (name : list Z) (q : list kentry -> list kentry) (N : Z) (s : lnet) (sched : list (Z * sact)) : outcome lnet :=
  match sched with
  | [] => Ok s
  | (p, a) :: r => do x <- lstep name q N s p a; lrun name q N (match x with Some s' => s' | None => s end) r
  end.
