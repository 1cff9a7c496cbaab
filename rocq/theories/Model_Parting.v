(* Model of the partitioning object over its life (src/partitioning.c): range lists stored
   by different runs of its partitioner, and the queries answered from them *)
From Coq Require Import ZArith List Bool Lia.
From Verif Require Import Base Model_Space Model_RangeList Model_Partitioner Model_Group.
Import ListNotations.
Open Scope Z_scope.

(* struct _Laik_Partitioning: Model_Group.partg with the partitioner and the partitioning
   it derives from (id and name dropped) *)
Record pobj := mkPobj { po_part : partg; po_pr : partitioner; po_other : option opart }.

(* partitioning.c:233-263 laik_partitioning_new, 279-284 laik_new_empty_partitioning;
   malloc failure dropped *)
Definition new_empty_partitioning (g : group) (s : space) (pr : partitioner) (other : option opart) : pobj :=
  mkPobj (mkPartg s g []) pr other.

(* partitioning.c:287-291 laik_clone_empty_partitioning *)
Definition clone_empty_partitioning (p : pobj) : pobj :=
  new_empty_partitioning (pa_group (po_part p)) (pa_space (po_part p)) (po_pr p) (po_other p).

(* partitioning.c:364-382 laik_partitioning_add_ranges, with the info the callers set afterwards *)
Definition add_ranges (p : pobj) (i : rlinfo) (l : rlist) : pobj :=
  mkPobj (mkPartg (pa_space (po_part p)) (pa_group (po_part p)) ((i, l) :: pa_lists (po_part p))) (po_pr p) (po_other p).

(* partitioning.c:386-412 laik_partitioning_run, logging dropped *)
Definition parting_run (q : sorts) (p : pobj) (sf : option rfilter) (i : rlinfo) : outcome pobj :=
  do l <- run_partitioner q (po_pr p) (mkParams (pa_space (po_part p)) (pa_group (po_part p)) (po_other p)) sf;
  Ok (add_ranges p i l).

(* partitioning.c:416-420 laik_partitioning_store_allranges *)
Definition store_allranges (q : sorts) (p : pobj) : outcome pobj := parting_run q p None RIfull.

(* partitioning.c:424-436 laik_partitioning_store_myranges *)
Definition store_myranges (q : sorts) (p : pobj) : outcome pobj :=
  let g := pa_group (po_part p) in
  if g_myid g <? 0 then Ok p else
  do sf <- rangefilter_set_myfilter rangefilter_new g;
  parting_run q p (Some sf) (RIsingle (g_myid g)).

(* partitioning.c:444-474 laik_partitioning_store_intersectranges. [o] is the name of <p2>,
   None if it is <p>; [p2] the object itself *)
Definition store_intersectranges (q : sorts) (p : pobj) (o : Z) (p2 : option partg) : outcome pobj :=
  let pp := po_part p in
  let x2 := match p2 with None => pp | Some x => x end in
  if negb (space_eq (pa_space pp) (pa_space x2)) then Panic else
  match pa_my pp, pa_my x2 with
  | Some l1, Some l2 =>
    do sf <- rangefilter_add_idxfilter rangefilter_new l1 (g_myid (pa_group pp));
    do sf <- (match p2 with None => Ok sf | Some _ => rangefilter_add_idxfilter sf l2 (g_myid (pa_group x2)) end);
    parting_run q p (Some sf) (RIintersect o)
  | _, _ => Panic
  end.

(* partitioning.c:574-582 laik_new_partitioning *)
Definition new_partitioning (q : sorts) (pr : partitioner) (g : group) (s : space) (other : option opart) : outcome pobj :=
  store_allranges q (new_empty_partitioning g s pr other).

(* A query which fills the map offsets of the list it uses changes this list in place *)

(* partitioning.c:318-334 laik_partitioning_myranges, then [f] on the list found *)
Fixpoint on_my {A} (f : rlist -> outcome (rlist * A)) (me : Z) (l : list (rlinfo * rlist))
  : outcome (list (rlinfo * rlist) * A) :=
  match l with
  | [] => Abort
  | (i, r) :: l' =>
    if (match i with RIfull => true | RIsingle t => t =? me | _ => false end)
    then do x <- f r; Ok ((i, fst x) :: l', snd x)
    else do x <- on_my f me l'; Ok ((i, r) :: fst x, snd x)
  end.

(* partitioning.c:306-315 laik_partitioning_allranges, then [f] on the list found *)
Fixpoint on_all {A} (f : rlist -> outcome (rlist * A)) (l : list (rlinfo * rlist))
  : outcome (list (rlinfo * rlist) * A) :=
  match l with
  | [] => Abort
  | (i, r) :: l' =>
    if (match i with RIfull => true | _ => false end)
    then do x <- f r; Ok ((i, fst x) :: l', snd x)
    else do x <- on_all f l'; Ok ((i, r) :: fst x, snd x)
  end.

Definition set_lists (p : pobj) (l : list (rlinfo * rlist)) : pobj :=
  mkPobj (mkPartg (pa_space (po_part p)) (pa_group (po_part p)) l) (po_pr p) (po_other p).

(* partitioning.c:644-654 laik_my_mapcount *)
Definition my_mapcount (p : partg) : outcome Z :=
  let me := g_myid (pa_group p) in
  if me <? 0 then Ok 0 else
  cassert (me <? g_size (pa_group p)) (
  match pa_my p with None => Abort | Some l => rl_tidmapcount l me end).

(* partitioning.c:657-666 laik_my_maprangecount *)
Definition my_maprangecount (p : pobj) (m : Z) : outcome (pobj * Z) :=
  let me := g_myid (pa_group (po_part p)) in
  if me <? 0 then Ok (p, 0) else
  do x <- on_my (fun l => rl_tidmaprangecount l me m) me (pa_lists (po_part p));
  Ok (set_lists p (fst x), snd x).

(* partitioning.c:681-692 laik_my_maprange *)
Definition my_maprange (p : pobj) (m n : Z) : outcome (pobj * option trg) :=
  let me := g_myid (pa_group (po_part p)) in
  if me <? 0 then Ok (p, None) else
  do x <- (match pa_all (po_part p) with
           | Some _ => on_all (fun l => rl_tidmaprange l me m n) (pa_lists (po_part p))
           | None => on_my (fun l => rl_tidmaprange l me m n) me (pa_lists (po_part p))
           end);
  Ok (set_lists p (fst x), snd x).

(* partitioning.c:695-739 laik_my_range_1d, laik_my_range_2d, laik_my_range_3d: the range and
   the values for the output parameters from/to, x1 x2 y1 y2, x1 x2 y1 y2 z1 z2 (a NULL
   parameter drops the value) *)
Definition my_range_nd (d : nat) (p : partg) (n : Z) : outcome (option trg * list Z) :=
  cassert (Nat.eqb (sp_dims (pa_space p)) d) (
  do x <- my_range p n;
  let bd f := match x with None => [0; 0] | Some t => [f (b_from (t_box t)); f (b_to (t_box t))] end in
  Ok (x, bd i0 ++ (if Nat.ltb 1 d then bd i1 else []) ++ (if Nat.ltb 2 d then bd i2 else []))).

(* partitioning.c:492-497 laik_partitioning_rangecount *)
Definition parting_rangecount (p : partg) : outcome Z :=
  match pa_all p with None => Abort | Some l => Ok (rl_count l) end.

(* partitioning.c:503-514 laik_partitioning_get_taskrange; only the upper bound is checked *)
Definition parting_taskrange (p : partg) (n : Z) : outcome (option trg) :=
  match pa_all p with None => Abort | Some l => rl_taskrange l n end.

(* partitioning.c:525-532 laik_partitioning_isAll, 538-545 isSingle, 548-555 coversSpace *)
Definition parting_isAll (p : partg) : outcome bool :=
  match pa_all p with None => Abort | Some l => Ok (rl_isAll l) end.
Definition parting_isSingle (p : partg) : outcome Z :=
  match pa_all p with None => Abort | Some l => rl_isSingle l end.
Definition parting_coversSpace (q : sorts) (p : partg) : outcome bool :=
  match pa_all p with None => Abort | Some l => rl_coversSpace (q_from q) l end.

(* ---------- a life ---------- *)

(* calls a program makes with one partitioning, in any order *)
Inductive pcall :=
| PStoreAll (q : sorts)
| PStoreMy (q : sorts)
| PStoreInter (q : sorts) (o : Z) (p2 : option partg)
| PMyRangeCount
| PMyRange (n : Z)
| PMyMapCount
| PMyMapRangeCount (m : Z)
| PMyMapRange (m n : Z)
| PMyRangeNd (d : nat) (n : Z)      (* laik_my_range_1d/2d/3d *)
| PRangeCount
| PTaskRange (n : Z)
| PIsAll
| PIsSingle
| PCoversSpace (q : sorts).

(* what a call returns *)
Inductive pans :=
| ANothing
| AInt (z : Z)
| ABool (b : bool)
| ARange (x : option trg)
| ABorders (x : option trg) (l : list Z).

(* one call *)
Definition pstep (p : pobj) (c : pcall) : outcome (pobj * pans) :=
  match c with
  | PStoreAll q => do p' <- store_allranges q p; Ok (p', ANothing)
  | PStoreMy q => do p' <- store_myranges q p; Ok (p', ANothing)
  | PStoreInter q o p2 => do p' <- store_intersectranges q p o p2; Ok (p', ANothing)
  | PMyRangeCount => do z <- my_rangecount (po_part p); Ok (p, AInt z)
  | PMyRange n => do x <- my_range (po_part p) n; Ok (p, ARange x)
  | PMyMapCount => do z <- my_mapcount (po_part p); Ok (p, AInt z)
  | PMyMapRangeCount m => do x <- my_maprangecount p m; Ok (fst x, AInt (snd x))
  | PMyMapRange m n => do x <- my_maprange p m n; Ok (fst x, ARange (snd x))
  | PMyRangeNd d n => do x <- my_range_nd d (po_part p) n; Ok (p, ABorders (fst x) (snd x))
  | PRangeCount => do z <- parting_rangecount (po_part p); Ok (p, AInt z)
  | PTaskRange n => do x <- parting_taskrange (po_part p) n; Ok (p, ARange x)
  | PIsAll => do b <- parting_isAll (po_part p); Ok (p, ABool b)
  | PIsSingle => do z <- parting_isSingle (po_part p); Ok (p, AInt z)
  | PCoversSpace q => do b <- parting_coversSpace q (po_part p); Ok (p, ABool b)
  end.

(* a sequence of calls with their answers *)
Fixpoint plife (p : pobj) (h : list pcall) : outcome (pobj * list pans) :=
  match h with
  | [] => Ok (p, [])
  | c :: h' =>
    do x <- pstep p c;
    do y <- plife (fst x) h';
    Ok (fst y, snd x :: snd y)
  end.
