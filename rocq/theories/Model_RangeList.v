(* Model of src/rangelist.c *)
From Coq Require Import ZArith List Bool Lia.
From Verif Require Import Base Model_Space.
Import ListNotations.
Open Scope Z_scope.

(* include/laik/rangelist-internal.h Laik_TaskRange_Gen. The opaque user pointer
   [data] is dropped. laik_rangelist_append asserts that the range's space is the
   list's space, so only the box is kept. *)
Record trg := mkTrg { t_task : Z; t_box : box; t_tag : Z; t_mapNo : Z }.

(* Laik_TaskRange_Single1d *)
Record tsi := mkTsi { si_task : Z; si_idx : Z }.

(* Laik_RangeList. A NULL array pointer is None; [count] is the length of the
   array in use. map_off is only meaningful if map_tid >= 0. *)
Record rlist := mkRlist {
  rl_space : space;
  rl_tids : Z;
  rl_trange : option (list trg);
  rl_tss1d : option (list tsi);
  rl_off : option (list Z);
  rl_map_tid : Z;
  rl_map_count : Z;
  rl_map_off : list Z }.

(* rangelist.c:25-52 laik_rangelist_new *)
Definition rl_new (s : space) (tid_count : Z) : rlist :=
  mkRlist s tid_count None None None (-1) 0 [].

Definition arr {A} (o : option (list A)) : list A :=
  match o with None => [] | Some l => l end.

Definition rl_trs (l : rlist) : list trg := arr (rl_trange l).

(* list->count: number of entries in whichever array is in use *)
Definition rl_count (l : rlist) : Z :=
  match rl_trange l with
  | Some t => Z.of_nat (length t)
  | None => Z.of_nat (length (arr (rl_tss1d l)))
  end.

Definition set_trange (l : rlist) (t : option (list trg)) : rlist :=
  mkRlist (rl_space l) (rl_tids l) t (rl_tss1d l) (rl_off l) (rl_map_tid l) (rl_map_count l) (rl_map_off l).
Definition set_tss1d (l : rlist) (t : option (list tsi)) : rlist :=
  mkRlist (rl_space l) (rl_tids l) (rl_trange l) t (rl_off l) (rl_map_tid l) (rl_map_count l) (rl_map_off l).
Definition set_off (l : rlist) (o : option (list Z)) : rlist :=
  mkRlist (rl_space l) (rl_tids l) (rl_trange l) (rl_tss1d l) o (rl_map_tid l) (rl_map_count l) (rl_map_off l).
Definition set_tids (l : rlist) (n : Z) : rlist :=
  mkRlist (rl_space l) n (rl_trange l) (rl_tss1d l) (rl_off l) (rl_map_tid l) (rl_map_count l) (rl_map_off l).
Definition set_map (l : rlist) (tid c : Z) (o : list Z) : rlist :=
  mkRlist (rl_space l) (rl_tids l) (rl_trange l) (rl_tss1d l) (rl_off l) tid c o.

(* read of array element [n]: outside of the array is undefined *)
Definition aread {A} (l : list A) (n : Z) : outcome A :=
  if n <? 0 then UB else
  match nth_error l (Z.to_nat n) with Some x => Ok x | None => UB end.

(* rangelist.c:307-336 laik_rangelist_append. Capacity handling and allocation
   failure are dropped. *)
Definition rl_append (l : rlist) (tid : Z) (r : range) (tag : Z) : outcome rlist :=
  match r_space r with
  | None => Abort
  | Some rs =>
    cassert (space_eq rs (rl_space l)) (
    cassert (match rl_tss1d l with None => true | Some _ => false end) (
    cassert ((0 <=? tid) && (tid <? rl_tids l)) (
    do w <- range_within_space r (rl_space l);
    cassert w (
    Ok (set_trange l (Some (rl_trs l ++ [mkTrg tid (r_box r) tag 0])))))))
  end.

(* rangelist.c:339-363 laik_rangelist_append_single1d *)
Definition rl_append_single1d (l : rlist) (tid idx : Z) : outcome rlist :=
  cassert (match rl_trange l with None => true | Some _ => false end) (
  cassert ((0 <=? tid) && (tid <? rl_tids l)) (
  cassert ((i0 (b_from (sp_box (rl_space l))) <=? idx) && (idx <? i0 (b_to (sp_box (rl_space l))))) (
  Ok (set_tss1d l (Some (arr (rl_tss1d l) ++ [mkTsi tid idx])))))).

(* rangelist.c:368-383 trgen_cmp *)
Definition trgen_cmp (a b : trg) : Z :=
  if t_task a =? t_task b then
    if t_tag a =? t_tag b then
      if i0 (b_from (t_box a)) >? i0 (b_from (t_box b)) then 1 else
      if i0 (b_from (t_box a)) =? i0 (b_from (t_box b)) then 0 else -1
    else t_tag a - t_tag b
  else t_task a - t_task b.

(* rangelist.c:385-396 tss1d_cmp *)
Definition tss1d_cmp (a b : tsi) : Z :=
  if si_task a =? si_task b then
    if si_idx a >? si_idx b then 1 else
    if si_idx a =? si_idx b then 0 else -1
  else si_task a - si_task b.

(* rangelist.c:195-203 trgen_cmpfrom *)
Definition trgen_cmpfrom (a b : trg) : Z :=
  if i0 (b_from (t_box a)) >? i0 (b_from (t_box b)) then 1 else
  if i0 (b_from (t_box a)) =? i0 (b_from (t_box b)) then 0 else -1.

(* rangelist.c:411-443 mergeSortedRanges, the loop: [cur] is trange[dstOff],
   the second argument is trange[srcOff..count-1] *)
Fixpoint merge_loop (cur : trg) (src : list trg) : list trg :=
  match src with
  | [] => [cur]
  | s :: src' =>
    if (negb (t_task s =? t_task cur)) || (negb (t_tag s =? t_tag cur)) ||
       (i0 (b_from (t_box s)) >? i0 (b_to (t_box cur)))
    then cur :: merge_loop s src'
    else
      if i0 (b_to (t_box cur)) <? i0 (b_to (t_box s))
      then merge_loop
             (mkTrg (t_task cur)
                (mkBox (b_from (t_box cur))
                   (mkIdx (i0 (b_to (t_box s))) (i1 (b_to (t_box cur))) (i2 (b_to (t_box cur)))))
                (t_tag cur) (t_mapNo cur)) src'
      else merge_loop cur src'
  end.

(* rangelist.c:411-443 mergeSortedRanges *)
Definition mergeSortedRanges (l : rlist) : outcome rlist :=
  match rl_trange l with
  | None => Abort
  | Some [] => Ok l
  | Some (h :: t) =>
      cassert (Nat.eqb (sp_dims (rl_space l)) 1)
        (Ok (set_trange l (Some (merge_loop h t))))
  end.

(* rangelist.c:460-470 inner while loop of updateOffsets for one task: returns
   the entries of this task with map numbers, and the remaining entries *)
Fixpoint uo_inner (task mapNo lastTag : Z) (l : list trg) : outcome (list trg * list trg) :=
  match l with
  | [] => Ok ([], [])
  | ts :: l' =>
    if t_task ts >? task then Ok ([], l) else
    cassert (t_task ts =? task) (
    let new := (t_tag ts =? 0) || negb (t_tag ts =? lastTag) in
    let mapNo' := if new then mapNo + 1 else mapNo in
    let lastTag' := if new then t_tag ts else lastTag in
    do r <- uo_inner task mapNo' lastTag' l';
    Ok (mkTrg (t_task ts) (t_box ts) (t_tag ts) mapNo' :: fst r, snd r))
  end.

(* rangelist.c:456-472 loop over tasks; [n] tasks still to visit, starting at
   [task]. Result: offsets for these tasks plus the final one, the updated
   entries, and the entries left over *)
Fixpoint uo_tasks (n : nat) (task off : Z) (l : list trg)
  : outcome (list Z * list trg * list trg) :=
  match n with
  | O => Ok ([off], [], l)
  | S n' =>
    do r <- uo_inner task (-1) (-1) l;
    do q <- uo_tasks n' (task + 1) (off + Z.of_nat (length (fst r))) (snd r);
    Ok (off :: fst (fst q), fst r ++ snd (fst q), snd q)
  end.

(* rangelist.c:447-474 updateOffsets *)
Definition updateOffsets (l : rlist) : outcome rlist :=
  do q <- uo_tasks (Z.to_nat (rl_tids l)) 0 0 (rl_trs l);
  cassert (match snd q with [] => true | _ => false end)
    (Ok (set_off (match rl_trange l with
                  | None => l
                  | Some _ => set_trange l (Some (snd (fst q))) end)
                 (Some (fst (fst q))))).

(* rangelist.c:487-503 updateOffsetsSI, the counting loop; the result is added to count *)
Fixpoint si_count (task idx : Z) (l : list tsi) : Z :=
  match l with
  | [] => 0
  | s :: l' =>
    if (si_task s =? task) && (si_idx s =? idx) then si_count task idx l' else
    if (si_task s =? task) && (si_idx s =? idx + 1) then si_count task (idx + 1) l' else
    1 + si_count (si_task s) (si_idx s) l'
  end.

(* rangelist.c:514-544 updateOffsetsSI, the converting loop. The coordinates
   1 and 2 are not written by the code (uninitialised memory); the space has
   1 dimension, see updateOffsetsSI below *)
Definition si_range (task idx0 idx : Z) : trg :=
  mkTrg task (mkBox (mkIdx idx0 0 0) (mkIdx (idx + 1) 0 0)) 0 0.
Fixpoint si_conv (task idx0 idx : Z) (l : list tsi) : list trg :=
  match l with
  | [] => [si_range task idx0 idx]
  | s :: l' =>
    if (si_task s =? task) && (si_idx s =? idx) then si_conv task idx0 idx l' else
    if (si_task s =? task) && (si_idx s =? idx + 1) then si_conv task idx0 (idx + 1) l' else
    si_range task idx0 idx :: si_conv (si_task s) (si_idx s) (si_idx s) l'
  end.

(* rangelist.c:554-558 inner loop of the offset calculation in updateOffsetsSI:
   number of entries of this task and remaining entries *)
Fixpoint si_inner (task : Z) (l : list trg) : outcome (Z * list trg) :=
  match l with
  | [] => Ok (0, [])
  | ts :: l' =>
    if t_task ts >? task then Ok (0, l) else
    cassert (t_task ts =? task) (
    do r <- si_inner task l';
    Ok (1 + fst r, snd r))
  end.
Fixpoint si_tasks (n : nat) (task off : Z) (l : list trg) : outcome (list Z * list trg) :=
  match n with
  | O => Ok ([off], l)
  | S n' =>
    do r <- si_inner task l;
    do q <- si_tasks n' (task + 1) (off + fst r) (snd r);
    Ok (off :: fst q, snd q)
  end.

(* rangelist.c:478-563 updateOffsetsSI; [qs] is the result of qsort. In a space
   with more dimensions the code leaves coordinates uninitialised: UB *)
Definition updateOffsetsSI (qs : list tsi -> list tsi) (l : rlist) : outcome rlist :=
  match rl_tss1d l with
  | None => Abort
  | Some si =>
    cassert (match si with [] => false | _ => true end) (
    if negb (Nat.eqb (sp_dims (rl_space l)) 1) then UB else
    match qs si with
    | [] => UB
    | h :: t =>
      let count := 1 + si_count (si_task h) (si_idx h) t in
      let trs := si_conv (si_task h) (si_idx h) (si_idx h) t in
      cassert (count =? Z.of_nat (length trs)) (
      do q <- si_tasks (Z.to_nat (rl_tids l)) 0 0 trs;
      cassert (match snd q with [] => true | _ => false end)
        (Ok (set_off (set_tss1d (set_trange l (Some trs)) None) (Some (fst q)))))
    end)
  end.

(* rangelist.c:398-409 sortRanges; [qg] is the result of qsort with trgen_cmp *)
Definition sortRanges (qg : list trg -> list trg) (l : rlist) : rlist :=
  match rl_trange l with
  | None => l
  | Some [] => l
  | Some t => set_trange l (Some (qg t))
  end.

(* rangelist.c:645-669 laik_rangelist_freeze *)
Definition rl_freeze (qg : list trg -> list trg) (qs : list tsi -> list tsi)
    (l : rlist) (doMerge : bool) : outcome rlist :=
  cassert (match rl_off l with None => true | Some _ => false end) (
  match rl_tss1d l with
  | Some _ => updateOffsetsSI qs l
  | None =>
      let l1 := sortRanges qg l in
      do l2 <- (if doMerge then mergeSortedRanges l1 else Ok l1);
      updateOffsets l2
  end).

(* rangelist.c:114-120 laik_rangelist_tidrangecount *)
Definition rl_tidrangecount (l : rlist) (tid : Z) : outcome Z :=
  match rl_off l with
  | None => Abort
  | Some off =>
    cassert ((0 <=? tid) && (tid <? rl_tids l)) (
    do a <- aread off (tid + 1);
    do b <- aread off tid;
    Ok (a - b))
  end.

(* rangelist.c:123-131 laik_rangelist_tidmapcount *)
Definition rl_tidmapcount (l : rlist) (tid : Z) : outcome Z :=
  match rl_off l with
  | None => Abort
  | Some off =>
    cassert ((0 <=? tid) && (tid <? rl_tids l)) (
    do a <- aread off (tid + 1);
    do b <- aread off tid;
    if a =? b then Ok 0 else
    do x <- aread (rl_trs l) (a - 1);
    Ok (t_mapNo x + 1))
  end.

(* rangelist.c:133-142 laik_rangelist_taskrange, together with reading the entry
   (laik_taskrange_get_* in space.c:586-658). Only the upper bound is checked. *)
Definition rl_taskrange (l : rlist) (n : Z) : outcome (option trg) :=
  if n >=? rl_count l then Ok None else
  do x <- aread (rl_trs l) n; Ok (Some x).

(* rangelist.c:147-158 laik_rangelist_tidrange *)
Definition rl_tidrange (l : rlist) (tid n : Z) : outcome (option trg) :=
  match rl_off l with
  | None => Abort
  | Some off =>
    cassert ((0 <=? tid) && (tid <? rl_tids l)) (
    do a <- aread off (tid + 1);
    do b <- aread off tid;
    if (n <? 0) || (n >=? a - b) then Ok None else
    do x <- aread (rl_trs l) (b + n);
    cassert (t_task x =? tid) (rl_taskrange l (b + n)))
  end.

(* rangelist.c:594-600 inner loop of laik_updateMapOffsets: number of entries with
   this map number, remaining entries *)
Fixpoint mo_inner (mapNo : Z) (l : list trg) : outcome (Z * list trg) :=
  match l with
  | [] => Ok (0, [])
  | ts :: l' =>
    if t_mapNo ts >? mapNo then Ok (0, l) else
    cassert (t_mapNo ts =? mapNo) (
    do r <- mo_inner mapNo l';
    Ok (1 + fst r, snd r))
  end.
Fixpoint mo_maps (n : nat) (mapNo off : Z) (l : list trg) : outcome (list Z * list trg) :=
  match n with
  | O => Ok ([off], l)
  | S n' =>
    do r <- mo_inner mapNo l;
    do q <- mo_maps n' (mapNo + 1) (off + fst r) (snd r);
    Ok (off :: fst q, snd q)
  end.

(* entries [a, b) of an array *)
Definition aslice {A} (l : list A) (a b : Z) : list A :=
  firstn (Z.to_nat (b - a)) (skipn (Z.to_nat a) l).

(* rangelist.c:566-606 laik_updateMapOffsets *)
Definition updateMapOffsets (l : rlist) (tid : Z) : outcome rlist :=
  if rl_map_tid l =? tid then Ok l else
  cassert (rl_map_tid l <? 0) (
  cassert ((0 <=? tid) && (tid <? rl_tids l)) (
  match rl_off l with
  | None => UB
  | Some off =>
    do first <- aread off tid;
    do last <- aread off (tid + 1);
    if last >? first then
      do x <- aread (rl_trs l) (last - 1);
      let mc := t_mapNo x + 1 in
      cassert (match rl_tss1d l with None => true | Some _ => false end) (
      do q <- mo_maps (Z.to_nat mc) 0 first (aslice (rl_trs l) first last);
      cassert (match snd q with [] => true | _ => false end)
        (Ok (set_map l tid mc (fst q))))
    else Ok (set_map l tid 0 [])
  end)).

(* rangelist.c:608-619 laik_rangelist_tidmaprangecount *)
Definition rl_tidmaprangecount (l : rlist) (tid mapNo : Z) : outcome (rlist * Z) :=
  match rl_off l with
  | None => Abort
  | Some _ =>
    do l' <- updateMapOffsets l tid;
    cassert ((0 <=? mapNo) && (mapNo <? rl_map_count l')) (
    do a <- aread (rl_map_off l') (mapNo + 1);
    do b <- aread (rl_map_off l') mapNo;
    Ok (l', a - b))
  end.

(* rangelist.c:622-641 laik_rangelist_tidmaprange *)
Definition rl_tidmaprange (l : rlist) (tid mapNo n : Z) : outcome (rlist * option trg) :=
  match rl_off l with
  | None => Abort
  | Some _ =>
    do l' <- updateMapOffsets l tid;
    if (mapNo <? 0) || (mapNo >=? rl_map_count l') then Ok (l', None) else
    do a <- aread (rl_map_off l') (mapNo + 1);
    do b <- aread (rl_map_off l') mapNo;
    if (n <? 0) || (n >=? a - b) then Ok (l', None) else
    do x <- aread (rl_trs l') (b + n);
    cassert (t_task x =? tid) (
    cassert (t_mapNo x =? mapNo) (
    do y <- rl_taskrange l' (b + n); Ok (l', y)))
  end.

(* rangelist.c:63-71 laik_rangelist_isAll; all ranges of a list have the list's space *)
Fixpoint isAll_loop (d : nat) (sb : box) (i : Z) (l : list trg) : bool :=
  match l with
  | [] => true
  | x :: l' =>
    if negb (t_task x =? i) then false else
    if negb (box_isEqual d (t_box x) sb) then false else isAll_loop d sb (i + 1) l'
  end.
Definition rl_isAll (l : rlist) : bool :=
  if negb (rl_count l =? rl_tids l) then false else
  isAll_loop (sp_dims (rl_space l)) (sp_box (rl_space l)) 0 (rl_trs l).

(* rangelist.c:76-83 laik_rangelist_isSingle *)
Definition rl_isSingle (l : rlist) : outcome Z :=
  if negb (rl_count l =? 1) then Ok (-1) else
  do x <- aread (rl_trs l) 0;
  if negb (box_isEqual (sp_dims (rl_space l)) (t_box x) (sp_box (rl_space l))) then Ok (-1)
  else Ok (t_task x).

(* rangelist.c:86-106 laik_rangelist_isEqual *)
Fixpoint offs_equal (n : nat) (o1 o2 : list Z) : outcome bool :=
  match n with
  | O => Ok true
  | S n' =>
    match o1, o2 with
    | a :: o1', b :: o2' => if negb (a =? b) then Ok false else offs_equal n' o1' o2'
    | _, _ => UB
    end
  end.
Fixpoint trs_equal (d : nat) (l1 l2 : list trg) : outcome bool :=
  match l1, l2 with
  | [], _ => Ok true
  | a :: l1', b :: l2' =>
    cassert (t_task a =? t_task b) (
    if negb (box_isEqual d (t_box a) (t_box b)) then Ok false else trs_equal d l1' l2')
  | _ :: _, [] => UB
  end.
Definition rl_isEqual (l1 l2 : rlist) : outcome bool :=
  match rl_off l1, rl_off l2 with
  | Some o1, Some o2 =>
    if negb (rl_tids l1 =? rl_tids l2) then Ok false else
    if negb (space_eq (rl_space l1) (rl_space l2)) then Ok false else
    if negb (rl_count l1 =? rl_count l2) then Ok false else
    do b <- offs_equal (Z.to_nat (rl_tids l1)) o1 o2;
    if negb b then Ok false else
    trs_equal (sp_dims (rl_space l1)) (rl_trs l1) (rl_trs l2)
  | _, _ => Abort
  end.

(* ---- coverage check, rangelist.c:161-303 ---- *)

(* rangelist.c:167 COVERLIST_MAX *)
Definition coverlist_max : Z := 100.

Definition idx_get (i : index) (d : nat) : Z :=
  match d with O => i0 i | S O => i1 i | _ => i2 i end.
Definition idx_set (i : index) (d : nat) (v : Z) : index :=
  match d with
  | O => mkIdx v (i1 i) (i2 i)
  | S O => mkIdx (i0 i) v (i2 i)
  | _ => mkIdx (i0 i) (i1 i) v
  end.

(* rangelist.c:171-176 appendToNotcovered: [old] entries of the previous round are
   still in the array in front of the appended ones [acc] *)
Definition appendToNotcovered (old : Z) (acc : list box) (b : box) : outcome (list box) :=
  cassert (old + Z.of_nat (length acc) <? coverlist_max) (Ok (acc ++ [b])).

(* rangelist.c:262-281 body of the loop over dimensions: piece before and piece
   after <rm> in dimension d; state is (orig, appended) *)
Definition cover_dim (old : Z) (rm : box) (st : box * list box) (d : nat)
  : outcome (box * list box) :=
  let (orig, acc) := st in
  do st1 <- (if idx_get (b_from orig) d <? idx_get (b_from rm) d then
               do acc1 <- appendToNotcovered old acc
                            (mkBox (b_from orig) (idx_set (b_to orig) d (idx_get (b_from rm) d)));
               Ok (mkBox (idx_set (b_from orig) d (idx_get (b_from rm) d)) (b_to orig), acc1)
             else Ok (orig, acc));
  let (orig1, acc1) := (st1 : box * list box) in
  if idx_get (b_to orig1) d >? idx_get (b_to rm) d then
    do acc2 <- appendToNotcovered old acc1
                 (mkBox (idx_set (b_from orig1) d (idx_get (b_to rm) d)) (b_to orig1));
    Ok (mkBox (b_from orig1) (idx_set (b_to orig1) d (idx_get (b_to rm) d)), acc2)
  else Ok (orig1, acc1).

(* rangelist.c:249-282 one visited not-covered range *)
Definition cover_one (dims : nat) (old : Z) (rm : box) (acc : list box) (orig : box)
  : outcome (list box) :=
  match box_intersect dims orig rm with
  | None => appendToNotcovered old acc orig
  | Some _ =>
      do st <- ofold (cover_dim old rm) (seq 0 dims) (orig, acc);
      Ok (snd st)
  end.

(* rangelist.c:235-292 loop over the ranges to remove *)
Fixpoint cover_loop (dims : nat) (rms : list trg) (nc : list box) : outcome bool :=
  match rms with
  | [] => Ok (match nc with [] => true | _ => false end)
  | rm :: rms' =>
    do nc' <- ofold (cover_one dims (Z.of_nat (length nc)) (t_box rm)) nc [];
    match nc' with
    | [] => Ok true
    | _ => cover_loop dims rms' nc'
    end
  end.

(* rangelist.c:217-303 laik_rangelist_coversSpace; [qf] is the result of qsort
   with trgen_cmpfrom *)
Definition rl_coversSpace (qf : list trg -> list trg) (l : rlist) : outcome bool :=
  cover_loop (sp_dims (rl_space l)) (qf (rl_trs l)) [sp_box (rl_space l)].

(* ---- rangelist.c:673-704 laik_rangelist_migrate ---- *)

(* rangelist.c:678-681 *)
Fixpoint mig_check (n : nat) (i : Z) (idmap off : list Z) : outcome unit :=
  match n with
  | O => Ok tt
  | S n' =>
    do m <- aread idmap i;
    do a <- aread off i;
    do b <- aread off (i + 1);
    if m <? 0 then cassert (a =? b) (mig_check n' (i + 1) idmap off)
    else mig_check n' (i + 1) idmap off
  end.

(* rangelist.c:684-690 *)
Fixpoint mig_ids (tids new_count : Z) (idmap : list Z) (l : list trg) : outcome (list trg) :=
  match l with
  | [] => Ok []
  | x :: l' =>
    cassert ((0 <=? t_task x) && (t_task x <? tids)) (
    do n <- aread idmap (t_task x);
    cassert ((0 <=? n) && (n <? new_count)) (
    do r <- mig_ids tids new_count idmap l';
    Ok (mkTrg n (t_box x) (t_tag x) (t_mapNo x) :: r)))
  end.

(* rangelist.c:673-704; the map offset cache (map_tid, map_off) is kept as it is *)
Definition rl_migrate (qg : list trg -> list trg) (l : rlist) (idmap : list Z) (new_count : Z)
  : outcome rlist :=
  match rl_off l with
  | None => Abort
  | Some off =>
    do _ <- mig_check (Z.to_nat (rl_tids l)) 0 idmap off;
    do t <- mig_ids (rl_tids l) new_count idmap (rl_trs l);
    let l1 := match rl_trange l with None => l | Some _ => set_trange l (Some t) end in
    updateOffsets (sortRanges qg (set_tids l1 new_count))
  end.
