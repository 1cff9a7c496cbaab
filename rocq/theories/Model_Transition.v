(* Model of transitions: src/space.c:680-1710 *)
From Coq Require Import ZArith List Bool Lia.
From Verif Require Import Base Model_Space Model_RangeList Model_Partitioner Model_Group.
Import ListNotations.
Open Scope Z_scope.

(* include/laik/space.h:101-109 Laik_ReductionOperation *)
Inductive redop :=
| RO_None | RO_Sum | RO_Prod | RO_Min | RO_Max | RO_And | RO_Or | RO_Any | RO_Single
| RO_Custom (n : nat).

(* include/laik/space.h:87-92 Laik_DataFlow *)
Inductive dataflow := DF_None | DF_Preserve | DF_Init.

(* space.c:319-322 laik_is_reduction *)
Definition is_reduction (r : redop) : bool := match r with RO_None => false | _ => true end.

(* space.c:1046-1053 oneInputIsCopy *)
Definition oneInputIsCopy (r : redop) : bool := match r with RO_Custom _ => false | _ => true end.

(* include/laik/space-internal.h:195-235: the operations of a transition. Only the box of
   the range is kept (the space is the one of the transition). *)
Record localTOp := mkLocalT { lo_box : box; lo_fromRangeNo : Z; lo_toRangeNo : Z; lo_fromMapNo : Z; lo_toMapNo : Z }.
Record initTOp := mkInitT { it_box : box; it_rangeNo : Z; it_mapNo : Z; it_redOp : redop }.
Record sendTOp := mkSendT { sd_box : box; sd_rangeNo : Z; sd_mapNo : Z; sd_to : Z }.
Record recvTOp := mkRecvT { rc_box : box; rc_rangeNo : Z; rc_mapNo : Z; rc_from : Z }.
Record redTOp := mkRedT {
  rd_box : box; rd_redOp : redop; rd_in : Z; rd_out : Z;
  rd_inRangeNo : Z; rd_outRangeNo : Z; rd_inMapNo : Z; rd_outMapNo : Z }.

(* the buffers localBuf, initBuf, sendBuf, recvBuf, redBuf and the groupList
   (space.c:692, 886-897) *)
Record tops := mkTops {
  tp_local : list localTOp; tp_init : list initTOp; tp_send : list sendTOp;
  tp_recv : list recvTOp; tp_red : list redTOp; tp_groups : list (list Z) }.
Definition tops_empty : tops := mkTops [] [] [] [] [] [].

(* space.c:915-1044 append*TOp: capacity handling is dropped *)
Definition add_local (s : tops) (o : localTOp) : tops :=
  mkTops (tp_local s ++ [o]) (tp_init s) (tp_send s) (tp_recv s) (tp_red s) (tp_groups s).
Definition add_init (s : tops) (o : initTOp) : tops :=
  mkTops (tp_local s) (tp_init s ++ [o]) (tp_send s) (tp_recv s) (tp_red s) (tp_groups s).
Definition add_send (s : tops) (o : sendTOp) : tops :=
  mkTops (tp_local s) (tp_init s) (tp_send s ++ [o]) (tp_recv s) (tp_red s) (tp_groups s).
Definition add_recv (s : tops) (o : recvTOp) : tops :=
  mkTops (tp_local s) (tp_init s) (tp_send s) (tp_recv s ++ [o]) (tp_red s) (tp_groups s).
Definition add_red (s : tops) (o : redTOp) : tops :=
  mkTops (tp_local s) (tp_init s) (tp_send s) (tp_recv s) (tp_red s ++ [o]) (tp_groups s).
Definition set_groups (s : tops) (g : list (list Z)) : tops :=
  mkTops (tp_local s) (tp_init s) (tp_send s) (tp_recv s) (tp_red s) g.

(* equality of two task lists, space.c:747-752 *)
Fixpoint zlist_eqb (a b : list Z) : bool :=
  match a, b with
  | [], [] => true
  | x :: a', y :: b' => (x =? y) && zlist_eqb a' b'
  | _, _ => false
  end.

(* position of a group in the list *)
Fixpoint find_group (tg : list Z) (k : Z) (gl : list (list Z)) : option Z :=
  match gl with
  | [] => None
  | g :: gl' => if zlist_eqb tg g then Some k else find_group tg (k + 1) gl'
  end.

(* space.c:741-768 getTaskGroup: index, new group list. (getTaskGroupSingle,
   space.c:723-739, is the same for one task.) *)
Definition getTaskGroup (gl : list (list Z)) (tg : list Z) : Z * list (list Z) :=
  match find_group tg 0 gl with
  | Some k => (k, gl)
  | None => (Z.of_nat (length gl), gl ++ [tg])
  end.

(* space.c:772-778 RangeBorder *)
Record border := mkBd {
  bd_b : Z; bd_task : Z; bd_rangeNo : Z; bd_mapNo : Z; bd_isStart : bool; bd_isInput : bool }.

(* conversion of int64_t to int: keeps the low 32 bits *)
Definition int32 (z : Z) : Z := (z + 2 ^ 31) mod 2 ^ 32 - 2 ^ 31.

(* space.c:827-838 rb_cmp. The int64_t difference is returned as int. *)
Definition rb_cmp (a b : border) : Z :=
  if bd_b a =? bd_b b then
    (if bd_isStart a then 1 else 0) - (if bd_isStart b then 1 else 0)
  else int32 (bd_b a - bd_b b).

(* space.c:1088-1117: the borders of a list of ranges *)
Fixpoint borders_of (isInput : bool) (rangeNo lastTask lastMapNo : Z) (l : list trg) : list border :=
  match l with
  | [] => []
  | ts :: l' =>
    let reset := negb (t_task ts =? lastTask) || negb (t_mapNo ts =? lastMapNo) in
    let rn := if reset then 0 else rangeNo in
    mkBd (i0 (b_from (t_box ts))) (t_task ts) rn (t_mapNo ts) true isInput ::
    mkBd (i0 (b_to (t_box ts))) (t_task ts) rn (t_mapNo ts) false isInput ::
    borders_of isInput (rn + 1) (if reset then t_task ts else lastTask) (if reset then t_mapNo ts else lastMapNo) l'
  end.

(* space.c:840-858 addTask (insertion into a sorted list); None = returns false *)
Fixpoint ins_task (g : list Z) (t : Z) : option (list Z) :=
  match g with
  | [] => Some [t]
  | x :: g' =>
    if t <? x then Some (t :: g) else
    if t =? x then None else
    option_map (cons x) (ins_task g' t)
  end.
Definition addTask (maxTasks : Z) (g : list Z) (t : Z) : outcome (option (list Z)) :=
  match ins_task g t with
  | None => Ok None
  | Some g' => cassert (Z.of_nat (length g) <? maxTasks) (Ok (Some g'))
  end.

(* space.c:860-876 removeTask; None = returns false. If the task is greater than all
   tasks of the group, the loop ends at the end of the list and the last entry is
   dropped. *)
Fixpoint rm_task (g : list Z) (t : Z) : option (list Z) :=
  match g with
  | [] => None
  | [x] => if t <? x then None else Some []
  | x :: g' =>
    if t <? x then None else
    if t =? x then Some g' else
    option_map (cons x) (rm_task g' t)
  end.

(* space.c:878-883 isInTaskGroup *)
Definition isInTaskGroup (g : list Z) (t : Z) : bool := existsb (Z.eqb t) g.

(* space.c:1124 *)
Definition max_tasks : Z := 65536.

(* space.c:1125-1141: the variables of the loop *)
Record cstate := mkCst {
  c_in : list Z; c_out : list Z;            (* inputGroup, outputGroup *)
  c_actIn : bool; c_actOut : bool;          (* myActivity *)
  c_inR : Z; c_outR : Z; c_inM : Z; c_outM : Z;
  c_ops : tops }.

(* space.c:1154-1189: update of groups and own activity *)
Definition cs_update (myid : Z) (s : cstate) (b : border) : outcome cstate :=
  let mine := bd_task b =? myid in
  if bd_isInput b then
    if bd_isStart b then
      do g <- addTask max_tasks (c_in s) (bd_task b);
      match g with
      | None => Abort
      | Some g' =>
        Ok (mkCst g' (c_out s) (if mine then true else c_actIn s) (c_actOut s)
              (if mine then bd_rangeNo b else c_inR s) (c_outR s)
              (if mine then bd_mapNo b else c_inM s) (c_outM s) (c_ops s))
      end
    else
      match rm_task (c_in s) (bd_task b) with
      | None => Abort
      | Some g' =>
        Ok (mkCst g' (c_out s) (if mine then false else c_actIn s) (c_actOut s)
              (c_inR s) (c_outR s) (c_inM s) (c_outM s) (c_ops s))
      end
  else
    if bd_isStart b then
      do g <- addTask max_tasks (c_out s) (bd_task b);
      match g with
      | None => Abort
      | Some g' =>
        Ok (mkCst (c_in s) g' (c_actIn s) (if mine then true else c_actOut s)
              (c_inR s) (if mine then bd_rangeNo b else c_outR s)
              (c_inM s) (if mine then bd_mapNo b else c_outM s) (c_ops s))
      end
    else
      match rm_task (c_out s) (bd_task b) with
      | None => Abort
      | Some g' =>
        Ok (mkCst (c_in s) g' (c_actIn s) (if mine then false else c_actOut s)
              (c_inR s) (c_outR s) (c_inM s) (c_outM s) (c_ops s))
      end.

Definition set_ops (s : cstate) (o : tops) : cstate :=
  mkCst (c_in s) (c_out s) (c_actIn s) (c_actOut s) (c_inR s) (c_outR s) (c_inM s) (c_outM s) o.

(* the 1d range [a, b); the unused coordinates are not written by the code *)
Definition box1 (a b : Z) : box := mkBox (mkIdx a 0 0) (mkIdx b 0 0).

(* space.c:1284-1316: add a reduction *)
Definition seg_red (gsize : Z) (red : redop) (s : cstate) (bx : box) : outcome tops :=
  let ri := getTaskGroup (tp_groups (c_ops s)) (c_in s) in
  let ro := getTaskGroup (snd ri) (c_out s) in
  do gi <- aread (snd ro) (fst ri);
  do go <- aread (snd ro) (fst ro);
  let ii := if Z.of_nat (length gi) =? gsize then -1 else fst ri in
  let oo := if Z.of_nat (length go) =? gsize then -1 else fst ro in
  cassert (is_reduction red)
    (Ok (add_red (set_groups (c_ops s) (snd ro))
       (mkRedT bx red ii oo (c_inR s) (c_outR s) (c_inM s) (c_outM s)))).

(* space.c:1227-1257: sends and local copy for the outputs *)
Definition seg_out (myid : Z) (s : cstate) (bx : box) (o : tops) (t : Z) : tops :=
  if t =? myid then add_local o (mkLocalT bx (c_inR s) (c_outR s) (c_inM s) (c_outM s))
  else add_send o (mkSendT bx (c_inR s) (c_inM s) t).

(* space.c:1260-1276: receives *)
Definition seg_in (myid from : Z) (s : cstate) (bx : box) (o : tops) (t : Z) : tops :=
  if negb (t =? myid) then o
  else add_recv o (mkRecvT bx (c_outR s) (c_outM s) from).

(* space.c:1205-1316: the operations for one range between borders *)
Definition seg_ops (keep : bool) (gsize myid : Z) (red : redop) (s : cstate) (b nb : Z) : outcome tops :=
  if negb (c_actIn s || c_actOut s) then Ok (c_ops s) else
  cassert (isInTaskGroup (c_in s) myid || isInTaskGroup (c_out s) myid) (
  let bx := box1 b nb in
  match c_in s with
  | [i] =>
    cassert (oneInputIsCopy red) (
    if i =? myid then
      if zlist_eqb (c_out s) [myid] then
        Ok (add_local (c_ops s) (mkLocalT bx (c_inR s) (c_outR s) (c_inM s) (c_outM s)))
      else if negb keep then Ok (fold_left (seg_out myid s bx) (c_out s) (c_ops s))
      else seg_red gsize red s bx
    else
      if negb keep then Ok (fold_left (seg_in myid i s bx) (c_out s) (c_ops s))
      else seg_red gsize red s bx)
  | _ => seg_red gsize red s bx
  end).

(* space.c:1143-1319: the loop over the sorted borders *)
Fixpoint cs_loop (keep : bool) (gsize myid : Z) (red : redop) (s : cstate) (l : list border) : outcome cstate :=
  match l with
  | [] => Ok s
  | b :: l' =>
    do s1 <- cs_update myid s b;
    do s2 <- match l' with
             | nb :: _ =>
               if bd_b nb >? bd_b b then
                 do o <- seg_ops keep gsize myid red s1 (bd_b b) (bd_b nb);
                 Ok (set_ops s1 o)
               else Ok s1
             | [] => Ok s1
             end;
    cs_loop keep gsize myid red s2 l'
  end.

(* space.c:1060-1324 calcAddReductions after getting the range lists. [qb] is qsort. In the
   code, rangeNo is not set before the second loop; its first entry always resets it
   because task numbers are not negative. *)
Definition calcAddReductions (qb : list border -> list border) (keep : bool) (gsize myid : Z) (red : redop)
    (fromRL toRL : rlist) (ops : tops) : outcome tops :=
  let bl := borders_of true 0 (-1) (-1) (rl_trs fromRL) ++ borders_of false 0 (-1) (-1) (rl_trs toRL) in
  match bl with
  | [] => Ok ops
  | _ =>
    do s <- cs_loop keep gsize myid red (mkCst [] [] false false (-1) (-1) (-1) (-1) ops) (qb bl);
    cassert (match c_in s with [] => true | _ => false end) (
    cassert (match c_out s with [] => true | _ => false end) (
    Ok (c_ops s)))
  end.

(* the entries trange[off[t]] ... trange[off[t+1]-1] with their distance from off[t] *)
Definition task_ranges (l : rlist) (t : Z) : outcome (list (Z * trg)) :=
  match rl_off l with
  | None => UB
  | Some off =>
    do a <- aread off t;
    do b <- aread off (t + 1);
    if (a <? 0) || (Z.of_nat (length (rl_trs l)) <? b) then UB
    else let r := aslice (rl_trs l) a b in
         Ok (combine (zcount (Z.of_nat (length r))) r)
  end.

(* space.c:1397-1408: initialisation operations *)
Definition init_ops (dims : nat) (red : redop) (l : list (Z * trg)) (o : tops) : outcome tops :=
  ofold (fun o x =>
    if box_isEmpty dims (t_box (snd x)) then Ok o else
    cassert (is_reduction red)
      (Ok (add_init o (mkInitT (t_box (snd x)) (fst x) (t_mapNo (snd x)) red)))) l o.

(* space.c:1427-1439: local copies for 2d/3d *)
Definition nd_local (dims : nat) (fr tr : list (Z * trg)) (o : tops) : tops :=
  fold_left (fun o x =>
    fold_left (fun o y =>
      match box_intersect dims (t_box (snd x)) (t_box (snd y)) with
      | None => o
      | Some b => add_local o (mkLocalT b (fst x) (fst y) (t_mapNo (snd x)) (t_mapNo (snd y)))
      end) tr o) fr o.

(* space.c:1492-1500, 1523-1531: is there an equal range in the list? *)
Definition has_equal (dims : nat) (b : box) (l : list (Z * trg)) : bool :=
  existsb (fun x => box_isEqual dims b (t_box (snd x))) l.

(* space.c:1482-1512: receives for 2d/3d, from one task; [myto] own ranges in to,
   [myfrom] own ranges in from, [tfrom] ranges of task in from *)
Definition nd_recv (dims : nat) (task : Z) (myto myfrom tfrom : list (Z * trg)) (o : tops) : tops :=
  fold_left (fun o x =>
    if has_equal dims (t_box (snd x)) myfrom then o else
    fold_left (fun o y =>
      match box_intersect dims (t_box (snd y)) (t_box (snd x)) with
      | None => o
      | Some b => add_recv o (mkRecvT b (fst x) (t_mapNo (snd x)) task)
      end) tfrom o) myto o.

(* space.c:1516-1545: sends for 2d/3d, to one task *)
Definition nd_send (dims : nat) (task : Z) (myfrom tfrom tto : list (Z * trg)) (o : tops) : tops :=
  fold_left (fun o x =>
    if has_equal dims (t_box (snd x)) tfrom then o else
    fold_left (fun o y =>
      match box_intersect dims (t_box (snd x)) (t_box (snd y)) with
      | None => o
      | Some b => add_send o (mkSendT b (fst x) (t_mapNo (snd x)) task)
      end) tto o) myfrom o.

(* space.c:1441-1477: the reduction for 2d/3d *)
Definition nd_red (gsize : Z) (red : redop) (sp : space) (fromRL toRL : rlist) (o : tops) : outcome tops :=
  do r <- (if rl_isAll fromRL then
             do task <- rl_isSingle toRL;
             if task <? 0 then
               (if rl_isAll toRL then Ok (Some (-1, o)) else Ok None)
             else
               let g := getTaskGroup (tp_groups o) [task] in
               if gsize =? 1 then cassert (task =? 0) (Ok (Some (-1, set_groups o (snd g))))
               else Ok (Some (fst g, set_groups o (snd g)))
           else Ok None);
  match r with
  | Some (og, o') => Ok (add_red o' (mkRedT (sp_box sp) red (-1) og 0 0 0 0))
  | None => Abort  (* assert(dims == 1) *)
  end.

(* space.c:1412-1546: preserving data for 2d/3d *)
Definition nd_preserve (gsize myid : Z) (red : redop) (sp : space) (fromRL toRL : rlist) (o : tops) : outcome tops :=
  let dims := sp_dims sp in
  do myfrom <- task_ranges fromRL myid;
  do myto <- task_ranges toRL myid;
  let o := nd_local dims myfrom myto o in
  let others := filter (fun t => negb (t =? myid)) (zcount gsize) in
  do o <- (if is_reduction red then nd_red gsize red sp fromRL toRL o
           else ofold (fun o t => do tfrom <- task_ranges fromRL t;
                                  Ok (nd_recv dims t myto myfrom tfrom o)) others o);
  ofold (fun o t => do tfrom <- task_ranges fromRL t;
                    do tto <- task_ranges toRL t;
                    Ok (nd_send dims t myfrom tfrom tto o)) others o.

(* a partitioning with its identity (pointer) *)
Record npart := mkNp { np_name : Z; np_p : partg }.

(* space.c:240-275, 1635-1664 struct _Laik_Transition, without id, name, flags *)
Record trans := mkTrans {
  tr_space : space; tr_group : group; tr_flow : dataflow; tr_redOp : redop; tr_ops : tops }.

(* space.c:1353-1379: consistency checks; the group *)
Definition trans_group (sp : space) (from to : option npart) (flow : dataflow) : outcome group :=
  match from, to with
  | None, None => Abort
  | None, Some t => cassert (space_eq (pa_space (np_p t)) sp) (Ok (pa_group (np_p t)))
  | Some f, None =>
    cassert (match flow with DF_None => true | _ => false end) (
    cassert (space_eq (pa_space (np_p f)) sp) (Ok (pa_group (np_p f))))
  | Some f, Some t =>
    cassert (space_eq (pa_space (np_p f)) sp) (
    cassert (space_eq (pa_space (np_p t)) sp) (
    cassert (g_id (pa_group (np_p t)) =? g_id (pa_group (np_p f))) (Ok (pa_group (np_p f)))))
  end.

(* space.c:1335-1631 do_calc_transition. Ok None = returns NULL. The copy of the
   buffers into the transition object is dropped. *)
Definition do_calc_transition (qb : list border -> list border) (sp : space) (from to : option npart)
    (flow : dataflow) (red : redop) : outcome (option trans) :=
  do g <- trans_group sp from to flow;
  let myid := g_myid g in
  if myid =? -1 then Ok None else
  do o1 <- match to, flow with
           | Some t, DF_Init =>
             match pa_my (np_p t) with
             | None => Panic
             | Some l => do r <- task_ranges l myid; init_ops (sp_dims sp) red r tops_empty
             end
           | _, _ => Ok tops_empty
           end;
  do o2 <- match from, to, flow with
           | Some f, Some t, DF_Preserve =>
             if Nat.eqb (sp_dims sp) 1 then
               match find_inter (np_name t) (pa_lists (np_p f)), find_inter (np_name f) (pa_lists (np_p t)) with
               | Some fl, Some tl => calcAddReductions qb false (g_size g) myid red fl tl o1
               | _, _ => Panic
               end
             else
               match pa_all (np_p f), pa_all (np_p t) with
               | Some fl, Some tl => nd_preserve (g_size g) myid red sp fl tl o1
               | _, _ => Panic
               end
           | _, _, _ => Ok o1
           end;
  Ok (Some (mkTrans sp g flow red o2)).

(* space.c:1635-1664 laik_calc_transition adds a check of the groups (and logging) *)
Definition calc_transition qb sp (from to : option npart) flow red : outcome (option trans) :=
  match from, to with
  | Some f, Some t => cassert (g_id (pa_group (np_p f)) =? g_id (pa_group (np_p t)))
                        (do_calc_transition qb sp from to flow red)
  | _, _ => do_calc_transition qb sp from to flow red
  end.

(* space.c:1672-1680 laik_trans_groupCount *)
Definition trans_groupCount (t : trans) (sub : Z) : outcome Z :=
  if sub =? -1 then Ok (g_size (tr_group t)) else
  cassert ((0 <=? sub) && (sub <? Z.of_nat (length (tp_groups (tr_ops t))))) (
  do g <- aread (tp_groups (tr_ops t)) sub; Ok (Z.of_nat (length g))).

(* space.c:1682-1693 laik_trans_taskInGroup *)
Definition trans_taskInGroup (t : trans) (sub i : Z) : outcome Z :=
  if sub =? -1 then cassert ((0 <=? i) && (i <? g_size (tr_group t))) (Ok i) else
  cassert ((0 <=? sub) && (sub <? Z.of_nat (length (tp_groups (tr_ops t))))) (
  do g <- aread (tp_groups (tr_ops t)) sub;
  cassert ((0 <=? i) && (i <? Z.of_nat (length g))) (aread g i)).

(* space.c:1695-1707 laik_trans_isInGroup *)
Definition trans_isInGroup (t : trans) (sub task : Z) : outcome bool :=
  if sub =? -1 then Ok true else
  cassert (sub <? Z.of_nat (length (tp_groups (tr_ops t)))) (
  do g <- aread (tp_groups (tr_ops t)) sub;
  Ok (existsb (fun x => x =? task) g)).
