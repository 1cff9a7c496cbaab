(* Model of src/partitioner.c, and of the range filters in src/partitioning.c *)
From Coq Require Import ZArith List Bool Lia.
From Verif Require Import Base Model_Space Model_RangeList.
Import ListNotations.
Open Scope Z_scope.

(* include/laik/core-internal.h struct _Laik_Group, without reference counters and
   backend data. Parents are given by their group id; a NULL array is the empty list. *)
Record group := mkGroup {
  g_id : Z;
  g_size : Z;
  g_myid : Z;
  g_parent : option Z;
  g_toParent : list Z;
  g_fromParent : list Z;
  g_parent2 : option Z;
  g_toParent2 : list Z;
  g_fromParent2 : list Z;
  g_loc : list Z }.      (* locationid *)

Definition group_dec (a b : group) : {a = b} + {a <> b}.
Proof. repeat decide equality. Defined.
(* pointer equality of groups: [g_id] stands for the pointer, and equal pointers have
   equal content *)
Definition group_eq (a b : group) : bool := if group_dec a b then true else false.

(* what a partitioner can see of the partitioning it derives from
   (Laik_PartitionerParams.other): space, group and the result of a full run
   (partitioning.c:306-316 laik_partitioning_allranges; None if there is none) *)
Record opart := mkOpart { op_group : group; op_space : space; op_all : option rlist }.

(* Laik_PartitionerParams; the partitioner itself is passed separately *)
Record pparams := mkParams { pp_space : space; pp_group : group; pp_other : option opart }.

(* calls of the partitioner API: laik_append_range, laik_append_index_1d *)
Inductive acall :=
| ACrange (task : Z) (r : range) (tag : Z)
| ACidx (task : Z) (idx : Z).

(* A partitioner is a deterministic function of its parameters: it makes a sequence of
   append calls. (It gets nothing back from them, except that they may end the program;
   the model ends with the same Abort, only not before the remaining calls are
   determined.) Flags LAIK_PF_Merge and LAIK_PF_NoFullCoverage. *)
Record partitioner := mkPartitioner {
  pr_run : pparams -> outcome (list acall);
  pr_merge : bool;
  pr_nocover : bool }.

(* ---------- filters, partitioning.c:38-186 ---------- *)

(* PFilterPar; [pf_arr] is the array of the range list the filter was made from and
   [pf_base] the position ts points to *)
Record pfilter := mkPfilter {
  pf_arr : list trg; pf_base : Z; pf_len : Z; pf_from : Z; pf_to : Z }.

Inductive ffunc := TidFilter | IdxFilter.

(* Laik_RangeFilter; filter_func 0 is None *)
Record rfilter := mkRfilter {
  sf_func : option ffunc; sf_tid : Z; sf_p1 : option pfilter; sf_p2 : option pfilter }.

(* partitioning.c:40-58 laik_rangefilter_new *)
Definition rangefilter_new : rfilter := mkRfilter None (-1) None None.

(* partitioning.c:79-84 laik_rangefilter_set_myfilter *)
Definition rangefilter_set_myfilter (sf : rfilter) (g : group) : outcome rfilter :=
  cassert (match sf_func sf with None => true | Some _ => false end)
    (Ok (mkRfilter (Some TidFilter) (g_myid g) (sf_p1 sf) (sf_p2 sf))).

(* partitioning.c:90-141 idxfilter_check, the binary search. The log output at level 1
   reads ts[mid+1]/ts[mid-1] as well, but no more than the following test does *)
Fixpoint idxfilter_search (fuel : nat) (from to : Z) (p : pfilter) (off1 off2 : Z) : outcome bool :=
  match fuel with
  | O => NoFuel
  | S n =>
    if off1 <? off2 then
      let mid := (off1 + off2) / 2 in
      do x <- aread (pf_arr p) (pf_base p + mid);
      if from >=? i0 (b_to (t_box x)) then
        do y <- aread (pf_arr p) (pf_base p + mid + 1);
        if to <=? i0 (b_from (t_box y)) then Ok false else
        idxfilter_search n from to p mid off2
      else if to <=? i0 (b_from (t_box x)) then
        do y <- aread (pf_arr p) (pf_base p + mid - 1);
        if from >=? i0 (b_to (t_box y)) then Ok false else
        idxfilter_search n from to p off1 mid
      else Ok true
    else Ok true
  end.
(* partitioning.c:90-141 idxfilter_check *)
Definition idxfilter_check (from to : Z) (p : pfilter) : outcome bool :=
  cassert (pf_len p >? 0) (
  if (from >=? pf_to p) || (to <=? pf_from p) then Ok false else
  idxfilter_search (S (Z.to_nat (pf_len p))) from to p 0 (pf_len p)).

(* partitioning.c:144-154 idxfilter *)
Definition idxfilter (sf : rfilter) (from to : Z) : outcome bool :=
  do b1 <- (match sf_p1 sf with None => Ok false | Some p => idxfilter_check from to p end);
  if b1 then Ok true else
  match sf_p2 sf with None => Ok false | Some p => idxfilter_check from to p end.

(* call of filter_func: partitioning.c:69-76 tidfilter, 144-154 idxfilter; a NULL
   function pointer is undefined behaviour *)
Definition filter_call (sf : rfilter) (task : Z) (b : box) : outcome bool :=
  match sf_func sf with
  | None => UB
  | Some TidFilter => cassert (sf_tid sf >=? 0) (Ok (sf_tid sf =? task))
  | Some IdxFilter => idxfilter sf (i0 (b_from b)) (i0 (b_to b))
  end.

(* partitioning.c:157-186 laik_rangefilter_add_idxfilter *)
Definition rangefilter_add_idxfilter (sf : rfilter) (l : rlist) (tid : Z) : outcome rfilter :=
  match rl_off l with
  | None => Abort
  | Some off =>
    cassert (Nat.eqb (sp_dims (rl_space l)) 1) (
    cassert ((0 <=? tid) && (tid <? rl_tids l)) (
    do a <- aread off tid;
    do b <- aread off (tid + 1);
    if b - a =? 0 then Ok sf else
    do x <- aread (rl_trs l) a;
    do y <- aread (rl_trs l) (b - 1);
    let par := mkPfilter (rl_trs l) a (b - a) (i0 (b_from (t_box x))) (i0 (b_to (t_box y))) in
    match sf_p1 sf, sf_p2 sf with
    | None, _ => Ok (mkRfilter (Some IdxFilter) (sf_tid sf) (Some par) (sf_p2 sf))
    | Some p1, None => Ok (mkRfilter (Some IdxFilter) (sf_tid sf) (Some p1) (Some par))
    | Some _, Some _ => Abort
    end))
  end.

(* ---------- running a partitioner ---------- *)

(* partitioner.c:110-144 laik_append_range, laik_append_index_1d. The tag is passed on
   to the list; [data] is dropped *)
Definition do_append (sf : option rfilter) (l : rlist) (c : acall) : outcome rlist :=
  match c with
  | ACrange task r tag =>
    do keep <- (match sf with None => Ok true | Some f => filter_call f task (r_box r) end);
    if keep then rl_append l task r tag else Ok l
  | ACidx task idx =>
    do keep <- (match sf with None => Ok true
                | Some f => filter_call f task (mkBox (mkIdx idx 0 0) (mkIdx (idx + 1) 0 0)) end);
    if keep then rl_append_single1d l task idx else Ok l
  end.

(* the three qsort calls *)
Record sorts := mkSorts {
  q_gen : list trg -> list trg;
  q_si : list tsi -> list tsi;
  q_from : list trg -> list trg }.

(* partitioner.c:57-105 laik_run_partitioner, logging dropped *)
Definition run_partitioner (q : sorts) (pr : partitioner) (p : pparams) (sf : option rfilter)
  : outcome rlist :=
  cassert (match pp_other p with None => true | Some o => group_eq (op_group o) (pp_group p) end) (
  do cs <- pr_run pr p;
  do l <- ofold (do_append sf) cs (rl_new (pp_space p) (g_size (pp_group p)));
  do l2 <- rl_freeze (q_gen q) (q_si q) l (pr_merge pr);
  if negb (pr_nocover pr) && (match sf with None => true | Some _ => false end) then
    do c <- rl_coversSpace (q_from q) l2;
    if c then Ok l2 else Panic
  else Ok l2).

(* ---------- simple partitioners ---------- *)

(* the integers 0 .. n-1 *)
Definition zcount (n : Z) : list Z := map Z.of_nat (seq 0 (Z.to_nat n)).

(* partitioner.c:153-161 runAllPartitioner *)
Definition runAll (p : pparams) : outcome (list acall) :=
  Ok (map (fun t => ACrange t (space_asrange (pp_space p)) 0) (zcount (g_size (pp_group p)))).
Definition all_partitioner : partitioner := mkPartitioner runAll false false.

(* partitioner.c:170-174 runMasterPartitioner *)
Definition runMaster (p : pparams) : outcome (list acall) :=
  Ok [ACrange 0 (space_asrange (pp_space p)) 0].
Definition master_partitioner : partitioner := mkPartitioner runMaster false false.

(* all ranges of the other partitioning: laik_partitioning_rangecount /
   laik_partitioning_get_taskrange (partitioning.c:494-516) for 0 .. count-1 *)
Definition other_ranges (o : opart) : outcome (list trg) :=
  match op_all o with None => Abort | Some l => Ok (rl_trs l) end.

(* partitioner.c:192-215 runCopyPartitioner. A missing other partitioning is a NULL
   pointer access *)
Definition runCopy (fromDim toDim : nat) (p : pparams) : outcome (list acall) :=
  match pp_other p with
  | None => UB
  | Some o =>
    cassert (group_eq (op_group o) (pp_group p)) (
    cassert (Nat.ltb fromDim (sp_dims (op_space o))) (
    cassert (Nat.ltb toDim (sp_dims (pp_space p))) (
    do l <- other_ranges o;
    Ok (map (fun x =>
      ACrange (t_task x)
        (mkRange (Some (pp_space p))
          (mkBox (idx_set (b_from (sp_box (pp_space p))) toDim (idx_get (b_from (t_box x)) fromDim))
                 (idx_set (b_to (sp_box (pp_space p))) toDim (idx_get (b_to (t_box x)) fromDim))))
        (t_tag x)) l))))
  end.
Definition copy_partitioner (fromDim toDim : nat) : partitioner :=
  mkPartitioner (runCopy fromDim toDim) false false.

(* partitioner.c:255-270 one dimension of runCornerHaloPartitioner: space borders
   [f;t[, range borders [from;to[ *)
Definition chalo_from (d f from : Z) : Z := if from >? f + d then from - d else f.
Definition chalo_to (d t to : Z) : Z := if to <? t - d then to + d else t.

(* partitioner.c:235-274 runCornerHaloPartitioner *)
Definition chalo_box (dims : nat) (d : Z) (sb b : box) : box :=
  mkBox
    (mkIdx (chalo_from d (i0 (b_from sb)) (i0 (b_from b)))
           (if Nat.ltb 1 dims then chalo_from d (i1 (b_from sb)) (i1 (b_from b)) else i1 (b_from sb))
           (if Nat.ltb 1 dims && Nat.ltb 2 dims then chalo_from d (i2 (b_from sb)) (i2 (b_from b)) else i2 (b_from sb)))
    (mkIdx (chalo_to d (i0 (b_to sb)) (i0 (b_to b)))
           (if Nat.ltb 1 dims then chalo_to d (i1 (b_to sb)) (i1 (b_to b)) else i1 (b_to sb))
           (if Nat.ltb 1 dims && Nat.ltb 2 dims then chalo_to d (i2 (b_to sb)) (i2 (b_to b)) else i2 (b_to sb))).
Definition runCornerHalo (depth : Z) (p : pparams) : outcome (list acall) :=
  match pp_other p with
  | None => UB
  | Some o =>
    cassert (group_eq (op_group o) (pp_group p)) (
    cassert (space_eq (op_space o) (pp_space p)) (
    do l <- other_ranges o;
    Ok (map (fun x =>
      ACrange (t_task x)
        (mkRange (Some (pp_space p)) (chalo_box (sp_dims (pp_space p)) depth (sp_box (pp_space p)) (t_box x)))
        (t_tag x)) l)))
  end.
Definition cornerhalo_partitioner (depth : Z) : partitioner :=
  mkPartitioner (runCornerHalo depth) false false.

(* partitioner.c:315-324 the two halo ranges in dimension k *)
Definition halo_dim (k : nat) (depth : Z) (sb b : box) : list box :=
  (if idx_get (b_from b) k >? idx_get (b_from sb) k + depth
   then [mkBox (idx_set (b_from b) k (idx_get (b_from b) k - depth))
               (idx_set (b_to b) k (idx_get (b_from b) k))] else []) ++
  (if idx_get (b_to b) k <? idx_get (b_to sb) k - depth
   then [mkBox (idx_set (b_from b) k (idx_get (b_to b) k))
               (idx_set (b_to b) k (idx_get (b_to b) k + depth))] else []).

(* partitioner.c:311-355 the boxes appended for one range *)
Definition halo_boxes (dims : nat) (depth : Z) (sb b : box) : list box :=
  b :: halo_dim 0 depth sb b ++
  (if Nat.ltb 1 dims then
     halo_dim 1 depth sb b ++ (if Nat.ltb 2 dims then halo_dim 2 depth sb b else [])
   else []).

(* partitioner.c:305-356 loop over the ranges of the other partitioning; a range copied
   from the other partitioning has that partitioning's space *)
Fixpoint halo_loop (sp : space) (dims : nat) (depth : Z) (sb : box) (l : list trg) : outcome (list acall) :=
  match l with
  | [] => Ok []
  | x :: l' =>
    cassert (t_tag x >? 0) (
    do r <- halo_loop sp dims depth sb l';
    Ok (map (fun b => ACrange (t_task x) (mkRange (Some sp) b) (t_tag x)) (halo_boxes dims depth sb (t_box x)) ++ r))
  end.

(* partitioner.c:293-357 runHaloPartitioner *)
Definition runHalo (depth : Z) (p : pparams) : outcome (list acall) :=
  match pp_other p with
  | None => UB
  | Some o =>
    cassert (group_eq (op_group o) (pp_group p)) (
    cassert (space_eq (op_space o) (pp_space p)) (
    do l <- other_ranges o;
    halo_loop (op_space o) (sp_dims (pp_space p)) depth (sp_box (pp_space p)) l))
  end.
Definition halo_partitioner (depth : Z) : partitioner := mkPartitioner (runHalo depth) false false.

(* ---------- bisection ---------- *)

(* partitioner.c:384-401 dimension with largest width; the widths are uint64_t, the
   model assumes that they are not negative *)
Definition bis_dim (dims : nat) (b : box) : nat * Z :=
  let w0 := i0 (b_to b) - i0 (b_from b) in
  if Nat.ltb 1 dims then
    let w1 := i1 (b_to b) - i1 (b_from b) in
    let r := if w1 >? w0 then (1%nat, w1) else (0%nat, w0) in
    if Nat.ltb 2 dims then
      let w2 := i2 (b_to b) - i2 (b_from b) in
      if w2 >? snd r then (2%nat, w2) else r
    else r
  else (0%nat, w0).

(* partitioner.c:372-415 doBisection; the number of tasks is halved in every step *)
Fixpoint doBisection (fuel : nat) (sp : space) (b : box) (fromTask toTask : Z) : outcome (list acall) :=
  match fuel with
  | O => NoFuel
  | S n =>
    cassert (toTask >? fromTask) (
    if toTask - fromTask =? 1 then Ok [ACrange fromTask (mkRange (Some sp) b) 1] else
    let (splitDim, width) := bis_dim (sp_dims sp) b in
    cassert (width >? 0) (
    if width =? 1 then Ok [ACrange fromTask (mkRange (Some sp) b) 1] else
    let midTask := (fromTask + toTask) / 2 in
    let w := width * (midTask - fromTask) / (toTask - fromTask) in
    let cut := idx_get (b_from b) splitDim + w in
    do r1 <- doBisection n sp (mkBox (b_from b) (idx_set (b_to b) splitDim cut)) fromTask midTask;
    do r2 <- doBisection n sp (mkBox (idx_set (b_from b) splitDim cut) (b_to b)) midTask toTask;
    Ok (r1 ++ r2)))
  end.

(* partitioner.c:417-420 runBisectionPartitioner *)
Definition runBisection (p : pparams) : outcome (list acall) :=
  doBisection (S (Z.to_nat (g_size (pp_group p)))) (pp_space p) (sp_box (pp_space p)) 0 (g_size (pp_group p)).
Definition bisection_partitioner : partitioner := mkPartitioner runBisection false false.

(* ---------- block partitioner ---------- *)

(* The double arithmetic used by the block and the reassign partitioner. The proofs
   hold for every choice of these operations, in particular for IEEE doubles. *)
Record warith (W : Type) := mkWarith {
  wa_add : W -> W -> W;
  wa_sub : W -> W -> W;
  wa_mul : W -> W -> W;
  wa_div : W -> W -> W;
  wa_ge : W -> W -> bool;
  wa_ofZ : Z -> W;       (* conversion of an integer, also of 0 and 1 *)
  wa_mhalf : W }.        (* -0.5 *)
Arguments wa_add {W}. Arguments wa_sub {W}. Arguments wa_mul {W}. Arguments wa_div {W}.
Arguments wa_ge {W}. Arguments wa_ofZ {W}. Arguments wa_mhalf {W}.

Section Block.
  Context {W : Type} (A : warith W).

  (* Laik_BlockPartitionerData; a weight function gets its userData by partial application *)
  Record blockdata := mkBlockdata {
    bd_pdim : nat; bd_cycles : Z;
    bd_idxW : option (index -> W); bd_taskW : option (Z -> W) }.

  Variable D : blockdata.
  Variable sp : space.
  Variable count : Z.   (* p->group->size *)

  (* s->range.from.i[pdim], size *)
  Definition blk_base : Z := idx_get (b_from (sp_box sp)) (bd_pdim D).
  Definition blk_size : Z := idx_get (b_to (sp_box sp)) (bd_pdim D) - blk_base.

  (* partitioner.c:547-551, 579-582: weight of the i-th index; the other coordinates are 0 *)
  Definition blk_idxW (i : Z) : W :=
    match bd_idxW D with
    | Some f => f (idx_set (mkIdx 0 0 0) (bd_pdim D) (i + blk_base))
    | None => wa_ofZ A 1
    end.

  (* partitioner.c:542-557 *)
  Definition blk_totalW : W :=
    match bd_idxW D with
    | Some _ => fold_left (fun a i => wa_add A a (blk_idxW i)) (zcount blk_size) (wa_ofZ A 0)
    | None => wa_ofZ A blk_size
    end.

  (* partitioner.c:559-569 *)
  Definition blk_totalTW : W :=
    match bd_taskW D with
    | Some f => fold_left (fun a t => wa_add A a (f t)) (zcount count) (wa_ofZ A 0)
    | None => wa_ofZ A count
    end.

  (* partitioner.c:572 *)
  Definition blk_perPart : W := wa_div A (wa_div A blk_totalW (wa_ofZ A count)) (wa_ofZ A (bd_cycles D)).

  (* partitioner.c:578-583, 606-610 *)
  Definition blk_taskW (task : Z) : W :=
    match bd_taskW D with
    | Some f => wa_div A (wa_mul A (f task) (wa_ofZ A count)) blk_totalTW
    | None => wa_ofZ A 1
    end.

  (* loop state: w, task, cycle, range.from, calls done *)
  Record bstate := mkBstate {
    bs_w : W; bs_task : Z; bs_cycle : Z; bs_from : Z; bs_out : list acall }.

  Definition blk_last (s : bstate) : bool := (bs_task s + 1 =? count) && (bs_cycle s + 1 =? bd_cycles D).

  Definition blk_range (from to : Z) : range :=
    mkRange (Some sp) (mkBox (idx_set (b_from (sp_box sp)) (bd_pdim D) from)
                             (idx_set (b_to (sp_box sp)) (bd_pdim D) to)).

  (* partitioner.c:594-615 while loop; each iteration goes to the next part *)
  Fixpoint blk_while (fuel : nat) (i : Z) (s : bstate) : outcome bstate :=
    match fuel with
    | O => NoFuel
    | S n =>
      let lim := wa_mul A blk_perPart (blk_taskW (bs_task s)) in
      if wa_ge A (bs_w s) lim then
        let w := wa_sub A (bs_w s) lim in
        if blk_last s then Ok (mkBstate w (bs_task s) (bs_cycle s) (bs_from s) (bs_out s)) else
        let to := i + blk_base in
        let out := if bs_from s <? to then bs_out s ++ [ACrange (bs_task s) (blk_range (bs_from s) to) 0]
                   else bs_out s in
        let wrap := bs_task s + 1 =? count in
        blk_while n i (mkBstate w (if wrap then 0 else bs_task s + 1)
                                (if wrap then bs_cycle s + 1 else bs_cycle s) to out)
      else Ok s
    end.

  (* partitioner.c:586-617 for loop, [n] indexes left *)
  Fixpoint blk_for (n : nat) (i : Z) (s : bstate) : outcome bstate :=
    match n with
    | O => Ok s
    | S n' =>
      do s1 <- blk_while (S (Z.to_nat (count * bd_cycles D))) i
                 (mkBstate (wa_add A (bs_w s) (blk_idxW i)) (bs_task s) (bs_cycle s) (bs_from s) (bs_out s));
      if blk_last s1 then Ok s1 else blk_for n' (i + 1) s1
    end.

  (* partitioner.c:532-622 runBlockPartitioner *)
  Definition blk_run : outcome (list acall) :=
    cassert (blk_size >? 0) (
    do s <- blk_for (Z.to_nat blk_size) 0 (mkBstate (wa_mhalf A) 0 0 blk_base []);
    cassert (blk_last s) (
    Ok (bs_out s ++ [ACrange (bs_task s) (blk_range (bs_from s) (idx_get (b_to (sp_box sp)) (bd_pdim D))) 0]))).
End Block.
Arguments blockdata : clear implicits.
Arguments bstate : clear implicits.

Definition runBlock {W} (A : warith W) (D : blockdata W) (p : pparams) : outcome (list acall) :=
  blk_run A D (pp_space p) (g_size (pp_group p)).
Definition block_partitioner {W} (A : warith W) (D : blockdata W) : partitioner :=
  mkPartitioner (runBlock A D) false false.

(* partitioner.c:687-696 laik_set_cycle_count *)
Definition set_cycle_count {W} (D : blockdata W) (cycles : Z) : blockdata W :=
  mkBlockdata (bd_pdim D) (if (cycles <? 0) || (cycles >? 10) then 1 else cycles) (bd_idxW D) (bd_taskW D).

(* ---------- reassign ---------- *)

Section Reassign.
  Context {W : Type} (A : warith W).
  Variable newg : group.
  Variable getIdxW : option (index -> W).
  Variable sp : space.

  (* the integers a .. b-1 *)
  Definition zrange (a b : Z) : list Z := map (fun k => a + k) (zcount (b - a)).

  Definition re_idxW (i : Z) : W :=
    match getIdxW with Some f => f (mkIdx i 0 0) | None => wa_ofZ A 1 end.

  (* partitioner.c:728-748 total weight of the indexes to redistribute *)
  Fixpoint re_total (l : list trg) (acc : W) : outcome W :=
    match l with
    | [] => Ok acc
    | x :: l' =>
      do n <- aread (g_fromParent newg) (t_task x);
      if n >=? 0 then re_total l' acc else
      let from := i0 (b_from (t_box x)) in
      let to := i0 (b_to (t_box x)) in
      re_total l' (match getIdxW with
                   | Some _ => fold_left (fun a i => wa_add A a (re_idxW i)) (zrange from to) acc
                   | None => wa_add A acc (wa_ofZ A (to - from)) end)
    end.

  Record rstate := mkRstate { rs_weight : W; rs_cur : Z; rs_out : list acall }.

  Definition re_range (from to : Z) : range :=
    mkRange (Some sp) (mkBox (mkIdx from 0 0) (mkIdx to 0 0)).

  (* partitioner.c:784-811 loop over the indexes of a range; state and range.from *)
  Definition re_idx (perTask : W) (st : rstate * Z) (i : Z) : outcome (rstate * Z) :=
    let (s, rfrom) := st in
    let w := wa_add A (rs_weight s) (re_idxW i) in
    if wa_ge A w perTask && (rs_cur s <? g_size newg) then
      do t <- aread (g_toParent newg) (rs_cur s);
      Ok (mkRstate (wa_sub A w perTask)
                   (if rs_cur s + 1 =? g_size newg then rs_cur s else rs_cur s + 1)
                   (rs_out s ++ [ACrange t (re_range rfrom (i + 1)) 0]), i + 1)
    else Ok (mkRstate w (rs_cur s) (rs_out s), rfrom).

  (* partitioner.c:760-820 one range of the old partitioning; [osp] is its space *)
  Definition re_one (osp : space) (perTask : W) (s : rstate) (x : trg) : outcome rstate :=
    do n <- aread (g_fromParent newg) (t_task x);
    if n >=? 0 then
      Ok (mkRstate (rs_weight s) (rs_cur s)
            (rs_out s ++ [ACrange (t_task x) (mkRange (Some osp) (t_box x)) 0]))
    else
      let from := i0 (b_from (t_box x)) in
      let to := i0 (b_to (t_box x)) in
      do st <- ofold (re_idx perTask) (zrange from to) (s, from);
      let (s1, rfrom) := (st : rstate * Z) in
      if rfrom <? to then
        do t <- aread (g_toParent newg) (rs_cur s1);
        Ok (mkRstate (rs_weight s1) (rs_cur s1) (rs_out s1 ++ [ACrange t (re_range rfrom to) 0]))
      else Ok s1.

  (* partitioner.c:712-820 runReassignPartitioner *)
  Definition runReassign (p : pparams) : outcome (list acall) :=
    match pp_other p with
    | None => Abort
    | Some o =>
      cassert (match g_parent newg with Some id => id =? g_id (op_group o) | None => false end) (
      cassert (Nat.eqb (sp_dims (op_space o)) 1) (
      do l <- other_ranges o;
      do tot <- re_total l (wa_ofZ A 0);
      let perTask := wa_div A tot (wa_ofZ A (g_size newg)) in
      do s <- ofold (re_one (op_space o) perTask) l (mkRstate (wa_ofZ A 0) 0 []);
      Ok (rs_out s)))
    end.
End Reassign.
Arguments rstate : clear implicits.

Definition reassign_partitioner {W} (A : warith W) (newg : group) (getIdxW : option (index -> W)) : partitioner :=
  mkPartitioner (fun p => runReassign A newg getIdxW (pp_space p) p) false false.

(* ---------- grid ---------- *)

(* partitioner.c:436-487 runGridPartitioner. [gb d k] is the int64_t value of
   "ss->from.i[d] + k * step[d]" for block border k in dimension d, which the code
   computes with doubles; the same expression is used for the upper border of block k-1
   and the lower border of block k. *)
Section Grid.
  Variables (xb yb zb : Z).
  Variable gb : nat -> Z -> Z.
  Variable sp : space.
  Variable gsize : Z.

  (* one dimension: the blocks which are not skipped, upper border cut to the space *)
  Definition grid_blocks (d : nat) (n : Z) : list (Z * Z) :=
    map (fun k => (gb d k, if gb d (k + 1) >? idx_get (b_to (sp_box sp)) d
                           then idx_get (b_to (sp_box sp)) d else gb d (k + 1)))
      (filter (fun k => negb (gb d k =? gb d (k + 1))) (zcount n)).

  (* the boxes in the order of the three nested loops *)
  Definition grid_boxes : list box :=
    flat_map (fun z => flat_map (fun y => map (fun x =>
        mkBox (mkIdx (fst x) (fst y) (fst z)) (mkIdx (snd x) (snd y) (snd z)))
      (grid_blocks 0 xb)) (grid_blocks 1 yb)) (grid_blocks 2 zb).

  (* task numbers 0,1,...; the loops end when task reaches the group size *)
  Definition grid_run : outcome (list acall) :=
    cassert (Nat.eqb (sp_dims sp) 3) (
    cassert (gsize >=? xb * yb * zb) (
    Ok (map (fun tb => ACrange (Z.of_nat (fst tb)) (mkRange (Some sp) (snd tb)) 1)
          (combine (seq 0 (Z.to_nat gsize)) grid_boxes)))).
End Grid.

Definition grid_partitioner (xb yb zb : Z) (gb : space -> nat -> Z -> Z) : partitioner :=
  mkPartitioner (fun p => grid_run xb yb zb (gb (pp_space p)) (pp_space p) (g_size (pp_group p))) false false.
