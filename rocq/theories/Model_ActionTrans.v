(* Model of the transformations of action sequences: src/action.c (buffer allocation,
   combining, packing, splitting of reductions), src/backend-mpi.c (asynchronous messages). *)
From Coq Require Import ZArith List Bool Lia.
From Verif Require Import Base Model_Space Model_RangeList Model_Transition Model_Action.
Import ListNotations.
Open Scope Z_scope.

(* unsigned int arithmetic wraps around *)
Definition u32 (x : Z) : Z := x mod 2 ^ 32.

Definition redop_eqb (a b : redop) : bool :=
  match a, b with
  | RO_None, RO_None | RO_Sum, RO_Sum | RO_Prod, RO_Prod | RO_Min, RO_Min | RO_Max, RO_Max
  | RO_And, RO_And | RO_Or, RO_Or | RO_Any, RO_Any | RO_Single, RO_Single => true
  | RO_Custom n, RO_Custom k => Nat.eqb n k
  | _, _ => false
  end.

(* a mapping, as far as needed here: base address (0: not allocated) and
   requiredRange.from.i[0] *)
Record amap := mkAMap { am_base : Z; am_from : Z }.

(* action-internal.h:203-212 Laik_TransitionContext: what the transformations use. cx_from and
   cx_to are fromList and toList (None: NULL). *)
Record actx := mkCtx {
  cx_es : Z;                       (* data->elemsize *)
  cx_dims : nat;                   (* dimensions of the space *)
  cx_size : Z;                     (* size of the process group *)
  cx_me : Z;                       (* myid in it *)
  cx_groups : list (list Z);       (* the subgroups of the transition *)
  cx_from : option (list amap);
  cx_to : option (list amap) }.

(* space.c:1672-1707: the ranks of a subgroup (-1: all). groupCount is the length, taskInGroup
   an element, isInGroup tells if a rank is in it. *)
Definition cx_group (cx : actx) (g : Z) : outcome (list Z) :=
  if g =? -1 then Ok (map Z.of_nat (seq 0 (Z.to_nat (cx_size cx)))) else
  cassert (g <? Z.of_nat (length (cx_groups cx))) (aread (cx_groups cx) g).
Definition in_group (cx : actx) (g : Z) : outcome bool :=
  do l <- cx_group cx g; Ok (existsb (fun x => x =? cx_me cx) l).

(* action-internal.h:214-275 Laik_ActionSeq: the actions, bufReserveCount, the allocated
   buffers (buf, bufSize; their number is bufferCount) and ceCount. Statistics are left out. *)
Record aseq := mkSeq { as_acts : list action; as_nres : Z; as_bufs : list (Z * Z); as_nce : Z }.
Definition ASEQ_BUFFER_MAX : Z := 5.
Definition ASEQ_COPYENTRY_MAX : Z := 5.

(* action.c:263-283 laik_aseq_addBufReserve with bufID -1: the new action, the new ID *)
Definition add_reserve (size nres : Z) : action * Z := (mkAct 0 (BufReserve size (nres + 100) 0), nres + 100).

(* ---- combining ---- *)

(* action.c:1095-1138 isSameBufSend, isSameBufRecv, isSameGroupReduce, isSameReduce *)
Definition same_kind (a b : action) : bool :=
  match a_par a, a_par b with
  | BufSend _ _ t, BufSend _ _ t' => (a_round b =? a_round a) && (t' =? t)
  | BufRecv _ _ t, BufRecv _ _ t' => (a_round b =? a_round a) && (t' =? t)
  | GroupReduce i o _ _ _ r, GroupReduce i' o' _ _ _ r' => (a_round b =? a_round a) && (i' =? i) && (o' =? o) && redop_eqb r' r
  | Reduce _ _ _ t r, Reduce _ _ _ t' r' => (a_round b =? a_round a) && (t' =? t) && redop_eqb r' r
  | _, _ => false
  end.

(* the field count of the actions which are combined *)
Definition par_cnt (p : apar) : Z :=
  match p with
  | BufSend _ c _ | BufRecv _ c _ | GroupReduce _ _ _ _ c _ | Reduce _ _ c _ _ => c
  | _ => 0
  end.
Definition a_cnt (a : action) : Z := par_cnt (a_par a).
Definition cnt_sum (ms : list action) : Z := fold_left (fun s a => u32 (s + a_cnt a)) ms 0.

(* addresses used for copy entries: where data comes from, where it goes to *)
Definition src_addr (p : apar) : Z :=
  match p with BufSend b _ _ => b | GroupReduce _ _ f _ _ _ => f | Reduce f _ _ _ _ => f | _ => 0 end.
Definition dst_addr (p : apar) : Z :=
  match p with BufRecv b _ _ => b | GroupReduce _ _ _ t _ _ => t | Reduce _ t _ _ _ => t | _ => 0 end.

(* does the process provide input/want output for the combined action? 1227, 1254, 1280,
   1400, 1432, 1519 *)
Definition gives_input (cx : actx) (p : apar) : outcome bool :=
  match p with
  | BufSend _ _ _ | Reduce _ _ _ _ _ => Ok true
  | GroupReduce i _ _ _ _ _ => in_group cx i
  | _ => Ok false
  end.
Definition wants_output (cx : actx) (p : apar) : outcome bool :=
  match p with
  | BufRecv _ _ _ => Ok true
  | GroupReduce _ o _ _ _ _ => in_group cx o
  | Reduce _ _ _ root _ => Ok ((root =? cx_me cx) || (root =? -1))
  | _ => Ok false
  end.

(* action.c:1189-1291: the first pass. Marks: an action is marked when an earlier action is
   of the same kind (this is an equivalence). prev: the actions before. *)
Fixpoint comb_size (cx : actx) (prev l : list action) (bufSize copyRanges : Z) : outcome (Z * Z) :=
  match l with
  | [] => Ok (bufSize, copyRanges)
  | a :: l' =>
      let ms := filter (same_kind a) l in
      if existsb (fun b => same_kind b a) prev || (length ms <=? 1)%nat then comb_size cx (a :: prev) l' bufSize copyRanges else
      let n := Z.of_nat (length ms) in
      do i <- gives_input cx (a_par a);
      do o <- wants_output cx (a_par a);
      comb_size cx (a :: prev) l' (u32 (bufSize + cnt_sum ms))
        (copyRanges + (if i then n else 0) + (if o then n else 0))
  end.

(* copy entries for the given actions, from offset bufOff on (1350-1360 and similar loops) *)
Fixpoint ces (es : Z) (addr : apar -> Z) (bufOff : Z) (ms : list action) : list centry :=
  match ms with
  | [] => []
  | a :: ms' => mkCE (addr (a_par a)) (u32 (bufOff * es)) (u32 (a_cnt a * es))
                  :: ces es addr (u32 (bufOff + a_cnt a)) ms'
  end.

(* the action on the temporary buffer: laik_aseq_addRBufSend and others. Reduce actions need
   count > 0. *)
Definition rbuf_par (p : apar) (bufID off count : Z) : outcome apar :=
  match p with
  | BufSend _ _ t => Ok (RBufSend bufID off count t)
  | BufRecv _ _ f => Ok (RBufRecv bufID off count f)
  | GroupReduce i o _ _ _ r => cassert (count >? 0) (Ok (RBufGroupReduce i o bufID off count r))
  | Reduce _ _ _ root r => cassert (count >? 0) (Ok (RBufReduce bufID off count root r))
  | _ => Abort
  end.
(* adding an action of its own again: laik_aseq_addBufSend and others *)
Definition readd_par (p : apar) : outcome apar :=
  match p with
  | GroupReduce _ _ _ _ c _ | Reduce _ _ c _ _ => cassert (c >? 0) (Ok p)
  | _ => Ok p
  end.
Definition mergeable (p : apar) : bool :=
  match p with BufSend _ _ _ | BufRecv _ _ _ | GroupReduce _ _ _ _ _ _ | Reduce _ _ _ _ _ => true | _ => false end.

(* action.c:1313-1565: the second pass *)
Fixpoint comb_pass (cx : actx) (bufID copyRanges : Z) (prev l : list action) (bufOff rangeOff : Z) : outcome (list action * Z * Z) :=
  match l with
  | [] => Ok ([], bufOff, rangeOff)
  | a :: l' =>
      if existsb (fun b => same_kind b a) prev then comb_pass cx bufID copyRanges (a :: prev) l' bufOff rangeOff else
      let es := cx_es cx in
      let r := a_round a in
      if mergeable (a_par a) then
        let ms := filter (same_kind a) l in
        let countSum := cnt_sum ms in
        let n := Z.of_nat (length ms) in
        if n >? 1 then
          do i <- gives_input cx (a_par a);
          do o <- wants_output cx (a_par a);
          do c1 <- (if i then do x <- add_action (3 * r) (CopyToRBuf (ces es src_addr bufOff ms) bufID 0); Ok [x] else Ok []);
          cassert (rangeOff + (if i then n else 0) <=? copyRanges) (
          do p <- rbuf_par (a_par a) bufID (u32 (bufOff * es)) countSum;
          do c2 <- add_action (3 * r + 1) p;
          do c3 <- (if o then do x <- add_action (3 * r + 2) (CopyFromRBuf (ces es dst_addr bufOff ms) bufID 0); Ok [x] else Ok []);
          let rangeOff' := rangeOff + (if i then n else 0) + (if o then n else 0) in
          cassert (rangeOff' <=? copyRanges) (
          do x <- comb_pass cx bufID copyRanges (a :: prev) l' (u32 (bufOff + countSum)) rangeOff';
          Ok (c1 ++ [c2] ++ c3 ++ fst (fst x), snd (fst x), snd x)))
        else
          do p <- readd_par (a_par a);
          do c <- add_action (3 * r + 1) p;
          do x <- comb_pass cx bufID copyRanges (a :: prev) l' bufOff rangeOff;
          Ok (c :: fst (fst x), snd (fst x), snd x)
      else
        do c <- aseq_add a (3 * r + 1);
        do x <- comb_pass cx bufID copyRanges (a :: prev) l' bufOff rangeOff;
        Ok (c ++ fst (fst x), snd (fst x), snd x)
  end.

(* action.c:1167-1573 laik_aseq_combineActions. In the C code the receive parts of the
   sequence BufRecv come before the copy entries are filled; the entries are the same. *)
Definition combine (cx : actx) (s : aseq) : outcome (bool * aseq) :=
  do x <- comb_size cx [] (as_acts s) 0 0;
  let bufSize := fst x in let copyRanges := snd x in
  if bufSize =? 0 then cassert (copyRanges =? 0) (Ok (false, s)) else
  cassert (copyRanges >? 0) (
  cassert (as_nce s <? ASEQ_COPYENTRY_MAX) (
  let '(res, bufID) := add_reserve (u32 (bufSize * cx_es cx)) (as_nres s) in
  do y <- comb_pass cx bufID copyRanges [] (as_acts s) 0 0;
  let '(acts, bufOff, rangeOff) := y in
  cassert (rangeOff =? copyRanges) (
  cassert (bufSize =? bufOff) (
  Ok (true, mkSeq (res :: acts) (as_nres s + 1) (as_bufs s) (as_nce s + 1)))))).

(* ---- buffer allocation ---- *)

(* action.c:880-930: bufID, offset and count of an action which references a reservation *)
Definition rb_ref (p : apar) : option (Z * Z * Z) :=
  match p with
  | RBufSend id off c _ | RBufRecv id off c _ | RBufCopy id off _ c | RBufLocalReduce _ id off _ c
  | RBufReduce id off c _ _ | PackToRBuf _ _ id off c | UnpackFromRBuf id off _ _ c
  | MapPackToRBuf _ _ id off c | MapUnpackFromRBuf id off _ _ c | RBufGroupReduce _ _ id off c _ => Some (id, off, c)
  | CopyFromRBuf ce id off | CopyToRBuf ce id off => Some (id, off, Z.of_nat (length ce))
  | _ => None
  end.
Definition rb_set (p : apar) (id off : Z) : apar :=
  match p with
  | RBufSend _ _ c t => RBufSend id off c t
  | RBufRecv _ _ c t => RBufRecv id off c t
  | RBufCopy _ _ t c => RBufCopy id off t c
  | RBufLocalReduce o _ _ t c => RBufLocalReduce o id off t c
  | RBufReduce _ _ c root o => RBufReduce id off c root o
  | PackToRBuf m r _ _ c => PackToRBuf m r id off c
  | UnpackFromRBuf _ _ m r c => UnpackFromRBuf id off m r c
  | MapPackToRBuf m r _ _ c => MapPackToRBuf m r id off c
  | MapUnpackFromRBuf _ _ m r c => MapUnpackFromRBuf id off m r c
  | RBufGroupReduce i o _ _ c r => RBufGroupReduce i o id off c r
  | CopyFromRBuf ce _ _ => CopyFromRBuf ce id off
  | CopyToRBuf ce _ _ => CopyToRBuf ce id off
  | p => p
  end.

(* resAction: the reservations seen, by ID: offset and size *)
Fixpoint res_find (id : Z) (res : list (Z * (Z * Z))) : option (Z * Z) :=
  match res with
  | [] => None
  | (k, v) :: res' => if k =? id then Some v else res_find id res'
  end.

(* action.c:861-950: the first pass; nbuf is bufferCount *)
Fixpoint alloc_pass (es nres nbuf : Z) (l : list action) (res : list (Z * (Z * Z))) (bufSize rCount : Z) : outcome (list action * Z * Z) :=
  match l with
  | [] => Ok ([], bufSize, rCount)
  | a :: l' =>
      match a_par a with
      | BufReserve size id _ =>
          if id <? ASEQ_BUFFER_MAX then
            do x <- alloc_pass es nres nbuf l' res bufSize rCount; Ok (a :: fst (fst x), snd (fst x), snd x)
          else
            cassert (id >=? 100) (cassert (id <? 100 + nres) (
            do x <- alloc_pass es nres nbuf l' ((id, (bufSize, size)) :: res) (u32 (bufSize + size)) (rCount + 1);
            Ok (mkAct (a_round a) (BufReserve size nbuf bufSize) :: fst (fst x), snd (fst x), snd x)))
      | p =>
          match rb_ref p with
          | None => do x <- alloc_pass es nres nbuf l' res bufSize rCount; Ok (a :: fst (fst x), snd (fst x), snd x)
          | Some (id, off, count) =>
              if id <? ASEQ_BUFFER_MAX then
                do x <- alloc_pass es nres nbuf l' res bufSize rCount; Ok (a :: fst (fst x), snd (fst x), snd x)
              else
                cassert (id >=? 100) (cassert (id <? 100 + nres) (
                match res_find id res with
                | None => Abort
                | Some (roff, rsize) =>
                    cassert (count >? 0) (cassert (off + u32 (count * es) <=? rsize) (
                    do x <- alloc_pass es nres nbuf l' res bufSize rCount;
                    Ok (mkAct (a_round a) (rb_set p nbuf (u32 (off + roff))) :: fst (fst x), snd (fst x), snd x)))
                end))
          end
      end
  end.

(* laik_range_size with the asserts of laik_aseq_addPackToBuf and others (417-560) *)
Definition add_count (cx : actx) (range : box) : outcome Z :=
  do c <- box_size (cx_dims cx) range; cassert (c >? 0) (cassert (c <? 2 ^ 32) (Ok c)).

(* action.c:965-1032: the second pass; buf is the address of the new buffer *)
Definition alloc_subst (cx : actx) (buf : Z) (a : action) : outcome (list action) :=
  let r := a_round a in
  match a_par a with
  | BufReserve _ _ _ => Ok []
  | RBufSend _ off c t => do x <- add_action r (BufSend (buf + off) c t); Ok [x]
  | RBufRecv _ off c f => do x <- add_action r (BufRecv (buf + off) c f); Ok [x]
  | PackToRBuf m rg _ off _ => do c <- add_count cx rg; do x <- add_action r (PackToBuf m rg (buf + off) c); Ok [x]
  | UnpackFromRBuf _ off m rg _ => do c <- add_count cx rg; do x <- add_action r (UnpackFromBuf (buf + off) m rg c); Ok [x]
  | MapPackToRBuf m rg _ off _ => do c <- add_count cx rg; do x <- add_action r (MapPackToBuf m rg (buf + off) c); Ok [x]
  | MapUnpackFromRBuf _ off m rg _ => do c <- add_count cx rg; do x <- add_action r (MapUnpackFromBuf (buf + off) m rg c); Ok [x]
  | CopyFromRBuf ce _ off => do x <- add_action r (CopyFromBuf ce (buf + off)); Ok [x]
  | CopyToRBuf ce _ off => do x <- add_action r (CopyToBuf ce (buf + off)); Ok [x]
  | RBufReduce _ off c root o => cassert (c >? 0) (do x <- add_action r (Reduce (buf + off) (buf + off) c root o); Ok [x])
  | RBufGroupReduce i o _ off c ro => cassert (c >? 0) (do x <- add_action r (GroupReduce i o (buf + off) (buf + off) c ro); Ok [x])
  | _ => aseq_add a (-1)
  end.
Fixpoint omap_app {A B} (f : A -> outcome (list B)) (l : list A) : outcome (list B) :=
  match l with
  | [] => Ok []
  | a :: l' => do x <- f a; do y <- omap_app f l'; Ok (x ++ y)
  end.

(* action.c:845-1056 laik_aseq_allocBuffer; buf is the result of malloc *)
Definition alloc_buffer (cx : actx) (buf : Z) (s : aseq) : outcome (bool * aseq) :=
  let nbuf := Z.of_nat (length (as_bufs s)) in
  cassert (nbuf <? ASEQ_BUFFER_MAX) (
  do x <- alloc_pass (cx_es cx) (as_nres s) nbuf (as_acts s) [] 0 0;
  let '(acts, bufSize, rCount) := x in
  if bufSize =? 0 then Ok (false, mkSeq acts (as_nres s) (as_bufs s) (as_nce s)) else
  do acts' <- omap_app (alloc_subst cx buf) acts;
  cassert (rCount =? as_nres s) (
  Ok (true, mkSeq acts' 0 (as_bufs s ++ [(buf, bufSize)]) (as_nce s)))).

(* ---- splitting of reductions ---- *)

(* sends of count elements at buf to the ranks of a group, without me: 2150-2163, 2199-2211 *)
Fixpoint add_sends (round me buf count : Z) (ts : list Z) : outcome (list action) :=
  match ts with
  | [] => Ok []
  | t :: ts' =>
      if t =? me then add_sends round me buf count ts' else
      do x <- add_action round (BufSend buf count t);
      do r <- add_sends round me buf count ts'; Ok (x :: r)
  end.

(* receives from the ranks of a group, without me, into the reservation: 2120-2129,
   2241-2250. Also the offsets. *)
Fixpoint add_recvs (round me bufID off count byteCount : Z) (ts : list Z) : outcome (list action * list Z * Z) :=
  match ts with
  | [] => Ok ([], [], off)
  | t :: ts' =>
      if t =? me then add_recvs round me bufID off count byteCount ts' else
      do x <- add_action round (RBufRecv bufID off count t);
      do r <- add_recvs round me bufID (u32 (off + byteCount)) count byteCount ts';
      let '(acts, offs, e) := r in Ok (x :: acts, off :: offs, e)
  end.

Fixpoint add_local_reds (round : Z) (redOp : redop) (bufID : Z) (offs : list Z) (toBuf count : Z) : outcome (list action) :=
  match offs with
  | [] => Ok []
  | o :: offs' =>
      do x <- add_action round (RBufLocalReduce redOp bufID o toBuf count);
      do r <- add_local_reds round redOp bufID offs' toBuf count; Ok (x :: r)
  end.

(* the part for a process which does the reduction: 2094-2148, 2215-2280. Result: actions and
   bufReserveCount *)
Definition reduce_here (cx : actx) (nres round : Z) (inG : list Z) (fromBuf toBuf count : Z) (redOp : redop) : outcome (list action * Z) :=
  let me := cx_me cx in
  let inputFromMe := existsb (fun x => x =? me) inG in
  let inCount := Z.of_nat (length inG) in
  let byteCount := u32 (count * cx_es cx) in
  let withoutMe := if inputFromMe then inCount - 1 else inCount in
  let bufSize := u32 (withoutMe * byteCount) in
  let '(res, bufID) := add_reserve bufSize nres in
  let '(res, bufID, nres') := if bufSize >? 0 then ([res], bufID, nres + 1) else ([], -1, nres) in
  cassert (inCount <=? 32) (
  do x <- add_recvs (3 * round) me bufID 0 count byteCount inG;
  let '(recvs, offs, off) := x in
  let bufOff := if inputFromMe then 0 :: offs else offs in
  cassert (Z.of_nat (length bufOff) =? inCount) (
  cassert (off =? bufSize) (
  do acts <-
    match bufOff with
    | [] => do x <- add_action (3 * round + 1) (BufInit redOp toBuf count); Ok [x]
    | o0 :: os =>
        do c <- (if inputFromMe then
                   if negb (fromBuf =? toBuf) then do x <- add_action (3 * round + 1) (BufCopy fromBuf toBuf count); Ok [x] else Ok []
                 else do x <- add_action (3 * round + 1) (RBufCopy bufID o0 toBuf count); Ok [x]);
        do l <- add_local_reds (3 * round + 1) redOp bufID os toBuf count;
        Ok (c ++ l)
    end;
  Ok (res ++ recvs ++ acts, nres')))).

(* action.c:2067-2179 laik_aseq_addReduce3Rounds *)
Definition add_reduce3 (cx : actx) (nres round inG outG fromBuf toBuf count : Z) (redOp : redop) : outcome (list action * Z) :=
  let me := cx_me cx in
  do outs <- cx_group cx outG;
  do reduceTask <- match outs with [] => Abort | t :: _ => Ok t end;   (* assert in taskInGroup *)
  do ins <- cx_group cx inG;
  if negb (me =? reduceTask) then
    do c1 <- (if existsb (fun x => x =? me) ins then do x <- add_action (3 * round) (BufSend fromBuf count reduceTask); Ok [x] else Ok []);
    do c2 <- (if existsb (fun x => x =? me) outs then do x <- add_action (3 * round + 2) (BufRecv toBuf count reduceTask); Ok [x] else Ok []);
    Ok (c1 ++ c2, nres)
  else
    do x <- reduce_here cx nres round ins fromBuf toBuf count redOp;
    do s <- add_sends (3 * round + 2) me toBuf count outs;
    Ok (fst x ++ s, snd x).

(* action.c:2185-2282 laik_aseq_addReduce2Rounds *)
Definition add_reduce2 (cx : actx) (nres round inG outG fromBuf toBuf count : Z) (redOp : redop) : outcome (list action * Z) :=
  let me := cx_me cx in
  do ins <- cx_group cx inG;
  do outs <- cx_group cx outG;
  do s <- (if existsb (fun x => x =? me) ins then add_sends (3 * round) me fromBuf count outs else Ok []);
  if negb (existsb (fun x => x =? me) outs) then Ok (s, nres) else
  do x <- reduce_here cx nres round ins fromBuf toBuf count redOp;
  Ok (s ++ fst x, snd x).

(* action.c:2310-2325: which variant; outCount is taken from the input group, too *)
Definition split_one (cx : actx) (nres : Z) (a : action) : outcome (list action * Z) :=
  match a_par a with
  | GroupReduce i o f t c r =>
      do ins <- cx_group cx i;
      let inCount := Z.of_nat (length ins) in
      if inCount * inCount >? 4 * (inCount + inCount)
      then add_reduce3 cx nres (a_round a) i o f t c r
      else add_reduce2 cx nres (a_round a) i o f t c r
  | _ => do x <- aseq_add a (3 * a_round a + 1); Ok (x, nres)
  end.
Fixpoint split_loop (cx : actx) (nres : Z) (l : list action) : outcome (list action * Z) :=
  match l with
  | [] => Ok ([], nres)
  | a :: l' =>
      do x <- split_one cx nres a;
      do y <- split_loop cx (snd x) l';
      Ok (fst x ++ fst y, snd y)
  end.
Definition is_groupReduce (a : action) : bool := match a_par a with GroupReduce _ _ _ _ _ _ => true | _ => false end.

(* action.c:2287-2332 laik_aseq_splitReduce *)
Definition split_reduce (cx : actx) (s : aseq) : outcome (bool * aseq) :=
  if negb (existsb is_groupReduce (as_acts s)) then Ok (false, s) else
  do x <- split_loop cx (as_nres s) (as_acts s);
  Ok (true, mkSeq (fst x) (snd x) (as_bufs s) (as_nce s)).

(* action.c:2335-2382 laik_aseq_replaceWithAllReduce *)
Definition allred_one (cx : actx) (a : action) : outcome (list action * bool) :=
  match a_par a with
  | GroupReduce i o f t c r =>
      let keep := do x <- aseq_add a (-1); Ok (x, false) in
      if i =? -1 then
        if o =? -1 then cassert (c >? 0) (do x <- add_action (a_round a) (Reduce f t c (-1) r); Ok ([x], true)) else
        do outs <- cx_group cx o;
        match outs with
        | [root] => cassert (c >? 0) (do x <- add_action (a_round a) (Reduce f t c root r); Ok ([x], true))
        | _ => keep
        end
      else keep
  | _ => do x <- aseq_add a (-1); Ok (x, false)
  end.
Fixpoint allred_loop (cx : actx) (l : list action) : outcome (list action * bool) :=
  match l with
  | [] => Ok ([], false)
  | a :: l' =>
      do x <- allred_one cx a;
      do y <- allred_loop cx l';
      Ok (fst x ++ fst y, snd x || snd y)
  end.
Definition replace_allreduce (cx : actx) (s : aseq) : outcome (bool * aseq) :=
  do x <- allred_loop cx (as_acts s);
  if snd x then Ok (true, mkSeq (fst x) (as_nres s) (as_bufs s) (as_nce s)) else Ok (false, s).

(* ---- packing ---- *)

(* the mapping with number k; None: no list *)
Definition get_amap (l : option (list amap)) (k : Z) : outcome (option amap) :=
  match l with
  | None => Ok None
  | Some ms => cassert (k <? Z.of_nat (length ms)) (do x <- aread ms k; Ok (Some x))
  end.

(* action.c:1875-2059 laik_aseq_flattenPacking, one action. The offset of a mapping without
   memory is computed as unsigned int: (unsigned int) from * elemsize. *)
Definition flatten_one (cx : actx) (nres : Z) (a : action) : outcome (list action * Z * bool) :=
  let r := a_round a in let es := cx_es cx in
  let keep := do x <- aseq_add a (3 * r + 1); Ok (x, nres, false) in
  match a_par a with
  | MapPackAndSend k range cnt t =>
      do om <- get_amap (cx_from cx) k;
      let packed :=
        let '(res, id) := add_reserve (u32 (cnt * es)) nres in
        do c <- add_count cx range;
        do p <- add_action (3 * r) (match om with Some _ => PackToRBuf k range id 0 c | None => MapPackToRBuf k range id 0 c end);
        do s <- add_action (3 * r + 1) (RBufSend id 0 cnt t);
        Ok ([res; p; s], nres + 1, true) in
      match om, cx_dims cx with
      | Some m, 1%nat =>
          let from := i0 (b_from range) - am_from m in
          let to := i0 (b_to range) - am_from m in
          cassert (from >=? 0) (cassert (to >? from) (
          let c := u32 (to - from) in
          if negb (am_base m =? 0) then
            do x <- add_action (3 * r + 1) (BufSend (am_base m + from * es) c t); Ok ([x], nres, true)
          else cassert (from * es <? 2 ^ 32)
            (do x <- add_action (3 * r + 1) (MapSend k (u32 (u32 from * es)) c t); Ok ([x], nres, true))))
      | _, _ => packed
      end
  | MapRecvAndUnpack k range cnt f =>
      do om <- get_amap (cx_to cx) k;
      let packed :=
        let '(res, id) := add_reserve (u32 (cnt * es)) nres in
        do s <- add_action (3 * r + 1) (RBufRecv id 0 cnt f);
        do c <- add_count cx range;
        do p <- add_action (3 * r + 2) (match om with Some _ => UnpackFromRBuf id 0 k range c | None => MapUnpackFromRBuf id 0 k range c end);
        Ok ([res; s; p], nres + 1, true) in
      match om, cx_dims cx with
      | Some m, 1%nat =>
          let from := i0 (b_from range) - am_from m in
          let to := i0 (b_to range) - am_from m in
          cassert (from >=? 0) (cassert (to >? from) (
          let c := u32 (to - from) in
          if negb (am_base m =? 0) then
            do x <- add_action (3 * r + 1) (BufRecv (am_base m + from * es) c f); Ok ([x], nres, true)
          else cassert (from * es <? 2 ^ 32)
            (do x <- add_action (3 * r + 1) (MapRecv k (u32 (u32 from * es)) c f); Ok ([x], nres, true))))
      | _, _ => packed
      end
  | MapGroupReduce i o fk tk range cnt ro =>
      match cx_dims cx with
      | 1%nat =>
          do ii <- in_group cx i;
          do fm <- (if ii then match cx_from cx with None => Abort | l => do om <- get_amap l fk;
                      match om with Some m => cassert (negb (am_base m =? 0)) (Ok (Some m)) | None => Abort end end else Ok None);
          do oo <- in_group cx o;
          do tm <- (if oo then match cx_to cx with None => Abort | l => do om <- get_amap l tk;
                      match om with Some m => cassert (negb (am_base m =? 0)) (Ok (Some m)) | None => Abort end end else Ok None);
          let from := i0 (b_from range) in let to := i0 (b_to range) in
          cassert (to >? from) (
          let c := u32 (to - from) in
          do fb <- match fm with None => Ok 0 | Some m => cassert (from >=? am_from m) (Ok (am_base m + (from - am_from m) * es)) end;
          do tb <- match tm with None => Ok 0 | Some m => cassert (from >=? am_from m) (Ok (am_base m + (from - am_from m) * es)) end;
          cassert (c >? 0) (do x <- add_action (3 * r + 1) (GroupReduce i o fb tb c ro); Ok ([x], nres, true)))
      | _ => keep
      end
  | _ => keep
  end.
Fixpoint flatten_loop (cx : actx) (nres : Z) (l : list action) : outcome (list action * Z * bool) :=
  match l with
  | [] => Ok ([], nres, false)
  | a :: l' =>
      do x <- flatten_one cx nres a;
      let '(xs, n1, c1) := x in
      do y <- flatten_loop cx n1 l';
      let '(ys, n2, c2) := y in
      Ok (xs ++ ys, n2, c1 || c2)
  end.
Definition flatten (cx : actx) (s : aseq) : outcome (bool * aseq) :=
  do x <- flatten_loop cx (as_nres s) (as_acts s);
  let '(acts, n, ch) := x in
  if ch then Ok (true, mkSeq acts n (as_bufs s) (as_nce s)) else Ok (false, s).

(* ---- asynchronous messages ---- *)

Definition is_bufmsg (a : action) : bool :=
  match a_par a with BufSend _ _ _ | BufRecv _ _ _ => true | _ => false end.

(* backend-mpi.c:241-268 *)
Fixpoint async_loop (maxround req : Z) (l : list action) : outcome (list action * Z) :=
  match l with
  | [] => Ok ([], req)
  | a :: l' =>
      match a_par a with
      | BufSend b c t =>
          do x <- add_action (a_round a + 1) (MpiIsend b c t req);
          do w <- add_action (maxround + 2) (MpiWait req);
          do r <- async_loop maxround (req + 1) l'; Ok (x :: w :: fst r, snd r)
      | BufRecv b c f =>
          do x <- add_action 0 (MpiIrecv b c f req);
          do w <- add_action (a_round a + 1) (MpiWait req);
          do r <- async_loop maxround (req + 1) l'; Ok (x :: w :: fst r, snd r)
      | _ =>
          do x <- aseq_add a (a_round a + 1);
          do r <- async_loop maxround req l'; Ok (x ++ fst r, snd r)
      end
  end.

(* backend-mpi.c:217-275 laik_mpi_asyncSendRecv *)
Definition async (l : list action) : outcome (bool * list action) :=
  let count := Z.of_nat (length (filter is_bufmsg l)) in
  let maxround := fold_left (fun m a => if a_round a >? m then a_round a else m) l 0 in
  if count =? 0 then Ok (false, l) else
  do q <- add_action 0 (MpiReq count);
  do x <- async_loop maxround 0 l;
  cassert (count =? snd x) (Ok (true, q :: fst x)).
