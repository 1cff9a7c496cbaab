(* Model of how the communication of a transition becomes an action sequence:
   src/action.c:248-261, 476-491, 572-587, 653-671, 791-845, 2384-2430, src/data.c:757-777
   (createTransASeq), and of the part of src/backend-mpi.c:992-1056 which makes it executable. *)
From Coq Require Import ZArith List Bool.
From Verif Require Import Base Model_Space Model_RangeList Model_Mem Model_Layout Model_Partitioner Model_Transition Model_Data
  Model_Action Model_ActionTrans.
Import ListNotations.
Open Scope Z_scope.

Fixpoint omapm {A B} (f : A -> outcome B) (l : list A) : outcome (list B) :=
  match l with
  | [] => Ok []
  | x :: r => do y <- f x; do q <- omapm f r; Ok (y :: q)
  end.

(* action.c:653-671, 791-807 laik_aseq_addReds: one action for each reduction *)
Definition add_red (cx : actx) (round : Z) (x : redTOp) : outcome action :=
  do c <- add_count cx (rd_box x);
  add_action round (MapGroupReduce (rd_in x) (rd_out x) (rd_inMapNo x) (rd_outMapNo x) (rd_box x) c (rd_redOp x)).
(* action.c:476-491, 829-843 laik_aseq_addSends *)
Definition add_send (cx : actx) (round : Z) (x : sendTOp) : outcome action :=
  do c <- add_count cx (sd_box x);
  add_action round (MapPackAndSend (sd_mapNo x) (sd_box x) c (sd_to x)).
(* action.c:572-587, 811-825 laik_aseq_addRecvs *)
Definition add_recv (cx : actx) (round : Z) (x : recvTOp) : outcome action :=
  do c <- add_count cx (rc_box x);
  add_action round (MapRecvAndUnpack (rc_mapNo x) (rc_box x) c (rc_from x)).

(* action.c:2384-2430 laik_aseq_splitTransitionExecs for the sequence made by createTransASeq
   (data.c:760-776): one action TExec in round 0 *)
Definition split_texec (cx : actx) (o : tops) : outcome (list action) :=
  do r <- omapm (add_red cx 0) (tp_red o);
  do s <- omapm (add_send cx 0) (tp_send o);
  do v <- omapm (add_recv cx 0) (tp_recv o);
  Ok (r ++ s ++ v).

(* the mappings as seen by the transformations of action sequences: base address and begin of
   the required range (1d) *)
Definition amap_of (m : mapping) : amap := mkAMap (m_base m) (i0 (b_from (r_box (m_req m)))).

(* data.c:760-776 createTransASeq: the context of the sequence, process [me] of [gsize] *)
Definition trans_ctx (d : dcont) (gsize me : Z) (o : tops) (fl : option mlist) (tl : mlist) : actx :=
  mkCtx (dc_es d) (sp_dims (dc_space d)) gsize me (tp_groups o)
    (match fl with Some f => Some (map amap_of (ml_maps f)) | None => None end) (Some (map amap_of (ml_maps tl))).

(* The transformations of backend-mpi.c:992-1056 (laik_mpi_prepare) which turn the transition
   into actions on memory: splitTransitionExecs, flattenPacking, splitReduce. Not included here:
   the detection of all-reduce (as with LAIK_MPI_REDUCE=0), combineActions, allocBuffer, sorting
   and asynchronous messages: these replace a sequence by another one with the same effect
   (C27, C28, C29, C33). An empty sequence is left as it is. *)
Definition plan (cx : actx) (o : tops) : outcome aseq :=
  do a <- split_texec cx o;
  do f <- flatten cx (mkSeq a 0 [] 0);
  do s <- split_reduce cx (snd f);
  Ok (snd s).

(* data.c:779-826 doTransition up to the execution of the action sequence, by process [me] of
   [gsize]: reuse of memory, allocation, the sequence for the operations [o] (data.c:760-776,
   backend-mpi.c:992-1056). Result: new mappings, context, actions. *)
Definition switch_start (d : dcont) (gsize me : Z) (addr : Z -> Z) (o : tops) (fl : option mlist) (tl : mlist) : outcome (mlist * actx * list action) :=
  do r <- check_map_reuse (dc_es d) tl fl;
  do t <- allocate_mappings (dc_es d) addr (fst r);
  let cx := trans_ctx d gsize me o (snd r) t in
  do s <- plan cx o;
  Ok (t, cx, as_acts s).
