(* Model of src/backend-mpi.c:992-1056 laik_mpi_prepare, for the action sequence of a transition. *)
From Coq Require Import ZArith List Bool.
From Verif Require Import Base Model_Space Model_RangeList Model_Mem Model_Layout Model_Partitioner Model_Transition Model_Data
  Model_Action Model_ActionTrans Model_Switch.
Import ListNotations.
Open Scope Z_scope.

(* the sequence with other actions, as done by laik_aseq_activateNewActions *)
Definition with_acts (s : aseq) (l : list action) : aseq := mkSeq l (as_nres s) (as_bufs s) (as_nce s).

(* the calls of qsort in the sorting functions: qr1, qr2 in laik_aseq_sort_rounds (compare with
   cmp_rounds), q2 in laik_aseq_sort_2phases (cmp2phase) *)
Record sorts := mkSorts { so_rounds1 : list aptr -> list aptr; so_2phases : list aptr -> list aptr; so_rounds2 : list aptr -> list aptr }.

(* backend-mpi.c:1011-1053: from flattenPacking on. [red], [asyn]: the options LAIK_MPI_REDUCE and
   LAIK_MPI_ASYNC; [b1], [b2], [b3]: the addresses of the buffers from the calls of malloc in the
   three calls of laik_aseq_allocBuffer. Each transformation returns a flag (changed), which is
   used for logging only. Not modelled: logging, statistics, freeTempSpace. *)
Definition mpi_passes (red asyn : bool) (q : sorts) (b1 b2 b3 : Z) (cx : actx) (s0 : aseq) : outcome aseq :=
  do s1 <- (if red then replace_allreduce cx s0 else Ok (false, s0));
  do s2 <- combine cx (snd s1);
  do s3 <- alloc_buffer cx b1 (snd s2);
  do s4 <- split_reduce cx (snd s3);
  do s5 <- alloc_buffer cx b2 (snd s4);
  do l6 <- sort_rounds (so_rounds1 q) (as_acts (snd s5));
  do s7 <- combine cx (with_acts (snd s5) (snd l6));
  do s8 <- alloc_buffer cx b3 (snd s7);
  do l9 <- sort_2phases (so_2phases q) (as_acts (snd s8));
  if asyn then
    do l10 <- async (snd l9);
    do l11 <- sort_rounds (so_rounds2 q) (snd l10);
    Ok (with_acts (snd s8) (snd l11))
  else Ok (with_acts (snd s8) (snd l9)).

(* backend-mpi.c:992-1056 for the sequence made by createTransASeq (data.c:760-776) *)
Definition mpi_prepare (red asyn : bool) (q : sorts) (b1 b2 b3 : Z) (cx : actx) (o : tops) : outcome aseq :=
  do a <- split_texec cx o;
  match a with
  | [] => Ok (mkSeq [] 0 [] 0)
  | _ =>
      do f <- flatten cx (mkSeq a 0 [] 0);
      mpi_passes red asyn q b1 b2 b3 cx (snd f)
  end.

(* data.c:779-826 doTransition up to the execution of the action sequence, with the MPI backend:
   as switch_start, with all transformations *)
Definition mpi_switch_start (red asyn : bool) (q : sorts) (b1 b2 b3 : Z) (d : dcont) (gsize me : Z) (addr : Z -> Z) (o : tops)
    (fl : option mlist) (tl : mlist) : outcome (mlist * actx * aseq) :=
  do r <- check_map_reuse (dc_es d) tl fl;
  do t <- allocate_mappings (dc_es d) addr (fst r);
  let cx := trans_ctx d gsize me o (snd r) t in
  do s <- mpi_prepare red asyn q b1 b2 b3 cx o;
  Ok (t, cx, s).
