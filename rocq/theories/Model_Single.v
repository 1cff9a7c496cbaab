(* Model of the execution of transitions with the single-process backend (src/backend-single.c),
   as called by a switch (src/data.c, doTransition) *)
From Coq Require Import ZArith List Bool.
From Verif Require Import Base Model_Space Model_RangeList Model_Partitioner Model_Group Model_Transition.
Import ListNotations.
Open Scope Z_scope.

(* The mappings of a list as laik_single_exec uses them: for every mapping the values in memory
   from its base address on (None: base is 0). Simplified: a value is one element, the old and
   the new mappings are separate memory (if they were the same, memcpy from a memory block to
   itself would be undefined behaviour). *)
Definition smem := list (option (list Z)).

(* memcpy of [n] elements; reading or writing outside of a mapping is undefined behaviour *)
Definition copy_elems (n : Z) (src dst : list Z) : outcome (list Z) :=
  if (Z.of_nat (length src) <? n) || (Z.of_nat (length dst) <? n) then UB
  else Ok (firstn (Z.to_nat n) src ++ skipn (Z.to_nat n) dst).

(* backend-single.c:93-112: one reduction *)
Definition single_red (tr : trans) (src : option (list Z)) (dst : option (list Z)) (x : redTOp) : outcome (option (list Z)) :=
  cassert (Nat.eqb (sp_dims (tr_space tr)) 1) (
  let from := i0 (b_from (rd_box x)) in
  let to := i0 (b_to (rd_box x)) in
  match src with
  | None => Abort
  | Some s =>
    do m <- trans_isInGroup tr (rd_out x) (g_myid (tr_group tr));
    cassert m (
    match dst with
    | None => Abort
    | Some w => cassert (from <? to) (do w' <- copy_elems (to - from) s w; Ok (Some w'))
    end)
  end).

(* backend-single.c:70-118 laik_single_exec: the new contents of the mappings in [toList]. The
   action sequence is the one made by a switch (one action with one transition), so that the
   first two assertions hold; the space of the container is that of the transition. *)
Definition single_exec (tr : trans) (fromList toList : smem) : outcome smem :=
  let o := tr_ops tr in
  do toList' <-
    (match tp_red o with
     | [] => Ok toList
     | _ :: _ =>
       match fromList, toList with
       | [src], [dst] => do dst' <- ofold (fun d x => single_red tr src d x) (tp_red o) dst; Ok [dst']
       | _, _ => Abort
       end
     end);
  cassert (Nat.eqb (length (tp_recv o)) 0) (cassert (Nat.eqb (length (tp_send o)) 0) (Ok toList')).

(* data.c:832-845: the backend is called if there is something to send, receive or reduce *)
Definition needs_backend (o : tops) : bool :=
  negb (Nat.eqb (length (tp_send o) + length (tp_recv o) + length (tp_red o)) 0).
Definition backend_part (tr : trans) (fromList toList : smem) : outcome smem :=
  if needs_backend (tr_ops tr) then single_exec tr fromList toList else Ok toList.

(* laik_switchto_partitioning up to the local copies: transition (space.c:1548-1676) and backend.
   No transition: nothing to do (data.c:790-797) *)
Definition switch_backend (qb : list border -> list border) (sp : space) (f t : npart) (red : redop) (fromList toList : smem) : outcome smem :=
  do tr <- calc_transition qb sp (Some f) (Some t) DF_Preserve red;
  match tr with
  | None => Ok toList
  | Some tr => backend_part tr fromList toList
  end.
